(** Facts about the decoding of YAML documents. *)
From Coq Require Import Permutation.
From Verif Require Import Base Domain Lexer Yaml Service YamlDoc SpecMisc SpecYaml BaseFacts MiscFacts.

Lemma forall2_impl {A B} (R S : A -> B -> Prop) : (forall x y, R x y -> S x y) -> forall l l', Forall2 R l l' -> Forall2 S l l'.
Proof. intros H. induction 1; constructor; auto. Qed.

(** ** Keys *)

Definition key_id (n : ynode) : nat * string :=
  match n with YScalar _ t => (0, t) | YMap _ => (1, "") | YSeq _ => (2, "") end.

Lemma same_key_id a b : same_key a b = true <-> key_id a = key_id b.
Proof.
  destruct a, b; cbn; rewrite ?String.eqb_eq; split; intros H; try discriminate; try reflexivity; try congruence.
Qed.

Lemma unique_nodup l : unique_keys l = true <-> NoDup (map (fun x => key_id (fst x)) l).
Proof.
  induction l as [| x l IH]; cbn; [split; [constructor | reflexivity] |]. rewrite andb_true_iff, IH, negb_true_iff. split.
  - intros [H1 H2]. constructor; [| exact H2]. intros Hin. apply in_map_iff in Hin as (y & Hk & Hy).
    assert (existsb (fun y => same_key (fst x) (fst y)) l = true) by (apply existsb_exists; exists y; split; [exact Hy | apply same_key_id; auto]). congruence.
  - intros H. inversion H as [| ? ? Hn Hnd]; subst. split; [| exact Hnd]. destruct (existsb _ l) eqn:He; [| reflexivity].
    apply existsb_exists in He as (y & Hy & Hk). apply same_key_id in Hk. contradiction Hn. apply in_map_iff. exists y. auto.
Qed.

Lemma unique_value l b b' k v v' : unique_keys l = true -> In (YScalar b k, v) l -> In (YScalar b' k, v') l -> (b, v) = (b', v').
Proof.
  intros Hu. apply unique_nodup in Hu. induction l as [| x l IH]; [intros [] |]. cbn in Hu. inversion Hu as [| ? ? Hn Hnd]; subst.
  assert (Hno : forall b v, In (YScalar b k, v) l -> key_id (fst x) <> (0, k)).
  { intros b0 v0 Hin Hk. apply Hn. rewrite Hk. apply in_map_iff. exists (YScalar b0 k, v0). auto. }
  intros [H1 | H1] [H2 | H2]; [congruence | | | auto].
  - exfalso. apply (Hno _ _ H2). rewrite H1. reflexivity.
  - exfalso. apply (Hno _ _ H1). rewrite H2. reflexivity.
Qed.

(** ** Structs *)

Section Struct.
  Context {A : Type}.
  Variable set : string -> ynode -> A -> option A.

  Lemma fold_none l : fold_left (struct_step set) l None = None.
  Proof. induction l; auto. Qed.

  Lemma fold_cons x l a a' : fold_left (struct_step set) (x :: l) (Some a) = Some a' ->
    (exists t, fst x = YScalar true t /\ fold_left (struct_step set) l (Some a) = Some a') \/
    (exists k a1, fst x = YScalar false k /\ set k (snd x) a = Some a1 /\ fold_left (struct_step set) l (Some a1) = Some a').
  Proof.
    cbn [fold_left]. unfold struct_step at 2. destruct x as [[[|] k | l' | l'] v]; cbn [fst snd decode_string]; intros H; try (rewrite fold_none in H; discriminate).
    - left. eauto.
    - right. destruct (set k v a) as [a1 |] eqn:Hs; [eauto |]. rewrite fold_none in H. discriminate.
  Qed.

  Lemma fold_keys : forall l a a', fold_left (struct_step set) l (Some a) = Some a' ->
    (forall x, In x l -> exists b t, fst x = YScalar b t) /\
    (forall k v, In (YScalar false k, v) l -> exists b b', set k v b = Some b').
  Proof.
    induction l as [| x l IH]; intros a a' H; [split; [intros x [] | intros k v []] |].
    apply fold_cons in H as [(t & Hx & H) | (k & a1 & Hx & Hs & H)]; apply IH in H as [H1 H2].
    - split; [intros y [<- | Hy]; eauto |]. intros k v [-> | Hy]; [discriminate | eauto].
    - split; [intros y [<- | Hy]; eauto |]. intros k' v [-> | Hy]; [| eauto]. cbn in *. injection Hx as <-. eauto.
  Qed.

  Lemma fold_field {B} (get : A -> B) f (dec : ynode -> B -> option B) :
    (forall v a a', set f v a = Some a' -> dec v (get a) = Some (get a')) ->
    (forall k v a a', k <> f -> set k v a = Some a' -> get a' = get a) ->
    forall l a a', unique_keys l = true -> fold_left (struct_step set) l (Some a) = Some a' ->
    (exists v, In (YScalar false f, v) l /\ dec v (get a) = Some (get a')) \/
    ((forall v, ~ In (YScalar false f, v) l) /\ get a' = get a).
  Proof.
    intros Hf Ho l. induction l as [| x l IH]; intros a a' Hu H; [cbn in H; injection H as <-; right; split; [intros v [] | reflexivity] |].
    pose proof Hu as Hu'. cbn in Hu'. apply andb_true_iff in Hu' as [_ Hu'].
    apply fold_cons in H as [(t & Hx & H) | (k & a1 & Hx & Hs & H)].
    - destruct (IH _ _ Hu' H) as [(v & Hv & Hd) | [Hn Hg]]; [left; exists v; split; [right; exact Hv | exact Hd] |].
      right. split; [| exact Hg]. intros v [-> | Hv]; [discriminate | exact (Hn v Hv)].
    - destruct x as [kx v]. cbn in Hx. subst kx. cbn [snd] in Hs. destruct (string_dec k f) as [-> | Hne].
      + left. exists v. split; [left; reflexivity |]. destruct (IH _ _ Hu' H) as [(w & Hw & _) | [_ Hg]].
        * exfalso. apply unique_nodup in Hu. cbn in Hu. inversion Hu as [| ? ? Hn _]; subst. apply Hn. apply in_map_iff. exists (YScalar false f, w). auto.
        * rewrite Hg. apply Hf. exact Hs.
      + rewrite <- (Ho _ _ _ _ Hne Hs). destruct (IH _ _ Hu' H) as [(w & Hw & Hd) | [Hn Hg]]; [left; exists w; split; [right; exact Hw | exact Hd] |].
        right. split; [| exact Hg]. intros w [[= Hk _] | Hw]; [contradiction | exact (Hn w Hw)].
  Qed.

  (** Order. *)
  Hypothesis Hcomm : forall k k' v v' a, k <> k' ->
    match set k v a with Some b => set k' v' b | None => None end = match set k' v' a with Some b => set k v b | None => None end.

  Lemma step_comm x y acc : key_id (fst x) <> key_id (fst y) ->
    struct_step set (struct_step set acc x) y = struct_step set (struct_step set acc y) x.
  Proof.
    destruct acc as [a |]; [| reflexivity]. destruct x as [kx vx], y as [ky vy]. unfold struct_step. cbn [fst snd]. intros Hk.
    destruct kx as [[|] k | |], ky as [[|] k' | |]; cbn [decode_string]; try reflexivity; try (destruct (set _ _ a); reflexivity).
    assert (k <> k') by (intros ->; apply Hk; reflexivity). specialize (Hcomm k k' vx vy a H).
    destruct (set k vx a), (set k' vy a); exact Hcomm.
  Qed.

  Lemma fold_perm l m : Permutation l m -> NoDup (map (fun x => key_id (fst x)) l) ->
    forall acc, fold_left (struct_step set) l acc = fold_left (struct_step set) m acc.
  Proof.
    induction 1 as [| x l m _ IH | x y l | l m n H1 IH1 _ IH2]; intros Hu acc.
    - reflexivity.
    - cbn. apply IH. inversion Hu; assumption.
    - cbn. f_equal. apply step_comm. inversion Hu as [| ? ? Hn _]; subst. intros Hk. apply Hn. left. symmetry. exact Hk.
    - rewrite IH1 by exact Hu. apply IH2. eapply Permutation_NoDup; [apply Permutation_map; exact H1 | exact Hu].
  Qed.

  Lemma fold_same : forall m l', Forall2 (fun x y => fst x = fst y /\ forall k a, set k (snd x) a = set k (snd y) a) m l' ->
    forall acc, fold_left (struct_step set) m acc = fold_left (struct_step set) l' acc.
  Proof.
    induction 1 as [| [kx vx] [ky vy] m l' [Hk Hv] _ IH]; intros acc; [reflexivity |]. cbn. cbn in Hk. subst ky. rewrite IH. f_equal.
    unfold struct_step. cbn [fst snd] in *. destruct acc as [a |]; [| reflexivity]. destruct (decode_string kx) as [[k |] |]; auto.
  Qed.

  Lemma unique_same {R} : forall (m l' : list (ynode * ynode)), Forall2 (fun x y => fst x = fst y /\ R (snd x) (snd y)) m l' ->
    map (fun x => key_id (fst x)) m = map (fun x => key_id (fst x)) l'.
  Proof. induction 1 as [| x y m l' [Hk _] _ IH]; [reflexivity |]. cbn. rewrite Hk, IH. reflexivity. Qed.
End Struct.

Lemma unique_reordered (R : ynode -> ynode -> Prop) l m l' : Permutation l m -> Forall2 (fun x y => fst x = fst y /\ R (snd x) (snd y)) m l' ->
  unique_keys l = unique_keys l'.
Proof.
  intros Hp Hf. pose proof (unique_same m l' Hf) as He.
  assert (Hx : NoDup (map (fun x => key_id (fst x)) l) <-> NoDup (map (fun x => key_id (fst x)) l')).
  { rewrite <- He. split; apply Permutation_NoDup, Permutation_map; [exact Hp | symmetry; exact Hp]. }
  rewrite <- !unique_nodup in Hx. destruct (unique_keys l), (unique_keys l'); tauto || (destruct Hx; symmetry; auto).
Qed.

Lemma struct_reordered {A} (set : string -> ynode -> A -> option A) zero l m l' :
  (forall k k' v v' a, k <> k' ->
    match set k v a with Some b => set k' v' b | None => None end = match set k' v' a with Some b => set k v b | None => None end) ->
  (forall k v v' a, reordered v v' -> set k v a = set k v' a) ->
  Permutation l m -> Forall2 (fun x y => fst x = fst y /\ reordered (snd x) (snd y)) m l' ->
  decode_struct set zero l = decode_struct set zero l'.
Proof.
  intros Hc Hs Hp Hf. unfold decode_struct. rewrite (unique_reordered reordered l m l' Hp Hf). destruct (unique_keys l') eqn:Hu; [| reflexivity].
  rewrite (fold_perm set Hc l m Hp).
  - apply fold_same. revert Hf. apply forall2_impl. intros x y [Hk Hv]. auto.
  - apply unique_nodup. rewrite (unique_reordered reordered l m l' Hp Hf). exact Hu.
Qed.

(** ** Maps *)

Lemma entries_in {A} (dec : ynode -> option A) : forall l m, decode_entries dec l = Some m ->
  (forall x, In x l -> exists b t, fst x = YScalar b t) /\
  (forall k a, In (k, a) m -> exists v, In (YScalar false k, v) l /\ dec v = Some a) /\
  (forall k v, In (YScalar false k, v) l -> exists a, In (k, a) m /\ dec v = Some a).
Proof.
  induction l as [| [kx v] l IH]; intros m H; cbn in H; [injection H as <-; repeat split; intros; contradiction |].
  destruct (decode_string kx) as [[k |] |] eqn:Hk; try discriminate.
  - destruct kx as [[|] t | |]; try discriminate. injection Hk as ->.
    destruct (dec v) as [a |] eqn:Hd; [| discriminate]. destruct (decode_entries dec l) as [m' |]; [| discriminate]. injection H as <-.
    destruct (IH m' eq_refl) as (H1 & H2 & H3). repeat split.
    + intros x [<- | Hx]; [cbn; eauto | auto].
    + intros k' a' [[= <- <-] | Hin]; [exists v; split; [left; reflexivity | exact Hd] |]. destruct (H2 _ _ Hin) as (w & Hw & Hdw). exists w. split; [right; exact Hw | exact Hdw].
    + intros k' w [[= <- <-] | Hin]; [exists a; split; [left; reflexivity | exact Hd] |]. destruct (H3 _ _ Hin) as (b & Hb & Hdb). exists b. split; [right; exact Hb | exact Hdb].
  - destruct kx as [[|] t | |]; try discriminate. destruct (IH m H) as (H1 & H2 & H3). repeat split.
    + intros x [<- | Hx]; [cbn; eauto | auto].
    + intros k' a' Hin. destruct (H2 _ _ Hin) as (w & Hw & Hdw). exists w. split; [right; exact Hw | exact Hdw].
    + intros k' w [[=] | Hin]. auto.
Qed.

Lemma entries_nodup {A} (dec : ynode -> option A) : forall l m, unique_keys l = true -> decode_entries dec l = Some m -> NoDup (map fst m).
Proof.
  induction l as [| [kx v] l IH]; intros m Hu H; cbn in H; [injection H as <-; constructor |].
  pose proof Hu as Hu'. cbn in Hu'. apply andb_true_iff in Hu' as [_ Hu'].
  destruct (decode_string kx) as [[k |] |] eqn:Hk; try discriminate; [| auto].
  destruct (dec v); [| discriminate]. destruct (decode_entries dec l) as [m' |] eqn:Hm; [| discriminate]. injection H as <-. cbn. constructor; [| auto].
  intros Hin. apply in_map_iff in Hin as ([k' a'] & Hq & Hin). cbn in Hq. subst k'. destruct (entries_in dec l m' Hm) as (_ & H2 & _).
  destruct (H2 _ _ Hin) as (w & Hw & _). destruct kx as [[|] t | |]; try discriminate. injection Hk as ->.
  apply unique_nodup in Hu. cbn in Hu. inversion Hu as [| ? ? Hn _]; subst. apply Hn. apply in_map_iff. exists (YScalar false k, w). auto.
Qed.

Lemma map_cases {A} (dec : ynode -> option A) n m : decode_map dec n = Some m ->
  (nothing n /\ m = []) \/
  exists l, n = YMap l /\ unique_keys l = true /\ (forall x, In x l -> exists b t, fst x = YScalar b t) /\ NoDup (map fst m) /\
    (forall k a, In (k, a) m -> exists v, In (YScalar false k, v) l /\ dec v = Some a) /\
    (forall k v, In (YScalar false k, v) l -> exists a, In (k, a) m /\ dec v = Some a).
Proof.
  destruct n as [[|] t | l | l]; cbn [decode_map]; intros H; try discriminate.
  - left. injection H as <-. split; [exists t; reflexivity | reflexivity].
  - right. exists l. destruct (unique_keys l) eqn:Hu; [| discriminate]. destruct (decode_entries dec l) as [m' |] eqn:Hm; [| discriminate]. injection H as <-.
    destruct (entries_in dec l m' Hm) as (H1 & H2 & H3). repeat split; auto.
    + eapply Permutation_NoDup; [apply Permutation_map; symmetry; apply sort_perm |]. eapply entries_nodup; eauto.
    + intros k a Hin. apply H2. apply (proj1 (sort_in _ _)). exact Hin.
    + intros k v Hin. destruct (H3 k v Hin) as (a & Ha & Hd). exists a. split; [apply (proj2 (sort_in _ _)); exact Ha | exact Hd].
Qed.

Lemma entries_perm {A} (dec : ynode -> option A) l m : Permutation l m ->
  match decode_entries dec l, decode_entries dec m with
  | Some a, Some b => Permutation a b
  | None, None => True
  | _, _ => False
  end.
Proof.
  induction 1 as [| x l m _ IH | x y l | l m n _ IH1 _ IH2].
  - constructor.
  - cbn. destruct (decode_string (fst x)) as [[k |] |]; auto. destruct (dec (snd x)), (decode_entries dec l), (decode_entries dec m); auto.
  - cbn. destruct (decode_string (fst x)) as [[k |] |], (decode_string (fst y)) as [[k' |] |]; auto;
      try destruct (dec (snd x)); try destruct (dec (snd y)); destruct (decode_entries dec l); auto using Permutation_refl. constructor.
  - destruct (decode_entries dec l), (decode_entries dec m), (decode_entries dec n); try contradiction; eauto using Permutation_trans.
Qed.

Lemma entries_same {A} (dec : ynode -> option A) m l' : Forall2 (fun x y => fst x = fst y /\ dec (snd x) = dec (snd y)) m l' ->
  decode_entries dec m = decode_entries dec l'.
Proof. induction 1 as [| x y m l' [Hk Hv] _ IH]; [reflexivity |]. cbn. rewrite Hk, Hv, IH. reflexivity. Qed.

Lemma map_reordered {A} (dec : ynode -> option A) n n' : (forall v v', reordered v v' -> dec v = dec v') -> reordered n n' ->
  decode_map dec n = decode_map dec n'.
Proof.
  intros Hd H. destruct H as [b t | l l' _ | l m l' Hp Hf]; try reflexivity. cbn [decode_map].
  pose proof (unique_reordered reordered l m l' Hp Hf) as Hu. rewrite Hu. destruct (unique_keys l') eqn:Hul; [| reflexivity].
  rewrite <- (entries_same dec m l') by (revert Hf; apply forall2_impl; intros x y [Hk Hv]; auto).
  pose proof (entries_perm dec l m Hp) as He. destruct (decode_entries dec l) as [a |] eqn:Ha, (decode_entries dec m) as [b |]; try contradiction; [| reflexivity].
  cbn. f_equal. apply sort_invariant; [| exact He]. eapply entries_nodup; eauto.
Qed.

(** ** Paths *)

Lemma holds_key l k path w : unique_keys l = true -> forall v, In (YScalar false k, v) l -> holds (YMap l) (k :: path) w -> holds v path w.
Proof.
  intros Hu v Hv H. inversion H as [| ? ? v' ? ? Hin Hh]; subst. pose proof (unique_value l _ _ k v v' Hu Hv Hin) as He. injection He as ->. exact Hh.
Qed.

Lemma text_in l k v path s : unique_keys l = true -> In (YScalar false k, v) l -> text_at v path s -> text_at (YMap l) (k :: path) s.
Proof.
  intros Hu Hv [H | [-> H]]; [left; econstructor; eauto |]. right. split; [reflexivity |]. intros w Hw. apply H. eapply holds_key; eauto.
Qed.

Lemma texts_in l k v path s : unique_keys l = true -> In (YScalar false k, v) l -> texts_at v path s -> texts_at (YMap l) (k :: path) s.
Proof.
  intros Hu Hv [(l' & H & Hi) | [-> H]]; [left; exists l'; split; [econstructor; eauto | exact Hi] |]. right. split; [reflexivity |].
  intros w Hw. apply H. eapply holds_key; eauto.
Qed.

Lemma holds_out l k path w : (forall v, ~ In (YScalar false k, v) l) -> ~ holds (YMap l) (k :: path) w.
Proof. intros Hn H. inversion H; subst. eapply Hn; eauto. Qed.

Lemma holds_null n k path w : nothing n -> ~ holds n (k :: path) w.
Proof. intros (t & ->) H. inversion H. Qed.

Lemma text_none n path : (forall w, ~ holds n path w) -> text_at n path "".
Proof. intros H. right. split; [reflexivity |]. intros v Hv. destruct (H v Hv). Qed.

Lemma texts_none n path : (forall w, ~ holds n path w) -> texts_at n path [].
Proof. intros H. right. split; [reflexivity |]. intros v Hv. destruct (H v Hv). Qed.

Lemma text_value v s : set_string v "" = Some s -> text_at v [] s.
Proof.
  destruct v as [[|] t | |]; cbn; intros [= <-]; [| left; constructor]. right. split; [reflexivity |]. intros v H. inversion H; subst. exists t. reflexivity.
Qed.

Lemma strings_items : forall l ts, decode_strings l = Some ts -> items l ts.
Proof.
  induction l as [| n l IH]; intros ts H; cbn in H; [injection H as <-; constructor |].
  destruct n as [[|] t | |]; cbn in H; try discriminate; destruct (decode_strings l); try discriminate; injection H as <-; constructor; auto.
Qed.

Lemma texts_value v ts : decode_slice v = Some ts -> texts_at v [] ts.
Proof.
  destruct v as [[|] t | | l]; cbn [decode_slice]; intros H; try discriminate.
  - injection H as <-. right. split; [reflexivity |]. intros v Hv. inversion Hv; subst. exists t. reflexivity.
  - left. exists l. split; [constructor | apply strings_items; exact H].
Qed.

Lemma tidy_ok l : unique_keys l = true -> (forall x, In x l -> exists b t, fst x = YScalar b t) -> tidy (YMap l).
Proof.
  intros Hu H1 l' [= <-]. apply unique_nodup in Hu. induction l as [| [k v] l IH]; [exists []; split; [reflexivity | constructor] |].
  cbn in Hu. inversion Hu as [| ? ? Hn Hnd]; subst. destruct (IH Hnd) as (ks & Hk & Hd); [intros; apply H1; right; assumption |].
  destruct (H1 (k, v) (or_introl eq_refl)) as (b & t & Hq). cbn in Hq. subst k. exists ((b, t) :: ks). cbn. rewrite Hk. split; [reflexivity |]. constructor; [| exact Hd].
  intros Hin. apply Hn. cbn. clear -Hin Hk. revert ks Hk Hin. induction l as [| [k v] l IH]; intros [| [b' t'] ks] Hk Hin; try discriminate; [destruct Hin |].
  cbn in *. injection Hk as -> Hk. destruct Hin as [-> | Hin]; [left; reflexivity |]. right. eapply IH; eauto.
Qed.

(** ** Fields *)

Section Fields.
  Context {A : Type}.
  Variable set : string -> ynode -> A -> option A.
  Variable zero : A.

  Lemma struct_text (get : A -> string) f l a :
    (forall v a a', set f v a = Some a' -> set_string v (get a) = Some (get a')) ->
    (forall k v a a', k <> f -> set k v a = Some a' -> get a' = get a) -> get zero = "" ->
    decode_struct set zero l = Some a -> text_at (YMap l) [f] (get a).
  Proof.
    intros Hf Ho Hz H. unfold decode_struct in H. destruct (unique_keys l) eqn:Hu; [| discriminate].
    destruct (fold_field set get f set_string Hf Ho l zero a Hu H) as [(v & Hv & Hd) | [Hn Hg]].
    - rewrite Hz in Hd. eapply text_in; [exact Hu | exact Hv | apply text_value; exact Hd].
    - rewrite Hg, Hz. apply text_none. intros w. apply holds_out. exact Hn.
  Qed.

  Lemma struct_texts (get : A -> list string) f l a :
    (forall v a a', set f v a = Some a' -> decode_slice v = Some (get a')) ->
    (forall k v a a', k <> f -> set k v a = Some a' -> get a' = get a) -> get zero = [] ->
    decode_struct set zero l = Some a -> texts_at (YMap l) [f] (get a).
  Proof.
    intros Hf Ho Hz H. unfold decode_struct in H. destruct (unique_keys l) eqn:Hu; [| discriminate].
    destruct (fold_field set get f (fun v _ => decode_slice v) Hf Ho l zero a Hu H) as [(v & Hv & Hd) | [Hn Hg]].
    - eapply texts_in; [exact Hu | exact Hv | apply texts_value; exact Hd].
    - rewrite Hg, Hz. apply texts_none. intros w. apply holds_out. exact Hn.
  Qed.

  (** A field that is a map. *)
  Lemma struct_map {B} (get : A -> list (string * B)) f dec l a :
    (forall v a a', set f v a = Some a' -> decode_map dec v = Some (get a')) ->
    (forall k v a a', k <> f -> set k v a = Some a' -> get a' = get a) -> get zero = [] ->
    decode_struct set zero l = Some a ->
    NoDup (map fst (get a)) /\
    (forall k, In k (map fst (get a)) <-> exists v, holds (YMap l) [f; k] v) /\
    (forall k b, In (k, b) (get a) -> exists v, dec v = Some b /\ forall path,
       (forall s, text_at v path s -> text_at (YMap l) (f :: k :: path) s) /\
       (forall s, texts_at v path s -> texts_at (YMap l) (f :: k :: path) s) /\
       (forall w, holds (YMap l) (f :: k :: path) w <-> holds v path w)).
  Proof.
    intros Hf Ho Hz H. unfold decode_struct in H. destruct (unique_keys l) eqn:Hu; [| discriminate].
    destruct (fold_field set get f (fun v _ => decode_map dec v) Hf Ho l zero a Hu H) as [(v & Hv & Hd) | [Hn Hg]].
    - apply map_cases in Hd as [[Hnl Hg] | (l' & -> & Hu' & _ & Hnd & H1 & H2)].
      + rewrite Hg. split; [constructor |]. split; [| intros k b []]. intros k. split; [intros [] |]. intros (w & Hw).
        apply (holds_key l f [k] w Hu v Hv) in Hw. destruct (holds_null v k [] w Hnl Hw).
      + split; [exact Hnd |]. split.
        * intros k. split.
          -- intros Hin. apply in_map_iff in Hin as ([k' b] & Hq & Hin). cbn in Hq. subst k'. destruct (H1 _ _ Hin) as (w & Hw & _).
             exists w. econstructor; [exact Hv |]. econstructor; [exact Hw | constructor].
          -- intros (w & Hw). apply (holds_key l f [k] w Hu _ Hv) in Hw. inversion Hw as [| ? ? w' ? ? Hin _]; subst.
             destruct (H2 _ _ Hin) as (b & Hb & _). apply in_map_iff. exists (k, b). auto.
        * intros k b Hin. destruct (H1 _ _ Hin) as (w & Hw & Hdw). exists w. split; [exact Hdw |]. intros path. split; [| split].
          -- intros s Hs. eapply text_in; [exact Hu | exact Hv |]. eapply text_in; eauto.
          -- intros s Hs. eapply texts_in; [exact Hu | exact Hv |]. eapply texts_in; eauto.
          -- intros x. split.
             ++ intros Hx. apply (holds_key l f _ _ Hu _ Hv) in Hx. eapply holds_key; eauto.
             ++ intros Hx. econstructor; [exact Hv |]. econstructor; eauto.
    - rewrite Hg, Hz. split; [constructor |]. split; [| intros k b []]. intros k. split; [intros [] |]. intros (w & Hw). destruct (holds_out l f [k] w Hn Hw).
  Qed.

  Lemma struct_fields fields l a : (forall k v b b', set k v b = Some b' -> In k fields) -> decode_struct set zero l = Some a ->
    only_fields fields (YMap l).
  Proof.
    intros Hf H. unfold decode_struct in H. destruct (unique_keys l) eqn:Hu; [| discriminate].
    destruct (fold_keys set l zero a H) as [H1 H2]. right. exists l. split; [reflexivity |]. split.
    - apply tidy_ok; assumption.
    - intros k v Hin. destruct (H2 k v Hin) as (b & b' & Hs). eauto.
  Qed.
End Fields.

Lemma map_tidy {A} (dec : ynode -> option A) n m : decode_map dec n = Some m -> nothing n \/ exists l, n = YMap l /\ tidy n.
Proof.
  intros H. apply map_cases in H as [[Hn _] | (l & -> & Hu & H1 & _)]; [auto |]. right. exists l. split; [reflexivity |].
  apply tidy_ok; assumption.
Qed.

(** ** The three definitions *)

Ltac fields :=
  repeat match goal with
         | H : context [String.eqb ?k ?s] |- _ => destruct (String.eqb_spec k s); subst; try congruence
         | H : option_map _ ?x = Some _ |- _ => destruct x eqn:?; [cbn [option_map] in H; injection H as <- | discriminate H]
         end; cbn in *; try congruence; try discriminate; auto.

Lemma yrel_says v o : decode_yrel v = Some o ->
  text_at v ["doc"] (yl_doc (default_rel o)) /\ text_at v ["expr"] (yl_expr (default_rel o)) /\ texts_at v ["types"] (yl_types (default_rel o)) /\
  only_fields relation_fields v.
Proof.
  unfold decode_yrel, decode_pointer. destruct v as [[|] t | l | l]; intros H; try discriminate.
  - injection H as <-. cbn. assert (Hn : nothing (YScalar true t)) by (exists t; reflexivity).
    repeat split; [apply text_none; intros w; apply holds_null; exact Hn .. | apply texts_none; intros w; apply holds_null; exact Hn | left; exact Hn].
  - destruct (decode_struct set_yrel _ l) as [r |] eqn:Hr; [| discriminate]. injection H as <-. cbn [default_rel]. repeat split.
    + eapply struct_text with (get := yl_doc); [| | | exact Hr]; [| | reflexivity]; unfold set_yrel; intros; fields.
    + eapply struct_text with (get := yl_expr); [| | | exact Hr]; [| | reflexivity]; unfold set_yrel; intros; fields.
    + eapply struct_texts with (get := yl_types); [| | | exact Hr]; [| | reflexivity]; unfold set_yrel; intros; fields.
    + eapply struct_fields; [| exact Hr]. unfold set_yrel, relation_fields. intros. fields.
Qed.

Lemma yres_says v o : decode_yres v = Some o ->
  text_at v ["doc"] (yr_doc (default_res o)) /\ NoDup (map fst (yr_relations (default_res o))) /\
  (forall k, In k (map fst (yr_relations (default_res o))) <-> exists w, holds v ["relations"; k] w) /\
  (forall k b, In (k, b) (yr_relations (default_res o)) -> exists w, decode_yrel w = Some b /\ forall path,
     (forall s, text_at w path s -> text_at v ("relations" :: k :: path) s) /\
     (forall s, texts_at w path s -> texts_at v ("relations" :: k :: path) s) /\
     (forall x, holds v ("relations" :: k :: path) x <-> holds w path x)) /\
  only_fields resource_fields v.
Proof.
  unfold decode_yres, decode_pointer. destruct v as [[|] t | l | l]; intros H; try discriminate.
  - injection H as <-. cbn. assert (Hn : nothing (YScalar true t)) by (exists t; reflexivity). split; [apply text_none; intros w; apply holds_null; exact Hn |].
    split; [constructor |]. split; [| split; [intros k b [] | left; exact Hn]]. intros k. split; [intros [] |]. intros (w & Hw). destruct (holds_null _ _ _ _ Hn Hw).
  - destruct (decode_struct set_yres _ l) as [r |] eqn:Hr; [| discriminate]. injection H as <-. cbn [default_res]. split.
    { eapply struct_text with (get := yr_doc); [| | | exact Hr]; [| | reflexivity]; unfold set_yres; intros; fields. }
    destruct (struct_map set_yres (mkYRes "" []) yr_relations "relations" decode_yrel l r) as (H1 & H2 & H3); [| | reflexivity | exact Hr |].
    + unfold set_yres. intros. fields.
    + unfold set_yres. intros. fields.
    + repeat split; auto; try apply H2. eapply struct_fields; [| exact Hr]. unfold set_yres, resource_fields. intros. fields.
Qed.

Lemma ydef_says d rest y : decode_stream (d :: rest) = Some y ->
  (text_at d ["id"] (y_id y) /\ text_at d ["name"] (y_name y) /\ text_at d ["doc"] (y_doc y)) /\
  (NoDup (map fst (y_resources y)) /\
   (forall k, In k (map fst (y_resources y)) <-> exists w, holds d ["resources"; k] w) /\
   (forall k b, In (k, b) (y_resources y) -> exists w, decode_yres w = Some b /\ forall path,
      (forall s, text_at w path s -> text_at d ("resources" :: k :: path) s) /\
      (forall s, texts_at w path s -> texts_at d ("resources" :: k :: path) s) /\
      (forall x, holds d ("resources" :: k :: path) x <-> holds w path x))) /\
  (NoDup (map fst (y_attrs y)) /\
   (forall k, In k (map fst (y_attrs y)) <-> exists w, holds d ["attributes"; k] w) /\
   (forall k s, In (k, s) (y_attrs y) -> text_at d ["attributes"; k] s)) /\
  only_fields policy_fields d.
Proof.
  destruct d as [[|] t | l | l]; cbn [decode_stream]; intros H; try discriminate.
  - injection H as <-. assert (Hn : nothing (YScalar true t)) by (exists t; reflexivity). cbn.
    assert (Ht : forall k path, text_at (YScalar true t) (k :: path) "") by (intros; apply text_none; intros w; apply holds_null; exact Hn).
    split; [auto |].
    assert (Hh : forall k k', False <-> exists w, holds (YScalar true t) [k; k'] w) by (intros k k'; split; [intros [] | intros (w & Hw); destruct (holds_null _ _ _ _ Hn Hw)]).
    split; [split; [constructor | split; [intros; apply Hh | intros k b []]] |]. split; [split; [constructor | split; [intros; apply Hh | intros k b []]] |]. left. exact Hn.
  - split; [| split; [| split]].
    + repeat split.
      * eapply struct_text with (get := y_id); [| | | exact H]; [| | reflexivity]; unfold set_ydef; intros; fields.
      * eapply struct_text with (get := y_name); [| | | exact H]; [| | reflexivity]; unfold set_ydef; intros; fields.
      * eapply struct_text with (get := y_doc); [| | | exact H]; [| | reflexivity]; unfold set_ydef; intros; fields.
    + apply (struct_map set_ydef zero_ydef y_resources "resources" decode_yres l y); [| | reflexivity | exact H]; unfold set_ydef; intros; fields.
    + destruct (struct_map set_ydef zero_ydef y_attrs "attributes" (fun v => set_string v "") l y) as (H1 & H2 & H3); [| | reflexivity | exact H |].
      * unfold set_ydef; intros; fields.
      * unfold set_ydef; intros; fields.
      * split; [exact H1 |]. split; [exact H2 |]. intros k s Hin. destruct (H3 k s Hin) as (v & Hv & Hp). apply (Hp []). apply text_value. exact Hv.
    + eapply struct_fields; [| exact H]. unfold set_ydef, policy_fields. intros. fields. tauto.
Qed.

Lemma decoded_proper d rest y : decode_stream (d :: rest) = Some y -> proper y.
Proof.
  intros H. destruct (ydef_says d rest y H) as (_ & (Hnd & _ & Hr) & _). split; [exact Hnd |]. intros k r Hin.
  destruct (Hr _ _ Hin) as (w & Hw & _). destruct (yres_says _ _ Hw) as (_ & Hn & _). exact Hn.
Qed.
