(** Facts about policies from YAML documents. *)
From Coq Require Import Permutation.
From Verif Require Import Base Domain Lexer Yaml Service YamlDoc SpecMisc SpecYaml BaseFacts MiscFacts YamlFacts.

(** ** What a decoded document says *)

Lemma decoded_transcribes d rest y : decode_stream (d :: rest) = Some y -> transcribes d (map_policy_definition y).
Proof.
  intros H. pose proof (decoded_proper d rest y H) as Hp. pose proof (yaml_describes y Hp) as Hc.
  destruct (ydef_says d rest y H) as ((H1 & H2 & H3) & (_ & Hk & Hr) & (_ & Ha & Hs) & _). constructor.
  - exact H1.
  - exact H2.
  - exact H3.
  - intros rs. rewrite (ds_resources _ _ Hc). apply Hk.
  - intros r Hin. apply resource_in in Hin as (z & Hin & ->). destruct (Hr _ _ Hin) as (w & Hw & Hpath).
    apply (Hpath ["doc"]). apply (yres_says w z Hw).
  - intros r rl Hin. apply resource_in in Hin as (z & Hin & Hq). destruct (Hr _ _ Hin) as (w & Hw & Hpath).
    destruct (yres_says w z Hw) as (_ & _ & Hkeys & _).
    assert (Hx : In rl (map rl_name (rs_relations r)) <-> In rl (map fst (yr_relations (default_res z)))).
    { rewrite Hq. unfold map_resource. cbn [fst snd rs_relations]. rewrite rel_names. apply sort_keys. }
    rewrite Hx, Hkeys. split; intros (v & Hv); exists v; apply (Hpath ["relations"; rl]); exact Hv.
  - intros r l Hin Hl. apply resource_in in Hin as (z & Hin & Hq). destruct (Hr _ _ Hin) as (w & Hw & Hpath).
    destruct (yres_says w z Hw) as (_ & _ & _ & Hrel & _).
    rewrite Hq in Hl. unfold map_resource in Hl. cbn [fst snd rs_relations] in Hl. apply in_map_iff in Hl as ([k x] & <- & Hx). apply (proj1 (sort_in _ _)) in Hx.
    destruct (Hrel _ _ Hx) as (u & Hu & Hupath). destruct (yrel_says u x Hu) as (Hd & He & Ht & _). cbn.
    split; [apply Hpath, Hupath, Hd |]. split; [eexists; split; [reflexivity | apply Hpath, Hupath, He] |].
    exists (yl_types (default_rel x)), (map_subject_restriction (yl_types (default_rel x))). split; [reflexivity |].
    split; [apply Hpath, Hupath, Ht | apply types_ok; reflexivity].
  - exact Ha.
  - exact Hs.
Qed.

(** ** One policy only *)

Definition keyed_tree (d : ynode) : Prop := forall path v v', holds d path v -> holds d path v' -> v = v'.

Lemma holds_app : forall p n q w, holds n (p ++ q) w -> exists v, holds n p v /\ holds v q w.
Proof.
  induction p as [| k p IH]; intros n q w H; [exists n; split; [constructor | exact H] |].
  inversion H as [| ? ? v ? ? Hin Hh]; subst. destruct (IH _ _ _ Hh) as (x & H1 & H2). exists x. split; [econstructor; eauto | exact H2].
Qed.

Lemma text_unique d path s s' : (forall v v', holds d path v -> holds d path v' -> v = v') -> text_at d path s -> text_at d path s' -> s = s'.
Proof.
  intros Hu [H | [-> H]] [H' | [-> H']].
  - pose proof (Hu _ _ H H') as He. injection He as ->. reflexivity.
  - destruct (H' _ H) as (t & [=]).
  - destruct (H _ H') as (t & [=]).
  - reflexivity.
Qed.

Lemma items_unique : forall l ts, items l ts -> forall ts', items l ts' -> ts = ts'.
Proof. induction 1; intros ts' H'; inversion H'; subst; auto. f_equal. auto. Qed.

Lemma texts_unique d path s s' : (forall v v', holds d path v -> holds d path v' -> v = v') -> texts_at d path s -> texts_at d path s' -> s = s'.
Proof.
  intros Hu [(l & H & Hi) | [-> H]] [(l' & H' & Hi') | [-> H']].
  - pose proof (Hu _ _ H H') as He. injection He as ->. eapply items_unique; eauto.
  - destruct (H' _ H) as (t & [=]).
  - destruct (H _ H') as (t & [=]).
  - reflexivity.
Qed.

Lemma tidy_key l k v v' : tidy (YMap l) -> In (YScalar false k, v) l -> In (YScalar false k, v') l -> v = v'.
Proof.
  intros Ht. destruct (Ht l eq_refl) as (ks & Hk & Hn). clear Ht. revert ks Hk Hn. induction l as [| [kx x] l IH]; intros [| [b t] ks] Hk Hn; try discriminate; [intros [] |].
  cbn in Hk, Hn. injection Hk as -> Hk. inversion Hn as [| ? ? Hi Hn']; subst.
  assert (Hno : forall w, In (YScalar false t, w) l -> False).
  { intros w Hw. apply Hi. apply (in_map fst) in Hw. rewrite Hk in Hw. apply in_map_iff in Hw as ([b' t'] & [= _ <-] & Hw). apply in_map_iff. exists (b', t'). auto. }
  intros [H1 | H1] [H2 | H2].
  - congruence.
  - injection H1 as _ <- _. destruct (Hno _ H2).
  - injection H2 as _ <- _. destruct (Hno _ H1).
  - eapply IH; eauto.
Qed.

Lemma only_key fields n k path v v' : only_fields fields n \/ nothing n \/ (exists l, n = YMap l /\ tidy n) ->
  (forall w, holds n [k] w -> forall x x', holds w path x -> holds w path x' -> x = x') ->
  holds n (k :: path) v -> holds n (k :: path) v' -> v = v'.
Proof.
  intros Hn Hsub H1 H2.
  assert (Ht : exists l, n = YMap l /\ tidy n).
  { destruct Hn as [[Hn | (l & -> & Ht & _)] | [Hn | Hn]]; eauto; destruct (holds_null n k path v Hn H1). }
  destruct Ht as (l & -> & Ht). inversion H1 as [| ? ? x ? ? Hx Hhx]; subst. inversion H2 as [| ? ? x' ? ? Hx' Hhx']; subst.
  pose proof (tidy_key l k x x' Ht Hx Hx') as <-. apply (Hsub x); auto. econstructor; [exact Hx | constructor].
Qed.

Lemma struct_field {A} (set : string -> ynode -> A -> option A) zero l a k v : decode_struct set zero l = Some a -> In (YScalar false k, v) l ->
  exists b b', set k v b = Some b'.
Proof. unfold decode_struct. destruct (unique_keys l); [| discriminate]. intros H. apply (proj2 (fold_keys set l zero a H)). Qed.

(** The shape of the nodes of an accepted document. *)
Definition at_map (n : ynode) : Prop := nothing n \/ exists l, n = YMap l /\ tidy n.

Lemma shape d rest y : decode_stream (d :: rest) = Some y ->
  only_fields policy_fields d /\
  (forall v, holds d ["resources"] v -> at_map v) /\ (forall v, holds d ["attributes"] v -> at_map v) /\
  (forall rs v, holds d ["resources"; rs] v -> only_fields resource_fields v) /\
  (forall rs v, holds d ["resources"; rs; "relations"] v -> at_map v) /\
  (forall rs rl v, holds d ["resources"; rs; "relations"; rl] v -> only_fields relation_fields v).
Proof.
  intros H. destruct (ydef_says d rest y H) as (_ & (_ & Hk & Hr) & _ & Hf).
  assert (Hres : forall rs v, holds d ["resources"; rs] v -> exists o, decode_yres v = Some o).
  { intros rs v Hv. assert (Hin : In rs (map fst (y_resources y))) by (apply Hk; eauto). apply in_map_iff in Hin as ([k o] & Hq & Hin). cbn in Hq. subst k.
    destruct (Hr _ _ Hin) as (w & Hw & Hp). apply (Hp []) in Hv. inversion Hv; subst. eauto. }
  assert (Htop : forall k v, holds d [k] v -> exists b b', set_ydef k v b = Some b').
  { intros k v Hv. destruct d as [[|] t | l | l]; try (inversion Hv; fail). inversion Hv as [| ? ? x ? ? Hin Hh]; subst. inversion Hh; subst. cbn in H. eapply struct_field; eauto. }
  assert (Hsub : forall rs k v, holds d ["resources"; rs; k] v -> exists b b', set_yres k v b = Some b').
  { intros rs k v Hv. destruct (holds_app ["resources"; rs] d [k] v Hv) as (w & Hw & Hv'). destruct (Hres rs w Hw) as (o & Ho).
    unfold decode_yres, decode_pointer in Ho. destruct w as [[|] t | l | l]; try (inversion Hv'; fail). inversion Hv' as [| ? ? x ? ? Hin Hh]; subst. inversion Hh; subst.
    destruct (decode_struct set_yres _ l) eqn:Hd; [| discriminate]. eapply struct_field; eauto. }
  split; [exact Hf |]. split; [| split; [| split; [| split]]].
  - intros v Hv. destruct (Htop _ _ Hv) as (b & b' & Hs). cbn in Hs. destruct (decode_map decode_yres v) eqn:Hd; [| discriminate]. apply map_tidy in Hd. exact Hd.
  - intros v Hv. destruct (Htop _ _ Hv) as (b & b' & Hs). cbn in Hs. destruct (decode_map _ v) eqn:Hd; [| discriminate]. apply map_tidy in Hd. exact Hd.
  - intros rs v Hv. destruct (Hres rs v Hv) as (o & Ho). apply (yres_says v o Ho).
  - intros rs v Hv. destruct (Hsub _ _ _ Hv) as (b & b' & Hs). cbn in Hs. destruct (decode_map decode_yrel v) eqn:Hd; [| discriminate]. apply map_tidy in Hd. exact Hd.
  - intros rs rl v Hv. destruct (holds_app ["resources"; rs] d ["relations"; rl] v Hv) as (w & Hw & Hv'). destruct (Hres rs w Hw) as (o & Ho).
    destruct (yres_says w o Ho) as (_ & _ & Hkk & Hrel & _).
    assert (Hin : In rl (map fst (yr_relations (default_res o)))) by (apply Hkk; eauto). apply in_map_iff in Hin as ([k x] & Hq & Hin). cbn in Hq. subst k.
    destruct (Hrel _ _ Hin) as (u & Hu & Hp). apply (Hp []) in Hv'. inversion Hv'; subst. apply (yrel_says _ _ Hu).
Qed.

Lemma here_unique n : forall x x', holds n [] x -> holds n [] x' -> x = x'.
Proof. intros x x' H1 H2. inversion H1; inversion H2; subst. congruence. Qed.

Lemma paths_unique d rest y : decode_stream (d :: rest) = Some y ->
  (forall k v v', holds d [k] v -> holds d [k] v' -> v = v') /\
  (forall k v v', holds d ["attributes"; k] v -> holds d ["attributes"; k] v' -> v = v') /\
  (forall rs k v v', holds d ["resources"; rs; k] v -> holds d ["resources"; rs; k] v' -> v = v') /\
  (forall rs rl k v v', holds d ["resources"; rs; "relations"; rl; k] v -> holds d ["resources"; rs; "relations"; rl; k] v' -> v = v').
Proof.
  intros H. destruct (shape d rest y H) as (H0 & H1 & H2 & H3 & H4 & H5). unfold at_map in *.
  assert (Hcat : forall p n q w u, holds n p w -> holds w q u -> holds n (p ++ q) u).
  { induction p as [| k p IH]; intros n q w u Hp Hq; inversion Hp; subst; [exact Hq |]. cbn. econstructor; eauto. }
  split; [| split; [| split]].
  - intros k v v'. apply (only_key policy_fields); [auto |]. intros. eapply here_unique; eauto.
  - intros k v v'. apply (only_key policy_fields); [auto |]. intros w Hw x x'. apply (only_key []); [right; apply H2, Hw |]. intros. eapply here_unique; eauto.
  - intros rs k v v'. apply (only_key policy_fields); [auto |]. intros w Hw x x'. apply (only_key []); [right; apply H1, Hw |].
    intros w2 Hw2 z z'. apply (only_key resource_fields); [left; apply (H3 rs), (Hcat ["resources"] d [rs] w w2 Hw Hw2) |]. intros. eapply here_unique; eauto.
  - intros rs rl k v v'. apply (only_key policy_fields); [auto |]. intros w Hw x x'. apply (only_key []); [right; apply H1, Hw |].
    intros w2 Hw2 z z'. pose proof (Hcat ["resources"] d [rs] w w2 Hw Hw2) as Hr2. apply (only_key resource_fields); [left; apply (H3 rs), Hr2 |].
    intros w3 Hw3 u u'. pose proof (Hcat ["resources"; rs] d ["relations"] w2 w3 Hr2 Hw3) as Hr3. apply (only_key []); [right; apply (H4 rs), Hr3 |].
    intros w4 Hw4 q q'. pose proof (Hcat ["resources"; rs; "relations"] d [rl] w3 w4 Hr3 Hw4) as Hr4. apply (only_key relation_fields); [left; apply (H5 rs rl), Hr4 |].
    intros. eapply here_unique; eauto.
Qed.

Lemma increasing_lt : forall l x, increasing (x :: l) -> forall y, In y l -> scmp x y = Lt.
Proof.
  induction l as [| z l IH]; intros x H y Hin; [destruct Hin |]. cbn in H. destruct H as [H1 H2]. destruct Hin as [<- | Hin]; [exact H1 |].
  eapply scmp_trans; [exact H1 |]. apply IH; [exact H2 | exact Hin].
Qed.

Lemma increasing_tail x l : increasing (x :: l) -> increasing l.
Proof. destruct l; cbn; tauto. Qed.

Lemma scmp_irrefl x : scmp x x <> Lt.
Proof. rewrite (proj2 (scmp_eq x x) eq_refl). discriminate. Qed.

Lemma increasing_unique {A} (name : A -> string) : forall l l', increasing (map name l) -> increasing (map name l') ->
  (forall n, In n (map name l) <-> In n (map name l')) ->
  (forall x y, In x l -> In y l' -> name x = name y -> x = y) -> l = l'.
Proof.
  induction l as [| x l IH]; intros [| y l'] Hi Hi' Hn Hx; [reflexivity | | |].
  - destruct (proj2 (Hn (name y)) (or_introl eq_refl)).
  - destruct (proj1 (Hn (name x)) (or_introl eq_refl)).
  - cbn [map] in *. pose proof (increasing_lt _ _ Hi) as Hl. pose proof (increasing_lt _ _ Hi') as Hl'.
    assert (He : name x = name y).
    { destruct (proj1 (Hn (name x)) (or_introl eq_refl)) as [He | Hin]; [auto |]. destruct (proj2 (Hn (name y)) (or_introl eq_refl)) as [He | Hin']; [auto |].
      exfalso. apply (scmp_irrefl (name x)). eapply scmp_trans; [apply Hl; exact Hin' | apply Hl'; exact Hin]. }
    rewrite (Hx x y (or_introl eq_refl) (or_introl eq_refl) He). f_equal. apply IH.
    + eapply increasing_tail; eauto.
    + eapply increasing_tail; eauto.
    + intros n. split; intros Hin.
      * destruct (proj1 (Hn n) (or_intror Hin)) as [Hq | ?]; [| assumption]. exfalso. apply (scmp_irrefl n). rewrite <- He in Hq. rewrite <- Hq at 1. apply Hl. exact Hin.
      * destruct (proj2 (Hn n) (or_intror Hin)) as [Hq | ?]; [| assumption]. exfalso. apply (scmp_irrefl n). rewrite He in Hq. rewrite <- Hq at 1. apply Hl'. exact Hin.
    + intros a b Ha Hb. apply Hx; right; assumption.
Qed.

Lemma transcribed_unique d rest y p q : decode_stream (d :: rest) = Some y -> transcribes d p -> transcribes d q -> in_order p -> in_order q -> p = q.
Proof.
  intros H Hp Hq (Op1 & Op2 & Op3) (Oq1 & Oq2 & Oq3). destruct (paths_unique d rest y H) as (U1 & U2 & U3 & U4).
  destruct p as [i n c rss ats], q as [i' n' c' rss' ats'].
  destruct Hp as [P1 P2 P3 P4 P5 P6 P7 P8 P9], Hq as [Q1 Q2 Q3 Q4 Q5 Q6 Q7 Q8 Q9]. cbn [p_id p_name p_desc p_resources p_attrs] in *. f_equal.
  - eapply text_unique; [apply U1 | exact P1 | exact Q1].
  - eapply text_unique; [apply U1 | exact P2 | exact Q2].
  - eapply text_unique; [apply U1 | exact P3 | exact Q3].
  - apply (increasing_unique rs_name); auto; [intros k; rewrite P4, Q4; reflexivity |]. intros r r' Hr Hr' He.
    specialize (P5 r Hr). specialize (Q5 r' Hr'). specialize (Op3 r Hr). specialize (Oq3 r' Hr'). pose proof (fun rl => P6 r rl Hr) as P6'. pose proof (fun rl => Q6 r' rl Hr') as Q6'.
    pose proof (fun l => P7 r l Hr) as P7'. pose proof (fun l => Q7 r' l Hr') as Q7'. clear P6 P7 Q6 Q7 Hr Hr'.
    destruct r as [nm ds ls], r' as [nm' ds' ls']. cbn [rs_name rs_desc rs_relations] in *. subst nm'. f_equal.
    + eapply text_unique; [apply U3 | exact P5 | exact Q5].
    + apply (increasing_unique rl_name); auto; [intros k; rewrite P6', Q6'; reflexivity |]. intros l l' Hl Hl' Hel.
      destruct (P7' l Hl) as (A1 & (e & Ee & A2) & (ts & x & Ex & A3 & A4)). destruct (Q7' l' Hl') as (B1 & (e' & Ee' & B2) & (ts' & x' & Ex' & B3 & B4)).
      destruct l as [ln ld le lr], l' as [ln' ld' le' lr']. cbn [rl_name rl_desc rl_expr rl_restr] in *. subst ln' le lr le' lr'. f_equal.
      * eapply text_unique; [apply U4 | exact A1 | exact B1].
      * do 2 f_equal. eapply text_unique; [apply U4 | exact A2 | exact B2].
      * f_equal. rewrite (texts_unique d _ _ _ (U4 nm ln "types") A3 B3) in A4. apply types_ok in A4, B4. congruence.
  - apply (increasing_unique fst); auto; [intros k; rewrite P8, Q8; reflexivity |]. intros [k s] [k' s'] Hs Hs' He. cbn in He. subst k'. f_equal.
    eapply text_unique; [apply U2 | apply P9; exact Hs | apply Q9; exact Hs'].
Qed.

Lemma decoded_in_order d rest y : decode_stream (d :: rest) = Some y -> in_order (map_policy_definition y).
Proof.
  intros H. pose proof (yaml_describes y (decoded_proper d rest y H)) as Hc. split; [apply (ds_sorted _ _ Hc) |]. split; [| intros r Hr; apply (ds_resource _ _ Hc r Hr)].
  rewrite (ds_attrs _ _ Hc). destruct d as [[|] t | l | l]; cbn [decode_stream] in H; try discriminate; [injection H as <-; exact I |].
  unfold decode_struct in H. destruct (unique_keys l) eqn:Hu; [| discriminate].
  destruct (fold_field set_ydef y_attrs "attributes" (fun v _ => decode_map (fun v => set_string v "") v)) with (l := l) (a := zero_ydef) (a' := y) as [(v & _ & Hd) | [_ Hg]]; auto.
  - unfold set_ydef; intros; fields.
  - unfold set_ydef; intros; fields.
  - destruct v as [[|] t | l' | l']; cbn [decode_map] in Hd; try discriminate; [injection Hd as <-; exact I |].
    destruct (unique_keys l') eqn:Hu'; [| discriminate]. destruct (decode_entries _ l') eqn:He; [| discriminate]. injection Hd as <-.
    apply sorted_increasing, sort_sorted. eapply entries_nodup; eauto.
  - rewrite Hg. exact I.
Qed.

(** ** Order of keys *)

Lemma string_reordered v v' : reordered v v' -> decode_string v = decode_string v'.
Proof. intros []; reflexivity. Qed.

Lemma set_string_reordered v v' s : reordered v v' -> set_string v s = set_string v' s.
Proof. intros H. unfold set_string. rewrite (string_reordered v v' H). reflexivity. Qed.

Lemma slice_reordered v v' : reordered v v' -> decode_slice v = decode_slice v'.
Proof.
  intros H. destruct H as [b t | l l' Hf | l m l' _ _]; try reflexivity. cbn [decode_slice]. induction Hf as [| x y l l' Hx _ IH]; [reflexivity |].
  cbn. rewrite (string_reordered x y Hx), IH. reflexivity.
Qed.

Ltac commute :=
  intros;
  repeat match goal with
         | |- context [String.eqb ?k ?s] => destruct (String.eqb_spec k s); subst; try congruence
         | |- context [set_string ?v ?s] => destruct (set_string v s) eqn:?; cbn [option_map]
         | |- context [decode_slice ?v] => destruct (decode_slice v) eqn:?; cbn [option_map]
         | |- context [decode_map ?f ?v] => destruct (decode_map f v) eqn:?; cbn [option_map]
         end; cbn in *; try congruence; try reflexivity.

Lemma yrel_reordered v v' : reordered v v' -> decode_yrel v = decode_yrel v'.
Proof.
  intros H. destruct H as [b t | l l' _ | l m l' Hp Hf]; try reflexivity. unfold decode_yrel, decode_pointer. f_equal.
  eapply struct_reordered; [| | exact Hp | exact Hf].
  - unfold set_yrel. commute.
  - intros k w w' a Hw. unfold set_yrel. rewrite !(set_string_reordered w w' _ Hw), (slice_reordered w w' Hw). reflexivity.
Qed.

Lemma yres_reordered v v' : reordered v v' -> decode_yres v = decode_yres v'.
Proof.
  intros H. destruct H as [b t | l l' _ | l m l' Hp Hf]; try reflexivity. unfold decode_yres, decode_pointer. f_equal.
  eapply struct_reordered; [| | exact Hp | exact Hf].
  - unfold set_yres. commute.
  - intros k w w' a Hw. unfold set_yres. rewrite !(set_string_reordered w w' _ Hw), (map_reordered decode_yrel w w' yrel_reordered Hw). reflexivity.
Qed.

Lemma stream_reordered d d' rest rest' : reordered d d' -> decode_stream (d :: rest) = decode_stream (d' :: rest').
Proof.
  intros H. destruct H as [b t | l l' _ | l m l' Hp Hf]; try reflexivity. cbn [decode_stream].
  eapply struct_reordered; [| | exact Hp | exact Hf].
  - unfold set_ydef. commute.
  - intros k w w' a Hw. unfold set_ydef. rewrite !(set_string_reordered w w' _ Hw), (map_reordered decode_yres w w' yres_reordered Hw),
      (map_reordered (fun v => set_string v "") w w' (fun v v' H => set_string_reordered v v' "" H) Hw). reflexivity.
Qed.

(** ** Writing a definition *)

Definition yt (s : string) : ynode := YScalar false s.
Definition ynull : ynode := YScalar true "".
Definition ykeys {A} (f : A -> ynode) (l : list (string * A)) : ynode := YMap (map (fun x => (yt (fst x), f (snd x))) l).
Definition write_rel (o : option yrel) : ynode :=
  match o with
  | None => ynull
  | Some r => YMap [(yt "doc", yt (yl_doc r)); (yt "expr", yt (yl_expr r)); (yt "types", YSeq (map yt (yl_types r)))]
  end.
Definition write_res (o : option yres) : ynode :=
  match o with
  | None => ynull
  | Some r => YMap [(yt "doc", yt (yr_doc r)); (yt "relations", ykeys write_rel (yr_relations r))]
  end.
Definition write_def (y : ydef) : ynode :=
  YMap [(yt "id", yt (y_id y)); (yt "name", yt (y_name y)); (yt "doc", yt (y_doc y));
        (yt "resources", ykeys write_res (y_resources y)); (yt "attributes", ykeys yt (y_attrs y))].

Lemma increasing_sort {A} : forall l : list (string * A), increasing (map fst l) -> sort_by_name l = l.
Proof.
  induction l as [| x l IH]; intros H; [reflexivity |]. unfold sort_by_name in *. cbn [fold_right]. rewrite IH by (eapply increasing_tail; exact H).
  destruct l as [| y l]; [reflexivity |]. cbn in H. destruct H as [H _]. cbn. rewrite H. reflexivity.
Qed.

Lemma increasing_nodup : forall l, increasing l -> NoDup l.
Proof.
  induction l as [| x l IH]; intros H; constructor; [| apply IH; eapply increasing_tail; exact H].
  intros Hin. apply (scmp_irrefl x). apply (increasing_lt l x H). exact Hin.
Qed.

Lemma map_written {A} (dec : ynode -> option A) f l : increasing (map fst l) -> (forall k a, In (k, a) l -> dec (f a) = Some a) -> decode_map dec (ykeys f l) = Some l.
Proof.
  intros Hi Hd. unfold ykeys, decode_map.
  assert (Hu : unique_keys (map (fun x => (yt (fst x), f (snd x))) l) = true).
  { apply unique_nodup. rewrite map_map. cbn. apply increasing_nodup in Hi. clear Hd. induction l as [| x l IH]; cbn in *; constructor; inversion Hi; subst; auto.
    intros Hin. apply in_map_iff in Hin as (y & [= Hy] & Hin). apply H1. apply in_map_iff. exists y. auto. }
  rewrite Hu. assert (He : decode_entries dec (map (fun x => (yt (fst x), f (snd x))) l) = Some l).
  { clear Hi Hu. induction l as [| [k a] l IH]; [reflexivity |]. cbn. rewrite (Hd k a (or_introl eq_refl)), IH by (intros; eapply Hd; right; eauto). reflexivity. }
  rewrite He. cbn. rewrite increasing_sort by exact Hi. reflexivity.
Qed.

Lemma strings_written : forall ts, decode_strings (map yt ts) = Some ts.
Proof. induction ts as [| t ts IH]; [reflexivity |]. cbn. rewrite IH. reflexivity. Qed.

Lemma rel_written o : decode_yrel (write_rel o) = Some o.
Proof.
  destruct o as [[dc ex ts] |]; [| reflexivity]. unfold decode_yrel, write_rel, decode_pointer, decode_struct. cbn [yl_doc yl_expr yl_types].
  change (unique_keys _) with true. cbn -[decode_strings]. rewrite strings_written. reflexivity.
Qed.

Lemma res_written o : (forall r, o = Some r -> increasing (map fst (yr_relations r))) -> decode_yres (write_res o) = Some o.
Proof.
  destruct o as [[dc ls] |]; [| reflexivity]. intros H. specialize (H _ eq_refl). cbn [yr_relations] in H. unfold decode_yres, write_res, decode_pointer, decode_struct. cbn [yr_doc yr_relations].
  change (unique_keys _) with true. cbn -[decode_map ykeys]. rewrite map_written; [reflexivity | exact H |]. intros. apply rel_written.
Qed.

Lemma def_written y rest : ordered_definition y -> decode_stream (write_def y :: rest) = Some y.
Proof.
  destruct y as [i n dc rss ats]. intros (H1 & H2 & H3). cbn [y_resources y_attrs] in *. unfold write_def. cbn [y_id y_name y_doc y_resources y_attrs decode_stream].
  unfold decode_struct. change (unique_keys _) with true. cbn -[decode_map ykeys].
  rewrite map_written; [| exact H1 | intros k a Hin; apply res_written; intros r ->; eapply H3; exact Hin]. cbn -[decode_map ykeys].
  rewrite map_written; [reflexivity | exact H2 |]. intros. reflexivity.
Qed.

(** ** What is dropped *)

Lemma fold_left_app_null {A} (set : string -> ynode -> A -> option A) l l' t v acc :
  fold_left (struct_step set) (l ++ (YScalar true t, v) :: l') acc = fold_left (struct_step set) (l ++ l') acc.
Proof.
  rewrite !fold_left_app. cbn [fold_left]. f_equal. unfold struct_step. cbn. destruct (fold_left _ l acc); reflexivity.
Qed.

Lemma null_key_dropped l l' t v rest : (forall b w, ~ In (YScalar b t, w) (l ++ l')) ->
  decode_stream (YMap (l ++ (YScalar true t, v) :: l') :: rest) = decode_stream [YMap (l ++ l')].
Proof.
  intros H. cbn [decode_stream]. unfold decode_struct.
  assert (Hu : unique_keys (l ++ (YScalar true t, v) :: l') = unique_keys (l ++ l')).
  { assert (Hx : unique_keys (l ++ (YScalar true t, v) :: l') = true <-> unique_keys (l ++ l') = true).
    { rewrite !unique_nodup, !map_app. cbn [map fst key_id]. split; [apply NoDup_remove_1 |]. intros Hn.
      apply (Permutation_NoDup (Permutation_middle _ _ (0, t))). constructor; [| exact Hn]. rewrite <- map_app. intros Hin. apply in_map_iff in Hin as ([k w] & Hk & Hin).
      cbn in Hk. destruct k as [b t' | |]; try discriminate. injection Hk as ->. exact (H b w Hin). }
    destruct (unique_keys (l ++ _ :: l')), (unique_keys (l ++ l')); try reflexivity; [symmetry; apply Hx; reflexivity | apply Hx; reflexivity]. }
  rewrite Hu. destruct (unique_keys (l ++ l')); [| reflexivity]. apply fold_left_app_null.
Qed.
