(** Facts about what readers of JSON accept. *)
From Coq Require Import ZArith Permutation Sorted.
From Verif Require Import Base BaseFacts Domain Lexer Store Search Explain Yaml Service Dump Api Wire SpecWire WireFacts Rpc SpecRpc RpcFacts Cli Json SpecJson JsonFacts.
Local Open Scope N_scope.

(** ** Depth *)

Fixpoint depth (j : json) : nat :=
  match j with
  | JArr l => S (list_max (map depth l))
  | JObj l => S (list_max (map (fun x => depth (snd x)) l))
  | _ => 0
  end.

Lemma max_le l n : In n l -> (n <= list_max l)%nat.
Proof. intros H. assert (K : Forall (fun k => k <= list_max l)%nat l) by (apply list_max_le; lia). rewrite Forall_forall in K. auto. Qed.

Lemma depth_element j l : In j l -> (depth j < depth (JArr l))%nat.
Proof. intros H. cbn [depth]. apply Nat.lt_succ_r, max_le, in_map. exact H. Qed.
Lemma depth_member x l : In x l -> (depth (snd x) < depth (JObj l))%nat.
Proof. intros H. cbn [depth]. apply Nat.lt_succ_r, max_le. apply in_map_iff. exists x. auto. Qed.

(** ** Documents *)

Lemma without_object l : without_nulls (JObj l) = JObj (map (fun x => (fst x, without_nulls (snd x))) (filter (fun x => negb (is_null (snd x))) l)).
Proof.
  cbn [without_nulls]. f_equal. induction l as [| [k v] l IH]; [reflexivity |]. cbn [filter snd]. destruct (is_null v); cbn [negb]; [exact IH |].
  cbn [map fst snd]. f_equal. exact IH.
Qed.
Lemma without_null j : is_null (without_nulls j) = is_null j.
Proof. destruct j; reflexivity. Qed.

Lemma repeats_array l : no_repeats (JArr l) <-> forall j, In j l -> no_repeats j.
Proof.
  cbn [no_repeats]. induction l as [| x l IH]; [split; [intros _ j [] | auto] |]. rewrite IH. split.
  - intros [H1 H2] j [<- | Hj]; auto.
  - intros H. split; [apply H; left; reflexivity | intros; apply H; right; assumption].
Qed.
Lemma repeats_object l : no_repeats (JObj l) <-> NoDup (map fst l) /\ forall x, In x l -> no_repeats (snd x).
Proof.
  cbn [no_repeats]. apply and_iff_compat_l. induction l as [| x l IH]; [split; [intros _ j [] | auto] |]. rewrite IH. split.
  - intros [H1 H2] j [<- | Hj]; auto.
  - intros H. split; [apply H; left; reflexivity | intros; apply H; right; assumption].
Qed.

Lemma reordered_null j : reordered JNull j -> j = JNull.
Proof. intros H. inversion H. reflexivity. Qed.
Lemma reordered_null' j : reordered j JNull -> j = JNull.
Proof. intros H. inversion H. reflexivity. Qed.

(** ** Readers *)

Section Good.
  Variable d : bool.

  Record good (n : nat) {A} (read : json -> option A) : Prop := {
    g_order : forall j j', (depth j <= n)%nat -> reordered j j' -> read j = read j';
    g_nulls : forall j x, (depth j <= n)%nat -> read j = Some x -> read (without_nulls j) = Some x;
    g_once : d = false -> forall j x, (depth j <= n)%nat -> read j = Some x -> no_repeats j }.

  Lemma good_ext {A} n (r r' : json -> option A) : (forall j, r j = r' j) -> good n r -> good n r'.
  Proof using Type.
    intros H [H1 H2 H3]. split.
    - intros j j' Hj Hr. rewrite <- !H. auto.
    - intros j x Hj. rewrite <- !H. auto.
    - intros Hd j x Hj. rewrite <- !H. eauto.
  Qed.

  Lemma good_omap {A B} n (g : A -> B) read : good n read -> good n (fun j => omap g (read j)).
  Proof using Type.
    intros [H1 H2 H3]. split.
    - intros j j' Hj Hr. rewrite (H1 j j' Hj Hr). reflexivity.
    - intros j x Hj. destruct (read j) as [y |] eqn:E; [| discriminate]. rewrite (H2 j y Hj E). auto.
    - intros Hd j x Hj. destruct (read j) as [y |] eqn:E; [| discriminate]. intros _. eauto.
  Qed.

  (** Readers of values that are neither lists nor objects. *)
  Lemma good_scalar {A} n (read : json -> option A) : (forall l, read (JArr l) = None) -> (forall l, read (JObj l) = None) -> good n read.
  Proof using Type.
    intros Ha Ho. split.
    - intros j j' _ H. inversion H; subst; [reflexivity | rewrite !Ha; reflexivity | rewrite !Ho; reflexivity].
    - intros j x _. destruct j; cbn [without_nulls]; auto; [rewrite Ha | rewrite Ho]; discriminate.
    - intros _ j x _. destruct j; cbn [no_repeats]; auto; [rewrite Ha | rewrite Ho]; discriminate.
  Qed.
  Lemma good_text n : good n read_text.
  Proof using Type. apply good_scalar; reflexivity. Qed.
  Lemma good_bytes n : good n read_bytes.
  Proof using Type. apply good_scalar; reflexivity. Qed.
  Lemma good_enum n t : good n (read_enum t).
  Proof using Type. apply good_scalar; reflexivity. Qed.
  Lemma good_none {A} n : good n (fun _ => @None A).
  Proof using Type. apply good_scalar; reflexivity. Qed.

  Lemma good_list {A} n (read : json -> option A) : (forall k, n = S k -> good k read) -> good n (read_list read).
  Proof using Type.
    intros H. split.
    - intros j j' Hj Hr. inversion Hr as [| l l' Hl | l m l' Hl Hp]; subst; try reflexivity. cbn [read_list].
      destruct n as [| k]; [cbn [depth] in Hj; lia |]. specialize (H k eq_refl).
      assert (K : forall x, In x l -> (depth x <= k)%nat) by (intros x Hx; pose proof (depth_element x l Hx); lia).
      clear Hj Hr. induction Hl as [| x y l l' Hxy Hl IH]; [reflexivity |]. cbn [read_all]. rewrite (g_order _ _ H x y); [| apply K; left; reflexivity | exact Hxy].
      destruct (read y); [| reflexivity]. rewrite IH; [reflexivity | intros; apply K; right; assumption].
    - intros j x Hj. destruct j as [| | | | | l |]; try discriminate. cbn [read_list without_nulls].
      destruct n as [| k]; [cbn [depth] in Hj; lia |]. specialize (H k eq_refl).
      assert (K : forall x, In x l -> (depth x <= k)%nat) by (intros y Hy; pose proof (depth_element y l Hy); lia).
      clear Hj. revert x. induction l as [| y l IH]; intros x; [auto |]. cbn [read_all map]. destruct (read y) as [z |] eqn:E; [| discriminate].
      rewrite (g_nulls _ _ H y z (K y (or_introl eq_refl)) E). destruct (read_all read l) as [zs |] eqn:Es; [| discriminate].
      rewrite (IH (fun w Hw => K w (or_intror Hw)) zs eq_refl). auto.
    - intros Hd j x Hj. destruct j as [| | | | | l |]; try discriminate. cbn [read_list]. rewrite repeats_array.
      destruct n as [| k]; [cbn [depth] in Hj; lia |]. specialize (H k eq_refl).
      assert (K : forall x, In x l -> (depth x <= k)%nat) by (intros y Hy; pose proof (depth_element y l Hy); lia).
      clear Hj. revert x. induction l as [| y l IH]; intros x Hx j Hj; [destruct Hj |]. cbn [read_all] in Hx. destruct (read y) as [z |] eqn:E; [| discriminate].
      destruct Hj as [<- | Hj]; [exact (g_once _ _ H Hd y z (K y (or_introl eq_refl)) E) |].
      destruct (read_all read l) as [zs |] eqn:Es; [| discriminate]. exact (IH (fun w Hw => K w (or_intror Hw)) zs eq_refl j Hj).
  Qed.

  (** Maps *)
  Lemma set_swap k1 v1 k2 v2 (m : list (string * string)) : k1 <> k2 -> kv_sorted scmp m ->
    kv_set scmp k1 v1 (kv_set scmp k2 v2 m) = kv_set scmp k2 v2 (kv_set scmp k1 v1 m).
  Proof using Type.
    intros Hk Hm. apply (sorted_ext scmp scmp_ok); try (repeat apply sorted_set; first [apply scmp_ok | exact Hm]).
    intros k. rewrite !(get_set scmp scmp_ok). destruct (scmp k k1) eqn:E1; destruct (scmp k k2) eqn:E2; try reflexivity.
    apply scmp_eq in E1. apply scmp_eq in E2. congruence.
  Qed.

  Lemma entries_swap l l' : Permutation l l' -> forall m, kv_sorted scmp m -> read_entries l m = read_entries l' m.
  Proof using Type.
    induction 1 as [| [k v] l l' H IH | [k1 v1] [k2 v2] l | l1 l2 l3 H1 IH1 H2 IH2]; intros m Hm; [reflexivity | | | rewrite IH1, IH2 by exact Hm; reflexivity].
    - cbn [read_entries]. destruct (kv_get scmp k m); [reflexivity |]. destruct (read_text (JStr k)); [| reflexivity]. destruct (read_text v); [| reflexivity].
      apply IH. apply sorted_set; [apply scmp_ok | exact Hm].
    - cbn [read_entries read_text]. unfold text. destruct (utf8_valid k1); destruct (utf8_valid k2); destruct (read_text v1) as [w1 |]; destruct (read_text v2) as [w2 |];
        destruct (kv_get scmp k1 m) eqn:G1; destruct (kv_get scmp k2 m) eqn:G2; try reflexivity; rewrite ?(get_set scmp scmp_ok), ?G1, ?G2;
        try (destruct (scmp k1 k2) eqn:E; try reflexivity; fail); try (destruct (scmp k2 k1) eqn:E; try reflexivity; fail).
      rewrite (scmp_opp k1 k2). destruct (scmp k1 k2) eqn:E; cbn [CompOpp]; try reflexivity;
        (rewrite set_swap; [reflexivity | | exact Hm]; intros Ek; assert (K : k1 = k2) by congruence; apply scmp_eq in K; congruence).
  Qed.

  Lemma entries_once l : forall m b, read_entries l m = Some b -> kv_sorted scmp m ->
    (forall x, In x l -> exists s, snd x = JStr s) /\ NoDup (map fst l) /\ forall k, In k (map fst l) -> kv_get scmp k m = None.
  Proof using Type.
    induction l as [| [k v] l IH]; intros m b H Hm; [repeat split; [intros x [] | constructor | intros k []] |]. cbn [read_entries] in H.
    destruct (kv_get scmp k m) eqn:G; [discriminate |]. destruct (read_text (JStr k)) as [k' |] eqn:E; [| discriminate].
    destruct (read_text v) as [v' |] eqn:Ev; [| discriminate]. cbn [read_text] in E. unfold text in E. destruct (utf8_valid k); [| discriminate]. injection E as <-.
    apply IH in H as (H1 & H2 & H3); [| apply sorted_set; [apply scmp_ok | exact Hm]]. repeat split.
    - intros x [<- | Hx]; [| apply H1; exact Hx]. cbn [snd]. destruct v; try discriminate. eauto.
    - cbn [map fst]. constructor; [| exact H2]. intros Hk. apply H3 in Hk. rewrite (get_set scmp scmp_ok), (proj2 (scmp_eq k k) eq_refl) in Hk. discriminate.
    - cbn [map fst]. intros k0 [<- | Hk]; [exact G |]. apply H3 in Hk. rewrite (get_set scmp scmp_ok) in Hk. destruct (scmp k0 k); [discriminate | exact Hk..].
  Qed.

  Lemma good_map n : good n read_map.
  Proof using Type.
    split.
    - intros j j' _ Hr. inversion Hr as [| | l m l' Hl Hp]; subst; try reflexivity. cbn [read_map].
      rewrite <- (entries_swap m l' Hp) by exact I. clear Hp Hr. generalize (@nil (string * string)).
      induction Hl as [| [k v] [k' v'] l0 m0 [E Hv] Hl IH]; intros a; [reflexivity |]. cbn [fst snd read_entries] in *. subst k'.
      assert (read_text v = read_text v') as -> by (inversion Hv; reflexivity).
      destruct (kv_get scmp k a); [reflexivity |]. destruct (read_text (JStr k)); [| reflexivity]. destruct (read_text v'); [apply IH | reflexivity].
    - intros j x _. destruct j as [| | | | | | l]; try discriminate. cbn [read_map]. intros H. destruct (entries_once l [] x H I) as (H1 & _ & _).
      rewrite without_object. cbn [read_map]. rewrite <- H. f_equal. clear H. induction l as [| [k v] l IH]; [reflexivity |]. cbn [filter snd].
      destruct (H1 (k, v) (or_introl eq_refl)) as [s Hs]. cbn [snd] in Hs. subst v. cbn [is_null negb map fst snd without_nulls]. f_equal. apply IH.
      intros y Hy. apply H1. right. exact Hy.
    - intros _ j x _. destruct j as [| | | | | | l]; try discriminate. cbn [read_map]. intros H. destruct (entries_once l [] x H I) as (H1 & H2 & _).
      apply repeats_object. split; [exact H2 |]. intros y Hy. destruct (H1 y Hy) as [s ->]. exact I.
  Qed.

  (** *** Messages *)

  (** Fields that may come together can be set in any order. *)
  Definition commutes {A} (t : list fdesc) (set : N -> json -> A -> option A) : Prop :=
    forall f g v w a, In f t -> In g t -> f_num f <> f_num g -> f_one f && f_one g = false ->
      match set (f_num f) v a with Some a' => set (f_num g) w a' | None => None end =
      match set (f_num g) w a with Some a' => set (f_num f) v a' | None => None end.

  Lemma found_in t k f : find_field t k = Some f -> In f t.
  Proof using Type.
    unfold find_field. destruct (find (fun f => String.eqb (f_json f) k) t) as [g |] eqn:E; [intros [= <-]; apply find_some in E; tauto |].
    intros H. apply find_some in H. tauto.
  Qed.

  Lemma seen_ext {A} t (set : N -> json -> A -> option A) l : forall s s' one a, (forall n, existsb (N.eqb n) s = existsb (N.eqb n) s') ->
    read_fields d t set l s one a = read_fields d t set l s' one a.
  Proof using Type.
    induction l as [| [k v] l IH]; intros s s' one a H; [reflexivity |]. cbn [read_fields]. destruct (find_field t k) as [f |].
    - rewrite (H (f_num f)). destruct (existsb (N.eqb (f_num f)) s'); [reflexivity |].
      assert (K : forall n, existsb (N.eqb n) (f_num f :: s) = existsb (N.eqb n) (f_num f :: s')) by (intros n; cbn [existsb]; rewrite H; reflexivity).
      rewrite (IH _ _ one a K). destruct v; try reflexivity; (destruct (f_one f && one); [reflexivity |]; destruct (set (f_num f) _ a); [apply IH, K | reflexivity]).
    - rewrite (IH _ _ one a H). reflexivity.
  Qed.

  (** A field, with a value that is not null. *)
  Definition put {A} (set : N -> json -> A -> option A) (f : fdesc) (v : json) (one : bool) (a : A) (k : bool -> A -> option A) : option A :=
    if is_null v then k one a else if f_one f && one then None else match set (f_num f) v a with None => None | Some a' => k (f_one f || one) a' end.

  Lemma read_put {A} t (set : N -> json -> A -> option A) k v l seen one a f : find_field t k = Some f ->
    read_fields d t set ((k, v) :: l) seen one a =
    if existsb (N.eqb (f_num f)) seen then None else put set f v one a (fun one' a' => read_fields d t set l (f_num f :: seen) one' a').
  Proof using Type. intros E. cbn [read_fields]. rewrite E. unfold put. destruct (existsb _ seen); [reflexivity |]. destruct v; reflexivity. Qed.

  Lemma put_swap {A} t (set : N -> json -> A -> option A) f g v w one a k : commutes t set -> In f t -> In g t -> f_num f <> f_num g ->
    put set f v one a (fun one' a' => put set g w one' a' k) = put set g w one a (fun one' a' => put set f v one' a' k).
  Proof using Type.
    intros Hc Hf Hg Hn. unfold put. destruct (is_null v); destruct (is_null w); try reflexivity.
    destruct (f_one f && f_one g) eqn:Eo.
    - apply andb_true_iff in Eo as [-> ->]. destruct one; cbn [andb orb]; [reflexivity |]. destruct (set (f_num f) v a); destruct (set (f_num g) w a); reflexivity.
    - pose proof (Hc f g v w a Hf Hg Hn Eo) as H. destruct (f_one f); destruct (f_one g); destruct one; cbn [andb orb] in *; try discriminate; try reflexivity;
        destruct (set (f_num f) v a) as [x |]; destruct (set (f_num g) w a) as [y |]; try reflexivity; try (rewrite H; reflexivity); try (rewrite <- H; reflexivity).
  Qed.

  Lemma put_ext {A} (set : N -> json -> A -> option A) f v one a k k' : (forall o b, k o b = k' o b) -> put set f v one a k = put set f v one a k'.
  Proof using Type. intros H. unfold put. rewrite H. destruct (is_null v); [reflexivity |]. destruct (f_one f && one); [reflexivity |]. destruct (set (f_num f) v a); auto. Qed.

  Lemma put_none {A} (set : N -> json -> A -> option A) f v one a : put set f v one a (fun _ _ => None) = None.
  Proof using Type. unfold put. destruct (is_null v); [reflexivity |]. destruct (f_one f && one); [reflexivity |]. destruct (set (f_num f) v a); reflexivity. Qed.

  Lemma unknown_step {A} t (set : N -> json -> A -> option A) k v l seen one a : find_field t k = None ->
    read_fields d t set ((k, v) :: l) seen one a = if d then read_fields d t set l seen one a else None.
  Proof using Type. intros E. cbn [read_fields]. rewrite E. reflexivity. Qed.

  Lemma fields_swap {A} t (set : N -> json -> A -> option A) l l' : commutes t set -> Permutation l l' ->
    forall seen one a, read_fields d t set l seen one a = read_fields d t set l' seen one a.
  Proof using Type.
    intros Hc. induction 1 as [| [k v] l l' H IH | [k1 v1] [k2 v2] l | l1 l2 l3 H1 IH1 H2 IH2]; intros seen one a; [reflexivity | | | rewrite IH1, IH2; reflexivity].
    - cbn [read_fields]. destruct (find_field t k) as [f |]; [| rewrite IH; reflexivity]. destruct (existsb _ seen); [reflexivity |].
      rewrite IH. destruct v; try reflexivity; (destruct (f_one f && one); [reflexivity |]; destruct (set (f_num f) _ a); [apply IH | reflexivity]).
    - destruct (find_field t k2) as [g |] eqn:E2; destruct (find_field t k1) as [f |] eqn:E1.
      + rewrite (read_put t set k2 v2 _ seen one a g E2), (read_put t set k1 v1 _ seen one a f E1).
        rewrite (put_ext set g v2 one a _ (fun o b => if existsb (N.eqb (f_num f)) (f_num g :: seen) then None
          else put set f v1 o b (fun o' b' => read_fields d t set l (f_num f :: f_num g :: seen) o' b'))) by (intros; apply read_put; exact E1).
        rewrite (put_ext set f v1 one a _ (fun o b => if existsb (N.eqb (f_num g)) (f_num f :: seen) then None
          else put set g v2 o b (fun o' b' => read_fields d t set l (f_num g :: f_num f :: seen) o' b'))) by (intros; apply read_put; exact E2).
        cbn [existsb]. rewrite (N.eqb_sym (f_num g) (f_num f)). destruct (N.eqb_spec (f_num f) (f_num g)) as [E | E].
        * cbn [orb]. rewrite !put_none. rewrite E. destruct (existsb (N.eqb (f_num g)) seen); reflexivity.
        * cbn [orb]. destruct (existsb (N.eqb (f_num g)) seen); destruct (existsb (N.eqb (f_num f)) seen); rewrite ?put_none; try reflexivity.
          rewrite (put_swap t set g f v2 v1 one a _ Hc (found_in _ _ _ E2) (found_in _ _ _ E1)) by congruence. apply put_ext. intros o b. apply put_ext.
          intros o' b'. apply seen_ext. intros n. cbn [existsb]. destruct (n =? f_num f); destruct (n =? f_num g); reflexivity.
      + rewrite (read_put t set k2 v2 _ seen one a g E2), (unknown_step t set k1 v1 _ seen one a E1), (read_put t set k2 v2 _ seen one a g E2).
        rewrite (put_ext set g v2 one a (fun o b => read_fields d t set ((k1, v1) :: l) (f_num g :: seen) o b) (fun o b => if d then read_fields d t set l (f_num g :: seen) o b else None)) by (intros; apply unknown_step; exact E1).
        destruct d; [reflexivity |]. rewrite put_none. destruct (existsb _ seen); reflexivity.
      + rewrite (read_put t set k1 v1 _ seen one a f E1), (unknown_step t set k2 v2 _ seen one a E2), (read_put t set k1 v1 _ seen one a f E1).
        rewrite (put_ext set f v1 one a (fun o b => read_fields d t set ((k2, v2) :: l) (f_num f :: seen) o b) (fun o b => if d then read_fields d t set l (f_num f :: seen) o b else None)) by (intros; apply unknown_step; exact E2).
        destruct d; [reflexivity |]. rewrite put_none. destruct (existsb _ seen); reflexivity.
      + rewrite !unknown_step by assumption. reflexivity.
  Qed.

  Lemma fields_nulls {A} t (set : N -> json -> A -> option A) l :
    (forall x f a b, In x l -> In f t -> set (f_num f) (snd x) a = Some b -> set (f_num f) (without_nulls (snd x)) a = Some b) ->
    forall seen seen' one a b, (forall n, existsb (N.eqb n) seen = false -> existsb (N.eqb n) seen' = false) ->
    read_fields d t set l seen one a = Some b ->
    read_fields d t set (map (fun x => (fst x, without_nulls (snd x))) (filter (fun x => negb (is_null (snd x))) l)) seen' one a = Some b.
  Proof using Type.
    induction l as [| [k v] l IH]; intros H seen seen' one a b Hs Hr; [exact Hr |].
    assert (IH' : forall seen seen' one a b, (forall n, existsb (N.eqb n) seen = false -> existsb (N.eqb n) seen' = false) ->
      read_fields d t set l seen one a = Some b ->
      read_fields d t set (map (fun x => (fst x, without_nulls (snd x))) (filter (fun x => negb (is_null (snd x))) l)) seen' one a = Some b).
    { apply IH. intros x f a0 b0 Hx. apply H. right. exact Hx. }
    clear IH. destruct (find_field t k) as [f |] eqn:E.
    - rewrite (read_put t set k v l seen one a f E) in Hr. destruct (existsb (N.eqb (f_num f)) seen) eqn:Es; [discriminate |]. unfold put in Hr.
      cbn [filter snd]. destruct (is_null v) eqn:En; cbn [negb].
      + apply (IH' (f_num f :: seen)); [| exact Hr]. intros n Hn. apply Hs. cbn [existsb] in Hn. apply orb_false_elim in Hn. tauto.
      + cbn [map fst snd]. rewrite (read_put t set k _ _ seen' one a f E), (Hs _ Es). unfold put. rewrite without_null, En.
        destruct (f_one f && one); [discriminate |]. destruct (set (f_num f) v a) as [a' |] eqn:Ea; [| discriminate].
        pose proof (H (k, v) f a a' (or_introl eq_refl) (found_in _ _ _ E) Ea) as Hw. cbn [snd] in Hw. rewrite Hw. apply (IH' (f_num f :: seen)); [| exact Hr].
        intros n Hn. cbn [existsb] in *. apply orb_false_elim in Hn as [H1 H2]. rewrite H1. exact (Hs n H2).
    - rewrite (unknown_step t set k v l seen one a E) in Hr. cbn [filter snd]. destruct d eqn:Ed; [| discriminate]. destruct (is_null v); cbn [negb].
      + apply (IH' seen); assumption.
      + cbn [map fst snd]. pose proof (unknown_step t set k (without_nulls v)) as Hu. rewrite Ed in Hu. rewrite Hu by exact E. apply (IH' seen); assumption.
  Qed.

  Lemma fields_once {A} t (set : N -> json -> A -> option A) l : d = false ->
    forall seen one a b, read_fields d t set l seen one a = Some b ->
    NoDup (map fst l) /\ (forall k f, In k (map fst l) -> find_field t k = Some f -> existsb (N.eqb (f_num f)) seen = false) /\
    forall x, In x l -> snd x = JNull \/ exists f a' b', In f t /\ set (f_num f) (snd x) a' = Some b'.
  Proof using Type.
    intros Hd. induction l as [| [k v] l IH]; intros seen one a b Hr; [repeat split; [constructor | intros k f [] | intros x []] |].
    destruct (find_field t k) as [f |] eqn:E; [| rewrite (unknown_step t set k v l seen one a E), Hd in Hr; discriminate].
    rewrite (read_put t set k v l seen one a f E) in Hr. destruct (existsb (N.eqb (f_num f)) seen) eqn:Es; [discriminate |]. unfold put in Hr.
    assert (exists one' a', read_fields d t set l (f_num f :: seen) one' a' = Some b /\ (v = JNull \/ exists b', set (f_num f) v a = Some b')) as (one' & a' & Hr' & Hv).
    { destruct (is_null v) eqn:En; [exists one, a; split; [exact Hr | left; destruct v; [reflexivity | discriminate..]] |].
      destruct (f_one f && one); [discriminate |]. destruct (set (f_num f) v a) as [a' |]; [| discriminate]. eauto 8. }
    destruct (IH _ _ _ _ Hr') as (H1 & H2 & H3). cbn [map fst]. repeat split.
    - constructor; [| exact H1]. intros Hk. specialize (H2 k f Hk E). cbn [existsb] in H2. rewrite N.eqb_refl in H2. discriminate.
    - intros k0 f0 [<- | Hk] E0; [congruence |]. specialize (H2 k0 f0 Hk E0). cbn [existsb] in H2. apply orb_false_elim in H2. tauto.
    - intros x [<- | Hx]; [| apply H3; exact Hx]. cbn [snd]. destruct Hv as [-> | [b' Hb]]; [left; reflexivity | right]. exists f, a, b'. split; [exact (found_in _ _ _ E) | exact Hb].
  Qed.

  Lemma good_message {A} n t (set : N -> json -> A -> option A) new : commutes t set ->
    (forall k f a, n = S k -> In f t -> good k (fun j => set (f_num f) j a)) -> good n (read_message d t set new).
  Proof using Type.
    intros Hc H. split.
    - intros j j' Hj Hr. inversion Hr as [| | l m l' Hl Hp]; subst; try reflexivity. cbn [read_message].
      destruct n as [| k]; [cbn [depth] in Hj; lia |].
      rewrite <- (fields_swap t set m l' Hc Hp).
      assert (K : forall x, In x l -> (depth (snd x) <= k)%nat) by (intros x Hx; pose proof (depth_member x l Hx); lia).
      clear Hj Hr Hp. generalize (@nil N) false new. induction Hl as [| [k1 v] [k2 v'] l l'' [E Hv] Hl IH]; intros seen one a; [reflexivity |].
      cbn [fst snd] in *. subst k2. specialize (IH (fun x Hx => K x (or_intror Hx))).
      destruct (find_field t k1) as [f |] eqn:E; [| rewrite !unknown_step by exact E; rewrite IH; reflexivity].
      rewrite (read_put t set k1 v _ seen one a f E), (read_put t set k1 v' _ seen one a f E). destruct (existsb _ seen); [reflexivity |]. unfold put.
      rewrite (g_order _ _ (H k f a eq_refl (found_in _ _ _ E)) v v' (K _ (or_introl eq_refl)) Hv).
      assert (is_null v = is_null v') as ->.
      { destruct v eqn:Ev; destruct v' eqn:Ev'; try reflexivity; exfalso; inversion Hv. }
      rewrite IH. destruct (is_null v'); [reflexivity |]. destruct (f_one f && one); [reflexivity |]. destruct (set (f_num f) v' a); [apply IH | reflexivity].
    - intros j x Hj. destruct j as [| | | | | | l]; try discriminate. rewrite without_object. cbn [read_message]. apply fields_nulls; [| auto].
      destruct n as [| k]; [cbn [depth] in Hj; lia |]. intros y f a b Hy Hf. pose proof (depth_member y l Hy). apply (g_nulls _ _ (H k f a eq_refl Hf)). lia.
    - intros Hd j x Hj. destruct j as [| | | | | | l]; try discriminate. cbn [read_message]. intros Hr. apply (fields_once t set l Hd) in Hr as (H1 & _ & H3).
      apply repeats_object. split; [exact H1 |]. intros y Hy. destruct (H3 y Hy) as [-> | (f & a' & b' & Hf & Hb)]; [exact I |].
      destruct n as [| k]; [cbn [depth] in Hj; lia |]. pose proof (depth_member y l Hy). apply (g_once _ _ (H k f a' eq_refl Hf) Hd (snd y) b'); [lia | exact Hb].
  Qed.

  (** *** The messages of the service *)

  Ltac commute_tac :=
    let f := fresh "f" in let g := fresh "g" in let v := fresh in let w := fresh in let a := fresh in
    let Hf := fresh in let Hg := fresh in let Hn := fresh in let Ho := fresh in
    intros f g v w a Hf Hg Hn Ho; cbn in Hf, Hg;
    repeat match type of Hf with _ \/ _ => destruct Hf as [<- | Hf] end; try (destruct Hf; fail);
    repeat match type of Hg with _ \/ _ => destruct Hg as [<- | Hg] end; try (destruct Hg; fail);
    cbn [f_num f_one fd fd_one andb] in *; try discriminate; try congruence.
  Ltac finish_commute := repeat match goal with |- context [omap _ ?x] => destruct x; cbn [omap fst snd]; try reflexivity end.
  Ltac fields_tac := let k := fresh "k" in let f := fresh "f" in let a := fresh "a" in let E := fresh in let Hf := fresh in
    intros k f a E Hf; cbn in Hf; repeat match type of Hf with _ \/ _ => destruct Hf as [<- | Hf] end; try (destruct Hf; fail); cbn [f_num fd fd_one].

  Lemma good_empty n : good n (read_empty d).
  Proof using Type. apply good_message; [intros f g v w a [] | intros k f a E []]. Qed.

  Lemma good_one_text n t f : t = [f] -> good n (read_message d t set_one_text ""%string).
  Proof using Type.
    intros ->. apply good_message; [intros g h v w a [<- | []] [<- | []] Hn; congruence |]. intros k g a _ [<- | []]. unfold set_one_text. apply good_text.
  Qed.
  Lemma good_two_texts n t j1 p1 j2 p2 : t = [fd 1 j1 p1; fd 2 j2 p2] -> good n (read_message d t set_two_texts (""%string, ""%string)).
  Proof using Type.
    intros ->. apply good_message; [commute_tac; cbn [set_two_texts]; finish_commute |]. fields_tac; cbn [set_two_texts]; apply good_omap, good_text.
  Qed.
  Lemma good_entity n : good n (read_entity d).
  Proof using Type. unfold read_entity. apply good_omap. eapply good_two_texts. reflexivity. Qed.
  Lemma good_entity_set n t j1 p1 j2 p2 : t = [fd 1 j1 p1; fd 2 j2 p2] -> good n (read_message d t (set_entity_set d) (None, ""%string)).
  Proof using Type.
    intros ->. apply good_message; [commute_tac; cbn [set_entity_set]; finish_commute |]. fields_tac; cbn [set_entity_set]; apply good_omap; [apply good_entity | apply good_text].
  Qed.
  Lemma good_subject n : good n (read_subject d).
  Proof using Type.
    apply good_message; [commute_tac |]. fields_tac; cbn [set_subject_member]; apply good_omap; [apply good_entity | eapply good_entity_set; reflexivity | eapply good_one_text; reflexivity].
  Qed.
  Lemma good_relationship n : good n (read_relationship d).
  Proof using Type.
    apply good_message; [commute_tac; cbn [set_relationship_part]; finish_commute |].
    fields_tac; cbn [set_relationship_part]; apply good_omap; [apply good_entity | apply good_text | apply good_subject].
  Qed.
  Lemma good_selector n : good n (read_selector d).
  Proof using Type.
    apply good_message; [commute_tac; cbn [set_selector_part]; finish_commute |].
    fields_tac; cbn [set_selector_part]; apply good_omap; (apply good_message; [commute_tac |]); fields_tac; cbn [set_obj_selector set_rel_selector set_subj_selector];
      apply good_omap; first [apply good_entity | apply good_empty | apply good_text | apply good_subject].
  Qed.
  Lemma good_access n : good n (read_access d).
  Proof using Type.
    apply good_message; [commute_tac; cbn [set_access_part]; finish_commute |].
    fields_tac; cbn [set_access_part]; apply good_omap; [apply good_entity | apply good_text | apply good_entity].
  Qed.
  Lemma good_rnode n : good n (read_rnode d).
  Proof using Type.
    apply good_message; [commute_tac |]. fields_tac; cbn [set_rnode]; apply good_omap; [eapply good_entity_set; reflexivity | | eapply good_one_text; reflexivity].
    apply good_message; [commute_tac |]. fields_tac. unfold set_entity_node. apply good_omap, good_entity.
  Qed.
  Lemma good_rule n : good n (read_rule d).
  Proof using Type.
    apply good_message; [commute_tac |]. fields_tac; cbn [set_rule]; apply good_omap; [apply good_empty | eapply good_one_text; reflexivity | eapply good_two_texts; reflexivity].
  Qed.
  Lemma good_tree n : good n (read_tree d).
  Proof using Type.
    induction n as [n IH] using lt_wf_ind. eapply good_ext; [intros j; symmetry; apply tree_unfold |].
    apply good_message; [commute_tac |]. intros k f a E Hf. subst n. cbn in Hf. destruct Hf as [<- | [<- | []]]; cbn [f_num fd_one set_node]; apply good_omap; [| apply good_rule].
    apply good_message; [commute_tac; cbn [set_op_node]; finish_commute |].
    intros k' f a' E Hf. subst k. cbn in Hf. destruct Hf as [<- | [<- | [<- | []]]]; cbn [f_num fd set_op_node]; apply good_omap; [apply IH; lia | apply good_enum | apply IH; lia].
  Qed.
  Lemma good_restriction n : good n (read_restriction d).
  Proof using Type.
    apply good_message; [commute_tac |]. fields_tac; cbn [set_restriction]; apply good_omap; [eapply good_one_text; reflexivity | eapply good_two_texts; reflexivity].
  Qed.
  Lemma good_relation n : good n (read_relation d).
  Proof using Type.
    apply good_message; [commute_tac; cbn [set_relation]; finish_commute |].
    fields_tac; cbn [set_relation]; apply good_omap; [apply good_text | apply good_text | |]; (apply good_message; [commute_tac |]); fields_tac;
      cbn [set_relexpr set_subj_restriction]; apply good_omap; [apply good_text | apply good_tree | | apply good_empty].
    apply good_message; [commute_tac |]. fields_tac. unfold set_restrictions. apply good_list. intros. apply good_restriction.
  Qed.
  Lemma good_resource n : good n (read_resource d).
  Proof using Type.
    apply good_message; [commute_tac; cbn [set_resource]; finish_commute |].
    fields_tac; cbn [set_resource]; apply good_omap; [apply good_text | apply good_text |]. apply good_list. intros. apply good_relation.
  Qed.
  Lemma good_policy n : good n (read_policy d).
  Proof using Type.
    apply good_message; [commute_tac; cbn [set_policy]; finish_commute |].
    fields_tac; cbn [set_policy]; apply good_omap; [apply good_text | apply good_text | apply good_text | | apply good_map].
    apply good_list. intros. apply good_resource.
  Qed.
  Lemma good_sent n : good n (read_sent d).
  Proof using Type. apply good_message; [commute_tac |]. fields_tac; cbn [set_sent]; apply good_omap; [apply good_policy | apply good_text]. Qed.

  Lemma good_about2 {X} n t (read : json -> option X) j1 p1 j2 p2 new : t = [fd 1 j1 p1; fd 2 j2 p2] -> (forall k, good k read) ->
    good n (read_message d t (set_about read no_field) new).
  Proof using Type.
    intros -> Hr. apply good_message; [commute_tac; cbn [set_about]; finish_commute |]. fields_tac; cbn [set_about]; apply good_omap; [apply good_text | apply Hr].
  Qed.
  Lemma good_about3 {X Y} n t (read : json -> option X) (lst : json -> option Y) j1 p1 j2 p2 j3 p3 new : t = [fd 1 j1 p1; fd 2 j2 p2; fd 3 j3 p3] ->
    (forall k, good k read) -> (forall k, good k lst) -> good n (read_message d t (set_about read lst) new).
  Proof using Type.
    intros -> Hr Hl. apply good_message; [commute_tac; cbn [set_about]; finish_commute |]. fields_tac; cbn [set_about]; apply good_omap; [apply good_text | apply Hr | apply Hl].
  Qed.

  Lemma good_call n m : good n (read_call d m).
  Proof using Type.
    destruct m; unfold read_call; apply good_omap;
      try (eapply good_one_text; reflexivity);
      try (eapply good_about2; [reflexivity |]; first [apply good_relationship | apply good_selector | apply good_access]);
      try (eapply good_about3; [reflexivity | first [apply good_relationship | apply good_access | apply good_rnode] | first [apply good_bytes | intros; apply good_enum]]);
      try apply good_empty; (apply good_message; [commute_tac; cbn [set_create set_dump]; finish_commute |]); fields_tac; cbn [set_create set_dump]; apply good_omap;
      first [apply good_sent | apply good_bytes | apply good_enum | apply good_text].
  Qed.
End Good.

(** ** Unknown members *)

Definition covers {A} (r r' : json -> option A) : Prop := forall j x, r j = Some x -> r' j = Some x.

Lemma covers_refl {A} (r : json -> option A) : covers r r.
Proof. intros j x H. exact H. Qed.
Lemma covers_omap {A B} (g : A -> B) r r' : covers r r' -> covers (fun j => omap g (r j)) (fun j => omap g (r' j)).
Proof. intros H j x. destruct (r j) as [y |] eqn:E; [| discriminate]. rewrite (H j y E). auto. Qed.
Lemma covers_list {A} (r r' : json -> option A) : covers r r' -> covers (read_list r) (read_list r').
Proof.
  intros H j x. destruct j as [| | | | | l |]; try discriminate. cbn [read_list]. revert x. induction l as [| y l IH]; intros x; [auto |]. cbn [read_all].
  destruct (r y) as [z |] eqn:E; [| discriminate]. rewrite (H y z E). destruct (read_all r l) as [zs |]; [| discriminate]. rewrite (IH zs eq_refl). auto.
Qed.
Lemma covers_message' {A} t (set set' : N -> json -> A -> option A) new l x :
  (forall f y a b, In f t -> In y l -> set (f_num f) (snd y) a = Some b -> set' (f_num f) (snd y) a = Some b) ->
  read_message false t set new (JObj l) = Some x -> read_message true t set' new (JObj l) = Some x.
Proof.
  intros H. cbn [read_message].
  enough (G : forall seen one a, read_fields false t set l seen one a = Some x -> read_fields true t set' l seen one a = Some x) by apply G.
  induction l as [| [k v] l IH]; intros seen one a Hr; [exact Hr |].
  assert (IH' := IH (fun f x a b Hf Hx => H f x a b Hf (or_intror Hx))). clear IH.
  destruct (find_field t k) as [f |] eqn:E; [| rewrite unknown_step in Hr by exact E; discriminate].
  rewrite (read_put _ t _ k v l seen one a f E) in Hr. rewrite (read_put _ t _ k v l seen one a f E). destruct (existsb _ seen); [discriminate |]. unfold put in *.
  destruct (is_null v); [apply IH', Hr |]. destruct (f_one f && one); [discriminate |]. destruct (set (f_num f) v a) as [a' |] eqn:Ea; [| discriminate].
  pose proof (H f (k, v) a a' (found_in _ _ _ E) (or_introl eq_refl) Ea) as K. cbn [snd] in K. rewrite K. apply IH', Hr.
Qed.
Lemma covers_message {A} t (set set' : N -> json -> A -> option A) new : (forall f a, In f t -> covers (fun j => set (f_num f) j a) (fun j => set' (f_num f) j a)) ->
  covers (read_message false t set new) (read_message true t set' new).
Proof.
  intros H j x. destruct j as [| | | | | | l]; try discriminate. apply covers_message'. intros f y a b Hf _. apply (H f a Hf).
Qed.

Ltac cover_tac := let f := fresh "f" in let a := fresh "a" in let Hf := fresh in
  intros f a Hf; cbn in Hf; repeat match type of Hf with _ \/ _ => destruct Hf as [<- | Hf] end; try (destruct Hf; fail); cbn [f_num fd fd_one].

Lemma covers_empty : covers (read_empty false) (read_empty true).
Proof. apply covers_message. intros f a []. Qed.
Lemma covers_one t : covers (read_message false t set_one_text ""%string) (read_message true t set_one_text ""%string).
Proof. apply covers_message. intros. apply covers_refl. Qed.
Lemma covers_two t : covers (read_message false t set_two_texts (""%string, ""%string)) (read_message true t set_two_texts (""%string, ""%string)).
Proof. apply covers_message. intros. apply covers_refl. Qed.
Lemma covers_entity : covers (read_entity false) (read_entity true).
Proof. unfold read_entity. apply covers_omap, covers_two. Qed.
Lemma covers_entity_set t j1 p1 j2 p2 : t = [fd 1 j1 p1; fd 2 j2 p2] ->
  covers (read_message false t (set_entity_set false) (None, ""%string)) (read_message true t (set_entity_set true) (None, ""%string)).
Proof. intros ->. apply covers_message. cover_tac; cbn [set_entity_set]; apply covers_omap; [apply covers_entity | apply covers_refl]. Qed.
Lemma covers_subject : covers (read_subject false) (read_subject true).
Proof.
  apply covers_message. cover_tac; cbn [set_subject_member]; apply covers_omap; [apply covers_entity | eapply covers_entity_set; reflexivity | apply covers_one].
Qed.
Lemma covers_relationship : covers (read_relationship false) (read_relationship true).
Proof. apply covers_message. cover_tac; cbn [set_relationship_part]; apply covers_omap; [apply covers_entity | apply covers_refl | apply covers_subject]. Qed.
Lemma covers_selector : covers (read_selector false) (read_selector true).
Proof.
  apply covers_message. cover_tac; cbn [set_selector_part]; apply covers_omap; apply covers_message; cover_tac; cbn [set_obj_selector set_rel_selector set_subj_selector];
    apply covers_omap; first [apply covers_entity | apply covers_empty | apply covers_refl | apply covers_subject].
Qed.
Lemma covers_access : covers (read_access false) (read_access true).
Proof. apply covers_message. cover_tac; cbn [set_access_part]; apply covers_omap; [apply covers_entity | apply covers_refl | apply covers_entity]. Qed.
Lemma covers_rnode : covers (read_rnode false) (read_rnode true).
Proof.
  apply covers_message. cover_tac; cbn [set_rnode]; apply covers_omap; [eapply covers_entity_set; reflexivity | | apply covers_one].
  apply covers_message. intros f a' _. unfold set_entity_node. apply covers_omap, covers_entity.
Qed.
Lemma covers_rule : covers (read_rule false) (read_rule true).
Proof. apply covers_message. cover_tac; cbn [set_rule]; apply covers_omap; [apply covers_empty | apply covers_one | apply covers_two]. Qed.
Lemma covers_tree n : forall j t, (depth j <= n)%nat -> read_tree false j = Some t -> read_tree true j = Some t.
Proof.
  induction n as [n IH] using lt_wf_ind. intros j t Hj. rewrite !tree_unfold. destruct j as [| | | | | | l]; try discriminate.
  apply covers_message'. intros f x a b Hf Hx. pose proof (depth_member x l Hx) as Hd. cbn in Hf. destruct Hf as [<- | [<- | []]]; cbn [f_num fd_one set_node].
  - intros H. destruct (read_message false t_op_node (set_op_node (read_tree false)) (TNil, OpUnion, TNil) (snd x)) as [y |] eqn:E; [| discriminate].
    destruct (snd x) as [| | | | | | m]; try discriminate. erewrite covers_message'; [exact H | | exact E].
    intros f z a0 b0 Hf Hz. pose proof (depth_member z m Hz) as Hd'. cbn in Hf. destruct Hf as [<- | [<- | [<- | []]]]; cbn [f_num fd set_op_node]; auto;
      (intros K; destruct (read_tree false (snd z)) as [w |] eqn:Ew; [| discriminate]; rewrite (IH (depth (snd z)) ltac:(lia) (snd z) w (le_n _) Ew); exact K).
  - apply (covers_omap _ _ _ covers_rule).
Qed.
Lemma covers_restriction : covers (read_restriction false) (read_restriction true).
Proof. apply covers_message. cover_tac; cbn [set_restriction]; apply covers_omap; [apply covers_one | apply covers_two]. Qed.
Lemma covers_relation : covers (read_relation false) (read_relation true).
Proof.
  apply covers_message. cover_tac; cbn [set_relation]; apply covers_omap; [apply covers_refl | apply covers_refl | |]; apply covers_message; cover_tac;
    cbn [set_relexpr set_subj_restriction]; apply covers_omap; [apply covers_refl | intros j x; apply (covers_tree (depth j)); lia | | apply covers_empty].
  apply covers_message. cover_tac. unfold set_restrictions. apply covers_list, covers_restriction.
Qed.
Lemma covers_resource : covers (read_resource false) (read_resource true).
Proof. apply covers_message. cover_tac; cbn [set_resource]; apply covers_omap; [apply covers_refl | apply covers_refl | apply covers_list, covers_relation]. Qed.
Lemma covers_policy : covers (read_policy false) (read_policy true).
Proof.
  apply covers_message. cover_tac; cbn [set_policy]; apply covers_omap; [apply covers_refl | apply covers_refl | apply covers_refl | apply covers_list, covers_resource | apply covers_refl].
Qed.
Lemma covers_sent : covers (read_sent false) (read_sent true).
Proof. apply covers_message. cover_tac; cbn [set_sent]; apply covers_omap; [apply covers_policy | apply covers_refl]. Qed.
Lemma covers_about {X Y} t (read read' : json -> option X) (lst : json -> option Y) new : covers read read' ->
  covers (read_message false t (set_about read lst) new) (read_message true t (set_about read' lst) new).
Proof.
  intros H. apply covers_message. intros f a _. unfold set_about. destruct (f_num f) as [| [[] | [] |]]; apply covers_omap; first [exact H | apply covers_refl].
Qed.
Lemma covers_call m : covers (read_call false m) (read_call true m).
Proof.
  destruct m; unfold read_call; apply covers_omap; try apply covers_one; try apply covers_empty;
    try (apply covers_about; first [apply covers_relationship | apply covers_selector | apply covers_access | apply covers_rnode]);
    apply covers_message; cover_tac; cbn [set_create set_dump]; apply covers_omap; first [apply covers_sent | apply covers_refl].
Qed.

Lemma unknown_skipped {A} t (set : N -> json -> A -> option A) new k v l l' : find_field t k = None ->
  read_message true t set new (JObj (l ++ (k, v) :: l')) = read_message true t set new (JObj (l ++ l')).
Proof.
  intros E. cbn [read_message]. generalize (@nil N) false. revert new. induction l as [| [k1 v1] l IH]; intros a seen one.
  - cbn [app]. rewrite unknown_step by exact E. reflexivity.
  - cbn [app]. destruct (find_field t k1) as [f |] eqn:E1.
    + rewrite !(read_put _ t _ k1 v1 _ seen one a f E1). destruct (existsb _ seen); [reflexivity |]. apply put_ext. intros. apply IH.
    + rewrite !unknown_step by exact E1. apply IH.
Qed.
Lemma unknown_refused {A} t (set : N -> json -> A -> option A) new k v l l' : find_field t k = None ->
  read_message false t set new (JObj (l ++ (k, v) :: l')) = None.
Proof.
  intros E. cbn [read_message].
  enough (G : forall seen one a, read_fields false t set (l ++ (k, v) :: l') seen one a = None) by apply G.
  induction l as [| [k1 v1] l IH]; intros seen one a.
  - cbn [app]. rewrite unknown_step by exact E. reflexivity.
  - cbn [app]. destruct (find_field t k1) as [f |] eqn:E1.
    + rewrite !(read_put _ t _ k1 v1 _ seen one a f E1). destruct (existsb _ seen); [reflexivity |]. rewrite (put_ext _ _ _ _ _ _ (fun _ _ => None)) by (intros; apply IH). apply put_none.
    + rewrite !unknown_step by exact E1. reflexivity.
Qed.

(** ** Fields given twice *)

(** The field that a member of an object is about. *)
Lemma two_members {A} d t (set : N -> json -> A -> option A) l l' l'' k1 v1 k2 v2 f g :
  find_field t k1 = Some f -> find_field t k2 = Some g ->
  f_num f = f_num g \/ (f_one f = true /\ f_one g = true /\ v1 <> JNull /\ v2 <> JNull) ->
  forall seen one a, read_fields d t set (l ++ (k1, v1) :: l' ++ (k2, v2) :: l'') seen one a = None.
Proof.
  intros E1 E2 H.
  assert (K2 : forall seen one a, existsb (N.eqb (f_num g)) seen = true \/ (f_one g = true /\ v2 <> JNull /\ one = true) ->
    read_fields d t set (l' ++ (k2, v2) :: l'') seen one a = None).
  { induction l' as [| [k v] l' IH]; intros seen one a Hs; cbn [app].
    - rewrite (read_put d t set k2 v2 l'' seen one a g E2). destruct (existsb _ seen); [reflexivity |]. destruct Hs as [Hs | (Hs1 & Hs2 & ->)]; [discriminate |].
      unfold put. rewrite Hs1. destruct v2; try reflexivity. congruence.
    - destruct (find_field t k) as [h |] eqn:E.
      + rewrite (read_put d t set k v _ seen one a h E). destruct (existsb (N.eqb (f_num h)) seen); [reflexivity |]. unfold put.
        assert (Hh : forall o, o = one \/ o = (f_one h || one)%bool -> existsb (N.eqb (f_num g)) (f_num h :: seen) = true \/ f_one g = true /\ v2 <> JNull /\ o = true).
        { intros o Ho. destruct Hs as [Hs | (Hs1 & Hs2 & ->)]; [left; cbn [existsb]; rewrite Hs, orb_true_r; reflexivity |]. right. repeat split; auto.
          destruct Ho as [-> | ->]; [reflexivity | apply orb_true_r]. }
        destruct (is_null v); [apply IH; apply Hh; auto |]. destruct (f_one h && one); [reflexivity |]. destruct (set (f_num h) v a); [apply IH; apply Hh; auto | reflexivity].
      + rewrite (unknown_step d t set k v _ seen one a E). destruct d; [apply IH; exact Hs | reflexivity]. }
  induction l as [| [k v] l IH]; intros seen one a; cbn [app].
  - rewrite (read_put d t set k1 v1 _ seen one a f E1). destruct (existsb _ seen); [reflexivity |]. unfold put. destruct H as [H | (H1 & H2 & H3 & H4)].
    + assert (Hs : existsb (N.eqb (f_num g)) (f_num f :: seen) = true) by (cbn [existsb]; rewrite H, N.eqb_refl; reflexivity).
      destruct (is_null v1); [apply K2; auto |]. destruct (f_one f && one); [reflexivity |]. destruct (set (f_num f) v1 a); [apply K2; auto | reflexivity].
    + destruct (is_null v1) eqn:En; [destruct v1; try discriminate; congruence |]. destruct (f_one f && one); [reflexivity |].
      destruct (set (f_num f) v1 a); [| reflexivity]. apply K2. right. rewrite H1. auto.
  - destruct (find_field t k) as [h |] eqn:E.
    + rewrite (read_put d t set k v _ seen one a h E). destruct (existsb _ seen); [reflexivity |]. rewrite (put_ext _ _ _ _ _ _ (fun _ _ => None)) by (intros; apply IH). apply put_none.
    + rewrite (unknown_step d t set k v _ seen one a E). destruct d; [apply IH | reflexivity].
Qed.

(** A member that cannot be read. *)
Lemma bad_member {A} d t (set : N -> json -> A -> option A) l l' k v f : find_field t k = Some f -> v <> JNull -> (forall a, set (f_num f) v a = None) ->
  forall seen one a, read_fields d t set (l ++ (k, v) :: l') seen one a = None.
Proof.
  intros E Hv H. induction l as [| [k1 v1] l IH]; intros seen one a; cbn [app].
  - rewrite (read_put d t set k v _ seen one a f E). destruct (existsb _ seen); [reflexivity |]. unfold put. rewrite H.
    destruct (is_null v) eqn:En; [destruct v; try discriminate; congruence |]. destruct (f_one f && one); reflexivity.
  - destruct (find_field t k1) as [h |] eqn:E1.
    + rewrite (read_put d t set k1 v1 _ seen one a h E1). destruct (existsb _ seen); [reflexivity |]. rewrite (put_ext _ _ _ _ _ _ (fun _ _ => None)) by (intros; apply IH). apply put_none.
    + rewrite (unknown_step d t set k1 v1 _ seen one a E1). destruct d; [apply IH | reflexivity].
Qed.
