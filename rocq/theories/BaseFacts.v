(** Facts about ordered keys, key-value stores and outcomes. *)
From Verif Require Import Base.

(** ** Outcomes *)

Lemma bind_ok {A B} (x : res A) (f : A -> res B) b :
  bind x f = Ok b -> exists a, x = Ok a /\ f a = Ok b.
Proof. destruct x; cbn; intros H; try discriminate. eauto. Qed.

Lemma map_res_ok {A B} (f : A -> res B) l bs :
  map_res f l = Ok bs <-> Forall2 (fun a b => f a = Ok b) l bs.
Proof.
  revert bs. induction l as [| a l IH]; cbn; intros bs.
  - split; intros H.
    + injection H as <-. constructor.
    + inversion H. reflexivity.
  - split; intros H.
    + apply bind_ok in H as (b & Hb & H). apply bind_ok in H as (bs' & Hbs & H).
      injection H as <-. constructor; [exact Hb | apply IH; exact Hbs].
    + inversion H as [| ? b ? bs' Hb Hbs]; subst. rewrite Hb. cbn.
      apply IH in Hbs. rewrite Hbs. reflexivity.
Qed.

Lemma for_each_ok {A} (f : A -> res unit) l :
  for_each f l = Ok tt <-> (forall a, In a l -> f a = Ok tt).
Proof.
  induction l as [| a l IH]; cbn.
  - split; [intros _ a [] | reflexivity].
  - split.
    + intros H. apply bind_ok in H as ([] & Ha & H). intros b [<- | Hb]; [exact Ha |].
      apply IH; assumption.
    + intros H. rewrite (H a (or_introl eq_refl)). cbn. apply IH. intros b Hb. apply H. right; exact Hb.
Qed.

(** ** String order *)

Lemma N_of_ascii_inj a b : N_of_ascii a = N_of_ascii b -> a = b.
Proof.
  intros H. rewrite <- (ascii_N_embedding a), <- (ascii_N_embedding b), H. reflexivity.
Qed.

Record cmp_ok {K} (cmp : K -> K -> comparison) : Prop := mkCmpOk {
  cmp_eq : forall a b, cmp a b = Eq <-> a = b;
  cmp_opp : forall a b, cmp b a = CompOpp (cmp a b);
  cmp_trans : forall a b c, cmp a b = Lt -> cmp b c = Lt -> cmp a c = Lt }.

Lemma scmp_eq a : forall b, scmp a b = Eq <-> a = b.
Proof.
  induction a as [| x a IH]; intros [| y b]; cbn; try (split; congruence).
  destruct (N.compare_spec (N_of_ascii x) (N_of_ascii y)) as [H | H | H].
  - apply N_of_ascii_inj in H as ->. rewrite IH. split; congruence.
  - split; [discriminate |]. intros [= -> _]. lia.
  - split; [discriminate |]. intros [= -> _]. lia.
Qed.

Lemma scmp_opp a : forall b, scmp b a = CompOpp (scmp a b).
Proof.
  induction a as [| x a IH]; intros [| y b]; cbn; try reflexivity.
  rewrite N.compare_antisym. destruct (N.compare (N_of_ascii x) (N_of_ascii y)); cbn; auto.
Qed.

Lemma scmp_trans a : forall b c, scmp a b = Lt -> scmp b c = Lt -> scmp a c = Lt.
Proof.
  induction a as [| x a IH]; intros [| y b] [| z c]; cbn; try discriminate; auto.
  destruct (N.compare_spec (N_of_ascii x) (N_of_ascii y)) as [H1 | H1 | H1]; try discriminate;
    destruct (N.compare_spec (N_of_ascii y) (N_of_ascii z)) as [H2 | H2 | H2]; try discriminate;
    intros Hab Hbc.
  - rewrite H1, H2, N.compare_refl. eauto.
  - rewrite H1. apply N.compare_lt_iff in H2 as ->. reflexivity.
  - rewrite <- H2. apply N.compare_lt_iff in H1 as ->. reflexivity.
  - assert (N_of_ascii x < N_of_ascii z)%N as H by lia.
    apply N.compare_lt_iff in H as ->. reflexivity.
Qed.

Lemma scmp_ok : cmp_ok scmp.
Proof. constructor; [apply scmp_eq | apply scmp_opp | apply scmp_trans]. Qed.

Lemma lex_cmp_ok {A B} (ca : A -> A -> comparison) (cb : B -> B -> comparison) :
  cmp_ok ca -> cmp_ok cb ->
  cmp_ok (fun x y : A * B =>
            match ca (fst x) (fst y) with Eq => cb (snd x) (snd y) | c => c end).
Proof.
  intros [ea oa ta] [eb ob tb]. constructor.
  - intros [a b] [a' b']. cbn. destruct (ca a a') eqn:H.
    + apply ea in H as ->. rewrite eb. split; congruence.
    + split; [discriminate |]. intros [= <- _].
      assert (ca a a = Eq) as Hr by (apply ea; reflexivity). congruence.
    + split; [discriminate |]. intros [= <- _].
      assert (ca a a = Eq) as Hr by (apply ea; reflexivity). congruence.
  - intros [a b] [a' b']. cbn. rewrite oa. destruct (ca a a'); cbn; auto.
  - intros [a b] [a' b'] [a'' b'']. cbn.
    destruct (ca a a') eqn:H1; try discriminate; destruct (ca a' a'') eqn:H2; try discriminate;
      intros Hx Hy.
    + apply ea in H1 as ->. rewrite H2. eauto.
    + apply ea in H1 as ->. rewrite H2. reflexivity.
    + apply ea in H2 as ->. rewrite H1. reflexivity.
    + rewrite (ta _ _ _ H1 H2). reflexivity.
Qed.

Lemma pcmp_ok : cmp_ok pcmp.
Proof. exact (lex_cmp_ok scmp scmp scmp_ok scmp_ok). Qed.

(** ** Key-value stores *)

Section KVFacts.
  Context {K V : Type} (cmp : K -> K -> comparison) (OK : cmp_ok cmp).

  Notation get := (@kv_get K V cmp).
  Notation set := (@kv_set K V cmp).
  Notation del := (@kv_del K V cmp).

  (** Keys strictly increase. *)
  Fixpoint kv_sorted (m : list (K * V)) : Prop :=
    match m with
    | [] => True
    | (k, _) :: m' => (forall k' v', In (k', v') m' -> cmp k k' = Lt) /\ kv_sorted m'
    end.

  Lemma cmp_refl k : cmp k k = Eq.
  Proof. apply (cmp_eq _ OK). reflexivity. Qed.

  Lemma cmp_gt_lt a b : cmp a b = Gt -> cmp b a = Lt.
  Proof. intros H. rewrite (cmp_opp _ OK a b), H. reflexivity. Qed.

  Lemma cmp_neq a b : cmp a b <> Eq <-> a <> b.
  Proof. rewrite (cmp_eq _ OK). tauto. Qed.

  Lemma get_set_same k v m : get k (set k v m) = Some v.
  Proof.
    induction m as [| [k' v'] m IH]; cbn.
    - rewrite cmp_refl. reflexivity.
    - destruct (cmp k k') eqn:H; cbn.
      + rewrite cmp_refl. reflexivity.
      + rewrite cmp_refl. reflexivity.
      + rewrite H. exact IH.
  Qed.

  Lemma get_set_other k k0 v m : k0 <> k -> get k0 (set k v m) = get k0 m.
  Proof.
    intros Hne. apply cmp_neq in Hne.
    induction m as [| [k' v'] m IH]; cbn.
    - destruct (cmp k0 k); congruence.
    - destruct (cmp k k') eqn:H; cbn.
      + apply (cmp_eq _ OK) in H as <-. destruct (cmp k0 k); congruence.
      + destruct (cmp k0 k); try reflexivity. congruence.
      + destruct (cmp k0 k'); auto.
  Qed.

  Lemma get_del_same k m : get k (del k m) = None.
  Proof.
    induction m as [| [k' v'] m IH]; cbn; [reflexivity |].
    destruct (cmp k k') eqn:H; cbn; rewrite ?H; exact IH.
  Qed.

  Lemma get_del_other k k0 m : k0 <> k -> get k0 (del k m) = get k0 m.
  Proof.
    intros Hne. apply cmp_neq in Hne.
    induction m as [| [k' v'] m IH]; cbn; [reflexivity |].
    destruct (cmp k k') eqn:H; cbn.
    - apply (cmp_eq _ OK) in H as <-. destruct (cmp k0 k); congruence.
    - destruct (cmp k0 k'); auto.
    - destruct (cmp k0 k'); auto.
  Qed.

  Lemma get_set k v m k0 :
    get k0 (set k v m) = match cmp k0 k with Eq => Some v | _ => get k0 m end.
  Proof.
    destruct (cmp k0 k) eqn:H.
    - apply (cmp_eq _ OK) in H as ->. apply get_set_same.
    - apply get_set_other. apply cmp_neq. congruence.
    - apply get_set_other. apply cmp_neq. congruence.
  Qed.

  Lemma get_del k m k0 :
    get k0 (del k m) = match cmp k0 k with Eq => None | _ => get k0 m end.
  Proof.
    destruct (cmp k0 k) eqn:H.
    - apply (cmp_eq _ OK) in H as ->. apply get_del_same.
    - apply get_del_other. apply cmp_neq. congruence.
    - apply get_del_other. apply cmp_neq. congruence.
  Qed.

  Lemma get_in k v m : get k m = Some v -> In (k, v) m.
  Proof.
    induction m as [| [k' v'] m IH]; cbn; [discriminate |].
    destruct (cmp k k') eqn:H; auto.
    apply (cmp_eq _ OK) in H as <-. intros [= <-]. left. reflexivity.
  Qed.

  Lemma in_get k v m : kv_sorted m -> In (k, v) m -> get k m = Some v.
  Proof.
    induction m as [| [k' v'] m IH]; cbn; [intros _ [] |].
    intros [Hlt Hs] [[= -> ->] | Hin].
    - rewrite cmp_refl. reflexivity.
    - specialize (Hlt _ _ Hin). rewrite (cmp_opp _ OK), Hlt. cbn. auto.
  Qed.

  Lemma get_iff k v m : kv_sorted m -> (get k m = Some v <-> In (k, v) m).
  Proof. intros Hs. split; [apply get_in | apply in_get; exact Hs]. Qed.

  Lemma in_set k v m k0 v0 :
    In (k0, v0) (set k v m) -> (k0 = k /\ v0 = v) \/ In (k0, v0) m.
  Proof.
    induction m as [| [k' v'] m IH]; cbn.
    - intros [[= <- <-] | []]; auto.
    - destruct (cmp k k') eqn:H; cbn.
      + intros [[= <- <-] | Hin]; auto.
      + intros [[= <- <-] | Hin]; auto.
      + intros [[= <- <-] | Hin]; auto. destruct (IH Hin) as [? | ?]; auto.
  Qed.

  Lemma in_del k m k0 v0 : In (k0, v0) (del k m) <-> In (k0, v0) m /\ k0 <> k.
  Proof.
    induction m as [| [k' v'] m IH]; cbn; [tauto |].
    destruct (cmp k k') eqn:H; cbn.
    - apply (cmp_eq _ OK) in H as <-. rewrite IH. split; [tauto |].
      intros [[[= <- _] | Hin] Hne]; [congruence | auto].
    - rewrite IH. split.
      + intros [[= <- <-] | [Hin Hne]]; [| auto]. split; [auto |]. intros <-.
        rewrite cmp_refl in H. discriminate.
      + intros [[Heq | Hin] Hne]; auto.
    - rewrite IH. split.
      + intros [[= <- <-] | [Hin Hne]]; [| auto]. split; [auto |]. intros <-.
        rewrite cmp_refl in H. discriminate.
      + intros [[Heq | Hin] Hne]; auto.
  Qed.

  Lemma sorted_set k v m : kv_sorted m -> kv_sorted (set k v m).
  Proof.
    induction m as [| [k' v'] m IH]; cbn.
    - intros _. split; [intros ? ? [] | exact I].
    - intros [Hlt Hs]. destruct (cmp k k') eqn:H; cbn.
      + apply (cmp_eq _ OK) in H as <-. auto.
      + split; [| auto]. intros k1 v1 [[= <- <-] | Hin]; [exact H |].
        eapply (cmp_trans _ OK); [exact H | eauto].
      + split; [| auto]. intros k1 v1 Hin. apply in_set in Hin as [[-> ->] | Hin]; [| eauto].
        apply cmp_gt_lt. exact H.
  Qed.

  Lemma sorted_del k m : kv_sorted m -> kv_sorted (del k m).
  Proof.
    induction m as [| [k' v'] m IH]; cbn; [auto |].
    intros [Hlt Hs]. destruct (cmp k k') eqn:H; cbn; auto.
    - split; [| auto]. intros k1 v1 Hin. apply in_del in Hin as [Hin _]. eauto.
    - split; [| auto]. intros k1 v1 Hin. apply in_del in Hin as [Hin _]. eauto.
  Qed.

  Lemma sorted_nodup m : kv_sorted m -> NoDup (map fst m).
  Proof.
    induction m as [| [k v] m IH]; cbn; [constructor |].
    intros [Hlt Hs]. constructor; [| auto].
    intros Hin. apply in_map_iff in Hin as ([k' v'] & Hk & Hin). cbn in Hk. subst k'.
    specialize (Hlt _ _ Hin). rewrite cmp_refl in Hlt. discriminate.
  Qed.

  Lemma sorted_ext m1 : forall m2,
    kv_sorted m1 -> kv_sorted m2 -> (forall k, get k m1 = get k m2) -> m1 = m2.
  Proof.
    assert (forall k v m2, kv_sorted m2 -> get k m2 = None -> In (k, v) m2 -> False) as Hnone.
    { intros k v m2 Hs Hn Hin. apply in_get in Hin; [congruence | exact Hs]. }
    induction m1 as [| [k1 v1] m1 IH]; intros [| [k2 v2] m2] Hs1 Hs2 Heq.
    - reflexivity.
    - specialize (Heq k2). cbn in Heq. rewrite cmp_refl in Heq. discriminate.
    - specialize (Heq k1). cbn in Heq. rewrite cmp_refl in Heq. discriminate.
    - cbn in Hs1, Hs2. destruct Hs1 as [Hlt1 Hs1], Hs2 as [Hlt2 Hs2].
      assert (k1 = k2 /\ v1 = v2) as [-> ->].
      { pose proof (Heq k1) as H1. pose proof (Heq k2) as H2. cbn in H1, H2.
        rewrite cmp_refl in H1, H2. destruct (cmp k1 k2) eqn:Hc.
        - apply (cmp_eq _ OK) in Hc. split; congruence.
        - symmetry in H1. apply get_in in H1. specialize (Hlt2 _ _ H1).
          rewrite (cmp_opp _ OK), Hc in Hlt2. discriminate.
        - rewrite (cmp_opp _ OK), Hc in H2. cbn in H2. apply get_in in H2.
          specialize (Hlt1 _ _ H2). congruence. }
      f_equal. apply IH; auto. intros k. specialize (Heq k). cbn in Heq.
      destruct (cmp k k2) eqn:Hc; auto.
      apply (cmp_eq _ OK) in Hc as ->.
      destruct (get k2 m1) eqn:G1.
      { apply get_in in G1. specialize (Hlt1 _ _ G1). rewrite cmp_refl in Hlt1. discriminate. }
      destruct (get k2 m2) eqn:G2; [| reflexivity].
      apply get_in in G2. specialize (Hlt2 _ _ G2). rewrite cmp_refl in Hlt2. discriminate.
  Qed.
  Lemma set_length_same k v v' m : kv_sorted m -> get k m = Some v' -> length (set k v m) = length m.
  Proof.
    induction m as [| [k' w] m IH]; cbn; [discriminate |].
    intros [Hlt Hs] Hg. destruct (cmp k k') eqn:H; cbn; auto.
    apply get_in in Hg. specialize (Hlt _ _ Hg). rewrite (cmp_opp _ OK), H in Hlt. discriminate.
  Qed.
End KVFacts.
