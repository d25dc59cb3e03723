(** Proofs about the flat store. *)
From Verif Require Import Base Domain Lexer Store Search Explain Yaml Service Dump Api SpecConc SpecLayout Layout
  BaseFacts NameFacts ValidateFacts StoreFacts PolicyFacts RelFacts SearchRun ConcFacts.

(** ** Keys *)

Lemma rest_after_iff p : forall s r, rest_after p s = Some r <-> s = p +++ r.
Proof.
  induction p as [| c p IH]; intros s r; cbn.
  - split; [intros [= ->]; reflexivity | intros ->; reflexivity].
  - destruct s as [| d s]; [split; discriminate |]. destruct (Ascii.eqb c d) eqn:Hc.
    + apply Ascii.eqb_eq in Hc as <-. rewrite IH. split; [intros ->; reflexivity | intros [= ->]; reflexivity].
    + split; [discriminate |]. intros [= -> _]. rewrite Ascii.eqb_refl in Hc. discriminate.
Qed.

Lemma split_at_app L : forall a b, String.length a = L -> split_at L (a +++ b) = (a, b).
Proof.
  induction L as [| L IH]; intros [| c a] b H; cbn in *; try discriminate; [destruct b; reflexivity |].
  injection H as H. rewrite (IH a b H). reflexivity.
Qed.

Lemma scmp_app p : forall a b, scmp (p +++ a) (p +++ b) = scmp a b.
Proof. induction p as [| c p IH]; intros a b; cbn; [reflexivity |]. rewrite N.compare_refl. apply IH. Qed.

Lemma scmp_pair a : forall b a' b', String.length a = String.length a' -> scmp (a +++ b) (a' +++ b') = pcmp (a, b) (a', b').
Proof.
  unfold pcmp. cbn [fst snd]. induction a as [| c a IH]; intros b [| c' a'] b' H; cbn in *; try discriminate; [reflexivity |].
  destruct (N.compare (N_of_ascii c) (N_of_ascii c')) eqn:Hc; [| reflexivity | reflexivity]. apply IH. congruence.
Qed.

Definition keyed (L : nat) (k : string * string) : Prop := String.length (fst k) = L /\ String.length (snd k) = L.

Lemma keyed_edge E L e : hashes_to E L -> keyed L (edge_key E e).
Proof. intros H. split; apply H. Qed.

Lemma app_same_length a : forall b a' b', String.length a = String.length a' -> a +++ b = a' +++ b' -> a = a' /\ b = b'.
Proof.
  induction a as [| c a IH]; intros b [| c' a'] b' Hl H; cbn in *; try discriminate; [auto |].
  injection Hl as Hl. injection H as -> H. destruct (IH _ _ _ Hl H) as [-> ->]. auto.
Qed.

Lemma length_app a b : String.length (a +++ b) = String.length a + String.length b.
Proof. induction a as [| c a IH]; cbn; [reflexivity |]. rewrite IH. reflexivity. Qed.

Lemma app_cancel p : forall a b, p +++ a = p +++ b -> a = b.
Proof. induction p as [| c p IH]; intros a b H; [exact H |]. cbn in H. injection H as H. auto. Qed.

Lemma app_assoc_s a b c : (a +++ b) +++ c = a +++ b +++ c.
Proof. induction a as [| x a IH]; cbn; [reflexivity |]. rewrite IH. reflexivity. Qed.

(** Two texts that begin the same one. *)
Lemma both_begin a : forall b x y, a +++ x = b +++ y -> (exists t, a = b +++ t) \/ (exists t, b = a +++ t).
Proof.
  induction a as [| c a IH]; intros [| d b] x y H; cbn in *; [left; exists ""; reflexivity | right; eexists; reflexivity | left; eexists; reflexivity |].
  injection H as -> H. destruct (IH _ _ _ H) as [[t ->] | [t ->]]; [left | right]; exists t; reflexivity.
Qed.

Section Keys.
  Variables (sep : string) (L : nat) (U : string -> Prop).
  Hypothesis HU : apart sep U.

  Lemma apart_begin p q x y : U p -> U q -> policy_prefix sep p +++ x = policy_prefix sep q +++ y -> p = q /\ x = y.
  Proof.
    intros Hp Hq H. unfold policy_prefix in H. cbn in H. injection H as H.
    assert (p = q) as <-.
    { destruct (both_begin _ _ _ _ H) as [[t Ht] | [t Ht]]; [| symmetry]; eapply HU; eauto. }
    split; [reflexivity |]. exact (app_cancel _ _ _ H).
  Qed.

  Lemma relationship_key_inj p q k k' : U p -> U q -> keyed L k -> keyed L k' -> relationship_key sep p k = relationship_key sep q k' -> p = q /\ k = k'.
  Proof.
    intros Hp Hq [Hk _] [Hk' _] H. apply apart_begin in H as [-> H]; auto. destruct k as [a b], k' as [a' b']. cbn in *.
    apply app_same_length in H as [-> ->]; [auto | congruence].
  Qed.

  Lemma record_key_inj k k' : keyed L k -> keyed L k' -> record_key k = record_key k' -> k = k'.
  Proof.
    intros [Hk _] [Hk' _] H. destruct k as [a b], k' as [a' b']. unfold record_key in H. cbn in *. injection H as H.
    apply app_same_length in H as [-> ->]; [auto | congruence].
  Qed.
End Keys.

Lemma policy_key_inj a b : policy_key a = policy_key b -> a = b.
Proof. intros [= H]. exact H. Qed.

(** ** Sorted lists through a partial, increasing map *)

Lemma sorted_through {K V K' V'} (cmp : K -> K -> comparison) (cmp' : K' -> K' -> comparison) (f : K * V -> list (K' * V')) m :
  kv_sorted cmp m ->
  (forall x, In x m -> f x = [] \/ exists y, f x = [y]) ->
  (forall k v k' v' y y', In (k, v) m -> In (k', v') m -> f (k, v) = [y] -> f (k', v') = [y'] -> cmp k k' = Lt -> cmp' (fst y) (fst y') = Lt) ->
  kv_sorted cmp' (flat_map f m).
Proof.
  intros Hs Hone Hlt. induction m as [| [k v] m IH]; cbn; [exact I |]. cbn in Hs. destruct Hs as [Hk Hs].
  assert (kv_sorted cmp' (flat_map f m)) as IH'.
  { apply IH; [exact Hs | intros; apply Hone; right; assumption |]. intros; eapply Hlt; eauto; right; assumption. }
  destruct (Hone (k, v) (or_introl eq_refl)) as [-> | [[k1 v1] Hf]]; [exact IH' |]. rewrite Hf. cbn. split; [| exact IH'].
  intros k2 v2 Hin. apply in_flat_map in Hin as ([k3 v3] & Hin & Hy).
  destruct (Hone (k3, v3) (or_intror Hin)) as [Hn | [y Hn]]; rewrite Hn in Hy; [destruct Hy |]. destruct Hy as [-> | []].
  exact (Hlt k v k3 v3 (k1, v1) (k2, v2) (or_introl eq_refl) (or_intror Hin) Hf Hn (Hk _ _ Hin)).
Qed.

Lemma sorted_same {K V} (cmp : K -> K -> comparison) (OK : cmp_ok cmp) (m1 m2 : list (K * V)) : kv_sorted cmp m1 -> kv_sorted cmp m2 ->
  (forall k v, In (k, v) m1 <-> In (k, v) m2) -> m1 = m2.
Proof.
  intros H1 H2 H. apply (sorted_ext cmp OK); auto. intros k. destruct (kv_get cmp k m1) as [v |] eqn:G1.
  - symmetry. apply (in_get cmp OK); [exact H2 |]. apply H, (get_in cmp OK), G1.
  - destruct (kv_get cmp k m2) as [v |] eqn:G2; [| reflexivity]. exfalso.
    apply (get_in cmp OK), H, (in_get cmp OK) in G2; [congruence | exact H1].
Qed.

(** ** Programs whose relationship keys fit the layout *)

Inductive fits (U : string -> Prop) (L : nat) {A} : prog A -> Prop :=
| fi_ret a : fits U L (Ret a)
| fi_polget id k : (forall x, fits U L (k x)) -> fits U L (PolGet id k)
| fi_polhas id k : (forall x, fits U L (k x)) -> fits U L (PolHas id k)
| fi_polset id r k : fits U L k -> fits U L (PolSet id r k)
| fi_poldel id k : fits U L k -> fits U L (PolDel id k)
| fi_polids k : (forall x, fits U L (k x)) -> fits U L (PolIds k)
| fi_edgeget pid key k : U pid -> keyed L key -> (forall x, fits U L (k x)) -> fits U L (EdgeGet pid key k)
| fi_edgeset pid key e k : U pid -> keyed L key -> fits U L k -> fits U L (EdgeSet pid key e k)
| fi_edgedel pid key k : U pid -> keyed L key -> fits U L k -> fits U L (EdgeDel pid key k)
| fi_edgelist pid k : U pid -> (forall x, fits U L (k x)) -> fits U L (EdgeList pid k)
| fi_dataget key k : keyed L key -> (forall x, fits U L (k x)) -> fits U L (DataGet key k)
| fi_dataset key d k : keyed L key -> fits U L k -> fits U L (DataSet key d k)
| fi_datadel key k : keyed L key -> fits U L k -> fits U L (DataDel key k).

Lemma fits_pbind U L {A B} (p : prog A) (f : A -> prog B) : fits U L p -> (forall a, fits U L (f a)) -> fits U L (pbind p f).
Proof. intros Hp Hf. induction Hp; cbn [pbind]; auto; constructor; auto. Qed.

Lemma fits_rbind U L {A B} (p : prog (res A)) (f : A -> prog (res B)) : fits U L p -> (forall a, fits U L (f a)) -> fits U L (rbind p f).
Proof. intros Hp Hf. apply fits_pbind; [exact Hp |]. intros []; auto; constructor. Qed.

Lemma fits_respond U L {A} (p : prog (res A)) f : fits U L p -> fits U L (respond p f).
Proof. intros Hp. apply fits_rbind; [exact Hp |]. intros a. constructor. Qed.

Lemma fits_map U L {A B} (f : A -> prog (res B)) l : (forall a, fits U L (f a)) -> fits U L (map_prog f l).
Proof.
  intros Hf. induction l as [| a l IH]; cbn; [constructor |]. apply fits_rbind; [apply Hf |]. intros b. apply fits_rbind; [exact IH |].
  intros bs. constructor.
Qed.

Lemma fits_scans (U : string -> Prop) L pid {A} (p : prog A) : U pid -> scans pid p -> fits U L p.
Proof. intros HU. induction 1; constructor; auto. Qed.

Ltac fits_tac :=
  repeat first
    [ assumption
    | apply keyed_edge; assumption
    | match goal with
      | |- fits _ _ (respond _ _) => apply fits_respond
      | |- fits _ _ (rbind _ _) => apply fits_rbind
      | |- fits _ _ (pbind _ _) => apply fits_pbind
      | |- fits _ _ (map_prog _ _) => apply fits_map
      | |- fits _ _ (search_prog _ _ ?pid _ _ _) => apply (fits_scans _ _ pid); [| apply scans_search]
      | |- fits _ _ (match ?x with _ => _ end) => destruct x eqn:?
      | |- fits _ _ (lift _) => apply fi_ret
      | |- fits _ _ _ => constructor
      | |- forall _, _ => intros
      end ].

Lemma fits_serve E (U : string -> Prop) L q : hashes_to E L -> (forall pid, about q = Some pid -> U pid) -> fits U L (serve E q).
Proof.
  intros HL HU. destruct q; cbn [serve]; cbn [about] in HU; try (specialize (HU _ eq_refl));
    unfold create_policy, update_policy, delete_policy, get_policy, list_policy_ids, set_relationship, delete_relationship, get_relationship,
      find_relationship_records, delete_relationships, check, explain_check, check_search, expand, dump_relationships,
      repo_delete_relationships, repo_find_relationship_records, repo_find_relationships, repo_delete_relationship, repo_get_relationship,
      repo_set_relationship, repo_set_policy, repo_delete_policy, repo_list_policy_ids, repo_get_policy; fits_tac.
Qed.

(** ** The flat store holds exactly what the typed store holds *)

Lemma edges_of_raw pid s k e : In (k, e) (edges_of pid s) <-> In ((pid, k), e) (st_edges s).
Proof.
  unfold edges_of. rewrite in_map_iff. split.
  - intros ([[p k'] e'] & H & Hin). cbn in H. injection H as <- <-. apply filter_In in Hin as [Hin Hp]. cbn in Hp.
    apply String.eqb_eq in Hp as ->. exact Hin.
  - intros Hin. exists ((pid, k), e). split; [reflexivity |]. apply filter_In. split; [exact Hin |]. cbn. apply String.eqb_refl.
Qed.

Section Sim.
  Variables (sep : string) (L : nat) (U : string -> Prop).
  Hypothesis HU : apart sep U.

  Record laid (m : flat) (s : store) : Prop := {
    la_m : kv_sorted scmp m;
    la_p : kv_sorted scmp (st_pol s);
    la_e : kv_sorted ecmp (st_edges s);
    la_d : kv_sorted pcmp (st_data s);
    la_pol : forall id, kv_get scmp (policy_key id) m = option_map VPolicy (kv_get scmp id (st_pol s));
    la_edge : forall pid k, U pid -> keyed L k -> kv_get scmp (relationship_key sep pid k) m = option_map VEdge (kv_get ecmp (pid, k) (st_edges s));
    la_data : forall k, keyed L k -> kv_get scmp (record_key k) m = option_map VData (kv_get pcmp k (st_data s));
    la_only : forall x v, kv_get scmp x m = Some v ->
      (exists id, x = policy_key id) \/ (exists pid k, U pid /\ keyed L k /\ x = relationship_key sep pid k) \/ (exists k, keyed L k /\ x = record_key k);
    la_edges_only : forall pid k e, kv_get ecmp (pid, k) (st_edges s) = Some e -> U pid /\ keyed L k }.

  Lemma laid_empty : laid [] empty_store.
  Proof. constructor; cbn; try exact I; auto; discriminate. Qed.

  Lemma laid_policy m s id : laid m s -> policy_at id m = kv_get scmp id (st_pol s).
  Proof. intros H. unfold policy_at. rewrite (la_pol _ _ H). destruct (kv_get scmp id (st_pol s)); reflexivity. Qed.

  Lemma laid_edge m s pid k : laid m s -> U pid -> keyed L k -> edge_at sep pid k m = kv_get ecmp (pid, k) (st_edges s).
  Proof. intros H Hp Hk. unfold edge_at. rewrite (la_edge _ _ H _ _ Hp Hk). destruct (kv_get ecmp (pid, k) (st_edges s)); reflexivity. Qed.

  Lemma laid_data m s k : laid m s -> keyed L k -> data_at k m = kv_get pcmp k (st_data s).
  Proof. intros H Hk. unfold data_at. rewrite (la_data _ _ H _ Hk). destruct (kv_get pcmp k (st_data s)); reflexivity. Qed.

  Lemma laid_policies m s : laid m s -> policies_in m = st_pol s.
  Proof.
    intros H. apply (sorted_same scmp scmp_ok); [| apply (la_p _ _ H) |].
    - unfold policies_in. apply (sorted_through scmp scmp); [apply (la_m _ _ H) | |].
      + intros [k v] _. cbn [fst snd]. destruct (rest_after "1" k) as [r |]; [| auto]. destruct v; eauto.
      + intros k v k' v' y y' _ _ Hy Hy' Hlt. cbn [fst snd] in Hy, Hy'.
        destruct (rest_after "1" k) as [r |] eqn:Hr; [| discriminate]. destruct v; try discriminate. injection Hy as <-.
        destruct (rest_after "1" k') as [r' |] eqn:Hr'; [| discriminate]. destruct v'; try discriminate. injection Hy' as <-.
        apply rest_after_iff in Hr as ->. apply rest_after_iff in Hr' as ->. rewrite scmp_app in Hlt. exact Hlt.
    - intros id r. unfold policies_in. rewrite in_flat_map. rewrite <- (get_iff scmp scmp_ok _ _ _ (la_p _ _ H)). split.
      + intros ([k v] & Hin & Hy). cbn [fst snd] in Hy. destruct (rest_after "1" k) as [x |] eqn:Hr; [| destruct Hy].
        destruct v; try (destruct Hy; fail). destruct Hy as [[= -> ->] | []]. apply rest_after_iff in Hr. change (k = policy_key id) in Hr. subst k.
        apply (in_get scmp scmp_ok) in Hin; [| apply (la_m _ _ H)]. rewrite (la_pol _ _ H) in Hin.
        destruct (kv_get scmp id (st_pol s)); [injection Hin as ->; reflexivity | discriminate].
      + intros Hg. exists (policy_key id, VPolicy r). split.
        * apply (get_in scmp scmp_ok). rewrite (la_pol _ _ H), Hg. reflexivity.
        * cbn [fst snd]. rewrite (proj2 (rest_after_iff "1" (policy_key id) id) eq_refl). left. reflexivity.
  Qed.

  (** What lies under the prefix of [pid] are the relationships of [pid]. *)
  Lemma under_prefix m s pid x v r : laid m s -> U pid -> In (x, v) m -> rest_after (policy_prefix sep pid) x = Some r ->
    exists k, keyed L k /\ r = fst k +++ snd k /\ x = relationship_key sep pid k.
  Proof.
    intros H Hp Hin Hr. apply rest_after_iff in Hr. apply (in_get scmp scmp_ok) in Hin; [| apply (la_m _ _ H)].
    destruct (la_only _ _ H _ _ Hin) as [[id ->] | [(q & k & Hq & Hk & ->) | (k & Hk & ->)]]; try discriminate.
    apply (apart_begin sep U HU) in Hr as [-> <-]; auto. exists k. auto.
  Qed.

  Lemma split_keyed k : keyed L k -> split_at L (fst k +++ snd k) = k.
  Proof. intros [H _]. rewrite (split_at_app _ _ _ H). destruct k; reflexivity. Qed.

  Lemma laid_edges m s pid : laid m s -> U pid -> edges_in sep L pid m = edges_of pid s.
  Proof.
    intros H Hp. apply (sorted_same pcmp pcmp_ok); [| apply edges_of_sorted, (la_e _ _ H) |].
    - unfold edges_in. apply (sorted_through scmp pcmp); [apply (la_m _ _ H) | |].
      + intros [k v] _. cbn [fst snd]. destruct (rest_after (policy_prefix sep pid) k) as [r |]; [| auto]. destruct v; eauto.
      + intros k v k' v' y y' Hin Hin' Hy Hy' Hlt. cbn [fst snd] in Hy, Hy'.
        destruct (rest_after (policy_prefix sep pid) k) as [r |] eqn:Hr; [| discriminate]. destruct v; try discriminate. injection Hy as <-.
        destruct (rest_after (policy_prefix sep pid) k') as [r' |] eqn:Hr'; [| discriminate]. destruct v'; try discriminate. injection Hy' as <-.
        destruct (under_prefix _ _ _ _ _ _ H Hp Hin Hr) as (a & Ha & -> & ->). destruct (under_prefix _ _ _ _ _ _ H Hp Hin' Hr') as (b & Hb & -> & ->).
        cbn [fst]. rewrite !split_keyed by assumption. unfold relationship_key in Hlt. rewrite scmp_app, scmp_pair in Hlt; [destruct a, b; exact Hlt |].
        destruct Ha, Hb. congruence.
    - intros k e. rewrite edges_of_raw. unfold edges_in. rewrite in_flat_map. rewrite <- (get_iff ecmp ecmp_ok _ _ _ (la_e _ _ H)). split.
      + intros ([x v] & Hin & Hy). cbn [fst snd] in Hy. destruct (rest_after (policy_prefix sep pid) x) as [r |] eqn:Hr; [| destruct Hy].
        destruct v; try (destruct Hy; fail). destruct Hy as [[= Hk ->] | []].
        destruct (under_prefix _ _ _ _ _ _ H Hp Hin Hr) as (a & Ha & -> & ->). rewrite split_keyed in Hk by assumption. subst a.
        apply (in_get scmp scmp_ok) in Hin; [| apply (la_m _ _ H)]. rewrite (la_edge _ _ H _ _ Hp Ha) in Hin.
        destruct (kv_get ecmp (pid, k) (st_edges s)); [injection Hin as ->; reflexivity | discriminate].
      + intros Hg. destruct (la_edges_only _ _ H _ _ _ Hg) as [_ Hk]. exists (relationship_key sep pid k, VEdge e). split.
        * apply (get_in scmp scmp_ok). rewrite (la_edge _ _ H _ _ Hp Hk), Hg. reflexivity.
        * cbn [fst snd]. rewrite (proj2 (rest_after_iff (policy_prefix sep pid) (relationship_key sep pid k) (fst k +++ snd k)) eq_refl).
          rewrite split_keyed by assumption. left. reflexivity.
  Qed.

  Lemma pair_dec (k k' : string * string) : k = k' \/ k <> k'.
  Proof. destruct k as [a b], k' as [a' b']. destruct (string_dec a a') as [-> |], (string_dec b b') as [-> |]; auto; right; congruence. Qed.

  Lemma laid_polset m s id r : laid m s ->
    laid (kv_set scmp (policy_key id) (VPolicy r) m) (mkStore (kv_set scmp id r (st_pol s)) (st_edges s) (st_data s)).
  Proof.
    intros H. constructor; cbn [st_pol st_edges st_data]; try apply H; try apply (sorted_set scmp scmp_ok), H.
    - intros i. destruct (string_dec i id) as [-> | Hne].
      + rewrite !(get_set_same scmp scmp_ok). reflexivity.
      + rewrite !(get_set_other scmp scmp_ok); [apply H | exact Hne |]. intros Hk. apply Hne, policy_key_inj, Hk.
    - intros pid k Hp Hk. rewrite (get_set_other scmp scmp_ok); [apply H; assumption | discriminate].
    - intros k Hk. rewrite (get_set_other scmp scmp_ok); [apply H; assumption | discriminate].
    - intros x v Hx. apply (get_in scmp scmp_ok), (in_set scmp) in Hx as [[-> _] | Hx]; [left; eauto |].
      eapply (la_only _ _ H), (in_get scmp scmp_ok), Hx. apply H.
  Qed.

  Lemma laid_poldel m s id : laid m s ->
    laid (kv_del scmp (policy_key id) m) (mkStore (kv_del scmp id (st_pol s)) (st_edges s) (st_data s)).
  Proof.
    intros H. constructor; cbn [st_pol st_edges st_data]; try apply H; try apply (sorted_del scmp scmp_ok), H.
    - intros i. destruct (string_dec i id) as [-> | Hne].
      + rewrite !(get_del_same scmp). reflexivity.
      + rewrite !(get_del_other scmp scmp_ok); [apply H | exact Hne |]. intros Hk. apply Hne, policy_key_inj, Hk.
    - intros pid k Hp Hk. rewrite (get_del_other scmp scmp_ok); [apply H; assumption | discriminate].
    - intros k Hk. rewrite (get_del_other scmp scmp_ok); [apply H; assumption | discriminate].
    - intros x v Hx. apply (get_in scmp scmp_ok), (in_del scmp scmp_ok) in Hx as [Hx _].
      eapply (la_only _ _ H), (in_get scmp scmp_ok), Hx. apply H.
  Qed.

  Lemma laid_edgeset m s pid k e : laid m s -> U pid -> keyed L k ->
    laid (kv_set scmp (relationship_key sep pid k) (VEdge e) m) (mkStore (st_pol s) (kv_set ecmp (pid, k) e (st_edges s)) (st_data s)).
  Proof.
    intros H Hp Hk. constructor; cbn [st_pol st_edges st_data]; try apply H; try apply (sorted_set scmp scmp_ok), H; try apply (sorted_set ecmp ecmp_ok), H.
    - intros i. rewrite (get_set_other scmp scmp_ok); [apply H; assumption | discriminate].
    - intros p k' Hp' Hk'. destruct (pair_dec k' k) as [-> | Hne]; [destruct (string_dec p pid) as [-> | Hne] |].
      + rewrite (get_set_same scmp scmp_ok), (get_set_same ecmp ecmp_ok). reflexivity.
      + rewrite (get_set_other scmp scmp_ok), (get_set_other ecmp ecmp_ok); [apply H; assumption | congruence |].
        intros Q. apply (relationship_key_inj sep L U HU) in Q as [Q _]; auto.
      + rewrite (get_set_other scmp scmp_ok), (get_set_other ecmp ecmp_ok); [apply H; assumption | congruence |].
        intros Q. apply (relationship_key_inj sep L U HU) in Q as [_ Q]; auto.
    - intros k' Hk'. rewrite (get_set_other scmp scmp_ok); [apply H; assumption | discriminate].
    - intros x v Hx. apply (get_in scmp scmp_ok), (in_set scmp) in Hx as [[-> _] | Hx]; [right; left; eauto |].
      eapply (la_only _ _ H), (in_get scmp scmp_ok), Hx. apply H.
    - intros p k' e' Hg. apply (get_in ecmp ecmp_ok), (in_set ecmp) in Hg as [[Q _] | Hg]; [injection Q as -> ->; auto |].
      eapply (la_edges_only _ _ H), (in_get ecmp ecmp_ok), Hg. apply H.
  Qed.

  Lemma laid_edgedel m s pid k : laid m s -> U pid -> keyed L k ->
    laid (kv_del scmp (relationship_key sep pid k) m) (mkStore (st_pol s) (kv_del ecmp (pid, k) (st_edges s)) (st_data s)).
  Proof.
    intros H Hp Hk. constructor; cbn [st_pol st_edges st_data]; try apply H; try apply (sorted_del scmp scmp_ok), H; try apply (sorted_del ecmp ecmp_ok), H.
    - intros i. rewrite (get_del_other scmp scmp_ok); [apply H; assumption | discriminate].
    - intros p k' Hp' Hk'. destruct (pair_dec k' k) as [-> | Hne]; [destruct (string_dec p pid) as [-> | Hne] |].
      + rewrite (get_del_same scmp), (get_del_same ecmp). reflexivity.
      + rewrite (get_del_other scmp scmp_ok), (get_del_other ecmp ecmp_ok); [apply H; assumption | congruence |].
        intros Q. apply (relationship_key_inj sep L U HU) in Q as [Q _]; auto.
      + rewrite (get_del_other scmp scmp_ok), (get_del_other ecmp ecmp_ok); [apply H; assumption | congruence |].
        intros Q. apply (relationship_key_inj sep L U HU) in Q as [_ Q]; auto.
    - intros k' Hk'. rewrite (get_del_other scmp scmp_ok); [apply H; assumption | discriminate].
    - intros x v Hx. apply (get_in scmp scmp_ok), (in_del scmp scmp_ok) in Hx as [Hx _].
      eapply (la_only _ _ H), (in_get scmp scmp_ok), Hx. apply H.
    - intros p k' e' Hg. apply (get_in ecmp ecmp_ok), (in_del ecmp ecmp_ok) in Hg as [Hg _].
      eapply (la_edges_only _ _ H), (in_get ecmp ecmp_ok), Hg. apply H.
  Qed.

  Lemma laid_dataset m s k d : laid m s -> keyed L k ->
    laid (kv_set scmp (record_key k) (VData d) m) (mkStore (st_pol s) (st_edges s) (kv_set pcmp k d (st_data s))).
  Proof.
    intros H Hk. constructor; cbn [st_pol st_edges st_data]; try apply H; try apply (sorted_set scmp scmp_ok), H; try apply (sorted_set pcmp pcmp_ok), H.
    - intros i. rewrite (get_set_other scmp scmp_ok); [apply H; assumption | discriminate].
    - intros p k' Hp' Hk'. rewrite (get_set_other scmp scmp_ok); [apply H; assumption | discriminate].
    - intros k' Hk'. destruct (pair_dec k' k) as [-> | Hne].
      + rewrite (get_set_same scmp scmp_ok), (get_set_same pcmp pcmp_ok). reflexivity.
      + rewrite (get_set_other scmp scmp_ok), (get_set_other pcmp pcmp_ok); [apply H; assumption | exact Hne |].
        intros Q. apply (record_key_inj L) in Q; auto.
    - intros x v Hx. apply (get_in scmp scmp_ok), (in_set scmp) in Hx as [[-> _] | Hx]; [right; right; eauto |].
      eapply (la_only _ _ H), (in_get scmp scmp_ok), Hx. apply H.
  Qed.

  Lemma laid_datadel m s k : laid m s -> keyed L k ->
    laid (kv_del scmp (record_key k) m) (mkStore (st_pol s) (st_edges s) (kv_del pcmp k (st_data s))).
  Proof.
    intros H Hk. constructor; cbn [st_pol st_edges st_data]; try apply H; try apply (sorted_del scmp scmp_ok), H; try apply (sorted_del pcmp pcmp_ok), H.
    - intros i. rewrite (get_del_other scmp scmp_ok); [apply H; assumption | discriminate].
    - intros p k' Hp' Hk'. rewrite (get_del_other scmp scmp_ok); [apply H; assumption | discriminate].
    - intros k' Hk'. destruct (pair_dec k' k) as [-> | Hne].
      + rewrite (get_del_same scmp), (get_del_same pcmp). reflexivity.
      + rewrite (get_del_other scmp scmp_ok), (get_del_other pcmp pcmp_ok); [apply H; assumption | exact Hne |].
        intros Q. apply (record_key_inj L) in Q; auto.
    - intros x v Hx. apply (get_in scmp scmp_ok), (in_del scmp scmp_ok) in Hx as [Hx _].
      eapply (la_only _ _ H), (in_get scmp scmp_ok), Hx. apply H.
  Qed.

  (** ** One operation does the same on both *)

  Lemma laid_step {A} (p : prog A) m s : laid m s -> fits U L p ->
    (step1 p s = None /\ flat_step sep L p m = None) \/
    exists p' m' s', step1 p s = Some (p', s') /\ flat_step sep L p m = Some (p', m') /\ laid m' s' /\ fits U L p'.
  Proof.
    intros H Hf. destruct Hf; [left; auto | | | | | | | | | | | |]; right; cbn [step1 flat_step].
    - rewrite (laid_policy _ _ _ H). eexists _, _, _. split; [reflexivity |]. split; [reflexivity |]. split; [exact H | auto].
    - rewrite (laid_policy _ _ _ H). eexists _, _, _. split; [reflexivity |]. split; [reflexivity |]. split; [exact H | auto].
    - eexists _, _, _. split; [reflexivity |]. split; [reflexivity |]. split; [apply laid_polset, H | assumption].
    - eexists _, _, _. split; [reflexivity |]. split; [reflexivity |]. split; [apply laid_poldel, H | assumption].
    - rewrite (laid_policies _ _ H). eexists _, _, _. split; [reflexivity |]. split; [reflexivity |]. split; [exact H | auto].
    - rewrite (laid_edge _ _ _ _ H) by assumption. eexists _, _, _. split; [reflexivity |]. split; [reflexivity |]. split; [exact H | auto].
    - eexists _, _, _. split; [reflexivity |]. split; [reflexivity |]. split; [apply laid_edgeset; assumption | assumption].
    - eexists _, _, _. split; [reflexivity |]. split; [reflexivity |]. split; [apply laid_edgedel; assumption | assumption].
    - rewrite (laid_edges _ _ _ H) by assumption. eexists _, _, _. split; [reflexivity |]. split; [reflexivity |]. split; [exact H | auto].
    - rewrite (laid_data _ _ _ H) by assumption. eexists _, _, _. split; [reflexivity |]. split; [reflexivity |]. split; [exact H | auto].
    - eexists _, _, _. split; [reflexivity |]. split; [reflexivity |]. split; [apply laid_dataset; assumption | assumption].
    - eexists _, _, _. split; [reflexivity |]. split; [reflexivity |]. split; [apply laid_datadel; assumption | assumption].
  Qed.

  Lemma in_replace {A} (x : A) : forall l i y, In y (replace i x l) -> y = x \/ In y l.
  Proof.
    induction l as [| z l IH]; intros [| i] y; cbn; auto; intros [-> | Hin]; auto. apply IH in Hin as [-> | Hin]; auto.
  Qed.

  Lemma laid_advance ps m s i : laid m s -> (forall p, In p ps -> fits U L p) ->
    fst (flat_advance sep L (ps, m) i) = fst (advance (ps, s) i) /\ laid (snd (flat_advance sep L (ps, m) i)) (snd (advance (ps, s) i)) /\
    forall p, In p (fst (advance (ps, s) i)) -> fits U L p.
  Proof.
    intros H Hf. unfold flat_advance, advance. cbn [fst snd]. destruct (nth_error ps i) as [p |] eqn:Hn; [| auto].
    destruct (laid_step p m s H (Hf _ (nth_error_In _ _ Hn))) as [[-> ->] | (p' & m' & s' & -> & -> & H' & Hf')]; [auto |].
    cbn [fst snd]. split; [reflexivity |]. split; [exact H' |]. intros q Hq. apply in_replace in Hq as [-> | Hq]; auto.
  Qed.

  Lemma laid_interleave sched : forall ps m s, laid m s -> (forall p, In p ps -> fits U L p) ->
    fst (flat_interleave sep L sched (ps, m)) = fst (interleave sched (ps, s)) /\
    laid (snd (flat_interleave sep L sched (ps, m))) (snd (interleave sched (ps, s))).
  Proof.
    unfold flat_interleave, interleave. induction sched as [| i sched IH]; intros ps m s H Hf; cbn [fold_left]; [auto |].
    destruct (laid_advance ps m s i H Hf) as (H1 & H2 & H3).
    destruct (flat_advance sep L (ps, m) i) as [ps' m'], (advance (ps, s) i) as [ps'' s']. cbn [fst snd] in *. subst ps''. apply IH; assumption.
  Qed.

  Lemma fits_all E qs p : hashes_to E L -> about_only U qs -> In p (map (serve E) qs) -> fits U L p.
  Proof. intros HL Hq Hin. apply in_map_iff in Hin as (q & <- & Hin). apply fits_serve; [exact HL |]. intros pid Hp. eapply Hq; eauto. Qed.

  Lemma laid_life E h : hashes_to E L -> (forall x, In x h -> about_only U (fst x)) -> forall m s, laid m s -> laid (flat_life E sep L h m) (typed_life E h s).
  Proof.
    intros HL. unfold flat_life, typed_life. induction h as [| [qs sched] h IH]; intros Hh m s H; cbn [fold_left]; [exact H |].
    apply IH; [intros x Hx; apply Hh; right; exact Hx |]. cbn [fst snd]. apply laid_interleave; [exact H |].
    intros p Hp. eapply fits_all; eauto. apply (Hh (qs, sched)). left. reflexivity.
  Qed.
End Sim.
