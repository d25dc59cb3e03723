(** C95: a deleted policy leaves no trace. *)
From Verif Require Import Base Domain Lexer Parser Validate Store Search Explain Yaml Service Dump Api
  SpecGrammar SpecPolicy SpecStore SpecConc SpecTouch SpecSearch Fixtures
  BaseFacts ParserFacts ValidateFacts StoreFacts PolicyFacts RelFacts SearchRun ConcFacts TouchFacts SpecRefine SpecSessions SessionFacts SpecTrace.

(** ** Every record has a relationship *)

Definition recorded (s : store) : Prop := forall k d, kv_get pcmp k (st_data s) = Some d -> exists pid e, kv_get ecmp (pid, k) (st_edges s) = Some e.

Lemma after_recorded E q s : store_ok E s -> recorded s -> recorded (after E q s).
Proof.
  intros Hok Hr.
  assert (Hw : forall pid, writes_policy q pid -> recorded (after E q s)).
  { intros pid Hw. destruct (writes_effect E q pid s Hok Hw) as [-> | [(r & e & d & _ & _ & ->) | (ks & s0 & _ & Hs0 & ->)]]; [exact Hr | |].
    - intros k d'. cbn [put_rel st_data st_edges]. rewrite (get_set pcmp pcmp_ok). destruct (pcmp k (edge_key E e)) eqn:Hc.
      + apply (cmp_eq _ pcmp_ok) in Hc as ->. intros _. exists pid, e. apply (get_set_same ecmp ecmp_ok).
      + intros Hd. destruct (Hr _ _ Hd) as (pid' & e' & He'). exists pid'. rewrite (get_set ecmp ecmp_ok).
        destruct (ecmp _ _); eauto.
      + intros Hd. destruct (Hr _ _ Hd) as (pid' & e' & He'). exists pid'. rewrite (get_set ecmp ecmp_ok).
        destruct (ecmp _ _); eauto.
    - intros k d. rewrite drop_keys_data. destruct (in_dec key_dec k ks) as [| Hn]; [discriminate |]. intros Hd.
      assert (Hd' : kv_get pcmp k (st_data s) = Some d) by (destruct Hs0 as [-> | ->]; exact Hd).
      destruct (Hr _ _ Hd') as (pid' & e & He). exists pid', e. rewrite drop_keys_edges.
      assert (Hs : st_edges s0 = st_edges s) by (destruct Hs0 as [-> | ->]; reflexivity). rewrite Hs.
      destruct (string_dec pid' pid); [destruct (in_dec key_dec k ks); [contradiction |] |]; exact He. }
  destruct q; try (rewrite after_read by exact I; exact Hr); try (eapply Hw; reflexivity).
  - destruct (create_cases E now d app s) as
      [(p & Hd & Hn & Hw' & Ha & Hs) | [(p & r & Hd & Hn & Ha & Hs) | (Hb & Hf & Hs)]]; rewrite Hs; exact Hr.
  - destruct (update_cases E d app s) as
      [(p & r & Hd & Hn & Hw' & Ha & Hs) | [(p & Hd & Hn & Ha & Hs) | (Hb & Hf & Hs)]]; rewrite Hs; exact Hr.
Qed.

Lemma recorded_all E qs : recorded (after_all E qs empty_store).
Proof.
  cut (forall s, store_ok E s -> recorded s -> recorded (after_all E qs s)).
  - intros H. apply H; [apply empty_ok | discriminate].
  - induction qs as [| q qs IH]; intros s H Hr; [exact Hr |]. apply IH; [apply after_ok, H | apply after_recorded; assumption].
Qed.

(** ** One policy beside the others *)

Section Trace.
  Variables (E : env) (id : string) (qs : list request).
  Hypothesis Hkeys : keys_of_its_own E id qs.

  Definition side (pid : string) : nat := if String.eqb pid id then 0 else 1.
  Definition said (pid : string) (r : relationship) : Prop := exists q, In q qs /\ mentions q pid r.

  Lemma sides_apart : keys_apart E side said.
  Proof.
    intros pid pid' r r' (q & Hq & Hm) (q' & Hq' & Hm') Hc Hc' Hk. unfold side.
    destruct (String.eqb pid id) eqn:H1, (String.eqb pid' id) eqn:H2; auto.
    - apply String.eqb_eq in H1 as ->. rewrite (Hkeys q q' pid' r r') in H2 by assumption. rewrite String.eqb_refl in H2. discriminate.
    - apply String.eqb_eq in H2 as ->. rewrite (Hkeys q' q pid r' r) in H1; auto; [rewrite String.eqb_refl in H1; discriminate |].
      destruct Hk as [Hk1 Hk2]. split; symmetry; assumption.
  Qed.

  Lemma inside_run i {A} (p : prog A) : inside E side said i p -> forall s t, sorted_store s -> sorted_store t -> all_filed E said s ->
    (forall x, at_home E side said i x -> same_at x s t) ->
    fst (run p s) = fst (run p t) /\ sorted_store (snd (run p s)) /\ all_filed E said (snd (run p s)) /\
    (forall x, same_at x s t -> same_at x (snd (run p s)) (snd (run p t))) /\
    (forall x, ~ at_home E side said i x -> same_at x s (snd (run p s))).
  Proof.
    induction p; intros Hi s t Hs Ht Hf Hx;
      try (match goal with
           | |- fst (run ?p s) = _ /\ _ =>
               pose proof (inside_step E side said i p s t Hi Hs Ht Hf Hx) as St;
               destruct (step1 p s) as [[p1 s1] |] eqn:S1; [| discriminate S1];
               destruct (step1 p t) as [[p2 t1] |] eqn:S2; [| contradiction St];
               destruct St as (<- & Hi1 & Hf1 & Hs1 & Hn1);
               pose proof (step_sorted p s _ _ S1 Hs) as Hss; pose proof (step_sorted p t _ _ S2 Ht) as Hst;
               rewrite (step_run p s _ _ S1), (step_run p t _ _ S2);
               assert (IHx : fst (run p1 s1) = fst (run p1 t1) /\ sorted_store (snd (run p1 s1)) /\ all_filed E said (snd (run p1 s1)) /\
                  (forall x, same_at x s1 t1 -> same_at x (snd (run p1 s1)) (snd (run p1 t1))) /\
                  (forall x, ~ at_home E side said i x -> same_at x s1 (snd (run p1 s1))))
                 by (injection S1 as <- <-; match goal with IH : _ |- _ => apply IH; auto end);
               destruct IHx as (R1 & R2 & R3 & R4 & R5);
               split; [exact R1 | split; [exact R2 | split; [exact R3 | split; [auto |]]]];
               intros x Hnx; apply (same_at_trans x _ s1); auto
           end).
    cbn [run fst snd]. split; [reflexivity |]. split; [exact Hs |]. split; [exact Hf |]. split; [auto | intros; apply same_at_refl].
  Qed.

  Definition vacant (x : place) (t : store) : Prop := same_at x t empty_store.

  (** [s] with the policy, [t] without. *)
  Record beside (s t : store) : Prop := {
    be_sorted : sorted_store s;
    be_sorted' : sorted_store t;
    be_filed : all_filed E said s;
    be_filed' : all_filed E said t;
    be_same : forall x, ~ at_home E side said 0 x -> same_at x s t;
    be_vacant : forall x, at_home E side said 0 x -> vacant x t }.

  Lemma home_one x s t : beside s t -> at_home E side said 1 x -> same_at x s t.
  Proof. intros B H. apply (be_same _ _ B). intros H'. discriminate (home_apart E side said sides_apart 0 1 x H' H). Qed.

  Lemma not_about q : about_policy id q = false -> q <> QListPolicyIds -> own_policy side 1 q.
  Proof.
    unfold about_policy, own_policy, side. intros Ha Hl. destruct q; try (intros x Hx; rewrite Hx in Ha; rewrite Ha; reflexivity).
    all: exfalso; apply Hl; reflexivity.
  Qed.

  Lemma beside_answer q s t : In q qs -> about_policy id q = false -> q <> QListPolicyIds -> beside s t -> answer E q s = answer E q t.
  Proof.
    intros Hq Ha Hl B. unfold answer.
    apply (inside_run 1 (serve E q)); try apply B.
    - apply serve_inside; [apply not_about; assumption |]. intros pid r Hm. exists q. auto.
    - intros x Hx. apply (home_one x s t B Hx).
  Qed.

  Lemma list_after s : after E QListPolicyIds s = s.
  Proof. apply after_read. exact I. Qed.

  Lemma beside_step q s t : In q qs -> beside s t -> beside (after E q s) (if about_policy id q then t else after E q t).
  Proof.
    intros Hq B. destruct (about_policy id q) eqn:Ha.
    - assert (Hi : inside E side said 0 (serve E q)).
      { apply serve_inside; [| intros pid r Hm; exists q; auto]. unfold about_policy in Ha. unfold own_policy, side.
        destruct q; try (intros x Hx; rewrite Hx in Ha; rewrite Ha; reflexivity). discriminate Ha. }
      destruct (inside_run 0 _ Hi s s) as (_ & H2 & H3 & _ & H5); try apply B; [intros; apply same_at_refl |].
      split; try apply B; [exact H2 | exact H3 |]. intros x Hx. apply (same_at_trans x _ s); [| apply B; exact Hx].
      apply same_at_sym, H5, Hx.
    - destruct (match q with QListPolicyIds => true | _ => false end) eqn:Hl.
      { destruct q; try discriminate. rewrite !list_after. exact B. }
      assert (Hi : inside E side said 1 (serve E q)).
      { apply serve_inside; [apply not_about; [exact Ha | intros ->; discriminate] | intros pid r Hm; exists q; auto]. }
      destruct (inside_run 1 _ Hi s t) as (_ & H2 & H3 & H4 & _); try apply B; [intros x; apply home_one; exact B |].
      destruct (inside_run 1 _ Hi t t) as (_ & G2 & G3 & _ & G5); try apply B; [intros; apply same_at_refl |].
      split; auto.
      + intros x Hx. apply H4, B, Hx.
      + intros x Hx. apply (same_at_trans x _ t); [| apply B, Hx]. apply same_at_sym, G5. intros H1.
        discriminate (home_apart E side said sides_apart 0 1 x Hx H1).
  Qed.

  Lemma beside_all : forall l, incl l qs -> beside (after_all E l empty_store) (after_all E (without id l) empty_store).
  Proof.
    induction l as [| q l IH] using rev_ind; intros Hl.
    - split; cbn; try (split; [| split]; constructor); try discriminate; intros; apply same_at_refl.
    - assert (Hq : In q qs) by (apply Hl, in_or_app; right; left; reflexivity).
      specialize (IH (fun x Hx => Hl x (in_or_app _ _ _ (or_introl Hx)))).
      pose proof (beside_step q _ _ Hq IH) as H. unfold without. rewrite filter_app. cbn [filter]. unfold after_all in *. rewrite !fold_left_app. cbn [fold_left].
      destruct (about_policy id q); cbn [negb fold_left app]; exact H.
  Qed.
End Trace.

(** If the policy is not there in the end, the store is the one that the other requests alone leave. *)
Theorem C95_no_trace_partial : forall E id qs, keys_of_its_own E id qs ->
  answer E (QGetPolicy id) (after_all E qs empty_store) = Ok (APolicy None) ->
  after_all E qs empty_store = after_all E (without id qs) empty_store.
Proof.
  intros E id qs Hk Hg. pose proof (beside_all E id qs Hk qs (incl_refl qs)) as B.
  set (s := after_all E qs empty_store) in *. set (t := after_all E (without id qs) empty_store) in *.
  assert (Hp : policies s id = None) by (revert Hg; unfold answer, policies; cbn; intros [= ->]; reflexivity).
  assert (Hno : forall k e, kv_get ecmp (id, k) (st_edges s) <> Some e).
  { intros k e He. assert (Hok : store_ok E s) by (apply after_all_ok, empty_ok).
    destruct (so_edge E s Hok id k e He) as [Hi ->].
    assert (Hs : sequential E s) by (exists qs; reflexivity).
    apply (sequential_owned E s Hs id (from_internal e)); [| exact Hp].
    apply (relationships_in E); [exact Hok |]. exists e. split; [apply to_from_internal; exact Hi | exact He]. }
  apply same_everywhere; try apply B. intros [pid | pid k | k].
  - destruct (string_dec pid id) as [-> | Hne].
    + cbn. unfold policies in Hp. rewrite Hp. symmetry. apply (be_vacant _ _ _ _ _ B (AtPolicy id)). cbn. unfold side. rewrite String.eqb_refl. reflexivity.
    + apply (be_same _ _ _ _ _ B). cbn. unfold side. apply String.eqb_neq in Hne as ->. discriminate.
  - destruct (string_dec pid id) as [-> | Hne].
    + cbn. assert (kv_get ecmp (id, k) (st_edges s) = None) as ->.
      { destruct (kv_get ecmp (id, k) (st_edges s)) eqn:He; [destruct (Hno _ _ He) | reflexivity]. }
      symmetry. apply (be_vacant _ _ _ _ _ B (AtEdge id k)). cbn. unfold side. rewrite String.eqb_refl. reflexivity.
    + apply (be_same _ _ _ _ _ B). cbn. unfold side. apply String.eqb_neq in Hne as ->. discriminate.
  - assert (H1 : forall u pid e, kv_get ecmp (pid, k) (st_edges u) = Some e -> all_filed E (said qs) u -> pid <> id -> same_at (AtRecord k) s t).
    { intros u pid e He Hf Hne. apply (home_one E id qs Hk _ _ _ B). exists pid, e. split; [| apply Hf; exact He].
      unfold side. apply String.eqb_neq in Hne as ->. reflexivity. }
    cbn. destruct (kv_get pcmp k (st_data s)) as [d |] eqn:Hs.
    + destruct (recorded_all E qs k d Hs) as (pid & e & He). rewrite <- Hs. apply (H1 s pid e He); [apply B |]. intros ->. exact (Hno _ _ He).
    + destruct (kv_get pcmp k (st_data t)) as [d |] eqn:Ht; [| reflexivity].
      destruct (recorded_all E (without id qs) k d Ht) as (pid & e & He). rewrite <- Hs, <- Ht. apply (H1 t pid e He); [apply B |]. intros ->.
      assert (Hv : vacant (AtEdge id k) t) by (apply (be_vacant _ _ _ _ _ B); cbn; unfold side; rewrite String.eqb_refl; reflexivity).
      unfold vacant in Hv. cbn in Hv. fold t in He. rewrite He in Hv. discriminate.
Qed.

(** Even while it exists: the answers to all other requests are those without it. *)
Theorem C95_unnoticed : forall E id qs q, keys_of_its_own E id (qs ++ [q]) -> about_policy id q = false -> q <> QListPolicyIds ->
  answer E q (after_all E qs empty_store) = answer E q (after_all E (without id qs) empty_store).
Proof.
  intros E id qs q Hk Ha Hl. apply (beside_answer E id (qs ++ [q])); auto.
  - apply in_or_app. right. left. reflexivity.
  - apply beside_all; [exact Hk |]. intros x Hx. apply in_or_app. left. exact Hx.
Qed.

(** Not so if another policy holds the same relationship: its record goes with the deleted policy's. *)
Theorem C95_shared_refuted : forall E, exists qs r, let s := after_all E qs empty_store in
  answer E (QGetPolicy "p") s = Ok (APolicy None) /\ In r (relationships s "q") /\
  answer E (QGetRelationship "q" (Some r)) s = Ok (ARecord None) /\
  answer E (QGetRelationship "q" (Some r)) (after_all E (without "p" qs) empty_store) = Ok (ARecord (Some (mkRRec "q" r 2%N "data"))).
Proof.
  intros E. set (r := tup "file" "f" "owner" (user "bob")).
  exists [create "p"; create "q"; set "p" r; set "q" r; QDeletePolicy "p"], r. cbv zeta.
  split; [| split; [| split]].
  - cbv -[pcmp sha]. rewrite ?(cmp_refl _ pcmp_ok). reflexivity.
  - cbv -[pcmp sha]. rewrite ?(cmp_refl _ pcmp_ok). left. reflexivity.
  - cbv -[pcmp sha]. rewrite ?(cmp_refl _ pcmp_ok). reflexivity.
  - cbv -[pcmp sha]. rewrite ?(cmp_refl _ pcmp_ok). reflexivity.
Qed.

(** ** A history *)

Definition passing : list request :=
  [create "q"; create "p"; set "q" (tup "file" "f" "owner" (user "bob")); set "p" (tup "file" "g" "owner" (user "amy"));
   QUpdatePolicy (Some (DPolicy (pol "p"))) "new"; set "p" (tup "group" "eng" "member" (user "bob")); QDeleteRelationship "p" (Some (tup "file" "g" "owner" (user "amy")));
   set "q" (tup "file" "h" "owner" (user "bob")); QDeletePolicy "p"].

Example C95_example_rules : keys_of_its_own E0 "p" passing.
Proof.
  intros q q' pid r r' Hq Hq' Hm Hm' _ _ [Hk Hk']. unfold passing in *.
  repeat (destruct Hq as [<- | Hq]; [inversion Hm; subst;
    repeat (destruct Hq' as [<- | Hq']; [inversion Hm'; subst; try reflexivity; discriminate |]); contradiction |]). contradiction.
Qed.

Example C95_example :
  answer E0 (QGetPolicy "p") (after_all E0 passing empty_store) = Ok (APolicy None) /\
  without "p" passing = [create "q"; set "q" (tup "file" "f" "owner" (user "bob")); set "q" (tup "file" "h" "owner" (user "bob"))] /\
  after_all E0 passing empty_store = after_all E0 (without "p" passing) empty_store.
Proof. split; [reflexivity |]. split; [reflexivity |]. apply C95_no_trace_partial; [apply C95_example_rules | reflexivity]. Qed.

Print Assumptions C95_no_trace_partial.
Print Assumptions C95_unnoticed.
Print Assumptions C95_shared_refuted.
