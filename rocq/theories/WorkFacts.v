(** How many operations a search performs. *)
From Verif Require Import Base Domain Lexer Parser Validate Store Search Explain Yaml Service Dump Api
  SpecGrammar SpecPolicy SpecStore SpecSearch SpecConc SpecWork BaseFacts ParserFacts ValidateFacts StoreFacts PolicyFacts RelFacts
  SearchRun SearchFacts SearchSem SearchTerm ReadFacts GraphFacts ConcFacts ConcSearch.

(** ** Programs whose every execution ends in a given way *)

(** However the operations are interleaved with other requests, [p] ends; when it ends with [a] and [j] operations
    have been performed (counting those before), [Q a j] holds. *)
Inductive spends (S : store -> Prop) {A} (Q : A -> nat -> Prop) : nat -> prog A -> Prop :=
| sp_ret j a : Q a j -> spends S Q j (Ret a)
| sp_step j p : (forall a, p <> Ret a) -> (forall s p' s', S s -> step1 p s = Some (p', s') -> spends S Q (1 + j) p') ->
    spends S Q j p.

Lemma spends_mono {A} (S : store -> Prop) (Q Q' : A -> nat -> Prop) j p : (forall a k, Q a k -> Q' a k) -> spends S Q j p -> spends S Q' j p.
Proof. intros H. induction 1; [apply sp_ret; auto | apply sp_step; auto]. Qed.

Lemma spends_pbind {A B} (S : store -> Prop) (Q : B -> nat -> Prop) (f : A -> prog B) j p :
  spends S (fun a k => spends S Q k (f a)) j p -> spends S Q j (pbind p f).
Proof.
  induction 1 as [j a H | j p Hn _ IH]; [exact H |]. apply sp_step.
  - intros a. destruct p; try discriminate. contradiction (Hn a0). reflexivity.
  - intros s q s' Hs Hst. destruct p as [a | id k | id k | id r k | id k | k | pid key k | pid key e k | pid key k | pid k
      | key k | key d k | key k]; [contradiction (Hn a); reflexivity | ..];
      cbn [pbind step1] in Hst; injection Hst as <- <-; eapply IH; try exact Hs; reflexivity.
Qed.

Lemma spends_rbind {A B} (S : store -> Prop) (Q : res B -> nat -> Prop) (f : A -> prog (res B)) j p :
  spends S (fun x k => match x with
                       | Ok a => spends S Q k (f a)
                       | Err e => Q (Err e) k
                       | Panic => Q Panic k
                       | Fuel => Q Fuel k
                       end) j p -> spends S Q j (rbind p f).
Proof.
  intros H. apply spends_pbind. eapply spends_mono; [| exact H]. intros [a | e | |] k Hk; [exact Hk | apply sp_ret; exact Hk ..].
Qed.

Lemma spends_lift {A} (S : store -> Prop) (Q : A -> nat -> Prop) j a : Q a j -> spends S Q j (Ret a).
Proof. apply sp_ret. Qed.

Lemma spends_list {A} (S : store -> Prop) (Q : A -> nat -> Prop) j pid k :
  (forall s, S s -> spends S Q (1 + j) (k (edges_of pid s))) -> spends S Q j (EdgeList pid k).
Proof. intros H. apply sp_step; [discriminate |]. intros s p' s' Hs Hst. injection Hst as <- <-. auto. Qed.

Lemma spends_get {A} (S : store -> Prop) (Q : A -> nat -> Prop) j id k :
  (forall s, S s -> spends S Q (1 + j) (k (kv_get scmp id (st_pol s)))) -> spends S Q j (PolGet id k).
Proof. intros H. apply sp_step; [discriminate |]. intros s p' s' Hs Hst. injection Hst as <- <-. auto. Qed.

(** ** Operations in an interleaving *)

Definition turns (c : config) (sched : list nat) (i : nat) : nat :=
  length (filter (fun k => match nth_error sched k, answered (interleave (firstn k sched) c) i with
                           | Some j, None => Nat.eqb j i
                           | _, _ => false end)
                 (seq 0 (length sched))).

Lemma turns_cons c j sched i : turns c (j :: sched) i =
  (match answered c i with None => if Nat.eqb j i then 1 else 0 | _ => 0 end) + turns (advance c j) sched i.
Proof.
  unfold turns. cbn [length seq filter nth_error firstn]. change (interleave [] c) with c.
  assert (H : forall l, length (filter (fun k => match nth_error (j :: sched) k, answered (interleave (firstn k (j :: sched)) c) i with
                           | Some j, None => Nat.eqb j i | _, _ => false end) (map S l)) =
              length (filter (fun k => match nth_error sched k, answered (interleave (firstn k sched) (advance c j)) i with
                           | Some j, None => Nat.eqb j i | _, _ => false end) l)).
  { intros l. induction l as [| k l IH]; [reflexivity |]. cbn [map filter nth_error firstn].
    change (interleave (j :: firstn k sched) c) with (interleave (firstn k sched) (advance c j)).
    destruct (match nth_error sched k with Some j0 => _ | None => false end); cbn [length]; rewrite IH; reflexivity. }
  rewrite <- seq_shift. destruct (answered c i); [apply H |]. destruct (Nat.eqb j i); cbn [length]; rewrite H; reflexivity.
Qed.

Lemma turns_answered sched : forall c i a, nth_error (fst c) i = Some (Ret a) -> turns c sched i = 0.
Proof.
  induction sched as [| j sched IH]; intros c i a H; [reflexivity |]. rewrite turns_cons.
  assert (Ha : answered c i = Some a) by (unfold answered; rewrite H; reflexivity). rewrite Ha. cbn [Nat.add].
  apply (IH _ _ a). unfold advance. destruct (nth_error (fst c) j) as [q |] eqn:Hq; [| exact H].
  destruct (step1 q (snd c)) as [[q' s'] |] eqn:Hs; [| exact H]. cbn [fst].
  destruct (Nat.eq_dec j i) as [-> | Hne]; [| rewrite replace_other; assumption].
  rewrite H in Hq. injection Hq as <-. discriminate.
Qed.

Definition at_turn (c : config) (sched : list nat) (i : nat) (s : store) : Prop :=
  exists k, nth_error sched k = Some i /\ answered (interleave (firstn k sched) c) i = None /\
            s = snd (interleave (firstn k sched) c).

Lemma spends_ends {A} (S : store -> Prop) (Q : A -> nat -> Prop) s j p : S s -> spends S Q j p -> exists a k, j <= k /\ Q a k.
Proof.
  intros Hs. induction 1 as [j a H | j p Hn _ IH]; [exists a, j; auto |].
  destruct (step1 p s) as [[p' s'] |] eqn:Hst.
  - destruct (IH _ _ _ Hs Hst) as (a & k & Hk & H). exists a, k. split; [lia | exact H].
  - destruct p; try discriminate. contradiction (Hn a). reflexivity.
Qed.

Lemma at_turn_cons c j sched i s : at_turn (advance c j) sched i s -> at_turn c (j :: sched) i s.
Proof. intros (k & Hk & Hn & ->). exists (S k). repeat split; assumption. Qed.

Lemma spends_turns (S : store -> Prop) (Q : res response -> nat -> Prop) B : (forall a j, Q a j -> j <= B) ->
  forall sched c i (p : prog (res response)) j, nth_error (fst c) i = Some p -> spends S Q j p ->
  (forall s, at_turn c sched i s -> S s) -> j <= B -> j + turns c sched i <= B.
Proof.
  intros HB sched. induction sched as [| x sched IH]; intros c i p j Hp Hsp HS Hj; [cbn; lia |].
  rewrite turns_cons. destruct (Nat.eqb_spec x i) as [-> | Hne].
  - destruct Hsp as [j a Ha | j p Hn Hk].
    + unfold answered. rewrite Hp. cbn [Nat.add]. rewrite (turns_answered sched (advance c i) i a); [lia |].
      unfold advance. rewrite Hp. exact Hp.
    + assert (Ha : answered c i = None).
      { unfold answered. rewrite Hp. destruct p; try reflexivity. contradiction (Hn a). reflexivity. }
      rewrite Ha. assert (Hs : S (snd c)). { apply HS. exists 0. repeat split. exact Ha. }
      destruct (step1 p (snd c)) as [[p' s'] |] eqn:Hst; [| destruct p; try discriminate; contradiction (Hn a); reflexivity].
      pose proof (Hk _ _ _ Hs Hst) as Hk'. destruct (spends_ends _ _ _ _ _ Hs Hk') as (a & k & Hle & HQ). apply HB in HQ.
      assert (Hadv : nth_error (fst (advance c i)) i = Some p').
      { unfold advance. rewrite Hp, Hst. cbn [fst]. eapply replace_same. exact Hp. }
      specialize (IH _ _ _ _ Hadv Hk' (fun s Hs => HS s (at_turn_cons _ _ _ _ _ Hs))). lia.
  - replace (match answered c i with None => 0 | _ => 0 end) with 0 by (destruct (answered c i); reflexivity). cbn [Nat.add].
    apply (IH (advance c x) i p); [| exact Hsp | intros s Hs; apply HS, at_turn_cons, Hs | exact Hj].
    unfold advance. destruct (nth_error (fst c) x) as [q |]; [| exact Hp].
    destruct (step1 q (snd c)) as [[q' s'] |]; [| exact Hp]. cbn [fst]. rewrite replace_other; assumption.
Qed.

(** ** Searches *)

Section Search.
  Variable E : env.
  Variable P : policy.
  Variable pid : string.
  Variable S : store -> Prop.
  Hypothesis HS : forall s, S s -> store_ok E s.
  Variable origin : rnode.
  Variable cost : rnode -> nat.
  Hypothesis Hcost : costs E P cost.
  Hypothesis Hwhole : forall e rel t, node_tree E P e rel t -> whole t.
  Variable nodes : list rnode.
  Hypothesis Hnodes : forall x, reach E P (found_in E pid S) origin x -> In x nodes.

  (** The cost of the nodes whose identity has not been seen. *)
  Definition due (seen : list string) (x : rnode) : nat :=
    match node_id E x with Ok id => if existsb (String.eqb id) seen then 0 else cost x | _ => 0 end.
  Definition unpaid (seen : list string) : nat := total (due seen) nodes.

  Lemma total_cons f x l : total f (x :: l) = f x + total f l.
  Proof. reflexivity. Qed.

  Lemma total_le (f f' : rnode -> nat) l : (forall x, f x <= f' x) -> total f l <= total f' l.
  Proof. intros H. induction l as [| x l IH]; [apply le_n |]. rewrite !total_cons. specialize (H x). lia. Qed.

  Lemma due_le seen seen' x : incl seen seen' -> due seen' x <= due seen x.
  Proof.
    intros Hi. unfold due. destruct (node_id E x) as [id | | |]; try apply le_n.
    destruct (existsb (String.eqb id) seen) eqn:H; [| destruct (existsb (String.eqb id) seen'); lia].
    assert (Hs : existsb (String.eqb id) seen' = true) by (apply existsb_in, Hi, existsb_in, H). rewrite Hs. lia.
  Qed.

  Lemma unpaid_cons x id seen : In x nodes -> node_id E x = Ok id -> ~ In id seen -> cost x + unpaid (id :: seen) <= unpaid seen.
  Proof.
    intros Hin Hid Hn. unfold unpaid. revert Hin. generalize nodes. intros l. induction l as [| y l IH]; [intros [] |].
    rewrite !total_cons. pose proof (due_le seen (id :: seen) y (incl_tl _ (incl_refl _))) as Hy. intros [-> | Hin].
    - pose proof (total_le _ _ l (fun z => due_le seen (id :: seen) z (incl_tl _ (incl_refl _)))) as Hl.
      assert (H1 : due (id :: seen) x = 0). { unfold due. rewrite Hid. cbn [existsb]. rewrite String.eqb_refl. reflexivity. }
      assert (H2 : due seen x = cost x). { unfold due. rewrite Hid. apply existsb_not_in in Hn. rewrite Hn. reflexivity. }
      lia.
    - specialize (IH Hin). lia.
  Qed.

  (** Evaluating a rule gives nodes that the rule leads to. *)
  Lemma spends_evaluate r e rel j : spends S (fun x k => k <= j + lookups (TRule r) /\
      match x with Ok ns => forall n, In n ns -> yields (found_in E pid S) r e rel n | _ => True end) j
    (evaluate_prog E pid r (Some e) rel).
  Proof.
    assert (Hy : forall s ns n, S s -> evaluate E (edges_of pid s) r (Some e) rel = Ok ns -> In n ns -> yields (found_in E pid S) r e rel n).
    { intros s ns n Hs He Hin. apply (evaluate_yields E _ _ (stored_edges E s pid (HS s Hs)) _ _ _ _ He) in Hin.
      apply (yields_mono (key_subject E (relationships s pid))); [| exact Hin]. intros. exists s. auto. }
    destruct r as [| c | ts cu |]; cbn [evaluate_prog lookups].
    - unfold successors_prog. apply spends_list. intros s Hs. apply sp_ret. split; [lia |].
      destruct (get_successors E (edges_of pid s) (Some e) rel) as [ns | | |] eqn:Hg; auto. intros n Hn. exact (Hy s ns n Hs Hg Hn).
    - apply sp_ret. split; [lia |]. intros n [<- | []]. constructor.
    - apply spends_rbind. unfold successors_prog. apply spends_list. intros s Hs. apply sp_ret.
      cbn [evaluate] in Hy. specialize (Hy s).
      destruct (get_successors E (edges_of pid s) (Some e) ts) as [ns | | |] eqn:Hg; try (split; [lia | auto]).
      apply sp_ret. split; [lia |]. cbn [bind] in Hy. destruct (map_res (build_ttu_node cu) ns) as [ns' | | |] eqn:Hm; auto.
      intros n Hn. exact (Hy ns' n Hs eq_refl Hn).
    - apply sp_ret. split; [lia | auto].
  Qed.

  Lemma spends_build_tree (Q : rnode -> Prop) e rel : forall t j,
    (forall ru n, occurs ru t -> yields (found_in E pid S) ru e rel n -> Q n) ->
    spends S (fun x k => k <= j + lookups t /\ match x with Ok gt => paths_in Q gt | _ => True end) j
      (build_goal_tree_prog E pid t (Some e) rel).
  Proof.
    intros t. induction t as [| | r | l IHl op r IHr]; intros j HQ; cbn [build_goal_tree_prog lookups].
    - apply sp_ret. split; [lia | auto].
    - apply sp_ret. split; [lia | auto].
    - apply spends_rbind. eapply spends_mono; [| apply spends_evaluate]. intros [ns | x | |] k [Hk Hns]; auto.
      apply sp_ret. split; [exact Hk |]. cbn. apply paths_in_all. apply Forall_forall. intros x Hx.
      apply in_map_iff in Hx as (n & <- & Hn). cbn. apply (HQ r); [constructor | auto].
    - apply spends_rbind. eapply spends_mono; [| apply IHl; intros; eapply HQ; eauto using occ_left].
      intros [a | x | |] k [Hk Ha]; try (split; [lia | auto]).
      apply spends_rbind. eapply spends_mono; [| apply IHr; intros; eapply HQ; eauto using occ_right].
      intros [b | x | |] k' [Hk' Hb]; try (split; [lia | auto]).
      apply sp_ret. split; [lia |]. destruct op; cbn; auto.
  Qed.

  Definition reached (n : rnode) : Prop := reach E P (found_in E pid S) origin n.

  Lemma spends_build e rel j : reached (NSet (Some e) rel) ->
    spends S (fun x k => k <= j + cost (NSet (Some e) rel) /\ match x with Ok gt => paths_in reached gt | _ => True end) j
      (build_prog E P pid (NSet (Some e) rel)).
  Proof.
    intros Hr. cbn [build_prog]. destruct (lut_get_relation P (e_res e) rel) as [l |] eqn:Hl; [| apply sp_ret; split; [lia | auto]].
    apply spends_rbind. apply sp_ret. destruct (get_expression_tree E l) as [t | x | |] eqn:Ht; try (split; [lia | auto]).
    assert (Hw : rewrites E P e rel t). { apply node_tree_rewrites; [| eapply Hwhole]; exists l; eauto. }
    eapply spends_mono; [| apply (spends_build_tree reached)].
    - intros x k [Hk Hx]. split; [| exact Hx]. specialize (Hcost e rel t Hw). lia.
    - intros ru n Ho Hy. eapply re_step; [exact Hr |]. econstructor; eauto.
  Qed.

  (** The price of a part of a search. *)
  Definition paid (j : nat) (seen : list string) (x : res (gtree * list string)) (k : nat) : Prop :=
    match x with
    | Ok y => incl seen (snd y) /\ k + unpaid (snd y) <= j + unpaid seen
    | _ => k <= j + unpaid seen
    end.

  Definition paid_loop (j : nat) (seen : list string) (x : res (bool * list gtree * list string)) (k : nat) : Prop :=
    match x with
    | Ok y => incl seen (snd y) /\ k + unpaid (snd y) <= j + unpaid seen
    | _ => k <= j + unpaid seen
    end.

  Lemma spends_search_tree sp : (forall nd why seen j, reached nd -> spends S (paid j seen) j (sp nd why seen)) ->
    forall t seen j, paths_in reached t -> spends S (paid j seen) j (search_tree_prog sp t seen).
  Proof.
    intros Hsp t. induction t as [r ps IH | r ps IH | r x y IHx IHy | r n t why IH] using gtree_ind2; intros seen j Hq; cbn [search_tree_prog].
    - cbn in Hq. apply paths_in_all in Hq. apply spends_rbind.
      assert (Hl : spends S (paid_loop j seen) j (or_loop_prog (search_tree_prog sp) ps seen)).
      { revert seen j. induction IH as [| p ps Hp _ IH]; intros seen j; cbn.
        - apply sp_ret. cbn. split; [apply incl_refl | lia].
        - inversion Hq as [| ? ? Hqp Hqs]; subst. apply spends_rbind. eapply spends_mono; [| apply Hp, Hqp].
          intros [x | e | |] k Hk; try exact Hk. destruct Hk as [Hi Hk].
          destruct (is_success (get_result (fst x))); [apply sp_ret; split; [exact Hi | exact Hk] |].
          apply spends_rbind. eapply spends_mono; [| apply (IH Hqs)].
          intros [[[b qs] seen'] | e | |] k' Hk'; cbn in Hk' |- *; try lia.
          apply sp_ret. destruct Hk' as [Hi' Hk']. cbn. split; [eapply incl_tran; eauto | cbn in *; lia]. }
      eapply spends_mono; [| exact Hl]. intros [[[b qs] seen'] | e | |] k Hk; [apply sp_ret |..]; exact Hk.
    - cbn in Hq. apply paths_in_all in Hq. apply spends_rbind.
      assert (Hl : spends S (paid_loop j seen) j (and_loop_prog (search_tree_prog sp) ps seen)).
      { revert seen j. induction IH as [| p ps Hp _ IH]; intros seen j; cbn.
        - apply sp_ret. cbn. split; [apply incl_refl | lia].
        - inversion Hq as [| ? ? Hqp Hqs]; subst. apply spends_rbind. eapply spends_mono; [| apply Hp, Hqp].
          intros [x | e | |] k Hk; try exact Hk. destruct Hk as [Hi Hk].
          destruct (is_failure (get_result (fst x))); [apply sp_ret; split; [exact Hi | exact Hk] |].
          apply spends_rbind. eapply spends_mono; [| apply (IH Hqs)].
          intros [[[b qs] seen'] | e | |] k' Hk'; cbn in Hk' |- *; try lia.
          apply sp_ret. destruct Hk' as [Hi' Hk']. cbn. split; [eapply incl_tran; eauto | cbn in *; lia]. }
      eapply spends_mono; [| exact Hl]. intros [[[b qs] seen'] | e | |] k Hk; [apply sp_ret |..]; exact Hk.
    - destruct Hq as [Hqx Hqy]. apply spends_rbind. eapply spends_mono; [| apply IHx, Hqx].
      intros [x' | e | |] k Hk; try exact Hk. destruct Hk as [Hi Hk].
      apply spends_rbind. eapply spends_mono; [| apply IHy, Hqy].
      intros [y' | e | |] k' Hk'; cbn in Hk' |- *; try lia.
      apply sp_ret. destruct Hk' as [Hi' Hk']. cbn. split; [eapply incl_tran; eauto | lia].
    - apply Hsp. exact Hq.
  Qed.

  Lemma spends_search_path g : forall n nd why seen j, reached nd -> spends S (paid j seen) j (search_path_prog E P pid g n nd why seen).
  Proof.
    intros n. induction n as [| n IH]; intros nd why seen j Hr; cbn [search_path_prog]; [apply sp_ret; cbn; lia |].
    apply spends_rbind, sp_ret. destruct (node_id E nd) as [id | e | |] eqn:Hid; try (cbn; lia).
    destruct (existsb (String.eqb id) seen) eqn:Hs; [apply sp_ret; cbn; split; [apply incl_refl | lia] |].
    apply existsb_not_in in Hs. pose proof (unpaid_cons nd id seen (Hnodes _ Hr) Hid Hs) as Hpay.
    apply spends_rbind, sp_ret. destruct (goal_found nd g) as [f | e | |]; try (cbn; lia).
    destruct (f || is_terminal nd) eqn:Hft; [apply sp_ret; cbn; split; [apply incl_tl, incl_refl | lia] |].
    apply orb_false_iff in Hft as [_ Ht]. destruct nd as [[e |] rel | o | rs |]; try discriminate.
    - apply spends_rbind. eapply spends_mono; [| apply (spends_build e rel j Hr)].
      intros [t | x | |] k [Hk Hp]; try (cbn; lia).
      apply spends_rbind. eapply spends_mono; [| apply (spends_search_tree _ IH _ _ _ Hp)].
      intros [y | x | |] k' Hk'; cbn in Hk' |- *; try lia.
      apply sp_ret. destruct Hk' as [Hi Hk']. cbn. split; [| lia]. intros z Hz. apply Hi. right. exact Hz.
  Qed.

  Theorem spends_search n g j : spends S (fun _ k => k <= j + total cost nodes) j (search_prog E P pid n origin g).
  Proof.
    unfold search_prog. apply spends_rbind. eapply spends_mono; [| apply spends_search_path; apply re_here].
    assert (Hall : unpaid [] <= total cost nodes).
    { apply total_le. intros x. unfold due. destruct (node_id E x); cbn [existsb]; lia. }
    intros [y | e | |] k Hk; cbn in Hk; try apply sp_ret; try lia.
  Qed.
End Search.

(** ** Requests *)

Lemma whole_nodes E P : well_formed E P -> forall e rel t, node_tree E P e rel t -> whole t.
Proof.
  intros Hw e rel t (l & Hl & Hx). apply lut_relation_some in Hl as [Hl _].
  destruct (wf_expressions _ _ Hw _ _ Hl) as (t' & Ht' & _). apply expression_get in Ht' as [Ht' Hwh]. congruence.
Qed.

Section Requests.
  Variable E : env.
  Variable qs : list request.
  Variable s0 : store.
  Hypothesis Hs0 : store_ok E s0.
  Variable sched : list nat.
  Variable i : nat.
  Notation during := (during E qs s0 sched i).

  Lemma operations_turns : operations E qs s0 sched i = turns (start E qs s0) sched i.
  Proof. reflexivity. Qed.

  Section Search.
    Variable pid : string.
    Variable origin : rnode.
    Variable cost : rnode -> nat.
    Variable nodes : list rnode.
    Hypothesis Hsafe : forall k rec, acts E qs s0 sched i k -> policies (moment E qs s0 sched k) pid = Some rec ->
      costs E (pr_policy rec) cost /\ forall x, reach E (pr_policy rec) (sometimes E qs s0 sched i pid) origin x -> In x nodes.

    Lemma spends_policy {A} (f : option policy_record -> prog (res A)) j :
      (forall rec, (exists k, acts E qs s0 sched i k /\ policies (moment E qs s0 sched k) pid = Some rec) ->
         spends during (fun _ k => k <= 1 + j + total cost nodes) (1 + j) (f (Some rec))) ->
      (exists x, f None = Ret x) ->
      spends during (fun _ k => k <= 1 + j + total cost nodes) j (pbind (repo_get_policy pid) f).
    Proof.
      intros H [x Hx]. unfold repo_get_policy. cbn [pbind]. apply spends_get. intros s (k & Hk & ->).
      destruct (kv_get scmp pid (st_pol (moment E qs s0 sched k))) as [rec |] eqn:Hp.
      - apply H. eauto.
      - rewrite Hx. apply sp_ret. lia.
    Qed.

    Lemma spends_searching n g j rec : (exists k, acts E qs s0 sched i k /\ policies (moment E qs s0 sched k) pid = Some rec) ->
      spends during (fun _ k => k <= j + total cost nodes) j (search_prog E (pr_policy rec) pid n origin g).
    Proof.
      intros (k & Hk & Hp). destruct (Hsafe k rec Hk Hp) as [Hc Hn].
      apply (spends_search E (pr_policy rec) pid during (during_ok E qs s0 Hs0 sched i) origin cost Hc).
      - apply whole_nodes. destruct (so_policy _ _ (moment_ok E qs s0 Hs0 sched k) _ _ Hp) as [_ Hw]. exact Hw.
      - intros x Hx. apply Hn. eapply reach_mono; [| exact Hx]. intros. apply found_in_sometimes. assumption.
    Qed.
  End Search.

  (** Programs that end without further operations. *)
  Lemma spends_then {A B} (p : prog (res A)) (f : A -> res B) L j :
    spends during (fun _ k => k <= L) j p -> spends during (fun _ k => k <= L) j (rbind p (fun a => Ret (f a))).
  Proof. intros H. apply spends_rbind. eapply spends_mono; [| exact H]. intros [a | e | |] k Hk; [apply sp_ret |..]; exact Hk. Qed.

  Theorem search_operations q pid origin cost nodes : nth_error qs i = Some q -> search_from q = Some (pid, origin) ->
    (forall k rec, acts E qs s0 sched i k -> policies (moment E qs s0 sched k) pid = Some rec ->
       costs E (pr_policy rec) cost /\ forall x, reach E (pr_policy rec) (sometimes E qs s0 sched i pid) origin x -> In x nodes) ->
    operations E qs s0 sched i <= 1 + total cost nodes.
  Proof.
    intros Hq Hf H. rewrite operations_turns.
    apply (spends_turns during (fun _ k => k <= 1 + total cost nodes) (1 + total cost nodes)) with (j := 0) (p := serve E q); [auto | | | | lia].
    - cbn [start fst]. rewrite nth_error_map, Hq. reflexivity.
    - assert (Hcheck : forall n a, NSet (a_object a) (a_relation a) = origin ->
                spends during (fun _ k => k <= 1 + total cost nodes) 0 (check_search E n pid (Some a))).
      { intros n a <-. unfold check_search. apply (spends_policy pid cost nodes _ 0); [| eauto].
        intros rec Hr. apply (spends_searching _ _ _ _ H _ _ 1 rec Hr). }
      destruct q as [| | | | | | | | | | n pid' [a |] | n pid' [a |] f | n pid' [nd |] f |]; try discriminate; cbn [search_from] in Hf; injection Hf as -> Ho;
        cbn [serve]; unfold respond; apply spends_then.
      + apply spends_then. auto.
      + unfold explain_check. apply spends_rbind, sp_ret. destruct (serializer_factory f); try lia.
        apply spends_rbind. eapply spends_mono; [| apply (Hcheck n a Ho)]. intros [t | e | |] k Hk; try exact Hk.
        apply spends_rbind, sp_ret. destruct (serialize n f t); try exact Hk. apply sp_ret. exact Hk.
      + subst nd. unfold expand. apply spends_rbind, sp_ret. destruct (serializer_factory f); try lia.
        apply (spends_policy pid cost nodes _ 0); [| eauto]. intros rec Hr. apply spends_rbind.
        eapply spends_mono; [| apply (spends_searching _ _ _ _ H _ _ 1 rec Hr)]. intros [t | e | |] k Hk; try exact Hk.
        apply spends_rbind, sp_ret. destruct (serialize n f t); try exact Hk. apply sp_ret. exact Hk.
    - intros s (k & Hk & Hn & ->). exists k. repeat split; assumption.
  Qed.
End Requests.

(** ** One request alone *)

Lemma answered_stays sched : forall c i, answered c i <> None -> answered (interleave sched c) i <> None.
Proof.
  induction sched as [| j sched IH]; intros c i H; [exact H |]. change (interleave (j :: sched) c) with (interleave sched (advance c j)).
  apply IH. unfold answered in *. destruct (nth_error (fst c) i) as [[] |] eqn:Hp; try congruence.
  unfold advance. destruct (nth_error (fst c) j) as [q |] eqn:Hq; [| rewrite Hp; discriminate].
  destruct (step1 q (snd c)) as [[q' s'] |] eqn:Hs; [| rewrite Hp; discriminate]. cbn [fst].
  destruct (Nat.eq_dec j i) as [-> | Hne]; [| rewrite replace_other, Hp by assumption; discriminate].
  rewrite Hp in Hq. injection Hq as <-. discriminate.
Qed.

Lemma turns_all : forall k c, answered (interleave (repeat 0 k) c) 0 = None -> turns c (repeat 0 (1 + k)) 0 = 1 + k.
Proof.
  intros k. induction k as [| k IH]; intros c H; cbn [Nat.add repeat]; rewrite turns_cons.
  - cbn in H. rewrite H. reflexivity.
  - destruct (answered c 0) eqn:Hc.
    + exfalso. apply (answered_stays (repeat 0 (1 + k)) c 0); [congruence | exact H].
    + cbn [Nat.eqb]. change (0 :: repeat 0 k) with (repeat 0 (1 + k)). rewrite IH; [reflexivity | exact H].
Qed.

Lemma operations_within E q s k : (forall sched, operations E [q] s sched 0 <= k) -> answered_within E q s k.
Proof.
  intros H Hn. specialize (H (repeat 0 (1 + k))). rewrite operations_turns, turns_all in H by exact Hn. lia.
Qed.

Lemma search_reads q pid origin : search_from q = Some (pid, origin) -> forall x, ~ writes q x.
Proof. destruct q; try discriminate; intros _ x []. Qed.

Theorem search_within E s q pid origin cost nodes : store_ok E s -> search_from q = Some (pid, origin) ->
  (forall rec, policies s pid = Some rec -> costs E (pr_policy rec) cost /\
     forall x, reach E (pr_policy rec) (key_subject E (relationships s pid)) origin x -> In x nodes) ->
  answered_within E q s (1 + total cost nodes).
Proof.
  intros Hs Hf H. apply operations_within. intros sched.
  assert (Hq : forall k, policies (moment E [q] s sched k) pid = policies s pid /\ relationships (moment E [q] s sched k) pid = relationships s pid).
  { intros k. destruct (quiet E [q] s (firstn k sched) pid (so_edges _ _ Hs)) as [_ [H1 H2]].
    - intros q' [<- | []]. eapply search_reads. exact Hf.
    - split; [exact (eq_sym H1) |]. unfold moment, relationships. rewrite <- H2. reflexivity. }
  apply (search_operations E [q] s Hs sched 0 q pid origin); [reflexivity | exact Hf |].
  intros k rec _ Hp. destruct (Hq k) as [H1 _]. rewrite H1 in Hp. destruct (H rec Hp) as [Hc Hn]. split; [exact Hc |].
  intros x Hx. apply Hn. eapply reach_mono; [| exact Hx]. intros o rel u (j & _ & Hk). destruct (Hq j) as [_ H2]. rewrite H2 in Hk. exact Hk.
Qed.

(** ** A bound from the sizes of the policy and of its relationships *)

Lemma sum_incl {A} (f : A -> nat) (dec : forall x y : A, {x = y} + {x <> y}) l l' : NoDup l -> (forall x, In x l -> f x <> 0 -> In x l') ->
  list_sum (map f l) <= list_sum (map f l').
Proof.
  revert l'. induction l as [| x l IH]; intros l' Hd H; [apply Nat.le_0_l |]. inversion Hd as [| ? ? Hx Hl]; subst.
  change (f x + list_sum (map f l) <= list_sum (map f l')). destruct (Nat.eq_dec (f x) 0) as [H0 | H0].
  - rewrite H0. apply IH; [exact Hl |]. intros y Hy. apply H. right. exact Hy.
  - destruct (in_split x l') as (l1 & l2 & ->); [apply H; [left; reflexivity | exact H0] |].
    rewrite map_app, list_sum_app. change (list_sum (map f (x :: l2))) with (f x + list_sum (map f l2)).
    specialize (IH (l1 ++ l2) Hl). rewrite map_app, list_sum_app in IH.
    enough (list_sum (map f l) <= list_sum (map f l1) + list_sum (map f l2)) by lia. apply IH.
    intros y Hy Hfy. specialize (H y (or_intror Hy) Hfy). apply in_app_iff in H as [H | [-> | H]];
      [apply in_app_iff; auto | contradiction | apply in_app_iff; auto].
Qed.

Section Sizes.
  Variable E : env.
  Variable P : policy.
  Hypothesis Hw : well_formed E P.
  Variable rels : list relationship.
  Variable origin : rnode.

  (** The lookups of a node. *)
  Definition price (x : rnode) : nat :=
    match x with
    | NSet (Some o) rel =>
        match lut_get_relation P (e_res o) rel with
        | Some l => match get_expression_tree E l with Ok t => lookups t | _ => 0 end
        | None => 0
        end
    | _ => 0
    end.

  Lemma price_costs : costs E P price.
  Proof.
    intros o rel t Hr. destruct (rewrites_node E P o rel t (wf_unique _ _ Hw) Hr) as (l & Hl & Ht).
    cbn [price]. rewrite Hl, Ht. apply le_n.
  Qed.

  Definition subjects : list subject := flat_map (fun r => match r_subject r with Some u => [u] | None => [] end) rels.
  Definition subject_relation (u : subject) : list string := match u with SEntitySet _ rel => [rel] | _ => [] end.

  Definition all_names : list string := nodup string_dec
    (node_relation origin ++ flat_map subject_relation subjects ++
     flat_map (fun x => match get_expression_tree E (snd x) with Ok t => tree_names t | _ => [] end) (lut_relations P)).
  Definition all_objects : list entity :=
    node_object origin ++ flat_map (fun u => match subject_object u with Some o => [o] | None => [] end) subjects.
  (** The nodes that are not relations of an object. *)
  Definition loose (x : rnode) : bool := match x with NSet (Some _) _ => false | _ => true end.
  Definition all_nodes : list rnode :=
    filter loose (origin :: map subject_node subjects) ++ map (NSet None) all_names ++
    flat_map (fun o => map (NSet (Some o)) all_names) all_objects.

  Lemma subject_in o rel u : key_subject E rels o rel u -> In u subjects.
  Proof. intros (r & Hr & Hu & _). apply in_flat_map. exists r. split; [exact Hr |]. rewrite Hu. left. reflexivity. Qed.

  Lemma object_in u o : In u subjects -> subject_object u = Some o -> In o all_objects.
  Proof. intros Hu Ho. apply in_app_iff. right. apply in_flat_map. exists u. split; [exact Hu |]. rewrite Ho. left. reflexivity. Qed.

  Definition known (x : rnode) : Prop :=
    match x with NSet (Some o) rel => In o all_objects /\ In rel all_names | _ => In x all_nodes end.

  Lemma known_in x : known x -> In x all_nodes.
  Proof.
    destruct x as [[o |] rel | | |]; cbn [known]; auto. intros [Ho Hr]. apply in_app_iff. right. apply in_app_iff. right.
    apply in_flat_map. exists o. split; [exact Ho |]. apply in_map. exact Hr.
  Qed.

  Lemma reach_known x : reach E P (key_subject E rels) origin x -> known x.
  Proof.
    induction 1 as [| x y _ IH Hl].
    - assert (Hl : loose origin = true -> In origin all_nodes).
      { intros Hl. apply in_app_iff. left. apply filter_In. split; [left; reflexivity | exact Hl]. }
      destruct (loose origin) eqn:Hx.
      + specialize (Hl eq_refl). unfold known. destruct origin as [[o |] rel | | |]; try discriminate; exact Hl.
      + clear Hl. unfold known, all_objects, all_names. destruct origin as [[o |] rel | | |]; try discriminate.
        split; [left; reflexivity | apply nodup_In; left; reflexivity].
    - destruct Hl as [o rel t ru n Hrw Hoc Hy]. destruct IH as [Hob _].
      assert (Hn : forall c, In c (rule_names ru) -> In c all_names).
      { intros c Hc. apply nodup_In, in_app_iff. right. apply in_app_iff. right. apply in_flat_map.
        destruct (rewrites_node E P o rel t (wf_unique _ _ Hw) Hrw) as (l & Hl & Ht). exists ((e_res o, rel), l). split.
        - apply lut_relations_in. apply lut_relation_some. exact Hl.
        - cbn [snd]. rewrite Ht. eapply tree_names_occurs; eauto. }
      destruct Hy as [o rel u Hu | o rel c | o rel ts cu u Hu].
      + apply subject_in in Hu.
        assert (Hl : loose (subject_node u) = true -> In (subject_node u) all_nodes).
        { intros Hl. apply in_app_iff. left. apply filter_In. split; [right; apply in_map; exact Hu | exact Hl]. }
        destruct u as [e | [e |] r | rs |]; cbn [subject_node known] in *; try (apply Hl; reflexivity). split.
        * eapply object_in; [exact Hu | reflexivity].
        * apply nodup_In, in_app_iff. right. apply in_app_iff. left. apply in_flat_map. eexists. split; [exact Hu | left; reflexivity].
      + split; [exact Hob | apply Hn; left; reflexivity].
      + apply subject_in in Hu. assert (Hc : In cu all_names) by (apply Hn; left; reflexivity).
        destruct (subject_object u) as [o' |] eqn:Ho; [split; [eapply object_in; eauto | exact Hc] |].
        apply in_app_iff. right. apply in_app_iff. left. apply in_map. exact Hc.
  Qed.

  Lemma objects_length : length all_objects <= 1 + length rels.
  Proof.
    assert (Hl : forall l, length (flat_map (fun u => match subject_object u with Some o => [o] | None => [] end) l) <= length l).
    { intros l. induction l as [| u l IH]; [apply le_n |]. cbn [flat_map length]. rewrite app_length.
      destruct (subject_object u); cbn [length]; lia. }
    assert (Hs : length subjects <= length rels).
    { unfold subjects. induction rels as [| r l IH]; [apply le_n |]. cbn [flat_map length]. rewrite app_length.
      destruct (r_subject r); cbn [length]; lia. }
    unfold all_objects. rewrite app_length. specialize (Hl subjects).
    assert (Ho : length (node_object origin) <= 1) by (destruct origin as [[] | [] | |]; cbn; lia). lia.
  Qed.

  Variable L : nat.
  Hypothesis HL : forall r n, In r (p_resources P) -> resource_lookups E r n -> n <= L.

  Lemma resource_price r : In r (p_resources P) -> forall o, e_res o = rs_name r ->
    list_sum (map (fun rel => price (NSet (Some o) rel)) (map rl_name (rs_relations r))) <= L.
  Proof.
    intros Hr o Ho. rewrite map_map.
    assert (Hts : exists ts, Forall2 (expression E) (rs_relations r) ts /\
              list_sum (map (fun l => price (NSet (Some o) (rl_name l))) (rs_relations r)) = list_sum (map lookups ts)).
    { assert (Hall : forall l, In l (rs_relations r) -> relation_of P (e_res o) l) by (intros l Hl; exists r; auto).
      revert Hall. induction (rs_relations r) as [| l ls IH]; intros Hall; [exists []; split; [constructor | reflexivity] |].
      destruct IH as (ts & Hts & Hsum); [intros; apply Hall; right; assumption |].
      assert (Hl : relation_of P (e_res o) l) by (apply Hall; left; reflexivity).
      destruct (wf_expressions _ _ Hw _ _ Hl) as (t & Ht & _). exists (t :: ts). split; [constructor; assumption |].
      cbn [map]. change (list_sum (?x :: ?y)) with (x + list_sum y). rewrite Hsum. f_equal.
      cbn [price]. rewrite (lut_relation_found P _ _ (wf_unique _ _ Hw) Hl). apply expression_get in Ht as [-> _]. reflexivity. }
    destruct Hts as (ts & Hts & Hsum). rewrite Hsum. apply (HL r); [exact Hr |]. exists ts. auto.
  Qed.

  Lemma object_price o : total price (map (NSet (Some o)) all_names) <= L.
  Proof.
    unfold total. rewrite map_map.
    assert (Hdec : (exists r, In r (p_resources P) /\ rs_name r = e_res o) \/ forall rel, price (NSet (Some o) rel) = 0).
    { destruct (in_dec string_dec (e_res o) (map rs_name (p_resources P))) as [Hin | Hn].
      - left. apply in_map_iff in Hin as (r & Hn & Hr). eauto.
      - right. intros rel. cbn [price]. destruct (lut_get_relation P (e_res o) rel) as [l |] eqn:Hl; [| reflexivity].
        exfalso. apply Hn. apply lut_relation_some in Hl as [(r & Hr & Hrn & _) _]. apply in_map_iff. eauto. }
    destruct Hdec as [(r & Hr & Hrn) | H0].
    - eapply Nat.le_trans; [| apply (resource_price r Hr o); auto].
      apply sum_incl; [exact string_dec | apply NoDup_nodup |]. intros rel _ Hp. cbn [price] in Hp.
      destruct (lut_get_relation P (e_res o) rel) as [l |] eqn:Hl; [| contradiction].
      apply lut_relation_some in Hl as [(r' & Hr' & Hrn' & Hl) Hname].
      assert (r' = r) as ->.
      { pose proof (wf_resources _ _ Hw) as Hd. revert Hd Hr Hr' Hrn Hrn'. generalize (p_resources P). generalize (e_res o). clear.
        intros n l Hd Hr Hr' Hn Hn'. induction l as [| x l IH]; [destruct Hr |]. inversion Hd as [| ? ? Hx Hd']; subst.
        destruct Hr as [<- | Hr], Hr' as [<- | Hr']; auto; exfalso; apply Hx; rewrite ?Hn'; apply in_map_iff; eauto. }
      apply in_map_iff. eauto.
    - enough (H : list_sum (map (fun x => price (NSet (Some o) x)) all_names) = 0) by (rewrite H; lia).
      generalize all_names. intros l. induction l as [| x l IH]; [reflexivity |]. cbn [map].
      change (list_sum (?x :: ?y)) with (x + list_sum y). rewrite IH, H0. reflexivity.
  Qed.

  Lemma total_app f (l l' : list rnode) : total f (l ++ l') = total f l + total f l'.
  Proof. unfold total. rewrite map_app, list_sum_app. reflexivity. Qed.

  Lemma total_zero f (l : list rnode) : (forall x, In x l -> f x = 0) -> total f l = 0.
  Proof.
    intros H. induction l as [| x l IH]; [reflexivity |]. rewrite total_cons, H, IH; [reflexivity | | left; reflexivity].
    intros y Hy. apply H. right. exact Hy.
  Qed.

  Theorem all_price : total price all_nodes <= (1 + length rels) * L.
  Proof.
    unfold all_nodes. rewrite !total_app, (total_zero price (filter _ _)), (total_zero price (map (NSet None) _)).
    - cbn [Nat.add]. eapply Nat.le_trans; [| apply Nat.mul_le_mono_r, objects_length].
      induction all_objects as [| o os IH]; [apply Nat.le_0_l |]. cbn [flat_map length]. rewrite total_app.
      pose proof (object_price o). lia.
    - intros x Hx. apply in_map_iff in Hx as (rel & <- & _). reflexivity.
    - intros x Hx. apply filter_In in Hx as [_ Hx]. destruct x as [[o |] rel | | |]; try discriminate; reflexivity.
  Qed.
End Sizes.

Theorem search_size E s q pid origin L : store_ok E s -> search_from q = Some (pid, origin) ->
  (forall rec r n, policies s pid = Some rec -> In r (p_resources (pr_policy rec)) -> resource_lookups E r n -> n <= L) ->
  answered_within E q s (1 + (1 + length (relationships s pid)) * L).
Proof.
  intros Hs Hf HL. destruct (policies s pid) as [rec |] eqn:Hp.
  - destruct (so_policy _ _ Hs _ _ Hp) as [_ Hw].
    assert (Hall := all_price E (pr_policy rec) Hw (relationships s pid) origin L (fun r n => HL rec r n eq_refl)).
    assert (Hin := search_within E s q pid origin (price E (pr_policy rec)) (all_nodes E (pr_policy rec) (relationships s pid) origin) Hs Hf).
    assert (Hk : answered_within E q s (1 + total (price E (pr_policy rec)) (all_nodes E (pr_policy rec) (relationships s pid) origin))).
    { apply Hin. intros rec' Hp'. assert (rec' = rec) as -> by congruence. split; [apply price_costs; exact Hw |].
      intros x Hx. apply known_in, reach_known; assumption. }
    unfold answered_within in *. remember ((1 + length (relationships s pid)) * L) as B.
    set (w := 1 + total _ _) in Hk. replace (1 + B) with (w + (1 + B - w)) by lia. rewrite repeat_app, interleave_app.
    apply answered_stays. exact Hk.
  - assert (Hk : answered_within E q s (1 + total (fun _ => 0) [])).
    { apply (search_within E s q pid origin); [exact Hs | exact Hf |]. congruence. }
    cbn in Hk. unfold answered_within in *. cbn [Nat.add repeat].
    change (0 :: ?l) with ([0] ++ l). rewrite interleave_app. apply answered_stays. exact Hk.
Qed.
