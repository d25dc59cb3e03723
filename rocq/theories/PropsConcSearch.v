(** Properties of searches beside other requests: C50 to C53. *)
From Verif Require Import Base Domain Lexer Parser Validate Store Search Explain Yaml Service Dump Api
  SpecGrammar SpecPolicy SpecStore SpecSearch SpecConc Fixtures BaseFacts ParserFacts ValidateFacts StoreFacts PolicyFacts RelFacts
  SearchFacts SearchSem SearchTerm ReadFacts GraphFacts DotFacts ConcFacts ConcSearch.

(** ** C50 A Check beside writers authorises only what it could read *)

(** An authorisation follows from the policy stored at one step of the request and relationships that were stored
    at some of its steps. *)
Theorem C50_justified : forall E s qs sched i n pid o rel a, reachable E s ->
  nth_error qs i = Some (QCheck n pid (asks o rel a)) ->
  answered (interleave sched (start E qs s)) i = Some (Ok (ADecision true)) ->
  exists k rec, acts E qs s sched i k /\
    answer E (QGetPolicy pid) (moment E qs s sched k) = Ok (APolicy (Some rec)) /\
    (~ policy_uses E (pr_policy rec) OpDiff -> member E (pr_policy rec) (sometimes E qs s sched i pid) a o rel).
Proof.
  intros E s qs sched i n pid o rel a H Hq Ha. apply reachable_ok in H.
  pose proof (request_outcome E qs s sched i _ _ Hq Ha) as Ho.
  destruct (check_path E qs s sched i n pid o rel a _ Ho) as (k & rec & r & seen & Hd & Hk & Hp & Hr). exists k, rec.
  split; [exact Hk |]. split; [rewrite answer_get_policy; congruence |]. intros Hnd.
  injection Hd as Hd. symmetry in Hd. apply is_success_iff in Hd.
  apply (member_mono E (pr_policy rec) (found_in E pid (during E qs s sched i))); [exact Hnd | intros; apply found_in_sometimes; assumption |].
  intros M HM. pose proof (proj1 (decide_sound E (pr_policy rec) (GoalEntity (Some a)) _ (found_in E pid (during E qs s sched i))
    (evaluated_hi E pid _ (during_ok E qs s H sched i)) a eq_refl M HM Hnd) _ _ _ _ Hr Hd) as Hn. exact Hn.
Qed.

(** The same by name, when no key of a relation that could be consulted is shared. *)
Theorem C50_justified_by_name : forall E s qs sched i n pid o rel a rels, reachable E s ->
  nth_error qs i = Some (QCheck n pid (asks o rel a)) ->
  answered (interleave sched (start E qs s)) i = Some (Ok (ADecision true)) ->
  (forall r, In r rels <-> exists k, acts E qs s sched i k /\ In r (relationships (moment E qs s sched k) pid)) ->
  exists k rec, acts E qs s sched i k /\
    answer E (QGetPolicy pid) (moment E qs s sched k) = Ok (APolicy (Some rec)) /\
    (~ policy_uses E (pr_policy rec) OpDiff -> unaliased E (pr_policy rec) rels (NSet (Some o) rel) ->
     member E (pr_policy rec) (stored_subject rels) a o rel).
Proof.
  intros E s qs sched i n pid o rel a rels H Hq Ha Hrels.
  destruct (C50_justified E s qs sched i n pid o rel a H Hq Ha) as (k & rec & Hk & Hp & Hm). exists k, rec.
  split; [exact Hk |]. split; [exact Hp |]. intros Hnd Hun. apply (member_stored E _ rels); [exact Hnd | exact Hun |].
  apply (member_mono E _ (sometimes E qs s sched i pid)); [exact Hnd | | exact (Hm Hnd)].
  intros o' rel' u (j & Hj & r & Hin & Hu & Hs). exists r. split; [apply Hrels; eauto | auto].
Qed.

(** Bob was at no moment a member of group a, yet the request met both relationships. *)
Definition link : relationship := tup "group" "a" "member" (members "b").
Definition enter : relationship := tup "group" "b" "member" (user "bob").
Definition asked : request := QCheck 9 "p" (asks (ent "group" "a") "member" (ent "user" "bob")).
Definition linked : store := after_all E0 [create "p"; set "p" link] empty_store.
Definition rival : list request := [asked; QDeleteRelationship "p" (Some link); set "p" enter].
Definition rival_sched : list nat := [0; 0; 1; 1; 1; 1; 1; 2; 2; 2; 2; 2; 0; 0; 0].

Example C50_example : let c := interleave rival_sched (start E0 rival linked) in
  answered c 0 = Some (Ok (ADecision true)) /\ relationships (snd c) "p" = [enter] /\
  acts E0 rival linked rival_sched 0 1 /\ relationships (moment E0 rival linked rival_sched 1) "p" = [link].
Proof. vm_compute. repeat split. Qed.

(** ** C51 A Check beside writers authorises whatever holds during all of its steps *)

Theorem C51_complete : forall E s qs sched i n pid o rel a b, reachable E s ->
  nth_error qs i = Some (QCheck n pid (asks o rel a)) ->
  answered (interleave sched (start E qs s)) i = Some (Ok (ADecision b)) ->
  (forall k, acts E qs s sched i k -> exists rec,
     answer E (QGetPolicy pid) (moment E qs s sched k) = Ok (APolicy (Some rec)) /\
     union_only E (pr_policy rec) /\
     distinct_ids E (pr_policy rec) (sometimes E qs s sched i pid) (NSet (Some o) rel) /\
     member E (pr_policy rec) (always E qs s sched i pid) a o rel) ->
  b = true.
Proof.
  intros E s qs sched i n pid o rel a b H Hq Ha Hall. apply reachable_ok in H.
  pose proof (request_outcome E qs s sched i _ _ Hq Ha) as Ho.
  destruct (check_path E qs s sched i n pid o rel a _ Ho) as (k & rec & r & seen & Hd & Hk & Hp & Hr).
  injection Hd as ->. destruct (Hall k Hk) as (rec' & Hp' & Hun & Hdi & Hm).
  rewrite answer_get_policy in Hp'. injection Hp' as Hp'. rewrite Hp in Hp'. injection Hp' as <-.
  destruct (is_success r) eqn:Hs; [reflexivity |]. exfalso.
  assert (Hnd : ~ policy_uses E (pr_policy rec) OpDiff) by (intros Hu; specialize (Hun _ Hu); discriminate).
  eapply (decide_complete_member E (pr_policy rec) (evaluated_as E pid (during E qs s sched i))
           (found_in_all E pid (during E qs s sched i)) (found_in E pid (during E qs s sched i)) a o rel r seen).
  - apply evaluated_lo, during_ok, H.
  - apply evaluated_hi, during_ok, H.
  - intros o' rel' u Hu. exists (moment E qs s sched k). split; [exists k; auto |]. apply Hu. exists k. auto.
  - eapply stored_unique; [apply moment_ok; exact H | exact Hp].
  - exact Hun.
  - intros x y Hx Hy. apply Hdi; (eapply reach_mono; [| eassumption]); intros; apply found_in_sometimes; assumption.
  - exact Hr.
  - intros ->. discriminate.
  - apply (member_mono E _ (always E qs s sched i pid)); [exact Hnd | intros; apply found_in_always; assumption | exact Hm].
Qed.

Example C51_example : let rivals := [asked; set "p" (tup "group" "a" "member" (user "eve")); QDeleteRelationship "p" (Some (tup "group" "c" "member" (user "bob")))] in
  let s := after_all E0 [create "p"; set "p" link; set "p" enter; set "p" (tup "group" "c" "member" (user "bob"))] empty_store in
  answered (interleave [0; 1; 1; 0; 2; 2; 1; 1; 2; 0; 0; 0] (start E0 rivals s)) 0 = Some (Ok (ADecision true)).
Proof. vm_compute. reflexivity. Qed.

(** ** C52 A Check beside writers answers as at one moment: false *)

(** An authorisation that no moment of the schedule would give, although the deletion is answered before the
    setting begins. *)
Theorem C52_refuted : exists s qs sched m, sequential E0 s /\
  qs = [asked; QDeleteRelationship "p" (Some link); set "p" enter] /\
  answered (interleave sched (start E0 qs s)) 0 = Some (Ok (ADecision true)) /\
  (forall k, answer E0 asked (moment E0 qs s sched k) = Ok (ADecision false)) /\
  answered (interleave (firstn m sched) (start E0 qs s)) 1 = Some (Ok (ADeleted true)) /\
  (forall k, nth_error sched k = Some 2 -> m <= k).
Proof.
  exists linked, rival, rival_sched, 7. split; [eexists; reflexivity |]. split; [reflexivity |]. split; [vm_compute; reflexivity |].
  split; [| split; [vm_compute; reflexivity |]].
  - intros k. do 15 (destruct k as [| k]; [vm_compute; reflexivity |]). unfold moment.
    rewrite firstn_all2 by (cbn; lia). vm_compute. reflexivity.
  - intros k Hk. do 7 (destruct k as [| k]; [discriminate |]). lia.
Qed.

(** A denial that no moment of the schedule would give. *)
Definition moved : list request :=
  [asked; set "p" (tup "group" "a" "member" (user "bob")); QDeleteRelationship "p" (Some enter)].

Theorem C52_denied_refuted : exists s sched m, sequential E0 s /\
  answered (interleave sched (start E0 moved s)) 0 = Some (Ok (ADecision false)) /\
  (forall k, answer E0 asked (moment E0 moved s sched k) = Ok (ADecision true)) /\
  answered (interleave (firstn m sched) (start E0 moved s)) 1 = Some (Ok (ASet false)) /\
  (forall k, nth_error sched k = Some 2 -> m <= k).
Proof.
  exists (after_all E0 [create "p"; set "p" link; set "p" enter] empty_store), [0; 0; 1; 1; 1; 1; 1; 2; 2; 2; 2; 2; 0; 0; 0], 7.
  split; [eexists; reflexivity |]. split; [vm_compute; reflexivity |].
  split; [| split; [vm_compute; reflexivity |]].
  - intros k. do 15 (destruct k as [| k]; [vm_compute; reflexivity |]). unfold moment.
    rewrite firstn_all2 by (cbn; lia). vm_compute. reflexivity.
  - intros k Hk. do 7 (destruct k as [| k]; [discriminate |]). lia.
Qed.

(** It holds of every reading request if nobody writes about its policy. *)
Theorem C52_quiet_partial : forall E s qs sched i q pid x, reachable E s ->
  nth_error qs i = Some q -> concerns q = Some pid -> ~ reads_records q -> (forall q', In q' qs -> ~ writes q' pid) ->
  answered (interleave sched (start E qs s)) i = Some x -> x = answer E q s.
Proof.
  intros E s qs sched i q pid x H Hq Hc Hr Hw Ha. apply reachable_ok in H as Hok. apply so_edges in Hok.
  pose proof (request_outcome E qs s sched i _ _ Hq Ha) as Ho. symmetry. unfold answer.
  apply (outcome_alike pid (during E qs s sched i) s); auto.
  - intros s' (k & _ & ->). exact (quiet E qs s (firstn k sched) pid Hok Hw).
  - apply reads_serve. pose proof (Hw q (nth_error_In _ _ Hq)) as Hn. destruct q; cbn in *; try exact Logic.I; congruence.
  - apply serve_only; assumption.
Qed.

Example C52_example : let qs := [asked; QDeleteRelationship "q" (Some link); create "q"] in
  answered (interleave [0; 2; 2; 0; 1; 1; 0; 0; 1; 1] (start E0 qs linked)) 0 = Some (Ok (ADecision false)) /\
  answer E0 asked linked = Ok (ADecision false).
Proof. vm_compute. auto. Qed.

(** ** C53 Requests beside others end *)

(** Whatever the others do, a request that gets its turns is answered. *)
Theorem C53_answered : forall E s qs sched i, i < length qs -> fair sched i ->
  exists k, answered (interleave (prefix sched k) (start E qs s)) i <> None.
Proof.
  intros E s qs sched i Hi Hf. destruct (nth_error qs i) as [q |] eqn:Hq; [| apply nth_error_None in Hq; lia].
  apply (fair_answered (serve E q)); [| exact Hf]. cbn [start fst]. rewrite nth_error_map, Hq. reflexivity.
Qed.

(** The recursion of a search is bounded, although others write while it reads. *)
Lemma search_among E s qs sched i pid n origin g : store_ok E s -> forall rec k,
  policies (moment E qs s sched k) pid = Some rec -> bound_among E qs s pid origin <= n ->
  ~ outcome (during E qs s sched i) (search_prog E (pr_policy rec) pid n origin g) Fuel.
Proof.
  intros H rec k Hp Hn. apply (outcome_search_ends E pid (during E qs s sched i) (pr_policy rec) (edges_of pid s ++ set_edges E pid qs)).
  - intros s' x (j & _ & ->) Hin. eapply edges_bound; [exact H | exact Hin].
  - eapply Nat.le_trans; [eapply bound_among_ok; exact Hp | exact Hn].
Qed.

Lemma set_edges_other E pid qs q qs' : is_read q -> set_edges E pid (qs ++ q :: qs') = set_edges E pid (qs ++ qs').
Proof. intros Hq. unfold set_edges. rewrite !flat_map_app. f_equal. cbn [flat_map]. destruct q; cbn in Hq; try contradiction; reflexivity. Qed.

Lemma defined_other qs q qs' : is_read q -> defined (qs ++ q :: qs') = defined (qs ++ qs').
Proof. intros Hq. unfold defined. rewrite !flat_map_app. f_equal. cbn [flat_map]. destruct q; cbn in Hq; try contradiction; reflexivity. Qed.

Lemma bound_other E qs q qs' s pid origin : is_read q -> bound_among E (qs ++ q :: qs') s pid origin = bound_among E (qs ++ qs') s pid origin.
Proof. intros Hq. unfold bound_among. rewrite set_edges_other, defined_other by exact Hq. reflexivity. Qed.

Lemma middle {A} (l : list A) x l' : nth_error (l ++ x :: l') (length l) = Some x.
Proof. rewrite nth_error_app2, Nat.sub_diag by lia. reflexivity. Qed.

Lemma check_among E s qs sched i pid n a : store_ok E s ->
  match a with None => 0 | Some a => bound_among E qs s pid (NSet (a_object a) (a_relation a)) end <= n ->
  ~ outcome (during E qs s sched i) (check_search E n pid a) Fuel.
Proof.
  intros H Hn Ho. unfold check_search, repo_get_policy in Ho. cbn [pbind] in Ho. apply outcome_get in Ho as (s' & (k & Hk & ->) & Ho).
  destruct (kv_get scmp pid (st_pol (moment E qs s sched k))) as [rec |] eqn:Hp; [| apply outcome_ret in Ho; discriminate].
  destruct a as [a |]; [| apply outcome_ret in Ho; discriminate].
  revert Ho. eapply search_among; eauto.
Qed.

Theorem C53_check : forall E s qs qs' pid a, reachable E s -> exists N, forall n sched, N <= n ->
  answered (interleave sched (start E (qs ++ QCheck n pid a :: qs') s)) (length qs) <> Some Fuel.
Proof.
  intros E s qs qs' pid a H. apply reachable_ok in H.
  exists (match a with None => 0 | Some a => bound_among E (qs ++ qs') s pid (NSet (a_object a) (a_relation a)) end).
  intros n sched Hn Ha. pose proof (request_outcome _ _ _ _ _ _ _ (middle qs _ qs') Ha) as Ho.
  cbn [serve] in Ho. unfold respond, check in Ho.
  apply outcome_fuel in Ho as [Ho | (b & _ & Ho)]; [| apply outcome_ret in Ho; discriminate].
  apply outcome_fuel in Ho as [Ho | (t & _ & Ho)]; [| apply outcome_ret in Ho; discriminate].
  revert Ho. apply check_among; [exact H |]. destruct a; [rewrite bound_other by exact Logic.I |]; exact Hn.
Qed.

Lemma serialize_no_fuel n f t : 3 <= n -> serialize n f t <> Fuel.
Proof.
  intros Hn. destruct f; cbn; try discriminate; [apply json_bound; exact Hn |].
  pose proof (goal_dot_fuel t). destruct (goal_dot t); cbn; congruence.
Qed.

Theorem C53_explain : forall E s qs qs' pid a f, reachable E s -> exists N, forall n sched, N <= n ->
  answered (interleave sched (start E (qs ++ QExplainCheck n pid a f :: qs') s)) (length qs) <> Some Fuel.
Proof.
  intros E s qs qs' pid a f H. apply reachable_ok in H.
  exists (3 + match a with None => 0 | Some a => bound_among E (qs ++ qs') s pid (NSet (a_object a) (a_relation a)) end).
  intros n sched Hn Ha. pose proof (request_outcome _ _ _ _ _ _ _ (middle qs _ qs') Ha) as Ho.
  cbn [serve] in Ho. unfold respond, explain_check in Ho.
  apply outcome_fuel in Ho as [Ho | (b & _ & Ho)]; [| apply outcome_ret in Ho; discriminate].
  apply outcome_fuel in Ho as [Ho | (b & _ & Ho)]; [apply outcome_ret in Ho; destruct f; discriminate |].
  apply outcome_fuel in Ho as [Ho | (t & _ & Ho)].
  - revert Ho. apply check_among; [exact H |]. destruct a; [rewrite bound_other by exact Logic.I |]; lia.
  - apply outcome_fuel in Ho as [Ho | (x & _ & Ho)]; [| apply outcome_ret in Ho; discriminate].
    apply outcome_ret in Ho. revert Ho. apply serialize_no_fuel. lia.
Qed.

Theorem C53_expand : forall E s qs qs' pid root f, reachable E s -> exists N, forall n sched, N <= n ->
  answered (interleave sched (start E (qs ++ QExpand n pid root f :: qs') s)) (length qs) <> Some Fuel.
Proof.
  intros E s qs qs' pid root f H. apply reachable_ok in H.
  exists (3 + match root with None => 0 | Some nd => bound_among E (qs ++ qs') s pid nd end).
  intros n sched Hn Ha. pose proof (request_outcome _ _ _ _ _ _ _ (middle qs _ qs') Ha) as Ho.
  cbn [serve] in Ho. unfold respond, expand in Ho.
  apply outcome_fuel in Ho as [Ho | (b & _ & Ho)]; [| apply outcome_ret in Ho; discriminate].
  apply outcome_fuel in Ho as [Ho | (b & _ & Ho)]; [apply outcome_ret in Ho; destruct f; discriminate |].
  unfold repo_get_policy in Ho. cbn [pbind] in Ho. apply outcome_get in Ho as (s' & (k & Hk & ->) & Ho).
  destruct (kv_get scmp pid (st_pol (moment E _ s sched k))) as [rec |] eqn:Hp; [| apply outcome_ret in Ho; discriminate].
  destruct root as [nd |]; [| apply outcome_ret in Ho; discriminate].
  apply outcome_fuel in Ho as [Ho | (t & _ & Ho)].
  - revert Ho. eapply search_among; [exact H | exact Hp |]. rewrite bound_other by exact Logic.I. lia.
  - apply outcome_fuel in Ho as [Ho | (x & _ & Ho)]; [| apply outcome_ret in Ho; discriminate].
    apply outcome_ret in Ho. revert Ho. apply serialize_no_fuel. lia.
Qed.

(** A cycle is closed while the check runs. *)
Example C53_example : let qs := [asked; set "p" (tup "group" "b" "member" (members "a"))] in
  answered (interleave [0; 0; 1; 1; 1; 1; 1; 0; 0; 0; 0] (start E0 qs linked)) 0 = Some (Ok (ADecision false)).
Proof. vm_compute. reflexivity. Qed.

Print Assumptions C50_justified.
Print Assumptions C50_justified_by_name.
Print Assumptions C51_complete.
Print Assumptions C52_refuted.
Print Assumptions C52_denied_refuted.
Print Assumptions C52_quiet_partial.
Print Assumptions C53_answered.
Print Assumptions C53_check.
Print Assumptions C53_explain.
Print Assumptions C53_expand.
