(** Properties of explanations beside other requests: C70. *)
From Verif Require Import Base Domain Lexer Parser Validate Store Search Explain Yaml Service Dump Api
  SpecGrammar SpecPolicy SpecStore SpecSearch SpecConc SpecAccount SpecAccountConc Fixtures BaseFacts ParserFacts ValidateFacts StoreFacts PolicyFacts RelFacts
  SearchFacts SearchSem SearchTerm SearchExplain AccountFacts ReadFacts GraphFacts ConcFacts ConcSearch ConcAccount PropsConcSearch.

(** ** C70 Explanations and expansions are honest while other requests write *)

Section Among.
  Variable E : env.
  Variable qs : list request.
  Variable s0 : store.
  Hypothesis Hs0 : store_ok E s0.
  Variable sched : list nat.
  Variable i : nat.
  Variable pid : string.

  Notation stored k := (key_subject E (relationships (moment E qs s0 sched k) pid)).

  Lemma rule_moment k0 : acts E qs s0 sched i k0 -> forall r e rel ns,
    outcome (during E qs s0 sched i) (evaluate_prog E pid r (Some e) rel) (Ok ns) ->
    exists k, acts E qs s0 sched i k /\ forall n, In n ns <-> yields (stored k) r e rel n.
  Proof.
    intros Hk0 r e rel ns H. apply outcome_evaluate in H as [(s & (k & Hk & ->) & H) | H].
    - exists k. split; [exact Hk |]. intros n. apply (evaluate_yields E _ _ (stored_edges E _ pid (moment_ok E qs s0 Hs0 sched k)) _ _ _ _ H).
    - exists k0. split; [exact Hk0 |]. intros n. destruct r as [| c | ts cu |]; try contradiction; specialize (H []); cbn in H; [| discriminate].
      injection H as <-. split; [intros [<- | []]; constructor | intros Hy; inversion Hy; subst; left; reflexivity].
  Qed.

  Lemma searched_among rec k n root a x : acts E qs s0 sched i k ->
    outcome (during E qs s0 sched i) (search_prog E (pr_policy rec) pid n root (goal_of a)) (Ok x) ->
    honest_then E (pr_policy rec) (acts E qs s0 sched i) (fun k => stored k) a root x /\ NoDup (evaluated x).
  Proof. intros Hk H. eapply search_honest_then; [| exact H]. apply (rule_moment k Hk). Qed.
End Among.

(** Every explanation is honest about the policy of one step of the request, and about relationships that were found at
    its steps: each rule is drawn as it was at one of them.  No node is explained twice. *)
Theorem C70_explanation : forall E s qs sched i n pid o rel a f b t, reachable E s ->
  nth_error qs i = Some (QExplainCheck n pid (asks o rel a) f) ->
  answered (interleave sched (start E qs s)) i = Some (Ok (AExplained b t)) ->
  exists k rec, acts E qs s sched i k /\
    answer E (QGetPolicy pid) (moment E qs s sched k) = Ok (APolicy (Some rec)) /\
    honest_then E (pr_policy rec) (acts E qs s sched i) (fun k => key_subject E (relationships (moment E qs s sched k) pid))
      (Some a) (NSet (Some o) rel) t /\
    NoDup (evaluated t) /\ (b = true <-> get_result t = RSuccess).
Proof.
  intros E s qs sched i n pid o rel a f b t H Hq Ha. apply reachable_ok in H.
  pose proof (request_outcome E qs s sched i _ _ Hq Ha) as Ho. cbn [serve] in Ho. unfold respond, explain_check, check_search in Ho.
  apply outcome_ok in Ho as ([b' t'] & Hb & Ho). apply outcome_ret in Ho. cbn [fst snd] in Ho. injection Ho as -> ->.
  apply outcome_ok in Hb as (? & _ & Hb). apply outcome_ok in Hb as (t1 & Ht & Hb). apply outcome_ok in Hb as (? & _ & Hb).
  apply outcome_ret in Hb. injection Hb as <- <-.
  apply outcome_policy in Ht as (k & Hk & Ht). destruct (policies (moment E qs s sched k) pid) as [rec |] eqn:Hp; [| apply outcome_ret in Ht; discriminate].
  exists k, rec. split; [exact Hk |]. split; [rewrite answer_get_policy; congruence |].
  cbn [asks a_object a_relation a_subject] in Ht.
  destruct (searched_among E qs s H sched i pid rec k n (NSet (Some o) rel) (Some a) t1 Hk Ht) as [Hh Hn].
  split; [exact Hh |]. split; [exact Hn | apply is_success_iff].
Qed.

Theorem C70_expansion : forall E s qs sched i n pid root f t, reachable E s ->
  nth_error qs i = Some (QExpand n pid (Some root) f) ->
  answered (interleave sched (start E qs s)) i = Some (Ok (AExpanded t)) ->
  exists k rec, acts E qs s sched i k /\
    answer E (QGetPolicy pid) (moment E qs s sched k) = Ok (APolicy (Some rec)) /\
    honest_then E (pr_policy rec) (acts E qs s sched i) (fun k => key_subject E (relationships (moment E qs s sched k) pid))
      None root t /\
    NoDup (evaluated t).
Proof.
  intros E s qs sched i n pid root f t H Hq Ha. apply reachable_ok in H.
  pose proof (request_outcome E qs s sched i _ _ Hq Ha) as Ho. cbn [serve] in Ho. unfold respond, expand in Ho.
  apply outcome_ok in Ho as (t' & Hb & Ho). apply outcome_ret in Ho. injection Ho as ->.
  apply outcome_ok in Hb as (? & _ & Hb). apply outcome_policy in Hb as (k & Hk & Hb).
  destruct (policies (moment E qs s sched k) pid) as [rec |] eqn:Hp; [| apply outcome_ret in Hb; discriminate].
  apply outcome_ok in Hb as (t1 & Ht & Hb). apply outcome_ok in Hb as (? & _ & Hb). apply outcome_ret in Hb. injection Hb as <-.
  exists k, rec. split; [exact Hk |]. split; [rewrite answer_get_policy; congruence |].
  exact (searched_among E qs s H sched i pid rec k n root None t1 Hk Ht).
Qed.

(** The explanation of an authorisation that held at no moment: each of its rules is drawn as it was at another moment. *)
Example C70_example :
  let qs := [QExplainCheck 9 "p" (asks (ent "group" "a") "member" (ent "user" "bob")) FDot; QDeleteRelationship "p" (Some link); set "p" enter] in
  exists t, answered (interleave rival_sched (start E0 qs linked)) 0 = Some (Ok (AExplained true t)) /\
    within (GPath RSuccess (NEntity (Some (ent "user" "bob"))) None "Rule This") t /\
    relationships (moment E0 qs linked rival_sched 1) "p" = [link] /\ relationships (moment E0 qs linked rival_sched 12) "p" = [enter] /\
    acts E0 qs linked rival_sched 0 1 /\ acts E0 qs linked rival_sched 0 12.
Proof.
  eexists. split; [vm_compute; reflexivity |]. split; [| vm_compute; repeat split].
  apply wi_path. eapply wi_or; [left; reflexivity |]. apply wi_path. eapply wi_or; [left; reflexivity |]. apply wi_here.
Qed.

Print Assumptions C70_explanation.
Print Assumptions C70_expansion.
