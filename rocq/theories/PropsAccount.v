(** Properties of explanations: C56. *)
From Verif Require Import Base Domain Lexer Parser Validate Store Search Explain Yaml Service Dump Api
  SpecGrammar SpecPolicy SpecStore SpecSearch SpecAccount Fixtures BaseFacts ParserFacts ValidateFacts StoreFacts PolicyFacts RelFacts
  SearchFacts SearchSem SearchTerm SearchExplain AccountFacts GraphFacts PropsStore PropsSearch PropsExplain.

(** ** C56 Explanations and expansions are honest *)

Lemma honest_stored E s pid rec a root x seen' : store_ok E s ->
  unaliased E (pr_policy rec) (relationships s pid) root ->
  spath E (pr_policy rec) (edges_of pid s) (goal_of a) root "Request" [] x seen' ->
  honest E (pr_policy rec) (stored_subject (relationships s pid)) a root x.
Proof.
  intros H Hun Hs. pose proof (search_honest E (pr_policy rec) _ _ a root x seen' (stored_edges E s pid H) Hs) as Hh.
  revert Hh. apply honest_same. intros o rel y r why t ru n Hw Hr Ho.
  eapply yields_keyed; [exact Hun | | exact Hr | exact Ho].
  apply (reach_keyed E _ _ _ Hun).
  eapply (proj1 (shown_reached E (pr_policy rec) _ _ _ (stored_edges E s pid H) root)); [exact Hs | apply re_here |]. left.
  destruct (search_honest E (pr_policy rec) _ _ a root x seen' (stored_edges E s pid H) Hs) as [_ Hright].
  eapply expanded_shown; eauto.
Qed.

(** Every explanation of a check is honest about the policy and the relationships found by key. *)
Theorem C56_explanation_by_key : forall E s pid rec n o rel a f b t, reachable E s ->
  answer E (QGetPolicy pid) s = Ok (APolicy (Some rec)) ->
  answer E (QExplainCheck n pid (asks o rel a) f) s = Ok (AExplained b t) ->
  honest E (pr_policy rec) (key_subject E (relationships s pid)) (Some a) (NSet (Some o) rel) t /\
  (b = true <-> get_result t = RSuccess).
Proof.
  intros E s pid rec n o rel a f b t H Hp Hx. apply reachable_ok in H. apply known_policy in Hp.
  apply explained_tree in Hx as [Ht ->]. apply check_tree_ok in Ht as (rec' & seen & Hp' & Hs).
  rewrite Hp in Hp'. injection Hp' as <-. split; [| apply is_success_iff].
  eapply (search_honest E (pr_policy rec) _ _ (Some a)); [apply stored_edges; exact H | exact Hs].
Qed.

(** The same for the relationships of the objects themselves. *)
Theorem C56_explanation : forall E s pid rec n o rel a f b t, reachable E s ->
  answer E (QGetPolicy pid) s = Ok (APolicy (Some rec)) ->
  unaliased E (pr_policy rec) (relationships s pid) (NSet (Some o) rel) ->
  answer E (QExplainCheck n pid (asks o rel a) f) s = Ok (AExplained b t) ->
  honest E (pr_policy rec) (stored_subject (relationships s pid)) (Some a) (NSet (Some o) rel) t /\
  (b = true <-> get_result t = RSuccess).
Proof.
  intros E s pid rec n o rel a f b t H Hp Hun Hx. apply reachable_ok in H. apply known_policy in Hp.
  apply explained_tree in Hx as [Ht ->]. apply check_tree_ok in Ht as (rec' & seen & Hp' & Hs).
  rewrite Hp in Hp'. injection Hp' as <-. split; [| apply is_success_iff].
  eapply (honest_stored E s pid rec (Some a)); eauto.
Qed.

(** An expansion asks for no subject. *)
Theorem C56_expansion_by_key : forall E s pid rec n root f t, reachable E s ->
  answer E (QGetPolicy pid) s = Ok (APolicy (Some rec)) ->
  answer E (QExpand n pid (Some root) f) s = Ok (AExpanded t) ->
  honest E (pr_policy rec) (key_subject E (relationships s pid)) None root t.
Proof.
  intros E s pid rec n root f t H Hp Hx. apply reachable_ok in H. apply known_policy in Hp.
  apply expanded_tree in Hx as (rec' & seen & Hp' & Hs). rewrite Hp in Hp'. injection Hp' as <-.
  eapply (search_honest E (pr_policy rec) _ _ None); [apply stored_edges; exact H | exact Hs].
Qed.

Theorem C56_expansion : forall E s pid rec n root f t, reachable E s ->
  answer E (QGetPolicy pid) s = Ok (APolicy (Some rec)) ->
  unaliased E (pr_policy rec) (relationships s pid) root ->
  answer E (QExpand n pid (Some root) f) s = Ok (AExpanded t) ->
  honest E (pr_policy rec) (stored_subject (relationships s pid)) None root t.
Proof.
  intros E s pid rec n root f t H Hp Hun Hx. apply reachable_ok in H. apply known_policy in Hp.
  apply expanded_tree in Hx as (rec' & seen & Hp' & Hs). rewrite Hp in Hp'. injection Hp' as <-.
  eapply (honest_stored E s pid rec None); eauto.
Qed.

(** The reasons in an explanation, from the root down. *)
Example C56_example : exists t1 t2,
  answer E0 (QExplainCheck 20 "p" (asks (ent "file" "1") "both" (ent "user" "u")) FDot) mixed_store = Ok (AExplained true t1) /\
  t1 = GPath RSuccess (NSet (Some (ent "file" "1")) "both") (Some (GAnd RSuccess
         [GOr RSuccess [GPath RSuccess (NSet (Some (ent "file" "1")) "a")
            (Some (GOr RSuccess [GPath RSuccess (NEntity (Some (ent "user" "u"))) None "Rule This"])) "Rule Computed Userset: a"];
          GOr RSuccess [GPath RSuccess (NSet (Some (ent "file" "1")) "b")
            (Some (GOr RSuccess [GPath RSuccess (NWild "user") None "Rule This"])) "Rule Computed Userset: b"]])) "Request" /\
  answer E0 (QExpand 20 "p" (Some (NSet (Some (ent "group" "a")) "member")) FDot) cyclic_store = Ok (AExpanded t2) /\
  get_result t2 = RFailure.
Proof. do 2 eexists. split; [vm_compute; reflexivity |]. split; [reflexivity |]. split; vm_compute; reflexivity. Qed.

Print Assumptions C56_explanation_by_key.
Print Assumptions C56_explanation.
Print Assumptions C56_expansion_by_key.
Print Assumptions C56_expansion.
