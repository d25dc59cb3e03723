(** Properties of Expand beside Check: C33 for all operators, C76. *)
From Verif Require Import Base Domain Lexer Parser Validate Store Search Explain Yaml Service Dump Api
  SpecGrammar SpecPolicy SpecStore SpecSearch SpecAlike SpecExpand Fixtures BaseFacts ParserFacts ValidateFacts StoreFacts PolicyFacts RelFacts
  SearchFacts SearchSem SearchTerm SearchExplain GraphFacts ExpandFacts PropsSearch PropsExplain PropsAlike.

(** Expand evaluates exactly the nodes below its root, leaving out the right operands of intersections. *)
Theorem C33_expand_unfolds : forall E s pid rec n root f t, reachable E s ->
  answer E (QGetPolicy pid) s = Ok (APolicy (Some rec)) ->
  distinct_ids E (pr_policy rec) (key_subject E (relationships s pid)) root ->
  answer E (QExpand n pid (Some root) f) s = Ok (AExpanded t) ->
  NoDup (evaluated t) /\
  forall x, In x (evaluated t) <-> unfolds E (pr_policy rec) (key_subject E (relationships s pid)) root x.
Proof.
  intros E s pid rec n root f t H Hp Hd Hx. apply reachable_ok in H. apply known_policy in Hp.
  apply expanded_tree in Hx as (rec' & seen & Hp' & Hs). rewrite Hp in Hp'. injection Hp' as <-.
  split; [eapply evaluated_once; exact Hs |].
  eapply expand_visits; [apply stored_edges; exact H | eapply stored_unique; eauto | exact Hd | exact Hs].
Qed.

(** ** C76 Expand lists whom Check authorises *)

(** Whatever the operators: whoever Check authorises is listed. *)
Theorem C76_authorised_listed : forall E s pid rec n n' o rel a f t, reachable E s ->
  answer E (QGetPolicy pid) s = Ok (APolicy (Some rec)) ->
  distinct_ids E (pr_policy rec) (key_subject E (relationships s pid)) (NSet (Some o) rel) ->
  answer E (QCheck n pid (asks o rel a)) s = Ok (ADecision true) ->
  answer E (QExpand n' pid (Some (NSet (Some o) rel)) f) s = Ok (AExpanded t) -> lists t a.
Proof.
  intros E s pid rec n n' o rel a f t H Hp Hd Hc Hx.
  destruct (C33_expand_unfolds E s pid rec n' _ f t H Hp Hd Hx) as [_ Ht].
  apply reachable_ok in H. apply known_policy in Hp.
  apply check_decision in Hc as (x & Hxt & Hr). symmetry in Hr. apply is_success_iff in Hr.
  apply check_tree_ok in Hxt as (rec' & seen & Hp' & Hs). rewrite Hp in Hp'. injection Hp' as <-.
  destruct (proj1 (found_unfolds E (pr_policy rec) (edges_of pid s) _ (stored_edges E s pid H) (NSet (Some o) rel) a) _ _ _ _ _ Hs (un_here _ _ _ _) Hr)
    as (m & Hm & Hf).
  apply Ht in Hm. destruct m as [m r | [e |] | r |]; cbn in Hf; try discriminate.
  - left. replace a with e; [exact Hm |]. injection Hf as Hf. apply andb_true_iff in Hf as [H1 H2].
    apply String.eqb_eq in H1, H2. destruct e, a. cbn in *. congruence.
  - right. injection Hf as Hf. apply String.eqb_eq in Hf. subst r. exact Hm.
Qed.

(** Policies of unions: nobody else is listed.  Missing: intersections and differences. *)
Theorem C76_listed_partial : forall E s pid rec n n' o rel a f t b, reachable E s ->
  answer E (QGetPolicy pid) s = Ok (APolicy (Some rec)) -> union_only E (pr_policy rec) ->
  distinct_ids E (pr_policy rec) (key_subject E (relationships s pid)) (NSet (Some o) rel) ->
  answer E (QCheck n pid (asks o rel a)) s = Ok (ADecision b) ->
  answer E (QExpand n' pid (Some (NSet (Some o) rel)) f) s = Ok (AExpanded t) -> (b = true <-> lists t a).
Proof.
  intros E s pid rec n n' o rel a f t b H Hp Hu Hd Hc Hx. split.
  - intros ->. eapply C76_authorised_listed; eauto.
  - intros Hl. apply (C26_decides_by_key E s pid rec n o rel a b H Hp Hu Hd Hc).
    destruct (C33_expand_unfolds E s pid rec n' _ f t H Hp Hd Hx) as [_ Ht].
    destruct Hl as [Hl | Hl]; apply Ht, unfolds_reach in Hl; eapply reach_member; eauto.
Qed.

Definition all_and_direct : tree := TOp (TRule (RCu "all")) OpInter (TRule (RCu "direct")).
Definition all_but_direct : tree := TOp (TRule (RCu "all")) OpDiff (TRule (RCu "direct")).

(** Every user is listed for [all & direct]; only bob is authorised. *)
Theorem C76_listed_refuted : forall E, collision_free E -> exists s rec n o rel a f t, sequential E s /\
  answer E (QGetPolicy "p") s = Ok (APolicy (Some rec)) /\
  answer E (QCheck n "p" (asks o rel a)) s = Ok (ADecision false) /\
  answer E (QExpand n "p" (Some (NSet (Some o) rel)) f) s = Ok (AExpanded t) /\ lists t a.
Proof.
  intros E Hc.
  assert (Hn : forall x y, x <> y -> String.eqb (sha E x) (sha E y) = false).
  { intros x y Hxy. apply String.eqb_neq. intros H. apply Hc in H. contradiction. }
  exists (order_store E all_and_direct), (mkPRec (order_policy all_and_direct) "" 1%N), 20, (ent "file" "1"), "both", (ent "user" "eve"), FDot.
  eexists. split; [eexists; reflexivity |]. split; [reflexivity |].
  assert (Hp : policies (order_store E all_and_direct) "p" = Some (mkPRec (order_policy all_and_direct) "" 1%N)) by reflexivity.
  split; [| split].
  - unfold asks; rewrite answer_check; unfold check_tree. rewrite Hp. cbn. by_order Hc; settle Hn E; reflexivity.
  - rewrite answer_expand, Hp. cbn. by_order Hc; settle Hn E; reflexivity.
  - right. cbn. auto.
Qed.

(** Three operators over the same relationships: bob is in [direct], every user in [all]. *)
Example C76_example : forall t ns, In (t, ns) [
    (direct_or_all, [NSet (Some (ent "file" "1")) "both"; NSet (Some (ent "file" "1")) "direct"; NEntity (Some (ent "user" "bob"));
                     NSet (Some (ent "file" "1")) "all"; NWild "user"]);
    (all_but_direct, [NSet (Some (ent "file" "1")) "both"; NSet (Some (ent "file" "1")) "all"; NWild "user";
                      NSet (Some (ent "file" "1")) "direct"; NEntity (Some (ent "user" "bob"))]);
    (all_and_direct, [NSet (Some (ent "file" "1")) "both"; NSet (Some (ent "file" "1")) "all"; NWild "user"])] ->
  exists x, answer E0 (QExpand 20 "p" (Some (NSet (Some (ent "file" "1")) "both")) FDot) (order_store E0 t) = Ok (AExpanded x) /\
    evaluated x = ns.
Proof. intros t ns [[= <- <-] | [[= <- <-] | [[= <- <-] | []]]]; (eexists; split; [vm_compute; reflexivity | reflexivity]). Qed.

Example C76_example_check :
  answer E0 (asked (ent "file" "1") "both" (ent "user" "eve")) (order_store E0 direct_or_all) = Ok (ADecision true) /\
  answer E0 (asked (ent "file" "1") "both" (ent "robot" "r2")) (order_store E0 direct_or_all) = Ok (ADecision false) /\
  answer E0 (asked (ent "file" "1") "both" (ent "user" "eve")) (order_store E0 all_and_direct) = Ok (ADecision false) /\
  answer E0 (asked (ent "file" "1") "both" (ent "user" "bob")) (order_store E0 all_and_direct) = Ok (ADecision true) /\
  answer E0 (asked (ent "file" "1") "both" (ent "user" "bob")) (order_store E0 all_but_direct) = Ok (ADecision false).
Proof. repeat split; vm_compute; reflexivity. Qed.

Print Assumptions C33_expand_unfolds.
Print Assumptions C76_authorised_listed.
Print Assumptions C76_listed_partial.
Print Assumptions C76_listed_refuted.
