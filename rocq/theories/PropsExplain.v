(** Properties of explanations, Expand and failures of graph requests: C08, C17, C27 to C29 and C31 to C35. *)
From Verif Require Import Base Domain Lexer Parser Validate Store Search Explain Yaml Service Dump Api
  SpecGrammar SpecPolicy SpecStore SpecSearch SpecDot Fixtures BaseFacts ParserFacts ValidateFacts StoreFacts PolicyFacts RelFacts
  SearchFacts SearchSem SearchTerm SearchExplain GraphFacts NameFacts DotFacts PropsStore PropsSearch.

Lemma explained_tree E n pid o rel a f s b t :
  answer E (QExplainCheck n pid (asks o rel a) f) s = Ok (AExplained b t) ->
  check_tree E n pid s (Some o) rel (Some a) = Ok t /\ b = is_success (get_result t).
Proof.
  unfold asks. rewrite answer_explain. intros Hc. apply bind_ok in Hc as (? & _ & Hc). apply bind_ok in Hc as (t' & Ht & Hc).
  apply bind_ok in Hc as (? & _ & Hc). injection Hc as <- <-. auto.
Qed.

(** ** C29 A search tree without skipped nodes is exact for all operators *)

(** [M] says who the policy's equations put into which relation, for the relationships stored under the consulted keys. *)
Theorem C29_certified_by_key : forall E s pid rec n o rel a f b t M, reachable E s ->
  answer E (QGetPolicy pid) s = Ok (APolicy (Some rec)) ->
  answer E (QExplainCheck n pid (asks o rel a) f) s = Ok (AExplained b t) -> certified t ->
  solution E (pr_policy rec) (key_subject E (relationships s pid)) a M ->
  (b = true <-> M o rel).
Proof.
  intros E s pid rec n o rel a f b t M H Hp Hx Hc HM. apply reachable_ok in H. apply known_policy in Hp.
  apply explained_tree in Hx as [Ht ->]. apply check_tree_ok in Ht as (rec' & seen & Hp' & Hs).
  rewrite Hp in Hp'. injection Hp' as <-. pose proof (stored_unique _ _ _ _ H Hp) as Hu.
  assert (Hd : decides (get_result t) (node_in a M (NSet (Some o) rel))).
  { eapply (proj1 (certified_exact E (pr_policy rec) (edges_of pid s) _ (stored_edges E s pid H) a M (NSet (Some o) rel) _));
      [exact Hs | apply re_here | exact Hc]. }
  destruct Hd as [H1 H2]. rewrite is_success_iff. split; [exact H1 |]. intros Hm.
  inversion Hs as [? ? ? ? ? Hbad | ? ? ? ? _ _ Hg | ? ? ? ? _ _ _ Hg | ? ? ? ? ? t' gt x ? _ _ _ Ht' _ Hst]; subst; try discriminate; [contradiction |].
  cbn [get_result] in *. destruct (stree_known _ _ _ _ _ _ _ _ _ _ Hst) as [Hr | Hr]; [exact Hr |]. contradiction (H2 Hr).
  Unshelve. intros o' rel' t0 _ Hw. rewrite (HM o' rel'). split.
  - intros (t1 & Hw1 & He). rewrite (rewrites_unique _ _ _ _ _ _ Hu Hw Hw1). exact He.
  - eauto.
Qed.

(** The same for the stored relationships by name.  Only relations that the check reaches matter for [M]. *)
Theorem C29_certified_exact : forall E s pid rec n o rel a f b t M, reachable E s ->
  answer E (QGetPolicy pid) s = Ok (APolicy (Some rec)) ->
  unaliased E (pr_policy rec) (relationships s pid) (NSet (Some o) rel) ->
  answer E (QExplainCheck n pid (asks o rel a) f) s = Ok (AExplained b t) -> certified t ->
  solution E (pr_policy rec) (stored_subject (relationships s pid)) a M ->
  (b = true <-> M o rel).
Proof.
  intros E s pid rec n o rel a f b t M H Hp Hun Hx Hc HM. apply reachable_ok in H. apply known_policy in Hp.
  apply explained_tree in Hx as [Ht ->]. apply check_tree_ok in Ht as (rec' & seen & Hp' & Hs).
  rewrite Hp in Hp'. injection Hp' as <-. pose proof (stored_unique _ _ _ _ H Hp) as Hu.
  assert (Hd : decides (get_result t) (node_in a M (NSet (Some o) rel))).
  { eapply (proj1 (certified_exact E (pr_policy rec) (edges_of pid s) _ (stored_edges E s pid H) a M (NSet (Some o) rel) _));
      [exact Hs | apply re_here | exact Hc]. }
  destruct Hd as [H1 H2]. rewrite is_success_iff. split; [exact H1 |]. intros Hm.
  inversion Hs as [? ? ? ? ? Hbad | ? ? ? ? _ _ Hg | ? ? ? ? _ _ _ Hg | ? ? ? ? ? t' gt x ? _ _ _ Ht' _ Hst]; subst; try discriminate; [contradiction |].
  cbn [get_result] in *. destruct (stree_known _ _ _ _ _ _ _ _ _ _ Hst) as [Hr | Hr]; [exact Hr |]. contradiction (H2 Hr).
  Unshelve. intros o' rel' t0 Hr Hw. apply (reach_keyed E _ _ _ Hun) in Hr.
  rewrite (eval_keyed E _ _ _ Hun a M o' rel' t0 t0 Hr Hw) by auto. rewrite (HM o' rel'). split.
  - intros (t1 & Hw1 & He). rewrite (rewrites_unique _ _ _ _ _ _ Hu Hw Hw1). exact He.
  - eauto.
Qed.

(** The subject is reached by name in one operand and as one of all users in the other: all is evaluated. *)
Definition mixed_store : store :=
  after_all E0 [QCreatePolicy 1%N (Some (DPolicy algebra_policy)) ""; set "p" (tup "file" "1" "a" (user "u"));
                set "p" (tup "file" "1" "b" (SResourceSet "user"))] empty_store.

Example C29_example : exists b b' t t',
  answer E0 (QExplainCheck 20 "p" (asks (ent "file" "1") "both" (ent "user" "u")) FDot) mixed_store = Ok (AExplained b t) /\
  certified t /\ b = true /\
  answer E0 (QExplainCheck 20 "p" (asks (ent "file" "1") "only" (ent "user" "u")) FDot) mixed_store = Ok (AExplained b' t') /\
  certified t' /\ b' = false.
Proof.
  do 4 eexists. split; [vm_compute; reflexivity |]. split; [| split; [reflexivity |]]; [| split; [vm_compute; reflexivity |]; split; [| reflexivity]].
  - apply (ce_path _ (GAnd RSuccess _)). apply ce_and_success. intros p [<- | [<- | []]].
    + eapply ce_or_success; [left; reflexivity | reflexivity |]. apply (ce_path _ (GOr RSuccess _)).
      eapply ce_or_success; [left; reflexivity | reflexivity |]. apply ce_leaf. discriminate.
    + eapply ce_or_success; [left; reflexivity | reflexivity |]. apply (ce_path _ (GOr RSuccess _)).
      eapply ce_or_success; [left; reflexivity | reflexivity |]. apply ce_leaf. discriminate.
  - apply (ce_path _ (GDiff RFailure _ _)). apply ce_diff_right; [reflexivity |].
    eapply ce_or_success; [left; reflexivity | reflexivity |]. apply (ce_path _ (GOr RSuccess _)).
    eapply ce_or_success; [left; reflexivity | reflexivity |]. apply ce_leaf. discriminate.
Qed.

(** ** C27, C28 Intersection and difference, when nothing was skipped *)

(** Missing: explanations with skipped nodes. *)
Theorem C27_intersection_partial : forall E s pid rec n o rel a f b t M l r, reachable E s ->
  answer E (QGetPolicy pid) s = Ok (APolicy (Some rec)) ->
  unaliased E (pr_policy rec) (relationships s pid) (NSet (Some o) rel) ->
  answer E (QExplainCheck n pid (asks o rel a) f) s = Ok (AExplained b t) -> certified t ->
  solution E (pr_policy rec) (stored_subject (relationships s pid)) a M ->
  rewrites E (pr_policy rec) o rel (TOp l OpInter r) ->
  (b = true <-> eval (stored_subject (relationships s pid)) a M o rel l /\ eval (stored_subject (relationships s pid)) a M o rel r).
Proof.
  intros E s pid rec n o rel a f b t M l r H Hp Hun Hx Hc HM Hw.
  rewrite (C29_certified_exact E s pid rec n o rel a f b t M) by assumption. rewrite (HM o rel).
  apply reachable_ok in H. apply known_policy in Hp. pose proof (stored_unique _ _ _ _ H Hp) as Hu. split.
  - intros (t1 & Hw1 & He). rewrite (rewrites_unique _ _ _ _ _ _ Hu Hw1 Hw) in He. exact He.
  - intros He. exists (TOp l OpInter r). auto.
Qed.

Theorem C28_difference_partial : forall E s pid rec n o rel a f b t M l r, reachable E s ->
  answer E (QGetPolicy pid) s = Ok (APolicy (Some rec)) ->
  unaliased E (pr_policy rec) (relationships s pid) (NSet (Some o) rel) ->
  answer E (QExplainCheck n pid (asks o rel a) f) s = Ok (AExplained b t) -> certified t ->
  solution E (pr_policy rec) (stored_subject (relationships s pid)) a M ->
  rewrites E (pr_policy rec) o rel (TOp l OpDiff r) ->
  (b = true <-> eval (stored_subject (relationships s pid)) a M o rel l /\ ~ eval (stored_subject (relationships s pid)) a M o rel r).
Proof.
  intros E s pid rec n o rel a f b t M l r H Hp Hun Hx Hc HM Hw.
  rewrite (C29_certified_exact E s pid rec n o rel a f b t M) by assumption. rewrite (HM o rel).
  apply reachable_ok in H. apply known_policy in Hp. pose proof (stored_unique _ _ _ _ H Hp) as Hu. split.
  - intros (t1 & Hw1 & He). rewrite (rewrites_unique _ _ _ _ _ _ Hu Hw1 Hw) in He. exact He.
  - intros He. exists (TOp l OpDiff r). auto.
Qed.

(** ** C31 ExplainCheck agrees with Check *)

(** Whatever the format and the fuel, an explanation comes with the decision of Check. *)
Theorem C31_explanation_decides : forall E n pid a f s b t,
  answer E (QExplainCheck n pid a f) s = Ok (AExplained b t) -> answer E (QCheck n pid a) s = Ok (ADecision b).
Proof.
  intros E n pid [[o rel a] |] f s b t.
  - rewrite answer_explain, answer_check. intros Hc. apply bind_ok in Hc as (? & _ & Hc). apply bind_ok in Hc as (t' & -> & Hc).
    apply bind_ok in Hc as (? & _ & Hc). injection Hc as <- <-. reflexivity.
  - unfold answer. cbn. destruct f; cbn; try discriminate; destruct (kv_get scmp pid (st_pol s)); discriminate.
Qed.

(** With the text format there is an explanation for every decision, and the same failure otherwise. *)
Theorem C31_explanation_agrees : forall E n pid a s,
  match answer E (QCheck n pid a) s with
  | Ok (ADecision b) => exists t, answer E (QExplainCheck n pid a FSpew) s = Ok (AExplained b t)
  | Ok _ => False
  | Err e => answer E (QExplainCheck n pid a FSpew) s = Err e
  | Panic => answer E (QExplainCheck n pid a FSpew) s = Panic
  | Fuel => answer E (QExplainCheck n pid a FSpew) s = Fuel
  end.
Proof.
  intros E n pid [[o rel a] |] s.
  - rewrite answer_explain, answer_check. cbn [serializer_factory bind]. destruct (check_tree E n pid s o rel a); cbn; eauto.
  - unfold answer. cbn. destruct (kv_get scmp pid (st_pol s)); reflexivity.
Qed.

(** With all formats, failures of the search are the failures of Check; unknown formats are refused. *)
Theorem C31_failures : forall E n pid a f s x, (forall k, f <> FOther k) ->
  (forall b, answer E (QCheck n pid a) s <> Ok (ADecision b)) ->
  answer E (QCheck n pid a) s = x -> answer E (QExplainCheck n pid a f) s = x.
Proof.
  intros E n pid [[o rel a] |] f s x Hf Hn <-.
  - rewrite answer_explain, answer_check in *.
    assert (serializer_factory f = Ok tt) as -> by (destruct f as [| | | k]; try reflexivity; contradiction (Hf k); reflexivity). cbn [bind].
    destruct (check_tree E n pid s o rel a); cbn in *; try reflexivity. contradiction (Hn (is_success (get_result a0))). reflexivity.
  - unfold answer. cbn. destruct f as [| | | k]; cbn; try (contradiction (Hf k); reflexivity); destruct (kv_get scmp pid (st_pol s)); reflexivity.
Qed.

Lemma stored_object E s pid o rel u : store_ok E s -> key_subject E (relationships s pid) o rel u -> has_object (subject_node u).
Proof.
  intros H (r & Hr & Hu & _). apply (relationships_in E) in Hr as (e & He & _); [| exact H].
  destruct r as [[x |] l [[y | [y |] l' | rs |] |]]; cbn in He, Hu; try discriminate; injection Hu as <-; exact I.
Qed.

Lemma search_drawn E s pid rec n root g t : store_ok E s -> has_object root ->
  ttu_objects E (pr_policy rec) (key_subject E (relationships s pid)) root ->
  search E (pr_policy rec) (edges_of pid s) n root g = Ok t -> exists l, goal_dot t = Ok l.
Proof.
  intros H Ho Httu Hs. unfold search in Hs. apply bind_ok in Hs as ([y seen] & Hs & Ht). injection Ht as <-.
  apply goal_dot_total. eapply (search_displays E (pr_policy rec) (edges_of pid s)); [apply stored_edges; exact H | | exact Httu | exact Ho |].
  - intros o rel u. apply stored_object. exact H.
  - eapply search_path_sound. exact Hs.
Qed.

(** With DOT as well, unless a tuple-to-userset meets a resource-wide subject. *)
Theorem C31_dot_partial : forall E s pid rec n o rel a b, reachable E s ->
  answer E (QGetPolicy pid) s = Ok (APolicy (Some rec)) ->
  ttu_objects E (pr_policy rec) (key_subject E (relationships s pid)) (NSet (Some o) rel) ->
  answer E (QCheck n pid (asks o rel a)) s = Ok (ADecision b) ->
  exists t, answer E (QExplainCheck n pid (asks o rel a) FDot) s = Ok (AExplained b t).
Proof.
  intros E s pid rec n o rel a b H Hp Httu Hc. apply reachable_ok in H. apply known_policy in Hp.
  apply check_decision in Hc as (t & Ht & ->). exists t. unfold asks. rewrite answer_explain, Ht. cbn [serializer_factory bind serialize].
  unfold check_tree in Ht. rewrite Hp in Ht. destruct (search_drawn E s pid rec n (NSet (Some o) rel) (GoalEntity (Some a)) t H Logic.I Httu Ht) as [l ->]. reflexivity.
Qed.

(** Files are read by their readers and by the viewers of their parent; one parent is "all folders".  The check finds
    the reader and does not look at the parents; the DOT explanation dereferences the nil object among them. *)
Definition unlooked_policy : policy :=
  mkPolicy "p" "" "" [rs "user" []; rs "folder" [rl "viewer" (XTree (TRule RThis)) SRUniversal];
    rs "file" [rl "parent" (XTree (TRule RThis)) (SRSet [REntity "folder"]);
               rl "reader" (XTree (TOp (TRule RThis) OpUnion (TRule (RTtu "parent" "viewer")))) SRUniversal]] [].

Definition unlooked_store : store :=
  after_all E0 [QCreatePolicy 1%N (Some (DPolicy unlooked_policy)) "";
                set "p" (tup "file" "1" "reader" (user "u"));
                set "p" (tup "file" "1" "parent" (SResourceSet "folder"))] empty_store.

Theorem C31_dot_refuted : exists s, sequential E0 s /\
  answer E0 (QCheck 20 "p" (asks (ent "file" "1") "reader" (ent "user" "u"))) s = Ok (ADecision true) /\
  answer E0 (QExplainCheck 20 "p" (asks (ent "file" "1") "reader" (ent "user" "u")) FDot) s = Panic.
Proof. exists unlooked_store. split; [eexists; reflexivity |]. split; vm_compute; reflexivity. Qed.

Theorem C31_unknown_format : forall E n pid a k s, answer E (QExplainCheck n pid a (FOther k)) s = Err EInvalidVariant.
Proof. reflexivity. Qed.

(** ** C32 Every completed check can be explained as JSON *)

(** No completed check can be explained as JSON. *)
Theorem C32_json_refuted : forall E n pid o rel a s b, 3 <= n ->
  answer E (QCheck n pid (asks o rel a)) s = Ok (ADecision b) ->
  answer E (QExplainCheck n pid (asks o rel a) FJson) s = Err ESerialize.
Proof.
  intros E n pid o rel a s b Hn Hc. apply check_decision in Hc as (t & Ht & _).
  unfold asks. rewrite answer_explain, Ht. cbn [serializer_factory bind].
  apply check_tree_ok in Ht as (rec & seen & _ & Hs).
  inversion Hs as [? ? ? ? ? Hbad | ? ? ? ? _ _ Hg | ? ? ? ? _ _ _ Hg | ? ? ? ? ? t' gt x ? _ _ _ _ _ Hst]; subst; try discriminate; [contradiction |].
  cbn [serialize]. destruct n as [| [| [| n]]]; try lia. erewrite json_cycle; [reflexivity | apply children_path].
Qed.

(** The cause: at every depth an object and the objects it holds point at each other. *)
Inductive holds (root : gtree) : addr -> gtree -> Prop :=
| ho_root : holds root [] root
| ho_child a t i c : holds root a t -> nth_error (children t) i = Some c -> holds root (i :: a) c.

Theorem C32_cycles : forall root a t i c, holds root a t -> nth_error (children t) i = Some c ->
  In (i :: a) (pointers root a) /\ In a (pointers root (i :: a)).
Proof.
  intros root a t i c Ha Hc. assert (Hs : subtree root a = Some t).
  { clear Hc. induction Ha as [| a t j d _ IH Hd]; [reflexivity |]. cbn [subtree]. rewrite IH. exact Hd. }
  split; apply in_or_app; [right | left; left; reflexivity]. rewrite Hs.
  apply (in_map (fun j => j :: a)), in_seq.
  assert (i < length (children t)) by (apply nth_error_Some; congruence). lia.
Qed.

(** The text format explains every completed check (see C31_dot_partial for DOT). *)
Theorem C32_json_partial : forall E n pid o rel a s b,
  answer E (QCheck n pid (asks o rel a)) s = Ok (ADecision b) ->
  exists t, answer E (QExplainCheck n pid (asks o rel a) FSpew) s = Ok (AExplained b t).
Proof.
  intros E n pid o rel a s b Hc. pose proof (C31_explanation_agrees E n pid (asks o rel a) s) as H.
  rewrite Hc in H. exact H.
Qed.

Example C32_example :
  answer E0 (asked (ent "group" "a") "member" (ent "user" "bob")) cyclic_store = Ok (ADecision true) /\
  answer E0 (QExplainCheck 20 "p" (asks (ent "group" "a") "member" (ent "user" "bob")) FJson) cyclic_store = Err ESerialize /\
  exists t, answer E0 (QExplainCheck 20 "p" (asks (ent "group" "a") "member" (ent "user" "bob")) FSpew) cyclic_store = Ok (AExplained true t).
Proof. split; [reflexivity |]. split; [reflexivity |]. eexists. vm_compute. reflexivity. Qed.

(** ** C33 Expand shows every node below the root exactly once *)

Lemma expanded_tree E n pid root f s t : answer E (QExpand n pid (Some root) f) s = Ok (AExpanded t) ->
  exists rec seen, policies s pid = Some rec /\
    spath E (pr_policy rec) (edges_of pid s) GoalNone root "Request" [] t seen.
Proof.
  rewrite answer_expand. intros H. apply bind_ok in H as (? & _ & H). destruct (policies s pid) as [rec |]; [| discriminate].
  apply bind_ok in H as (t' & Ht & H). apply bind_ok in H as (? & _ & H). injection H as <-.
  unfold search in Ht. apply bind_ok in Ht as ([y seen] & Hs & Ht). injection Ht as <-. exists rec, seen. split; [reflexivity |].
  eapply search_path_sound. exact Hs.
Qed.

(** Whatever the policy, no node is expanded twice and nothing is shown that is not below the root. *)
Theorem C33_expand_once : forall E s pid rec n root f t, reachable E s ->
  answer E (QGetPolicy pid) s = Ok (APolicy (Some rec)) ->
  unaliased E (pr_policy rec) (relationships s pid) root ->
  answer E (QExpand n pid (Some root) f) s = Ok (AExpanded t) ->
  NoDup (evaluated t) /\
  forall x, In x (evaluated t) \/ In x (skipped t) -> reach E (pr_policy rec) (stored_subject (relationships s pid)) root x.
Proof.
  intros E s pid rec n root f t H Hp Hun Hx. apply reachable_ok in H. apply known_policy in Hp.
  apply expanded_tree in Hx as (rec' & seen & Hp' & Hs). rewrite Hp in Hp'. injection Hp' as <-.
  split; [eapply evaluated_once; exact Hs |]. intros x Hin. apply (reach_keyed E _ _ _ Hun).
  exact (proj1 (shown_reached E (pr_policy rec) _ GoalNone _ (stored_edges E s pid H) root) _ _ _ _ _ Hs (re_here _ _ _ _) x Hin).
Qed.

Theorem C33_expand_exact : forall E s pid rec n root f t, reachable E s ->
  answer E (QGetPolicy pid) s = Ok (APolicy (Some rec)) ->
  (forall op, policy_uses E (pr_policy rec) op -> op = OpUnion \/ op = OpDiff) ->
  unaliased E (pr_policy rec) (relationships s pid) root ->
  distinct_ids E (pr_policy rec) (stored_subject (relationships s pid)) root ->
  answer E (QExpand n pid (Some root) f) s = Ok (AExpanded t) ->
  forall x, In x (evaluated t) <-> reach E (pr_policy rec) (stored_subject (relationships s pid)) root x.
Proof.
  intros E s pid rec n root f t H Hp Hops Hun Hd Hx x. apply reachable_ok in H. apply known_policy in Hp.
  apply expanded_tree in Hx as (rec' & seen & Hp' & Hs). rewrite Hp in Hp'. injection Hp' as <-.
  rewrite <- (reach_keyed E _ _ _ Hun).
  eapply expand_complete; [apply stored_edges; exact H | eapply stored_unique; eauto | exact Hops | | exact Hs].
  apply distinct_keyed; assumption.
Qed.

(** The same without the assumption on keys, for the relationships found by key. *)
Theorem C33_expand_by_key : forall E s pid rec n root f t, reachable E s ->
  answer E (QGetPolicy pid) s = Ok (APolicy (Some rec)) ->
  (forall op, policy_uses E (pr_policy rec) op -> op = OpUnion \/ op = OpDiff) ->
  distinct_ids E (pr_policy rec) (key_subject E (relationships s pid)) root ->
  answer E (QExpand n pid (Some root) f) s = Ok (AExpanded t) ->
  NoDup (evaluated t) /\
  forall x, In x (evaluated t) <-> reach E (pr_policy rec) (key_subject E (relationships s pid)) root x.
Proof.
  intros E s pid rec n root f t H Hp Hops Hd Hx. apply reachable_ok in H. apply known_policy in Hp.
  apply expanded_tree in Hx as (rec' & seen & Hp' & Hs). rewrite Hp in Hp'. injection Hp' as <-.
  split; [eapply evaluated_once; exact Hs |]. intros x.
  eapply expand_complete; [apply stored_edges; exact H | eapply stored_unique; eauto | exact Hops | exact Hd | exact Hs].
Qed.

(** With an intersection, Expand stops after its left operand. *)
Example C33_example_intersection : exists t,
  answer E0 (QExpand 20 "p" (Some (NSet (Some (ent "file" "1")) "both")) FDot) (algebra_store E0 [user "u"]) = Ok (AExpanded t) /\
  evaluated t = [NSet (Some (ent "file" "1")) "both"; NSet (Some (ent "file" "1")) "a"; NEntity (Some (ent "user" "u"))].
Proof. eexists. split; [vm_compute; reflexivity | reflexivity]. Qed.

Example C33_example_cycle : exists t,
  answer E0 (QExpand 20 "p" (Some (NSet (Some (ent "group" "a")) "member")) FDot) cyclic_store = Ok (AExpanded t) /\
  evaluated t = [NSet (Some (ent "group" "a")) "member"; NSet (Some (ent "group" "b")) "member"; NEntity (Some (ent "user" "bob"))] /\
  skipped t = [NSet (Some (ent "group" "a")) "member"].
Proof. eexists. split; [vm_compute; reflexivity | split; reflexivity]. Qed.

(** ** C34 Different nodes are never mistaken for one another during a search *)

(** Missing: nodes with slashes or empty parts. *)
Theorem C34_identities_partial : forall E x y, collision_free E -> plain_node x -> plain_node y ->
  node_id E x = node_id E y -> x = y.
Proof.
  intros E x y Hc Hx Hy H. apply plain_distinct; [exact Hx | exact Hy |]. apply Hc.
  destruct x as [[o |] rel | [o |] | rs |], y as [[o' |] rel' | [o' |] | rs' |]; cbn in Hx, Hy; try contradiction;
    injection H as H; exact H.
Qed.

(** Two pairs of different nodes with one identity, whatever the hash function: an entity with an empty id and
    the whole resource, and two entity sets that differ in where a slash belongs.  The first pair makes a check
    and an expansion miss a node (C26_decides_refuted). *)
Theorem C34_identities_refuted : forall E,
  node_id E (NEntity (Some (ent "user" ""))) = node_id E (NWild "user") /\
  node_id E (NSet (Some (ent "file" "a/b")) "c") = node_id E (NSet (Some (ent "file" "a")) "b/c") /\
  (collision_free E -> exists s t, sequential E s /\
    answer E (QExpand 20 "p" (Some (NSet (Some (ent "file" "1")) "reader")) FDot) s = Ok (AExpanded t) /\
    evaluated t = [NSet (Some (ent "file" "1")) "reader"; NSet (Some (ent "file" "1")) "owner"; NEntity (Some (ent "user" ""))] /\
    skipped t = [NWild "user"]).
Proof.
  intros E. split; [reflexivity |]. split; [reflexivity |]. intros Hc.
  assert (Hn : forall x y, x <> y -> String.eqb (sha E x) (sha E y) = false).
  { intros x y Hxy. apply String.eqb_neq. intros H. apply Hc in H. contradiction. }
  exists (after_all E (hidden_before ++ [hiding]) empty_store).
  cut (exists t, answer E (QExpand 20 "p" (Some (NSet (Some (ent "file" "1")) "reader")) FDot)
                   (after_all E (hidden_before ++ [hiding]) empty_store) = Ok (AExpanded t) /\
                 evaluated t = [NSet (Some (ent "file" "1")) "reader"; NSet (Some (ent "file" "1")) "owner"; NEntity (Some (ent "user" ""))] /\
                 skipped t = [NWild "user"]).
  { intros (t & Ht). exists t. split; [eexists; reflexivity | exact Ht]. }
  rewrite answer_expand.
  assert (policies (after_all E (hidden_before ++ [hiding]) empty_store) "p" = Some (mkPRec hidden_policy "" 1%N)) as -> by reflexivity.
  cbn. by_order Hc; settle Hn E; (eexists; split; [reflexivity |]; split; reflexivity).
Qed.

(** ** C35 Check and Expand never crash the server *)

(** Missing: tuple-to-usersets over resource-wide subjects. *)
Theorem C35_no_panic_partial : forall E s pid rec n root, reachable E s ->
  answer E (QGetPolicy pid) s = Ok (APolicy (Some rec)) ->
  has_object root -> ttu_objects E (pr_policy rec) (key_subject E (relationships s pid)) root ->
  (forall o rel a, root = NSet (Some o) rel ->
    answer E (QCheck n pid (asks o rel a)) s <> Panic /\
    forall f, answer E (QExplainCheck n pid (asks o rel a) f) s <> Panic) /\
  forall f, answer E (QExpand n pid (Some root) f) s <> Panic.
Proof.
  intros E s pid rec n root H Hp Hro Httu. apply reachable_ok in H. apply known_policy in Hp.
  destruct (so_policy _ _ H pid rec Hp) as [_ Hw].
  assert (Hno : forall g, g <> GoalEntity None -> search E (pr_policy rec) (edges_of pid s) n root g <> Panic).
  { intros g Hg. apply (search_no_panic E (pr_policy rec) _ _ (stored_edges E s pid H) Hw (fun o rel u => stored_object E s pid o rel u H)); assumption. }
  assert (Hser : forall f g t, search E (pr_policy rec) (edges_of pid s) n root g = Ok t -> serialize n f t <> Panic).
  { intros f g t Ht. destruct f; cbn; try discriminate.
    2:{ destruct (search_drawn E s pid rec n root g t H Hro Httu Ht) as [l ->]. discriminate. }
    clear Ht. destruct n as [| [| n']]; [discriminate | |].
    - destruct (children t) as [| c cs] eqn:Hch; [rewrite json_leaf by exact Hch; discriminate |].
      cbn [json_visit existsb]. unfold pointers. cbn [parent app subtree]. rewrite Hch. discriminate.
    - destruct (children t) as [| c cs] eqn:Hch; [rewrite json_leaf by exact Hch; discriminate |].
      destruct n' as [| n']; [| rewrite (json_cycle t c cs) by exact Hch; discriminate].
      change (for_each (json_visit 1 t [[]]) (map (fun i => [i]) (seq 0 (length (children t)))) <> Panic).
      rewrite Hch. cbn. discriminate. }
  split.
  - intros o rel a ->. unfold asks. rewrite answer_check. unfold check_tree. rewrite Hp. split.
    + specialize (Hno (GoalEntity (Some a))). destruct (search E (pr_policy rec) _ n _ _); cbn; try discriminate. intros _. apply Hno; discriminate || reflexivity.
    + intros f. rewrite answer_explain. unfold check_tree. rewrite Hp. specialize (Hno (GoalEntity (Some a))).
      destruct (serializer_factory f) eqn:Hsf; try discriminate; [| destruct f; discriminate]. cbn [bind].
      specialize (Hser f (GoalEntity (Some a))).
      destruct (search E (pr_policy rec) _ n _ _) as [t | | |]; cbn [bind]; try discriminate; [| intros _; apply Hno; discriminate || reflexivity].
      specialize (Hser t eq_refl). destruct (serialize n f t); cbn; congruence.
  - intros f. rewrite answer_expand, Hp. specialize (Hno GoalNone).
    destruct (serializer_factory f) eqn:Hsf; try discriminate; [| destruct f; discriminate]. cbn [bind].
    specialize (Hser f GoalNone).
    destruct (search E (pr_policy rec) _ n _ _) as [t | | |]; cbn [bind]; try discriminate; [| intros _; apply Hno; discriminate || reflexivity].
    specialize (Hser t eq_refl). destruct (serialize n f t); cbn; congruence.
Qed.

(** Files readable by the viewers of their parent; one parent is "all folders". *)
Definition ttu_policy : policy :=
  mkPolicy "p" "" "" [rs "user" []; rs "folder" [rl "viewer" (XTree (TRule RThis)) SRUniversal];
    rs "file" [rl "parent" (XTree (TRule RThis)) (SRSet [REntity "folder"]);
               rl "any" (XTree (TRule RThis)) SRUniversal;
               rl "reader" (XTree (TRule (RTtu "parent" "viewer"))) SRUniversal;
               rl "other" (XTree (TRule (RTtu "any" "viewer"))) SRUniversal]] [].

Definition ttu_store (E : env) (rel : string) (u : subject) : store :=
  after_all E [QCreatePolicy 1%N (Some (DPolicy ttu_policy)) ""; set "p" (tup "file" "1" rel u)] empty_store.

Theorem C35_no_panic_refuted : forall E, let s := ttu_store E "parent" (SResourceSet "folder") in
  sequential E s /\ In (tup "file" "1" "parent" (SResourceSet "folder")) (relationships s "p") /\
  answer E (QCheck 20 "p" (asks (ent "file" "1") "reader" (ent "user" "u"))) s = Panic /\
  answer E (QExpand 20 "p" (Some (NSet (Some (ent "file" "1")) "reader")) FSpew) s = Panic.
Proof.
  intros E s. subst s. split; [eexists; reflexivity |]. split; [left; reflexivity |].
  unfold asks. rewrite answer_check, answer_expand. unfold check_tree.
  assert (policies (ttu_store E "parent" (SResourceSet "folder")) "p" = Some (mkPRec ttu_policy "" 1%N)) as -> by reflexivity.
  split; cbn; unfold search; rewrite search_path_S; cbn; unfold build_goal_for_rule, evaluate, get_successors, node_key; cbn;
    rewrite String.eqb_refl; reflexivity.
Qed.

(** ** C08 Checks on an accepted policy never fail with a malformed-policy error *)

(** Missing: tuple-to-usersets that meet resource-wide subjects or resources without the computed relation, and
    expression trees with operators other than the three. *)
Theorem C08_decides_partial : forall E s pid rec o rel a, reachable E s ->
  answer E (QGetPolicy pid) s = Ok (APolicy (Some rec)) ->
  (forall r, In r (relationships s pid) -> admissible (pr_policy rec) r) -> standard E (pr_policy rec) ->
  declares (pr_policy rec) (e_res o) rel ->
  ttu_declared E (pr_policy rec) (key_subject E (relationships s pid)) (NSet (Some o) rel) ->
  exists N b, forall n, N <= n -> answer E (QCheck n pid (asks o rel a)) s = Ok (ADecision b).
Proof.
  intros E s pid rec o rel a H Hp Hadm Hstd Hd Httu. apply reachable_ok in H. apply known_policy in Hp.
  destruct (so_policy _ _ H pid rec Hp) as [_ Hw].
  assert (Hdn : forall o rel u, key_subject E (relationships s pid) o rel u -> declared_node (pr_policy rec) (subject_node u)).
  { intros o' rel' u (r & Hr & Hu & _). destruct (Hadm r Hr) as (o1 & u1 & l & _ & Hu1 & _ & _ & Hsd & _).
    rewrite Hu in Hu1. injection Hu1 as <-. destruct u as [e | [e |] l' | rs' |]; cbn in *; auto. }
  destruct (search_total E (pr_policy rec) _ _ (stored_edges E s pid H) Hw (NSet (Some o) rel) Hstd Hdn Httu (GoalEntity (Some a)) Hd)
    as [t Ht]; [discriminate |].
  exists (search_bound E (pr_policy rec) (edges_of pid s) (NSet (Some o) rel)), (is_success (get_result t)).
  intros n Hn. unfold asks. rewrite answer_check. unfold check_tree. rewrite Hp, Ht by exact Hn. reflexivity.
Qed.

(** A condition on the policy that suffices: the restrictions of tupleset relations admit only resources that
    declare the computed relation, and no tupleset relation has a resource-wide subject. *)
Theorem C08_decides_restricted : forall E s pid rec o rel a, reachable E s ->
  answer E (QGetPolicy pid) s = Ok (APolicy (Some rec)) ->
  (forall r, In r (relationships s pid) -> admissible (pr_policy rec) r) -> standard E (pr_policy rec) ->
  declares (pr_policy rec) (e_res o) rel ->
  unaliased E (pr_policy rec) (relationships s pid) (NSet (Some o) rel) ->
  ttu_restricted E (pr_policy rec) ->
  (forall o1 rel1 t ts cu rs', rewrites E (pr_policy rec) o1 rel1 t -> occurs (RTtu ts cu) t ->
     ~ stored_subject (relationships s pid) o1 ts (SResourceSet rs')) ->
  exists N b, forall n, N <= n -> answer E (QCheck n pid (asks o rel a)) s = Ok (ADecision b).
Proof.
  intros E s pid rec o rel a H Hp Hadm Hstd Hd Hun Hres Hnw. apply (C08_decides_partial E s pid rec); auto.
  intros o1 rel1 t ts cu u Hr Hw Ho Hu. apply (reach_keyed E _ _ _ Hun) in Hr.
  apply (keyed_stored E _ _ _ Hun o1 rel1 ts u Hr) in Hu; [| exists t; eauto].
  destruct (Hadm _ Hu) as (o2 & u2 & l2 & Ho2 & Hu2 & Hl2 & Hn2 & _ & Hadmits). cbn in Ho2, Hu2, Hn2.
  injection Ho2 as <-. injection Hu2 as <-. destruct Hw as (l & Hl & Hn & Hx).
  destruct (Hres _ l l2 t ts cu Hl Hx Ho Hl2 Hn2) as (xs & Hxs & Hall). rewrite Hxs in Hadmits.
  destruct u as [e | [e |] rel' | rs' |]; cbn in Hadmits; try contradiction.
  - exists e. split; [reflexivity |]. exact (Hall _ Hadmits).
  - exists e. split; [reflexivity |]. exact (Hall _ Hadmits).
  - exfalso. eapply (Hnw o1 rel1 t ts cu rs'); [exists l; auto | exact Ho | exact Hu].
Qed.

(** The parent of a file is a user, and users have no viewers: an accepted relationship, a declared relation, an error. *)
Theorem C08_decides_refuted : forall E, collision_free E -> let s := ttu_store E "any" (user "u") in
  sequential E s /\ answer E (QGetPolicy "p") s = Ok (APolicy (Some (mkPRec ttu_policy "" 1%N))) /\
  declares ttu_policy "file" "other" /\ (forall r, In r (relationships s "p") -> admissible ttu_policy r) /\
  answer E (QCheck 20 "p" (asks (ent "file" "1") "other" (ent "user" "u"))) s = Err ERelationNotFound.
Proof.
  intros E Hc s. subst s. split; [eexists; reflexivity |]. split; [reflexivity |]. split; [| split].
  - exists (rl "other" (XTree (TRule (RTtu "any" "viewer"))) SRUniversal). split; [| reflexivity].
    eexists. split; [right; right; left; reflexivity |]. split; [reflexivity |]. do 3 right. left. reflexivity.
  - intros r [<- | []]. exists (ent "file" "1"), (user "u"), (rl "any" (XTree (TRule RThis)) SRUniversal).
    repeat split; try reflexivity.
    + eexists. split; [right; right; left; reflexivity |]. split; [reflexivity |]. right. left. reflexivity.
    + exists (rs "user" []). split; [left; reflexivity | reflexivity].
  - assert (Hn : forall x y, x <> y -> String.eqb (sha E x) (sha E y) = false).
    { intros x y Hxy. apply String.eqb_neq. intros H. apply Hc in H. contradiction. }
    unfold asks. rewrite answer_check. unfold check_tree.
    assert (policies (ttu_store E "any" (user "u")) "p" = Some (mkPRec ttu_policy "" 1%N)) as -> by reflexivity.
    cbn; unfold search; rewrite search_path_S; cbn; unfold build_goal_for_rule, evaluate, get_successors, node_key; cbn.
    rewrite String.eqb_refl. cbn. settle Hn E. reflexivity.
Qed.

(** ** C17 Granting on one object never grants on another *)

(** [r] is not stored under a key that the check of [o]'s relation consults: setting it changes no answer. *)
Theorem C17_set_local_partial : forall E s pid rec now r app n o rel a, reachable E s ->
  answer E (QGetPolicy pid) s = Ok (APolicy (Some rec)) ->
  (forall o1 rel1 rel2, reach E (pr_policy rec) (key_subject E (relationships s pid)) (NSet (Some o) rel) (NSet (Some o1) rel1) ->
     looks_up E (pr_policy rec) o1 rel1 rel2 -> sha E (object_text r) <> sha E (e_res o1 +++ e_id o1 +++ rel2)) ->
  answer E (QCheck n pid (asks o rel a)) (after E (QSetRelationship now pid (Some r) app) s) =
  answer E (QCheck n pid (asks o rel a)) s.
Proof.
  intros E s pid rec now r app n o rel a H Hp Hfree. apply known_policy in Hp. pose proof H as Hok. apply reachable_ok in Hok.
  destruct (answer E (QSetRelationship now pid (Some r) app) s) as [x | | |] eqn:Ha.
  2-4: rewrite (failed_unchanged E (QSetRelationship now pid (Some r) app) s) by (intros y Hy; congruence); reflexivity.
  assert (exists b, x = ASet b) as [b ->].
  { revert Ha. serve_eq. rewrite run_set_rel. destruct (kv_get scmp pid (st_pol s)) as [rec' |]; cbn [wrap fst]; [| discriminate].
    destruct (allowed_relationship (pr_policy rec') (Some r)); cbn [wrap fst]; try discriminate.
    destruct (to_internal (Some r)); cbn [wrap fst]; try discriminate. intros [= <-]. eauto. }
  destruct (set_effect E now pid r app s b Hok Ha) as (rec' & e & Hp' & _ & He & _ & Haft).
  rewrite Hp in Hp'. injection Hp' as <-. rewrite Haft. unfold asks. rewrite !answer_check.
  rewrite (check_depends E s (put_rel E pid e (mkData app now) s) pid n o rel (Some a)); [reflexivity | exact Hok | | |].
  - apply put_rel_ok; [exact Hok | exists r; exact He].
  - reflexivity.
  - intros rec1 o1 rel1 rel2 r1 Hrec Hr Hl Hk. rewrite Hp in Hrec. injection Hrec as <-.
    rewrite (relationships_put E pid pid e (mkData app now) s r1 Hok) by (exists r; exact He).
    specialize (Hfree o1 rel1 rel2 Hr Hl). split.
    + intros Hin. right. split; [exact Hin |]. intros [_ Hkey]. apply Hfree. rewrite <- Hk.
      apply (relationships_in E) in Hin as (e1 & He1 & _); [| exact Hok].
      destruct (dst_subject _ _ He1) as (x1 & u1 & Hx1 & _ & _ & Hs1), (dst_subject _ _ He) as (x2 & u2 & Hx2 & _ & _ & Hs2).
      unfold rel_key in Hkey. rewrite He1 in Hkey. unfold edge_key in Hkey. injection Hkey as Hkey _.
      unfold node_key in Hkey. rewrite Hs1, Hs2 in Hkey. cbn in Hkey. unfold object_text. rewrite Hx1, Hx2. congruence.
    + intros [[_ ->] | [Hin _]]; [| exact Hin]. exfalso. apply Hfree. rewrite <- Hk. rewrite (from_to_internal r e He). reflexivity.
Qed.

(** With enclosed object ids and no hash collisions: the check does not consult [r]'s object and relation. *)
Theorem C17_set_local_delimited : forall E c s pid rec now r app n o rel a, reachable E s -> collision_free E ->
  answer E (QGetPolicy pid) s = Ok (APolicy (Some rec)) ->
  delimited_ids c (pr_policy rec) (r :: relationships s pid) -> delimited c (e_id o) ->
  (forall o1 rel1 rel2, reach E (pr_policy rec) (stored_subject (relationships s pid)) (NSet (Some o) rel) (NSet (Some o1) rel1) ->
     looks_up E (pr_policy rec) o1 rel1 rel2 -> ~ (r_object r = Some o1 /\ r_relation r = rel2)) ->
  answer E (QCheck n pid (asks o rel a)) (after E (QSetRelationship now pid (Some r) app) s) =
  answer E (QCheck n pid (asks o rel a)) s.
Proof.
  intros E c s pid rec now r app n o rel a H Hc Hp Hd Ho Hfree. apply (C17_set_local_partial E s pid rec); auto.
  apply known_policy in Hp. pose proof (proj2 (so_policy _ _ (reachable_ok _ _ H) pid rec Hp)) as Hw.
  assert (Hd' : delimited_ids c (pr_policy rec) (relationships s pid)).
  { destruct Hd as [D1 D2 D3 D4]. split; auto; intros; [eapply D3 | eapply D4]; eauto; right; assumption. }
  pose proof (delimited_unaliased E c _ _ o rel Hc Hw Hd' Ho) as Hun. intros o1 rel1 rel2 Hr Hl Hk.
  apply (reach_keyed E _ _ _ Hun) in Hr. apply (Hfree o1 rel1 rel2 Hr Hl).
  (* the delimited store that holds [r] too *)
  eapply (delimited_look E c (pr_policy rec) (r :: relationships s pid)); eauto; [| left; reflexivity].
  exact (reach_delimited E c _ _ o rel _ Hd' Ho Hr).
Qed.

(** The alias of C25: a grant on file:s1 lets its subject read files:1. *)
Theorem C17_set_local_refuted : forall E, collision_free E ->
  let s := after_all E [QCreatePolicy 1%N (Some (DPolicy alias_policy)) ""] empty_store in
  let q := set "p" (tup "file" "s1" "reader" (SEntity (ent "file" "x"))) in
  sequential E s /\
  answer E (QCheck 5 "p" (asks (ent "files" "1") "reader" (ent "file" "x"))) s = Ok (ADecision false) /\
  answer E (QCheck 5 "p" (asks (ent "files" "1") "reader" (ent "file" "x"))) (after E q s) = Ok (ADecision true) /\
  forall o1 rel1, reach E alias_policy (stored_subject (relationships s "p")) (NSet (Some (ent "files" "1")) "reader") (NSet (Some o1) rel1) ->
    o1 = ent "files" "1" /\ rel1 = "reader".
Proof.
  intros E Hc s q. subst s q. split; [eexists; reflexivity |]. split; [| split].
  - unfold asks. rewrite answer_check. reflexivity.
  - apply (alias_check E). intros H. apply Hc in H. discriminate.
  - intros o1 rel1 Hr. remember (NSet (Some o1) rel1) as n eqn:Hn. destruct Hr as [| x y _ Hl]; [injection Hn as <- <-; auto |].
    exfalso. destruct Hl as [o rel t ru n Hw Ho Hy]. rewrite (alias_rewrites E o rel t Hw) in Ho. inversion Ho; subst.
    inversion Hy as [? ? u Hu | |]; subst. exact Hu.
Qed.

(** ** The hypotheses of C25, C26, C29, C30 and C33 on a concrete store *)

(** All nodes below file:f#reader in [cyclic_store]. *)
Definition below_reader : list rnode :=
  [NSet (Some (ent "file" "f")) "reader"; NSet (Some (ent "group" "a")) "member"; NSet (Some (ent "group" "b")) "member";
   NEntity (Some (ent "user" "bob")); NSet (Some (ent "file" "f")) "owner"; NSet (Some (ent "folder" "d")) "viewer"; NWild "user"].

Lemma cyclic_ok : store_ok E0 cyclic_store.
Proof. apply reachable_ok, sequential_reachable. eexists. reflexivity. Qed.

Lemma cyclic_policy : policies cyclic_store "p" = Some (mkPRec (pol "p") "app" 1%N).
Proof. reflexivity. Qed.

Lemma cyclic_wf : well_formed E0 (pol "p").
Proof. exact (proj2 (so_policy _ _ cyclic_ok _ _ cyclic_policy)). Qed.

Lemma below_reader_covers : covers_reach E0 (pol "p") (edges_of "p" cyclic_store) (NSet (Some (ent "file" "f")) "reader") below_reader.
Proof.
  split; [left; reflexivity |]. unfold below_reader.
  repeat (apply Forall_cons; [first [left; reflexivity | right; eexists; split; [vm_compute; reflexivity | vm_compute; tauto]] |]).
  apply Forall_nil.
Qed.

Example C26_example_distinct :
  distinct_ids E0 (pol "p") (key_subject E0 (relationships cyclic_store "p")) (NSet (Some (ent "file" "f")) "reader").
Proof.
  eapply distinct_list; [apply stored_edges, cyclic_ok | exact (wf_unique _ _ cyclic_wf) | apply below_reader_covers |].
  vm_compute. repeat constructor; intros H; repeat (destruct H as [H | H]; [discriminate |]); exact H.
Qed.

Example C26_example_unaliased :
  unaliased E0 (pol "p") (relationships cyclic_store "p") (NSet (Some (ent "file" "f")) "reader").
Proof.
  eapply unaliased_list; [apply stored_edges, cyclic_ok | exact cyclic_wf | apply below_reader_covers |].
  intros o rel rel' r Ho Hrel Hr. vm_compute in Ho, Hrel, Hr.
  repeat (destruct Ho as [Ho | Ho]; [injection Ho as <- <- || discriminate |]); try contradiction;
  repeat (destruct Hrel as [<- | Hrel]; [| ]); try contradiction;
  repeat (destruct Hr as [<- | Hr]; [vm_compute; first [intros [=]; fail | auto] |]); contradiction.
Qed.

Example C26_example_union : union_only E0 (pol "p").
Proof.
  intros op (rs & l & t & (r & Hr & _ & Hl) & Hx & Hu). apply expression_get in Hx as [Hx _].
  destruct Hr as [<- | [<- | [<- | [<- | []]]]]; cbn in Hl;
    repeat (destruct Hl as [<- | Hl]; [vm_compute in Hx; injection Hx as <- |]); try contradiction;
    repeat match goal with H : uses _ (TOp _ _ _) |- _ => inversion H; clear H; subst; try reflexivity
                         | H : uses _ (TRule _) |- _ => inversion H end.
Qed.

(** Everybody is a reader through the folder; only bob is a member of group:a. *)
Example C26_example_decisions :
  answer E0 (asked (ent "file" "f") "reader" (ent "user" "eve")) cyclic_store = Ok (ADecision true) /\
  answer E0 (asked (ent "file" "f") "owner" (ent "user" "eve")) cyclic_store = Ok (ADecision false) /\
  answer E0 (asked (ent "group" "b") "member" (ent "user" "bob")) cyclic_store = Ok (ADecision true).
Proof. repeat split; reflexivity. Qed.

Print Assumptions C29_certified_by_key.
Print Assumptions C29_certified_exact.
Print Assumptions C27_intersection_partial.
Print Assumptions C28_difference_partial.
Print Assumptions C31_explanation_decides.
Print Assumptions C31_explanation_agrees.
Print Assumptions C31_failures.
Print Assumptions C31_dot_partial.
Print Assumptions C31_dot_refuted.
Print Assumptions C31_unknown_format.
Print Assumptions C32_json_refuted.
Print Assumptions C32_cycles.
Print Assumptions C32_json_partial.
Print Assumptions C33_expand_once.
Print Assumptions C33_expand_exact.
Print Assumptions C33_expand_by_key.
Print Assumptions C34_identities_partial.
Print Assumptions C34_identities_refuted.
Print Assumptions C35_no_panic_partial.
Print Assumptions C35_no_panic_refuted.
Print Assumptions C08_decides_partial.
Print Assumptions C08_decides_restricted.
Print Assumptions C08_decides_refuted.
Print Assumptions C17_set_local_partial.
Print Assumptions C17_set_local_delimited.
Print Assumptions C17_set_local_refuted.
