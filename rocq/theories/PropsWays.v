(** Property of searches that can come to every node in one way only: C77. *)
From Verif Require Import Base Domain Lexer Parser Validate Store Search Explain Yaml Service Dump Api
  SpecGrammar SpecPolicy SpecStore SpecSearch SpecAlike SpecWays Fixtures BaseFacts ParserFacts ValidateFacts StoreFacts PolicyFacts RelFacts
  SearchFacts SearchSem SearchTerm SearchExplain GraphFacts WayFacts PropsSearch PropsExplain PropsAlike.

(** ** C77 Check is exact for all operators when every node is reached in one way *)

(** The equations of the policy have a solution, and Check answers with it, whatever the operators. *)
Theorem C77_exact : forall E s pid rec n o rel a b, reachable E s ->
  answer E (QGetPolicy pid) s = Ok (APolicy (Some rec)) ->
  distinct_ids E (pr_policy rec) (key_subject E (relationships s pid)) (NSet (Some o) rel) ->
  single_ways E (pr_policy rec) (key_subject E (relationships s pid)) (NSet (Some o) rel) ->
  answer E (QCheck n pid (asks o rel a)) s = Ok (ADecision b) ->
  (exists M, solution_below E (pr_policy rec) (key_subject E (relationships s pid)) a (NSet (Some o) rel) M) /\
  forall M, solution_below E (pr_policy rec) (key_subject E (relationships s pid)) a (NSet (Some o) rel) M -> (b = true <-> M o rel).
Proof.
  intros E s pid rec n o rel a b H Hp Hd Hone Hc. apply reachable_ok in H. apply known_policy in Hp.
  pose proof (stored_unique _ _ _ _ H Hp) as Hu. split.
  { eapply (solution_exists E (pr_policy rec) (edges_of pid s)); [apply stored_edges; exact H | | exact Hd | exact Hone].
    intros rs l t _ Ht. apply expression_get in Ht. apply Ht. }
  intros M HM. apply check_decision in Hc as (t & Ht & ->). apply check_tree_ok in Ht as (rec' & seen & Hp' & Hs). rewrite Hp in Hp'. injection Hp' as <-.
  assert (Hcert : certified t).
  { eapply (certified_single E (pr_policy rec) (edges_of pid s)); [apply stored_edges; exact H | apply successors_nodup; exact H | exact Hd | exact Hone | exact Hs]. }
  assert (Hdec : decides (get_result t) (node_in a M (NSet (Some o) rel))).
  { eapply (proj1 (certified_exact E (pr_policy rec) (edges_of pid s) _ (stored_edges E s pid H) a M (NSet (Some o) rel) _));
      [exact Hs | apply re_here | exact Hcert]. }
  destruct Hdec as [H1 H2]. rewrite is_success_iff. split; [exact H1 |]. intros Hm.
  inversion Hs as [? ? ? ? ? Hbad | ? ? ? ? _ _ Hg | ? ? ? ? _ _ _ Hg | ? ? ? ? ? t' gt x ? _ _ _ Ht' _ Hst]; subst; try discriminate; [contradiction |].
  cbn [get_result] in *. destruct (stree_known _ _ _ _ _ _ _ _ _ _ Hst) as [Hr | Hr]; [exact Hr |]. contradiction (H2 Hr).
  Unshelve. intros o' rel' t0 Hr Hw. rewrite (HM o' rel' Hr). split.
  - intros (t1 & Hw1 & He). rewrite (rewrites_unique _ _ _ _ _ _ Hu Hw Hw1). exact He.
  - eauto.
Qed.

(** The same about the stored relationships by name. *)
Theorem C77_exact_by_name : forall E s pid rec n o rel a b, reachable E s ->
  answer E (QGetPolicy pid) s = Ok (APolicy (Some rec)) ->
  unaliased E (pr_policy rec) (relationships s pid) (NSet (Some o) rel) ->
  distinct_ids E (pr_policy rec) (stored_subject (relationships s pid)) (NSet (Some o) rel) ->
  single_ways E (pr_policy rec) (stored_subject (relationships s pid)) (NSet (Some o) rel) ->
  answer E (QCheck n pid (asks o rel a)) s = Ok (ADecision b) ->
  (exists M, solution_below E (pr_policy rec) (stored_subject (relationships s pid)) a (NSet (Some o) rel) M) /\
  forall M, solution_below E (pr_policy rec) (stored_subject (relationships s pid)) a (NSet (Some o) rel) M -> (b = true <-> M o rel).
Proof.
  intros E s pid rec n o rel a b H Hp Hun Hd Hone Hc.
  assert (Hsol : forall M, solution_below E (pr_policy rec) (stored_subject (relationships s pid)) a (NSet (Some o) rel) M <->
    solution_below E (pr_policy rec) (key_subject E (relationships s pid)) a (NSet (Some o) rel) M).
  { assert (Heq : forall M o' rel', reach E (pr_policy rec) (stored_subject (relationships s pid)) (NSet (Some o) rel) (NSet (Some o') rel') ->
      ((exists t, rewrites E (pr_policy rec) o' rel' t /\ eval (key_subject E (relationships s pid)) a M o' rel' t) <->
       (exists t, rewrites E (pr_policy rec) o' rel' t /\ eval (stored_subject (relationships s pid)) a M o' rel' t))).
    { intros M o' rel' Hr. split; intros (t & Hw & He); exists t; (split; [exact Hw | apply (eval_keyed E _ _ _ Hun a M o' rel' t t Hr Hw); auto]). }
    intros M. split; intros HM o' rel' Hr.
    - apply (reach_keyed E _ _ _ Hun) in Hr. rewrite (HM o' rel' Hr). symmetry. apply Heq. exact Hr.
    - rewrite (HM o' rel'); [apply Heq; exact Hr | apply (reach_keyed E _ _ _ Hun); exact Hr]. }
  destruct (C77_exact E s pid rec n o rel a b H Hp) as [[M HM] Hall].
  - apply distinct_keyed; assumption.
  - intros w w' m Hw Hw'. apply (way_keyed E _ _ _ _ _ Hun) in Hw, Hw'. eapply Hone; eauto.
  - exact Hc.
  - split; [exists M; apply Hsol; exact HM | intros M' HM'; apply Hall, Hsol, HM'].
Qed.

(** Everybody but bob: the wildcard and bob are different nodes, each reached in one way. *)
Definition but_bob : tree := TOp (TRule (RCu "all")) OpDiff (TRule (RCu "direct")).
Definition f1 : option entity := Some (ent "file" "1").
Definition but_bob_ways : list (list (list bool * option subject) * rnode) :=
  [([], NSet f1 "both"); ([([true], None)], NSet f1 "all"); ([([true], None); ([], Some (SResourceSet "user"))], NWild "user");
   ([([false], None)], NSet f1 "direct"); ([([false], None); ([], Some (user "bob"))], NEntity (Some (ent "user" "bob")))].

Lemma but_bob_way w n :
  way E0 (order_policy but_bob) (key_subject E0 (relationships (order_store E0 but_bob) "p")) (NSet f1 "both") w n -> In (w, n) but_bob_ways.
Proof.
  assert (Hk : forall rel u, key_subject E0 (relationships (order_store E0 but_bob) "p") (ent "file" "1") rel u ->
    (rel = "all" /\ u = SResourceSet "user") \/ (rel = "direct" /\ u = user "bob")).
  { intros rel u (r & Hr & Hu & Hk). vm_compute in Hr. cbn in Hk. destruct Hr as [<- | [<- | []]]; cbn in Hu, Hk; injection Hu as <-; injection Hk as <-; auto. }
  induction 1 as [| w o rel t p ru u n Hw IH Hrw Hr Hy]; [left; reflexivity |].
  apply order_rewrites in Hrw as [_ Hrw]; [| repeat constructor].
  destruct IH as [[= <- <- <-] | [[= <- <- <-] | [[= <-] | [[= <- <- <-] | [[= <-] | []]]]]]; try discriminate.
  - destruct Hrw as [[_ ->] | [[[=] | [=]] _]].
    inversion Hr as [| p' ru' l op r Hr' | p' ru' l op r Hr']; subst; inversion Hr'; subst; inversion Hy; subst; cbn; auto.
  - destruct Hrw as [[[=] _] | [_ ->]]. inversion Hr; subst. inversion Hy as [o rel u' Hu | |]; subst.
    destruct (Hk _ _ Hu) as [[_ ->] | [[=] _]]. cbn; auto.
  - destruct Hrw as [[[=] _] | [_ ->]]. inversion Hr; subst. inversion Hy as [o rel u' Hu | |]; subst.
    destruct (Hk _ _ Hu) as [[[=] _] | [_ ->]]. cbn. auto 6.
Qed.

Example C77_example :
  let s := order_store E0 but_bob in let P := order_policy but_bob in let succ := key_subject E0 (relationships s "p") in
  distinct_ids E0 P succ (NSet f1 "both") /\ single_ways E0 P succ (NSet f1 "both") /\
  answer E0 (asked (ent "file" "1") "both" (ent "user" "bob")) s = Ok (ADecision false) /\
  answer E0 (asked (ent "file" "1") "both" (ent "user" "eve")) s = Ok (ADecision true) /\
  answer E0 (asked (ent "file" "1") "both" (ent "robot" "r2")) s = Ok (ADecision false).
Proof.
  cbv zeta. split; [| split; [| repeat split; vm_compute; reflexivity]].
  - intros x y Hx Hy. destruct (reach_way _ _ _ _ _ Hx) as (w & Hw). destruct (reach_way _ _ _ _ _ Hy) as (w' & Hw').
    apply but_bob_way in Hw, Hw'.
    destruct Hw as [[= <- <-] | [[= <- <-] | [[= <- <-] | [[= <- <-] | [[= <- <-] | []]]]]];
    destruct Hw' as [[= <- <-] | [[= <- <-] | [[= <- <-] | [[= <- <-] | [[= <- <-] | []]]]]]; intros Hid; vm_compute in Hid; reflexivity || discriminate.
  - intros w w' n Hw Hw'. apply but_bob_way in Hw, Hw'.
    destruct Hw as [[= <- <-] | [[= <- <-] | [[= <- <-] | [[= <- <-] | [[= <- <-] | []]]]]];
    destruct Hw' as [Q | [Q | [Q | [Q | [Q | []]]]]]; discriminate Q || (injection Q as <-; reflexivity).
Qed.

Print Assumptions C77_exact.
Print Assumptions C77_exact_by_name.
