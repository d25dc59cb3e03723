(** Property of what Check decides, for all operators: C109. *)
From Verif Require Import Base Domain Lexer Parser Validate Store Search Explain Yaml Service Dump Api
  SpecGrammar SpecPolicy SpecStore SpecSearch SpecExact Fixtures BaseFacts ParserFacts ValidateFacts StoreFacts PolicyFacts RelFacts
  SearchFacts SearchSem SearchTerm GraphFacts NameFacts ExactFacts PropsSearch.

(** ** C109 The first way to the subject decides *)

(** Whatever the operators: Check authorises exactly when the first way to the subject, in the order of the operands
    and of the listed relationships, takes only steps that make the expressions hold; it refuses exactly when the
    first way takes another step, or there is no way. *)
Theorem C109_first_way_by_key : forall E s pid rec n o rel a b, reachable E s ->
  answer E (QGetPolicy pid) s = Ok (APolicy (Some rec)) ->
  let listed := subjects_keyed E (relationships s pid) in
  let origin := NSet (Some o) rel in
  distinct_ids E (pr_policy rec) (key_subject E (relationships s pid)) origin ->
  reached_once E (pr_policy rec) (key_subject E (relationships s pid)) a origin ->
  answer E (QCheck n pid (asks o rel a)) s = Ok (ADecision b) ->
  (b = true <-> passes E (pr_policy rec) listed a [] origin) /\
  (b = false <-> refused E (pr_policy rec) listed a [] origin \/ ~ finds E (pr_policy rec) listed a [] origin).
Proof.
  intros E s pid rec n o rel a b H Hp listed origin Hd Ho Hc. apply reachable_ok in H. apply known_policy in Hp.
  apply check_decision in Hc as (t & Ht & ->). apply check_tree_ok in Ht as (rec' & seen & Hp' & Hs).
  rewrite Hp in Hp'. injection Hp' as <-.
  assert (Hd' : distinct_ids E (pr_policy rec) (fun o rel u => In u (listed o rel)) origin)
    by (intros x y Hx Hy; apply Hd; apply reach_listed; assumption).
  assert (Ho' : reached_once E (pr_policy rec) (fun o rel u => In u (listed o rel)) a origin)
    by (intros [Hx Hy]; apply Ho; split; apply reach_listed; assumption).
  destruct (search_passes E (pr_policy rec) (edges_of pid s) listed (keyed_successors E s pid H) a origin (stored_unique _ _ _ _ H Hp) Hd' Ho' o rel _ _ _ eq_refl Hs) as [H1 H2].
  split; [rewrite is_success_iff; exact H1 |]. unfold origin. rewrite <- H2, <- is_success_iff. destruct (is_success (get_result t)); split; congruence.
Qed.

(** The same about the stored relationships by name, when no consulted key is shared. *)
Theorem C109_first_way_by_name : forall E s pid rec n o rel a b, reachable E s ->
  answer E (QGetPolicy pid) s = Ok (APolicy (Some rec)) ->
  let listed := subjects_of (relationships s pid) in
  let origin := NSet (Some o) rel in
  unaliased E (pr_policy rec) (relationships s pid) origin ->
  distinct_ids E (pr_policy rec) (stored_subject (relationships s pid)) origin ->
  reached_once E (pr_policy rec) (stored_subject (relationships s pid)) a origin ->
  answer E (QCheck n pid (asks o rel a)) s = Ok (ADecision b) ->
  (b = true <-> passes E (pr_policy rec) listed a [] origin) /\
  (b = false <-> refused E (pr_policy rec) listed a [] origin \/ ~ finds E (pr_policy rec) listed a [] origin).
Proof.
  intros E s pid rec n o rel a b H Hp listed origin Hu Hd Ho Hc.
  destruct (C109_first_way_by_key E s pid rec n o rel a b H Hp) as [H1 H2]; [apply distinct_keyed; assumption | | exact Hc |].
  { intros [Hx Hy]. apply Ho. split; apply (reach_keyed E _ _ _ Hu); assumption. }
  pose proof (offers_agree E (pr_policy rec) _ _ Hu) as Ha. pose proof (offers_reached E (pr_policy rec) _ _ Hu) as Hr.
  pose proof (re_here E (pr_policy rec) (stored_subject (relationships s pid)) origin) as H0.
  unfold listed. rewrite <- (passes_agree E (pr_policy rec) _ _ a _ Ha Hr [] origin H0), <- (refused_agree E (pr_policy rec) _ _ a _ Ha Hr [] origin H0),
    <- (finds_agree E (pr_policy rec) _ _ a _ Ha Hr [] origin H0). auto.
Qed.

(** Names without separators, and no hash collisions: nothing is missing. *)
Theorem C109_first_way_separated : forall E c s pid rec n o rel a b, reachable E s -> collision_free E ->
  answer E (QGetPolicy pid) s = Ok (APolicy (Some rec)) ->
  let listed := subjects_of (relationships s pid) in
  let origin := NSet (Some o) rel in
  delimited_ids c (pr_policy rec) (relationships s pid) -> delimited c (e_id o) ->
  (forall x, reach E (pr_policy rec) (stored_subject (relationships s pid)) origin x -> plain_node x) ->
  reached_once E (pr_policy rec) (stored_subject (relationships s pid)) a origin ->
  answer E (QCheck n pid (asks o rel a)) s = Ok (ADecision b) ->
  (b = true <-> passes E (pr_policy rec) listed a [] origin) /\
  (b = false <-> refused E (pr_policy rec) listed a [] origin \/ ~ finds E (pr_policy rec) listed a [] origin).
Proof.
  intros E c s pid rec n o rel a b H Hc Hp listed origin Hi Hdo Hpl Ho Hx. eapply C109_first_way_by_name; eauto.
  - apply known_policy in Hp. apply (delimited_unaliased E c); auto. eapply so_policy; [apply reachable_ok; exact H | exact Hp].
  - apply plain_distinct_ids; auto.
Qed.

(** Whoever some way leads to, while no refusing step of a reached relation leads to them, is authorised. *)
Theorem C109_unopposed : forall E s pid rec n o rel a b, reachable E s ->
  answer E (QGetPolicy pid) s = Ok (APolicy (Some rec)) ->
  let listed := subjects_of (relationships s pid) in
  let origin := NSet (Some o) rel in
  unaliased E (pr_policy rec) (relationships s pid) origin ->
  distinct_ids E (pr_policy rec) (stored_subject (relationships s pid)) origin ->
  reached_once E (pr_policy rec) (stored_subject (relationships s pid)) a origin ->
  finds E (pr_policy rec) listed a [] origin ->
  (forall x l m, reach E (pr_policy rec) (stored_subject (relationships s pid)) origin x ->
    offers E (pr_policy rec) listed x l -> In (false, m) l -> ~ finds E (pr_policy rec) listed a [] m) ->
  answer E (QCheck n pid (asks o rel a)) s = Ok (ADecision b) -> b = true.
Proof.
  intros E s pid rec n o rel a b H Hp listed origin Hu Hd Ho Hf Hgood Hc.
  destruct (C109_first_way_by_name E s pid rec n o rel a b H Hp Hu Hd Ho Hc) as [_ H2].
  destruct b; [reflexivity |]. exfalso. destruct (proj1 H2 eq_refl) as [Hr | Hn]; [| contradiction]. clear H2 Hf.
  assert (Hor : reach E (pr_policy rec) (stored_subject (relationships s pid)) origin origin) by apply re_here.
  change (NSet (Some o) rel) with origin in Hr. revert Hor Hr. generalize origin at 2 3. generalize (@nil rnode).
  intros above x Hx Hr. fold listed in Hr.
  induction Hr as [above x bf m af _ Hof _ Hfm | above x bf m af _ Hof _ _ IH].
  - eapply Hgood; [exact Hx | exact Hof | apply in_or_app; right; left; reflexivity |].
    eapply finds_mono; [| exact Hfm]. intros y [].
  - apply IH. eapply offers_reached; [exact Hu | exact Hx | apply (offers_agree E _ _ _ Hu x _ Hx); exact Hof | apply in_or_app; right; left; reflexivity].
Qed.

(** ** A case: cid is in [a] and in [c]; [(a & b) + c] refuses them, [c + (a & b)] and [c - a] authorise them *)

Definition exact_policy : policy :=
  mkPolicy "p" "" "" [rs "user" [];
    rs "file" [rl "a" (XTree (TRule RThis)) SRUniversal; rl "b" (XTree (TRule RThis)) SRUniversal; rl "c" (XTree (TRule RThis)) SRUniversal;
               rl "first" (XTree (TOp (TOp (TRule (RCu "a")) OpInter (TRule (RCu "b"))) OpUnion (TRule (RCu "c")))) SRUniversal;
               rl "last" (XTree (TOp (TRule (RCu "c")) OpUnion (TOp (TRule (RCu "a")) OpInter (TRule (RCu "b"))))) SRUniversal;
               rl "less" (XTree (TOp (TRule (RCu "c")) OpDiff (TRule (RCu "a")))) SRUniversal]] [].

Definition exact_store : store :=
  after_all E0 [QCreatePolicy 1%N (Some (DPolicy exact_policy)) "";
    set "p" (tup "file" "1" "a" (user "cid")); set "p" (tup "file" "1" "c" (user "cid"))] empty_store.

Definition exact_nodes : list rnode :=
  [NSet (Some (ent "file" "1")) "first"; NSet (Some (ent "file" "1")) "last"; NSet (Some (ent "file" "1")) "less";
   NSet (Some (ent "file" "1")) "a"; NSet (Some (ent "file" "1")) "b"; NSet (Some (ent "file" "1")) "c"; NEntity (Some (ent "user" "cid"))].

Lemma exact_rewrites o rel t : e_res o = "file" -> rewrites E0 exact_policy o rel t ->
  (In rel ["a"; "b"; "c"] /\ t = TRule RThis) \/
  (rel = "first" /\ t = TOp (TOp (TRule (RCu "a")) OpInter (TRule (RCu "b"))) OpUnion (TRule (RCu "c"))) \/
  (rel = "last" /\ t = TOp (TRule (RCu "c")) OpUnion (TOp (TRule (RCu "a")) OpInter (TRule (RCu "b")))) \/
  (rel = "less" /\ t = TOp (TRule (RCu "c")) OpDiff (TRule (RCu "a"))).
Proof.
  intros Ho (l & (r & Hr & _ & Hl) & <- & Hx). destruct Hr as [<- | [<- | []]]; [destruct Hl |].
  repeat destruct Hl as [<- | Hl]; [.. | contradiction]; destruct Hx as [x [=] _ | [= <-] _]; cbn; auto 10.
Qed.

Lemma exact_reach x y : In x exact_nodes -> reach E0 exact_policy (stored_subject (relationships exact_store "p")) x y -> In y exact_nodes.
Proof.
  intros Hx H. induction H as [| y z _ IH Hl]; [exact Hx |]. destruct Hl as [o rel t ru n Hw Hru Hy].
  assert (Ho : o = ent "file" "1") by (cbn in IH; repeat destruct IH as [IH | IH]; congruence || contradiction). subst o. clear IH Hx.
  assert (Hs : forall rl u, stored_subject (relationships exact_store "p") (ent "file" "1") rl u -> u = user "cid").
  { intros rl u Hu. vm_compute in Hu. destruct Hu as [Hu | [Hu | []]]; injection Hu; intros; subst; reflexivity. }
  apply exact_rewrites in Hw; [| reflexivity].
  destruct Hw as [[_ ->] | [[_ ->] | [[_ ->] | [_ ->]]]];
    repeat match goal with H : occurs _ (TOp _ _ _) |- _ => inversion H; clear H; subst | H : occurs _ (TRule _) |- _ => inversion H; clear H; subst end;
    inversion Hy as [? ? u Hu | |]; subst; try (apply Hs in Hu; subst u); cbn; auto 10.
Qed.

Lemma exact_hypotheses rel : In rel ["first"; "last"; "less"] ->
  let rels := relationships exact_store "p" in
  let origin := NSet (Some (ent "file" "1")) rel in
  unaliased E0 exact_policy rels origin /\ distinct_ids E0 exact_policy (stored_subject rels) origin /\
  reached_once E0 exact_policy (stored_subject rels) (ent "user" "cid") origin.
Proof.
  intros Hrel rels origin. assert (Hor : In origin exact_nodes) by (cbn; destruct Hrel as [<- | [<- | [<- | []]]]; auto 10).
  assert (Hr : forall y, reach E0 exact_policy (stored_subject rels) origin y -> In y exact_nodes) by (intros y; apply exact_reach; exact Hor).
  split; [| split].
  - intros o rel1 rel2 r Hx (t & Hw & Hl) Hin Hk. apply Hr in Hx.
    assert (Ho : o = ent "file" "1") by (cbn in Hx; repeat destruct Hx as [Hx | Hx]; congruence || contradiction). subst o.
    vm_compute in Hin. cbn in Hk. destruct Hin as [<- | [<- | []]]; cbn in Hk |- *; injection Hk as <-; auto.
  - intros x y Hx Hy Hid. apply Hr in Hx, Hy. cbn in Hx, Hy.
    repeat destruct Hx as [<- | Hx]; try contradiction; repeat destruct Hy as [<- | Hy]; try contradiction; try reflexivity; discriminate Hid.
  - intros [_ Hy]. apply Hr in Hy. cbn in Hy. repeat destruct Hy as [Hy | Hy]; discriminate || contradiction.
Qed.

Example C109_case :
  let ask rel := answer E0 (asked (ent "file" "1") rel (ent "user" "cid")) exact_store in
  let listed := subjects_of (relationships exact_store "p") in
  let f rel := NSet (Some (ent "file" "1")) rel in
  ask "first" = Ok (ADecision false) /\ ask "last" = Ok (ADecision true) /\ ask "less" = Ok (ADecision true) /\
  refused E0 exact_policy listed (ent "user" "cid") [] (f "first") /\
  passes E0 exact_policy listed (ent "user" "cid") [] (f "last") /\
  passes E0 exact_policy listed (ent "user" "cid") [] (f "less").
Proof.
  intros ask listed f. assert (H1 : ask "first" = Ok (ADecision false)) by (vm_compute; reflexivity).
  assert (H2 : ask "last" = Ok (ADecision true)) by (vm_compute; reflexivity).
  assert (H3 : ask "less" = Ok (ADecision true)) by (vm_compute; reflexivity).
  assert (Hs : reachable E0 exact_store) by (apply reachable_after_all; constructor).
  assert (Hp : answer E0 (QGetPolicy "p") exact_store = Ok (APolicy (Some (mkPRec exact_policy "" 1%N)))) by (vm_compute; reflexivity).
  split; [exact H1 |]. split; [exact H2 |]. split; [exact H3 |].
  assert (Hall : forall rel b, In rel ["first"; "last"; "less"] -> ask rel = Ok (ADecision b) ->
    (b = true <-> passes E0 exact_policy listed (ent "user" "cid") [] (f rel)) /\
    (b = false <-> refused E0 exact_policy listed (ent "user" "cid") [] (f rel) \/ ~ finds E0 exact_policy listed (ent "user" "cid") [] (f rel))).
  { intros rel b Hrel Hc. destruct (exact_hypotheses rel Hrel) as (Hu & Hd & Ho).
    exact (C109_first_way_by_name E0 exact_store "p" _ _ _ _ _ _ Hs Hp Hu Hd Ho Hc). }
  split; [| split].
  - destruct (Hall "first" false) as [_ Hf]; [cbn; auto | exact H1 |]. destruct (proj1 Hf eq_refl) as [Hr | Hn]; [exact Hr |].
    exfalso. apply Hn. eapply fi_step; [intros [] | | | ].
    + constructor. eexists. split; [eexists; split; [right; left; reflexivity |]; split; [reflexivity |]; right; right; right; left; reflexivity |].
      split; [reflexivity | apply ex_tree; [reflexivity | repeat constructor]].
    + right. left. reflexivity.
    + eapply fi_step; [intros [] | | | ].
      * constructor. eexists. split; [eexists; split; [right; left; reflexivity |]; split; [reflexivity |]; right; right; left; reflexivity |].
        split; [reflexivity | apply ex_tree; [reflexivity | repeat constructor]].
      * left. reflexivity.
      * apply fi_here; [left; reflexivity | intros []].
  - apply (Hall "last" true); [cbn; auto | exact H2 | reflexivity].
  - apply (Hall "less" true); [cbn; auto | exact H3 | reflexivity].
Qed.

Print Assumptions C109_first_way_by_key.
Print Assumptions C109_first_way_by_name.
Print Assumptions C109_first_way_separated.
Print Assumptions C109_unopposed.
