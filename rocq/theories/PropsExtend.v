(** Properties of changes to policies: C74, C75. *)
From Verif Require Import Base Domain Lexer Parser Validate Store Search Explain Yaml Service Dump Api
  SpecGrammar SpecPolicy SpecStore SpecSearch SpecAlike SpecExtend Fixtures BaseFacts ParserFacts ValidateFacts StoreFacts PolicyFacts RelFacts
  SearchFacts SearchSem SearchTerm SearchExplain GraphFacts PropsSearch PropsAlike.

(** ** Searches of two policies *)

Section Two.
  Variable E : env.
  Variable P P' : policy.
  Variable es : list ((string * string) * edge).
  Variable g : goal.

  Lemma search_tree_ok sp sp' : (forall nd why seen x, sp nd why seen = Ok x -> sp' nd why seen = Ok x) ->
    forall t seen x, search_tree sp t seen = Ok x -> search_tree sp' t seen = Ok x.
  Proof.
    intros Hsp t. induction t as [r ps IH | r ps IH | r l m IHl IHm | r n t why IH] using gtree_ind2; intros seen x H.
    - cbn [search_tree] in *. destruct (or_loop (search_tree sp) ps seen) as [z | | |] eqn:Hl; try discriminate.
      assert (Hl' : or_loop (search_tree sp') ps seen = Ok z); [| rewrite Hl'; exact H].
      clear H. revert seen z Hl. induction IH as [| p ps Hp _ IH]; intros seen z Hl; [exact Hl |].
      cbn in *. destruct (search_tree sp p seen) as [y | | |] eqn:Hy; try discriminate. rewrite (Hp _ _ Hy). cbn [bind] in *.
      destruct (is_success (get_result (fst y))); [exact Hl |].
      destruct (or_loop (search_tree sp) ps (snd y)) as [w | | |] eqn:Hw; try discriminate. rewrite (IH _ _ Hw). exact Hl.
    - cbn [search_tree] in *. destruct (and_loop (search_tree sp) ps seen) as [z | | |] eqn:Hl; try discriminate.
      assert (Hl' : and_loop (search_tree sp') ps seen = Ok z); [| rewrite Hl'; exact H].
      clear H. revert seen z Hl. induction IH as [| p ps Hp _ IH]; intros seen z Hl; [exact Hl |].
      cbn in *. destruct (search_tree sp p seen) as [y | | |] eqn:Hy; try discriminate. rewrite (Hp _ _ Hy). cbn [bind] in *.
      destruct (is_failure (get_result (fst y))); [exact Hl |].
      destruct (and_loop (search_tree sp) ps (snd y)) as [w | | |] eqn:Hw; try discriminate. rewrite (IH _ _ Hw). exact Hl.
    - cbn [search_tree] in *. destruct (search_tree sp l seen) as [y | | |] eqn:Hy; try discriminate. rewrite (IHl _ _ Hy). cbn [bind] in *.
      destruct (search_tree sp m (snd y)) as [w | | |] eqn:Hw; try discriminate. rewrite (IHm _ _ Hw). exact H.
    - cbn in *. auto.
  Qed.

  Lemma search_path_ok : (forall nd t, build E P es nd = Ok t -> build E P' es nd = Ok t) ->
    forall n nd why seen x, search_path E P es g n nd why seen = Ok x -> search_path E P' es g n nd why seen = Ok x.
  Proof.
    intros Hb n. induction n as [| n IH]; intros nd why seen x H; [discriminate |]. cbn [search_path] in *.
    destruct (node_id E nd) as [id | | |]; try discriminate. cbn [bind] in *.
    destruct (existsb (String.eqb id) seen); [exact H |].
    destruct (goal_found nd g) as [f | | |]; try discriminate. cbn [bind] in *.
    destruct (f || is_terminal nd); [exact H |].
    destruct (build E P es nd) as [t | | |] eqn:Ht; try discriminate. rewrite (Hb _ _ Ht). cbn [bind] in *.
    destruct (search_tree (search_path E P es g n) t (id :: seen)) as [y | | |] eqn:Hy; try discriminate.
    rewrite (search_tree_ok _ _ IH _ _ _ Hy). exact H.
  Qed.

  Variable Q : rnode -> Prop.
  Hypothesis HQ : forall nd t, Q nd -> build E P es nd = Ok t -> paths_in Q t.
  Hypothesis Hsame : forall nd, Q nd -> build E P' es nd = build E P es nd.

  Lemma two_path : forall n nd why seen, Q nd -> search_path E P' es g n nd why seen = search_path E P es g n nd why seen.
  Proof.
    intros n. induction n as [| n IH]; intros nd why seen Hq; [reflexivity |]. cbn [search_path].
    destruct (node_id E nd) as [id | | |]; try reflexivity. cbn [bind].
    destruct (existsb (String.eqb id) seen); [reflexivity |].
    destruct (goal_found nd g) as [f | | |]; try reflexivity. cbn [bind].
    destruct (f || is_terminal nd); [reflexivity |]. rewrite Hsame by exact Hq.
    destruct (build E P es nd) as [t | | |] eqn:Hb; try reflexivity. cbn [bind].
    rewrite (search_tree_same Q (search_path E P es g n)); [reflexivity | exact IH | eapply HQ; eauto].
  Qed.
End Two.

Lemma search_ok E P P' es n nd g t : (forall nd t, build E P es nd = Ok t -> build E P' es nd = Ok t) ->
  search E P es n nd g = Ok t -> search E P' es n nd g = Ok t.
Proof.
  intros Hb H. unfold search in *. destruct (search_path E P es g n nd "Request" []) as [x | | |] eqn:Hx; try discriminate.
  rewrite (search_path_ok E P P' es g Hb _ _ _ _ _ Hx). exact H.
Qed.

Lemma extended_build E P P' es : unique_decls P' -> extended E P P' -> forall nd t, build E P es nd = Ok t -> build E P' es nd = Ok t.
Proof.
  intros Hu He nd t Hb. destruct nd as [[e |] rel | o | rs |]; cbn [build handle_entity_set] in *; try discriminate; try exact Hb.
  destruct (lut_get_relation P (e_res e) rel) as [l |] eqn:Hl; try discriminate.
  destruct (get_expression_tree E l) as [tr | | |] eqn:Hg; try discriminate. cbn [bind] in Hb.
  assert (Hw : rewrites E P e rel tr) by (eapply node_rewrites; [exists l; eauto | exact Hb]).
  apply He in Hw. apply (rewrites_node E P' e rel tr Hu) in Hw as (l' & Hl' & Hg'). rewrite Hl', Hg'. exact Hb.
Qed.

Lemma reached_build E P P' es succ root : unique_decls P -> unique_decls P' ->
  (forall rs l, relation_of P rs l -> exists t, expression E l t) -> (forall rs l, relation_of P' rs l -> exists t, expression E l t) ->
  same_reached E P P' succ root -> forall nd, reach E P succ root nd -> build E P' es nd = build E P es nd.
Proof.
  intros Hu Hu' Hx Hx' Hs nd Hr. destruct nd as [[e |] rel | o | rs |]; try reflexivity. cbn [build handle_entity_set].
  assert (Hn : forall Q, unique_decls Q -> (forall rs l, relation_of Q rs l -> exists t, expression E l t) ->
    (exists l t, lut_get_relation Q (e_res e) rel = Some l /\ get_expression_tree E l = Ok t /\ rewrites E Q e rel t) \/
    (lut_get_relation Q (e_res e) rel = None /\ forall t, ~ rewrites E Q e rel t)).
  { intros Q HuQ HxQ. destruct (lut_get_relation Q (e_res e) rel) as [l |] eqn:Hl.
    - left. pose proof (lut_relation_some _ _ _ _ Hl) as [Hl' Hn]. destruct (HxQ _ _ Hl') as (t & Ht). exists l, t. split; [reflexivity |].
      split; [apply expression_get in Ht; apply Ht | exists l; auto].
    - right. split; [reflexivity |]. intros t Ht. apply (rewrites_node E Q e rel t HuQ) in Ht as (l & Hl' & _). congruence. }
  destruct (Hn P Hu Hx) as [(l & t & Hl & Hg & Hw) | [Hl Hno]]; destruct (Hn P' Hu' Hx') as [(l' & t' & Hl' & Hg' & Hw') | [Hl' Hno']]; rewrite Hl, Hl'; try reflexivity.
  - rewrite Hg, Hg'. cbn [bind]. assert (t = t') as -> by (eapply rewrites_unique; [exact Hu' | apply (Hs _ _ _ Hr); exact Hw | exact Hw']). reflexivity.
  - destruct (Hno' t). apply (Hs _ _ _ Hr). exact Hw.
  - destruct (Hno t'). apply (Hs _ _ _ Hr). exact Hw'.
Qed.

(** ** Requests before and after an update *)

Lemma update_known E s d app pid rec rec' : reachable E s ->
  answer E (QGetPolicy pid) s = Ok (APolicy (Some rec)) -> answer E (QUpdatePolicy d app) s = Ok AUpdated ->
  answer E (QGetPolicy pid) (after E (QUpdatePolicy d app) s) = Ok (APolicy (Some rec')) ->
  policies s pid = Some rec /\ policies (after E (QUpdatePolicy d app) s) pid = Some rec' /\
  edges_of pid (after E (QUpdatePolicy d app) s) = edges_of pid s /\
  well_formed E (pr_policy rec) /\ well_formed E (pr_policy rec').
Proof.
  intros H Hg Hu Hg'. rewrite answer_get_policy in Hg, Hg'. injection Hg as Hg. injection Hg' as Hg'. split; [exact Hg |]. split; [exact Hg' |].
  pose proof (reachable_ok _ _ H) as Hok. destruct (update_effect E d app s Hu) as (p & r & _ & _ & Hw & Hs).
  split; [rewrite Hs; reflexivity |]. split; [eapply so_policy; eauto |].
  rewrite Hs, policies_put in Hg'. unfold put in Hg'. destruct (String.eqb pid _) eqn:He.
  - injection Hg' as <-. exact Hw.
  - eapply so_policy; eauto.
Qed.

(** ** C74 Changes to a policy show only where a search can reach *)

(** What a search of the new policy answers is what it answered, when the relations that it reaches are unchanged. *)
Theorem C74_unreached : forall E s d app pid rec rec' root q, reachable E s ->
  answer E (QGetPolicy pid) s = Ok (APolicy (Some rec)) -> answer E (QUpdatePolicy d app) s = Ok AUpdated ->
  answer E (QGetPolicy pid) (after E (QUpdatePolicy d app) s) = Ok (APolicy (Some rec')) ->
  same_reached E (pr_policy rec) (pr_policy rec') (key_subject E (relationships s pid)) root ->
  search_request pid root q -> answer E q (after E (QUpdatePolicy d app) s) = answer E q s.
Proof.
  intros E s d app pid rec rec' root q H Hg Hu Hg' Hs Hq.
  destruct (update_known E s d app pid rec rec' H Hg Hu Hg') as (Hp & Hp' & He & Hw & Hw').
  assert (Hsame : forall n g, search E (pr_policy rec') (edges_of pid s) n root g = search E (pr_policy rec) (edges_of pid s) n root g).
  { intros n g. unfold search. rewrite (two_path E (pr_policy rec) (pr_policy rec') (edges_of pid s) g (reach E (pr_policy rec) (key_subject E (relationships s pid)) root)); [reflexivity | | | constructor].
    - apply reach_build; [apply stored_edges, reachable_ok, H |]. intros rs l Hl. destruct (wf_expressions _ _ Hw rs l Hl) as (t & Ht & _). eauto.
    - apply reached_build; [exact (wf_unique _ _ Hw) | exact (wf_unique _ _ Hw') | | | exact Hs]; intros rs l Hl.
      + destruct (wf_expressions _ _ Hw rs l Hl) as (t & Ht & _). eauto.
      + destruct (wf_expressions _ _ Hw' rs l Hl) as (t & Ht & _). eauto. }
  destruct Hq as [n o rel a | n o rel a f | n root f].
  - rewrite !answer_check. unfold check_tree. rewrite Hp, Hp', He, Hsame. reflexivity.
  - rewrite !answer_explain. unfold check_tree. rewrite Hp, Hp', He, Hsame. reflexivity.
  - rewrite !answer_expand, Hp, Hp', He, Hsame. reflexivity.
Qed.

(** Whatever was answered is answered again by every extension of the policy: decisions, explanations, expansions. *)
Theorem C74_extended : forall E s d app pid rec rec' root q r, reachable E s ->
  answer E (QGetPolicy pid) s = Ok (APolicy (Some rec)) -> answer E (QUpdatePolicy d app) s = Ok AUpdated ->
  answer E (QGetPolicy pid) (after E (QUpdatePolicy d app) s) = Ok (APolicy (Some rec')) ->
  extended E (pr_policy rec) (pr_policy rec') ->
  search_request pid root q -> answer E q s = Ok r -> answer E q (after E (QUpdatePolicy d app) s) = Ok r.
Proof.
  intros E s d app pid rec rec' root q r H Hg Hu Hg' Hs Hq Hr.
  destruct (update_known E s d app pid rec rec' H Hg Hu Hg') as (Hp & Hp' & He & Hw & Hw').
  assert (Hok : forall n g t, search E (pr_policy rec) (edges_of pid s) n root g = Ok t -> search E (pr_policy rec') (edges_of pid s) n root g = Ok t).
  { intros n g t. apply search_ok. apply extended_build; [exact (wf_unique _ _ Hw') | exact Hs]. }
  destruct Hq as [n o rel a | n o rel a f | n root f].
  - rewrite answer_check in *. unfold check_tree in *. rewrite Hp in Hr. rewrite Hp', He.
    destruct (search E (pr_policy rec) _ n _ _) as [t | | |] eqn:Ht; try discriminate. rewrite (Hok _ _ _ Ht). exact Hr.
  - rewrite answer_explain in *. unfold check_tree in *. rewrite Hp in Hr. rewrite Hp', He. destruct (serializer_factory f); try discriminate. cbn [bind] in *.
    destruct (search E (pr_policy rec) _ n _ _) as [t | | |] eqn:Ht; try discriminate. rewrite (Hok _ _ _ Ht). exact Hr.
  - rewrite answer_expand in *. rewrite Hp in Hr. rewrite Hp', He. destruct (serializer_factory f); try discriminate. cbn [bind] in *.
    destruct (search E (pr_policy rec) _ n _ _) as [t | | |] eqn:Ht; try discriminate. rewrite (Hok _ _ _ Ht). exact Hr.
Qed.

(** ** C75 Widening a rule never revokes access: false with intersections *)

(** Union policies.  Missing: new policies with intersections. *)
Theorem C75_widened_partial : forall E s d app pid rec rec' n n' o rel a b, reachable E s ->
  answer E (QGetPolicy pid) s = Ok (APolicy (Some rec)) -> answer E (QUpdatePolicy d app) s = Ok AUpdated ->
  answer E (QGetPolicy pid) (after E (QUpdatePolicy d app) s) = Ok (APolicy (Some rec')) ->
  ~ policy_uses E (pr_policy rec) OpDiff -> union_only E (pr_policy rec') -> keeps_rules E (pr_policy rec) (pr_policy rec') ->
  distinct_ids E (pr_policy rec') (key_subject E (relationships s pid)) (NSet (Some o) rel) ->
  answer E (QCheck n pid (asks o rel a)) s = Ok (ADecision true) ->
  answer E (QCheck n' pid (asks o rel a)) (after E (QUpdatePolicy d app) s) = Ok (ADecision b) -> b = true.
Proof.
  intros E s d app pid rec rec' n n' o rel a b H Hg Hu Hg' Hd Hun Hk Hid Hc Hc'.
  destruct (update_known E s d app pid rec rec' H Hg Hu Hg') as (Hp & Hp' & He & Hw & Hw').
  assert (Hrel : relationships (after E (QUpdatePolicy d app) s) pid = relationships s pid).
  { destruct (update_effect E d app s Hu) as (p & r & _ & _ & _ & Hs). rewrite Hs. reflexivity. }
  assert (H' : reachable E (after E (QUpdatePolicy d app) s)) by (apply reachable_after; exact H).
  apply (C26_decides_by_key E _ pid rec' n' o rel a b H' Hg' Hun); [rewrite Hrel; exact Hid | exact Hc' |]. rewrite Hrel.
  pose proof (C25_authorised_by_key E s pid rec n o rel a H Hg Hd Hc) as Hm.
  intros M HM. apply Hm. intros o1 rel1 t Ht Hev.
  assert (Hocc : exists ru, occurs ru t /\ eval (key_subject E (relationships s pid)) a M o1 rel1 (TRule ru)).
  { assert (Hnd : ~ uses OpDiff t) by (intros Hx; apply Hd; destruct Ht as (l & Hl & _ & Hxl); exists (e_res o1), l, t; auto). clear -Hev Hnd.
    induction t as [| | r | l IHl op r IHr]; try destruct Hev.
    - exists r. split; [constructor | exact Hev].
    - assert (Hl : ~ uses OpDiff l) by (intros Hx; apply Hnd, us_left, Hx). assert (Hr : ~ uses OpDiff r) by (intros Hx; apply Hnd, us_right, Hx).
      destruct op; cbn in Hev; try contradiction.
      + destruct Hev as [Hev | Hev]; [destruct (IHl Hev Hl) as (ru & Ho & Hx) | destruct (IHr Hev Hr) as (ru & Ho & Hx)]; exists ru; (split; [| exact Hx]); [apply occ_left | apply occ_right]; exact Ho.
      + destruct (IHl (proj1 Hev) Hl) as (ru & Ho & Hx). exists ru. split; [apply occ_left; exact Ho | exact Hx].
      + destruct Hnd. constructor. }
  destruct Hocc as (ru & Ho & Hru). destruct (Hk _ _ _ _ Ht Ho) as (t' & Ht' & Ho').
  apply (HM o1 rel1 t' Ht'). apply union_eval; [exact (union_rewrites E _ _ _ _ Hun Ht') | eauto].
Qed.

Definition narrow : tree := TOp (TRule (RCu "direct")) OpInter (TRule (RCu "all")).
Definition wide : tree := TOp (TOp (TRule (RCu "all")) OpUnion (TRule (RCu "direct"))) OpInter (TRule (RCu "all")).

(** [direct & all] authorises bob; [(all + direct) & all] does not. *)
Theorem C75_widened_refuted : forall E, collision_free E -> exists s d rec rec' q, sequential E s /\
  answer E (QGetPolicy "p") s = Ok (APolicy (Some rec)) /\ answer E (QUpdatePolicy d "") s = Ok AUpdated /\
  answer E (QGetPolicy "p") (after E (QUpdatePolicy d "") s) = Ok (APolicy (Some rec')) /\
  widened_policy E (pr_policy rec) (pr_policy rec') /\
  (exists n o rel a, q = QCheck n "p" (asks o rel a)) /\
  answer E q s = Ok (ADecision true) /\ answer E q (after E (QUpdatePolicy d "") s) = Ok (ADecision false).
Proof.
  intros E Hc. exists (order_store E narrow), (Some (DPolicy (order_policy wide))), (mkPRec (order_policy narrow) "" 1%N),
    (mkPRec (order_policy wide) "" 1%N), (asked (ent "file" "1") "both" (ent "user" "bob")).
  assert (Hn : forall x y, x <> y -> String.eqb (sha E x) (sha E y) = false).
  { intros x y Hxy. apply String.eqb_neq. intros H. apply Hc in H. contradiction. }
  split; [eexists; reflexivity |]. split; [reflexivity |]. split; [reflexivity |]. split; [reflexivity |]. split; [| split; [do 4 eexists; reflexivity |]].
  - intros o rel t Ht. apply order_rewrites in Ht as [Ho [[-> ->] | [Hrel ->]]]; [| | repeat constructor].
    + exists wide. split; [apply order_rewrites_back; [repeat constructor | exact Ho | auto] | apply wd_inter; constructor].
    + exists (TRule RThis). split; [apply order_rewrites_back; [repeat constructor | exact Ho | auto] | constructor].
  - split; unfold asked, asks; rewrite answer_check; unfold check_tree.
    + assert (policies (order_store E narrow) "p" = Some (mkPRec (order_policy narrow) "" 1%N)) as -> by reflexivity.
      cbn. by_order Hc; settle Hn E; reflexivity.
    + assert (policies (after E (QUpdatePolicy (Some (DPolicy (order_policy wide))) "") (order_store E narrow)) "p" = Some (mkPRec (order_policy wide) "" 1%N)) as -> by reflexivity.
      cbn. by_order Hc; settle Hn E; reflexivity.
Qed.

(** The fixture policy with one more resource and one more relation of files. *)
Definition bigger : policy :=
  mkPolicy "p" "n" "d"
    [ rs "robot" [rl "operator" (XExpr "_this") SRUniversal];
      rs "user" [];
      rs "group" [rl "member" (XTree (TRule RThis)) (SRSet [REntity "user"; REntitySet "group" "member"])];
      rs "folder" [rl "viewer" (XExpr "_this") SRUniversal];
      rs "file" [rl "auditor" (XExpr "_this & reader") SRUniversal;
                 rl "owner" (XExpr "_this") (SRSet [REntity "user"]);
                 rl "parent" (XExpr "_this") (SRSet [REntity "folder"]);
                 rl "reader" (XExpr "_this + owner + parent->viewer") SRUniversal] ] [].

Definition small_store : store := after_all E0 [create "p"; set "p" (tup "file" "1" "owner" (user "bob"))] empty_store.
Definition grow : request := QUpdatePolicy (Some (DPolicy bigger)) "app".

Lemma bigger_extends : extended E0 (pol "p") bigger.
Proof.
  intros o rel t (l & (r & Hr & Hn & Hl) & Hrel & Hx). exists l. split; [| auto].
  cbn in Hr. destruct Hr as [<- | [<- | [<- | [<- | []]]]]; cbn in Hn, Hl.
  - destruct Hl.
  - eexists. split; [right; right; left; reflexivity | auto].
  - eexists. split; [do 3 right; left; reflexivity | auto].
  - eexists. split; [do 4 right; left; reflexivity |]. split; [exact Hn | right; exact Hl].
Qed.

(** Decisions stay; a question about the new relation had no answer and has one now. *)
Example C74_example :
  answer E0 grow small_store = Ok AUpdated /\ extended E0 (pol "p") bigger /\
  (forall u b, In (u, b) [("bob", true); ("eve", false)] ->
     answer E0 (QCheck 20 "p" (asks (ent "file" "1") "reader" (ent "user" u))) small_store = Ok (ADecision b) /\
     answer E0 (QCheck 20 "p" (asks (ent "file" "1") "reader" (ent "user" u))) (after E0 grow small_store) = Ok (ADecision b)) /\
  answer E0 (QCheck 20 "p" (asks (ent "file" "1") "auditor" (ent "user" "bob"))) small_store = Err ERelationNotFound /\
  answer E0 (QCheck 20 "p" (asks (ent "file" "1") "auditor" (ent "user" "bob"))) (after E0 grow small_store) = Ok (ADecision false).
Proof.
  split; [vm_compute; reflexivity |]. split; [apply bigger_extends |]. split; [| split; vm_compute; reflexivity].
  intros u b [[= <- <-] | [[= <- <-] | []]]; split; vm_compute; reflexivity.
Qed.

(** [direct] widened to [direct + all] admits eve and keeps bob. *)
Example C75_example :
  let s := order_store E0 (TRule (RCu "direct")) in let up := QUpdatePolicy (Some (DPolicy (order_policy direct_or_all))) "" in
  answer E0 up s = Ok AUpdated /\
  keeps_rules E0 (order_policy (TRule (RCu "direct"))) (order_policy direct_or_all) /\
  answer E0 (asked (ent "file" "1") "both" (ent "user" "bob")) s = Ok (ADecision true) /\
  answer E0 (asked (ent "file" "1") "both" (ent "user" "eve")) s = Ok (ADecision false) /\
  (forall u, In u ["bob"; "eve"] -> answer E0 (asked (ent "file" "1") "both" (ent "user" u)) (after E0 up s) = Ok (ADecision true)).
Proof.
  cbv zeta. split; [vm_compute; reflexivity |]. split.
  - intros o rel t ru Ht Ho. apply order_rewrites in Ht as [Hf [[-> ->] | [Hrel ->]]]; [| | repeat constructor].
    + exists direct_or_all. split; [apply order_rewrites_back; [repeat constructor | exact Hf | auto] | apply occ_left; exact Ho].
    + exists (TRule RThis). split; [apply order_rewrites_back; [repeat constructor | exact Hf | auto] | exact Ho].
  - split; [vm_compute; reflexivity |]. split; [vm_compute; reflexivity |].
    intros u [<- | [<- | []]]; vm_compute; reflexivity.
Qed.

Print Assumptions C74_unreached.
Print Assumptions C74_extended.
Print Assumptions C75_widened_partial.
Print Assumptions C75_widened_refuted.
