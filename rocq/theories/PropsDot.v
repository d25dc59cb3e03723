(** Properties of DOT output: C54 and C55. *)
From Verif Require Import Base Domain Lexer Parser Validate Store Search Explain Yaml Service Dump Api
  SpecGrammar SpecPolicy SpecStore SpecSearch SpecDot SpecDump Fixtures BaseFacts ParserFacts ValidateFacts StoreFacts PolicyFacts RelFacts
  SearchFacts SearchSem SearchTerm SearchExplain GraphFacts NameFacts DotFacts DumpFacts PropsStore PropsSearch PropsExplain PropsDump.

(** ** C54 The DOT explanation is the search tree *)

Lemma explained_dot E n pid a s b t : answer E (QExplainCheck n pid a FDot) s = Ok (AExplained b t) ->
  (exists l, goal_dot t = Ok l) /\ b = is_success (get_result t).
Proof.
  destruct a as [[o rel a] |].
  - rewrite answer_explain. cbn [serializer_factory bind serialize]. intros H. apply bind_ok in H as (t' & _ & H).
    apply bind_ok in H as (x & Hx & H). injection H as <- <-. apply bind_ok in Hx as (l & Hl & _). eauto.
  - unfold answer. cbn. destruct (kv_get scmp pid (st_pol s)); discriminate.
Qed.

Lemma expanded_dot E n pid root s t : answer E (QExpand n pid root FDot) s = Ok (AExpanded t) -> exists l, goal_dot t = Ok l.
Proof.
  destruct root as [nd |].
  - rewrite answer_expand. cbn [serializer_factory bind serialize]. destruct (policies s pid); [| discriminate].
    intros H. apply bind_ok in H as (t' & _ & H). apply bind_ok in H as (x & Hx & H). injection H as <-. apply bind_ok in Hx as (l & Hl & _). eauto.
  - unfold answer. cbn. destruct (kv_get scmp pid (st_pol s)); discriminate.
Qed.

(** The statements name one node per object of the tree and one for the root, have one edge to each object, and
    read from the root they are the tree with its labels. *)
Theorem C54_explanation : forall E n pid a s b t, answer E (QExplainCheck n pid a FDot) s = Ok (AExplained b t) ->
  exists l r, goal_dot t = Ok l /\ NoDup (node_names l) /\ length (node_names l) = S (size t) /\ length (edge_sources l) = size t /\
    depicts l "root" (Rose None [r]) /\ portrays t r.
Proof.
  intros E n pid a s b t H. apply explained_dot in H as [[l Hl] _]. destruct (goal_dot_depicts t l Hl) as (H1 & H2 & H3 & r & H4 & H5).
  exists l, r. auto 10.
Qed.

Theorem C54_expansion : forall E n pid root s t, answer E (QExpand n pid root FDot) s = Ok (AExpanded t) ->
  exists l r, goal_dot t = Ok l /\ NoDup (node_names l) /\ length (node_names l) = S (size t) /\ length (edge_sources l) = size t /\
    depicts l "root" (Rose None [r]) /\ portrays t r.
Proof.
  intros E n pid root s t H. apply expanded_dot in H as [l Hl]. destruct (goal_dot_depicts t l Hl) as (H1 & H2 & H3 & r & H4 & H5).
  exists l, r. auto 10.
Qed.

(** The label below the root says what was decided. *)
Theorem C54_decision : forall E n pid a s b t l, answer E (QExplainCheck n pid a FDot) s = Ok (AExplained b t) -> goal_dot t = Ok l ->
  exists id lab, targets_of l "root" = [id] /\ labels_of l id = [Some lab] /\
    (b = true <-> exists before, lab = before +++ "result: SUCCESS" +++ quote).
Proof.
  intros E n pid a s b t l H Hl. apply explained_dot in H as [_ ->]. destruct (goal_dot_depicts t l Hl) as (_ & _ & _ & r & Hp & Hd).
  inversion Hd as [? ? ? _ Ha]; subst. inversion Ha as [| id is ? ? Hr Hnil Hq]; subst. inversion Hnil; subst.
  inversion Hp as [? lab rs Hlab _]; subst. inversion Hr as [? ? ? Hlo _]; subst. exists id, lab. split; [auto |]. split; [exact Hlo |].
  apply label_split in Hlab as (h & Hh & ->). rewrite is_success_iff.
  assert (Hend : exists h', h = h' +++ "result: ").
  { destruct t as [q ps | q ps | q x y | q m p why]; cbn [label_head] in Hh.
    - exists ("ORNode" +++ newline). apply ok_same in Hh. subst h. reflexivity.
    - exists ("ANDNode" +++ newline). apply ok_same in Hh. subst h. reflexivity.
    - exists ("DifferenceNode" +++ newline). apply ok_same in Hh. subst h. reflexivity.
    - destruct (pretty m) as [w | | |]; try discriminate. cbn [bind] in Hh. apply ok_same in Hh. subst h.
      exists ("PathNode" +++ newline +++ "relation node: " +++ w +++ newline +++ "reason: " +++ why +++ newline). rewrite !append_assoc. reflexivity. }
  destruct Hend as [h' ->]. split.
  - intros ->. exists (quote +++ h'). rewrite !append_assoc. reflexivity.
  - intros [before Hb]. replace (before +++ "result: SUCCESS" +++ quote) with ((before +++ "result: ") +++ "SUCCESS" +++ quote) in Hb by (rewrite !append_assoc; reflexivity).
    rewrite <- append_assoc in Hb. apply append_same_length in Hb as [_ Hb]; [| apply (result_text_length _ RSuccess)].
    apply append_same_length in Hb as [Hb _]; [| reflexivity]. apply result_text_inj. exact Hb.
Qed.

(** Equal statements come from trees with the same objects and results, whatever the stores and requests. *)
Theorem C54_determines : forall E n pid a s b t E' n' pid' a' s' b' t',
  answer E (QExplainCheck n pid a FDot) s = Ok (AExplained b t) ->
  answer E' (QExplainCheck n' pid' a' FDot) s' = Ok (AExplained b' t') ->
  goal_dot t = goal_dot t' -> alike t t' /\ b = b'.
Proof.
  intros E n pid a s b t E' n' pid' a' s' b' t' H H' Hq. apply explained_dot in H as [[l Hl] ->]. apply explained_dot in H' as [[l' Hl'] ->].
  rewrite Hl, Hl' in Hq. injection Hq as <-. destruct (goal_dot_depicts t l Hl) as (_ & _ & _ & r & Hp & Hd).
  destruct (goal_dot_depicts t' l Hl') as (_ & _ & _ & r' & Hp' & Hd'). pose proof (proj1 (depicts_unique l) _ _ Hd _ Hd') as Hr. injection Hr as <-.
  pose proof (portrays_alike _ _ _ Hp Hp') as Ha. split; [exact Ha |]. inversion Ha as [? ? _ Hres _]; subst. rewrite Hres. reflexivity.
Qed.

(** With names that can be told apart the trees are equal. *)
Theorem C54_determines_names : forall t t' l, goal_dot t = Ok l -> goal_dot t' = Ok l -> legible_tree t -> legible_tree t' -> t = t'.
Proof.
  intros t t' l Hl Hl' Hg Hg'. destruct (goal_dot_depicts t l Hl) as (_ & _ & _ & r & Hp & Hd).
  destruct (goal_dot_depicts t' l Hl') as (_ & _ & _ & r' & Hp' & Hd'). pose proof (proj1 (depicts_unique l) _ _ Hd _ Hd') as Hr. injection Hr as <-.
  eapply portrays_same; eauto.
Qed.

(** The group check of C24: the statements in full. *)
Example C54_example : exists t,
  answer E0 (QExplainCheck 20 "p" (asks (ent "group" "b") "member" (ent "user" "bob")) FDot) cyclic_store = Ok (AExplained true t) /\
  goal_dot t = Ok
    [GNode "root" None;
     GNode (wrap_quotes "0") (Some (wrap_quotes ("PathNode" +++ newline +++ "relation node: (group:b, member)" +++ newline +++ "reason: Request" +++ newline +++ "result: SUCCESS")));
     GEdge "root" (wrap_quotes "0");
     GNode (wrap_quotes "1") (Some (wrap_quotes ("ORNode" +++ newline +++ "result: SUCCESS")));
     GEdge (wrap_quotes "0") (wrap_quotes "1");
     GNode (wrap_quotes "2") (Some (wrap_quotes ("PathNode" +++ newline +++ "relation node: (group:a, member)" +++ newline +++ "reason: Rule This" +++ newline +++ "result: FAILURE")));
     GEdge (wrap_quotes "1") (wrap_quotes "2");
     GNode (wrap_quotes "3") (Some (wrap_quotes ("ORNode" +++ newline +++ "result: FAILURE")));
     GEdge (wrap_quotes "2") (wrap_quotes "3");
     GNode (wrap_quotes "4") (Some (wrap_quotes ("PathNode" +++ newline +++ "relation node: (group:b, member)" +++ newline +++ "reason: Rule This" +++ newline +++ "result: UNKNOWN")));
     GEdge (wrap_quotes "3") (wrap_quotes "4");
     GNode (wrap_quotes "5") (Some (wrap_quotes ("PathNode" +++ newline +++ "relation node: (user:bob)" +++ newline +++ "reason: Rule This" +++ newline +++ "result: SUCCESS")));
     GEdge (wrap_quotes "1") (wrap_quotes "5")].
Proof. eexists. split; vm_compute; reflexivity. Qed.

(** Without that, different nodes look the same: all users and the user called "*". *)
Example C54_example_star : pretty (NWild "user") = pretty (NEntity (Some (ent "user" "*"))).
Proof. reflexivity. Qed.

(** ** C55 Labels are DOT strings *)

Lemma quoted_label h r : lacks dquote h -> dot_string (quote +++ h +++ result_text r +++ quote).
Proof.
  intros Hh. exists (h +++ result_text r). split; [rewrite append_assoc; reflexivity |].
  assert (Hr : exists w c, result_text r = w +++ String c "" /\ lacks dquote w /\ c <> dquote /\ c <> backslash).
  { destruct r; [exists "UNKNOW"%string, "N"%char | exists "SUCCES"%string, "S"%char | exists "FAILUR"%string, "E"%char];
      (split; [reflexivity |]); cbn; repeat split; discriminate. }
  destruct Hr as (w & c & -> & Hw & H1 & H2). rewrite <- append_assoc. apply body_end; [| exact H1 | exact H2].
  apply lacks_append. auto.
Qed.

Lemma decimal_plain u : lacks dquote (DecimalString.NilEmpty.string_of_uint u) /\ lacks backslash (DecimalString.NilEmpty.string_of_uint u).
Proof. induction u; cbn [DecimalString.NilEmpty.string_of_uint lacks]; repeat split; try discriminate; tauto. Qed.

Lemma quoted_id c : dot_string (goal_id c).
Proof. exists (DecimalString.NilEmpty.string_of_uint (Nat.to_uint c)). split; [reflexivity |]. apply body_plain; apply decimal_plain. Qed.

Lemma labels_quoted t : (forall r n p why, within (GPath r n p why) t -> unquoted n /\ lacks dquote why) ->
  forall parent c l c', dot_goal parent t c = Ok (l, c') -> forall id lab, In (GNode id lab) l ->
  dot_string id /\ exists s, lab = Some s /\ dot_string s.
Proof.
  induction t as [t IH] using gtree_children_ind. intros Hu parent c l c' H id lab Hin. rewrite dot_goal_eq in H.
  apply bind_ok in H as (la & Hl & H). apply bind_ok in H as ([l1 c1] & H1 & H). cbn [fst snd] in H. injection H as <- <-.
  destruct Hin as [Hin | [Hin | Hin]]; [| discriminate |].
  - injection Hin as <- <-. split; [apply quoted_id |]. exists la. split; [reflexivity |].
    apply label_split in Hl as (h & Hh & ->). apply quoted_label. destruct t as [r ps | r ps | r x y | r n p why]; cbn [label_head] in Hh.
    1-3: apply ok_same in Hh; subst h; cbn; repeat split; discriminate.
    destruct (pretty n) as [w | | |] eqn:Hw; try discriminate. cbn [bind] in Hh. apply ok_same in Hh. subst h.
    destruct (Hu r n p why (wi_here _)) as [U1 U2]. apply unquoted_pretty in Hw; [| exact U1].
    repeat (apply lacks_append; split); try assumption; cbn; repeat split; discriminate.
  - assert (Hc : forall x, In x (children t) -> forall r n p why, within (GPath r n p why) x -> unquoted n /\ lacks dquote why).
    { intros x Hx r n p why Hw. apply (Hu r n p why). destruct t as [q ps | q ps | q a b | q m [y |] w]; cbn in Hx.
      - eapply wi_or; eauto.
      - eapply wi_and; eauto.
      - destruct Hx as [<- | [<- | []]]; [apply wi_left | apply wi_right]; assumption.
      - destruct Hx as [<- | []]. apply wi_path. exact Hw.
      - destruct Hx. }
    clear Hu Hl. revert H1 Hin. generalize (S c). generalize (goal_id c). revert l1 c1.
    induction (children t) as [| x xs IHx]; intros l1 c1 i k H1 Hin; cbn [dot_loop] in H1.
    + injection H1 as <- <-. destruct Hin.
    + fold (dot_loop (dot_goal i)) in H1. apply bind_ok in H1 as ([la1 ca] & Ha & H1). apply bind_ok in H1 as ([lb cb] & Hb & H1).
      cbn [fst snd] in *. injection H1 as <- <-. apply in_app_iff in Hin as [Hin | Hin].
      * eapply IH; [left; reflexivity | apply Hc; left; reflexivity | exact Ha | exact Hin].
      * eapply IHx; [intros y Hy; apply IH; right; exact Hy | intros y Hy; apply Hc; right; exact Hy | exact Hb | exact Hin].
Qed.

(** Missing: names and reasons with quotes. *)
Theorem C55_explanation_partial : forall t l id lab, goal_dot t = Ok l ->
  (forall r n p why, within (GPath r n p why) t -> unquoted n /\ lacks dquote why) ->
  In (GNode id lab) l -> (id = "root" /\ lab = None) \/ (dot_string id /\ exists s, lab = Some s /\ dot_string s).
Proof.
  intros t l id lab H Hu Hin. unfold goal_dot in H. apply bind_ok in H as ([l1 c1] & H1 & H). cbn [fst snd] in H. injection H as <-.
  destruct Hin as [Hin | Hin]; [injection Hin as <- <-; auto |]. right. eapply labels_quoted; eauto.
Qed.

Theorem C55_dump_partial : forall E s pid rec n l id nd, reachable E s ->
  answer E (QGetPolicy pid) s = Ok (APolicy (Some rec)) ->
  answer E (QDumpRelationships n pid true) s = Ok (ADumped l) -> In (DotNode id nd) l ->
  (forall x, nd = Some x -> unquoted x) -> exists lab, dump_label nd = Ok lab /\ dot_string lab.
Proof.
  intros E s pid rec n l id nd H Hp Ha Hin Hu. apply reachable_ok in H.
  destruct (answer_dump E n pid s rec H Hp) as (L & x & HL & _ & _ & Hw & Hans). rewrite Hans in Ha.
  destruct (dump_dot n x) as [l' | | |] eqn:Hd; try discriminate. injection Ha as ->.
  destruct (dump_labels E _ L n x l HL Hw Hd id nd Hin) as [[-> ->] | (y & i & -> & -> & _ & Hy)].
  - eexists. split; [reflexivity |]. exists "root"%string. split; [reflexivity |]. apply body_plain; cbn; repeat split; discriminate.
  - specialize (Hu y eq_refl). destruct (proj1 (pretty_object y)) as [p Hpy]; [destruct y as [[] | [] | |]; cbn in *; try exact Logic.I; discriminate |].
    cbn [dump_label]. rewrite Hpy. eexists. split; [reflexivity |]. exists p. split; [reflexivity |].
    assert (Hend : exists w, p = w +++ ")").
    { destruct y as [[o |] rel | [o |] | rs |]; cbn [pretty] in Hpy; try discriminate; apply ok_same in Hpy; subst p.
      - exists ("(" +++ e_res o +++ ":" +++ e_id o +++ (if String.eqb rel "" then "" else ", " +++ rel)). rewrite !append_assoc. reflexivity.
      - exists ("(" +++ e_res o +++ ":" +++ e_id o). rewrite !append_assoc. reflexivity.
      - exists ("(" +++ rs +++ ":*"). rewrite !append_assoc. reflexivity.
      - exists "(:"%string. reflexivity. }
    destruct Hend as [w ->]. apply unquoted_pretty in Hpy; [| exact Hu]. apply lacks_append in Hpy as [Hpy _].
    apply body_end; [exact Hpy | discriminate | discriminate].
Qed.

(** The user with a quote in their id can be a member of a group; the labels that show them are no DOT strings. *)
Definition quoted_user : subject := user ("x" +++ quote +++ "y").
Definition quoted_store : store := after_all E0 [create "p"; set "p" (tup "group" "g" "member" quoted_user)] empty_store.

Lemma stray_quote a b : lacks backslash a -> lacks dquote a -> ~ dot_string (quote +++ a +++ quote +++ b +++ quote).
Proof.
  intros Hb Hq (s & Hs & H). apply append_inj in Hs. replace (a +++ quote +++ b +++ quote) with ((a +++ quote +++ b) +++ quote) in Hs by (rewrite !append_assoc; reflexivity).
  apply append_same_length in Hs as [<- _]; [| reflexivity]. revert H. induction a as [| c a IH]; cbn.
  - intros H. apply body_head in H. apply H. reflexivity.
  - destruct Hb as [Hb1 Hb2], Hq as [Hq1 Hq2]. intros H. inversion H; subst; [| contradiction Hb1; reflexivity]. apply IH; auto.
Qed.

Theorem C55_refuted : exists s, sequential E0 s /\
  (exists t l id lab, answer E0 (QExplainCheck 20 "p" (asks (ent "group" "g") "member" (ent "user" ("x" +++ quote +++ "y"))) FDot) s = Ok (AExplained true t) /\
     goal_dot t = Ok l /\ In (GNode id (Some lab)) l /\ ~ dot_string lab) /\
  (exists l id nd lab, answer E0 (QDumpRelationships 20 "p" true) s = Ok (ADumped l) /\ In (DotNode id nd) l /\ dump_label nd = Ok lab /\ ~ dot_string lab).
Proof.
  exists quoted_store. split; [eexists; reflexivity |]. split.
  - do 4 eexists. split; [vm_compute; reflexivity |]. split; [vm_compute; reflexivity |]. split; [do 5 right; left; reflexivity |].
    apply (stray_quote ("PathNode" +++ newline +++ "relation node: (user:x")
             ("y)" +++ newline +++ "reason: Rule This" +++ newline +++ "result: SUCCESS")); cbn; repeat split; discriminate.
  - do 4 eexists. split; [vm_compute; reflexivity |]. split; [do 3 right; left; reflexivity |]. split; [reflexivity |].
    apply (stray_quote "(user:x" "y)"); cbn; repeat split; discriminate.
Qed.

(** The labels of C54_example are DOT strings. *)
Example C55_example : dot_string (wrap_quotes ("ORNode" +++ newline +++ "result: SUCCESS")).
Proof. apply (quoted_label ("ORNode" +++ newline +++ "result: ") RSuccess). cbn. repeat split; discriminate. Qed.

Print Assumptions C54_explanation.
Print Assumptions C54_expansion.
Print Assumptions C54_decision.
Print Assumptions C54_determines.
Print Assumptions C54_determines_names.
Print Assumptions C55_explanation_partial.
Print Assumptions C55_dump_partial.
Print Assumptions C55_refuted.
