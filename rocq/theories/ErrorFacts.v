(** Errors and their causes. *)
From Verif Require Import Base Domain Lexer Parser Validate Store Search Explain Yaml Service Dump Api
  SpecGrammar SpecPolicy SpecStore SpecSearch SpecErrors BaseFacts LexerFacts ParserFacts ValidateFacts StoreFacts PolicyFacts RelFacts
  SearchFacts SearchSem SearchTerm SearchExplain GraphFacts DumpFacts.

Lemma bind_err {A B} (x : res A) (f : A -> res B) e : bind x f = Err e ->
  x = Err e \/ exists a, x = Ok a /\ f a = Err e.
Proof. destruct x; cbn; intros H; try discriminate; [eauto |]. injection H as <-. auto. Qed.

Lemma for_each_err {A} (f : A -> res unit) l e : for_each f l = Err e -> exists x, In x l /\ f x = Err e.
Proof.
  induction l as [| a l IH]; cbn; [discriminate |]. intros H. apply bind_err in H as [H | (u & _ & H)].
  - exists a. auto.
  - destruct (IH H) as (x & Hx & He). exists x. auto.
Qed.

Lemma map_res_err {A B} (f : A -> res B) l e : map_res f l = Err e -> exists x, In x l /\ f x = Err e.
Proof.
  induction l as [| a l IH]; cbn; [discriminate |]. intros H. apply bind_err in H as [H | (b & _ & H)].
  - exists a. auto.
  - apply bind_err in H as [H | (bs & _ & H)]; [| discriminate]. destruct (IH H) as (x & Hx & He). exists x. auto.
Qed.

(** ** The parser has one error *)

Definition says {A} (e : err) (x : res A) : Prop := forall e', x = Err e' -> e' = e.

Lemma says_bind {A B} e (x : res A) (f : A -> res B) : says e x -> (forall a, says e (f a)) -> says e (bind x f).
Proof. intros Hx Hf e' H. apply bind_err in H as [H | (a & _ & H)]; [apply Hx; exact H | apply (Hf a); exact H]. Qed.

Lemma says_ok {A} e (a : A) : says e (Ok a).
Proof. intros e' [=]. Qed.

Lemma says_err {A} e : says e (Err e : res A).
Proof. intros e' [= <-]. reflexivity. Qed.

Lemma first_says {T} (ps : list (p_fn T)) ts : says EParse (first_p ps ts).
Proof.
  induction ps as [| p ps IH]; destruct ts as [| k ts]; cbn [first_p]; try apply says_err.
  destruct (p (k :: ts)) eqn:Hp; intros e' H; try discriminate. apply IH. exact H.
Qed.

Lemma many_says {T} (p : p_fn T) : forall n ts, says EParse (many_p n p ts).
Proof.
  induction n as [| n IH]; intros ts e'; cbn [many_p]; [discriminate |].
  destruct (p ts) as [[x r] | | |]; try discriminate. apply says_bind; [apply IH | intros; apply says_ok].
Qed.

Lemma expr_says n ts : says EParse (expr_p n ts).
Proof.
  destruct n as [| n]; [intros e' [=] |]. cbn [expr_p]. apply says_bind; [apply first_says |].
  intros h. apply says_bind; [apply many_says |]. intros. apply says_ok.
Qed.

Lemma parse_says E x e : parse E x = Err e -> e = EParse.
Proof.
  unfold parse, lex. destruct (scan_no_fuel E (S (String.length x)) x) as [ts ->]; [apply PeanoNat.Nat.lt_succ_diag_r |].
  cbn [bind]. revert e. change (says EParse (parse_tokens ts)). unfold parse_tokens.
  destruct (is_error (last ts KEof)); [apply says_err |]. apply says_bind; [apply expr_says |].
  intros h. destruct (skip_eof (snd h)); [apply says_ok | apply says_err].
Qed.

(** ** Policies *)

Lemma resource_names_err l e : unique_resource_names [] l = Err e ->
  e = EDuplicateDefinition /\
  (~ NoDup (map rs_name l) \/ exists r, In r l /\ ~ NoDup (map rl_name (rs_relations r))).
Proof.
  intros H. destruct (unique_resource_names_returns l []) as [H' | H']; rewrite H' in H; [discriminate |]. injection H as <-.
  split; [reflexivity |]. destruct (ListDec.NoDup_dec string_dec (map rs_name l)) as [Hn | Hn]; [right | left; exact Hn].
  destruct (Exists_dec (fun r => ~ NoDup (map rl_name (rs_relations r))) l) as [Hx | Hx].
  - intros r. destruct (ListDec.NoDup_dec string_dec (map rl_name (rs_relations r))); [right | left]; tauto.
  - apply Exists_exists in Hx as (r & Hr & Hd). exists r. auto.
  - exfalso. assert (unique_resource_names [] l = Ok tt); [| congruence]. apply unique_resource_names_ok.
    split; [exact Hn |]. split; [intros x [] |]. intros r Hr.
    destruct (ListDec.NoDup_dec string_dec (map rl_name (rs_relations r))) as [| Hd]; [assumption |].
    exfalso. apply Hx. apply Exists_exists. exists r. auto.
Qed.

Lemma restriction_says p x : says ESubjectRestriction (valid_restriction p x).
Proof.
  intros e. destruct x as [rs | rs rl |]; cbn; [destruct (lut_get_resource p rs) | destruct (lut_get_relation p rs rl) |];
    intros [=]; congruence.
Qed.

Lemma restrictions_err p e : subject_restrictions_consistent p = Err e ->
  e = ESubjectRestriction /\ exists rs l, relation_of p rs l /\ ~ restrictions_declared p (rl_restr l).
Proof.
  intros H. apply for_each_err in H as (r & Hr & H). apply for_each_err in H as (l & Hl & H).
  split.
  - destruct (rl_restr l) as [[| xs |] |]; cbn in H; try discriminate; [| congruence].
    apply for_each_err in H as (x & _ & H). apply (restriction_says p x). exact H.
  - exists (rs_name r), l. split; [exists r; auto |]. intros Hd.
    apply (proj2 (valid_subject_restriction_ok p (rl_restr l))) in Hd. congruence.
Qed.

Lemma rule_err p rs ru e : policy_contains_relations_in_rule p rs ru = Err e ->
  ~ rule_declared p rs ru /\ ((ru = RUnset /\ e = EInvalidVariant) \/ (ru <> RUnset /\ e = ERelExpTree)).
Proof.
  intros H. split; [rewrite <- rule_ok; congruence |].
  destruct ru as [| t | ts cu |]; cbn in H; try discriminate; [| | left; split; congruence];
    right; (split; [discriminate |]); destruct (lut_get_relation p rs _); congruence.
Qed.

(** No rule of a parsed expression is unset. *)
Lemma g_set : (forall t ts, g_expr t ts -> ~ occurs RUnset t).
Proof.
  intros t ts H. induction H using g_expr_ind2 with (P0 := fun t ts _ => ~ occurs RUnset t);
    try assumption; intros Ho; inversion Ho; subst; tauto.
Qed.

Lemma expressions_err E p e : relation_expression_well_defined E p = Err e -> policy_fault E p e.
Proof.
  intros H. apply for_each_err in H as (r & Hr & H). apply for_each_err in H as (l & Hl & H).
  assert (Hrl : relation_of p (rs_name r) l) by (exists r; auto).
  apply bind_err in H as [H | (t & Ht & H)].
  - unfold get_expression_tree in H. destruct (rl_expr l) as [[x | t |] |] eqn:Hx; try discriminate.
    + rewrite (parse_says E x e H). exists (rs_name r), l, x. repeat split; auto.
      intros t Hd. apply parse_iff in Hd. congruence.
    + injection H as <-. exists (rs_name r), l. auto.
  - apply bind_err in H as [H | (rules & Hru & H)].
    { exfalso. clear Ht. revert e H. induction t as [| | ru | a IHa op b IHb]; cbn; try discriminate.
      intros e H. apply bind_err in H as [H | (x & _ & H)]; [eapply IHa; exact H |].
      apply bind_err in H as [H | (y & _ & H)]; [eapply IHb; exact H | discriminate]. }
    apply get_rules_ok in Hru as [Hw Hocc]. apply for_each_err in H as (ru & Hin & H). apply Hocc in Hin.
    apply rule_err in H as [Hnd [[-> ->] | [Hset ->]]].
    + exists (rs_name r), l. split; [exact Hrl |]. right. exists t. split; [| exact Hin].
      unfold get_expression_tree in Ht. destruct (rl_expr l) as [[x | t' |] |]; try discriminate; [| congruence].
      exfalso. apply parse_iff in Ht as (ts & _ & Hg). eapply g_set; eauto.
    + exists (rs_name r), l, t, ru. repeat split; auto. apply expression_get. auto.
Qed.

Theorem verify_err E p e : verify_policy E p = Err e -> policy_fault E p e.
Proof.
  unfold verify_policy. intros H. apply bind_err in H as [H | (u & _ & H)].
  { apply resource_names_err in H as [-> H]. exact H. }
  cbn [required_fields_present bind] in H. apply bind_err in H as [H | (u' & _ & H)].
  - apply restrictions_err in H as [-> H]. exact H.
  - apply expressions_err. exact H.
Qed.

(** A fault of a policy is one that keeps it from being well formed. *)
Theorem fault_ill_formed E p e : policy_fault E p e -> ~ well_formed E p.
Proof.
  intros H Hw. destruct e; cbn in H; try contradiction.
  - destruct H as (rs & l & Hl & H). destruct (wf_expressions _ _ Hw rs l Hl) as (t & Ht & Hd).
    destruct H as [H | (t' & H & Ho)].
    + destruct Ht; congruence.
    + destruct Ht as [x Hx _ | Hx _]; [congruence |]. rewrite H in Hx. injection Hx as ->. exact (Hd _ Ho).
  - destruct H as (rs & l & t & ru & Hl & Ht & Ho & _ & Hn). destruct (wf_expressions _ _ Hw rs l Hl) as (t' & Ht' & Hd).
    rewrite (expression_unique E l t t' Ht Ht') in Ho. apply Hn. exact (Hd ru Ho).
  - destruct H as [H | (r & Hr & H)]; apply H; [apply (wf_resources _ _ Hw) | apply (wf_relations _ _ Hw r Hr)].
  - destruct H as (rs & l & Hl & H). apply H. apply (wf_restrictions _ _ Hw rs l Hl).
  - destruct H as (rs & l & x & Hl & Hx & H). destruct (wf_expressions _ _ Hw rs l Hl) as (t & Ht & _).
    destruct Ht as [x' Hx' Hd | Hx' _]; [| congruence]. rewrite Hx in Hx'. injection Hx' as <-. exact (H t Hd).
Qed.

(** ** Relationships *)

Lemma resource_none p n : lut_get_resource p n = None -> ~ declares_resource p n.
Proof. intros H Hd. apply lut_resource_declares in Hd as [r Hr]. congruence. Qed.

Lemma check_symbols_err p r e : check_symbols p r = Err e -> relationship_fault p r e.
Proof.
  unfold check_symbols. destruct (r_object r) as [o |] eqn:Ho; [| discriminate].
  destruct (lut_get_resource p (e_res o)) as [x |] eqn:Hx.
  2:{ intros [= <-]. left. exists o. split; [exact Ho | apply resource_none; exact Hx]. }
  assert (declares_resource p (e_res o)) as Hd by (apply lut_resource_declares; eauto).
  destruct (lut_get_relation p (e_res o) (r_relation r)) as [l |] eqn:Hl.
  2:{ intros [= <-]. left. exists o. apply lut_relation_none in Hl. auto. }
  destruct (r_subject r) as [[u | [u |] rel | rs |] |] eqn:Hu; try discriminate.
  - destruct (lut_get_resource p (e_res u)) eqn:Hr; [discriminate |]. intros [= <-]. right. left. exists u.
    split; [exact Hu | apply resource_none; exact Hr].
  - destruct (lut_get_relation p (e_res u) rel) eqn:Hr; [discriminate |]. intros [= <-]. right. exists u, rel.
    apply lut_relation_none in Hr. auto.
  - destruct (lut_get_resource p rs) eqn:Hr; [discriminate |]. intros [= <-]. right. right. exists rs.
    split; [exact Hu | apply resource_none; exact Hr].
  - intros [= <-]. exact Hu.
Qed.

Theorem allowed_err p r e : allowed_relationship p (Some r) = Err e -> relationship_fault p r e.
Proof.
  unfold allowed_relationship. intros H. apply bind_err in H as [H | ([] & Hc & H)]; [apply check_symbols_err; exact H |].
  pose proof (proj1 (check_symbols_ok p r) Hc) as Hsym. revert Hsym.
  unfold subject_restriction_spec in H. destruct (r_object r) as [o |] eqn:Ho; [| discriminate].
  destruct (lut_get_relation p (e_res o) (r_relation r)) as [l |] eqn:Hl.
  2:{ intros _. injection H as <-. exfalso. unfold check_symbols in Hc. rewrite Ho, Hl in Hc.
      destruct (lut_get_resource p (e_res o)); discriminate. }
  apply lut_relation_some in Hl as [Hl Hn]. intros _.
  assert (Hu : exists u, r_subject r = Some u).
  { destruct (r_subject r) as [u |] eqn:Hu; [eauto |]. unfold check_symbols in Hc. rewrite Ho, Hu in Hc.
    destruct (lut_get_resource p (e_res o)); [| discriminate]. destruct (lut_get_relation p (e_res o) (r_relation r)); discriminate. }
  destruct Hu as [u Hu]. assert (He : e = ESubjectNotAllowed /\ ~ admits (rl_restr l) u).
  { rewrite Hu in H. destruct (rl_restr l) as [[| xs |] |]; try discriminate.
    - cbn [satisfies_restriction_set] in H. destruct u as [x | [x |] rel | rs |]; try discriminate.
      + destruct (existsb _ xs) eqn:Hx; [discriminate |]. injection H as <-. split; [reflexivity |]. cbn.
        rewrite <- existsb_entity. congruence.
      + destruct (existsb _ xs) eqn:Hx; [discriminate |]. injection H as <-. split; [reflexivity |]. cbn.
        rewrite <- existsb_entity_set. congruence.
      + destruct (existsb _ xs) eqn:Hx; [discriminate |]. injection H as <-. split; [reflexivity |]. cbn.
        rewrite <- existsb_entity. congruence.
      + destruct (existsb _ xs) eqn:Hx; [discriminate |]. injection H as <-. split; [reflexivity | cbn; tauto].
    - injection H as <-. split; [reflexivity | cbn; tauto]. }
  destruct He as [-> Ha]. exists o, u, l. auto.
Qed.

Theorem relationship_fault_inadmissible p r e : unique_decls p -> relationship_fault p r e -> ~ admissible p r.
Proof.
  intros Hun H (o & u & l & Ho & Hu & Hl & Hn & Hsd & Ha). destruct e; cbn in H; try contradiction.
  - rewrite H in Hu. injection Hu as <-. exact Hsd.
  - destruct H as [(o' & Ho' & H) | [(u' & Hu' & H) | (rs & Hu' & H)]].
    + rewrite Ho in Ho'. injection Ho' as <-. apply H. destruct Hl as (x & Hx & Hr & _). exists x. auto.
    + rewrite Hu in Hu'. injection Hu' as ->. exact (H Hsd).
    + rewrite Hu in Hu'. injection Hu' as ->. exact (H Hsd).
  - destruct H as [(o' & Ho' & _ & H) | (u' & rel & Hu' & H)].
    + rewrite Ho in Ho'. injection Ho' as <-. apply H. exists l. auto.
    + rewrite Hu in Hu'. injection Hu' as ->. exact (H Hsd).
  - destruct H as (o' & u' & l' & Ho' & Hu' & Hl' & Hn' & H). rewrite Ho in Ho'. injection Ho' as <-.
    rewrite Hu in Hu'. injection Hu' as <-. apply H.
    replace l' with l; [exact Ha |]. apply (relation_of_unique p (e_res o)); auto. congruence.
Qed.

(** ** Selectors *)

Lemma named_resource_err p n e :
  (match get_resource_by_name p n with Some _ => Ok tt | None => Err EResourceNotFound end) = Err e ->
  e = EResourceNotFound /\ ~ declares_resource p n.
Proof.
  destruct (get_resource_by_name p n) as [r |] eqn:Hg; intros [= <-]. split; [reflexivity |]. apply get_resource_none. exact Hg.
Qed.

Lemma valid_selector_err p sel e : unique_decls p ->
  (forall x rel, s_subj sel <> Some (USSubject (Some (SEntitySet x rel)))) -> (s_obj sel = Some OSWild -> s_rel sel = Some LSWild) ->
  valid_selector p (Some sel) = Err e -> selector_fault p sel e.
Proof.
  intros Hun Hset Hwild H. unfold valid_selector in H. apply bind_err in H as [H | ([] & Hobj & H)].
  { unfold valid_object_selector in H. destruct (s_obj sel) as [[[o |] | rs | |] |] eqn:Ho; try discriminate.
    - apply named_resource_err in H as [-> H]. left. exists (OSObject (Some o)). split; [exact Ho |].
      intros rs Hn. inversion Hn; subst. exact H.
    - apply named_resource_err in H as [-> H]. left. exists (OSResource rs). split; [exact Ho |].
      intros rs' Hn. inversion Hn; subst. exact H.
    - injection H as <-. left. exact Ho. }
  apply bind_err in H as [H | ([] & _ & H)].
  { assert (Hx : s_rel sel <> Some LSWild /\
       (let* rs := object_selector_resource_name (s_obj sel) in
        let* rl := get_relation_by_name (get_resource_by_name p rs) (relation_named sel) in
        match rl with Some _ => Ok tt | None => Err ERelationNotFound end) = Err e).
    { unfold valid_relation_selector in H. unfold relation_named.
      destruct (s_rel sel) as [[n | |] |]; try discriminate; split; auto; discriminate. }
    clear H. destruct Hx as [Hw H]. apply bind_err in H as [H | (rs & Hn & H)].
    { destruct (s_obj sel) as [[[o |] | rs | |] |]; discriminate. }
    unfold get_relation_by_name in H. destruct (get_resource_by_name p rs) as [r |] eqn:Hr; [| discriminate]. cbn [bind] in H.
    destruct (find _ (rs_relations r)) as [l |] eqn:Hl; [discriminate |]. injection H as <-.
    assert (Hd : ~ declares p rs (relation_named sel)).
    { intros Hd. apply (get_relation_some p rs r (relation_named sel) Hun Hr) in Hd as [l' Hl']. unfold get_relation_by_name in Hl'. congruence. }
    destruct (s_obj sel) as [o |] eqn:Ho; [| discriminate]. exists o. split; [exact Ho |]. split; [exact Hw |].
    intros rs' Hnm. inversion Hnm; subst; cbn in Hn; try (injection Hn as <-; exact Hd).
    exfalso. apply Hw, Hwild. reflexivity. }
  unfold valid_subject_selector in H. destruct (s_subj sel) as [[[[u | x rel | rs |] |] | rs | |] |] eqn:Hu; try discriminate.
  - apply named_resource_err in H as [-> H]. right. eexists. split; [exact Hu |]. intros rs Hn. inversion Hn; subst. exact H.
  - exfalso. eapply Hset. reflexivity.
  - apply named_resource_err in H as [-> H]. right. eexists. split; [exact Hu |]. intros rs' Hn. inversion Hn; subst. exact H.
  - apply named_resource_err in H as [-> H]. right. eexists. split; [exact Hu |]. intros rs' Hn. inversion Hn.
  - apply named_resource_err in H as [-> H]. right. eexists. split; [exact Hu |]. intros rs' Hn. inversion Hn; subst. exact H.
  - injection H as <-. right. right. exact Hu.
Qed.

Lemma selector_spec_err sel e : new_selector_spec (Some sel) = Err e -> e = EInvalidVariant /\ part_unset sel.
Proof.
  unfold new_selector_spec, part_unset. intros H. apply bind_err in H as [H | (o & _ & H)].
  { destruct (s_obj sel) as [[] |]; try discriminate. split; [congruence | auto]. }
  apply bind_err in H as [H | (l & _ & H)].
  { destruct (s_rel sel) as [[] |]; try discriminate. split; [congruence | auto]. }
  apply bind_err in H as [H | (u & _ & H)]; [| discriminate].
  destruct (s_subj sel) as [[] |]; try discriminate. split; [congruence | auto].
Qed.

(** ** Searches *)

Section SearchErrors.
  Variable E : env.
  Variable P : policy.
  Variable es : list ((string * string) * edge).
  Variable succ : entity -> string -> subject -> Prop.
  Hypothesis Hsucc : edge_subjects E es succ.
  Hypothesis Hw : well_formed E P.
  Hypothesis Hset : forall o rel, ~ succ o rel SUnset.
  Variable g : goal.
  Variable root : rnode.

  Notation below := (reach E P succ root).

  Lemma build_err nd e : below nd -> is_terminal nd = false -> build E P es nd = Err e -> search_fault E P succ root e.
  Proof.
    intros Hr Ht Hb. destruct nd as [[o |] rel | o | rs |]; try discriminate. cbn [build handle_entity_set] in Hb.
    destruct (lut_get_relation P (e_res o) rel) as [l |] eqn:Hl.
    2:{ injection Hb as <-. exists o, rel. apply lut_relation_none in Hl. auto. }
    apply lut_relation_some in Hl as [Hl Hn]. destruct (wf_expressions _ _ Hw _ l Hl) as (t & Hx & Hd).
    assert (Hrw : rewrites E P o rel t) by (exists l; auto).
    apply expression_get in Hx as [Hg _]. rewrite Hg in Hb. cbn [bind] in Hb.
    assert (He : e = EInvalidVariant /\ ~ standard_tree t).
    { clear Hg Hrw. revert e Hb Hd. induction t as [| | ru | a IHa op b IHb]; intros e Hb Hd; cbn in Hb; try discriminate.
      - injection Hb as <-. cbn. tauto.
      - exfalso. unfold build_goal_for_rule in Hb. apply bind_err in Hb as [Hb | (ns & _ & Hb)]; [| discriminate].
        specialize (Hd ru (occ_here ru)). destruct ru as [| c | ts cu |]; cbn [evaluate] in Hb; try discriminate; [| contradiction].
        destruct (Hsucc o ts) as (ns & Hns & Hin). rewrite Hns in Hb. cbn [bind] in Hb.
        apply map_res_err in Hb as (x & Hx & Hb). apply Hin in Hx as (u & Hu & ->).
        destruct u; try discriminate. exact (Hset _ _ Hu).
      - apply bind_err in Hb as [Hb | (x & _ & Hb)].
        { destruct (IHa e Hb) as [-> Hn']; [intros ru Ho; apply Hd, occ_left, Ho |]. split; [reflexivity |].
          destruct op; cbn; tauto. }
        apply bind_err in Hb as [Hb | (y & _ & Hb)].
        { destruct (IHb e Hb) as [-> Hn']; [intros ru Ho; apply Hd, occ_right, Ho |]. split; [reflexivity |].
          destruct op; cbn; tauto. }
        destruct op; try discriminate. injection Hb as <-. cbn. tauto. }
    destruct He as [-> He]. exists o, rel, t. auto.
  Qed.

  Lemma search_tree_err sp e : (forall nd why seen, below nd -> sp nd why seen = Err e -> search_fault E P succ root e) ->
    forall t seen, paths_in below t -> search_tree sp t seen = Err e -> search_fault E P succ root e.
  Proof.
    intros Hsp t. induction t as [r ps IH | r ps IH | r x y IHx IHy | r n t why IH] using gtree_ind2; intros seen Hq H.
    - cbn [search_tree] in H. cbn in Hq. apply paths_in_all in Hq. apply bind_err in H as [H | ([[b qs] s] & _ & H)]; [| discriminate].
      revert seen H. induction IH as [| p ps Hp Hps IH]; intros seen H; [discriminate |].
      inversion Hq as [| p' ps' H1 H2]. cbn in H. apply bind_err in H as [H | ([x s] & _ & H)]; [eapply Hp; eauto |].
      cbn [fst snd] in H. destruct (is_success (get_result x)); [discriminate |].
      apply bind_err in H as [H | ([[b qs] s'] & _ & H)]; [eapply IH; eauto | discriminate].
    - cbn [search_tree] in H. cbn in Hq. apply paths_in_all in Hq. apply bind_err in H as [H | ([[b qs] s] & _ & H)]; [| discriminate].
      revert seen H. induction IH as [| p ps Hp Hps IH]; intros seen H; [discriminate |].
      inversion Hq as [| p' ps' H1 H2]. cbn in H. apply bind_err in H as [H | ([x s] & _ & H)]; [eapply Hp; eauto |].
      cbn [fst snd] in H. destruct (is_failure (get_result x)); [discriminate |].
      apply bind_err in H as [H | ([[b qs] s'] & _ & H)]; [eapply IH; eauto | discriminate].
    - cbn [search_tree] in H. destruct Hq as [Hqx Hqy]. apply bind_err in H as [H | (x' & _ & H)]; [eapply IHx; eauto |].
      apply bind_err in H as [H | (y' & _ & H)]; [eapply IHy; eauto | discriminate].
    - cbn in Hq, H. eapply Hsp; eauto.
  Qed.

  Lemma search_path_err e : forall n nd why seen, below nd -> search_path E P es g n nd why seen = Err e ->
    search_fault E P succ root e.
  Proof.
    induction n as [| n IH]; intros nd why seen Hr H; [discriminate |]. cbn [search_path] in H.
    apply bind_err in H as [H | (id & _ & H)]; [destruct nd as [[] | [] | |]; discriminate |].
    destruct (existsb (String.eqb id) seen); [discriminate |].
    apply bind_err in H as [H | (found & _ & H)].
    { destruct g as [| [a |]], nd as [[] | [] | |]; discriminate. }
    destruct (found || is_terminal nd) eqn:Hf; [discriminate |]. apply Bool.orb_false_iff in Hf as [_ Ht].
    apply bind_err in H as [H | (t & Hb & H)]; [eapply build_err; eauto |].
    apply bind_err in H as [H | (x & _ & H)]; [| discriminate].
    eapply search_tree_err; [| | exact H].
    - intros nd' why' seen' Hr' H'. eapply IH; eauto.
    - eapply reach_build; eauto. intros rs l Hl. destruct (wf_expressions _ _ Hw rs l Hl) as (t' & Hx & _). eauto.
  Qed.

  Theorem search_err n e : search E P es n root g = Err e -> search_fault E P succ root e.
  Proof.
    unfold search. intros H. apply bind_err in H as [H | (x & _ & H)]; [| discriminate].
    eapply search_path_err; [apply re_here | exact H].
  Qed.
End SearchErrors.

(** ** Serializers *)

Lemma json_says n root : forall stack a, says ESerialize (json_visit n root stack a).
Proof.
  induction n as [| n IH]; intros stack a e H; cbn [json_visit] in H; [discriminate |].
  destruct (existsb (addr_eqb a) stack); [congruence |]. apply for_each_err in H as (x & _ & H). exact (IH _ _ _ H).
Qed.

Lemma dot_no_err : forall t parent c e, dot_goal parent t c <> Err e.
Proof.
  assert (Hloop : forall f ps c e, Forall (fun t => forall c e, f t c <> Err e) ps -> dot_loop f ps c <> Err e).
  { intros f ps c e Hf. revert c. induction Hf as [| p ps Hp _ IH]; intros c H; cbn in H; [discriminate |].
    apply bind_err in H as [H | (x & _ & H)]; [exact (Hp _ _ H) |].
    apply bind_err in H as [H | (y & _ & H)]; [exact (IH _ H) | discriminate]. }
  intros t. induction t as [r ps IH | r ps IH | r x y IHx IHy | r n [t |] why IH] using gtree_ind2; intros parent c e H; cbn in H.
  - apply bind_err in H as [H | (z & _ & H)]; [| discriminate]. revert H. apply Hloop.
    rewrite Forall_forall in IH |- *. intros p Hp c' e'. apply IH. exact Hp.
  - apply bind_err in H as [H | (z & _ & H)]; [| discriminate]. revert H. apply Hloop.
    rewrite Forall_forall in IH |- *. intros p Hp c' e'. apply IH. exact Hp.
  - apply bind_err in H as [H | (z & _ & H)]; [| discriminate].
    apply bind_err in H as [H | (z & _ & H)]; [exact (IHx _ _ _ H) |].
    apply bind_err in H as [H | (z' & _ & H)]; [exact (IHy _ _ _ H) | discriminate].
  - apply bind_err in H as [H | (l & _ & H)].
    + apply bind_err in H as [H | (p & _ & H)]; [| discriminate]. destruct n as [[] | [] | |]; discriminate.
    + apply bind_err in H as [H | (z & _ & H)]; [| discriminate]. exact (IH _ _ _ H).
  - apply bind_err in H as [H | (l & _ & H)]; [| discriminate].
    apply bind_err in H as [H | (p & _ & H)]; [| discriminate]. destruct n as [[] | [] | |]; discriminate.
Qed.

Lemma serialize_err n f t e : known_format f -> serialize n f t = Err e -> f = FJson /\ e = ESerialize.
Proof.
  intros Hf H. destruct f; cbn in H; try discriminate; [| | contradiction].
  - split; [reflexivity |]. exact (json_says _ _ _ _ _ H).
  - exfalso. apply bind_err in H as [H | (x & _ & H)]; [| discriminate]. unfold goal_dot in H.
    apply bind_err in H as [H | (x & _ & H)]; [| discriminate]. exact (dot_no_err _ _ _ _ H).
Qed.

Lemma factory_ok f : serializer_factory f = Ok tt /\ known_format f \/ serializer_factory f = Err EInvalidVariant /\ ~ known_format f.
Proof. destruct f; cbn; auto. Qed.

(** ** Requests *)

Lemma dump_err E n pid d s e : store_ok E s -> answer E (QDumpRelationships n pid d) s = Err e ->
  policies s pid = None /\ e = EPolicyNotFound \/ policies s pid <> None /\ d = false /\ e = EInvalidVariant.
Proof.
  intros H. serve_eq. rewrite run_dump. cbn [fst]. fold (policies s pid). destruct (policies s pid) as [rec |].
  2:{ intros [= <-]. auto. }
  destruct (stored_ids E s pid H) as (L & HL & _). rewrite (DumpFacts.stored_edges E s pid H).
  destruct (walk_ok E _ L HL) as (f & roots & Hw & _). rewrite Hw. cbn [bind]. destruct d.
  - destruct (dump_no_panic E _ L n (f, roots) HL Hw) as [[l Hl] | Hl]; rewrite Hl; discriminate.
  - intros [= <-]. right. repeat split; discriminate.
Qed.
