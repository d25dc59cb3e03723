(** The validators decide the specifications of [SpecPolicy]. *)
From Coq Require Import Lia.
From Verif Require Import Base Domain Lexer Parser Validate BaseFacts SpecGrammar LexerFacts ParserFacts SpecPolicy.

(** ** Lookup tables *)

Lemma pair_eqb_spec a b : pair_eqb a b = true <-> a = b.
Proof.
  destruct a as [a1 a2], b as [b1 b2]. unfold pair_eqb. cbn.
  rewrite andb_true_iff, !String.eqb_eq. split; [intros [-> ->]; reflexivity | intros [= -> ->]; auto].
Qed.

Lemma assoc_last_in {K V} (eqb : K -> K -> bool) (He : forall a b, eqb a b = true <-> a = b) k v (l : list (K * V)) :
  assoc_last eqb k l = Some v -> In (k, v) l.
Proof.
  induction l as [| [k' v'] l IH]; cbn; [discriminate |].
  destruct (assoc_last eqb k l); [intros [= ->]; auto |].
  destruct (eqb k k') eqn:Hk; [| discriminate]. apply He in Hk as ->. intros [= ->]. auto.
Qed.

Lemma assoc_last_none {K V} (eqb : K -> K -> bool) (He : forall a b, eqb a b = true <-> a = b) k (l : list (K * V)) :
  assoc_last eqb k l = None <-> ~ In k (map fst l).
Proof.
  induction l as [| [k' v'] l IH]; cbn; [tauto |].
  destruct (assoc_last eqb k l) as [w |].
  - split; [discriminate |]. intros H. exfalso. destruct IH as [_ IH]. 
    assert (~ In k (map fst l)) as H' by tauto. apply IH in H'. discriminate.
  - destruct (eqb k k') eqn:Hk.
    + apply He in Hk as ->. split; [discriminate | tauto].
    + split; [| reflexivity]. intros _ [<- | Hin].
      * assert (eqb k' k' = true) as H by (apply He; reflexivity). congruence.
      * revert Hin. apply IH. reflexivity.
Qed.

Lemma assoc_last_unique {K V} (eqb : K -> K -> bool) (He : forall a b, eqb a b = true <-> a = b) k v (l : list (K * V)) :
  (forall v', In (k, v') l -> v' = v) -> In (k, v) l -> assoc_last eqb k l = Some v.
Proof.
  intros Hu Hin. destruct (assoc_last eqb k l) as [w |] eqn:H.
  - apply assoc_last_in in H; [| exact He]. f_equal. apply Hu. exact H.
  - apply assoc_last_none in H; [| exact He]. exfalso. apply H. apply in_map_iff. exists (k, v). auto.
Qed.

Lemma lut_relations_in p rs rl l : In ((rs, rl), l) (lut_relations p) <-> relation_of p rs l /\ rl_name l = rl.
Proof.
  unfold lut_relations, relation_of. rewrite in_flat_map. split.
  - intros (r & Hr & Hl). apply in_map_iff in Hl as (l' & [= <- <- <-] & Hl). split; eauto.
  - intros [(r & Hr & <- & Hl) <-]. exists r. split; [exact Hr |]. apply in_map_iff. eauto.
Qed.

Lemma lut_relation_some p rs rl l : lut_get_relation p rs rl = Some l -> relation_of p rs l /\ rl_name l = rl.
Proof. intros H. apply lut_relations_in. eapply assoc_last_in; [apply pair_eqb_spec | exact H]. Qed.

Lemma lut_relation_none p rs rl : lut_get_relation p rs rl = None <-> ~ declares p rs rl.
Proof.
  unfold lut_get_relation. rewrite assoc_last_none by apply pair_eqb_spec. unfold declares.
  split; intros H Hn; apply H; clear H.
  - destruct Hn as (l & Hl). apply in_map_iff. exists ((rs, rl), l). split; [reflexivity |].
    apply lut_relations_in. exact Hl.
  - apply in_map_iff in Hn as ([[a b] l] & [= -> ->] & Hl). exists l. apply lut_relations_in. exact Hl.
Qed.

Lemma lut_relation_declares p rs rl : declares p rs rl <-> exists l, lut_get_relation p rs rl = Some l.
Proof.
  destruct (lut_get_relation p rs rl) as [l |] eqn:H.
  - split; [eauto |]. intros _. exists l. apply lut_relation_some. exact H.
  - split; [| intros [l [=]]]. intros Hd. apply lut_relation_none in H. contradiction.
Qed.

Lemma lut_resource_some p rs r : lut_get_resource p rs = Some r -> In r (p_resources p) /\ rs_name r = rs.
Proof.
  intros H. apply assoc_last_in in H; [| apply String.eqb_eq].
  apply in_map_iff in H as (r' & [= <- <-] & H). auto.
Qed.

Lemma lut_resource_declares p rs : declares_resource p rs <-> exists r, lut_get_resource p rs = Some r.
Proof.
  unfold declares_resource. split.
  - intros (r & Hr & Hn). destruct (lut_get_resource p rs) as [r' |] eqn:H; [eauto |].
    unfold lut_get_resource in H. apply assoc_last_none in H; [| apply String.eqb_eq].
    exfalso. apply H. rewrite map_map. cbn. apply in_map_iff. eauto.
  - intros [r H]. exists r. apply lut_resource_some. exact H.
Qed.

(** Declarations of a policy with unique names are found as they are. *)
Lemma nodup_map_inj {A B} (f : A -> B) l a b : NoDup (map f l) -> In a l -> In b l -> f a = f b -> a = b.
Proof.
  induction l as [| x l IH]; cbn; [tauto |]. intros Hnd Ha Hb Heq. inversion Hnd; subst.
  destruct Ha as [-> | Ha], Hb as [-> | Hb]; auto.
  - exfalso. apply H1. rewrite Heq. apply in_map. exact Hb.
  - exfalso. apply H1. rewrite <- Heq. apply in_map. exact Ha.
Qed.

Definition unique_decls (p : policy) : Prop :=
  NoDup (map rs_name (p_resources p)) /\
  forall r, In r (p_resources p) -> NoDup (map rl_name (rs_relations r)).

Lemma relation_of_unique p rs l l' : unique_decls p ->
  relation_of p rs l -> relation_of p rs l' -> rl_name l = rl_name l' -> l = l'.
Proof.
  intros [Hr Hl] (r & Hin & Hn & Hlin) (r' & Hin' & Hn' & Hlin') Heq.
  assert (r = r') as <- by (eapply nodup_map_inj; eauto; congruence).
  eapply nodup_map_inj; eauto.
Qed.

Lemma lut_relation_found p rs l : unique_decls p -> relation_of p rs l ->
  lut_get_relation p rs (rl_name l) = Some l.
Proof.
  intros Hu Hl. apply assoc_last_unique; [apply pair_eqb_spec | |].
  - intros l' H. apply lut_relations_in in H as [H1 H2]. eapply relation_of_unique; eauto.
  - apply lut_relations_in. auto.
Qed.

(** ** Unique names *)

Lemma existsb_eqb x l : existsb (String.eqb x) l = true <-> In x l.
Proof.
  rewrite existsb_exists. split.
  - intros (y & Hy & H). apply String.eqb_eq in H as ->. exact Hy.
  - intros H. exists x. split; [exact H | apply String.eqb_refl].
Qed.

Lemma unique_names_ok l : forall seen,
  unique_names seen l = Ok tt <-> NoDup l /\ forall x, In x seen -> ~ In x l.
Proof.
  induction l as [| n l IH]; intros seen; cbn [unique_names].
  - split; [| auto]. intros _. split; [constructor | auto].
  - destruct (existsb (String.eqb n) seen) eqn:Hs.
    + apply existsb_eqb in Hs. split; [discriminate |]. intros [_ H]. exfalso. apply (H n Hs). left. reflexivity.
    + rewrite IH. assert (~ In n seen) as Hn by (rewrite <- existsb_eqb, Hs; discriminate).
      split.
      * intros [Hnd H]. split.
        -- constructor; [apply H; left; reflexivity | exact Hnd].
        -- intros x Hx [<- | Hin]; [contradiction |]. apply (H x); [right; exact Hx | exact Hin].
      * intros [Hnd H]. inversion Hnd; subst. split; [assumption |].
        intros x [<- | Hx]; [assumption |]. intros Hin. apply (H x Hx). right. exact Hin.
Qed.

Lemma unique_names_returns seen l : unique_names seen l = Ok tt \/ unique_names seen l = Err EDuplicateDefinition.
Proof.
  revert seen. induction l as [| n l IH]; intros seen; cbn; [auto |].
  destruct (existsb _ seen); auto.
Qed.

Lemma unique_resource_names_ok l : forall seen,
  unique_resource_names seen l = Ok tt <->
  NoDup (map rs_name l) /\ (forall x, In x seen -> ~ In x (map rs_name l)) /\
  (forall r, In r l -> NoDup (map rl_name (rs_relations r))).
Proof.
  induction l as [| r l IH]; intros seen; cbn [unique_resource_names map].
  - split; [| auto]. intros _. repeat split; [constructor | auto | intros ? []].
  - destruct (existsb (String.eqb (rs_name r)) seen) eqn:Hs.
    + apply existsb_eqb in Hs. split; [discriminate |]. intros (_ & H & _). exfalso. apply (H _ Hs). left. reflexivity.
    + assert (~ In (rs_name r) seen) as Hn by (rewrite <- existsb_eqb, Hs; discriminate).
      split.
      * intros H. apply bind_ok in H as ([] & H1 & H2). apply unique_names_ok in H1 as [H1 _].
        apply IH in H2 as (Hnd & H & Hr). split; [| split].
        -- constructor; [apply H; left; reflexivity | exact Hnd].
        -- intros x Hx [<- | Hin]; [contradiction |]. apply (H x); [right; exact Hx | exact Hin].
        -- intros r' [<- | Hin]; auto.
      * intros (Hnd & H & Hr). inversion Hnd; subst.
        assert (unique_names [] (map rl_name (rs_relations r)) = Ok tt) as ->.
        { apply unique_names_ok. split; [apply Hr; left; reflexivity | intros ? []]. }
        cbn [bind]. apply IH. split; [assumption |]. split.
        -- intros x [<- | Hx]; [assumption |]. intros Hin. apply (H x Hx). right. exact Hin.
        -- intros r' Hin. apply Hr. right. exact Hin.
Qed.

Lemma unique_resource_names_returns l : forall seen, unique_resource_names seen l = Ok tt \/
  unique_resource_names seen l = Err EDuplicateDefinition.
Proof.
  induction l as [| r l IH]; intros seen; cbn [unique_resource_names]; [auto |].
  destruct (existsb _ seen); auto.
  destruct (unique_names_returns [] (map rl_name (rs_relations r))) as [-> | ->]; cbn [bind]; auto.
Qed.

(** ** Restrictions *)

Lemma valid_restriction_ok p x : valid_restriction p x = Ok tt <-> restriction_declared p x.
Proof.
  destruct x as [rs | rs rl |]; cbn; [rewrite lut_resource_declares | rewrite lut_relation_declares |].
  - destruct (lut_get_resource p rs); split; eauto; intros; [discriminate | destruct H; discriminate].
  - destruct (lut_get_relation p rs rl); split; eauto; intros; [discriminate | destruct H; discriminate].
  - split; [discriminate | tauto].
Qed.

Lemma valid_subject_restriction_ok p x :
  valid_subject_restriction p x = Ok tt <-> restrictions_declared p x.
Proof.
  destruct x as [[| l |] |]; cbn; try tauto.
  - rewrite for_each_ok, Forall_forall. split; intros H a Ha; apply valid_restriction_ok; auto.
  - split; [discriminate | tauto].
Qed.

Lemma for_each_returns {A} (f : A -> res unit) l :
  (forall a, In a l -> returns (f a)) -> returns (for_each f l).
Proof.
  induction l as [| a l IH]; cbn; intros H; [left; eauto |].
  apply returns_bind; [apply H; left; reflexivity |]. intros. apply IH. intros. apply H. right. assumption.
Qed.

Lemma restrictions_ok p : subject_restrictions_consistent p = Ok tt <->
  forall rs l, relation_of p rs l -> restrictions_declared p (rl_restr l).
Proof.
  unfold subject_restrictions_consistent. rewrite for_each_ok. split.
  - intros H rs l (r & Hr & _ & Hl). specialize (H r Hr). rewrite for_each_ok in H.
    apply valid_subject_restriction_ok. auto.
  - intros H r Hr. apply for_each_ok. intros l Hl. apply valid_subject_restriction_ok.
    apply (H (rs_name r)). exists r. auto.
Qed.

Lemma restrictions_returns p : returns (subject_restrictions_consistent p).
Proof.
  apply for_each_returns. intros r _. apply for_each_returns. intros l _.
  unfold valid_subject_restriction. destruct (rl_restr l) as [[| x |] |]; unfold returns; eauto.
  apply for_each_returns. intros a _. unfold valid_restriction, returns.
  destruct a; [destruct (lut_get_resource p _) | destruct (lut_get_relation p _ _) |]; eauto.
Qed.

(** ** Expressions *)

Lemma get_rules_ok t rules : get_rules t = Ok rules -> whole t /\ forall ru, In ru rules <-> occurs ru t.
Proof.
  revert rules. induction t as [| | r | l IHl o r IHr]; intros rules; cbn [get_rules]; try discriminate.
  - intros [= <-]. split; [constructor |]. intros ru. split; [intros [] | intros H; inversion H].
  - intros [= <-]. split; [constructor |]. intros ru. cbn. split.
    + intros [<- | []]. constructor.
    + intros H. inversion H. auto.
  - intros H. apply bind_ok in H as (a & Ha & H). apply bind_ok in H as (b & Hb & [= <-]).
    apply IHl in Ha as [Hw1 H1]. apply IHr in Hb as [Hw2 H2]. split; [constructor; auto |].
    intros ru. rewrite in_app_iff, H1, H2. split.
    + intros [H | H]; [apply occ_left | apply occ_right]; exact H.
    + intros H. inversion H; auto.
Qed.

Lemma get_rules_whole t : whole t -> exists rules, get_rules t = Ok rules.
Proof.
  induction 1 as [| r | l o r _ [a Ha] _ [b Hb]]; cbn; eauto.
  rewrite Ha, Hb. cbn. eauto.
Qed.

Lemma writable_whole E t : writable E t -> whole t.
Proof.
  induction t as [| | r | l IHl o r IHr]; cbn; try tauto.
  - constructor.
  - intros (_ & H1 & H2). constructor; auto.
Qed.

Lemma g_whole t ts : g_expr t ts -> whole t.
Proof.
  intros H. refine (g_expr_ind2 (fun t ts _ => whole t) (fun t ts _ => whole t) _ _ _ _ _ _ t ts H);
    intros; auto; constructor; auto.
Qed.

Lemma expression_get E l t : get_expression_tree E l = Ok t /\ whole t <-> expression E l t.
Proof.
  unfold get_expression_tree. split.
  - intros [H Hw]. destruct (rl_expr l) as [[s | t' |] |] eqn:Hx; try discriminate.
    + apply (ex_text _ _ _ s); [exact Hx |]. apply parse_iff. exact H.
    + injection H as ->. apply ex_tree; auto.
  - intros [s Hx Hd | Hx Hw]; rewrite Hx.
    + split; [apply parse_iff; exact Hd |]. destruct Hd as (ts & _ & Hg). eapply g_whole; eauto.
    + auto.
Qed.

Lemma expression_unique E l t t' : expression E l t -> expression E l t' -> t = t'.
Proof. intros H H'. apply expression_get in H as [H _], H' as [H' _]. congruence. Qed.

Lemma rule_ok p rs ru : policy_contains_relations_in_rule p rs ru = Ok tt <-> rule_declared p rs ru.
Proof.
  destruct ru as [| t | ts cu |]; cbn; try tauto; try (split; [discriminate | tauto]);
  rewrite lut_relation_declares.
  - destruct (lut_get_relation p rs t); split; eauto; intros; [discriminate | destruct H; discriminate].
  - destruct (lut_get_relation p rs ts); split; eauto; intros; [discriminate | destruct H; discriminate].
Qed.

Lemma expressions_ok E p : relation_expression_well_defined E p = Ok tt <->
  forall rs l, relation_of p rs l ->
    exists t, expression E l t /\ forall ru, occurs ru t -> rule_declared p rs ru.
Proof.
  unfold relation_expression_well_defined. rewrite for_each_ok. split.
  - intros H rs l (r & Hr & <- & Hl). specialize (H r Hr). rewrite for_each_ok in H. specialize (H l Hl).
    apply bind_ok in H as (t & Ht & H). apply bind_ok in H as (rules & Hru & H).
    apply get_rules_ok in Hru as [Hw Hocc]. exists t. split; [apply expression_get; auto |].
    intros ru Ho. apply rule_ok. rewrite for_each_ok in H. apply H. apply Hocc. exact Ho.
  - intros H r Hr. apply for_each_ok. intros l Hl.
    destruct (H (rs_name r) l) as (t & Ht & Hd); [exists r; auto |].
    apply expression_get in Ht as [Ht Hw]. rewrite Ht. cbn [bind].
    destruct (get_rules_whole t Hw) as [rules Hru]. rewrite Hru. cbn [bind].
    apply for_each_ok. intros ru Hin. apply rule_ok, Hd. apply get_rules_ok in Hru as [_ Hocc]. apply Hocc. exact Hin.
Qed.

(** A relation whose expression fields are set. *)
Definition expression_present (l : relation) : Prop :=
  rl_expr l <> None /\ forall t, rl_expr l = Some (XTree t) -> whole t.

Lemma expressions_returns E p : (forall rs l, relation_of p rs l -> expression_present l) ->
  returns (relation_expression_well_defined E p).
Proof.
  intros H. apply for_each_returns. intros r Hr. apply for_each_returns. intros l Hl.
  destruct (H (rs_name r) l) as [H1 H2]; [exists r; auto |].
  apply returns_bind.
  - unfold get_expression_tree. destruct (rl_expr l) as [[s | t |] |]; [| left; eauto | right; eauto | congruence].
    destruct (parse_returns E s) as [? | [? | ?]]; unfold returns; eauto.
  - intros t Ht. unfold get_expression_tree in Ht. apply returns_bind.
    + assert (whole t) as Hw.
      { destruct (rl_expr l) as [[s | t' |] |] eqn:Hx; try discriminate.
        - apply parse_iff in Ht as (ts & _ & Hg). eapply g_whole; eauto.
        - injection Ht as ->. auto. }
      destruct (get_rules_whole t Hw) as [rules ->]. left. eauto.
    + intros rules _. apply for_each_returns. intros ru _.
      unfold policy_contains_relations_in_rule, returns.
      destruct ru; try destruct (lut_get_relation p _ _); eauto.
Qed.

(** ** Policies *)

Theorem verify_ok E p : verify_policy E p = Ok tt <-> well_formed E p.
Proof.
  unfold verify_policy, required_fields_present. split.
  - intros H. apply bind_ok in H as ([] & H1 & H). cbn [bind] in H.
    apply bind_ok in H as ([] & H2 & H3).
    apply unique_resource_names_ok in H1 as (Hnd & _ & Hr).
    split; auto; [apply restrictions_ok; exact H2 | apply expressions_ok; exact H3].
  - intros [H1 H2 H3 H4].
    assert (unique_resource_names [] (p_resources p) = Ok tt) as ->.
    { apply unique_resource_names_ok. repeat split; auto. }
    cbn [bind]. apply restrictions_ok in H3 as ->. cbn [bind]. apply expressions_ok. exact H4.
Qed.

Lemma wf_unique E p : well_formed E p -> unique_decls p.
Proof. intros [H1 H2 _ _]. split; auto. Qed.

Theorem verify_returns E p : (forall rs l, relation_of p rs l -> expression_present l) ->
  returns (verify_policy E p).
Proof.
  intros H. unfold verify_policy. apply returns_bind.
  { unfold returns. destruct (unique_resource_names_returns (p_resources p) []) as [-> | ->]; eauto. }
  intros _ _. cbn [required_fields_present bind]. apply returns_bind; [apply restrictions_returns |].
  intros _ _. apply expressions_returns. exact H.
Qed.

(** ** Relationships *)

Lemma existsb_entity rs l : existsb (fun r => satisfies_restriction r rs) l = true <-> In (REntity rs) l.
Proof.
  rewrite existsb_exists. split.
  - intros ([a | a b |] & Hin & H); cbn in H; try discriminate. apply String.eqb_eq in H as ->. exact Hin.
  - intros H. exists (REntity rs). split; [exact H | apply String.eqb_refl].
Qed.

Lemma existsb_entity_set rs rl l :
  existsb (fun r => satisfies_restriction_for_entity_set r rs rl) l = true <-> In (REntitySet rs rl) l.
Proof.
  rewrite existsb_exists. split.
  - intros ([a | a b |] & Hin & H); cbn in H; try discriminate.
    apply andb_true_iff in H as [H1 H2]. apply String.eqb_eq in H1 as ->, H2 as ->. exact Hin.
  - intros H. exists (REntitySet rs rl). split; [exact H |]. cbn. rewrite !String.eqb_refl. reflexivity.
Qed.

Lemma check_symbols_ok p r : check_symbols p r = Ok tt <->
  exists o u, r_object r = Some o /\ r_subject r = Some u /\ declares p (e_res o) (r_relation r) /\
              subject_declared p u.
Proof.
  unfold check_symbols. destruct (r_object r) as [o |].
  2:{ split; [discriminate |]. intros (o & u & [=] & _). }
  assert (declares p (e_res o) (r_relation r) -> declares_resource p (e_res o)) as Hdr.
  { intros (l & (rs & Hin & Hn & _) & _). exists rs. auto. }
  destruct (lut_get_resource p (e_res o)) as [rs |] eqn:Hrs.
  2:{ split; [discriminate |]. intros (o' & u & [= <-] & _ & Hd & _). exfalso.
      apply Hdr in Hd. apply lut_resource_declares in Hd as [x Hx]. congruence. }
  destruct (lut_get_relation p (e_res o) (r_relation r)) as [l |] eqn:Hl.
  2:{ split; [discriminate |]. intros (o' & u & [= <-] & _ & Hd & _). exfalso.
      apply lut_relation_none in Hl. contradiction. }
  assert (declares p (e_res o) (r_relation r)) as Hd by (apply lut_relation_declares; eauto).
  destruct (r_subject r) as [u |].
  2:{ split; [discriminate |]. intros (o' & u & _ & [=] & _). }
  assert (forall X : res unit, (X = Ok tt <-> subject_declared p u) ->
          (X = Ok tt <-> exists o0 u0, Some o = Some o0 /\ Some u = Some u0 /\
            declares p (e_res o0) (r_relation r) /\ subject_declared p u0)) as Hgen.
  { intros X HX. rewrite HX. split.
    - intros H. exists o, u. auto.
    - intros (o' & u' & [= <-] & [= <-] & _ & H). exact H. }
  destruct u as [e | [e |] rel | rs' |]; apply Hgen; cbn [subject_declared].
  - rewrite lut_resource_declares. destruct (lut_get_resource p (e_res e)); split; eauto; intros; [discriminate | destruct H; discriminate].
  - rewrite lut_relation_declares. destruct (lut_get_relation p (e_res e) rel); split; eauto; intros; [discriminate | destruct H; discriminate].
  - split; [discriminate | tauto].
  - rewrite lut_resource_declares. destruct (lut_get_resource p rs'); split; eauto; intros; [discriminate | destruct H; discriminate].
  - split; [discriminate | tauto].
Qed.

Lemma restriction_set_ok p u l : subject_declared p u ->
  (satisfies_restriction_set (Some u) l = Ok tt <-> admits (Some (SRSet l)) u).
Proof.
  intros Hd. destruct u as [e | [e |] rel | rs |]; cbn in Hd |- *; try tauto.
  - rewrite <- existsb_entity. destruct (existsb _ l); split; congruence.
  - rewrite <- existsb_entity_set. destruct (existsb _ l); split; congruence.
  - rewrite <- existsb_entity. destruct (existsb _ l); split; congruence.
Qed.

Theorem allowed_ok p r : unique_decls p ->
  (allowed_relationship p (Some r) = Ok tt <-> admissible p r).
Proof.
  intros Hu. unfold allowed_relationship, subject_restriction_spec, admissible. split.
  - intros H. apply bind_ok in H as ([] & H1 & H2).
    apply check_symbols_ok in H1 as (o & u & Ho & Hs & Hd & Hsd). rewrite Ho in H2.
    apply lut_relation_declares in Hd as [l Hl]. rewrite Hl in H2.
    apply lut_relation_some in Hl as [Hl Hn].
    exists o, u, l. repeat split; auto.
    destruct (rl_restr l) as [[| x |] |]; try discriminate; [exact I |].
    rewrite Hs in H2. eapply restriction_set_ok in H2; eauto.
  - intros (o & u & l & Ho & Hs & Hl & Hn & Hsd & Ha).
    assert (check_symbols p r = Ok tt) as ->.
    { apply check_symbols_ok. exists o, u. repeat split; auto. exists l. auto. }
    cbn [bind]. rewrite Ho. rewrite <- Hn, (lut_relation_found p _ l Hu Hl).
    destruct (rl_restr l) as [[| x |] |]; try contradiction; [reflexivity |].
    rewrite Hs. eapply restriction_set_ok; eauto.
Qed.

(** When a complete relationship makes the validator panic: the relation is declared without restriction. *)
Theorem allowed_panic p r : unique_decls p -> complete_relationship r ->
  (allowed_relationship p (Some r) = Panic <->
   exists o u l, r_object r = Some o /\ r_subject r = Some u /\ relation_of p (e_res o) l /\
     rl_name l = r_relation r /\ subject_declared p u /\ rl_restr l = None).
Proof.
  intros Hu (Hc1 & Hc2 & Hc3). unfold allowed_relationship, subject_restriction_spec. split.
  - intros H. destruct (check_symbols p r) as [[] | e | |] eqn:Hcs; try discriminate; cbn [bind] in H.
    + apply check_symbols_ok in Hcs as (o & u & Ho & Hs & Hd & Hsd). rewrite Ho in H.
      apply lut_relation_declares in Hd as [l Hl]. rewrite Hl in H.
      apply lut_relation_some in Hl as [Hl Hn].
      exists o, u, l. repeat split; auto.
      destruct (rl_restr l) as [[| x |] |]; try discriminate; [| reflexivity].
      rewrite Hs in H. destruct u as [e | [e |] rel | rs |]; cbn in Hsd, H; try contradiction;
        match type of H with (if ?b then _ else _) = _ => destruct b; discriminate end.
    + exfalso. unfold check_symbols in Hcs. destruct (r_object r); [| congruence].
      destruct (lut_get_resource p _); [| discriminate]. destruct (lut_get_relation p _ _); [| discriminate].
      destruct (r_subject r) as [u |]; [| congruence].
      destruct u as [e' | [e' |] rel | rs |]; try discriminate;
        try (destruct (lut_get_resource p _); discriminate); try (destruct (lut_get_relation p _ _); discriminate).
      exfalso. eapply Hc3. reflexivity.
  - intros (o & u & l & Ho & Hs & Hl & Hn & Hsd & Hr).
    assert (check_symbols p r = Ok tt) as ->.
    { apply check_symbols_ok. exists o, u. repeat split; auto. exists l. auto. }
    cbn [bind]. rewrite Ho, <- Hn, (lut_relation_found p _ l Hu Hl), Hr. reflexivity.
Qed.

Lemma allowed_no_fuel p r : allowed_relationship p r <> Fuel.
Proof.
  unfold allowed_relationship, check_symbols, subject_restriction_spec, satisfies_restriction_set.
  destruct r as [r |]; [| discriminate]. destruct (r_object r) as [o |]; [| discriminate].
  destruct (lut_get_resource p _); [| discriminate]. destruct (lut_get_relation p _ _) as [l |]; [| discriminate].
  destruct (r_subject r) as [[e' | [e' |] rel | rs |] |]; cbn [bind]; try discriminate;
  repeat match goal with
  | |- context [match lut_get_resource ?a ?b with _ => _ end] => destruct (lut_get_resource a b); cbn [bind]; try discriminate
  | |- context [match lut_get_relation ?a ?b ?c with _ => _ end] => destruct (lut_get_relation a b c); cbn [bind]; try discriminate
  | |- context [match rl_restr l with _ => _ end] => destruct (rl_restr l) as [[| x |] |]; try discriminate
  | |- context [if ?b then _ else _] => destruct b; try discriminate
  end.
Qed.
