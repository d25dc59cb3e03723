(** C91: an error answer says what is wrong. *)
From Verif Require Import Base Domain Lexer Parser Validate Store Search Explain Yaml Service Dump Api
  SpecGrammar SpecPolicy SpecStore SpecSearch SpecErrors Fixtures BaseFacts ParserFacts ValidateFacts StoreFacts PolicyFacts RelFacts
  SearchFacts SearchSem SearchTerm SearchExplain GraphFacts PropsStore ErrorFacts SpecConc PropsConc.

Lemma shown_iff E s pid rec : shown E s pid rec <-> policies s pid = Some rec.
Proof. unfold shown. rewrite answer_get_policy. split; congruence. Qed.

Lemma absent_iff E s pid : absent E s pid <-> policies s pid = None.
Proof. unfold absent. rewrite answer_get_policy. split; congruence. Qed.

(** No stored subject is unset. *)
Lemma stored_set E s pid o rel : reachable E s -> ~ key_subject E (relationships s pid) o rel SUnset.
Proof.
  intros H (r & Hr & Hu & _). revert Hr Hu. induction H as [| s qs sched H IH]; [intros [] |].
  intros Hr Hu. destruct (C49_relationships E s qs sched pid r H Hr) as [Hr' | (now & app & rec & _ & _ & Ha)]; [auto |].
  destruct Ha as (o' & u & l & _ & Hu' & _ & _ & Hd & _). rewrite Hu in Hu'. injection Hu' as <-. exact Hd.
Qed.

Lemma stored_search_err E s pid rec n root g e : reachable E s -> policies s pid = Some rec ->
  search E (pr_policy rec) (edges_of pid s) n root g = Err e ->
  search_fault E (pr_policy rec) (key_subject E (relationships s pid)) root e.
Proof.
  intros H Hp. pose proof (reachable_ok _ _ H) as Hok. apply search_err.
  - apply GraphFacts.stored_edges. exact Hok.
  - apply (so_policy _ _ Hok pid rec Hp).
  - intros o rel. apply stored_set. exact H.
Qed.

Lemma definition_err d e : get_policy_from_definition d = Err e ->
  (d = Some (DYaml None) /\ e = EYaml) \/ (d = Some DUnset /\ e = EInvalidVariant).
Proof. destruct d as [[p | [y |] |] |]; cbn; intros [= <-]; auto. Qed.

(** ** Every error is true *)

(** Missing: searches for records with an entity set as the subject, or with a relation under any object. *)
Theorem C91_cause_partial : forall E s q e, reachable E s -> read_as_meant q ->
  answer E q s = Err e -> cause E s q e.
Proof.
  intros E s q e H Hm Ha. pose proof (reachable_ok _ _ H) as Hok.
  destruct q as [now d app | d app | id | id | | now pid r app | pid r | pid r | pid sel | pid sel | n pid a | n pid a f | n pid root f | n pid dd].
  - revert Ha. serve_eq. rewrite run_create. destruct (get_policy_from_definition d) as [p | x | |] eqn:Hd; cbn; try discriminate.
    + apply defines_ok in Hd. destruct (kv_get scmp (p_id p) (st_pol s)) as [rec |] eqn:Hg; cbn.
      * intros [= <-]. eapply ca_create_exists; [exact Hd | apply shown_iff; exact Hg].
      * destruct (verify_policy E p) eqn:Hv; cbn; try discriminate. intros [= ->].
        eapply ca_create_policy; [exact Hd | apply absent_iff; exact Hg | apply verify_err; exact Hv].
    + intros [= ->]. apply definition_err in Hd as [[-> ->] | [-> ->]]; constructor.
  - revert Ha. serve_eq. rewrite run_update. destruct (get_policy_from_definition d) as [p | x | |] eqn:Hd; cbn; try discriminate.
    + apply defines_ok in Hd. destruct (kv_get scmp (p_id p) (st_pol s)) as [rec |] eqn:Hg; cbn.
      * destruct (verify_policy E p) eqn:Hv; cbn; try discriminate. intros [= ->].
        eapply ca_update_policy; [exact Hd | apply shown_iff; exact Hg | apply verify_err; exact Hv].
      * intros [= <-]. eapply ca_update_absent; [exact Hd | apply absent_iff; exact Hg].
    + intros [= ->]. apply definition_err in Hd as [[-> ->] | [-> ->]]; constructor.
  - revert Ha. serve_eq. rewrite run_delete_policy. destruct (kv_get scmp id (st_pol s)); discriminate.
  - discriminate.
  - discriminate.
  - revert Ha. serve_eq. rewrite run_set_rel. destruct (kv_get scmp pid (st_pol s)) as [rec |] eqn:Hg; cbn.
    2:{ intros [= <-]. apply ca_set_absent, absent_iff. exact Hg. }
    destruct r as [r |]; [| discriminate]. destruct (allowed_relationship (pr_policy rec) (Some r)) as [| x | |] eqn:Hx; try discriminate.
    + destruct (to_internal (Some r)) as [| x | |] eqn:Hi; try discriminate. exfalso.
      destruct r as [o rel [[u | [u |] rel' | rs |] |]]; cbn in Hi; try discriminate; destruct o; discriminate.
    + cbn. intros [= ->]. eapply ca_set; [apply shown_iff; exact Hg | apply allowed_err; exact Hx].
  - exfalso. revert Ha. serve_eq. rewrite run_delete_rel. destruct (to_internal r) eqn:Hi; cbn; try discriminate.
    destruct r as [[o rel [[u | [u |] rel' | rs |] |]] |]; cbn in Hi; try discriminate; destruct o; discriminate.
  - exfalso. revert Ha. serve_eq. rewrite run_get_rel. destruct (to_internal r) eqn:Hi; cbn; try discriminate.
    destruct r as [[o rel [[u | [u |] rel' | rs |] |]] |]; cbn in Hi; try discriminate; destruct o; discriminate.
  - rewrite (find_run E pid sel s Hok) in Ha. destruct (policies s pid) as [rec |] eqn:Hg.
    2:{ injection Ha as <-. apply ca_find_absent, absent_iff. exact Hg. }
    destruct sel as [sel |]; [| discriminate]. destruct (Hm pid sel eq_refl) as [Hm1 Hm2].
    apply ca_find with (rec := rec); [apply shown_iff; exact Hg |].
    destruct (valid_selector (pr_policy rec) (Some sel)) as [| x | |] eqn:Hv; try discriminate.
    + destruct (new_selector_spec (Some sel)) as [| x | |] eqn:Hs; try discriminate. injection Ha as ->.
      apply selector_spec_err in Hs as [-> Hs]. exact Hs.
    + injection Ha as ->. apply valid_selector_err; auto. eapply stored_unique; eauto.
  - revert Ha. serve_eq. rewrite run_delete_rels. destruct sel as [sel |]; [| discriminate].
    destruct (new_selector_spec (Some sel)) as [| x | |] eqn:Hs; try discriminate. cbn. intros [= ->].
    apply selector_spec_err in Hs as [-> Hs]. apply ca_delete_many. exact Hs.
  - destruct a as [[o rel a] |].
    + rewrite answer_check in Ha. apply bind_err in Ha as [Ha | (t & _ & Ha)]; [| discriminate]. unfold check_tree in Ha.
      destruct (policies s pid) as [rec |] eqn:Hg.
      * apply ca_check with (rec := rec); [apply shown_iff; exact Hg |]. eapply stored_search_err; eauto.
      * injection Ha as <-. apply ca_check_absent, absent_iff. exact Hg.
    + revert Ha. serve_eq. unfold check, check_search. rewrite run_rbind, run_pbind. cbn [repo_get_policy run fst snd].
      destruct (kv_get scmp pid (st_pol s)) as [rec |] eqn:Hg; cbn; [discriminate |]. intros [= <-].
      apply ca_check_absent, absent_iff. exact Hg.
  - destruct (factory_ok f) as [[Hf Hk] | [Hf Hk]].
    2:{ revert Ha. serve_eq. unfold explain_check. rewrite run_rbind. cbn [lift run fst snd]. rewrite Hf. cbn. intros [= <-].
        apply ca_explain_format. exact Hk. }
    destruct a as [[o rel a] |].
    + rewrite answer_explain, Hf in Ha. cbn [bind] in Ha. apply bind_err in Ha as [Ha | (t & Ht & Ha)].
      * unfold check_tree in Ha. destruct (policies s pid) as [rec |] eqn:Hg.
        -- apply ca_explain with (rec := rec); [apply shown_iff; exact Hg |]. eapply stored_search_err; eauto.
        -- injection Ha as <-. apply ca_explain_absent; [exact Hk | apply absent_iff; exact Hg].
      * unfold check_tree in Ht. destruct (policies s pid) as [rec |] eqn:Hg; [| discriminate].
        apply bind_err in Ha as [Ha | (u & _ & Ha)]; [| discriminate].
        apply (serialize_err n f t e Hk) in Ha as [-> ->]. apply ca_explain_json with (rec := rec). apply shown_iff. exact Hg.
    + revert Ha. serve_eq. unfold explain_check, check_search. rewrite run_rbind. cbn [lift run fst snd]. rewrite Hf.
      rewrite run_rbind, run_pbind. cbn [repo_get_policy run fst snd].
      destruct (kv_get scmp pid (st_pol s)) as [rec |] eqn:Hg; cbn; [discriminate |]. intros [= <-].
      apply ca_explain_absent; [exact Hk | apply absent_iff; exact Hg].
  - destruct (factory_ok f) as [[Hf Hk] | [Hf Hk]].
    2:{ revert Ha. serve_eq. unfold expand. rewrite run_rbind. cbn [lift run fst snd]. rewrite Hf. cbn. intros [= <-].
        apply ca_expand_format. exact Hk. }
    destruct root as [root |].
    + rewrite answer_expand, Hf in Ha. cbn [bind] in Ha. destruct (policies s pid) as [rec |] eqn:Hg.
      2:{ injection Ha as <-. apply ca_expand_absent; [exact Hk | apply absent_iff; exact Hg]. }
      apply bind_err in Ha as [Ha | (t & Ht & Ha)].
      * apply ca_expand with (rec := rec); [apply shown_iff; exact Hg |]. eapply stored_search_err; eauto.
      * apply bind_err in Ha as [Ha | (u & _ & Ha)]; [| discriminate].
        apply (serialize_err n f t e Hk) in Ha as [-> ->]. apply ca_expand_json with (rec := rec). apply shown_iff. exact Hg.
    + revert Ha. serve_eq. unfold expand. rewrite run_rbind. cbn [lift run fst snd]. rewrite Hf.
      rewrite run_pbind. cbn [repo_get_policy run fst snd].
      destruct (kv_get scmp pid (st_pol s)) as [rec |] eqn:Hg; cbn; [discriminate |]. intros [= <-].
      apply ca_expand_absent; [exact Hk | apply absent_iff; exact Hg].
  - destruct (dump_err E n pid dd s e Hok Ha) as [[Hg ->] | (Hg & -> & ->)].
    + apply ca_dump_absent, absent_iff. exact Hg.
    + destruct (policies s pid) as [rec |] eqn:Hp; [| congruence]. apply ca_dump_format with (rec := rec). apply shown_iff. exact Hp.
Qed.

(** The faults named for policies and relationships are faults. *)
Theorem C91_policy_faults : forall E p e, policy_fault E p e -> ~ well_formed E p.
Proof. exact fault_ill_formed. Qed.

Theorem C91_relationship_faults : forall E s pid rec r e, reachable E s -> shown E s pid rec ->
  relationship_fault (pr_policy rec) r e -> ~ admissible (pr_policy rec) r.
Proof.
  intros E s pid rec r e H Hp. apply relationship_fault_inadmissible. apply shown_iff in Hp.
  eapply stored_unique; [apply reachable_ok; exact H | exact Hp].
Qed.

(** ** Nothing is refused without a reason, and the reason is given *)

Theorem C91_refused_policy : forall E s now d app p, reachable E s -> complete_definition d -> defines d p ->
  absent E s (p_id p) -> ~ well_formed E p ->
  exists e, answer E (QCreatePolicy now d app) s = Err e /\ policy_fault E p e.
Proof.
  intros E s now d app p H Hc Hd Hn Hw. apply absent_iff in Hn.
  assert (Hp : get_policy_from_definition d = Ok p) by (apply defines_ok; exact Hd).
  serve_eq. rewrite run_create, Hp. unfold policies in Hn. rewrite Hn.
  destruct (complete_returns E d p Hc Hd) as [[[] Hv] | [e Hv]].
  - exfalso. apply Hw, verify_ok, Hv.
  - rewrite Hv. exists e. split; [reflexivity | apply verify_err; exact Hv].
Qed.

Theorem C91_refused_update : forall E s d app p rec, reachable E s -> complete_definition d -> defines d p ->
  shown E s (p_id p) rec -> ~ well_formed E p ->
  exists e, answer E (QUpdatePolicy d app) s = Err e /\ policy_fault E p e.
Proof.
  intros E s d app p rec H Hc Hd Hn Hw. apply shown_iff in Hn.
  assert (Hp : get_policy_from_definition d = Ok p) by (apply defines_ok; exact Hd).
  serve_eq. rewrite run_update, Hp. unfold policies in Hn. rewrite Hn.
  destruct (complete_returns E d p Hc Hd) as [[[] Hv] | [e Hv]].
  - exfalso. apply Hw, verify_ok, Hv.
  - rewrite Hv. exists e. split; [reflexivity | apply verify_err; exact Hv].
Qed.

Theorem C91_not_found_exactly : forall E s q pid, reachable E s -> needs q pid ->
  (answer E q s = Err EPolicyNotFound <-> absent E s pid).
Proof.
  intros E s q pid H Hq. rewrite absent_iff. pose proof (reachable_ok _ _ H) as Hok.
  destruct Hq as [d app p Hd | now pid r app | pid sel | n pid a | n pid a f Hf | n pid root f Hf | n pid dd].
  - split.
    + intros Ha. apply C91_cause_partial in Ha; [| exact H | intros ? ? [=]].
      inversion Ha as [| | | | | | ? ? p' Hd' Hn | ? ? p' rec x Hd' Hs Hx | | | | | | | | | | | | | | | | |]; subst.
      * rewrite (defines_unique d p p' Hd Hd'). apply absent_iff in Hn. exact Hn.
      * contradiction.
    + intros Hn. apply defines_ok in Hd. serve_eq. rewrite run_update, Hd. unfold policies in Hn. rewrite Hn. reflexivity.
  - split.
    + intros Ha. apply C91_cause_partial in Ha; [| exact H | intros ? ? [=]]. inversion Ha; subst; [apply (absent_iff E); assumption | contradiction].
    + intros Hn. serve_eq. rewrite run_set_rel. unfold policies in Hn. rewrite Hn. reflexivity.
  - rewrite (find_run E pid sel s Hok). destruct (policies s pid) as [rec |]; [| tauto]. split; [| discriminate]. intros Ha. exfalso.
    destruct sel as [sel |]; [| discriminate].
    destruct (valid_selector (pr_policy rec) (Some sel)) as [| x | |] eqn:Hv; try discriminate.
    + destruct (new_selector_spec (Some sel)) as [| x | |] eqn:Hs; try discriminate.
      apply selector_spec_err in Hs as [-> _]. discriminate.
    + injection Ha as ->. revert Hv. unfold valid_selector, valid_object_selector, valid_relation_selector, valid_subject_selector, get_relation_by_name.
      intros Hv. apply bind_err in Hv as [Hv | (? & _ & Hv)].
      { destruct (s_obj sel) as [[[o |] | rs | |] |]; try discriminate; destruct (get_resource_by_name _ _); discriminate. }
      apply bind_err in Hv as [Hv | (? & _ & Hv)].
      { destruct (s_rel sel) as [[] |]; try discriminate;
          (apply bind_err in Hv as [Hv | (? & _ & Hv)]; [destruct (s_obj sel) as [[[] | | |] |]; discriminate |]);
          (destruct (get_resource_by_name _ _); [| discriminate]); cbn in Hv; destruct (find _ _); discriminate. }
      destruct (s_subj sel) as [[[[] |] | | |] |]; try discriminate; cbn [subject_resource_name bind] in Hv;
        destruct (get_resource_by_name _ _); discriminate.
  - split.
    + intros Ha. apply C91_cause_partial in Ha; [| exact H | intros ? ? [=]]. inversion Ha; subst; [apply (absent_iff E); assumption | contradiction].
    + intros Hn. serve_eq. unfold check, check_search. rewrite run_rbind, run_pbind. cbn [repo_get_policy run fst snd].
      unfold policies in Hn. rewrite Hn. reflexivity.
  - split.
    + intros Ha. apply C91_cause_partial in Ha; [| exact H | intros ? ? [=]]. inversion Ha; subst; [apply (absent_iff E); assumption | contradiction].
    + intros Hn. serve_eq. unfold explain_check, check_search. rewrite run_rbind. cbn [lift run fst snd].
      destruct (factory_ok f) as [[-> _] | [_ ?]]; [| contradiction].
      rewrite run_rbind, run_pbind. cbn [repo_get_policy run fst snd]. unfold policies in Hn. rewrite Hn. reflexivity.
  - split.
    + intros Ha. apply C91_cause_partial in Ha; [| exact H | intros ? ? [=]]. inversion Ha; subst; [apply (absent_iff E); assumption | contradiction].
    + intros Hn. serve_eq. unfold expand. rewrite run_rbind. cbn [lift run fst snd].
      destruct (factory_ok f) as [[-> _] | [_ ?]]; [| contradiction].
      rewrite run_pbind. cbn [repo_get_policy run fst snd]. unfold policies in Hn. rewrite Hn. reflexivity.
  - split.
    + intros Ha. apply C91_cause_partial in Ha; [| exact H | intros ? ? [=]]. inversion Ha; subst. apply (absent_iff E). assumption.
    + intros Hn. serve_eq. rewrite DumpFacts.run_dump. unfold policies in Hn. rewrite Hn. reflexivity.
Qed.

Theorem C91_exists_exactly : forall E s now d app p, defines d p ->
  (answer E (QCreatePolicy now d app) s = Err EPolicyExists <-> exists rec, shown E s (p_id p) rec).
Proof.
  intros E s now d app p Hd. setoid_rewrite shown_iff. apply defines_ok in Hd. serve_eq. rewrite run_create, Hd. unfold policies.
  destruct (kv_get scmp (p_id p) (st_pol s)) as [rec |]; cbn.
  - split; [eauto | reflexivity].
  - split; [| intros [rec [=]]]. destruct (verify_policy E p) eqn:Hv; cbn; try discriminate. intros [= ->].
    apply verify_err in Hv. contradiction.
Qed.

(** These requests have no errors of their own. *)
Theorem C91_no_errors : forall E s q e, reachable E s ->
  match q with
  | QDeletePolicy _ | QGetPolicy _ | QListPolicyIds | QDeleteRelationship _ _ | QGetRelationship _ _ => True
  | _ => False
  end -> answer E q s <> Err e.
Proof.
  intros E s q e H Hq Ha. apply C91_cause_partial in Ha; [| exact H | intros ? ? ->; contradiction].
  destruct q; try contradiction; inversion Ha.
Qed.

(** A relation that the policy does not declare is reported, it is not answered by a refusal. *)
Theorem C91_undeclared_relation : forall E s n pid rec o rel a, shown E s pid rec -> ~ declares (pr_policy rec) (e_res o) rel ->
  answer E (QCheck (S n) pid (asks o rel a)) s = Err ERelationNotFound.
Proof.
  intros E s n pid rec o rel a Hp Hd. apply shown_iff in Hp. unfold asks. rewrite answer_check. unfold check_tree. rewrite Hp.
  apply lut_relation_none in Hd. unfold search. cbn [search_path node_id bind existsb goal_found is_terminal orb build handle_entity_set].
  rewrite Hd. reflexivity.
Qed.

(** ** False for the selectors left out *)

(** The resource of the set and its relation are declared; the answer is that a resource is missing. *)
Theorem C91_cause_refuted : forall E s pid rec u rel, reachable E s -> shown E s pid rec ->
  declares (pr_policy rec) (e_res u) rel -> ~ declares_resource (pr_policy rec) rel ->
  let q := QFindRelationshipRecords pid (Some (mkSel (Some OSWild) (Some LSWild) (Some (USSubject (Some (SEntitySet (Some u) rel)))))) in
  answer E q s = Err EResourceNotFound /\ ~ cause E s q EResourceNotFound.
Proof.
  intros E s pid rec u rel H Hp Hd Hn q. pose proof (reachable_ok _ _ H) as Hok. pose proof Hp as Hp'. apply shown_iff in Hp. split.
  - unfold q. rewrite (find_run E _ _ _ Hok), Hp. cbn. apply get_resource_none in Hn. rewrite Hn. reflexivity.
  - intros Hc. inversion Hc as [| | | | | | | | | | | ? ? rec' x Hs Hf | | | | | | | | | | | | |]; subst.
    apply shown_iff in Hs. rewrite Hp in Hs. injection Hs as <-.
    assert (Hr : declares_resource (pr_policy rec) (e_res u)).
    { destruct Hd as (l & (r & Hr & Hrn & _) & _). exists r. auto. }
    destruct Hf as [(o & [= <-] & Hf) | (v & [= <-] & Hf)]; cbn in Hf.
    + apply (Hf (e_res u)); [constructor | exact Hr].
    + apply (Hf (e_res u)); [constructor | exact Hr].
Qed.

(** The relation is declared for one resource, but not for the one without a name. *)
Theorem C91_any_object_refuted : forall E s pid rec rs rel, reachable E s -> shown E s pid rec ->
  declares_resource (pr_policy rec) "" -> ~ declares (pr_policy rec) "" rel -> declares (pr_policy rec) rs rel ->
  let q := QFindRelationshipRecords pid (Some (mkSel (Some OSWild) (Some (LSName rel)) (Some USWild))) in
  answer E q s = Err ERelationNotFound /\ ~ cause E s q ERelationNotFound.
Proof.
  intros E s pid rec rs rel H Hp He Hn Hd q. pose proof (reachable_ok _ _ H) as Hok. apply shown_iff in Hp. split.
  - unfold q. rewrite (find_run E _ _ _ Hok), Hp. cbn [valid_selector valid_object_selector s_obj s_rel s_subj bind
      valid_relation_selector object_selector_resource_name].
    pose proof (stored_unique E s pid rec Hok Hp) as Hu.
    apply get_resource_some in He as [r Hr]. rewrite Hr. rewrite <- (get_relation_some _ _ r rel Hu Hr) in Hn.
    unfold get_relation_by_name in *. destruct (find _ (rs_relations r)) as [l |]; [exfalso; eauto | reflexivity].
  - intros Hc. inversion Hc as [| | | | | | | | | | | ? ? rec' x Hs Hf | | | | | | | | | | | | |]; subst.
    apply shown_iff in Hs. rewrite Hp in Hs. injection Hs as <-.
    destruct Hf as (o & [= <-] & _ & Hf). apply (Hf rs); [constructor | exact Hd].
Qed.

(** ** Cases *)

Definition stored_p : store := after_all E0 [create "p"; set "p" (tup "file" "f" "reader" (members "eng"))] empty_store.

(** Readable by the members of a group, which the policy declares: the search answers that a resource is missing. *)
Example C91_case_refuted : exists rec, shown E0 stored_p "p" rec /\
  declares (pr_policy rec) "group" "member" /\ ~ declares_resource (pr_policy rec) "member" /\
  answer E0 (QFindRelationshipRecords "p" (Some (mkSel (Some OSWild) (Some LSWild) (Some (USSubject (Some (members "eng"))))))) stored_p
    = Err EResourceNotFound.
Proof.
  exists (mkPRec (pol "p") "app" 1%N). split; [reflexivity |]. split.
  - exists (rl "member" (XTree (TRule RThis)) (SRSet [REntity "user"; REntitySet "group" "member"])).
    split; [| reflexivity]. eexists. split; [right; left; reflexivity |]. split; [reflexivity | left; reflexivity].
  - split; [| vm_compute; reflexivity]. apply get_resource_none. reflexivity.
Qed.

Example C91_cases :
  answer E0 (QCheck 9 "q" (asks (ent "file" "f") "reader" (ent "user" "bob"))) stored_p = Err EPolicyNotFound /\
  answer E0 (QCheck 9 "p" (asks (ent "file" "f") "writer" (ent "user" "bob"))) stored_p = Err ERelationNotFound /\
  answer E0 (create "p") stored_p = Err EPolicyExists /\
  answer E0 (set "p" (tup "image" "f" "reader" (user "bob"))) stored_p = Err EResourceNotFound /\
  answer E0 (set "p" (tup "file" "f" "owner" (members "eng"))) stored_p = Err ESubjectNotAllowed /\
  answer E0 (QCreatePolicy 1%N (Some (DPolicy (mkPolicy "q" "" "" [rs "file" [rl "reader" (XExpr "_this +") SRUniversal]] []))) "") stored_p
    = Err EParse /\
  answer E0 (QCreatePolicy 1%N (Some (DPolicy (mkPolicy "q" "" "" [rs "file" []; rs "file" []] []))) "") stored_p
    = Err EDuplicateDefinition.
Proof. vm_compute. repeat split. Qed.

Print Assumptions C91_cause_partial.
Print Assumptions C91_policy_faults.
Print Assumptions C91_relationship_faults.
Print Assumptions C91_refused_policy.
Print Assumptions C91_refused_update.
Print Assumptions C91_not_found_exactly.
Print Assumptions C91_exists_exactly.
Print Assumptions C91_no_errors.
Print Assumptions C91_undeclared_relation.
Print Assumptions C91_cause_refuted.
Print Assumptions C91_any_object_refuted.
