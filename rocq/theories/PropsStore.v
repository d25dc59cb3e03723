(** Properties of the relationship requests: C15, C16, C19, C20, C21, C23, C36. *)
From Verif Require Import Base Domain Lexer Parser Validate Store Search Explain Yaml Service Dump Api
  SpecGrammar SpecPolicy SpecStore Fixtures BaseFacts ValidateFacts StoreFacts PolicyFacts RelFacts.

(** ** C15 Relationships behave as a map per policy: false, data is shared and keys collide *)

(** Whatever policy is asked for, the record of the last set in any policy is returned. *)
Theorem C15_record_shared_by_all_policies : forall E s now pid pid' r app b, reachable E s ->
  answer E (QSetRelationship now pid (Some r) app) s = Ok (ASet b) ->
  answer E (QGetRelationship pid' (Some r)) (after E (QSetRelationship now pid (Some r) app) s)
  = Ok (ARecord (Some (mkRRec pid' r now app))).
Proof.
  intros E s now pid pid' r app b H Ha. apply reachable_ok in H.
  destruct (set_effect _ _ _ _ _ _ _ H Ha) as (rec & e & _ & _ & He & _ & ->).
  serve_eq. rewrite run_get_rel. rewrite He. cbn [fst put_rel st_data]. rewrite (get_set_same pcmp pcmp_ok).
  cbn. unfold from_internal_record. rewrite (from_to_internal r e He). reflexivity.
Qed.

(** A relationship never set in policy q, which does not exist, is returned for q. *)
Theorem C15_relationships_are_a_map_refuted : forall E, exists s r rec, sequential E s /\
  answer E (QGetPolicy "q") s = Ok (APolicy None) /\
  answer E (QGetRelationship "q" (Some r)) s = Ok (ARecord (Some rec)).
Proof.
  intros E. pose (s0 := after_all E [create "p"] empty_store).
  pose (r := tup "file" "f" "owner" (user "bob")).
  exists (after E (set "p" r) s0), r, (mkRRec "q" r 2%N "data").
  assert (sequential E s0) as H by (exists [create "p"]; reflexivity).
  split; [apply sequential_after, H |]. split; [reflexivity |].
  apply (C15_record_shared_by_all_policies E s0 2%N "p" "q" r "data" false (sequential_reachable _ _ H)). reflexivity.
Qed.

(** Two different relationships of one policy with one key: setting the second overwrites the first. *)
Definition alias_policy : policy :=
  mkPolicy "p" "" "" [rs "file" [rl "reader" (XTree (TRule RThis)) SRUniversal];
                      rs "files" [rl "reader" (XTree (TRule RThis)) SRUniversal]] [].

Theorem C15_keys_collide_refuted : forall E, exists s r r', sequential E s /\ r <> r' /\
  complete_relationship r /\ complete_relationship r' /\
  In r (relationships s "p") /\ ~ In r' (relationships s "p") /\
  answer E (set "p" r') s = Ok (ASet true) /\
  ~ In r (relationships (after E (set "p" r') s) "p") /\ In r' (relationships (after E (set "p" r') s) "p").
Proof.
  intros E.
  pose (r := tup "file" "s1" "reader" (SEntity (ent "file" "x"))).
  pose (r' := tup "files" "1" "reader" (SEntity (ent "file" "x"))).
  pose (s0 := after_all E [QCreatePolicy 1%N (Some (DPolicy alias_policy)) ""; set "p" r] empty_store).
  assert (sequential E s0) as H by (eexists; reflexivity).
  assert (relationships s0 "p" = [r]) as Hr by reflexivity.
  assert (answer E (set "p" r') s0 = Ok (ASet true)) as Ha.
  { unfold s0. cbn. unfold ecmp. cbn. rewrite (cmp_refl _ pcmp_ok). reflexivity. }
  exists s0, r, r'. split; [exact H |]. split; [discriminate |].
  split; [repeat split; discriminate |]. split; [repeat split; discriminate |].
  rewrite Hr. split; [left; reflexivity |]. split; [intros [Hx | []]; discriminate |]. split; [exact Ha |].
  apply sequential_reachable, reachable_ok in H.
  destruct (set_effect _ _ _ _ _ _ _ H Ha) as (rec & e & _ & _ & He & _ & Hs).
  unfold set in *. rewrite Hs. split.
  - rewrite (relationships_put E) by (auto; exists r'; exact He). rewrite (from_to_internal r' e He).
    intros [[_ Hx] | [_ Hx]]; [discriminate |]. apply Hx. split; [reflexivity |].
    unfold rel_key. cbn. injection He as <-. reflexivity.
  - rewrite (relationships_put E) by (auto; exists r'; exact He). left. split; [reflexivity |].
    symmetry. apply from_to_internal. exact He.
Qed.

(** Missing: histories where two different relationships, of one policy or of two, share a storage key. *)
Theorem C15_relationships_are_a_map_partial : forall E qs, distinct_keys E qs ->
  exists m, rel_history (fun _ _ => None) qs (answers E qs empty_store) m /\
    forall pid r, m pid r <> None <-> In r (relationships (after_all E qs empty_store) pid).
Proof. exact rel_history_sound. Qed.

Definition C15_history : list request :=
  [create "p"; set "p" (tup "file" "f" "owner" (user "bob")); set "p" (tup "file" "g" "reader" (members "eng"));
   QGetRelationship "p" (Some (tup "file" "f" "owner" (user "bob")));
   QDeleteRelationship "p" (Some (tup "file" "f" "owner" (user "bob")));
   QGetRelationship "p" (Some (tup "file" "f" "owner" (user "bob")));
   QFindRelationshipRecords "p" (Some all_relationships_selector)].

Example C15_example_distinct : distinct_keys E0 C15_history.
Proof.
  intros q q' pid pid' r r' Hq Hq' Hm Hm' _ _ [Hk _]. cbn in Hq, Hq'.
  repeat (destruct Hq as [<- | Hq]; [
    try (inversion Hm; fail); inversion Hm; subst;
    repeat (destruct Hq' as [<- | Hq']; [
      try (inversion Hm'; fail); inversion Hm'; subst; try (split; reflexivity); vm_compute in Hk; discriminate |]);
    destruct Hq' |]).
  destruct Hq.
Qed.

Example C15_example_answers : answers E0 C15_history empty_store =
  [ Ok (ACreated (mkPRec (pol "p") "app" 1%N)); Ok (ASet false); Ok (ASet false);
    Ok (ARecord (Some (mkRRec "p" (tup "file" "f" "owner" (user "bob")) 2%N "data")));
    Ok (ADeleted true); Ok (ARecord None);
    Ok (ARecords [Some (mkRRec "p" (tup "file" "g" "reader" (members "eng")) 2%N "data")]) ].
Proof. vm_compute. reflexivity. Qed.

(** ** C16 Policies are isolated from each other: false for relationship records *)

Theorem C16_policies_are_isolated_refuted : forall E, exists s r rec, sequential E s /\
  In r (relationships s "p") /\
  answer E (QGetRelationship "p" (Some r)) s = Ok (ARecord (Some rec)) /\
  answer E (QGetRelationship "p" (Some r)) (after E (QDeleteRelationship "q" (Some r)) s) = Ok (ARecord None) /\
  In r (relationships (after E (QDeleteRelationship "q" (Some r)) s) "p").
Proof.
  intros E. pose (s0 := after_all E [create "p"] empty_store).
  pose (r := tup "file" "f" "owner" (user "bob")).
  assert (sequential E s0) as H by (exists [create "p"]; reflexivity).
  assert (answer E (set "p" r) s0 = Ok (ASet false)) as Ha by reflexivity.
  pose proof (sequential_after E (set "p" r) s0 H) as H1.
  exists (after E (set "p" r) s0), r, (mkRRec "p" r 2%N "data").
  split; [exact H1 |].
  assert (In r (relationships (after E (set "p" r) s0) "p")) as Hin.
  { apply sequential_reachable, reachable_ok in H. destruct (set_effect _ _ _ _ _ _ _ H Ha) as (rec & e & _ & _ & He & _ & Hs).
    unfold set. rewrite Hs. apply (relationships_put E); [exact H | exists r; exact He |]. left.
    split; [reflexivity |]. symmetry. apply from_to_internal. exact He. }
  split; [exact Hin |]. split; [exact (C15_record_shared_by_all_policies E s0 2%N "p" "p" r "data" false (sequential_reachable _ _ H) Ha) |].
  pose proof (reachable_ok _ _ (sequential_reachable _ _ H1)) as H2. unfold answer at 1, after at 1. unfold after at 2. cbn [serve].
  rewrite answer_respond, run_get_rel. cbn [fst].
  rewrite !after_respond, !run_delete_rel.
  destruct (proj1 (to_internal_complete r)) as [e He]; [repeat split; discriminate |]. rewrite He. cbn [snd].
  split.
  - cbn [drop_key st_data]. rewrite (get_del_same pcmp). reflexivity.
  - rewrite drop_key_keys. apply (relationships_drop_keys E); [exact H2 |]. split; [exact Hin |].
    intros [Hx _]. discriminate.
Qed.

(** Missing: records whose storage key a request of the other policy touches. *)
Theorem C16_policies_are_isolated_partial : forall E s q pid pid', reachable E s ->
  writes_policy q pid -> pid' <> pid ->
  let s' := after E q s in
  answer E (QGetPolicy pid') s' = answer E (QGetPolicy pid') s /\
  relationships s' pid' = relationships s pid' /\
  (forall q', graph_request q' pid' -> answer E q' s' = answer E q' s) /\
  (forall r, complete_relationship r ->
     (forall x, complete_relationship x -> In x (relationships s pid) \/ mentions q pid x -> ~ same_key E x r) ->
     answer E (QGetRelationship pid' (Some r)) s' = answer E (QGetRelationship pid' (Some r)) s).
Proof.
  intros E s q pid pid' H Hw Hne s'. apply reachable_ok in H.
  destruct (writes_other E q pid pid' s H Hw Hne) as [He Hp]. fold s' in He, Hp.
  repeat split.
  - rewrite !answer_get_policy, Hp. reflexivity.
  - unfold relationships. rewrite He. reflexivity.
  - intros q' Hq'. apply (graph_answer E q' pid'); [exact Hq' | exact He | rewrite Hp; reflexivity].
  - intros r Hc Hk. apply (record_other E q pid pid' s r H Hw Hc Hk).
Qed.

(** ** C19 Selectors select exactly the matching relationships *)

Theorem C19_find_is_exact : forall E s pid sel l, reachable E s ->
  answer E (QFindRelationshipRecords pid (Some sel)) s = Ok (ARecords l) ->
  exists rels, NoDup rels /\
    (forall r, In r rels <-> In r (relationships s pid) /\ selects sel r) /\
    Forall2 (fun r x => answer E (QGetRelationship pid (Some r)) s = Ok (ARecord x) /\
                        forall rec, x = Some rec -> rr_policy rec = pid /\ rr_rel rec = r) rels l.
Proof.
  intros E s pid sel l H Ha. apply reachable_ok in H. rewrite (find_run E) in Ha by exact H.
  destruct (policies s pid) as [rec |]; [| discriminate].
  destruct (valid_selector (pr_policy rec) (Some sel)); try discriminate.
  destruct (new_selector_spec (Some sel)) as [sp | | |] eqn:Hsp; try discriminate. injection Ha as <-.
  exists (matching s pid sp). split; [apply (matching_nodup E), H |]. split; [intros r; apply matching_in, Hsp |].
  assert (forall r, In r (matching s pid sp) -> In r (relationships s pid)) as Hsub
      by (intros r Hr; apply (matching_in sel) in Hr; tauto).
  induction (matching s pid sp) as [| r rels IH]; [constructor |]. cbn [map]. constructor.
  - specialize (Hsub r (or_introl eq_refl)). apply (relationships_in E) in Hsub as (e & He & _); [| exact H]. split.
    + serve_eq. rewrite run_get_rel, He. unfold record_of, rel_key. rewrite He. cbn [wrap fst].
      destruct (kv_get pcmp (edge_key E e) (st_data s)); [| reflexivity].
      cbn. unfold from_internal_record. rewrite (from_to_internal r e He). reflexivity.
    + unfold record_of. intros x Hx. destruct (kv_get pcmp (rel_key E r) (st_data s)); [| discriminate].
      injection Hx as <-. auto.
  - apply IH. intros x Hx. apply Hsub. right. exact Hx.
Qed.

Theorem C19_delete_is_exact : forall E s pid sel n, reachable E s ->
  answer E (QDeleteRelationships pid (Some sel)) s = Ok (ACount n) ->
  let s' := after E (QDeleteRelationships pid (Some sel)) s in
  (exists rels, NoDup rels /\ n = length rels /\
     forall r, In r rels <-> In r (relationships s pid) /\ selects sel r) /\
  (forall r, In r (relationships s' pid) <-> In r (relationships s pid) /\ ~ selects sel r) /\
  (forall pid', pid' <> pid -> relationships s' pid' = relationships s pid') /\
  (forall id, answer E (QGetPolicy id) s' = answer E (QGetPolicy id) s).
Proof.
  intros E s pid sel n H Ha. apply reachable_ok in H. cbn zeta.
  assert (forall id, answer E (QGetPolicy id) (after E (QDeleteRelationships pid (Some sel)) s) = answer E (QGetPolicy id) s) as Hp.
  { intros id. rewrite !answer_get_policy. unfold policies. rewrite relationships_keep_policies by exact I. reflexivity. }
  assert (forall pid', pid' <> pid ->
            relationships (after E (QDeleteRelationships pid (Some sel)) s) pid' = relationships s pid') as Ho.
  { intros pid' Hne. unfold relationships.
    destruct (writes_other E (QDeleteRelationships pid (Some sel)) pid pid' s H eq_refl Hne) as [-> _]. reflexivity. }
  revert Ha. unfold answer at 1. cbn [serve]. rewrite answer_respond, run_delete_rels.
  destruct (new_selector_spec (Some sel)) as [sp | | |] eqn:Hsp; try discriminate. cbn [wrap fst]. intros [= <-].
  split; [exists (matching s pid sp); split; [apply (matching_nodup E), H |]; split; [reflexivity |]; intros r; apply matching_in, Hsp |].
  split; [| split; [exact Ho | exact Hp]].
  intros r. unfold after. cbn [serve]. rewrite after_respond, run_delete_rels, Hsp. cbn [snd].
  rewrite (relationships_delete_many E s pid pid sel sp r H Hsp). tauto.
Qed.

Definition owned_by_bob : selector :=
  mkSel (Some (OSResource "file")) (Some (LSName "owner")) (Some (USSubject (Some (user "bob")))).

Example C19_example : answers E0 [create "p"; set "p" (tup "file" "f" "owner" (user "bob"));
    set "p" (tup "file" "g" "owner" (user "amy")); QFindRelationshipRecords "p" (Some owned_by_bob);
    QDeleteRelationships "p" (Some owned_by_bob)] empty_store =
  [ Ok (ACreated (mkPRec (pol "p") "app" 1%N)); Ok (ASet false); Ok (ASet false);
    Ok (ARecords [Some (mkRRec "p" (tup "file" "f" "owner" (user "bob")) 2%N "data")]); Ok (ACount 1) ].
Proof. vm_compute. reflexivity. Qed.

(** ** C20 FindRelationshipRecords accepts every selector over declared names: false for entity sets *)

(** An entity-set subject is refused unless its relation has the name of a resource. *)
Theorem C20_selectors_accepted_refuted : forall E s pid sel rec e rel, reachable E s ->
  answer E (QGetPolicy pid) s = Ok (APolicy (Some rec)) ->
  s_subj sel = Some (USSubject (Some (SEntitySet e rel))) -> ~ declares_resource (pr_policy rec) rel ->
  failed (answer E (QFindRelationshipRecords pid (Some sel)) s).
Proof.
  intros E s pid sel rec e rel H Hg Hs Hn. rewrite answer_get_policy in Hg. injection Hg as Hg.
  eapply find_entity_set_rejected; eauto. apply reachable_ok, H.
Qed.

Definition readable_by_eng : selector :=
  mkSel (Some (OSResource "file")) (Some (LSName "reader")) (Some (USSubject (Some (members "eng")))).

Example C20_example_declared : selector_declared (pol "p") readable_by_eng /\ complete_selector readable_by_eng.
Proof.
  split.
  - cbn. split; [| split].
    + exists (nth 3 (p_resources (pol "p")) (rs "" [])). cbn. auto 10.
    + exists (rl "reader" (XExpr "_this + owner + parent->viewer") SRUniversal). split; [| reflexivity].
      exists (nth 3 (p_resources (pol "p")) (rs "" [])). cbn. auto 10.
    + exists (rl "member" (XTree (TRule RThis)) (SRSet [REntity "user"; REntitySet "group" "member"])). split; [| reflexivity].
      exists (nth 1 (p_resources (pol "p")) (rs "" [])). cbn. auto 10.
  - repeat split; eexists; repeat split; discriminate.
Qed.

Example C20_example_rejected :
  answer E0 (QFindRelationshipRecords "p" (Some readable_by_eng)) (after_all E0 [create "p"] empty_store)
  = Err EResourceNotFound.
Proof. vm_compute. reflexivity. Qed.

(** Missing: entity-set subjects, and relation names under any object. *)
Theorem C20_selectors_accepted_partial : forall E s pid sel rec, reachable E s -> complete_selector sel ->
  answer E (QGetPolicy pid) s = Ok (APolicy (Some rec)) ->
  selector_declared (pr_policy rec) sel -> plain_selector sel ->
  exists l, answer E (QFindRelationshipRecords pid (Some sel)) s = Ok (ARecords l).
Proof.
  intros E s pid sel rec H Hc Hg. rewrite answer_get_policy in Hg. injection Hg as Hg.
  apply find_accepts; auto. apply reachable_ok, H.
Qed.

(** ** C21 FindRelationshipRecords never crashes the server: false *)

(** The exact condition of the crash: a relation name under any object. *)
Theorem C21_find_crashes_exactly_refuted : forall E s pid sel, reachable E s -> complete_selector sel ->
  (~ returned (answer E (QFindRelationshipRecords pid (Some sel)) s) <->
   exists rec n, answer E (QGetPolicy pid) s = Ok (APolicy (Some rec)) /\
     s_obj sel = Some OSWild /\ s_rel sel = Some (LSName n) /\ ~ declares_resource (pr_policy rec) "").
Proof.
  intros E s pid sel H Hc. pose proof (find_panics E pid sel s (reachable_ok E s H) Hc) as Hp.
  setoid_rewrite answer_get_policy. split.
  - intros Hn. destruct (proj1 Hp) as (rec & n & Hr & Hx).
    + unfold returned in Hn. destruct (answer E _ s); auto; exfalso; apply Hn; eauto.
    + exists rec, n. rewrite Hr. auto.
  - intros (rec & n & [= Hr] & Hx) Hret. destruct (proj2 Hp) as [Hz | Hz]; [exists rec, n; auto | |];
      rewrite Hz in Hret; destruct Hret as [[? [=]] | [? [=]]].
Qed.

Example C21_example :
  answer E0 (QFindRelationshipRecords "p" (Some (mkSel (Some OSWild) (Some (LSName "owner")) (Some USWild))))
    (after_all E0 [create "p"] empty_store) = Panic.
Proof. vm_compute. reflexivity. Qed.

Theorem C21_find_never_crashes_partial : forall E s pid sel, reachable E s -> complete_selector sel ->
  plain_selector sel -> returned (answer E (QFindRelationshipRecords pid (Some sel)) s).
Proof.
  intros E s pid sel H Hc [_ Hp]. pose proof (find_panics E pid sel s (reachable_ok E s H) Hc) as Hx.
  unfold returned. destruct (answer E (QFindRelationshipRecords pid (Some sel)) s) eqn:Ha; eauto; exfalso;
    (destruct (proj1 Hx) as (rec & n & _ & Ho & Hl & _); [auto |]; exact (Hp n Hl Ho)).
Qed.

(** ** C23 Stored relationships read back as written *)

Theorem C23_reads_back : forall E s now pid r app b, reachable E s ->
  answer E (QSetRelationship now pid (Some r) app) s = Ok (ASet b) ->
  let s' := after E (QSetRelationship now pid (Some r) app) s in
  In r (relationships s' pid) /\
  answer E (QGetRelationship pid (Some r)) s' = Ok (ARecord (Some (mkRRec pid r now app))) /\
  forall sel l, selects sel r -> answer E (QFindRelationshipRecords pid (Some sel)) s' = Ok (ARecords l) ->
    In (Some (mkRRec pid r now app)) l.
Proof.
  intros E s now pid r app b H Ha s'.
  assert (In r (relationships s' pid)) as Hin.
  { pose proof (reachable_ok E s H) as H0. destruct (set_effect _ _ _ _ _ _ _ H0 Ha) as (rec & e & _ & _ & He & _ & Hs).
    unfold s'. rewrite Hs. apply (relationships_put E); [exact H0 | exists r; exact He |]. left.
    split; [reflexivity |]. symmetry. apply from_to_internal. exact He. }
  assert (answer E (QGetRelationship pid (Some r)) s' = Ok (ARecord (Some (mkRRec pid r now app)))) as Hg
      by (eapply C15_record_shared_by_all_policies; eauto).
  repeat split; auto. intros sel l Hsel Hf.
  destruct (C19_find_is_exact E s' pid sel l (reachable_after E _ s H) Hf) as (rels & _ & Hrels & Hall).
  assert (In r rels) as Hr by (apply Hrels; auto). clear Hrels Hf. revert Hr.
  induction Hall as [| x y rels l [Hx _] _ IH]; [intros [] |]. intros [-> | Hr]; [| right; auto].
  left. rewrite Hg in Hx. injection Hx as <-. reflexivity.
Qed.

(** The nodes of the graph are stored without loss too. *)
Theorem C23_nodes : forall n i, from_public_node n = Ok i -> to_public_node i = n.
Proof. intros [[o |] rel | [o |] | rs |] i; cbn; intros H; try discriminate; injection H as <-; try destruct o; reflexivity. Qed.

Example C23_example :
  answers E0 [create "p"; set "p" (tup "file" "f" "reader" (SResourceSet "user"));
    QFindRelationshipRecords "p" (Some all_relationships_selector)] empty_store =
  [ Ok (ACreated (mkPRec (pol "p") "app" 1%N)); Ok (ASet false);
    Ok (ARecords [Some (mkRRec "p" (tup "file" "f" "reader" (SResourceSet "user")) 2%N "data")]) ].
Proof. vm_compute. reflexivity. Qed.

(** ** C36 Decisions depend only on the current relationships *)

Theorem C36_decisions_depend_on_relationships_only : forall E s s' pid rec rec',
  reachable E s -> reachable E s' ->
  answer E (QGetPolicy pid) s = Ok (APolicy (Some rec)) ->
  answer E (QGetPolicy pid) s' = Ok (APolicy (Some rec')) -> pr_policy rec = pr_policy rec' ->
  (forall r, In r (relationships s pid) <-> In r (relationships s' pid)) ->
  forall q, graph_request q pid -> answer E q s = answer E q s'.
Proof.
  intros E s s' pid rec rec' H H' Hg Hg' Hp Hr q Hq. rewrite answer_get_policy in Hg, Hg'.
  injection Hg as Hg. injection Hg' as Hg'. apply (graph_answer E q pid); auto.
  - apply (edges_of_ext E); auto; apply reachable_ok; assumption.
  - rewrite Hg, Hg'. cbn. congruence.
Qed.

(** Set twice, in another order, with one relationship set and deleted: the same decision. *)
Example C36_example :
  let r1 := tup "file" "f" "owner" (user "bob") in
  let r2 := tup "file" "f" "reader" (members "eng") in
  let r3 := tup "group" "eng" "member" (user "amy") in
  let s := after_all E0 [create "p"; set "p" r1; set "p" r2; set "p" r3] empty_store in
  let s' := after_all E0 [create "p"; set "p" r3; set "p" r2; set "p" r1; QDeleteRelationship "p" (Some r1);
                          set "p" r2; set "p" r1] empty_store in
  relationships s "p" = relationships s' "p" /\
  answer E0 (QCheck 20 "p" (Some (mkAccess (Some (ent "file" "f")) "reader" (Some (ent "user" "amy"))))) s' =
  Ok (ADecision true).
Proof. vm_compute. split; reflexivity. Qed.

Print Assumptions C15_record_shared_by_all_policies.
Print Assumptions C15_relationships_are_a_map_refuted.
Print Assumptions C15_keys_collide_refuted.
Print Assumptions C15_relationships_are_a_map_partial.
Print Assumptions C16_policies_are_isolated_refuted.
Print Assumptions C16_policies_are_isolated_partial.
Print Assumptions C19_find_is_exact.
Print Assumptions C19_delete_is_exact.
Print Assumptions C20_selectors_accepted_refuted.
Print Assumptions C20_selectors_accepted_partial.
Print Assumptions C21_find_crashes_exactly_refuted.
Print Assumptions C21_find_never_crashes_partial.
Print Assumptions C23_reads_back.
Print Assumptions C23_nodes.
Print Assumptions C36_decisions_depend_on_relationships_only.
