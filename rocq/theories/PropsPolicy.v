(** Properties of the policy requests: C07, C09, C10, C11, C12, C13, C14, C18, C22. *)
From Verif Require Import Base Domain Lexer Parser Validate Store Search Explain Yaml Service Dump Api
  SpecGrammar SpecPolicy SpecStore Fixtures ValidateFacts StoreFacts PolicyFacts.

(** ** C07 A policy is accepted exactly when it is well formed *)

Theorem C07_create_accepts_exactly_well_formed : forall E now d app s,
  (exists a, answer E (QCreatePolicy now d app) s = Ok a) <->
  exists p, defines d p /\ answer E (QGetPolicy (p_id p)) s = Ok (APolicy None) /\ well_formed E p.
Proof. exact create_accepts. Qed.

Theorem C07_update_accepts_exactly_well_formed : forall E d app s,
  (exists a, answer E (QUpdatePolicy d app) s = Ok a) <->
  exists p r, defines d p /\ answer E (QGetPolicy (p_id p)) s = Ok (APolicy (Some r)) /\ well_formed E p.
Proof. exact update_accepts. Qed.

Example C07_example : well_formed E0 (pol "p").
Proof. apply verify_ok. vm_compute. reflexivity. Qed.

Example C07_example_accepted : answer E0 (create "p") empty_store = Ok (ACreated (mkPRec (pol "p") "app" 1%N)).
Proof. vm_compute. reflexivity. Qed.

(** An undeclared relation in an expression. *)
Example C07_example_rejected :
  answer E0 (QCreatePolicy 1%N (Some (DPolicy
    (mkPolicy "p" "" "" [rs "file" [rl "reader" (XExpr "_this + writer") SRUniversal]] []))) "") empty_store
  = Err ERelExpTree.
Proof. vm_compute. reflexivity. Qed.

(** ** C09 Policy requests never crash the server: false for definitions with missing expressions *)

Theorem C09_policy_requests_never_crash_refuted : forall E now app s,
  (forall id, answer E (QGetPolicy id) s = Ok (APolicy None)) ->
  exists p, answer E (QCreatePolicy now (Some (DPolicy p)) app) s = Panic.
Proof.
  intros E now app s H.
  exists (mkPolicy "p" "" "" [mkResource "file" "" [mkRelation "reader" "" None (Some SRUniversal)]] []).
  specialize (H "p"%string). rewrite answer_get_policy in H. injection H as H.
  serve_eq. rewrite run_create. cbn [get_policy_from_definition p_id]. unfold policies in H. rewrite H. reflexivity.
Qed.

Theorem C09_complete_create_never_crashes_partial : forall E now d app s,
  complete_definition d -> returned (answer E (QCreatePolicy now d app) s).
Proof. exact create_returns. Qed.

Theorem C09_complete_update_never_crashes_partial : forall E d app s,
  complete_definition d -> returned (answer E (QUpdatePolicy d app) s).
Proof. exact update_returns. Qed.

(** The other policy requests answer whatever the request is. *)
Theorem C09_other_policy_requests_never_crash : forall E id s,
  (exists a, answer E (QGetPolicy id) s = Ok a) /\ (exists a, answer E QListPolicyIds s = Ok a) /\
  (exists a, answer E (QDeletePolicy id) s = Ok a).
Proof.
  intros E id s. repeat split; [eexists; reflexivity | eexists; reflexivity |].
  serve_eq. rewrite run_delete_policy. destruct (kv_get scmp id (st_pol s)); eexists; reflexivity.
Qed.

Example C09_example : complete_definition (Some (DPolicy (pol "p"))).
Proof.
  split; [discriminate |]. intros p [= <-] r l (x & Hx & _ & Hl).
  repeat (destruct Hx as [<- | Hx]; [repeat (destruct Hl as [<- | Hl]; [cbn; split; [discriminate | intros t [= <-]; constructor] |]); destruct Hl |]).
  destruct Hx.
Qed.

(** ** C10 A relationship is accepted exactly when the policy allows it *)

Theorem C10_accepted_exactly_when_admissible : forall E now pid r app s, reachable E s ->
  ((exists a, answer E (QSetRelationship now pid (Some r) app) s = Ok a) <->
   exists rec, answer E (QGetPolicy pid) s = Ok (APolicy (Some rec)) /\ admissible (pr_policy rec) r).
Proof.
  intros E now pid r app s H. rewrite (set_accepts E now pid r app s (reachable_ok E s H)).
  setoid_rewrite answer_get_policy. split; intros (rec & Hr & Ha); exists rec; split; auto; congruence.
Qed.

Example C10_example : answer E0 (set "p" (tup "file" "f" "owner" (user "bob"))) (after_all E0 [create "p"] empty_store)
  = Ok (ASet false).
Proof. vm_compute. reflexivity. Qed.

Example C10_example_rejected :
  answer E0 (set "p" (tup "file" "f" "owner" (members "g"))) (after_all E0 [create "p"] empty_store)
  = Err ESubjectNotAllowed.
Proof. vm_compute. reflexivity. Qed.

(** ** C11 A request that fails changes nothing *)

Theorem C11_failed_request_changes_nothing : forall E q s, failed (answer E q s) -> after E q s = s.
Proof. exact failed_unchanged. Qed.

Example C11_example : failed (answer E0 (create "p") (after_all E0 [create "p"] empty_store)).
Proof. intros a. vm_compute. discriminate. Qed.

(** ** C12 SetRelationship never crashes the server: false when the policy has no restriction *)

Theorem C12_set_relationship_never_crashes_refuted : forall E now app now' app',
  exists p r, complete_relationship r /\
    (exists a, answer E (QCreatePolicy now (Some (DPolicy p)) app) empty_store = Ok a) /\
    answer E (QSetRelationship now' (p_id p) (Some r) app')
      (after E (QCreatePolicy now (Some (DPolicy p)) app) empty_store) = Panic.
Proof.
  intros E now app now' app'.
  exists (mkPolicy "p" "" "" [mkResource "file" "" [mkRelation "reader" "" (Some (XTree (TRule RThis))) None]] []).
  exists (tup "file" "f" "reader" (SEntity (ent "file" "g"))).
  split; [repeat split; discriminate |]. split; [eexists; reflexivity | reflexivity].
Qed.

(** Missing: relations whose restriction is absent; the theorem says that nothing else crashes. *)
Theorem C12_crashes_only_without_restriction_partial : forall E now pid r app s,
  reachable E s -> complete_relationship r ->
  (~ returned (answer E (QSetRelationship now pid (Some r) app) s) <->
   exists rec o u l, answer E (QGetPolicy pid) s = Ok (APolicy (Some rec)) /\
     r_object r = Some o /\ r_subject r = Some u /\
     relation_of (pr_policy rec) (e_res o) l /\ rl_name l = r_relation r /\
     subject_declared (pr_policy rec) u /\ rl_restr l = None).
Proof.
  intros E now pid r app s H Hc.
  pose proof (set_panics E now pid r app s (reachable_ok E s H) Hc) as Hp.
  pose proof (set_no_fuel E now pid (Some r) app s) as Hf.
  setoid_rewrite answer_get_policy. split.
  - intros Hn. destruct (proj1 Hp) as (rec & o & u & l & Hr & Hx).
    + unfold returned in Hn. destruct (answer E _ s); auto; exfalso; eauto.
    + exists rec, o, u, l. rewrite Hr. auto.
  - intros (rec & o & u & l & [= Hr] & Hx). rewrite (proj2 Hp) by (exists rec, o, u, l; auto).
    intros [[a [=]] | [e [=]]].
Qed.

(** ** C13 The policy store behaves as a map from id to policy *)

Theorem C13_policy_store_is_a_map : forall E qs,
  exists m, policy_history E (fun _ => None) qs (answers E qs empty_store) m /\
    forall id, answer E (QGetPolicy id) (after_all E qs empty_store) = Ok (APolicy (m id)).
Proof.
  intros E qs. exists (policies (after_all E qs empty_store)). split; [| reflexivity].
  exact (policy_history_sound E qs empty_store (empty_ok E)).
Qed.

Example C13_example :
  answers E0 [create "p"; create "p"; QUpdatePolicy (Some (DPolicy (pol "p"))) "new"; create "q";
              QGetPolicy "p"; QDeletePolicy "q"; QGetPolicy "q"; QListPolicyIds] empty_store
  = [ Ok (ACreated (mkPRec (pol "p") "app" 1%N)); Err EPolicyExists; Ok AUpdated;
      Ok (ACreated (mkPRec (pol "q") "app" 1%N)); Ok (APolicy (Some (mkPRec (pol "p") "new" 1%N)));
      Ok (ADeletedPolicy true 0); Ok (APolicy None); Ok (APolicyIds ["p"%string]) ].
Proof. vm_compute. reflexivity. Qed.

(** ** C14 ListPolicyIds returns every existing policy id exactly once *)

Theorem C14_list_is_exact : forall E s, reachable E s ->
  exists l, answer E QListPolicyIds s = Ok (APolicyIds l) /\ NoDup l /\
    forall id, In id l <-> exists rec, answer E (QGetPolicy id) s = Ok (APolicy (Some rec)).
Proof.
  intros E s H. apply reachable_ok in H. exists (map fst (st_pol s)). split; [reflexivity |]. split.
  - apply BaseFacts.sorted_nodup with (cmp := scmp); [apply BaseFacts.scmp_ok | apply (so_pol _ _ H)].
  - intros id. rewrite (ids_policies E s id H). setoid_rewrite answer_get_policy.
    destruct (policies s id) as [rec |]; split; try congruence; eauto. intros [rec [=]].
Qed.

(** ** C18 DeletePolicy removes the policy and all its relationships and reports their number *)

Theorem C18_delete_policy_is_complete : forall E id s, reachable E s ->
  (forall rec, answer E (QGetPolicy id) s = Ok (APolicy (Some rec)) ->
    answer E (QDeletePolicy id) s = Ok (ADeletedPolicy true (length (relationships s id))) /\
    NoDup (relationships s id) /\
    let s' := after E (QDeletePolicy id) s in
    answer E (QGetPolicy id) s' = Ok (APolicy None) /\ relationships s' id = [] /\
    forall id', id' <> id ->
      answer E (QGetPolicy id') s' = answer E (QGetPolicy id') s /\
      forall r, In r (relationships s' id') <-> In r (relationships s id')) /\
  (answer E (QGetPolicy id) s = Ok (APolicy None) ->
    answer E (QDeletePolicy id) s = Ok (ADeletedPolicy false 0) /\ after E (QDeletePolicy id) s = s /\
    (sequential E s -> relationships s id = [])).
Proof.
  intros E id s Hr. pose proof (reachable_ok E s Hr) as H. split.
  - intros rec Hg. rewrite answer_get_policy in Hg. injection Hg as Hg. unfold policies in Hg.
    unfold answer at 1. cbn zeta. unfold after. cbn [serve]. rewrite answer_respond, after_respond, run_delete_policy, Hg.
    cbn [fst snd wrap]. rewrite !answer_get_policy. split; [reflexivity |].
    split; [apply (relationships_nodup E), H |].
    assert (forall i, policies (drop_keys id (map (rel_key E) (relationships s id)) (drop_policy id s)) i
                      = put (policies s) id None i) as Hp.
    { intros i. rewrite <- policies_drop. unfold policies. rewrite drop_keys_pol. reflexivity. }
    rewrite Hp. unfold put. rewrite String.eqb_refl. split; [reflexivity |]. split.
    + remember (drop_keys id (map (rel_key E) (relationships s id)) (drop_policy id s)) as s' eqn:Hs'.
      destruct (relationships s' id) as [| r l] eqn:Hl; [reflexivity |]. exfalso. subst s'.
      assert (In r (relationships (drop_keys id (map (rel_key E) (relationships s id)) (drop_policy id s)) id)) as Hin
          by (rewrite Hl; left; reflexivity).
      apply (relationships_drop_keys E) in Hin as [Hin Hn]; [| apply drop_policy_ok, H].
      apply Hn. split; [reflexivity |]. apply in_map. exact Hin.
    + intros id' Hne. rewrite !answer_get_policy, Hp. unfold put. apply String.eqb_neq in Hne as Hb. rewrite Hb.
      split; [reflexivity |]. intros r. rewrite (relationships_drop_keys E) by (apply drop_policy_ok, H).
      change (relationships (drop_policy id s) id') with (relationships s id'). tauto.
  - intros Hg. rewrite answer_get_policy in Hg. injection Hg as Hg. repeat split.
    + serve_eq. rewrite run_delete_policy. unfold policies in Hg. rewrite Hg. reflexivity.
    + serve_eq. rewrite run_delete_policy. unfold policies in Hg. rewrite Hg. reflexivity.
    + intros Hq. destruct (relationships s id) as [| r l] eqn:Hl; [reflexivity |]. exfalso.
      apply (sequential_owned E s Hq id r); [rewrite Hl; left; reflexivity | exact Hg].
Qed.

Example C18_example :
  answers E0 [create "p"; set "p" (tup "file" "f" "owner" (user "bob")); set "p" (tup "file" "g" "owner" (user "bob"));
              QDeletePolicy "p"] empty_store
  = [Ok (ACreated (mkPRec (pol "p") "app" 1%N)); Ok (ASet false); Ok (ASet false); Ok (ADeletedPolicy true 2)].
Proof. vm_compute. reflexivity. Qed.

(** ** C22 UpdatePolicy keeps relationships and the creation time *)

Theorem C22_update_keeps_relationships : forall E d app s,
  answer E (QUpdatePolicy d app) s = Ok AUpdated ->
  let s' := after E (QUpdatePolicy d app) s in
  exists p r, defines d p /\ answer E (QGetPolicy (p_id p)) s = Ok (APolicy (Some r)) /\
    answer E (QGetPolicy (p_id p)) s' = Ok (APolicy (Some (mkPRec p app (pr_created r)))) /\
    (forall id, id <> p_id p -> answer E (QGetPolicy id) s' = answer E (QGetPolicy id) s) /\
    (forall pid, relationships s' pid = relationships s pid) /\
    (forall pid x, answer E (QGetRelationship pid x) s' = answer E (QGetRelationship pid x) s).
Proof.
  intros E d app s Ha. cbn zeta. destruct (update_effect E d app s Ha) as (p & r & Hd & Hg & Hw & ->).
  exists p, r. split; [exact Hd |]. rewrite !answer_get_policy, Hg, policies_put. unfold put. cbn [pr_policy].
  rewrite String.eqb_refl. repeat split.
  - intros id Hne. rewrite !answer_get_policy, policies_put. unfold put. cbn [pr_policy].
    apply String.eqb_neq in Hne as ->. reflexivity.
  - intros pid x. unfold answer. cbn [serve]. rewrite !answer_respond, !run_get_rel. reflexivity.
Qed.

Example C22_example :
  answer E0 (QUpdatePolicy (Some (DPolicy (pol "p"))) "new") (after_all E0 [create "p"] empty_store) = Ok AUpdated.
Proof. vm_compute. reflexivity. Qed.

Print Assumptions C07_create_accepts_exactly_well_formed.
Print Assumptions C07_update_accepts_exactly_well_formed.
Print Assumptions C09_policy_requests_never_crash_refuted.
Print Assumptions C09_complete_create_never_crashes_partial.
Print Assumptions C09_complete_update_never_crashes_partial.
Print Assumptions C09_other_policy_requests_never_crash.
Print Assumptions C10_accepted_exactly_when_admissible.
Print Assumptions C11_failed_request_changes_nothing.
Print Assumptions C12_set_relationship_never_crashes_refuted.
Print Assumptions C12_crashes_only_without_restriction_partial.
Print Assumptions C13_policy_store_is_a_map.
Print Assumptions C14_list_is_exact.
Print Assumptions C18_delete_policy_is_complete.
Print Assumptions C22_update_keeps_relationships.
