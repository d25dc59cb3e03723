(** Properties of creation times: C110. *)
From Verif Require Import Base Domain Lexer Parser Validate Store Search Explain Yaml Service Dump Api
  SpecGrammar SpecPolicy SpecStore SpecConc Fixtures BaseFacts ValidateFacts StoreFacts PolicyFacts RelFacts ConcFacts BornFacts.
From Verif Require PropsConc PropsStore.

(** ** C110 Creation times tell when something was created: false *)

(** While no request deletes the policy, it stays and keeps its creation time, whatever requests are served, in whatever
    order their steps are taken, and wherever the server stops. *)
Theorem C110_policy_partial : forall E s qs sched id rec, reachable E s ->
  answer E (QGetPolicy id) s = Ok (APolicy (Some rec)) -> ~ In (QDeletePolicy id) qs ->
  exists rec', answer E (QGetPolicy id) (snd (interleave sched (start E qs s))) = Ok (APolicy (Some rec')) /\
    pr_created rec' = pr_created rec.
Proof.
  intros E s qs sched id rec _ Hp Hn. rewrite answer_get_policy in Hp. injection Hp as Hp.
  destruct (interleave_born E qs s id rec sched Hp Hn) as (rec' & Hr' & Ht). exists rec'. split; [| exact Ht].
  rewrite answer_get_policy. do 2 f_equal. exact Hr'.
Qed.

(** If it is deleted and created again while an update is under way, the update gives the new policy the creation time of the
    old one.  All three requests are answered as successful, the creation with the time that is lost. *)
Theorem C110_policy_refuted : forall E s d app now d' app' id old rec,
  answer E (QUpdatePolicy d app) s = Ok AUpdated -> definition_id d = Some id ->
  answer E (QGetPolicy id) s = Ok (APolicy (Some old)) ->
  answer E (QCreatePolicy now d' app') (after E (QDeletePolicy id) s) = Ok (ACreated rec) -> definition_id d' = Some id ->
  exists sched n rec', let c := interleave sched (start E [QUpdatePolicy d app; QDeletePolicy id; QCreatePolicy now d' app'] s) in
    answered c 0 = Some (Ok AUpdated) /\ answered c 1 = Some (Ok (ADeletedPolicy true n)) /\
    answered c 2 = Some (Ok (ACreated rec)) /\ pr_created rec = now /\
    answer E (QGetPolicy id) (snd c) = Ok (APolicy (Some rec')) /\ pr_created rec' = pr_created old.
Proof.
  intros E s d app now d' app' id old rec Ha Hid Hold Hc Hid'.
  destruct (update_effect E d app s Ha) as (p & old' & Hd & Hp & Hw & _).
  rewrite (defines_definition d p Hd) in Hid. injection Hid as <-. rewrite answer_get_policy, Hp in Hold. injection Hold as <-.
  destruct (PropsConc.update_first E d app s p old' Hd Hp Hw) as (rest & Hst & Hrun).
  destruct (overtake2 E _ (QDeletePolicy (p_id p)) (QCreatePolicy now d' app') s rest Hst) as (sched & A0 & A1 & A2 & A3).
  exists sched, (length (relationships s (p_id p))), (mkPRec p app (pr_created old')). cbv zeta in *. rewrite A0, A1, A2, A3, Hrun. cbn [fst snd].
  split; [reflexivity |]. split.
  { f_equal. serve_eq. rewrite run_delete_policy. unfold policies in Hp. rewrite Hp. reflexivity. }
  split; [rewrite Hc; reflexivity |]. split.
  { destruct (create_cases E now d' app' (after E (QDeletePolicy (p_id p)) s)) as [(q & _ & _ & _ & Hq & _) | [(q & r & _ & _ & Hq & _) | (_ & Hf & _)]];
      [| congruence | contradiction (Hf _ Hc)]. rewrite Hc in Hq. injection Hq as ->. reflexivity. }
  split; [| reflexivity]. rewrite answer_get_policy. do 2 f_equal. unfold policies. cbn. apply (get_set_same scmp scmp_ok).
Qed.

(** Setting a relationship again gives it a new creation time, though the answer says that it existed. *)
Theorem C110_relationship_refuted : forall E s pid rec r now app, reachable E s ->
  answer E (QGetPolicy pid) s = Ok (APolicy (Some rec)) -> admissible (pr_policy rec) r -> In r (relationships s pid) ->
  let q := QSetRelationship now pid (Some r) app in
  answer E q s = Ok (ASet true) /\
  answer E (QGetRelationship pid (Some r)) (after E q s) = Ok (ARecord (Some (mkRRec pid r now app))).
Proof.
  intros E s pid rec r now app H Hp Hadm Hin q. subst q. rewrite answer_get_policy in Hp. injection Hp as Hp.
  pose proof (reachable_ok _ _ H) as Hok.
  destruct (proj2 (set_accepts E now pid r app s Hok) (ex_intro _ rec (conj Hp Hadm))) as (x & Hx).
  assert (exists b, answer E (QSetRelationship now pid (Some r) app) s = Ok (ASet b)) as (b & Hb).
  { revert Hx. serve_eq. destruct (run (set_relationship E now pid (Some r) app) s) as [[b | | |] s']; cbn; intros [=]. eauto. }
  destruct (set_effect E now pid r app s b Hok Hb) as (_ & e & _ & _ & He & Hbe & _).
  apply (relationships_in E _ _ _ Hok) in Hin as (e' & He' & Hg). rewrite He in He'. injection He' as <-. rewrite Hg in Hbe. cbn in Hbe. subst b.
  split; [exact Hb |]. exact (PropsStore.C15_record_shared_by_all_policies E s now pid pid r app true H Hb).
Qed.

(** A creation time and app data are never invented nor put together from two requests: those of a record that is not as it
    was before are those of one request that sets a relationship with the same key, also under concurrency and crashes. *)
Theorem C110_record_partial : forall E s qs sched pid r rec, reachable E s ->
  answer E (QGetRelationship pid (Some r)) (snd (interleave sched (start E qs s))) = Ok (ARecord (Some rec)) ->
  answer E (QGetRelationship pid (Some r)) s = Ok (ARecord (Some rec)) \/
  exists pid' r', In (QSetRelationship (rr_created rec) pid' (Some r') (rr_app rec)) qs /\ same_key E r r'.
Proof.
  intros E s qs sched pid r rec _. pose proof (interleave_record_origin E qs s sched) as Ho. revert Ho.
  generalize (snd (interleave sched (start E qs s))). intros s' Ho. serve_eq. rewrite !run_get_rel.
  destruct (to_internal (Some r)) as [e | | |] eqn:He; cbn; try discriminate.
  destruct (kv_get pcmp (edge_key E e) (st_data s')) as [d |] eqn:Hd; cbn; [| discriminate]. intros [= <-].
  destruct (Ho _ _ Hd) as [-> | (now & pid' & r' & app & e' & Hq & He' & Hk & ->)]; [left; reflexivity | right].
  exists pid', r'. cbn. split; [exact Hq |]. apply same_key_iff; try (apply to_internal_complete; eauto).
  unfold rel_key. rewrite He, He'. exact Hk.
Qed.

(** The policy was created at 1, and at 5 again, and its creation time is 1. *)
Example C110_policy_example : let c := interleave [0; 1; 1; 1; 2; 2; 2; 0; 0]
    (start E0 [QUpdatePolicy (Some (DPolicy (pol "p"))) "new"; QDeletePolicy "p"; PropsConc.create2] (after E0 (create "p") empty_store)) in
  answered c 0 = Some (Ok AUpdated) /\ answered c 1 = Some (Ok (ADeletedPolicy true 0)) /\
  answered c 2 = Some (Ok (ACreated (mkPRec (pol "p") "other" 5%N))) /\
  answer E0 (QGetPolicy "p") (snd c) = Ok (APolicy (Some (mkPRec (pol "p") "new" 1%N))).
Proof. vm_compute. auto. Qed.

(** Without the deletion it stays 1, though a creation and an update are served at the same time. *)
Example C110_kept_example : let c := interleave [0; 1; 0; 1; 0; 1]
    (start E0 [QUpdatePolicy (Some (DPolicy (pol "p"))) "new"; PropsConc.create2] (after E0 (create "p") empty_store)) in
  answered c 0 = Some (Ok AUpdated) /\ answered c 1 = Some (Err EPolicyExists) /\
  answer E0 (QGetPolicy "p") (snd c) = Ok (APolicy (Some (mkPRec (pol "p") "new" 1%N))).
Proof. vm_compute. auto. Qed.

Definition later (t : N) (r : relationship) (app : string) : request := QSetRelationship t "p" (Some r) app.

(** Set at 2 and again at 7: the relationship was created at 7. *)
Example C110_relationship_example : let r := tup "file" "f" "owner" (user "bob") in let s := after_all E0 [create "p"; set "p" r] empty_store in
  answer E0 (QGetRelationship "p" (Some r)) s = Ok (ARecord (Some (mkRRec "p" r 2%N "data"))) /\
  answer E0 (later 7 r "again") s = Ok (ASet true) /\
  answer E0 (QGetRelationship "p" (Some r)) (after E0 (later 7 r "again") s) = Ok (ARecord (Some (mkRRec "p" r 7%N "again"))).
Proof. vm_compute. auto. Qed.

(** Two requests set one relationship at the same time: time and app data are those of one of them. *)
Example C110_record_example : let r := tup "file" "f" "owner" (user "bob") in
  let c := interleave [0; 1; 0; 1; 0; 1; 1; 0] (start E0 [later 7 r "one"; later 8 r "two"] (after E0 (create "p") empty_store)) in
  answered c 0 = Some (Ok (ASet false)) /\ answered c 1 = Some (Ok (ASet false)) /\
  answer E0 (QGetRelationship "p" (Some r)) (snd c) = Ok (ARecord (Some (mkRRec "p" r 7%N "one"))).
Proof. vm_compute. auto. Qed.

Print Assumptions C110_policy_partial.
Print Assumptions C110_policy_refuted.
Print Assumptions C110_relationship_refuted.
Print Assumptions C110_record_partial.
