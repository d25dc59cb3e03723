(** Properties of requests served at the same time: C42 to C45, C48, C49. *)
From Verif Require Import Base Domain Lexer Parser Validate Store Search Explain Yaml Service Dump Api
  SpecGrammar SpecPolicy SpecStore SpecConc Fixtures BaseFacts ValidateFacts StoreFacts PolicyFacts RelFacts ConcFacts.

(** First request 0 takes one step, then request 1 all of its steps, then request 0 the rest. *)
Lemma overtake E q0 q1 s rest : step1 (serve E q0) s = Some (rest, s) ->
  exists k m, let c := interleave (0 :: repeat 1 k ++ repeat 0 m) (start E [q0; q1] s) in
    answered c 0 = Some (fst (run rest (after E q1 s))) /\ answered c 1 = Some (answer E q1 s) /\
    snd c = snd (run rest (after E q1 s)).
Proof.
  intros Hs.
  destruct (complete_one (serve E q1) 1 [rest; serve E q1] s eq_refl) as [k Hk].
  destruct (complete_one rest 0 [rest; Ret (answer E q1 s)] (after E q1 s) eq_refl) as [m Hm].
  exists k, m. cbv zeta.
  assert (H : interleave (0 :: repeat 1 k ++ repeat 0 m) (start E [q0; q1] s)
              = ([Ret (fst (run rest (after E q1 s))); Ret (answer E q1 s)], snd (run rest (after E q1 s)))).
  { change (0 :: repeat 1 k ++ repeat 0 m) with ([0] ++ (repeat 1 k ++ repeat 0 m)). rewrite !interleave_app.
    replace (interleave [0] (start E [q0; q1] s)) with ([rest; serve E q1], s).
    2: { unfold interleave, start. cbn [fold_left map]. unfold advance. cbn [fst nth_error snd]. rewrite Hs. reflexivity. }
    rewrite Hk. cbn [replace]. exact Hm. }
  rewrite H. repeat split.
Qed.

Lemma create_first E now d app s p : defines d p -> policies s (p_id p) = None -> well_formed E p ->
  exists rest, step1 (serve E (QCreatePolicy now d app)) s = Some (rest, s) /\
    forall t, run rest t = (Ok (ACreated (mkPRec p app now)), put_policy (mkPRec p app now) t).
Proof.
  intros Hd Hp Hw. apply defines_ok in Hd. apply verify_ok in Hw. cbn [serve]. unfold create_policy, respond, rbind, lift.
  cbn [pbind]. rewrite Hd. cbn [pbind repo_get_policy step1]. unfold policies in Hp. rewrite Hp. eexists. split; [reflexivity |].
  intros t. cbn [pbind]. rewrite Hw. reflexivity.
Qed.

Lemma update_first E d app s p old : defines d p -> policies s (p_id p) = Some old -> well_formed E p ->
  exists rest, step1 (serve E (QUpdatePolicy d app)) s = Some (rest, s) /\
    forall t, run rest t = (Ok AUpdated, put_policy (mkPRec p app (pr_created old)) t).
Proof.
  intros Hd Hp Hw. apply defines_ok in Hd. apply verify_ok in Hw. cbn [serve]. unfold update_policy, respond, rbind, lift.
  cbn [pbind]. rewrite Hd. cbn [pbind repo_get_policy step1]. unfold policies in Hp. rewrite Hp. eexists. split; [reflexivity |].
  intros t. cbn [pbind]. rewrite Hw. reflexivity.
Qed.

Lemma set_first E now pid r app s b : store_ok E s -> answer E (QSetRelationship now pid (Some r) app) s = Ok (ASet b) ->
  exists rest e, to_internal (Some r) = Ok e /\ step1 (serve E (QSetRelationship now pid (Some r) app)) s = Some (rest, s) /\
    forall t, exists b', run rest t = (Ok (ASet b'), put_rel E pid e (mkData app now) t).
Proof.
  intros Hok Ha. destruct (set_effect _ _ _ _ _ _ _ Hok Ha) as (rec & e & Hp & Hadm & He & _ & _).
  destruct (so_policy _ _ Hok pid rec Hp) as [_ Hw]. apply wf_unique in Hw. apply (allowed_ok (pr_policy rec) r Hw) in Hadm.
  cbn [serve]. unfold set_relationship, respond, rbind, lift. cbn [pbind repo_get_policy step1]. unfold policies in Hp. rewrite Hp.
  eexists _, e. split; [exact He |]. split; [reflexivity |]. intros t. cbn [pbind]. rewrite Hadm. cbn [pbind].
  unfold repo_set_relationship, rbind, lift. rewrite He. cbn. eexists. reflexivity.
Qed.

(** ** C42 Concurrent creates of one policy id: at most one succeeds: false *)

(** Whenever each of two creations of one id would be accepted, both can be, and one of the two is lost. *)
Theorem C42_refuted : forall E s now1 d1 app1 rec1 now2 d2 app2 rec2,
  answer E (QCreatePolicy now1 d1 app1) s = Ok (ACreated rec1) ->
  answer E (QCreatePolicy now2 d2 app2) s = Ok (ACreated rec2) ->
  p_id (pr_policy rec1) = p_id (pr_policy rec2) ->
  exists sched, let c := interleave sched (start E [QCreatePolicy now1 d1 app1; QCreatePolicy now2 d2 app2] s) in
    answered c 0 = Some (Ok (ACreated rec1)) /\ answered c 1 = Some (Ok (ACreated rec2)) /\
    answer E (QGetPolicy (p_id (pr_policy rec1))) (snd c) = Ok (APolicy (Some rec1)).
Proof.
  intros E s now1 d1 app1 rec1 now2 d2 app2 rec2 H1 H2 Hid.
  destruct (create_cases E now1 d1 app1 s) as [(p & Hd & Hn & Hw & Ha & Hs) | [(p & r & _ & _ & Ha & _) | (_ & Hf & _)]];
    [| congruence | contradiction (Hf _ H1)].
  rewrite H1 in Ha. injection Ha as ->.
  destruct (create_first E now1 d1 app1 s p Hd Hn Hw) as (rest & Hst & Hrun).
  destruct (overtake E _ (QCreatePolicy now2 d2 app2) s rest Hst) as (k & m & A0 & A1 & A2).
  eexists. cbv zeta. rewrite A0, A1, A2, H2, Hrun. repeat split. rewrite answer_get_policy. cbn [snd].
  do 2 f_equal. unfold policies. cbn. apply (get_set_same scmp scmp_ok).
Qed.

(** If the policy already exists and no request deletes it, no creation succeeds, whatever else is served. *)
Theorem C42_existing_partial : forall E s qs sched i id rec now d app x, reachable E s ->
  answer E (QGetPolicy id) s = Ok (APolicy (Some rec)) -> ~ In (QDeletePolicy id) qs ->
  nth_error qs i = Some (QCreatePolicy now d app) -> definition_id d = Some id ->
  answered (interleave sched (start E qs s)) i = Some x -> x = Err EPolicyExists.
Proof.
  intros E s qs sched i id rec now d app x H Hp Hn Hi Hd Hx. apply reachable_ok in H. rewrite answer_get_policy in Hp. injection Hp as Hp.
  destruct (create_existing E qs s i id now d app sched H) as [Hc | Hc]; auto; [congruence | |]; unfold answered in Hx; rewrite Hc in Hx; [| congruence].
  destruct (definition_defines _ _ Hd) as (p & Hdp & _). apply defines_ok in Hdp. cbn [serve] in Hx.
  unfold create_policy, respond, rbind, lift in Hx. cbn [pbind] in Hx. rewrite Hdp in Hx. discriminate.
Qed.

Definition create2 : request := QCreatePolicy 5%N (Some (DPolicy (pol "p"))) "other".

Example C42_example : let c := interleave [0; 1; 0; 0; 1; 1] (start E0 [create "p"; create2] empty_store) in
  answered c 0 = Some (Ok (ACreated (mkPRec (pol "p") "app" 1%N))) /\
  answered c 1 = Some (Ok (ACreated (mkPRec (pol "p") "other" 5%N))).
Proof. vm_compute. auto. Qed.

Example C42_example_existing : let c := interleave [0; 1; 0; 0; 1; 1] (start E0 [create "p"; create2] (after E0 (create "p") empty_store)) in
  answered c 0 = Some (Err EPolicyExists) /\ answered c 1 = Some (Err EPolicyExists).
Proof. vm_compute. auto. Qed.

(** ** C43 No relationship survives the deletion of its policy under concurrency: false *)

(** Every relationship that could be set can survive: it is checked before and written after the deletion. *)
Theorem C43_refuted : forall E s now pid r app b, reachable E s ->
  answer E (QSetRelationship now pid (Some r) app) s = Ok (ASet b) ->
  exists sched n b', let c := interleave sched (start E [QSetRelationship now pid (Some r) app; QDeletePolicy pid] s) in
    answered c 0 = Some (Ok (ASet b')) /\ answered c 1 = Some (Ok (ADeletedPolicy true n)) /\
    answer E (QGetPolicy pid) (snd c) = Ok (APolicy None) /\ In r (relationships (snd c) pid).
Proof.
  intros E s now pid r app b H Ha. apply reachable_ok in H.
  destruct (set_effect _ _ _ _ _ _ _ H Ha) as (rec & e & Hp & _ & He & _ & _).
  destruct (set_first E now pid r app s b H Ha) as (rest & e' & He' & Hst & Hrun). rewrite He in He'. injection He' as <-.
  destruct (overtake E _ (QDeletePolicy pid) s rest Hst) as (k & m & A0 & A1 & A2).
  destruct (Hrun (after E (QDeletePolicy pid) s)) as (b' & Hr).
  exists (0 :: repeat 1 k ++ repeat 0 m), (length (relationships s pid)), b'. cbv zeta. rewrite A0, A1, A2, Hr. cbn [fst snd].
  assert (Hok : store_ok E (after E (QDeletePolicy pid) s)) by (apply after_ok, H).
  split; [reflexivity |]. split.
  { do 1 f_equal. serve_eq. rewrite run_delete_policy. unfold policies in Hp. rewrite Hp. reflexivity. }
  split.
  - rewrite answer_get_policy. do 2 f_equal. change (policies (after E (QDeletePolicy pid) s) pid = None).
    serve_eq. rewrite run_delete_policy. unfold policies in Hp. rewrite Hp. cbn [snd]. unfold policies. rewrite drop_keys_pol. apply (get_del_same scmp).
  - apply (relationships_put E); [exact Hok | exists r; exact He |]. left. split; [reflexivity |]. symmetry. apply from_to_internal, He.
Qed.

(** It holds if no request sets relationships of the policy, whatever else is served. *)
Theorem C43_no_setter_partial : forall E s qs sched i id n, reachable E s ->
  nth_error qs i = Some (QDeletePolicy id) -> (forall q, In q qs -> ~ sets_relationship q id) ->
  let c := interleave sched (start E qs s) in
  answered c i = Some (Ok (ADeletedPolicy true n)) -> relationships (snd c) id = [].
Proof.
  intros E s qs sched i id n H Hi Hn c Ha. apply reachable_ok in H.
  pose proof (deleted_empty E qs s i id sched n H Hi Hn Ha) as Hk. unfold relationships.
  destruct (edges_of id (snd c)) as [| [k e] l] eqn:Hl; [reflexivity |]. exfalso. specialize (Hk k). fold c in Hk.
  rewrite <- edges_get, Hl in Hk. cbn [kv_get] in Hk. rewrite (cmp_refl _ pcmp_ok) in Hk. discriminate.
Qed.

Example C43_example : let r := tup "file" "f" "owner" (user "bob") in
  let c := interleave [0; 1; 1; 1; 1; 0; 0; 0] (start E0 [set "p" r; QDeletePolicy "p"] (after E0 (create "p") empty_store)) in
  answered c 0 = Some (Ok (ASet false)) /\ answered c 1 = Some (Ok (ADeletedPolicy true 0)) /\ relationships (snd c) "p" = [r].
Proof. vm_compute. auto. Qed.

Example C43_example_no_setter : let r := tup "file" "f" "owner" (user "bob") in
  let c := interleave [0; 1; 0; 1; 0; 1; 0; 1; 0; 1; 0; 1] (start E0 [QDeletePolicy "p"; create2] (after_all E0 [create "p"; set "p" r] empty_store)) in
  answered c 0 = Some (Ok (ADeletedPolicy true 1)) /\ relationships (snd c) "p" = [].
Proof. vm_compute. auto. Qed.

(** ** C44 A deleted policy stays deleted under concurrency: false *)

(** Every accepted update that began before a deletion can bring the policy back after it. *)
Theorem C44_refuted : forall E s d app, answer E (QUpdatePolicy d app) s = Ok AUpdated ->
  exists id rec k m n, let c := interleave (0 :: repeat 1 k ++ repeat 0 m) (start E [QUpdatePolicy d app; QDeletePolicy id] s) in
    definition_id d = Some id /\
    answered c 0 = Some (Ok AUpdated) /\ answered c 1 = Some (Ok (ADeletedPolicy true n)) /\
    answer E (QGetPolicy id) (snd c) = Ok (APolicy (Some rec)).
Proof.
  intros E s d app Ha. destruct (update_effect E d app s Ha) as (p & old & Hd & Hp & Hw & _).
  destruct (update_first E d app s p old Hd Hp Hw) as (rest & Hst & Hrun).
  destruct (overtake E _ (QDeletePolicy (p_id p)) s rest Hst) as (k & m & A0 & A1 & A2).
  exists (p_id p), (mkPRec p app (pr_created old)), k, m, (length (relationships s (p_id p))). cbv zeta. rewrite A0, A1, A2, Hrun. cbn [fst snd].
  split; [apply defines_definition, Hd |]. split; [reflexivity |]. split.
  - f_equal. serve_eq. rewrite run_delete_policy. unfold policies in Hp. rewrite Hp. reflexivity.
  - rewrite answer_get_policy. do 2 f_equal. unfold policies. cbn. apply (get_set_same scmp scmp_ok).
Qed.

(** It holds if no request creates or updates the policy, whatever else is served. *)
Theorem C44_no_definition_partial : forall E s qs sched i id n, reachable E s ->
  nth_error qs i = Some (QDeletePolicy id) -> (forall q, In q qs -> ~ defines_policy q id) ->
  let c := interleave sched (start E qs s) in
  answered c i = Some (Ok (ADeletedPolicy true n)) -> answer E (QGetPolicy id) (snd c) = Ok (APolicy None).
Proof.
  intros E s qs sched i id n H Hi Hn c Ha. apply reachable_ok in H. rewrite answer_get_policy. do 2 f_equal.
  exact (deleted_gone E qs s i id sched n H Hi Hn Ha).
Qed.

Example C44_example : let c := interleave [0; 1; 1; 1; 0; 0]
    (start E0 [QUpdatePolicy (Some (DPolicy (pol "p"))) "new"; QDeletePolicy "p"] (after E0 (create "p") empty_store)) in
  answered c 0 = Some (Ok AUpdated) /\ answered c 1 = Some (Ok (ADeletedPolicy true 0)) /\
  answer E0 (QGetPolicy "p") (snd c) = Ok (APolicy (Some (mkPRec (pol "p") "new" 1%N))).
Proof. vm_compute. auto. Qed.

(** ** C45 Requests on different policies do not interfere under concurrency *)

(** Leaving out all steps of requests about other policies changes nothing for policy [id]: neither its record and
    edges, nor what is left of its requests, nor their answers. *)
Theorem C45_independent : forall E s qs sched id, reachable E s ->
  let c := interleave sched (start E qs s) in let c' := interleave (filter (about id qs) sched) (start E qs s) in
  answer E (QGetPolicy id) (snd c) = answer E (QGetPolicy id) (snd c') /\
  relationships (snd c) id = relationships (snd c') id /\
  forall i q, nth_error qs i = Some q -> concerns q = Some id -> ~ reads_records q -> answered c i = answered c' i.
Proof.
  intros E s qs sched id H c c'. apply reachable_ok, so_edges in H.
  destruct (interleave_alike id qs sched _ _ (start_alike E id qs s H)) as [_ _ [Hp He] Ht]. fold c c' in Hp, He, Ht.
  split; [| split].
  - rewrite !answer_get_policy. do 2 f_equal. exact Hp.
  - unfold relationships. rewrite He. reflexivity.
  - intros i q Hq Hc Hr. specialize (Ht i). rewrite Hq in Ht. unfold answered.
    destruct (nth_error (fst c) i) as [p1 |]; [| contradiction]. destruct (nth_error (fst c') i) as [p2 |]; [| contradiction].
    destruct Ht as [Ht _]. destruct (Ht Hc Hr) as [-> _]. reflexivity.
Qed.

Example C45_example : let r := tup "file" "f" "owner" (user "bob") in
  let qs := [create "p"; create "q"; set "p" r; QDeletePolicy "q"] in
  let sched := [0; 1; 0; 1; 0; 1; 2; 3; 2; 3; 2; 3; 2; 3] in
  filter (about "p" qs) sched = [0; 0; 0; 2; 2; 2; 2] /\
  answered (interleave sched (start E0 qs empty_store)) 2 = Some (Ok (ASet false)) /\
  relationships (snd (interleave sched (start E0 qs empty_store))) "p" = [r].
Proof. vm_compute. auto. Qed.

(** ** C48 Stored policies come from requests and are well formed, under concurrency and crashes *)

Theorem C48_policies : forall E s qs sched id rec, reachable E s ->
  answer E (QGetPolicy id) (snd (interleave sched (start E qs s))) = Ok (APolicy (Some rec)) ->
  version E qs s id rec /\ p_id (pr_policy rec) = id /\ well_formed E (pr_policy rec).
Proof.
  intros E s qs sched id rec H Ha. apply reachable_ok in H. rewrite answer_get_policy in Ha. injection Ha as Ha.
  destruct (interleave_origin E qs s sched) as [Ho _]. pose proof (Ho _ _ Ha) as Hv. split; [exact Hv |]. exact (version_ok E qs s id rec H Hv).
Qed.

Example C48_example : let c := interleave [0; 1; 0; 0; 1] (start E0 [create "p"; create2] empty_store) in
  answer E0 (QGetPolicy "p") (snd c) = Ok (APolicy (Some (mkPRec (pol "p") "app" 1%N))) /\ answered c 1 = None.
Proof. vm_compute. auto. Qed.

(** ** C49 Stored relationships were set by a request that a version of the policy admits *)

Theorem C49_relationships : forall E s qs sched pid r, reachable E s ->
  In r (relationships (snd (interleave sched (start E qs s))) pid) ->
  In r (relationships s pid) \/
  exists now app rec, In (QSetRelationship now pid (Some r) app) qs /\ version E qs s pid rec /\ admissible (pr_policy rec) r.
Proof.
  intros E s qs sched pid r H Hin. pose proof (reachable_ok _ _ H) as Hok.
  pose proof (reachable_ok _ _ (re_serve E s qs sched H)) as Hok'.
  apply (relationships_in E _ _ _ Hok') in Hin as (e & He & Hg).
  destruct (interleave_origin E qs s sched) as [_ Ho]. destruct (Ho _ _ _ Hg) as [Hs | (now & app & r' & rec & Hq & He' & Hv & Ha)].
  - left. apply (relationships_in E _ _ _ Hok). eauto.
  - right. assert (r' = r) as -> by (rewrite <- (from_to_internal r' e He'); apply from_to_internal, He).
    exists now, app, rec. split; [exact Hq |]. split; [exact Hv |].
    apply allowed_ok; [| exact Ha]. eapply wf_unique. apply (version_ok E qs s pid rec Hok Hv).
Qed.

Example C49_example : let r := tup "file" "f" "owner" (user "bob") in let bad := tup "file" "f" "nothing" (user "bob") in
  let c := interleave [0; 1; 0; 2; 0; 1; 2; 1; 1; 2; 2] (start E0 [create "p"; set "p" r; set "p" bad] empty_store) in
  let c' := interleave [0; 0; 0; 1; 2; 1; 1; 1; 2; 2; 2] (start E0 [create "p"; set "p" r; set "p" bad] empty_store) in
  relationships (snd c) "p" = [] /\ relationships (snd c') "p" = [r].
Proof. vm_compute. auto. Qed.

Print Assumptions C42_refuted.
Print Assumptions C42_existing_partial.
Print Assumptions C43_refuted.
Print Assumptions C43_no_setter_partial.
Print Assumptions C44_refuted.
Print Assumptions C44_no_definition_partial.
Print Assumptions C45_independent.
Print Assumptions C48_policies.
Print Assumptions C49_relationships.
