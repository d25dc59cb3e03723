(** Properties of interrupted requests: C40, C41. *)
From Verif Require Import Base Domain Lexer Parser Validate Store Search Explain Yaml Service Dump Api
  SpecGrammar SpecPolicy SpecStore SpecCrash Fixtures BaseFacts ValidateFacts StoreFacts PolicyFacts RelFacts CrashFacts.

(** ** C40 Setting a relationship is atomic under crashes: false between the two writes *)

Lemma get_rel_answer E pid r e s : to_internal (Some r) = Ok e ->
  answer E (QGetRelationship pid (Some r)) s = Ok (ARecord (option_map (from_internal_record pid e) (kv_get pcmp (edge_key E e) (st_data s)))).
Proof. intros He. serve_eq. rewrite run_get_rel, He. reflexivity. Qed.

(** Every accepted new relationship can be left in the graph without a record. *)
Theorem C40_set_refuted : forall E s now pid r app, reachable E s ->
  (exists a, answer E (QSetRelationship now pid (Some r) app) s = Ok a) -> fully_unset E s pid r ->
  exists n, let s' := stopped E n (QSetRelationship now pid (Some r) app) s in
    In r (relationships s' pid) /\ answer E (QGetRelationship pid (Some r)) s' = Ok (ARecord None).
Proof.
  intros E s now pid r app H (a & Ha) [_ Hn]. apply reachable_ok in H. exists 3. cbv zeta.
  assert (He : exists rec e, policies s pid = Some rec /\ allowed_relationship (pr_policy rec) (Some r) = Ok tt /\ to_internal (Some r) = Ok e).
  { unfold answer in Ha. cbn [serve] in Ha. rewrite answer_respond, run_set_rel in Ha. unfold policies.
    destruct (kv_get scmp pid (st_pol s)) as [rec |]; [| discriminate]. destruct (allowed_relationship (pr_policy rec) (Some r)) as [[] | | |] eqn:Hal; try discriminate.
    destruct (to_internal (Some r)) as [e | | |]; try discriminate. exists rec, e. auto. }
  destruct He as (rec & e & Hp & Hal & He).
  assert (Hs : stopped E 3 (QSetRelationship now pid (Some r) app) s = put_edge E pid e s).
  { unfold stopped, policies in *. cbn [serve]. unfold set_relationship, repo_get_policy, respond, rbind. cbn [pbind crash step1].
    rewrite Hp. unfold lift. cbn [pbind]. rewrite Hal. unfold repo_set_relationship, rbind, lift. cbn [pbind]. rewrite He. reflexivity. }
  rewrite Hs. rewrite (get_rel_answer E pid r e _ He). rewrite (get_rel_answer E pid r e _ He) in Hn. split; [| exact Hn].
  assert (Hi : edge_image e) by (exists r; exact He).
  apply (relationships_in E (put_rel E pid e (mkData app now) s)); [apply put_rel_ok; assumption |]. exists e. split; [exact He |].
  cbn. apply (get_set_same ecmp ecmp_ok).
Qed.

(** Every set relationship can be left with a record but out of the graph. *)
Theorem C40_delete_refuted : forall E s pid r, reachable E s -> fully_set E s pid r ->
  exists n, let s' := stopped E n (QDeleteRelationship pid (Some r)) s in
    ~ In r (relationships s' pid) /\ exists rec, answer E (QGetRelationship pid (Some r)) s' = Ok (ARecord (Some rec)).
Proof.
  intros E s pid r H [Hin (rec & Hr)]. apply reachable_ok in H. exists 2. cbv zeta.
  apply (relationships_in E s pid r H) in Hin as (e & He & Hg).
  assert (Hs : stopped E 2 (QDeleteRelationship pid (Some r)) s = drop_edge pid (edge_key E e) s).
  { unfold stopped. cbn [serve]. unfold delete_relationship, repo_delete_relationship, respond, rbind, lift. rewrite He. reflexivity. }
  rewrite Hs. rewrite (get_rel_answer E pid r e _ He). rewrite (get_rel_answer E pid r e _ He) in Hr. split; [| eauto]. intros Hin.
  apply (relationships_in E (drop_key pid (edge_key E e) s)) in Hin as (e' & He' & Hg'); [| apply drop_key_ok; exact H].
  rewrite He in He'. injection He' as <-. cbn in Hg'. rewrite (get_del_same ecmp) in Hg'. discriminate.
Qed.

(** The graph itself changes at once or not at all, and sending the request again completes it. *)
Theorem C40_set_partial : forall E s n now pid r app, reachable E s ->
  let q := QSetRelationship now pid r app in let s' := stopped E n q s in
  ((forall pid', relationships s' pid' = relationships s pid') \/ (forall pid', relationships s' pid' = relationships (after E q s) pid')) /\
  (forall id, answer E (QGetPolicy id) s' = answer E (QGetPolicy id) s) /\
  after E q s' = after E q s.
Proof.
  intros E s n now pid r app H q s'. apply reachable_ok in H. subst q s'.
  destruct (stopped_set E n now pid r app s) as [-> | (rec & e & Hp & Hal & He & [-> | ->])]; [auto | |];
    destruct (put_rel_again E pid e (mkData app now) s H) as [H1 H2];
    rewrite (after_set E now pid r app s rec e Hp Hal He).
  - split; [right; reflexivity |]. split; [reflexivity |].
    rewrite (after_set E now pid r app (put_edge E pid e s) rec e Hp Hal He). exact H1.
  - split; [right; reflexivity |]. split; [reflexivity |].
    rewrite (after_set E now pid r app (put_rel E pid e (mkData app now) s) rec e Hp Hal He). exact H2.
Qed.

Theorem C40_delete_partial : forall E s n pid r, reachable E s ->
  let q := QDeleteRelationship pid r in let s' := stopped E n q s in
  ((forall pid', relationships s' pid' = relationships s pid') \/ (forall pid', relationships s' pid' = relationships (after E q s) pid')) /\
  (forall id, answer E (QGetPolicy id) s' = answer E (QGetPolicy id) s) /\
  after E q s' = after E q s.
Proof.
  intros E s n pid r H q s'. apply reachable_ok in H. subst q s'.
  destruct (stopped_delete E n pid r s) as [-> | (e & He & [-> | ->])]; [auto | |];
    destruct (drop_key_again E pid (edge_key E e) s H) as [H1 H2]; rewrite !(after_delete E pid r _ e He).
  - split; [right; reflexivity |]. split; [reflexivity | exact H1].
  - split; [right; reflexivity |]. split; [reflexivity | exact H2].
Qed.

Definition owner_tuple : relationship := tup "file" "f" "owner" (user "u").

Example C40_example : sequential E0 (after_all E0 [create "p"] empty_store) /\
  (exists a, answer E0 (set "p" owner_tuple) (after_all E0 [create "p"] empty_store) = Ok a) /\
  fully_unset E0 (after_all E0 [create "p"] empty_store) "p" owner_tuple /\
  fully_set E0 (after_all E0 [create "p"; set "p" owner_tuple] empty_store) "p" owner_tuple.
Proof.
  split; [eexists; reflexivity |]. split; [eexists; vm_compute; reflexivity |]. split; split.
  - vm_compute. tauto.
  - vm_compute. reflexivity.
  - vm_compute. auto.
  - eexists. vm_compute. reflexivity.
Qed.

(** ** C41 Deleting a policy is atomic under crashes: false after the policy is gone *)

(** Stopped after the policy was removed: its relationships stay, and repeating the request does nothing. *)
Theorem C41_refuted : forall E s id rec, reachable E s -> answer E (QGetPolicy id) s = Ok (APolicy (Some rec)) ->
  exists n, let s' := stopped E n (QDeletePolicy id) s in
    answer E (QGetPolicy id) s' = Ok (APolicy None) /\
    relationships s' id = relationships s id /\
    answer E (QDeletePolicy id) s' = Ok (ADeletedPolicy false 0) /\
    after E (QDeletePolicy id) s' = s'.
Proof.
  intros E s id rec H Hp. exists 2. cbv zeta. rewrite answer_get_policy in Hp. injection Hp as Hp. unfold policies in Hp.
  assert (Hs : stopped E 2 (QDeletePolicy id) s = drop_policy id s).
  { unfold stopped. cbn [serve]. unfold delete_policy, repo_delete_policy, respond, rbind. cbn [pbind crash step1]. rewrite Hp. reflexivity. }
  rewrite Hs.
  assert (Hg : kv_get scmp id (st_pol (drop_policy id s)) = None) by apply (get_del_same scmp).
  split; [rewrite answer_get_policy; unfold policies; rewrite Hg; reflexivity |]. split; [reflexivity |].
  split; serve_eq; rewrite run_delete_policy, Hg; reflexivity.
Qed.

(** A policy created later under the same id has the old relationships. *)
Theorem C41_resurrection_refuted : forall E s id rec now d app p, reachable E s ->
  answer E (QGetPolicy id) s = Ok (APolicy (Some rec)) ->
  defines d p -> p_id p = id -> well_formed E p ->
  exists n, let s' := stopped E n (QDeletePolicy id) s in
    (exists a, answer E (QCreatePolicy now d app) s' = Ok a) /\
    relationships (after E (QCreatePolicy now d app) s') id = relationships s id.
Proof.
  intros E s id rec now d app p H Hp Hd Hid Hw. destruct (C41_refuted E s id rec H Hp) as (n & Hn & Hr & _ & _). exists n. cbv zeta.
  set (s' := stopped E n (QDeletePolicy id) s) in *. rewrite answer_get_policy in Hn. injection Hn as Hn.
  destruct (create_cases E now d app s') as [(q & Hq & _ & _ & Ha & Hs) | [(q & r & Hq & Hs & _) | (Hall & _)]].
  - rewrite Ha, Hs. split; [eauto |]. exact Hr.
  - rewrite (defines_unique d q p Hq Hd), Hid in Hs. congruence.
  - destruct (Hall p Hd) as [_ Hnw]. contradiction.
Qed.

(** At every point: the store is untouched, or the policy is gone, no relationship is new, and other policies keep theirs. *)
Theorem C41_partial : forall E s id n, reachable E s ->
  let s' := stopped E n (QDeletePolicy id) s in
  s' = s \/
  (answer E (QGetPolicy id) s' = Ok (APolicy None) /\
   (forall id', id' <> id -> answer E (QGetPolicy id') s' = answer E (QGetPolicy id') s) /\
   (forall r, In r (relationships s' id) -> In r (relationships s id)) /\
   (forall pid r, pid <> id -> (In r (relationships s' pid) <-> In r (relationships s pid)))).
Proof.
  intros E s id n H s'. apply reachable_ok in H. subst s'.
  destruct (stopped_delete_policy E n id s H) as [-> | [Hp [H1 H2 H3 H4 H5]]]; [auto |]. right.
  assert (Hpol : forall id', policies (stopped E n (QDeletePolicy id) s) id' = put (policies s) id None id').
  { intros id'. rewrite <- policies_drop. unfold policies. rewrite H2. reflexivity. }
  repeat split.
  - rewrite answer_get_policy, Hpol. unfold put. rewrite String.eqb_refl. reflexivity.
  - intros id' Hne. rewrite !answer_get_policy, Hpol. unfold put. destruct (String.eqb_spec id' id); [contradiction | reflexivity].
  - apply (relationships_subset E s); auto.
  - apply (relationships_subset E s); auto.
  - apply (relationships_subset E); auto. intros k e Hk. rewrite (H4 pid k) by assumption. exact Hk.
Qed.

(** Repeating the request and then deleting all relationships of the id completes the work. *)
Theorem C41_cleanup_partial : forall E s id n, reachable E s ->
  let s' := after E (QDeleteRelationships id (Some everything)) (after E (QDeletePolicy id) (stopped E n (QDeletePolicy id) s)) in
  answer E (QGetPolicy id) s' = Ok (APolicy None) /\ relationships s' id = [].
Proof.
  intros E s id n H s'. apply reachable_ok in H. subst s'.
  assert (H1 : store_ok E (stopped E n (QDeletePolicy id) s)).
  { destruct (stopped_delete_policy E n id s H) as [-> | [_ [Hok _ _ _ _]]]; assumption. }
  set (s1 := stopped E n (QDeletePolicy id) s) in *. set (s2 := after E (QDeletePolicy id) s1).
  assert (H2 : store_ok E s2) by (apply after_ok; exact H1).
  assert (Hn : policies s2 id = None).
  { unfold s2. serve_eq. rewrite run_delete_policy. destruct (kv_get scmp id (st_pol s1)) eqn:Hg; [| exact Hg].
    cbn [snd]. unfold policies. rewrite drop_keys_pol. apply (get_del_same scmp). }
  assert (H3 : store_ok E (after E (QDeleteRelationships id (Some everything)) s2)) by (apply after_ok; exact H2).
  split.
  - rewrite answer_get_policy. f_equal. f_equal. rewrite <- Hn. unfold policies. rewrite relationships_keep_policies by exact I. reflexivity.
  - destruct (relationships (after E (QDeleteRelationships id (Some everything)) s2) id) as [| r l] eqn:Hr; [reflexivity | exfalso].
    assert (Hin : In r (relationships (after E (QDeleteRelationships id (Some everything)) s2) id)) by (rewrite Hr; left; reflexivity).
    clear Hr l. revert Hin. serve_eq. rewrite run_delete_rels. change (new_selector_spec (Some everything)) with (Ok all_spec). cbn [snd].
    rewrite matching_all. intros Hin.
    assert (Hok : store_ok E (drop_keys id (map (rel_key E) (relationships s2 id)) s2)) by (apply drop_keys_ok; exact H2).
    apply (relationships_in E _ id r Hok) in Hin as (e & He & Hg). rewrite drop_keys_edges in Hg. destruct (string_dec id id); [| contradiction].
    destruct (in_dec key_dec (edge_key E e) (map (rel_key E) (relationships s2 id))) as [_ | Hni]; [discriminate |]. apply Hni.
    apply in_map_iff. exists r. split; [unfold rel_key; rewrite He; reflexivity |]. apply (relationships_in E s2 id r H2). exists e. auto.
Qed.

Example C41_example : exists s, sequential E0 s /\
  answer E0 (QGetPolicy "p") s = Ok (APolicy (Some (mkPRec (pol "p") "app" 1%N))) /\ relationships s "p" = [owner_tuple].
Proof. exists (after_all E0 [create "p"; set "p" owner_tuple] empty_store). split; [eexists; reflexivity |]. split; vm_compute; reflexivity. Qed.

Print Assumptions C40_set_refuted.
Print Assumptions C40_delete_refuted.
Print Assumptions C40_set_partial.
Print Assumptions C40_delete_partial.
Print Assumptions C41_refuted.
Print Assumptions C41_resurrection_refuted.
Print Assumptions C41_partial.
Print Assumptions C41_cleanup_partial.
