(** Properties of requests that are sent again: C59. *)
From Verif Require Import Base Domain Lexer Validate Store Search Explain Yaml Service Dump Api SpecPolicy SpecStore SpecCrash SpecRetry Fixtures
  BaseFacts ValidateFacts StoreFacts PolicyFacts RelFacts CrashFacts RetryFacts PropsCrash.

(** ** C59 Sending a request again does no harm and completes it *)

Lemma put_rel_twice E pid e d d' s : store_ok E s -> put_rel E pid e d' (put_rel E pid e d s) = put_rel E pid e d' s.
Proof. intros H. unfold put_rel. cbn. f_equal; apply set_set; auto using ecmp_ok, pcmp_ok; apply H. Qed.

Lemma retry_set E n now now' pid r app s : store_ok E s ->
  after E (QSetRelationship now' pid r app) (stopped E n (QSetRelationship now pid r app) s) = after E (QSetRelationship now' pid r app) s.
Proof.
  intros H. destruct (stopped_set E n now pid r app s) as [-> | (rec & e & Hp & Hal & He & [-> | ->])]; [reflexivity | |].
  - rewrite (after_set E now' pid r app s rec e Hp Hal He), (after_set E now' pid r app (put_edge E pid e s) rec e Hp Hal He).
    apply (put_rel_again E pid e _ s H).
  - rewrite (after_set E now' pid r app s rec e Hp Hal He), (after_set E now' pid r app (put_rel E pid e (mkData app now) s) rec e Hp Hal He).
    apply put_rel_twice, H.
Qed.

Lemma stopped_read E n q s : is_read q -> stopped E n q s = s.
Proof.
  intros H. unfold stopped. pose proof (reads_serve E q H) as Hr. revert n. induction Hr; intros [| n]; cbn [crash step1]; auto.
Qed.

Lemma stops {A} (p : prog A) s : exists n, crash n p s = snd (run p s).
Proof.
  revert s. induction p; intros s; cbn [run snd]; try (exists 0; reflexivity);
    match goal with
    | H : forall x s, exists m, _ |- context [run (_ ?y) ?s] => destruct (H y s) as [j Hj]
    | H : forall s, exists m, _ |- context [run _ ?s] => destruct (H s) as [j Hj]
    end; exists (S j); exact Hj.
Qed.

(** Requests that write about one policy or one relationship. Missing: DeletePolicy (C41) and DeleteRelationships (below). *)
Theorem C59_completed_partial : forall E s q n now, reachable E s -> ~ removes_many q ->
  after E (again now q) (stopped E n q s) = after E q s \/ after E (again now q) (stopped E n q s) = after E (again now q) s.
Proof.
  intros E s q n now Hr Hq. pose proof (reachable_ok E s Hr) as H.
  destruct q; cbn [removes_many again] in *; try contradiction; try (rewrite stopped_read by exact I; auto).
  - destruct (stopped_create E n now0 d app s) as [-> | ->]; [auto | apply create_again, H].
  - destruct (stopped_update E n d app s) as [-> | ->]; [auto | left; apply update_again, H].
  - right. apply retry_set, H.
  - right. apply (C40_delete_partial E s n pid r Hr).
Qed.

(** Any completed request, sent again. *)
Theorem C59_twice : forall E s q now, reachable E s ->
  after E (again now q) (after E q s) = after E q s \/ after E (again now q) (after E q s) = after E (again now q) s.
Proof.
  intros E s q now H.
  assert (Hc : removes_many q \/ ~ removes_many q) by (destruct q; cbn; tauto). destruct Hc as [Hc | Hc].
  - apply reachable_ok in H. destruct q; try contradiction; cbn [again]; left; [apply delete_policy_again | apply many_again, H].
  - destruct (stops (serve E q) s) as [n Hn]. fold (after E q s) in Hn.
    pose proof (C59_completed_partial E s q n now H Hc) as Hx. unfold stopped in Hx. rewrite Hn in Hx. exact Hx.
Qed.

(** Removing the selected relationships again completes the removal from the graph; each record is then as if the
    request had been served, or as it was. *)
Theorem C59_many_partial : forall E s pid sel n, reachable E s ->
  let q := QDeleteRelationships pid sel in let s' := after E q (stopped E n q s) in
  (forall pid', relationships s' pid' = relationships (after E q s) pid') /\
  (forall id, answer E (QGetPolicy id) s' = answer E (QGetPolicy id) s) /\
  (forall pid' r, let g := QGetRelationship pid' r in answer E g s' = answer E g (after E q s) \/ answer E g s' = answer E g s).
Proof.
  intros E s pid sel n H q s'. apply reachable_ok in H. subst q s'.
  assert (Hpol : forall s0, st_pol (after E (QDeleteRelationships pid sel) s0) = st_pol s0).
  { intros s0. rewrite after_many. destruct (new_selector_spec sel); try reflexivity. apply drop_keys_pol. }
  destruct (stopped_partly E n pid sel s H) as [-> | (sp & Hsp & Hp)].
  - split; [reflexivity |]. split; [| left; reflexivity]. intros id. rewrite !answer_get_policy. unfold policies. rewrite Hpol. reflexivity.
  - set (s1 := stopped E n (QDeleteRelationships pid sel) s) in *. destruct (partly_again E pid sp s s1 H Hp) as [H1 H2].
    split; [| split].
    + intros pid'. rewrite !after_many, Hsp. unfold relationships, edges_of. rewrite H2. reflexivity.
    + intros id. rewrite !answer_get_policy. unfold policies. rewrite Hpol, (pa_pol _ _ _ _ _ Hp). reflexivity.
    + intros pid' r. cbv zeta. rewrite !after_many, Hsp. unfold answer. cbn [serve]. rewrite !run_respond, !run_get_rel. cbn [fst].
      destruct (to_internal r) as [e | | |]; auto. destruct (partly_data E pid sp s s1 (edge_key E e) H Hp) as [-> | ->]; auto.
Qed.

(** Every selected relationship can be left with a record that sending the removal again does not remove. *)
Theorem C59_many_refuted : forall E s pid sel r k, reachable E s ->
  answer E (QDeleteRelationships pid (Some sel)) s = Ok (ACount k) -> selects sel r -> fully_set E s pid r ->
  exists n, let q := QDeleteRelationships pid (Some sel) in let s' := after E q (stopped E n q s) in
    ~ In r (relationships s' pid) /\
    answer E (QGetRelationship pid (Some r)) s' = answer E (QGetRelationship pid (Some r)) s /\
    answer E (QGetRelationship pid (Some r)) (after E q s) = Ok (ARecord None).
Proof.
  intros E s pid sel r k H Ha Hsel [Hin (rec & Hr)]. apply reachable_ok in H.
  assert (Hsp : exists sp, new_selector_spec (Some sel) = Ok sp).
  { unfold answer in Ha. cbn [serve] in Ha. rewrite answer_respond, run_delete_rels in Ha.
    destruct (new_selector_spec (Some sel)) as [sp | | |]; try discriminate. eauto. }
  destruct Hsp as [sp Hsp]. assert (Hm : In r (matching s pid sp)) by (apply (matching_in sel); auto).
  apply in_split in Hm as (l1 & l2 & Hm). destruct (stop_many E pid (Some sel) sp l1 r l2 s Hsp Hm) as [n Hn].
  exists n. cbv zeta. rewrite Hn, !after_many, Hsp. clear Hn Ha.
  apply (relationships_in E s pid r H) in Hin as (e & He & Hg). rewrite !(get_rel_answer E pid r e _ He).
  assert (Hk : rel_key E r = edge_key E e) by (unfold rel_key; rewrite He; reflexivity).
  set (s1 := drop_edge pid (rel_key E r) (drop_keys pid (map (rel_key E) l1) s)).
  assert (Hp : partly E pid sp s s1).
  { apply partly_edge; [eapply partly_keys; eauto |]. rewrite Hm, map_app. apply in_or_app. right. left. reflexivity. }
  pose proof (pa_ok _ _ _ _ _ Hp) as H1.
  assert (Hn1 : ~ In (rel_key E r) (map (rel_key E) (matching s1 pid sp))).
  { intros Hi. apply (matching_key E s1 pid sp _ H1) in Hi as (e' & Hg' & _). unfold s1 in Hg'. cbn [drop_edge st_edges] in Hg'.
    rewrite (get_del_same ecmp) in Hg'. discriminate. }
  assert (Hl1 : ~ In (rel_key E r) (map (rel_key E) l1)).
  { intros Hi. apply in_map_iff in Hi as (x & Hx & Hi). pose proof (matching_nodup E s pid sp H) as Hnd. rewrite Hm in Hnd.
    apply NoDup_remove_2 in Hnd. apply Hnd. apply in_or_app. left. replace r with x; [exact Hi |].
    apply (stored_key_inj E s pid x r H); [| | exact Hx].
    - assert (Hxm : In x (matching s pid sp)) by (rewrite Hm; apply in_or_app; auto). apply filter_In in Hxm. apply Hxm.
    - apply (relationships_in E s pid r H). eauto. }
  split; [| split].
  - intros Hi. assert (H2 : store_ok E (drop_keys pid (map (rel_key E) (matching s1 pid sp)) s1)) by apply drop_keys_ok, H1.
    apply (relationships_in E _ pid r H2) in Hi as (e' & He' & Hg'). rewrite He in He'. injection He' as <-. rewrite drop_keys_edges in Hg'.
    destruct (string_dec pid pid); [| contradiction]. rewrite <- Hk in Hg'. destruct (in_dec key_dec _ _) in Hg'; [discriminate |].
    unfold s1 in Hg'. cbn [drop_edge st_edges] in Hg'. rewrite (get_del_same ecmp) in Hg'. discriminate.
  - rewrite drop_keys_data. rewrite <- Hk. destruct (in_dec key_dec _ _) as [Hi | _]; [contradiction |]. unfold s1. cbn [drop_edge st_data].
    rewrite drop_keys_data. destruct (in_dec key_dec _ _) as [Hi | _]; [contradiction | reflexivity].
  - rewrite drop_keys_data. rewrite <- Hk. destruct (in_dec key_dec _ _) as [_ | Hi]; [reflexivity |]. exfalso. apply Hi.
    rewrite Hm, map_app. apply in_or_app. right. left. reflexivity.
Qed.

(** A creation stopped before its answer, sent again: the client learns that the policy exists, with the first time. *)
Example C59_example : let q := create "p" in let s := stopped E0 3 q empty_store in
  answer E0 (again 9%N q) s = Err EPolicyExists /\
  answer E0 (QGetPolicy "p") (after E0 (again 9%N q) s) = Ok (APolicy (Some (mkPRec (pol "p") "app" 1%N))).
Proof. vm_compute. split; reflexivity. Qed.

(** A removal stopped after its second operation, sent again. *)
Example C59_example_many : let q := QDeleteRelationships "p" (Some everything) in
  let s := after_all E0 [create "p"; set "p" owner_tuple] empty_store in let s' := after E0 q (stopped E0 3 q s) in
  answer E0 q (stopped E0 3 q s) = Ok (ACount 0) /\ relationships s' "p" = [] /\
  answer E0 (QGetRelationship "p" (Some owner_tuple)) s' = Ok (ARecord (Some (mkRRec "p" owner_tuple 2%N "data"))).
Proof. vm_compute. repeat split; reflexivity. Qed.

Print Assumptions C59_completed_partial.
Print Assumptions C59_twice.
Print Assumptions C59_many_partial.
Print Assumptions C59_many_refuted.
