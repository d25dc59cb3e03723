(** Properties of requests that undo each other: C65. *)
From Verif Require Import Base Domain Lexer Parser Validate Store Search Explain Yaml Service Dump Api
  SpecGrammar SpecPolicy SpecStore SpecSearch SpecTouch SpecAck Fixtures BaseFacts ParserFacts ValidateFacts StoreFacts PolicyFacts RelFacts.

(** ** C65 Deleting a relationship undoes setting it: false *)

Lemma after_delete E pid r e s : to_internal (Some r) = Ok e -> after E (QDeleteRelationship pid (Some r)) s = drop_key pid (edge_key E e) s.
Proof. intros He. serve_eq. rewrite run_delete_rel, He. reflexivity. Qed.

Lemma del_set {K V} (cmp : K -> K -> comparison) (OK : cmp_ok cmp) k (v : V) m : kv_sorted cmp m -> kv_get cmp k m = None ->
  kv_del cmp k (kv_set cmp k v m) = m.
Proof.
  intros Hm Hn. apply (sorted_ext cmp OK); [apply sorted_del, sorted_set; assumption | exact Hm |]. intros j.
  rewrite (get_del cmp OK), (get_set cmp OK). destruct (cmp j k) eqn:Hc; auto. apply (cmp_eq _ OK) in Hc as ->. congruence.
Qed.

Lemma set_del {K V} (cmp : K -> K -> comparison) (OK : cmp_ok cmp) k (v : V) m : kv_sorted cmp m -> kv_get cmp k m = Some v ->
  kv_set cmp k v (kv_del cmp k m) = m.
Proof.
  intros Hm Hn. apply (sorted_ext cmp OK); [apply sorted_set, sorted_del; assumption | exact Hm |]. intros j.
  rewrite (get_set cmp OK), (get_del cmp OK). destruct (cmp j k) eqn:Hc; auto. apply (cmp_eq _ OK) in Hc as ->. congruence.
Qed.

Lemma set_answer E now pid r app s a : answer E (QSetRelationship now pid r app) s = Ok a -> exists b, a = ASet b.
Proof. serve_eq. destruct (fst (run (set_relationship E now pid r app) s)); cbn; try discriminate. intros [= <-]. eauto. Qed.

(** Nothing remains of a setting that is taken back, if neither a relationship of the policy nor a record was stored
    under its key. *)
Theorem C65_set_undone_partial : forall E s now pid r app b, reachable E s ->
  answer E (QSetRelationship now pid (Some r) app) s = Ok (ASet b) ->
  (forall r', In r' (relationships s pid) -> ~ same_place E (Some r') (Some r)) ->
  answer E (QGetRelationship pid (Some r)) s = Ok (ARecord None) ->
  after E (QDeleteRelationship pid (Some r)) (after E (QSetRelationship now pid (Some r) app) s) = s.
Proof.
  intros E s now pid r app b H Ha Hn Hg. apply reachable_ok in H.
  destruct (set_effect E now pid r app s b H Ha) as (rec & e & _ & _ & He & _ & ->). rewrite (after_delete E pid r e _ He).
  revert Hg. serve_eq. rewrite run_get_rel, He. cbn [wrap fst]. intros Hg.
  unfold drop_key, put_rel. cbn [st_pol st_edges st_data].
  rewrite (del_set ecmp ecmp_ok), (del_set pcmp pcmp_ok); [destruct s; reflexivity | apply (so_data E), H | | apply (so_edges E), H |].
  - destruct (kv_get pcmp (edge_key E e) (st_data s)); [discriminate | reflexivity].
  - destruct (kv_get ecmp (pid, edge_key E e) (st_edges s)) as [e' |] eqn:Hk; [| reflexivity]. exfalso.
    destruct (so_edge E s H _ _ _ Hk) as [Hi Hke]. apply (Hn (from_internal e')).
    + apply (relationships_in E); [exact H |]. exists e'. split; [apply to_from_internal, Hi | congruence].
    + exists (edge_key E e). split; [exists e'; split; [apply to_from_internal, Hi | exact Hke] | exists e; auto].
Qed.

(** Nothing remains of a deletion that is taken back with the data and the time of the record. *)
Theorem C65_delete_undone_partial : forall E s pid r rec d b, reachable E s ->
  In r (relationships s pid) -> answer E (QGetRelationship pid (Some r)) s = Ok (ARecord (Some d)) ->
  answer E (QGetPolicy pid) s = Ok (APolicy (Some rec)) -> admissible (pr_policy rec) r ->
  answer E (QDeleteRelationship pid (Some r)) s = Ok (ADeleted b) ->
  after E (QSetRelationship (rr_created d) pid (Some r) (rr_app d)) (after E (QDeleteRelationship pid (Some r)) s) = s.
Proof.
  intros E s pid r rec d b H Hin Hg Hp Hadm _. apply reachable_ok in H as Hok.
  pose proof (proj1 (relationships_in E s pid r Hok) Hin) as (e & He & Hk).
  assert (Hok' : store_ok E (after E (QDeleteRelationship pid (Some r)) s)) by apply after_ok, Hok.
  rewrite answer_get_policy in Hp. injection Hp as Hp.
  assert (Hs : exists a, answer E (QSetRelationship (rr_created d) pid (Some r) (rr_app d)) (after E (QDeleteRelationship pid (Some r)) s) = Ok a).
  { apply (set_accepts E _ _ _ _ _ Hok'). exists rec. split; [| exact Hadm]. rewrite (after_delete E pid r e s He). exact Hp. }
  destruct Hs as (a & Ha).
  assert (exists b', a = ASet b') as [b' ->].
  { eapply set_answer; exact Ha. }
  destruct (set_effect E _ _ _ _ _ _ Hok' Ha) as (rec' & e' & _ & _ & He' & _ & ->). assert (e' = e) as -> by congruence.
  rewrite (after_delete E pid r e s He). unfold put_rel, drop_key. cbn [st_pol st_edges st_data].
  revert Hg. serve_eq. rewrite run_get_rel, He. cbn [wrap fst]. intros Hg. destruct (kv_get pcmp (edge_key E e) (st_data s)) as [x |] eqn:Hx; [| discriminate].
  cbn [option_map from_internal_record] in Hg. injection Hg as <-. cbn [rr_app rr_created].
  rewrite (set_del ecmp ecmp_ok), (set_del pcmp pcmp_ok); [destruct s; reflexivity | apply (so_data E), Hok | | apply (so_edges E), Hok | exact Hk].
  rewrite Hx. destruct x. reflexivity.
Qed.

(** A relationship with the same key is lost when the setting is taken back. *)
Theorem C65_same_key_refuted : forall E s now pid r r' app b, reachable E s ->
  In r' (relationships s pid) -> same_place E (Some r') (Some r) ->
  answer E (QSetRelationship now pid (Some r) app) s = Ok (ASet b) ->
  ~ In r' (relationships (after E (QDeleteRelationship pid (Some r)) (after E (QSetRelationship now pid (Some r) app) s)) pid).
Proof.
  intros E s now pid r r' app b H Hin (k & (e1 & He1 & ->) & e2 & He2 & Hk) Ha. apply reachable_ok in H.
  destruct (set_effect E now pid r app s b H Ha) as (rec & e & _ & _ & He & _ & ->). rewrite (after_delete E pid r e _ He).
  assert (e2 = e) as -> by congruence. rewrite drop_key_keys. rewrite (relationships_drop_keys E); [| apply put_rel_ok; [exact H | exists r; exact He]].
  intros [_ Hn]. apply Hn. split; [reflexivity |]. left. unfold rel_key. rewrite He1. symmetry. exact Hk.
Qed.

(** Two relationships of different resources with the same key, whatever the hash function. *)
Definition lookalikes : policy :=
  mkPolicy "p" "n" "d"
    [ rs "user" [];
      rs "team" [rl "member" (XTree (TRule RThis)) SRUniversal];
      rs "teams" [rl "member" (XTree (TRule RThis)) SRUniversal] ] [].
Definition one : relationship := tup "team" "s1" "member" (user "bob").
Definition two : relationship := tup "teams" "1" "member" (user "bob").

Example C65_same_key_example : one <> two /\ (forall E, same_place E (Some one) (Some two)) /\
  let s := after_all E0 [QCreatePolicy 1%N (Some (DPolicy lookalikes)) "app"; set "p" one] empty_store in
  relationships s "p" = [one] /\ answer E0 (set "p" two) s = Ok (ASet true) /\
  relationships (after_all E0 [set "p" two; QDeleteRelationship "p" (Some two)] s) "p" = [].
Proof.
  split; [discriminate |]. split; [| vm_compute; auto].
  intros E. eexists. split; (eexists; split; reflexivity).
Qed.

(** The record of the same relationship of another policy is lost when the setting is taken back. *)
Theorem C65_other_policy_refuted : exists s r, sequential E0 s /\ In r (relationships s "q") /\
  ~ In r (relationships s "p") /\ answer E0 (set "p" r) s = Ok (ASet false) /\
  answer E0 (QGetRelationship "q" (Some r)) s <> Ok (ARecord None) /\
  answer E0 (QGetRelationship "q" (Some r)) (after_all E0 [set "p" r; QDeleteRelationship "p" (Some r)] s) = Ok (ARecord None).
Proof.
  exists (after_all E0 [create "p"; create "q"; set "q" (tup "file" "f" "owner" (user "bob"))] empty_store), (tup "file" "f" "owner" (user "bob")).
  split; [eexists; reflexivity |]. split; [vm_compute; auto |]. split; [vm_compute; tauto |]. split; [vm_compute; reflexivity |].
  split; [vm_compute; discriminate | vm_compute; reflexivity].
Qed.

Example C65_example : let s := after_all E0 [create "p"; set "p" (tup "file" "f" "owner" (user "bob"))] empty_store in
  let r := tup "file" "g" "owner" (user "bob") in
  after_all E0 [set "p" r; QDeleteRelationship "p" (Some r)] s = s /\ after_all E0 [set "p" r] s <> s.
Proof. vm_compute. split; [reflexivity | discriminate]. Qed.

Print Assumptions C65_set_undone_partial.
Print Assumptions C65_delete_undone_partial.
Print Assumptions C65_same_key_refuted.
Print Assumptions C65_other_policy_refuted.
