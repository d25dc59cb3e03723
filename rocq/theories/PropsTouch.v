(** Properties of requests that touch different places, or the same relationship: C60, C61. *)
From Coq Require Import Permutation.
From Verif Require Import Base Domain Lexer Validate Store Search Explain Yaml Service Dump Api SpecPolicy SpecStore SpecCrash SpecConc SpecTouch Fixtures
  BaseFacts ValidateFacts StoreFacts PolicyFacts RelFacts CrashFacts ConcFacts TouchFacts PropsCrash.

(** ** C60 Requests that touch different data do not interfere *)

(** Each is answered as if it were the only one. *)
Theorem C60_answers : forall E s qs sched i q x, reachable E s -> all_independent E qs -> nth_error qs i = Some q ->
  answered (interleave sched (start E qs s)) i = Some x -> x = answer E q s.
Proof.
  intros E s qs sched i q x H Hind. apply reachable_ok, ok_sorted in H. apply separate_answer; assumption.
Qed.

(** When all are answered the store is as if they had been served one after the other. *)
Theorem C60_result : forall E s qs sched, reachable E s -> all_independent E qs ->
  finished (interleave sched (start E qs s)) -> snd (interleave sched (start E qs s)) = after_all E qs s.
Proof.
  intros E s qs sched H Hind Hf. apply reachable_ok, ok_sorted in H. destruct (one_by_one_start E qs s) as (sched' & Hf' & <-).
  apply separate_unique; assumption.
Qed.

Lemma independent_cons E q qs : all_independent E (q :: qs) <-> (forall q', In q' qs -> independent E q q') /\ all_independent E qs.
Proof.
  split.
  - intros H. split.
    + intros q' Hq. apply In_nth_error in Hq as [j Hj]. apply (H 0 (S j) q q'); [reflexivity | exact Hj | discriminate].
    + intros i j a b Ha Hb Hij. apply (H (S i) (S j) a b Ha Hb). congruence.
  - intros [H1 H2] [| i] [| j] a b Ha Hb Hij; cbn in *.
    + contradiction.
    + injection Ha as <-. apply H1. eapply nth_error_In, Hb.
    + injection Hb as <-. apply independent_sym, H1. eapply nth_error_In, Ha.
    + apply (H2 i j a b Ha Hb). congruence.
Qed.

Lemma independent_perm E qs qs' : Permutation qs qs' -> all_independent E qs -> all_independent E qs'.
Proof.
  induction 1 as [| q l l' Hp IH | a b l | l l' l'' _ IH _ IH'].
  - auto.
  - rewrite !independent_cons. intros [H1 H2]. split; [| auto]. intros q' Hq. apply H1. eapply Permutation_in; [apply Permutation_sym |]; eassumption.
  - rewrite !independent_cons. intros [H1 [H2 H3]]. split; [| split; [| exact H3]].
    + intros q' [<- | Hq]; [apply independent_sym, H1; left; reflexivity | apply H2, Hq].
    + intros q' Hq. apply H1. right. exact Hq.
  - auto.
Qed.

Lemma independent_pair E q q' s : store_ok E s -> independent E q q' -> after E q (after E q' s) = after E q' (after E q s).
Proof.
  intros H Hi. assert (Ha : all_independent E [q; q']).
  { apply independent_cons. split; [intros x [<- | []]; exact Hi |]. apply independent_cons. split; [intros x [] |]. intros [] []; discriminate. }
  destruct (one_by_one_start E [q; q'] s) as (sched & Hf & Hs).
  destruct (complete_one (serve E q') 1 [serve E q; serve E q'] s) as [k Hk]; [reflexivity |].
  destruct (complete_one (serve E q) 0 [serve E q; Ret (answer E q' s)] (after E q' s)) as [k' Hk']; [reflexivity |].
  assert (Hi' : interleave (repeat 1 k ++ repeat 0 k') (start E [q; q'] s) =
                ([Ret (answer E q (after E q' s)); Ret (answer E q' s)], after E q (after E q' s))).
  { rewrite interleave_app. unfold start. cbn [map]. rewrite Hk. exact Hk'. }
  assert (Hf' : finished (interleave (repeat 1 k ++ repeat 0 k') (start E [q; q'] s))).
  { rewrite Hi'. intros [| [| i]] Hl; cbn in *; try discriminate. lia. }
  pose proof (separate_unique E [q; q'] s (ok_sorted E s H) Ha sched _ Hf Hf') as Hu. rewrite Hs, Hi' in Hu. cbn in Hu. symmetry. exact Hu.
Qed.

(** The order does not matter. *)
Theorem C60_any_order : forall E s qs qs', reachable E s -> all_independent E qs -> Permutation qs qs' ->
  after_all E qs s = after_all E qs' s.
Proof.
  intros E s qs qs' H Hi Hp. apply reachable_ok in H. revert s H. induction Hp as [| q l l' Hp IH | a b l | l l' l'' Hp IH Hp' IH']; intros s H.
  - reflexivity.
  - apply independent_cons in Hi as [_ Hi]. cbn. apply IH; [exact Hi | apply after_ok, H].
  - apply independent_cons in Hi as [Hi _]. cbn. f_equal. apply independent_pair; [exact H |]. apply independent_sym, Hi. left. reflexivity.
  - rewrite IH by assumption. apply IH'; [eapply independent_perm; eassumption | exact H].
Qed.

(** Setting and deleting different relationships of one policy, creating another policy and checking in a third. *)
Definition separate_requests : list request :=
  [ set "p" (tup "file" "f" "owner" (user "bob")); QDeleteRelationship "p" (Some (tup "file" "g" "owner" (user "amy")));
    create "q"; QCheck 9 "r" (Some (mkAccess (Some (ent "file" "f")) "reader" (Some (ent "user" "eve")))) ].

Example C60_example : all_independent E0 separate_requests.
Proof.
  repeat (apply independent_cons; split;
    [ let q := fresh "q" in intros q Hq; cbn [In] in Hq; repeat destruct Hq as [<- | Hq]; try contradiction; intros [id | pid k | k]; cbn; unfold stored_under; cbn;
      split; intros H; split; intros H'; try contradiction; try congruence;
      repeat match goal with
      | H : _ /\ _ |- _ => destruct H
      | H : exists _, _ |- _ => destruct H as (? & ? & ?)
      | H : Ok _ = Ok _ |- _ => injection H as <-
      end; subst; try discriminate; try congruence
    |]).
  intros [] []; discriminate.
Qed.

(** ** C61 Concurrent writes of one relationship are as if served in some order *)

Lemma set_answered E s now pid r app b : answer E (QSetRelationship now pid (Some r) app) s = Ok (ASet b) ->
  exists rec e, kv_get scmp pid (st_pol s) = Some rec /\ allowed_relationship (pr_policy rec) (Some r) = Ok tt /\ to_internal (Some r) = Ok e /\
    b = is_some (kv_get ecmp (pid, edge_key E e) (st_edges s)).
Proof.
  intros Ha. unfold answer in Ha. cbn [serve] in Ha. rewrite answer_respond, run_set_rel in Ha.
  destruct (kv_get scmp pid (st_pol s)) as [rec |] eqn:Hp; [| discriminate].
  destruct (allowed_relationship (pr_policy rec) (Some r)) as [[] | | |] eqn:Hal; try discriminate.
  destruct (to_internal (Some r)) as [e | | |] eqn:He; try discriminate. injection Ha as <-. exists rec, e. auto.
Qed.

Lemma one_step i sched ts s p p' s' : nth_error ts i = Some p -> step1 p s = Some (p', s') ->
  interleave (i :: sched) (ts, s) = interleave sched (replace i p' ts, s').
Proof. intros Hp Hs. unfold interleave. cbn [fold_left]. unfold advance at 2. cbn [fst snd]. rewrite Hp, Hs. reflexivity. Qed.

Ltac serve_two Hp Hal He :=
  unfold start; cbn [map serve]; unfold set_relationship, delete_relationship, repo_delete_relationship, repo_set_relationship, repo_get_policy, respond, rbind, lift;
  cbn [pbind]; rewrite ?He; cbn [pbind];
  repeat (erewrite one_step; [| cbn [nth_error replace]; reflexivity | cbn [step1 pbind]; reflexivity];
          cbn [replace pbind st_pol]; rewrite ?Hp; cbn [pbind]; rewrite ?Hal; cbn [pbind]; rewrite ?He; cbn [pbind]);
  cbn [interleave fold_left fst snd].

Lemma with_edges E s s' : store_ok E s -> store_ok E s' -> store_ok E (mkStore (st_pol s) (st_edges s') (st_data s)).
Proof. intros [H1 H2 H3 H4 H5] [G1 G2 G3 G4 G5]. split; assumption. Qed.

(** Deleting it while it is being set can leave its record without the relationship, which no order does. *)
Theorem C61_record_refuted : forall E s now pid r app b, reachable E s ->
  answer E (QSetRelationship now pid (Some r) app) s = Ok (ASet b) ->
  let qs := [QSetRelationship now pid (Some r) app; QDeleteRelationship pid (Some r)] in
  (exists sched, let c := interleave sched (start E qs s) in finished c /\
     ~ In r (relationships (snd c) pid) /\ answer E (QGetRelationship pid (Some r)) (snd c) = Ok (ARecord (Some (mkRRec pid r now app)))) /\
  (exists sched, let c := interleave sched (start E qs s) in finished c /\
     In r (relationships (snd c) pid) /\ answer E (QGetRelationship pid (Some r)) (snd c) = Ok (ARecord None)) /\
  (forall qs', Permutation qs qs' -> fully_unset E (after_all E qs' s) pid r \/ fully_set E (after_all E qs' s) pid r).
Proof.
  intros E s now pid r app b H Ha qs. apply reachable_ok in H. destruct (set_answered E s now pid r app b Ha) as (rec & e & Hp & Hal & He & _).
  assert (Hi : edge_image e) by (exists r; exact He).
  assert (Hout : forall s', st_edges s' = kv_del ecmp (pid, edge_key E e) (st_edges s) \/ st_edges s' = kv_del ecmp (pid, edge_key E e) (kv_set ecmp (pid, edge_key E e) e (st_edges s)) -> ~ In r (relationships s' pid)).
  { intros s' Hs Hin. assert (Hok : store_ok E (mkStore (st_pol s) (st_edges s') (st_data s))).
    { destruct Hs as [-> | ->].
      - exact (with_edges E s _ H (drop_key_ok E pid (edge_key E e) s H)).
      - exact (with_edges E s _ H (drop_key_ok E pid (edge_key E e) _ (put_rel_ok E pid e (mkData app now) s H Hi))). }
    change (In r (relationships (mkStore (st_pol s) (st_edges s') (st_data s)) pid)) in Hin.
    apply (relationships_in E _ pid r Hok) in Hin as (e' & He' & Hg). rewrite He in He'. injection He' as <-. cbn in Hg.
    destruct Hs as [Hs | Hs]; rewrite Hs, (get_del_same ecmp) in Hg; discriminate. }
  assert (Hin : forall s' m, st_edges s' = kv_set ecmp (pid, edge_key E e) e m -> kv_sorted ecmp m -> In r (relationships s' pid)).
  { intros s' m Hs Hm. unfold relationships. apply in_map_iff. exists (edge_key E e, e). split; [cbn; apply (from_to_internal r e He) |].
    apply (get_iff pcmp pcmp_ok); [apply edges_of_sorted; rewrite Hs; apply sorted_set; [exact ecmp_ok | exact Hm] |].
    rewrite edges_get, Hs. apply (get_set_same ecmp ecmp_ok). }
  split; [| split].
  - exists [0; 0; 0; 1; 1; 1; 0]. cbv zeta. unfold qs. serve_two Hp Hal He. split; [| split].
    + intros [| [| i]] Hl; cbn in *; try discriminate. lia.
    + apply Hout. right. reflexivity.
    + rewrite (get_rel_answer E pid r e _ He). cbn [st_data]. rewrite (get_set_same pcmp pcmp_ok). cbn.
      unfold from_internal_record. rewrite (from_to_internal r e He). reflexivity.
  - exists [1; 1; 0; 0; 0; 0; 1]. cbv zeta. unfold qs. serve_two Hp Hal He. split; [| split].
    + intros [| [| i]] Hl; cbn in *; try discriminate. lia.
    + eapply Hin; [reflexivity |]. apply sorted_del; [exact ecmp_ok | apply H].
    + rewrite (get_rel_answer E pid r e _ He). cbn [st_data]. rewrite (get_del_same pcmp). reflexivity.
  - intros qs' Hperm. apply Permutation_length_2_inv in Hperm as [-> | ->]; unfold after_all; cbn [fold_left].
    + left. rewrite (after_set E now pid (Some r) app s rec e Hp Hal He), (after_delete E pid (Some r) _ e He). split.
      * apply Hout. right. reflexivity.
      * rewrite (get_rel_answer E pid r e _ He). cbn. rewrite (get_del_same pcmp). reflexivity.
    + right. rewrite (after_delete E pid (Some r) s e He), (after_set E now pid (Some r) app (drop_key pid (edge_key E e) s) rec e Hp Hal He). split.
      * eapply Hin; [reflexivity |]. cbn. apply sorted_del; [exact ecmp_ok | apply H].
      * exists (mkRRec pid r now app). rewrite (get_rel_answer E pid r e _ He). cbn. rewrite (get_set_same pcmp pcmp_ok). cbn.
        unfold from_internal_record. rewrite (from_to_internal r e He). reflexivity.
Qed.

(** Two clients that set the same new relationship can both be told that it is new. *)
Theorem C61_answers_refuted : forall E s now pid r app now' app', reachable E s ->
  answer E (QSetRelationship now pid (Some r) app) s = Ok (ASet false) ->
  let q := QSetRelationship now pid (Some r) app in let q' := QSetRelationship now' pid (Some r) app' in
  (exists sched, let c := interleave sched (start E [q; q'] s) in
     answered c 0 = Some (Ok (ASet false)) /\ answered c 1 = Some (Ok (ASet false))) /\
  answer E q' (after E q s) = Ok (ASet true) /\ answer E q (after E q' s) = Ok (ASet true).
Proof.
  intros E s now pid r app now' app' H Ha q q'. apply reachable_ok in H.
  destruct (set_answered E s now pid r app false Ha) as (rec & e & Hp & Hal & He & Hg).
  assert (Hn : kv_get ecmp (pid, edge_key E e) (st_edges s) = None) by (destruct (kv_get ecmp _ _); [discriminate | reflexivity]). split; [| split].
  - exists [0; 0; 1; 1; 0; 0; 1; 1]. cbv zeta. unfold q, q'. serve_two Hp Hal He. unfold answered. cbn. rewrite Hn. auto.
  - unfold q, q'. rewrite (after_set E now pid (Some r) app s rec e Hp Hal He). unfold answer. cbn [serve]. rewrite answer_respond, run_set_rel.
    cbn [put_rel st_pol]. rewrite Hp, Hal, He. cbn. rewrite (get_set_same ecmp ecmp_ok). reflexivity.
  - unfold q, q'. rewrite (after_set E now' pid (Some r) app' s rec e Hp Hal He). unfold answer. cbn [serve]. rewrite answer_respond, run_set_rel.
    cbn [put_rel st_pol]. rewrite Hp, Hal, He. cbn. rewrite (get_set_same ecmp ecmp_ok). reflexivity.
Qed.

(** The graph is as if the requests had been served in some order, whatever relationships they set and delete.
    Missing: the records and the answers. *)
Theorem C61_graph_partial : forall E s qs sched, reachable E s -> (forall q, In q qs -> about_one q) ->
  finished (interleave sched (start E qs s)) ->
  exists qs', Permutation qs qs' /\
    forall pid, relationships (snd (interleave sched (start E qs s))) pid = relationships (after_all E qs' s) pid.
Proof.
  intros E s qs sched _ Hone Hf. destruct (some_order E qs s Hone sched Hf) as (qs' & Hp & He). exists qs'. split; [exact Hp |].
  intros pid. unfold relationships, edges_of. rewrite He. reflexivity.
Qed.

(** The relationship is set, deleted and set again, in turns. *)
Example C61_example : let r := tup "file" "f" "owner" (user "bob") in
  let c := interleave [0; 0; 1; 2; 2; 0; 1; 2; 1; 0; 2] (start E0 [set "p" r; QDeleteRelationship "p" (Some r); set "p" r] (after E0 (create "p") empty_store)) in
  finished c /\ relationships (snd c) "p" = [r] /\ answered c 1 = Some (Ok (ADeleted false)).
Proof. vm_compute. split; [intros [| [| [| i]]] Hl; try discriminate; repeat apply le_S_n in Hl; inversion Hl | split; reflexivity]. Qed.

Print Assumptions C60_answers.
Print Assumptions C60_result.
Print Assumptions C60_any_order.
Print Assumptions C61_record_refuted.
Print Assumptions C61_answers_refuted.
Print Assumptions C61_graph_partial.
