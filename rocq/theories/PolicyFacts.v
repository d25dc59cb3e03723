(** Policy requests: the answers and stores of the policy service, and the policy map. *)
From Coq Require Import Lia.
From Verif Require Import Base Domain Lexer Parser Validate Store Search Explain Yaml Service Dump Api
  BaseFacts ParserFacts SpecGrammar SpecPolicy SpecStore ValidateFacts StoreFacts.

Definition wrap {A} (f : A -> response) (x : res A) : res response :=
  match x with Ok a => Ok (f a) | Err e => Err e | Panic => Panic | Fuel => Fuel end.

Lemma answer_respond {A} (p : prog (res A)) f s : fst (run (respond p f) s) = wrap f (fst (run p s)).
Proof. rewrite run_respond. reflexivity. Qed.

Lemma after_respond {A} (p : prog (res A)) f s : snd (run (respond p f) s) = snd (run p s).
Proof. rewrite run_respond. reflexivity. Qed.

(** Answers and stores of the requests, as equations. *)
Ltac serve_eq := unfold answer, after; cbn [serve]; rewrite ?answer_respond, ?after_respond.

Definition policies (s : store) : pmap := fun id => kv_get scmp id (st_pol s).

Lemma answer_get_policy E id s : answer E (QGetPolicy id) s = Ok (APolicy (policies s id)).
Proof. reflexivity. Qed.

Lemma defines_ok d p : get_policy_from_definition d = Ok p <-> defines d p.
Proof.
  split.
  - destruct d as [[q | [y |] |] |]; cbn; intros [= <-]; constructor.
  - destruct 1; reflexivity.
Qed.

Lemma defines_unique d p q : defines d p -> defines d q -> p = q.
Proof. rewrite <- !defines_ok. congruence. Qed.

(** ** Create and update *)

Lemma create_cases E now d app s :
  (exists p, defines d p /\ policies s (p_id p) = None /\ well_formed E p /\
     answer E (QCreatePolicy now d app) s = Ok (ACreated (mkPRec p app now)) /\
     after E (QCreatePolicy now d app) s = put_policy (mkPRec p app now) s) \/
  (exists p r, defines d p /\ policies s (p_id p) = Some r /\
     answer E (QCreatePolicy now d app) s = Err EPolicyExists /\
     after E (QCreatePolicy now d app) s = s) \/
  ((forall p, defines d p -> policies s (p_id p) = None /\ ~ well_formed E p) /\
     failed (answer E (QCreatePolicy now d app) s) /\ after E (QCreatePolicy now d app) s = s).
Proof.
  serve_eq. rewrite run_create.
  destruct (get_policy_from_definition d) as [p | e | |] eqn:Hd.
  - assert (defines d p) as Hp by (apply defines_ok; exact Hd).
    unfold policies. destruct (kv_get scmp (p_id p) (st_pol s)) as [r |] eqn:Hg.
    + right; left. exists p, r. cbn. auto.
    + destruct (verify_policy E p) as [[] | e | |] eqn:Hv.
      * left. exists p. apply verify_ok in Hv. cbn. auto.
      * right; right. repeat split; try discriminate; rewrite <- (defines_unique d p _ Hp H); auto.
        rewrite <- verify_ok. congruence.
      * right; right. repeat split; try discriminate; rewrite <- (defines_unique d p _ Hp H); auto.
        rewrite <- verify_ok. congruence.
      * right; right. repeat split; try discriminate; rewrite <- (defines_unique d p _ Hp H); auto.
        rewrite <- verify_ok. congruence.
  - right; right. repeat split; try discriminate; apply defines_ok in H; congruence.
  - right; right. repeat split; try discriminate; apply defines_ok in H; congruence.
  - right; right. repeat split; try discriminate; apply defines_ok in H; congruence.
Qed.

Lemma update_cases E d app s :
  (exists p r, defines d p /\ policies s (p_id p) = Some r /\ well_formed E p /\
     answer E (QUpdatePolicy d app) s = Ok AUpdated /\
     after E (QUpdatePolicy d app) s = put_policy (mkPRec p app (pr_created r)) s) \/
  (exists p, defines d p /\ policies s (p_id p) = None /\
     answer E (QUpdatePolicy d app) s = Err EPolicyNotFound /\
     after E (QUpdatePolicy d app) s = s) \/
  ((forall p, defines d p -> policies s (p_id p) <> None /\ ~ well_formed E p) /\
     failed (answer E (QUpdatePolicy d app) s) /\ after E (QUpdatePolicy d app) s = s).
Proof.
  serve_eq. rewrite run_update.
  destruct (get_policy_from_definition d) as [p | e | |] eqn:Hd.
  - assert (defines d p) as Hp by (apply defines_ok; exact Hd).
    unfold policies. destruct (kv_get scmp (p_id p) (st_pol s)) as [r |] eqn:Hg.
    + destruct (verify_policy E p) as [[] | e | |] eqn:Hv.
      * left. exists p, r. apply verify_ok in Hv. cbn. auto.
      * right; right. repeat split; try discriminate; rewrite <- (defines_unique d p _ Hp H); try congruence.
        rewrite <- verify_ok. congruence.
      * right; right. repeat split; try discriminate; rewrite <- (defines_unique d p _ Hp H); try congruence.
        rewrite <- verify_ok. congruence.
      * right; right. repeat split; try discriminate; rewrite <- (defines_unique d p _ Hp H); try congruence.
        rewrite <- verify_ok. congruence.
    + right; left. exists p. cbn. auto.
  - right; right. repeat split; try discriminate; apply defines_ok in H; congruence.
  - right; right. repeat split; try discriminate; apply defines_ok in H; congruence.
  - right; right. repeat split; try discriminate; apply defines_ok in H; congruence.
Qed.

Theorem create_accepts E now d app s :
  (exists a, answer E (QCreatePolicy now d app) s = Ok a) <->
  exists p, defines d p /\ answer E (QGetPolicy (p_id p)) s = Ok (APolicy None) /\ well_formed E p.
Proof.
  setoid_rewrite answer_get_policy.
  destruct (create_cases E now d app s) as
    [(p & Hd & Hn & Hw & Ha & _) | [(p & r & Hd & Hs & Ha & _) | (Hb & Hf & _)]]; split.
  - intros _. exists p. rewrite Hn. auto.
  - eauto.
  - rewrite Ha. intros [a [=]].
  - intros (q & Hq & [= Hn] & _). rewrite (defines_unique d p q) in Hs by assumption. congruence.
  - intros [a H]. contradiction (Hf a).
  - intros (q & Hq & [= Hn] & Hw). destruct (Hb q Hq). contradiction.
Qed.

Theorem update_accepts E d app s :
  (exists a, answer E (QUpdatePolicy d app) s = Ok a) <->
  exists p r, defines d p /\ answer E (QGetPolicy (p_id p)) s = Ok (APolicy (Some r)) /\ well_formed E p.
Proof.
  setoid_rewrite answer_get_policy.
  destruct (update_cases E d app s) as
    [(p & r & Hd & Hn & Hw & Ha & _) | [(p & Hd & Hs & Ha & _) | (Hb & Hf & _)]]; split.
  - intros _. exists p, r. rewrite Hn. auto.
  - eauto.
  - rewrite Ha. intros [a [=]].
  - intros (q & r & Hq & [= Hn] & _). rewrite (defines_unique d p q) in Hs by assumption. congruence.
  - intros [a H]. contradiction (Hf a).
  - intros (q & r & Hq & [= Hn] & Hw). destruct (Hb q Hq). contradiction.
Qed.

(** ** Crashes of the policy requests *)

Lemma returned_wrap {A} (f : A -> response) x : ParserFacts.returns x -> returned (wrap f x).
Proof. unfold returned. destruct x; cbn; intros H; eauto; destruct H as [[? [=]] | [? [=]]]. Qed.

Lemma yaml_complete y : complete_policy (map_policy_definition y).
Proof.
  intros rs l (r & Hr & _ & Hl). cbn in Hr. apply in_map_iff in Hr as ([n d] & <- & _). cbn in Hl.
  apply in_map_iff in Hl as ([n' d'] & <- & _). cbn. split; discriminate.
Qed.

Lemma complete_returns E d p : complete_definition d -> defines d p -> ParserFacts.returns (verify_policy E p).
Proof.
  intros [_ Hc] Hd. apply verify_returns. intros rs l Hl.
  destruct Hd; [apply (Hc p eq_refl rs l Hl) | apply (yaml_complete y rs l Hl)].
Qed.

Theorem create_returns E now d app s : complete_definition d ->
  returned (answer E (QCreatePolicy now d app) s).
Proof.
  intros Hc. serve_eq. apply returned_wrap. rewrite run_create.
  destruct (get_policy_from_definition d) as [p | e | |] eqn:Hd.
  - destruct (kv_get scmp (p_id p) (st_pol s)); [right; cbn; eauto |].
    pose proof (complete_returns E d p Hc (proj1 (defines_ok d p) Hd)) as Hr.
    destruct (verify_policy E p); cbn; [left | right | |]; eauto; destruct Hr as [[? [=]] | [? [=]]].
  - right; cbn; eauto.
  - destruct Hc as [Hc _]. destruct d as [[q | [y |] |] |]; try discriminate. congruence.
  - destruct d as [[q | [y |] |] |]; discriminate.
Qed.

Theorem update_returns E d app s : complete_definition d ->
  returned (answer E (QUpdatePolicy d app) s).
Proof.
  intros Hc. serve_eq. apply returned_wrap. rewrite run_update.
  destruct (get_policy_from_definition d) as [p | e | |] eqn:Hd.
  - destruct (kv_get scmp (p_id p) (st_pol s)); [| right; cbn; eauto].
    pose proof (complete_returns E d p Hc (proj1 (defines_ok d p) Hd)) as Hr.
    destruct (verify_policy E p); cbn; [left | right | |]; eauto; destruct Hr as [[? [=]] | [? [=]]].
  - right; cbn; eauto.
  - destruct Hc as [Hc _]. destruct d as [[q | [y |] |] |]; try discriminate. congruence.
  - destruct d as [[q | [y |] |] |]; discriminate.
Qed.

(** ** A failed request changes nothing *)

Theorem failed_unchanged E q s : failed (answer E q s) -> after E q s = s.
Proof.
  intros H. destruct q; try (apply after_read; exact I).
  - destruct (create_cases E now d app s) as [(p & _ & _ & _ & Ha & _) | [(p & r & _ & _ & _ & Ha) | (_ & _ & Ha)]]; auto.
    exfalso. eapply H. exact Ha.
  - destruct (update_cases E d app s) as [(p & r & _ & _ & _ & Ha & _) | [(p & _ & _ & _ & Ha) | (_ & _ & Ha)]]; auto.
    exfalso. eapply H. exact Ha.
  - revert H. serve_eq. rewrite run_delete_policy. intros H.
    destruct (kv_get scmp id (st_pol s)); cbn in *; exfalso; eapply H; reflexivity.
  - revert H. serve_eq. rewrite run_set_rel. intros H.
    destruct (kv_get scmp pid (st_pol s)); [| reflexivity].
    destruct (allowed_relationship _ r); try reflexivity.
    destruct (to_internal r); try reflexivity. cbn in *. exfalso. eapply H. reflexivity.
  - revert H. serve_eq. rewrite run_delete_rel. intros H.
    destruct (to_internal r); try reflexivity. cbn in *. exfalso. eapply H. reflexivity.
  - revert H. serve_eq. rewrite run_delete_rels. intros H.
    destruct (new_selector_spec s0); try reflexivity. cbn in *. exfalso. eapply H. reflexivity.
Qed.

(** ** The policy map *)

Lemma policies_put r s id : policies (put_policy r s) id = put (policies s) (p_id (pr_policy r)) (Some r) id.
Proof.
  unfold policies, put, put_policy. cbn [st_pol]. rewrite (get_set scmp scmp_ok).
  destruct (scmp id (p_id (pr_policy r))) eqn:Hc; destruct (String.eqb_spec id (p_id (pr_policy r))) as [-> | Hne]; auto.
  - apply scmp_eq in Hc. contradiction.
  - rewrite (proj2 (scmp_eq _ _) eq_refl) in Hc. discriminate.
  - rewrite (proj2 (scmp_eq _ _) eq_refl) in Hc. discriminate.
Qed.

Lemma policies_drop i s id : policies (drop_policy i s) id = put (policies s) i None id.
Proof.
  unfold policies, put, drop_policy. cbn [st_pol]. rewrite (get_del scmp scmp_ok).
  destruct (scmp id i) eqn:Hc; destruct (String.eqb_spec id i) as [-> | Hne]; auto.
  - apply scmp_eq in Hc. contradiction.
  - rewrite (proj2 (scmp_eq _ _) eq_refl) in Hc. discriminate.
  - rewrite (proj2 (scmp_eq _ _) eq_refl) in Hc. discriminate.
Qed.

Lemma list_ids E s : answer E QListPolicyIds s = Ok (APolicyIds (map fst (st_pol s))).
Proof. reflexivity. Qed.

Lemma ids_policies E s id : store_ok E s -> (In id (map fst (st_pol s)) <-> policies s id <> None).
Proof.
  intros H. unfold policies. split.
  - intros Hin. apply in_map_iff in Hin as ([i r] & Heq & Hin). cbn in Heq. subst i.
    apply (get_iff scmp scmp_ok _ _ _ (so_pol _ _ H)) in Hin. congruence.
  - intros Hn. destruct (kv_get scmp id (st_pol s)) as [r |] eqn:Hg; [| congruence].
    apply (get_iff scmp scmp_ok _ _ _ (so_pol _ _ H)) in Hg. apply in_map_iff. exists (id, r). auto.
Qed.

(** Relationship requests do not touch policies. *)
Lemma relationships_keep_policies E q s : about_relationships q -> st_pol (after E q s) = st_pol s.
Proof.
  destruct q; cbn [about_relationships]; try tauto; intros _; try (rewrite after_read by exact I; reflexivity).
  - serve_eq. rewrite run_set_rel. destruct (kv_get scmp pid (st_pol s)); [| reflexivity].
    destruct (allowed_relationship _ r); try reflexivity. destruct (to_internal r); reflexivity.
  - serve_eq. rewrite run_delete_rel. destruct (to_internal r); reflexivity.
  - serve_eq. rewrite run_delete_rels. destruct (new_selector_spec s0); try reflexivity. apply drop_keys_pol.
Qed.

Theorem policy_step_sound E q s : store_ok E s ->
  exists m', policy_step E (policies s) q (answer E q s) m' /\
             forall id, m' id = policies (after E q s) id.
Proof.
  intros H. destruct q;
    try (eexists; split; [apply ps_other; exact I |]; intros id;
         unfold policies; rewrite relationships_keep_policies by exact I; reflexivity).
  - destruct (create_cases E now d app s) as
      [(p & Hd & Hn & Hw & Ha & Hs) | [(p & r & Hd & Hn & Ha & Hs) | (Hb & Hf & Hs)]];
      [rewrite Ha, Hs | rewrite Ha, Hs | rewrite Hs]; eexists; split.
    + apply ps_create; eauto.
    + intros id. symmetry. apply (policies_put (mkPRec p app now)).
    + eapply ps_create_exists; eauto.
    + reflexivity.
    + apply ps_create_bad; eauto.
    + reflexivity.
  - destruct (update_cases E d app s) as
      [(p & r & Hd & Hn & Hw & Ha & Hs) | [(p & Hd & Hn & Ha & Hs) | (Hb & Hf & Hs)]];
      [rewrite Ha, Hs | rewrite Ha, Hs | rewrite Hs]; eexists; split.
    + eapply ps_update; eauto.
    + intros id. symmetry. apply (policies_put (mkPRec p app (pr_created r))).
    + eapply ps_update_missing; eauto.
    + reflexivity.
    + apply ps_update_bad; eauto.
    + reflexivity.
  - serve_eq. rewrite run_delete_policy. destruct (kv_get scmp id (st_pol s)) as [r |] eqn:Hg; cbn [wrap fst snd].
    + eexists. split; [eapply ps_delete; exact Hg |]. intros i. rewrite <- policies_drop.
      unfold policies. rewrite drop_keys_pol. reflexivity.
    + eexists. split; [apply ps_delete_missing; exact Hg |]. reflexivity.
  - rewrite answer_get_policy, after_read by exact I. eexists. split; [apply ps_get | reflexivity].
  - rewrite list_ids, after_read by exact I. eexists. split; [apply ps_list | reflexivity].
    + apply (sorted_nodup scmp scmp_ok). apply (so_pol _ _ H).
    + intros id. apply (ids_policies E), H.
Qed.

Theorem policy_history_sound E qs : forall s, store_ok E s ->
  policy_history E (policies s) qs (answers E qs s) (policies (after_all E qs s)).
Proof.
  induction qs as [| q qs IH]; intros s H; [constructor |].
  destruct (policy_step_sound E q s H) as (m1 & Hstep & Hm1).
  cbn [answers]. eapply ph_cons; [exact Hstep | exact Hm1 |]. apply IH, after_ok, H.
Qed.

(** ** Update *)

Lemma update_effect E d app s : answer E (QUpdatePolicy d app) s = Ok AUpdated ->
  exists p r, defines d p /\ policies s (p_id p) = Some r /\ well_formed E p /\
    after E (QUpdatePolicy d app) s = put_policy (mkPRec p app (pr_created r)) s.
Proof.
  intros Ha. destruct (update_cases E d app s) as
    [(p & r & Hd & Hn & Hw & _ & Hs) | [(p & Hd & Hn & Ha' & Hs) | (Hb & Hf & Hs)]].
  - eauto 8.
  - congruence.
  - contradiction (Hf AUpdated).
Qed.

(** ** Set *)

Theorem set_accepts E now pid r app s : store_ok E s ->
  ((exists a, answer E (QSetRelationship now pid (Some r) app) s = Ok a) <->
   exists rec, policies s pid = Some rec /\ admissible (pr_policy rec) r).
Proof.
  intros H. serve_eq. rewrite run_set_rel. unfold policies.
  destruct (kv_get scmp pid (st_pol s)) as [rec |] eqn:Hg; cbn [wrap fst].
  - destruct (so_policy _ _ H pid rec Hg) as [_ Hw]. apply wf_unique in Hw.
    pose proof (allowed_ok (pr_policy rec) r Hw) as Hok.
    destruct (allowed_relationship (pr_policy rec) (Some r)) as [[] | e | |] eqn:Ha.
    + destruct (proj1 Hok eq_refl) as (o & u & l & Ho & Hu & Hl).
      destruct (proj1 (to_internal_complete r)) as [e He].
      { destruct Hl as (_ & _ & Hd & _). unfold complete_relationship. rewrite Ho, Hu.
        repeat split; try discriminate. intros rel [= ->]. exact Hd. }
      rewrite He. cbn. split; [| eauto]. intros _. exists rec. split; [reflexivity |]. apply Hok. reflexivity.
    + cbn. split; [intros [a [=]] |]. intros (rec' & [= <-] & Hx). apply Hok in Hx. discriminate.
    + cbn. split; [intros [a [=]] |]. intros (rec' & [= <-] & Hx). apply Hok in Hx. discriminate.
    + cbn. split; [intros [a [=]] |]. intros (rec' & [= <-] & Hx). apply Hok in Hx. discriminate.
  - split; [intros [a [=]] | intros (rec & [=] & _)].
Qed.

(** A successful set and its effect. *)
Lemma set_effect E now pid r app s b : store_ok E s ->
  answer E (QSetRelationship now pid (Some r) app) s = Ok (ASet b) ->
  exists rec e, policies s pid = Some rec /\ admissible (pr_policy rec) r /\ to_internal (Some r) = Ok e /\
    b = is_some (kv_get ecmp (pid, edge_key E e) (st_edges s)) /\
    after E (QSetRelationship now pid (Some r) app) s = put_rel E pid e (mkData app now) s.
Proof.
  intros H Hx. destruct (proj1 (set_accepts E now pid r app s H) (ex_intro _ _ Hx)) as (rec & Hrec & Hadm).
  revert Hx. serve_eq. rewrite run_set_rel. unfold policies in Hrec. rewrite Hrec.
  destruct (so_policy _ _ H pid rec Hrec) as [_ Hw]. apply wf_unique in Hw.
  rewrite (proj2 (allowed_ok (pr_policy rec) r Hw) Hadm).
  destruct (to_internal (Some r)) as [e | | |]; cbn; try discriminate.
  intros [= <-]. exists rec, e. unfold policies. auto.
Qed.

Theorem set_panics E now pid r app s : store_ok E s -> complete_relationship r ->
  (answer E (QSetRelationship now pid (Some r) app) s = Panic <->
   exists rec o u l, policies s pid = Some rec /\ r_object r = Some o /\ r_subject r = Some u /\
     relation_of (pr_policy rec) (e_res o) l /\ rl_name l = r_relation r /\
     subject_declared (pr_policy rec) u /\ rl_restr l = None).
Proof.
  intros H Hc. serve_eq. rewrite run_set_rel. unfold policies.
  destruct (kv_get scmp pid (st_pol s)) as [rec |] eqn:Hg; cbn [wrap fst].
  - destruct (so_policy _ _ H pid rec Hg) as [_ Hw]. apply wf_unique in Hw.
    pose proof (allowed_panic (pr_policy rec) r Hw Hc) as Hp.
    destruct (proj1 (to_internal_complete r) Hc) as [e He]. rewrite He.
    split.
    + intros Hx. exists rec.
      destruct (allowed_relationship (pr_policy rec) (Some r)) as [[] | x | |]; cbn in Hx; try discriminate.
      destruct (proj1 Hp eq_refl) as (o & u & l & ?). exists o, u, l. tauto.
    + intros (rec' & o & u & l & [= <-] & Hx). rewrite (proj2 Hp) by (exists o, u, l; tauto). reflexivity.
  - split; [discriminate | intros (rec & o & u & l & [=] & _)].
Qed.

Lemma set_no_fuel E now pid r app s : answer E (QSetRelationship now pid r app) s <> Fuel.
Proof.
  serve_eq. rewrite run_set_rel. destruct (kv_get scmp pid (st_pol s)) as [rec |]; cbn [wrap fst]; [| discriminate].
  pose proof (allowed_no_fuel (pr_policy rec) r) as Hf.
  destruct (allowed_relationship (pr_policy rec) r); cbn; try discriminate; try congruence.
  destruct (to_internal_returns r) as [[e ->] | ->]; discriminate.
Qed.

(** ** Policies own their relationships *)

Lemma relationships_put E pid' pid e d s r : store_ok E s -> edge_image e ->
  (In r (relationships (put_rel E pid e d s) pid') <->
   (pid' = pid /\ r = from_internal e) \/
   (In r (relationships s pid') /\ ~ (pid' = pid /\ rel_key E r = edge_key E e))).
Proof.
  intros H Hi. rewrite (relationships_in E (put_rel E pid e d s)) by (apply put_rel_ok; assumption).
  rewrite (relationships_in E s) by exact H. cbn [put_rel st_edges].
  split.
  - intros (e' & He' & Hg). assert (rel_key E r = edge_key E e') as Hk by (unfold rel_key; rewrite He'; reflexivity).
    rewrite (get_set ecmp ecmp_ok) in Hg.
    destruct (ecmp (pid', edge_key E e') (pid, edge_key E e)) eqn:Hc.
    + apply (cmp_eq _ ecmp_ok) in Hc. injection Hc as -> Hke. injection Hg as <-. left. split; [reflexivity |].
      symmetry. apply from_to_internal. exact He'.
    + right. split; [eauto |]. intros [-> Hx]. rewrite Hk in Hx. rewrite Hx in Hc.
      rewrite (proj2 (cmp_eq _ ecmp_ok _ _) eq_refl) in Hc. discriminate.
    + right. split; [eauto |]. intros [-> Hx]. rewrite Hk in Hx. rewrite Hx in Hc.
      rewrite (proj2 (cmp_eq _ ecmp_ok _ _) eq_refl) in Hc. discriminate.
  - intros [[-> ->] | [(e' & He' & Hg) Hn]].
    + exists e. split; [apply to_from_internal; exact Hi |]. rewrite (get_set_same ecmp ecmp_ok). reflexivity.
    + exists e'. split; [exact He' |]. rewrite (get_set_other ecmp ecmp_ok); [exact Hg |].
      intros Hx. pose proof (f_equal fst Hx) as Hp. pose proof (f_equal snd Hx) as Hk. cbn [fst snd] in Hp, Hk.
      apply Hn. split; [exact Hp |]. unfold rel_key. rewrite He'. exact Hk.
Qed.

Lemma relationships_drop_keys E pid' pid ks s r : store_ok E s ->
  (In r (relationships (drop_keys pid ks s) pid') <->
   In r (relationships s pid') /\ ~ (pid' = pid /\ In (rel_key E r) ks)).
Proof.
  intros H. rewrite (relationships_in E (drop_keys pid ks s)) by (apply drop_keys_ok; assumption).
  rewrite (relationships_in E s) by exact H.
  assert (forall e, to_internal (Some r) = Ok e -> rel_key E r = edge_key E e) as Hk
      by (intros e He; unfold rel_key; rewrite He; reflexivity).
  split.
  - intros (e & He & Hg). rewrite (Hk e He). rewrite drop_keys_edges in Hg.
    destruct (string_dec pid' pid) as [-> | Hne].
    + destruct (in_dec key_dec (edge_key E e) ks); [discriminate |]. split; [eauto |]. tauto.
    + split; [eauto |]. tauto.
  - intros [(e & He & Hg) Hn]. exists e. split; [exact He |]. rewrite (Hk e He) in Hn. rewrite drop_keys_edges.
    destruct (string_dec pid' pid) as [-> | Hne]; [| exact Hg].
    destruct (in_dec key_dec (edge_key E e) ks); [tauto | exact Hg].
Qed.

Lemma drop_key_keys pid k s : drop_key pid k s = drop_keys pid [k] s.
Proof. reflexivity. Qed.

Lemma relationships_pol s s' pid : st_edges s = st_edges s' -> relationships s pid = relationships s' pid.
Proof. intros H. unfold relationships, edges_of. rewrite H. reflexivity. Qed.

Definition owned (s : store) : Prop := forall pid r, In r (relationships s pid) -> policies s pid <> None.

Lemma after_owned E q s : store_ok E s -> owned s -> owned (after E q s).
Proof.
  intros H Ho. destruct q; try (rewrite after_read by exact I; exact Ho).
  - destruct (create_cases E now d app s) as
      [(p & Hd & Hn & Hw & Ha & Hs) | [(p & r & Hd & Hn & Ha & Hs) | (Hb & Hf & Hs)]]; rewrite Hs; try exact Ho.
    intros pid r Hin. rewrite policies_put. unfold put.
    destruct (String.eqb pid _); [discriminate |]. eapply Ho. exact Hin.
  - destruct (update_cases E d app s) as
      [(p & r & Hd & Hn & Hw & Ha & Hs) | [(p & Hd & Hn & Ha & Hs) | (Hb & Hf & Hs)]]; rewrite Hs; try exact Ho.
    intros pid x Hin. rewrite policies_put. unfold put.
    destruct (String.eqb pid _); [discriminate |]. eapply Ho. exact Hin.
  - serve_eq. rewrite run_delete_policy. destruct (kv_get scmp id (st_pol s)); [| exact Ho]. cbn [snd].
    intros pid r Hin. apply (relationships_drop_keys E) in Hin as [Hin Hn]; [| apply drop_policy_ok; exact H].
    change (In r (relationships s pid)) in Hin.
    assert (pid <> id) as Hne. { intros ->. apply Hn. split; [reflexivity |]. apply in_map. exact Hin. }
    unfold policies. rewrite drop_keys_pol. fold (policies (drop_policy id s) pid). rewrite policies_drop. unfold put.
    apply String.eqb_neq in Hne as ->. eapply Ho. exact Hin.
  - destruct r as [r |].
    + destruct (answer E (QSetRelationship now pid (Some r) app) s) as [a | | |] eqn:Ha.
      * assert (exists b, a = ASet b) as [b ->].
        { revert Ha. serve_eq. destruct (fst (run (set_relationship E now pid (Some r) app) s)); cbn; try discriminate.
          intros [= <-]. eauto. }
        destruct (set_effect _ _ _ _ _ _ _ H Ha) as (rec & e & Hrec & _ & He & _ & ->).
        intros pid' x Hin. apply (relationships_put E) in Hin; [| exact H | exists r; exact He].
        change (policies s pid' <> None). destruct Hin as [[-> _] | [Hin _]]; [congruence |]. eapply Ho; exact Hin.
      * rewrite failed_unchanged; [exact Ho |]. rewrite Ha. discriminate.
      * rewrite failed_unchanged; [exact Ho |]. rewrite Ha. discriminate.
      * rewrite failed_unchanged; [exact Ho |]. rewrite Ha. discriminate.
    + rewrite failed_unchanged; [exact Ho |]. serve_eq. rewrite run_set_rel.
      destruct (kv_get scmp pid (st_pol s)); discriminate.
  - serve_eq. rewrite run_delete_rel. destruct (to_internal r); try exact Ho. cbn [snd]. rewrite drop_key_keys.
    intros pid' x Hin. apply (relationships_drop_keys E) in Hin as [Hin _]; [| exact H]. eapply Ho; exact Hin.
  - serve_eq. rewrite run_delete_rels. destruct (new_selector_spec s0); try exact Ho. cbn [snd].
    intros pid' x Hin. apply (relationships_drop_keys E) in Hin as [Hin _]; [| exact H].
    unfold policies. rewrite drop_keys_pol. eapply Ho; exact Hin.
Qed.

Theorem sequential_owned E s : sequential E s -> owned s.
Proof.
  intros [qs ->]. cut (forall qs s, store_ok E s -> owned s -> owned (after_all E qs s)).
  - intros Hc. apply Hc; [apply empty_ok |]. intros pid r [].
  - clear qs. induction qs as [| q qs IH]; intros s H Ho; [exact Ho |].
    apply IH; [apply after_ok, H | apply after_owned; assumption].
Qed.
