(** Relationship requests: keys, selectors, the relationship map, isolation. *)
From Coq Require Import Lia.
From Verif Require Import Base Domain Lexer Parser Validate Store Search Explain Yaml Service Dump Api
  BaseFacts LexerFacts ParserFacts SpecGrammar SpecPolicy SpecStore ValidateFacts StoreFacts PolicyFacts.

(** ** Keys *)

Lemma app_nil_s (s : string) : s +++ "" = s.
Proof. induction s as [| c s IH]; cbn; [reflexivity |]. f_equal. exact IH. Qed.

Lemma rel_key_text E r : complete_relationship r ->
  rel_key E r = (sha E (object_text r), sha E (subject_text r)).
Proof.
  intros H. unfold rel_key, object_text, subject_text, complete_relationship in *. unfold to_internal.
  destruct r as [[o |] rel u]; cbn [r_object r_relation r_subject] in *; [| tauto].
  destruct u as [[e | [e |] x | rs |] |]; cbn; unfold edge_key, node_key; cbn; rewrite ?app_nil_s; try reflexivity.
  - destruct H as (_ & _ & H). exfalso. apply (H x). reflexivity.
  - tauto.
Qed.

Lemma same_key_iff E r r' : complete_relationship r -> complete_relationship r' ->
  (same_key E r r' <-> rel_key E r = rel_key E r').
Proof.
  intros H H'. rewrite !rel_key_text by assumption. unfold same_key. split; [intros [-> ->]; reflexivity |].
  intros Hx. injection Hx. auto.
Qed.

Lemma entity_dec (a b : entity) : {a = b} + {a <> b}.
Proof. decide equality; apply string_dec. Defined.

Lemma subject_dec (a b : subject) : {a = b} + {a <> b}.
Proof. repeat (decide equality; try apply entity_dec; try apply string_dec). Defined.

Lemma relationship_dec (a b : relationship) : {a = b} + {a <> b}.
Proof. repeat (decide equality; try apply entity_dec; try apply subject_dec; try apply string_dec). Defined.

Lemma stored_complete E s pid r : store_ok E s -> In r (relationships s pid) -> complete_relationship r.
Proof.
  intros H Hin. apply (relationships_in E) in Hin as (e & He & _); [| exact H].
  apply to_internal_complete. eauto.
Qed.

(** Within a policy the key determines the stored relationship. *)
Lemma stored_key_inj E s pid r r' : store_ok E s -> In r (relationships s pid) -> In r' (relationships s pid) ->
  rel_key E r = rel_key E r' -> r = r'.
Proof.
  intros H Hr Hr' Hk. apply (relationships_in E) in Hr as (e & He & Hg); [| exact H].
  apply (relationships_in E) in Hr' as (e' & He' & Hg'); [| exact H].
  unfold rel_key in Hk. rewrite He, He' in Hk. rewrite Hk in Hg. rewrite Hg in Hg'. injection Hg' as ->.
  rewrite <- (from_to_internal r e' He). apply from_to_internal. exact He'.
Qed.

(** ** Selectors *)

Lemma entity_eqb_ok a b : entity_eqb a b = true <-> a = b.
Proof.
  unfold entity_eqb. rewrite Bool.andb_true_iff, !String.eqb_eq. destruct a, b; cbn. split; [intros [-> ->]; reflexivity |].
  intros [= -> ->]. auto.
Qed.

Lemma opt_eqb_ok {A} (f : A -> A -> bool) (Hf : forall a b, f a b = true <-> a = b) a b :
  opt_eqb f a b = true <-> a = b.
Proof. destruct a, b; cbn; rewrite ?Hf; split; congruence. Qed.

Lemma subject_eqb_ok a b : subject_eqb a b = true <-> a = b.
Proof.
  destruct a, b; cbn; rewrite ?Bool.andb_true_iff, ?entity_eqb_ok, ?(opt_eqb_ok _ entity_eqb_ok), ?String.eqb_eq;
    split; try congruence; try tauto.
  - intros [-> ->]. reflexivity.
  - intros [= -> ->]. auto.
Qed.

Lemma new_selector_parts sel : (exists sp, new_selector_spec (Some sel) = Ok sp) <-> parts_set sel.
Proof.
  unfold new_selector_spec, parts_set. destruct sel as [o l u]; cbn [s_obj s_rel s_subj].
  destruct o as [[] |], l as [[] |], u as [[] |]; cbn [bind]; split; intros H;
    try (destruct H as [? [=]]);
    try (repeat split; eexists; (split; [reflexivity | discriminate]));
    try (eexists; reflexivity);
    exfalso; destruct H as ((?o & [= <-] & ?Ho) & (?l & [= <-] & ?Hl) & (?u & [= <-] & ?Hu)); congruence.
Qed.

Lemma selector_ok sel sp r : new_selector_spec (Some sel) = Ok sp ->
  (selector_satisfies sp r = true <-> selects sel r).
Proof.
  intros H. destruct (proj1 (new_selector_parts sel) (ex_intro _ sp H)) as ((o & Ho & Hou) & (l & Hl & Hlu) & (u & Hu & Huu)).
  unfold new_selector_spec in H. rewrite Ho, Hl, Hu in H.
  assert (sp = (o, l, u)) as ->.
  { destruct o, l, u; cbn in H; try congruence. }
  unfold selects, selector_satisfies. rewrite !Bool.andb_true_iff. split.
  - intros [[H1 H2] H3]. exists o, l, u. repeat split; auto.
    + destruct o as [e | rs | |]; cbn in *; auto; try discriminate.
      * apply (opt_eqb_ok _ entity_eqb_ok) in H1. auto.
      * destruct (r_object r) as [x |]; [| discriminate]. apply String.eqb_eq in H1. eauto.
    + destruct l; cbn in *; auto; try discriminate. apply String.eqb_eq. exact H2.
    + destruct u as [v | rs | |]; cbn in *; auto; try discriminate.
      * apply (opt_eqb_ok _ subject_eqb_ok) in H3. exact H3.
      * destruct (r_subject r) as [[e | [e |] x | y |] |]; try discriminate; apply String.eqb_eq in H3; eexists;
          (split; [reflexivity |]); cbn; congruence.
  - intros (o' & l' & u' & Ho' & Hl' & Hu' & H1 & H2 & H3).
    rewrite Ho in Ho'. rewrite Hl in Hl'. rewrite Hu in Hu'. injection Ho' as <-. injection Hl' as <-. injection Hu' as <-.
    repeat split.
    + destruct o as [e | rs | |]; cbn in *; auto.
      * apply (opt_eqb_ok _ entity_eqb_ok). auto.
      * destruct H1 as (x & -> & <-). apply String.eqb_refl.
    + destruct l; cbn in *; auto; try contradiction. subst. apply String.eqb_refl.
    + destruct u as [v | rs | |]; cbn in *; auto; try contradiction.
      * apply (opt_eqb_ok _ subject_eqb_ok). exact H3.
      * destruct H3 as (x & -> & Hx). destruct x as [e | [e |] x | y |]; cbn in Hx; try discriminate;
          injection Hx as <-; apply String.eqb_refl.
Qed.

Lemma matching_in sel sp s pid r : new_selector_spec (Some sel) = Ok sp ->
  (In r (matching s pid sp) <-> In r (relationships s pid) /\ selects sel r).
Proof. intros H. unfold matching. rewrite filter_In, (selector_ok sel sp r H). reflexivity. Qed.

Lemma matching_nodup E s pid sp : store_ok E s -> NoDup (matching s pid sp).
Proof. intros H. apply NoDup_filter, (relationships_nodup E), H. Qed.

(** Relationships left by a bulk deletion. *)
Lemma relationships_delete_many E s pid pid' sel sp r : store_ok E s -> new_selector_spec (Some sel) = Ok sp ->
  (In r (relationships (drop_keys pid (map (rel_key E) (matching s pid sp)) s) pid') <->
   In r (relationships s pid') /\ ~ (pid' = pid /\ selects sel r)).
Proof.
  intros H Hsp. rewrite (relationships_drop_keys E) by exact H. split; intros [Hin Hn]; (split; [exact Hin |]).
  - intros [-> Hsel]. apply Hn. split; [reflexivity |]. apply in_map. apply (matching_in sel); auto.
  - intros [-> Hk]. apply Hn. split; [reflexivity |]. apply in_map_iff in Hk as (x & Hk & Hx).
    apply (matching_in sel) in Hx as [Hx Hs]; [| exact Hsp].
    rewrite <- (stored_key_inj E s pid x r H Hx Hin Hk). exact Hs.
Qed.

(** ** The relationship map *)

Section Map.
  Variable E : env.
  Variable U : string -> relationship -> Prop.
  Hypothesis inj : forall pid pid' r r', U pid r -> U pid' r' ->
    complete_relationship r -> complete_relationship r' -> rel_key E r = rel_key E r' -> pid = pid' /\ r = r'.

  Record abs (s : store) (m : rmap) : Prop := {
    ab_in : forall pid r, m pid r <> None <-> In r (relationships s pid);
    ab_named : forall pid r, In r (relationships s pid) -> U pid r;
    ab_data : forall pid r, U pid r -> complete_relationship r ->
      kv_get pcmp (rel_key E r) (st_data s) = option_map (fun x => mkData (fst x) (snd x)) (m pid r) }.

  Lemma abs_record s m pid r : abs s m -> U pid r -> complete_relationship r ->
    record_of s pid E r = record_in m pid r.
  Proof.
    intros H Hu Hc. unfold record_of, record_in. rewrite (ab_data _ _ H pid r Hu Hc).
    destruct (m pid r) as [[a c] |]; reflexivity.
  Qed.

  Lemma abs_present s m pid r e : store_ok E s -> abs s m -> U pid r -> to_internal (Some r) = Ok e ->
    is_some (kv_get ecmp (pid, edge_key E e) (st_edges s)) = present (m pid r).
  Proof.
    intros H Ha Hu He.
    destruct (kv_get ecmp (pid, edge_key E e) (st_edges s)) as [e' |] eqn:Hg; cbn.
    - destruct (so_edge _ _ H _ _ _ Hg) as [Hi Hk].
      assert (In (from_internal e') (relationships s pid)) as Hin.
      { apply (relationships_in E); [exact H |]. exists e'. split; [apply to_from_internal; exact Hi |].
        rewrite <- Hk. exact Hg. }
      destruct (inj pid pid (from_internal e') r) as [_ Hr]; auto.
      + apply (ab_named _ _ Ha). exact Hin.
      + apply (stored_complete E s pid); assumption.
      + apply to_internal_complete. eauto.
      + rewrite (rel_key_edge E e' Hi). unfold rel_key. rewrite He. auto.
      + rewrite Hr in Hin. apply (ab_in _ _ Ha) in Hin. destruct (m pid r); [reflexivity | congruence].
    - destruct (m pid r) as [x |] eqn:Hm; [| reflexivity]. exfalso.
      assert (In r (relationships s pid)) as Hin by (apply (ab_in _ _ Ha); congruence).
      apply (relationships_in E) in Hin as (e' & He' & Hg'); [| exact H]. congruence.
  Qed.

  Definition rupd (m : rmap) pid r v : rmap := fun pid' r' =>
    if string_dec pid' pid then if relationship_dec r' r then v else m pid' r' else m pid' r'.

  Lemma rupd_updated m pid r v : updated m pid r v (rupd m pid r v).
  Proof.
    unfold rupd. split.
    - destruct (string_dec pid pid); [| congruence]. destruct (relationship_dec r r); congruence.
    - intros pid' r' Hn. destruct (string_dec pid' pid); [| reflexivity]. destruct (relationship_dec r' r); [| reflexivity].
      destruct Hn; congruence.
  Qed.

  Lemma abs_set s m pid r e app now : store_ok E s -> abs s m -> U pid r -> to_internal (Some r) = Ok e ->
    abs (put_rel E pid e (mkData app now) s) (rupd m pid r (Some (app, now))).
  Proof.
    intros H Ha Hu He.
    assert (edge_image e) as Hi by (exists r; exact He).
    assert (rel_key E r = edge_key E e) as Hk by (unfold rel_key; rewrite He; reflexivity).
    assert (complete_relationship r) as Hc by (apply to_internal_complete; eauto).
    split.
    - intros pid' r'. rewrite (relationships_put E) by assumption. rewrite (from_to_internal r e He).
      unfold rupd. destruct (string_dec pid' pid) as [-> | Hne].
      + destruct (relationship_dec r' r) as [-> | Hnr]; [split; [auto | discriminate] |].
        rewrite (ab_in _ _ Ha). split; [| tauto]. intros Hin. right. split; [exact Hin |].
        intros [_ Hkk]. apply Hnr. destruct (inj pid pid r' r) as [_ ->]; auto.
        * apply (ab_named _ _ Ha). exact Hin.
        * apply (stored_complete E s pid); assumption.
        * congruence.
      + rewrite (ab_in _ _ Ha). tauto.
    - intros pid' r'. rewrite (relationships_put E) by assumption. rewrite (from_to_internal r e He).
      intros [[-> ->] | [Hin _]]; [exact Hu |]. apply (ab_named _ _ Ha). exact Hin.
    - intros pid' r' Hu' Hc'. cbn [put_rel st_data]. rewrite (get_set pcmp pcmp_ok).
      unfold rupd. destruct (pcmp (rel_key E r') (edge_key E e)) eqn:Hx.
      + apply (cmp_eq _ pcmp_ok) in Hx. destruct (inj pid' pid r' r) as [-> ->]; auto; [congruence |].
        destruct (string_dec pid pid); [| congruence]. destruct (relationship_dec r r); [reflexivity | congruence].
      + rewrite (ab_data _ _ Ha pid' r' Hu' Hc'). destruct (string_dec pid' pid) as [-> |]; [| reflexivity].
        destruct (relationship_dec r' r) as [-> |]; [| reflexivity]. rewrite Hk, (cmp_refl _ pcmp_ok) in Hx. discriminate.
      + rewrite (ab_data _ _ Ha pid' r' Hu' Hc'). destruct (string_dec pid' pid) as [-> |]; [| reflexivity].
        destruct (relationship_dec r' r) as [-> |]; [| reflexivity]. rewrite Hk, (cmp_refl _ pcmp_ok) in Hx. discriminate.
  Qed.

  Definition rdel (m : rmap) pid (l : list relationship) : rmap := fun pid' r' =>
    if string_dec pid' pid then if in_dec relationship_dec r' l then None else m pid' r' else m pid' r'.

  Lemma abs_drop s m pid l : store_ok E s -> abs s m ->
    (forall r, In r l -> U pid r /\ complete_relationship r) ->
    abs (drop_keys pid (map (rel_key E) l) s) (rdel m pid l).
  Proof.
    intros H Ha Hl. split.
    - intros pid' r'. rewrite (relationships_drop_keys E) by exact H. rewrite <- (ab_in _ _ Ha). unfold rdel.
      destruct (string_dec pid' pid) as [-> | Hne]; [| tauto].
      destruct (in_dec relationship_dec r' l) as [Hin | Hnin].
      + split; [congruence |]. intros [_ Hn]. exfalso. apply Hn. split; [reflexivity |]. apply in_map. exact Hin.
      + split; [| tauto]. intros Hm. split; [exact Hm |]. intros [_ Hk]. apply in_map_iff in Hk as (x & Hk & Hx).
        destruct (Hl x Hx) as [Hux Hcx]. apply (ab_in _ _ Ha) in Hm.
        destruct (inj pid pid x r') as [_ ->]; auto; [apply (ab_named _ _ Ha); exact Hm |].
        apply (stored_complete E s pid); assumption.
    - intros pid' r'. rewrite (relationships_drop_keys E) by exact H. intros [Hin _]. apply (ab_named _ _ Ha). exact Hin.
    - intros pid' r' Hu Hc. rewrite drop_keys_data. unfold rdel.
      destruct (in_dec key_dec (rel_key E r') (map (rel_key E) l)) as [Hin | Hnin].
      + apply in_map_iff in Hin as (x & Hk & Hx). destruct (Hl x Hx) as [Hux Hcx].
        destruct (inj pid pid' x r') as [-> ->]; auto.
        destruct (string_dec pid' pid'); [| congruence]. destruct (in_dec relationship_dec r' l); [reflexivity | contradiction].
      + rewrite (ab_data _ _ Ha pid' r' Hu Hc). destruct (string_dec pid' pid); [| reflexivity].
        destruct (in_dec relationship_dec r' l); [| reflexivity]. exfalso. apply Hnin. apply in_map. assumption.
  Qed.

  Lemma rdel_removed m pid (P : relationship -> Prop) l : (forall r, In r l <-> m pid r <> None /\ P r) ->
    removed m pid P (rdel m pid l).
  Proof.
    intros Hl. unfold rdel. split.
    - intros r Hr. destruct (string_dec pid pid); [| congruence]. destruct (in_dec relationship_dec r l) as [| Hn]; [reflexivity |].
      destruct (m pid r) eqn:Hm; [| reflexivity]. exfalso. apply Hn, Hl. split; [congruence | exact Hr].
    - intros pid' r Hn. destruct (string_dec pid' pid) as [-> |]; [| reflexivity].
      destruct (in_dec relationship_dec r l) as [Hin |]; [| reflexivity]. exfalso. apply Hl in Hin. destruct Hn; tauto.
  Qed.

  Lemma abs_same_edges s s' m : abs s m -> st_edges s' = st_edges s -> st_data s' = st_data s -> abs s' m.
  Proof.
    intros [H1 H2 H3] He Hd. split.
    - intros. rewrite (relationships_pol s' s) by exact He. apply H1.
    - intros pid r. rewrite (relationships_pol s' s) by exact He. apply H2.
    - intros. rewrite Hd. apply H3; assumption.
  Qed.

  Theorem rel_step_sound s m q : store_ok E s -> owned s -> abs s m ->
    (forall pid r, mentions q pid r -> U pid r) ->
    exists m', rel_step m q (answer E q s) m' /\ abs (after E q s) m'.
  Proof.
    intros H Ho Ha Hm. destruct q.
    - exists m. split; [constructor |].
      destruct (create_cases E now d app s) as
        [(p & _ & _ & _ & _ & ->) | [(p & r & _ & _ & _ & ->) | (_ & _ & ->)]]; auto.
      eapply abs_same_edges; [exact Ha | reflexivity | reflexivity].
    - exists m. split; [constructor |].
      destruct (update_cases E d app s) as
        [(p & r & _ & _ & _ & _ & ->) | [(p & _ & _ & _ & ->) | (_ & _ & ->)]]; auto.
      eapply abs_same_edges; [exact Ha | reflexivity | reflexivity].
    - serve_eq. rewrite run_delete_policy. destruct (kv_get scmp id (st_pol s)) as [rec |] eqn:Hg; cbn [wrap fst snd].
      + assert (forall r, In r (relationships s id) <-> m id r <> None /\ True) as Hl
            by (intros r; rewrite (ab_in _ _ Ha); tauto).
        exists (rdel m id (relationships s id)). split.
        * apply rs_delete_policy; [| apply rdel_removed; exact Hl].
          split; [apply (relationships_nodup E), H | exact Hl].
        * apply abs_drop; [apply drop_policy_ok, H | eapply abs_same_edges; [exact Ha | reflexivity | reflexivity] |].
          intros r Hr. split; [apply (ab_named _ _ Ha); exact Hr | apply (stored_complete E s id); assumption].
      + exists m. split; [| exact Ha]. apply rs_delete_policy_missing. intros r.
        destruct (m id r) eqn:Hr; [| reflexivity]. exfalso. apply (Ho id r); [| exact Hg].
        apply (ab_in _ _ Ha). congruence.
    - exists m. split; [constructor | rewrite after_read by exact I; exact Ha].
    - exists m. split; [constructor | rewrite after_read by exact I; exact Ha].
    - destruct (answer E (QSetRelationship now pid r app) s) as [a | | |] eqn:Hx;
        try (exists m; split; [apply rs_set_failed; discriminate | rewrite failed_unchanged; [exact Ha | rewrite Hx; discriminate]]).
      destruct r as [r |].
      + assert (exists b, a = ASet b) as [b ->].
        { revert Hx. serve_eq. destruct (fst (run (set_relationship E now pid (Some r) app) s)); cbn; try discriminate.
          intros [= <-]. eauto. }
        destruct (set_effect _ _ _ _ _ _ _ H Hx) as (rec & e & _ & _ & He & -> & ->).
        assert (U pid r) as Hu by (apply Hm; constructor).
        rewrite (abs_present s m pid r e H Ha Hu He).
        eexists. split; [apply rs_set; apply rupd_updated |]. apply abs_set; assumption.
      + exfalso. revert Hx. serve_eq. rewrite run_set_rel.
        destruct (kv_get scmp pid (st_pol s)); discriminate.
    - destruct r as [r |].
      + assert (U pid r) as Hu by (apply Hm; constructor).
        serve_eq. rewrite run_delete_rel. destruct (to_internal (Some r)) as [e | | |] eqn:He; cbn [wrap fst snd].
        * assert (complete_relationship r) as Hc by (apply to_internal_complete; eauto).
          rewrite (abs_present s m pid r e H Ha Hu He).
          exists (rdel m pid [r]). split.
          -- apply rs_delete; [exact Hc |]. unfold rdel. split.
             ++ destruct (string_dec pid pid); [| congruence]. destruct (in_dec relationship_dec r [r]); [reflexivity |].
                exfalso. apply n. left. reflexivity.
             ++ intros pid' r' Hn. destruct (string_dec pid' pid) as [-> |]; [| reflexivity].
                destruct (in_dec relationship_dec r' [r]) as [[<- | []] |]; [| reflexivity]. destruct Hn; congruence.
          -- assert (edge_key E e = rel_key E r) as -> by (unfold rel_key; rewrite He; reflexivity).
             rewrite drop_key_keys. apply (abs_drop s m pid [r]); auto. intros x [<- | []]. auto.
        * destruct (to_internal_returns (Some r)) as [[? ?] |]; congruence.
        * exists m. split; [| exact Ha]. apply rs_delete_failed; [| discriminate].
          intros r' [= <-] Hc. apply to_internal_complete in Hc as [? ?]. congruence.
        * destruct (to_internal_returns (Some r)) as [[? ?] |]; congruence.
      + exists m. split; [| serve_eq; exact Ha]. apply rs_delete_failed; discriminate.
    - exists m. split; [| rewrite after_read by exact I; exact Ha]. destruct r as [r |]; [| apply rs_get_failed; discriminate].
      assert (U pid r) as Hu by (apply Hm; constructor).
      serve_eq. rewrite run_get_rel. destruct (to_internal (Some r)) as [e | | |] eqn:He; cbn [wrap fst].
      + assert (complete_relationship r) as Hc by (apply to_internal_complete; eauto).
        replace (option_map (from_internal_record pid e) (kv_get pcmp (edge_key E e) (st_data s))) with (record_in m pid r).
        * apply rs_get. exact Hc.
        * rewrite <- (abs_record s m pid r Ha Hu Hc). unfold record_of, rel_key. rewrite He.
          destruct (kv_get pcmp (edge_key E e) (st_data s)); [| reflexivity].
          cbn. unfold from_internal_record. rewrite (from_to_internal r e He). reflexivity.
      + destruct (to_internal_returns (Some r)) as [[? ?] |]; congruence.
      + apply rs_get_failed; [| discriminate].
        intros r' [= <-] Hc. apply to_internal_complete in Hc as [? ?]. congruence.
      + destruct (to_internal_returns (Some r)) as [[? ?] |]; congruence.
    - exists m. split; [| rewrite after_read by exact I; exact Ha].
      serve_eq. unfold find_relationship_records. rewrite run_pbind. cbn [repo_get_policy run fst snd].
      destruct (kv_get scmp pid (st_pol s)) as [rec |]; [| apply rs_find_failed; discriminate].
      rewrite run_rbind. cbn [lift run fst snd].
      destruct (valid_selector (pr_policy rec) s0); try (apply rs_find_failed; discriminate).
      rewrite (run_find_records E pid s0 s H). cbn [fst].
      destruct s0 as [sel |]; [| apply rs_find_failed; discriminate].
      destruct (new_selector_spec (Some sel)) as [sp | | |] eqn:Hsp; try (apply rs_find_failed; discriminate).
      cbn [wrap].
      replace (map (record_of s pid E) (matching s pid sp)) with (map (record_in m pid) (matching s pid sp)).
      + apply rs_find. split; [apply (matching_nodup E), H |]. intros r. rewrite (matching_in sel sp s pid r Hsp), (ab_in _ _ Ha). tauto.
      + apply map_ext_in. intros r Hr. apply (matching_in sel) in Hr as [Hr _]; [| exact Hsp]. symmetry.
        apply abs_record; [exact Ha | apply (ab_named _ _ Ha); exact Hr | apply (stored_complete E s pid); assumption].
    - serve_eq. rewrite run_delete_rels. destruct s0 as [sel |].
      + destruct (new_selector_spec (Some sel)) as [sp | | |] eqn:Hsp; cbn [wrap fst snd].
        * assert (forall r, In r (matching s pid sp) <-> m pid r <> None /\ selects sel r) as Hl
              by (intros r; rewrite (matching_in sel sp s pid r Hsp), (ab_in _ _ Ha); tauto).
          exists (rdel m pid (matching s pid sp)). split.
          -- apply rs_delete_many; [apply new_selector_parts; eauto | | apply rdel_removed; exact Hl].
             split; [apply (matching_nodup E), H | exact Hl].
          -- apply abs_drop; [exact H | exact Ha |]. intros r Hr. apply (matching_in sel) in Hr as [Hr _]; [| exact Hsp].
             split; [apply (ab_named _ _ Ha); exact Hr | apply (stored_complete E s pid); assumption].
        * exists m. split; [| exact Ha]. apply rs_delete_many_failed; [| discriminate].
          intros x [= <-] Hp. apply new_selector_parts in Hp as [? ?]. congruence.
        * exists m. split; [| exact Ha]. apply rs_delete_many_failed; [| discriminate].
          intros x [= <-] Hp. apply new_selector_parts in Hp as [? ?]. congruence.
        * exists m. split; [| exact Ha]. apply rs_delete_many_failed; [| discriminate].
          intros x [= <-] Hp. apply new_selector_parts in Hp as [? ?]. congruence.
      + exists m. split; [| exact Ha]. apply rs_delete_many_failed; discriminate.
    - exists m. split; [constructor | rewrite after_read by exact I; exact Ha].
    - exists m. split; [constructor | rewrite after_read by exact I; exact Ha].
    - exists m. split; [constructor | rewrite after_read by exact I; exact Ha].
    - exists m. split; [constructor | rewrite after_read by exact I; exact Ha].
  Qed.

  Lemma rel_history_from qs : forall s m, store_ok E s -> owned s -> abs s m ->
    (forall q pid r, In q qs -> mentions q pid r -> U pid r) ->
    exists m', rel_history m qs (answers E qs s) m' /\ abs (after_all E qs s) m'.
  Proof.
    induction qs as [| q qs IH]; intros s m H Ho Ha Hm.
    - exists m. split; [constructor | exact Ha].
    - destruct (rel_step_sound s m q H Ho Ha) as (m1 & Hs & Ha1); [intros; eapply Hm; [left; reflexivity | eassumption] |].
      destruct (IH (after E q s) m1) as (m' & Hh & Ha').
      + apply after_ok, H.
      + apply after_owned; assumption.
      + exact Ha1.
      + intros; eapply Hm; [right; eassumption | eassumption].
      + exists m'. split; [| exact Ha']. cbn [answers]. eapply rh_cons; eassumption.
  Qed.
End Map.

Theorem rel_history_sound E qs : distinct_keys E qs ->
  exists m, rel_history (fun _ _ => None) qs (answers E qs empty_store) m /\
    forall pid r, m pid r <> None <-> In r (relationships (after_all E qs empty_store) pid).
Proof.
  intros Hd.
  destruct (rel_history_from E (fun pid r => exists q, In q qs /\ mentions q pid r)) with
      (qs := qs) (s := empty_store) (m := (fun _ _ => None) : rmap) as (m & Hh & Ha).
  - intros pid pid' r r' (q & Hq & Hm) (q' & Hq' & Hm') Hc Hc' Hk.
    eapply (Hd q q' pid pid' r r'); eauto. apply same_key_iff; assumption.
  - apply empty_ok.
  - intros pid r [].
  - split; cbn; tauto.
  - eauto.
  - exists m. split; [exact Hh |]. apply (ab_in _ _ _ _ Ha).
Qed.

(** ** Isolation *)

Lemma edges_of_sorted s pid : kv_sorted ecmp (st_edges s) -> kv_sorted pcmp (edges_of pid s).
Proof.
  unfold edges_of. induction (st_edges s) as [| [[p k] e] m IH]; cbn; [auto |].
  intros [Hlt Hs]. destruct (String.eqb_spec p pid) as [-> |]; cbn; [| auto]. split; [| auto].
  intros k' v Hin. apply in_map_iff in Hin as ([[p' k''] e'] & [= <- <-] & Hin). cbn in *.
  apply filter_In in Hin as [Hin Hp]. cbn in Hp. apply String.eqb_eq in Hp as ->.
  specialize (Hlt _ _ Hin). unfold ecmp in Hlt. cbn in Hlt. rewrite (cmp_refl _ scmp_ok) in Hlt. exact Hlt.
Qed.

Lemma edges_of_get E s pid k : store_ok E s ->
  kv_get pcmp k (edges_of pid s) = kv_get ecmp (pid, k) (st_edges s).
Proof.
  intros H. pose proof (edges_of_sorted s pid (so_edges _ _ H)) as Hs.
  destruct (kv_get ecmp (pid, k) (st_edges s)) as [e |] eqn:Hg.
  - apply (get_iff pcmp pcmp_ok _ _ _ Hs). apply (edges_of_in E); assumption.
  - destruct (kv_get pcmp k (edges_of pid s)) as [e |] eqn:Hg'; [| reflexivity].
    apply (get_iff pcmp pcmp_ok _ _ _ Hs) in Hg'. apply (edges_of_in E) in Hg'; [| exact H]. congruence.
Qed.

Lemma edges_of_ext E s s' pid : store_ok E s -> store_ok E s' ->
  (forall r, In r (relationships s pid) <-> In r (relationships s' pid)) -> edges_of pid s = edges_of pid s'.
Proof.
  intros H H' Hr. apply (sorted_ext pcmp pcmp_ok); try (apply edges_of_sorted, so_edges with E; assumption).
  intros k. rewrite !(edges_of_get E) by assumption.
  assert (forall s1 s2, store_ok E s1 -> store_ok E s2 ->
            (forall r, In r (relationships s1 pid) -> In r (relationships s2 pid)) ->
            forall e, kv_get ecmp (pid, k) (st_edges s1) = Some e -> kv_get ecmp (pid, k) (st_edges s2) = Some e) as Hone.
  { intros s1 s2 H1 H2 Hsub e Hg. destruct (so_edge _ _ H1 _ _ _ Hg) as [Hi ->].
    assert (In (from_internal e) (relationships s1 pid)) as Hin.
    { apply (relationships_in E); [exact H1 |]. exists e. split; [apply to_from_internal; exact Hi | exact Hg]. }
    apply Hsub, (relationships_in E) in Hin as (e' & He' & Hg'); [| exact H2].
    rewrite (to_from_internal e Hi) in He'. injection He' as <-. exact Hg'. }
  destruct (kv_get ecmp (pid, k) (st_edges s)) as [e |] eqn:Hg.
  - symmetry. apply (Hone s s' H H'); [intros; apply Hr; assumption | exact Hg].
  - destruct (kv_get ecmp (pid, k) (st_edges s')) as [e |] eqn:Hg'; [| reflexivity].
    rewrite (Hone s' s H' H (fun r => proj2 (Hr r)) e Hg') in Hg. discriminate.
Qed.

Lemma run_check_search E n pid a s s' : edges_of pid s = edges_of pid s' ->
  option_map pr_policy (policies s pid) = option_map pr_policy (policies s' pid) ->
  fst (run (check_search E n pid a) s) = fst (run (check_search E n pid a) s').
Proof.
  intros He Hp. unfold check_search. rewrite !run_pbind. cbn [repo_get_policy run fst snd].
  unfold policies in Hp.
  destruct (kv_get scmp pid (st_pol s)) as [rec |], (kv_get scmp pid (st_pol s')) as [rec' |]; try discriminate; [| reflexivity].
  injection Hp as Hp. destruct a; [| reflexivity]. rewrite !run_search, He, Hp. reflexivity.
Qed.

Theorem graph_answer E q pid s s' : graph_request q pid -> edges_of pid s = edges_of pid s' ->
  option_map pr_policy (policies s pid) = option_map pr_policy (policies s' pid) ->
  answer E q s = answer E q s'.
Proof.
  intros Hq He Hp. destruct q; cbn in Hq; try contradiction; subst; serve_eq; f_equal.
  - unfold check. rewrite !run_rbind. rewrite (run_check_search E n pid a s s' He Hp).
    destruct (fst (run (check_search E n pid a) s')); reflexivity.
  - unfold explain_check. rewrite !run_rbind. cbn [lift run fst snd].
    destruct (serializer_factory f); try reflexivity.
    rewrite (run_check_search E n pid a s s' He Hp).
    destruct (fst (run (check_search E n pid a) s')) as [t | | |]; try reflexivity.
    rewrite !run_rbind. cbn [lift run fst snd]. destruct (serialize n f t); reflexivity.
  - unfold expand. rewrite !run_rbind. cbn [lift run fst snd].
    destruct (serializer_factory f); try reflexivity. rewrite !run_pbind. cbn [repo_get_policy run fst snd].
    unfold policies in Hp.
    destruct (kv_get scmp pid (st_pol s)) as [rec |], (kv_get scmp pid (st_pol s')) as [rec' |]; try discriminate; [| reflexivity].
    injection Hp as Hp. destruct root; [| reflexivity]. rewrite !run_rbind, !run_search, He, Hp. cbn [fst snd].
    destruct (search E (pr_policy rec') (edges_of pid s') n r GoalNone) as [t | | |]; try reflexivity.
    rewrite !run_rbind. cbn [lift run fst snd]. destruct (serialize n f t); reflexivity.
  - unfold dump_relationships. rewrite !run_pbind. cbn [repo_get_policy run fst snd].
    unfold policies in Hp.
    destruct (kv_get scmp pid (st_pol s)) as [rec |], (kv_get scmp pid (st_pol s')) as [rec' |]; try discriminate; [| reflexivity].
    injection Hp as Hp. cbn. rewrite He. reflexivity.
Qed.

(** Effects of the requests that write relationships of a policy. *)
Lemma writes_effect E q pid s : store_ok E s -> writes_policy q pid ->
  after E q s = s \/
  (exists r e d, mentions q pid r /\ to_internal (Some r) = Ok e /\ after E q s = put_rel E pid e d s) \/
  (exists ks s0, (forall k, In k ks -> exists r, (In r (relationships s pid) \/ mentions q pid r) /\
                       complete_relationship r /\ k = rel_key E r) /\
     (s0 = s \/ s0 = drop_policy pid s) /\ after E q s = drop_keys pid ks s0).
Proof.
  intros H Hw. destruct q; cbn in Hw; try contradiction; subst.
  - serve_eq. rewrite run_delete_policy. destruct (kv_get scmp pid (st_pol s)); [| auto]. right; right. cbn [snd].
    exists (map (rel_key E) (relationships s pid)), (drop_policy pid s). split; [| auto].
    intros k Hk. apply in_map_iff in Hk as (r & <- & Hr). exists r. split; [auto |].
    split; [apply (stored_complete E s pid); assumption | reflexivity].
  - destruct (answer E (QSetRelationship now pid r app) s) as [a | | |] eqn:Hx;
      try (left; apply failed_unchanged; rewrite Hx; discriminate).
    destruct r as [r |].
    + assert (exists b, a = ASet b) as [b ->].
      { revert Hx. serve_eq. destruct (fst (run (set_relationship E now pid (Some r) app) s)); cbn; try discriminate.
        intros [= <-]. eauto. }
      destruct (set_effect _ _ _ _ _ _ _ H Hx) as (rec & e & _ & _ & He & _ & ->).
      right; left. exists r, e, (mkData app now). split; [constructor | auto].
    + exfalso. revert Hx. serve_eq. rewrite run_set_rel. destruct (kv_get scmp pid (st_pol s)); discriminate.
  - serve_eq. rewrite run_delete_rel. destruct r as [r |]; [| auto].
    destruct (to_internal (Some r)) as [e | | |] eqn:He; try (left; reflexivity).
    right; right. exists [edge_key E e], s. split; [| auto]. intros k [<- | []]. exists r.
    split; [right; constructor |]. split; [apply to_internal_complete; eauto |].
    unfold rel_key. rewrite He. reflexivity.
  - serve_eq. rewrite run_delete_rels. destruct (new_selector_spec s0) as [sp | | |]; auto.
    right; right. exists (map (rel_key E) (matching s pid sp)), s. split; [| auto].
    intros k Hk. apply in_map_iff in Hk as (r & <- & Hr). apply filter_In in Hr as [Hr _]. exists r. split; [auto |].
    split; [apply (stored_complete E s pid); assumption | reflexivity].
Qed.

Lemma writes_other E q pid pid' s : store_ok E s -> writes_policy q pid -> pid' <> pid ->
  edges_of pid' (after E q s) = edges_of pid' s /\ policies (after E q s) pid' = policies s pid'.
Proof.
  intros H Hw Hne. split.
  - apply (edges_of_ext E); [apply after_ok, H | exact H |]. intros r.
    destruct (writes_effect E q pid s H Hw) as [-> | [(x & e & d & _ & He & ->) | (ks & s0 & _ & Hs0 & ->)]]; [tauto | |].
    + rewrite (relationships_put E) by (auto; exists x; exact He). tauto.
    + rewrite (relationships_drop_keys E) by (destruct Hs0 as [-> | ->]; [exact H | apply drop_policy_ok, H]).
      assert (relationships s0 pid' = relationships s pid') as -> by (destruct Hs0 as [-> | ->]; reflexivity). tauto.
  - destruct (writes_effect E q pid s H Hw) as [-> | [(x & e & d & _ & He & ->) | (ks & s0 & _ & Hs0 & ->)]]; try reflexivity.
    unfold policies. rewrite drop_keys_pol. destruct Hs0 as [-> | ->]; [reflexivity |].
    fold (policies (drop_policy pid s) pid'). rewrite policies_drop. unfold put. apply String.eqb_neq in Hne as ->. reflexivity.
Qed.

Lemma record_other E q pid pid' s r : store_ok E s -> writes_policy q pid -> complete_relationship r ->
  (forall x, complete_relationship x -> In x (relationships s pid) \/ mentions q pid x -> ~ same_key E x r) ->
  answer E (QGetRelationship pid' (Some r)) (after E q s) = answer E (QGetRelationship pid' (Some r)) s.
Proof.
  intros H Hw Hc Hk. unfold answer. cbn [serve]. rewrite !answer_respond, !run_get_rel. cbn [fst].
  destruct (proj1 (to_internal_complete r) Hc) as [e He]. rewrite He.
  assert (rel_key E r = edge_key E e) as Hke by (unfold rel_key; rewrite He; reflexivity).
  replace (kv_get pcmp (edge_key E e) (st_data (after E q s))) with (kv_get pcmp (edge_key E e) (st_data s)); [reflexivity |].
  destruct (writes_effect E q pid s H Hw) as [-> | [(x & e' & d & Hm & He' & ->) | (ks & s0 & Hks & Hs0 & ->)]]; [reflexivity | |].
  - cbn [put_rel st_data]. rewrite (get_set_other pcmp pcmp_ok); [reflexivity |].
    assert (complete_relationship x) as Hcx by (apply to_internal_complete; eauto).
    intros Heq. apply (Hk x Hcx (or_intror Hm)). apply same_key_iff; auto. rewrite Hke, Heq. unfold rel_key. rewrite He'. reflexivity.
  - rewrite drop_keys_data. destruct (in_dec key_dec (edge_key E e) ks) as [Hin |].
    + destruct (Hks _ Hin) as (x & Hx & Hcx & Hkx). exfalso. apply (Hk x Hcx Hx). apply same_key_iff; auto. congruence.
    + destruct Hs0 as [-> | ->]; reflexivity.
Qed.

(** ** Validity of selectors *)

Lemma get_resource_some p n : (exists r, get_resource_by_name p n = Some r) <-> declares_resource p n.
Proof.
  unfold get_resource_by_name, declares_resource. split.
  - intros [r Hf]. apply find_some in Hf as [Hin Heq]. apply String.eqb_eq in Heq. eauto.
  - intros (r & Hin & <-). destruct (find _ (p_resources p)) as [x |] eqn:Hf; [eauto |].
    apply (find_none _ _ Hf) in Hin. rewrite String.eqb_refl in Hin. discriminate.
Qed.

Lemma get_resource_none p n : get_resource_by_name p n = None <-> ~ declares_resource p n.
Proof.
  rewrite <- get_resource_some. destruct (get_resource_by_name p n) as [r |]; split; try congruence.
  - intros H. exfalso. apply H. eauto.
  - intros _ [r [=]].
Qed.

Lemma get_relation_some p rs r n : unique_decls p -> get_resource_by_name p rs = Some r ->
  ((exists l, get_relation_by_name (Some r) n = Ok (Some l)) <-> declares p rs n).
Proof.
  intros [Hu _] Hr. unfold get_resource_by_name in Hr. apply find_some in Hr as [Hin Heq]. apply String.eqb_eq in Heq.
  unfold get_relation_by_name. split.
  - intros (l & [= Hf]). apply find_some in Hf as [Hl Hn]. apply String.eqb_eq in Hn. exists l. split; [| exact Hn].
    exists r. auto.
  - intros (l & (r' & Hin' & Hn' & Hl) & Hn).
    assert (r' = r) as -> by (apply (nodup_map_inj rs_name (p_resources p)); auto; congruence).
    destruct (find _ (rs_relations r)) as [x |] eqn:Hf; [eauto |].
    apply (find_none _ _ Hf) in Hl. cbn in Hl. rewrite Hn, String.eqb_refl in Hl. discriminate.
Qed.

Lemma find_run E pid sel s : store_ok E s ->
  answer E (QFindRelationshipRecords pid sel) s =
  match policies s pid with
  | None => Err EPolicyNotFound
  | Some rec =>
      match valid_selector (pr_policy rec) sel with
      | Ok _ =>
          match new_selector_spec sel with
          | Ok sp => Ok (ARecords (map (record_of s pid E) (matching s pid sp)))
          | Err e => Err e
          | Panic => Panic
          | Fuel => Fuel
          end
      | Err e => Err e
      | Panic => Panic
      | Fuel => Fuel
      end
  end.
Proof.
  intros H. serve_eq. unfold find_relationship_records. rewrite run_pbind. cbn [repo_get_policy run fst snd]. unfold policies.
  destruct (kv_get scmp pid (st_pol s)) as [rec |]; [| reflexivity].
  rewrite run_rbind. cbn [lift run fst snd].
  destruct (valid_selector (pr_policy rec) sel); try reflexivity.
  rewrite (run_find_records E pid sel s H). cbn [fst]. destruct (new_selector_spec sel); reflexivity.
Qed.

Lemma complete_parts sel : complete_selector sel -> parts_set sel.
Proof. intros ((o & ? & ? & ?) & (l & ? & ?) & (u & ? & ? & ?)). repeat split; eauto. Qed.

(** What the validity check accepts. *)
Definition object_name (sel : selector) : option string :=
  match s_obj sel with
  | Some (OSObject (Some e)) => Some (e_res e)
  | Some (OSResource rs) => Some rs
  | _ => None
  end.

Lemma valid_object_ok p sel : complete_selector sel ->
  (valid_object_selector p (s_obj sel) = Ok tt <->
   forall rs, object_name sel = Some rs -> declares_resource p rs) /\
  valid_object_selector p (s_obj sel) <> Panic /\ valid_object_selector p (s_obj sel) <> Fuel.
Proof.
  intros ((o & Ho & Hu & Hn) & _). unfold object_name, valid_object_selector. rewrite Ho.
  assert (forall n, (match get_resource_by_name p n with Some _ => Ok tt | None => Err EResourceNotFound end) = Ok tt
                    <-> forall rs, Some n = Some rs -> declares_resource p rs) as Hx.
  { intros n. rewrite <- (get_resource_some p) with (n := n) || idtac.
    destruct (get_resource_by_name p n) as [r |] eqn:Hg; split; try discriminate; try reflexivity.
    - intros _ rs [= <-]. apply get_resource_some. eauto.
    - intros H. apply get_resource_none in Hg. contradiction Hg. apply H. reflexivity. }
  assert (forall n, (match get_resource_by_name p n with Some _ => Ok tt | None => Err EResourceNotFound end) <> Panic /\
                    (match get_resource_by_name p n with Some _ => Ok tt | None => Err EResourceNotFound end) <> Fuel) as Hy
    by (intros n; destruct (get_resource_by_name p n); split; discriminate).
  destruct o as [[e |] | rs | |]; try congruence; auto. split; [| split; discriminate]. split; [discriminate | reflexivity].
Qed.

Lemma valid_relation_ok p sel n : unique_decls p -> s_rel sel = Some (LSName n) -> complete_selector sel ->
  forall rs, object_name sel = Some rs -> declares_resource p rs ->
  (valid_relation_selector p (s_obj sel) (s_rel sel) = Ok tt <-> declares p rs n) /\
  valid_relation_selector p (s_obj sel) (s_rel sel) <> Panic /\ valid_relation_selector p (s_obj sel) (s_rel sel) <> Fuel.
Proof.
  intros Hu Hl ((o & Ho & _) & _) rs Hn Hd. unfold valid_relation_selector. rewrite Hl.
  assert (object_selector_resource_name (s_obj sel) = Ok rs) as ->.
  { unfold object_name in Hn. rewrite Ho in *. destruct o as [[e |] | x | |]; try discriminate; injection Hn as <-; reflexivity. }
  cbn [bind]. apply get_resource_some in Hd as [r Hr]. rewrite Hr.
  pose proof (get_relation_some p rs r n Hu Hr) as Hg. rewrite <- Hg.
  unfold get_relation_by_name. cbn [bind].
  destruct (find _ (rs_relations r)) as [l |]; split; try (split; discriminate); split; eauto; try discriminate.
  intros [l [=]].
Qed.

Lemma valid_relation_wild p sel n : s_rel sel = Some (LSName n) -> complete_selector sel -> object_name sel = None ->
  (valid_relation_selector p (s_obj sel) (s_rel sel) = Panic <-> ~ declares_resource p "") /\
  valid_relation_selector p (s_obj sel) (s_rel sel) <> Fuel.
Proof.
  intros Hl ((o & Ho & Hu & Hx) & _) Hn. unfold valid_relation_selector. rewrite Hl.
  assert (object_selector_resource_name (s_obj sel) = Ok ""%string) as ->.
  { unfold object_name in Hn. rewrite Ho in *. destruct o as [[e |] | x | |]; try discriminate; try congruence. reflexivity. }
  cbn [bind]. rewrite <- get_resource_none. destruct (get_resource_by_name p "") as [r |]; cbn [get_relation_by_name bind].
  - destruct (find _ (rs_relations r)); split; try discriminate; split; discriminate.
  - split; [tauto | discriminate].
Qed.

Lemma valid_subject_returns p sel : complete_selector sel ->
  valid_subject_selector p (s_subj sel) <> Panic /\ valid_subject_selector p (s_subj sel) <> Fuel.
Proof.
  intros (_ & _ & (u & Hu & H1 & H2)). rewrite Hu. unfold valid_subject_selector.
  destruct u as [[[e | e x | x |] |] | rs | |]; cbn [subject_resource_name bind]; try congruence; try (split; discriminate);
    destruct (get_resource_by_name p _); split; discriminate.
Qed.

Theorem find_panics E pid sel s : store_ok E s -> complete_selector sel ->
  ((answer E (QFindRelationshipRecords pid (Some sel)) s = Panic \/
    answer E (QFindRelationshipRecords pid (Some sel)) s = Fuel) <->
   exists rec n, policies s pid = Some rec /\ s_obj sel = Some OSWild /\ s_rel sel = Some (LSName n) /\
     ~ declares_resource (pr_policy rec) "").
Proof.
  intros H Hc. rewrite (find_run E) by exact H.
  destruct (policies s pid) as [rec |] eqn:Hg; [| split; [intros [[=] | [=]] | intros (rec & n & [=] & _)]].
  destruct (so_policy _ _ H pid rec Hg) as [_ Hw]. apply wf_unique in Hw.
  destruct (proj2 (new_selector_parts sel) (complete_parts sel Hc)) as [sp Hsp]. rewrite Hsp.
  unfold valid_selector.
  destruct (valid_object_ok (pr_policy rec) sel Hc) as (Ho & Hop & Hof).
  destruct (valid_subject_returns (pr_policy rec) sel Hc) as (Hup & Huf).
  destruct (valid_object_selector (pr_policy rec) (s_obj sel)) as [[] | e | |] eqn:Hvo; cbn [bind]; try congruence.
  - pose proof (proj1 Ho eq_refl) as Hd.
    destruct Hc as ((o & Hso & Hx1 & Hx2) & (l & Hsl & Hx3) & Hsu).
    assert (complete_selector sel) as Hc by (repeat split; eauto).
    destruct l as [n | |]; [| | congruence].
    + destruct (object_name sel) as [rs |] eqn:Hon.
      * destruct (valid_relation_ok (pr_policy rec) sel n Hw Hsl Hc rs Hon (Hd rs eq_refl)) as (_ & Hrp & Hrf).
        assert (s_obj sel <> Some OSWild) as Hnw by (unfold object_name in Hon; intros Hz; rewrite Hz in Hon; discriminate).
        split.
        -- destruct (valid_relation_selector _ _ _) as [[] | | |]; cbn [bind]; try congruence; [| intros [[=] | [=]]].
           destruct (valid_subject_selector _ _); try congruence; intros [[=] | [=]].
        -- intros (rec' & n' & _ & Hz & _). congruence.
      * destruct (valid_relation_wild (pr_policy rec) sel n Hsl Hc Hon) as (Hrp & Hrf).
        assert (o = OSWild) as -> by (unfold object_name in Hon; rewrite Hso in Hon; destruct o as [[e |] | |  |]; congruence).
        split.
        -- intros Hz. exists rec, n. repeat split; auto. apply Hrp.
           destruct (valid_relation_selector _ _ _) as [[] | | |]; cbn [bind] in Hz; auto; try congruence.
           ++ destruct (valid_subject_selector _ _); try congruence; destruct Hz as [[=] | [=]].
           ++ destruct Hz as [[=] | [=]].
        -- intros (rec' & n' & [= <-] & _ & _ & Hz). apply Hrp in Hz. rewrite Hz. left. reflexivity.
    + unfold valid_relation_selector. rewrite Hsl. cbn [bind]. split.
      * destruct (valid_subject_selector _ _); try congruence; intros [[=] | [=]].
      * intros (rec' & n' & _ & _ & [=] & _).
  - split; [intros [[=] | [=]] |]. intros (rec' & n' & _ & Hz & _). exfalso.
    assert (Err e = Ok tt) as [=]. apply Ho. intros rs. unfold object_name. rewrite Hz. discriminate.
Qed.

Theorem find_accepts E pid sel rec s : store_ok E s -> complete_selector sel -> policies s pid = Some rec ->
  selector_declared (pr_policy rec) sel -> plain_selector sel ->
  exists l, answer E (QFindRelationshipRecords pid (Some sel)) s = Ok (ARecords l).
Proof.
  intros H Hc Hg Hdec [Hp1 Hp2]. rewrite (find_run E) by exact H. rewrite Hg.
  destruct (so_policy _ _ H pid rec Hg) as [_ Hw]. apply wf_unique in Hw.
  destruct (proj2 (new_selector_parts sel) (complete_parts sel Hc)) as [sp Hsp]. rewrite Hsp.
  unfold valid_selector. destruct Hdec as (Hd1 & Hd2 & Hd3).
  destruct (valid_object_ok (pr_policy rec) sel Hc) as (Ho & _).
  assert (forall rs, object_name sel = Some rs -> declares_resource (pr_policy rec) rs) as Hod.
  { unfold object_name. intros rs. destruct (s_obj sel) as [[[e |] | x | |] |]; try discriminate; intros [= <-]; exact Hd1. }
  rewrite (proj2 Ho Hod). cbn [bind].
  destruct Hc as ((o & Hso & Hx1 & Hx2) & (l & Hsl & Hx3) & (u & Hsu & Hx4 & Hx5)).
  assert (complete_selector sel) as Hc by (repeat split; eauto).
  assert (valid_relation_selector (pr_policy rec) (s_obj sel) (s_rel sel) = Ok tt) as ->.
  { destruct l as [n | |]; [| | congruence]; [| rewrite Hsl; reflexivity].
    specialize (Hp2 n Hsl).
    destruct (object_name sel) as [rs |] eqn:Hon.
    - apply (valid_relation_ok (pr_policy rec) sel n Hw Hsl Hc rs Hon (Hod rs eq_refl)).
      rewrite Hsl, Hso in Hd2. unfold object_name in Hon. rewrite Hso in Hon.
      destruct o as [[e |] | x | |]; try discriminate; injection Hon as <-; exact Hd2.
    - exfalso. unfold object_name in Hon. rewrite Hso in Hon, Hp2. destruct o as [[e |] | x | |]; congruence. }
  cbn [bind]. rewrite Hsu in *.
  assert (forall n, declares_resource (pr_policy rec) n ->
            exists x, get_resource_by_name (pr_policy rec) n = Some x) as Hres by (intros; apply get_resource_some; assumption).
  destruct u as [[v |] | rs | |]; try congruence; cbn [valid_subject_selector].
  - destruct v as [e | e x | x |]; cbn [subject_resource_name bind].
    + destruct (Hres _ Hd3) as [y ->]. eauto.
    + contradiction (Hp1 e x). reflexivity.
    + destruct (Hres _ Hd3) as [y ->]. eauto.
    + contradiction Hd3.
  - destruct (Hres _ Hd3) as [y ->]. eauto.
  - eauto.
Qed.

(** Entity-set subjects are looked up by their relation name. *)
Theorem find_entity_set_rejected E pid sel rec e rel s : store_ok E s -> policies s pid = Some rec ->
  s_subj sel = Some (USSubject (Some (SEntitySet e rel))) -> ~ declares_resource (pr_policy rec) rel ->
  failed (answer E (QFindRelationshipRecords pid (Some sel)) s).
Proof.
  intros H Hg Hs Hn a. rewrite (find_run E) by exact H. rewrite Hg. unfold valid_selector.
  destruct (valid_object_selector _ _) as [[] | | |]; cbn [bind]; try discriminate.
  destruct (valid_relation_selector _ _ _) as [[] | | |]; cbn [bind]; try discriminate.
  rewrite Hs. cbn [valid_subject_selector subject_resource_name bind]. apply get_resource_none in Hn. rewrite Hn. discriminate.
Qed.
