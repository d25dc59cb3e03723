(** What the trees that a search returns say. *)
From Coq Require Import Permutation.
From Verif Require Import Base Domain Lexer Parser Validate Store Search SearchRun BaseFacts SpecGrammar SpecPolicy SpecStore SpecSearch ValidateFacts SearchFacts SearchSem SearchTerm.

(** ** Built trees *)

Fixpoint fresh (t : gtree) : Prop :=
  match t with
  | GOr r ps | GAnd r ps => r = RUnknown /\
      (fix all (ps : list gtree) : Prop := match ps with [] => True | p :: ps' => fresh p /\ all ps' end) ps
  | GDiff r x y => r = RUnknown /\ fresh x /\ fresh y
  | GPath r _ t _ => r = RUnknown /\ t = None
  end.

Lemma fresh_all ps :
  (fix all (ps : list gtree) : Prop := match ps with [] => True | p :: ps' => fresh p /\ all ps' end) ps <->
  Forall fresh ps.
Proof.
  induction ps as [| p ps IH]; [split; constructor |]. rewrite IH. split.
  - intros [H1 H2]. constructor; auto.
  - intros H. inversion H; auto.
Qed.

Lemma build_fresh E es o rel : forall t gt, build_goal_tree E es t o rel = Ok gt -> fresh gt.
Proof.
  intros t. induction t as [| | r | l IHl op r IHr]; intros gt H; try discriminate.
  - cbn in H. unfold build_goal_for_rule in H. destruct (evaluate E es r o rel) as [ns | | |]; try discriminate.
    injection H as <-. cbn [fresh]. split; [reflexivity |]. apply fresh_all. apply Forall_forall. intros p Hp.
    apply in_map_iff in Hp as (n & <- & _). cbn. auto.
  - cbn in H. destruct (build_goal_tree E es l o rel) as [a | | |]; try discriminate.
    destruct (build_goal_tree E es r o rel) as [b | | |]; try discriminate. cbn in H.
    destruct op; try discriminate; injection H as <-; cbn; auto.
Qed.

Lemma fresh_result t : fresh t -> get_result t = RUnknown.
Proof. destruct t; cbn; tauto. Qed.

Lemma fresh_within t : fresh t -> forall s, within s t -> fresh s.
Proof.
  intros H s Hw. revert H. induction Hw as [| r ps p Hp _ IH | r ps p Hp _ IH | r x y _ IH | r x y _ IH | r n x why _ IH]; intros H; auto.
  - destruct H as [_ H]. apply fresh_all in H. apply IH. rewrite Forall_forall in H. auto.
  - destruct H as [_ H]. apply fresh_all in H. apply IH. rewrite Forall_forall in H. auto.
  - apply IH. apply H.
  - apply IH. apply H.
  - destruct H as [_ H]. discriminate.
Qed.

Lemma fresh_evaluated t : fresh t -> evaluated t = [].
Proof.
  induction t as [r ps IH | r ps IH | r x y IHx IHy | r n t why IH] using gtree_ind2; cbn; intros H.
  - destruct H as [_ H]. apply fresh_all in H. induction IH as [| p ps Hp _ IH]; [reflexivity |].
    inversion H; subst. cbn. rewrite Hp, IH by assumption. reflexivity.
  - destruct H as [_ H]. apply fresh_all in H. induction IH as [| p ps Hp _ IH]; [reflexivity |].
    inversion H; subst. cbn. rewrite Hp, IH by assumption. reflexivity.
  - destruct H as (_ & H1 & H2). rewrite IHx, IHy by assumption. reflexivity.
  - destruct H as [-> ->]. reflexivity.
Qed.

Lemma fresh_certified t : fresh t -> ~ certified t.
Proof.
  intros H Hc. pose proof (fresh_result t H) as Hr.
  induction Hc; cbn in Hr; try congruence. destruct H as [_ H]. discriminate.
Qed.

(** ** The subject is found at most once *)

Section Once.
  Variable E : env.
  Variable P : policy.
  Variable es : list ((string * string) * edge).
  Variable succ : entity -> string -> subject -> Prop.
  Hypothesis Hsucc : edge_subjects E es succ.
  Variable a : entity.
  Hypothesis Hnowild : forall o rel, ~ succ o rel (SResourceSet (e_res a)).

  Definition gid : string := sha E (id_text (NEntity (Some a))).

  Definition ands_fail (t : gtree) : Prop := forall r ps, within (GAnd r ps) t -> r <> RSuccess.
  Definition diffs_keep (t : gtree) : Prop :=
    forall r x y, within (GDiff r x y) t -> (r = RSuccess <-> get_result x = RSuccess).

  Lemma found_goal nd : nd <> NWild (e_res a) -> goal_found nd (GoalEntity (Some a)) = Ok true -> nd = NEntity (Some a).
  Proof.
    intros Hn Hf. apply (goal_found_in a (fun _ _ => False)) in Hf.
    destruct nd as [[o |] rel | [e |] | rs |]; cbn in Hf; try contradiction; congruence.
  Qed.

  Lemma fresh_ok t : fresh t -> ands_fail t /\ diffs_keep t.
  Proof.
    intros H. split.
    - intros r ps Hw. pose proof (fresh_within _ H _ Hw) as Hf. apply fresh_result in Hf. cbn in Hf. congruence.
    - intros r x y Hw. pose proof (fresh_within _ H _ Hw) as Hf. cbn in Hf. destruct Hf as (-> & Hx & _).
      apply fresh_result in Hx. rewrite Hx. split; discriminate.
  Qed.

  Lemma or_ok r ps : Forall (fun p => ands_fail p /\ diffs_keep p) ps -> ands_fail (GOr r ps) /\ diffs_keep (GOr r ps).
  Proof.
    intros H. rewrite Forall_forall in H. split.
    - intros r' ps' Hw. inversion Hw; subst. eapply H; eauto.
    - intros r' x y Hw. inversion Hw; subst. eapply H; eauto.
  Qed.

  Lemma search_once :
    (forall nd why seen x seen', spath E P es (GoalEntity (Some a)) nd why seen x seen' ->
      nd <> NWild (e_res a) ->
      (get_result x = RSuccess -> ~ In gid seen /\ In gid seen') /\ ands_fail x /\ diffs_keep x) /\
    (forall t e rel seen x seen', stree E P es (GoalEntity (Some a)) t e rel seen x seen' ->
      (get_result x = RSuccess -> ~ In gid seen /\ In gid seen') /\ ands_fail x /\ diffs_keep x) /\
    (forall why ns seen b ps seen', sor E P es (GoalEntity (Some a)) why ns seen b ps seen' ->
      (forall n, In n ns -> n <> NWild (e_res a)) ->
      (b = true -> ~ In gid seen /\ In gid seen') /\ Forall (fun p => ands_fail p /\ diffs_keep p) ps).
  Proof.
    destruct (seen_grows E P es (GoalEntity (Some a))) as (Gp & Gt & Go).
    assert (Hleaf : forall r n why, ands_fail (GPath r n None why) /\ diffs_keep (GPath r n None why)).
    { intros r n why. split; [intros r' ps Hw | intros r' x y Hw]; inversion Hw. }
    apply search_ind; cbn [get_result].
    - intros nd why seen id _ _ _. split; [discriminate | apply Hleaf].
    - intros nd why seen id Hid Hn Hf Hw. split; [| apply Hleaf]. intros _.
      apply found_goal in Hf; [| exact Hw]. subst nd. apply node_id_text in Hid. fold gid in Hid. subst id.
      split; [exact Hn | left; reflexivity].
    - intros nd why seen id _ _ _ _ _. split; [discriminate | apply Hleaf].
    - intros e rel why seen id t gt x seen' Hid Hn _ _ _ _ (IH & Ha & Hd) _. split; [| split].
      + intros Hr. destruct (IH Hr) as [H1 H2]. split; [| exact H2]. intros Hin. apply H1. right. exact Hin.
      + intros r ps Hw. inversion Hw; subst. eapply Ha; eauto.
      + intros r x' y Hw. inversion Hw; subst. eapply Hd; eauto.
    - intros r e rel ns seen b ps seen' He Hs IH.
      destruct IH as [H1 H2].
      { intros n Hin ->. apply (evaluate_yields E es succ Hsucc _ _ _ _ He) in Hin.
        inversion Hin as [o1 rel1 u Hu Hq1 Hq2 Hq3 Hq | |]; subst.
        destruct u; cbn in Hq; try discriminate. injection Hq as ->. eapply Hnowild; eauto. }
      split; [| apply or_ok; exact H2]. intros Hr. apply H1. apply conditional_success. exact Hr.
    - intros l r e rel seen x seen' y _ (IH & Hx) Hr Hb. split; [intros _; apply IH; exact Hr |].
      apply or_ok. constructor; [exact Hx |]. constructor; [| constructor]. apply fresh_ok. eapply build_fresh; eauto.
    - intros l r e rel seen x seen1 y seen2 Hl (IHl & Hx) _ Hs (IHr & Hy). split.
      + intros Hr. destruct (IHr Hr) as [H1 H2]. split; [| exact H2]. intros Hin. apply H1. eapply Gt; eauto.
      + apply or_ok. constructor; [exact Hx |]. constructor; [exact Hy | constructor].
    - intros l r e rel seen x seen' y _ (IH & Ha & Hd) Hr Hb. split; [discriminate |].
      destruct (fresh_ok y) as [Ha' Hd']; [eapply build_fresh; eauto |]. split.
      + intros r' ps Hw. inversion Hw as [| | ? ? p Hp Hw' | | |]; subst; [discriminate |].
        destruct Hp as [<- | [<- | []]]; eauto.
      + intros r' x' y' Hw. inversion Hw as [| | ? ? p Hp Hw' | | |]; subst.
        destruct Hp as [<- | [<- | []]]; eauto.
    - intros l r e rel seen x seen1 y seen2 Hl (IHl & Ha & Hd) Hx Hs (IHr & Ha' & Hd').
      assert (Hno : get_result y <> RSuccess).
      { intros Hr. destruct (IHr Hr) as [H1 _]. apply H1. apply IHl. exact Hx. }
      split; [intros Hr; contradiction |]. split.
      + intros r' ps Hw. inversion Hw as [| | ? ? p Hp Hw' | | |]; subst; [exact Hno |].
        destruct Hp as [<- | [<- | []]]; eauto.
      + intros r' x' y' Hw. inversion Hw as [| | ? ? p Hp Hw' | | |]; subst.
        destruct Hp as [<- | [<- | []]]; eauto.
    - intros l r e rel seen x seen1 y seen2 Hl (IHl & Ha & Hd) Hs (IHr & Ha' & Hd').
      assert (Hkeep : conditional (is_success (get_result x) && is_failure (get_result y)) = RSuccess <-> get_result x = RSuccess).
      { rewrite conditional_success, andb_true_iff, is_success_iff, is_failure_iff. split; [tauto |]. intros Hx. split; [exact Hx |].
        destruct (stree_known E P es _ _ _ _ _ _ _ Hs) as [Hr | Hr]; [| exact Hr].
        destruct (IHr Hr) as [H1 _]. exfalso. apply H1. apply IHl. exact Hx. }
      split; [| split].
      + intros Hr. apply Hkeep in Hr. destruct (IHl Hr) as [H1 H2]. split; [exact H1 |]. eapply Gt; eauto.
      + intros r' ps Hw. inversion Hw; subst; eauto.
      + intros r' x' y' Hw. inversion Hw; subst; eauto.
    - intros why seen _. split; [discriminate | constructor].
    - intros why n ns seen x seen' _ IH Hr Hn. destruct IH as [H1 H2]; [apply Hn; left; reflexivity |].
      split; [intros _; auto |]. constructor; [exact H2 |]. apply Forall_forall. intros p Hp.
      apply in_map_iff in Hp as (m & <- & _). apply Hleaf.
    - intros why n ns seen x seen1 b ps seen2 Hx IHx Hr Hs IHs Hn.
      destruct IHx as [_ H2]; [apply Hn; left; reflexivity |].
      destruct IHs as [H3 H4]; [intros m Hm; apply Hn; right; exact Hm |].
      split; [| constructor; assumption]. intros Hb. destruct (H3 Hb) as [H5 H6]. split; [| exact H6].
      intros Hin. apply H5. eapply Gp; eauto.
  Qed.
End Once.

(** ** Certified trees *)

Section Certified.
  Variable E : env.
  Variable P : policy.
  Variable es : list ((string * string) * edge).
  Variable succ : entity -> string -> subject -> Prop.
  Hypothesis Hsucc : edge_subjects E es succ.
  Hypothesis Huniq : unique_decls P.
  Variable a : entity.
  Variable M : entity -> string -> Prop.
  Variable origin : rnode.
  Hypothesis Hsol : forall o rel t, reach E P succ origin (NSet (Some o) rel) -> rewrites E P o rel t ->
    (M o rel <-> eval succ a M o rel t).

  Notation node_in := (node_in a M).

  Definition decides (r : sresult) (p : Prop) : Prop := (r = RSuccess -> p) /\ (r = RFailure -> ~ p).

  Lemma not_found nd : goal_found nd (GoalEntity (Some a)) = Ok false -> is_terminal nd = true -> ~ node_in nd.
  Proof.
    destruct nd as [[o |] rel | [e |] | rs |]; cbn; try discriminate; try tauto.
    - intros [= H] _ ->. rewrite !String.eqb_refl in H. discriminate.
    - intros [= H] _ ->. rewrite String.eqb_refl in H. discriminate.
  Qed.

  Lemma certified_exact :
    (forall nd why seen x seen', spath E P es (GoalEntity (Some a)) nd why seen x seen' ->
      reach E P succ origin nd -> certified x -> decides (get_result x) (node_in nd)) /\
    (forall t e rel seen x seen', stree E P es (GoalEntity (Some a)) t e rel seen x seen' ->
      (forall ru n, occurs ru t -> yields succ ru e rel n -> reach E P succ origin n) ->
      certified x -> decides (get_result x) (eval succ a M e rel t)) /\
    (forall why ns seen b ps seen', sor E P es (GoalEntity (Some a)) why ns seen b ps seen' ->
      (forall n, In n ns -> reach E P succ origin n) ->
      Forall2 (fun n p => certified p -> decides (get_result p) (node_in n)) ns ps /\
      (forall p, In p ps -> get_result p = RSuccess -> b = true)).
  Proof.
    unfold decides. apply search_ind; cbn [get_result].
    - intros nd why seen id _ _ _ Hc. inversion Hc; subst. contradiction.
    - intros nd why seen id _ _ Hf _ _. split; [intros _; apply goal_found_in; exact Hf | discriminate].
    - intros nd why seen id _ _ Hf Ht _ _. split; [discriminate | intros _; apply not_found; assumption].
    - intros e rel why seen id t gt x seen' _ _ _ Ht Hb _ IH Hre Hc. inversion Hc as [| ? ? ? Hcx | | | | | | |]; subst.
      pose proof (node_rewrites E P es _ _ _ _ Ht Hb) as Hw. cbn [SearchSem.node_in].
      destruct IH as [H1 H2]; [| exact Hcx |].
      + intros ru n Ho Hy. eapply re_step; [exact Hre |]. econstructor; eauto.
      + rewrite (Hsol e rel t Hre Hw). auto.
    - intros r e rel ns seen b ps seen' He _ IH Hre Hc.
      destruct IH as [Hall Hsome].
      { intros n Hin. apply (Hre r); [constructor |]. eapply evaluate_yields; eauto. }
      assert (Hev : eval succ a M e rel (TRule r) <-> exists n, In n ns /\ node_in n).
      { split.
        - destruct r as [| c | ts cu |]; cbn [eval]; [| | | contradiction].
          + intros (u & Hu & Hcov). exists (subject_node u). split.
            * apply (evaluate_yields E es succ Hsucc _ _ _ _ He). constructor. exact Hu.
            * destruct u as [e' | [o |] r' | rs |]; cbn in Hcov |- *; auto.
          + intros Hm. exists (NSet (Some e) c). split; [| exact Hm].
            apply (evaluate_yields E es succ Hsucc _ _ _ _ He). constructor.
          + intros (u & o' & Hu & Ho' & Hm). exists (NSet (subject_object u) cu). split.
            * apply (evaluate_yields E es succ Hsucc _ _ _ _ He). constructor. exact Hu.
            * rewrite Ho'. exact Hm.
        - intros (n & Hin & Hn). apply (evaluate_yields E es succ Hsucc _ _ _ _ He) in Hin.
          destruct Hin as [o rel u Hu | o rel c | o rel ts cu u Hu]; cbn [eval].
          + exists u. split; [exact Hu |]. apply node_in_covers. exact Hn.
          + exact Hn.
          + destruct (subject_object u) as [o' |] eqn:Ho; [| contradiction Hn]. exists u, o'. auto. }
      rewrite Hev. split.
      + intros Hr. rewrite Hr in Hc. inversion Hc as [| | ? p Hp Hps Hcp Heq | | | | | |]; subst.
        clear - Hall Hp Hps Hcp. revert Hp. induction Hall as [| n p' ns ps Hnp _ IH]; intros Hp; [contradiction |].
        destruct Hp as [<- | Hp].
        * exists n. split; [left; reflexivity |]. apply Hnp; assumption.
        * destruct (IH Hp) as (m & Hm & Hin). exists m. split; [right; exact Hm | exact Hin].
      + intros Hr (n & Hin & Hn). rewrite Hr in Hc. inversion Hc as [| | | ? Hcs Heq | | | | |]; subst.
        destruct b; [discriminate |].
        assert (Hp : exists p, In p ps /\ (certified p -> (get_result p = RSuccess -> node_in n) /\ (get_result p = RFailure -> ~ node_in n))).
        { clear - Hall Hin. induction Hall as [| n' p' ns ps Hnp _ IH]; [contradiction |].
          destruct Hin as [<- | Hin]; [exists p'; split; [left; reflexivity | exact Hnp] |].
          destruct (IH Hin) as (p & Hp & H). exists p. split; [right; exact Hp | exact H]. }
        destruct Hp as (p & Hp & Hd). destruct (Hd (Hcs p Hp)) as [_ Hf]. apply Hf; [| exact Hn].
        destruct (get_result p) eqn:Hrp; [| specialize (Hsome p Hp Hrp); discriminate | reflexivity].
        exfalso. specialize (Hcs p Hp). clear - Hcs Hrp. induction Hcs; cbn in Hrp; try congruence.
    - intros l r e rel seen x seen' y _ IH Hx Hb Hre Hc.
      specialize (IH (fun ru n Ho => Hre ru n (occ_left ru _ _ _ Ho))). split; [| discriminate]. intros _. cbn [eval]. left.
      inversion Hc as [| | ? p Hp Hps Hcp Heq | | | | | |]; subst. destruct Hp as [<- | [<- | []]].
      + apply IH; assumption.
      + apply build_fresh in Hb. apply fresh_result in Hb. congruence.
    - intros l r e rel seen x seen1 y seen2 Hl IHl Hx Hs IHr Hre Hc.
      specialize (IHl (fun ru n Ho => Hre ru n (occ_left ru _ _ _ Ho))).
      specialize (IHr (fun ru n Ho => Hre ru n (occ_right ru _ _ _ Ho))). cbn [eval]. split.
      + intros Hr. right. rewrite Hr in Hc. inversion Hc as [| | ? p Hp Hps Hcp Heq | | | | | |]; subst.
        destruct Hp as [<- | [<- | []]]; [congruence |]. apply IHr; assumption.
      + intros Hr. rewrite Hr in Hc. inversion Hc as [| | | ? Hcs Heq | | | | |]; subst.
        assert (certified x) by (apply Hcs; left; reflexivity).
        assert (certified y) by (apply Hcs; right; left; reflexivity).
        destruct (IHl H) as [_ H1], (IHr H0) as [_ H2]. intros [He | He]; [apply H1 | apply H2]; assumption.
    - intros l r e rel seen x seen' y _ IH Hx Hb Hre Hc.
      specialize (IH (fun ru n Ho => Hre ru n (occ_left ru _ _ _ Ho))). split; [discriminate |]. intros _. cbn [eval].
      inversion Hc as [| | | | ? p Hp Hps Hcp Heq | | | |]; subst. destruct Hp as [<- | [<- | []]].
      + destruct (IH Hcp) as [_ H]. specialize (H Hps). tauto.
      + apply build_fresh in Hb. apply fresh_result in Hb. congruence.
    - intros l r e rel seen x seen1 y seen2 Hl IHl Hx Hs IHr Hre Hc.
      specialize (IHl (fun ru n Ho => Hre ru n (occ_left ru _ _ _ Ho))).
      specialize (IHr (fun ru n Ho => Hre ru n (occ_right ru _ _ _ Ho))). cbn [eval]. split.
      + intros Hr. rewrite Hr in Hc. inversion Hc as [| | | | | ? Hcs Heq | | |]; subst.
        assert (certified x) by (apply Hcs; left; reflexivity).
        assert (certified y) by (apply Hcs; right; left; reflexivity).
        split; [apply IHl | apply IHr]; assumption.
      + intros Hr. rewrite Hr in Hc. inversion Hc as [| | | | ? p Hp Hps Hcp Heq | | | |]; subst.
        destruct Hp as [<- | [<- | []]]; [congruence |]. destruct (IHr Hcp) as [_ H]. specialize (H Hps). tauto.
    - intros l r e rel seen x seen1 y seen2 Hl IHl Hs IHr Hre Hc.
      specialize (IHl (fun ru n Ho => Hre ru n (occ_left ru _ _ _ Ho))).
      specialize (IHr (fun ru n Ho => Hre ru n (occ_right ru _ _ _ Ho))). cbn [eval].
      inversion Hc as [| | | | | | ? ? Hcl Hcr Heq | ? ? Hrl Hcl Heq | ? ? Hrr Hcr Heq]; subst.
      + split; [| discriminate]. intros _. symmetry in Heq. apply conditional_success, andb_true_iff in Heq as [H1 H2].
        apply is_success_iff in H1. apply is_failure_iff in H2. split; [apply IHl | apply IHr]; assumption.
      + split; [intros Hs'; congruence |]. intros _. destruct (IHl Hcl) as [_ H]. specialize (H Hrl). tauto.
      + split; [intros Hs'; congruence |]. intros _. destruct (IHr Hcr) as [H _]. specialize (H Hrr). tauto.
    - intros why seen _. split; [constructor | intros p []].
    - intros why n ns seen x seen' _ IH Hr Hre. split; [| auto]. constructor; [apply IH, Hre; left; reflexivity |].
      clear. induction ns as [| m ns IHn]; constructor; [| exact IHn]. intros Hc. inversion Hc; subst. contradiction.
    - intros why n ns seen x seen1 b ps seen2 _ IH Hr _ IHs Hre.
      destruct IHs as [Hall Hsome]; [intros m Hm; apply Hre; right; exact Hm |].
      split; [constructor; [apply IH, Hre; left; reflexivity | exact Hall] |].
      intros p [<- | Hp] Hrp; [contradiction | eauto].
  Qed.
End Certified.

(** ** Evaluated nodes *)

Section Evaluated.
  Variable E : env.
  Variable P : policy.
  Variable es : list ((string * string) * edge).
  Variable g : goal.

  Definition with_ids (ns : list rnode) (ids : list string) : Prop := Forall2 (fun n id => node_id E n = Ok id) ns ids.

  Lemma known_evaluated r n t why : r <> RUnknown -> evaluated (GPath r n (Some t) why) = n :: evaluated t.
  Proof. destruct r; cbn; congruence. Qed.

  (** The evaluated nodes of the tree are the new nodes of [seen'], in order. *)
  Lemma search_evaluated :
    (forall nd why seen x seen', spath E P es g nd why seen x seen' ->
      exists ids, with_ids (evaluated x) ids /\ Permutation seen' (ids ++ seen) /\ (NoDup seen -> NoDup seen')) /\
    (forall t e rel seen x seen', stree E P es g t e rel seen x seen' ->
      exists ids, with_ids (evaluated x) ids /\ Permutation seen' (ids ++ seen) /\ (NoDup seen -> NoDup seen')) /\
    (forall why ns seen b ps seen', sor E P es g why ns seen b ps seen' ->
      exists ids, with_ids (flat_map evaluated ps) ids /\ Permutation seen' (ids ++ seen) /\ (NoDup seen -> NoDup seen')).
  Proof.
    assert (Htwo : forall xs ys seen seen1 seen2 ids1 ids2,
              with_ids xs ids1 -> Permutation seen1 (ids1 ++ seen) -> (NoDup seen -> NoDup seen1) ->
              with_ids ys ids2 -> Permutation seen2 (ids2 ++ seen1) -> (NoDup seen1 -> NoDup seen2) ->
              exists ids, with_ids (xs ++ ys) ids /\ Permutation seen2 (ids ++ seen) /\ (NoDup seen -> NoDup seen2)).
    { intros xs ys seen seen1 seen2 ids1 ids2 H1 H2 H3 H4 H5 H6. exists (ids1 ++ ids2). split; [| split; [| auto]].
      - apply Forall2_app; assumption.
      - rewrite H5, H2. rewrite !app_assoc. apply Permutation_app_tail. apply Permutation_app_comm. }
    unfold with_ids in *. apply search_ind.
    - intros nd why seen id _ _. exists []. split; [constructor | auto].
    - intros nd why seen id Hid Hn _. exists [id]. split; [repeat constructor; exact Hid |]. split; [reflexivity |].
      intros H. constructor; assumption.
    - intros nd why seen id Hid Hn _ _. exists [id]. split; [repeat constructor; exact Hid |]. split; [reflexivity |].
      intros H. constructor; assumption.
    - intros e rel why seen id t gt x seen' Hid Hn _ _ _ Hs (ids & H1 & H2 & H3).
      exists (id :: ids). rewrite known_evaluated.
      2:{ destruct (stree_known E P es g _ _ _ _ _ _ Hs) as [-> | ->]; discriminate. }
      split; [constructor; assumption |]. split.
      + rewrite H2. symmetry. apply Permutation_middle.
      + intros H. apply H3. constructor; assumption.
    - intros r e rel ns seen b ps seen' _ _ IH. exact IH.
    - intros l r e rel seen x seen' y _ (ids & H1 & H2) _ Hb. exists ids. cbn [evaluated flat_map].
      rewrite (fresh_evaluated y) by (eapply build_fresh; eauto). rewrite !app_nil_r. auto.
    - intros l r e rel seen x seen1 y seen2 _ (ids1 & H1 & H2 & H3) _ _ (ids2 & H4 & H5 & H6).
      cbn [evaluated flat_map]. rewrite app_nil_r. eauto.
    - intros l r e rel seen x seen' y _ (ids & H1 & H2) _ Hb. exists ids. cbn [evaluated flat_map].
      rewrite (fresh_evaluated y) by (eapply build_fresh; eauto). rewrite !app_nil_r. auto.
    - intros l r e rel seen x seen1 y seen2 _ (ids1 & H1 & H2 & H3) _ _ (ids2 & H4 & H5 & H6).
      cbn [evaluated flat_map]. rewrite app_nil_r. eauto.
    - intros l r e rel seen x seen1 y seen2 _ (ids1 & H1 & H2 & H3) _ (ids2 & H4 & H5 & H6).
      cbn [evaluated]. eauto.
    - intros why seen. exists []. split; [constructor | auto].
    - intros why n ns seen x seen' _ (ids & H1 & H2) _. exists ids. cbn [flat_map].
      assert (Hz : flat_map evaluated (map (fun n => GPath RUnknown n None why) ns) = []) by (induction ns; cbn; auto).
      rewrite Hz, app_nil_r. auto.
    - intros why n ns seen x seen1 b ps seen2 _ (ids1 & H1 & H2 & H3) _ _ (ids2 & H4 & H5 & H6).
      cbn [flat_map]. eauto.
  Qed.

  Variable succ : entity -> string -> subject -> Prop.
  Hypothesis Hsucc : edge_subjects E es succ.
  Variable origin : rnode.

  (** Nodes of the tree are reached. *)
  Lemma shown_reached :
    (forall nd why seen x seen', spath E P es g nd why seen x seen' -> reach E P succ origin nd ->
      forall n, In n (evaluated x) \/ In n (skipped x) -> reach E P succ origin n) /\
    (forall t e rel seen x seen', stree E P es g t e rel seen x seen' ->
      (forall ru n, occurs ru t -> yields succ ru e rel n -> reach E P succ origin n) ->
      forall n, In n (evaluated x) \/ In n (skipped x) -> reach E P succ origin n) /\
    (forall why ns seen b ps seen', sor E P es g why ns seen b ps seen' ->
      (forall n, In n ns -> reach E P succ origin n) ->
      forall n, In n (flat_map evaluated ps) \/ In n (flat_map skipped ps) -> reach E P succ origin n).
  Proof.
    assert (Hbuilt : forall t o rel y, build_goal_tree E es t (Some o) rel = Ok y ->
              (forall ru n, occurs ru t -> yields succ ru o rel n -> reach E P succ origin n) ->
              forall n, In n (evaluated y) \/ In n (skipped y) -> reach E P succ origin n).
    { intros t o rel y Hb Hr n [Hn | Hn].
      - rewrite (fresh_evaluated y) in Hn by (eapply build_fresh; eauto). contradiction.
      - assert (Hp : paths_in (reach E P succ origin) y).
        { eapply build_tree_paths; [exact Hb |]. intros ru ns m Ho He Hm. eapply Hr; [exact Ho |].
          eapply evaluate_yields; eauto. }
        pose proof (build_fresh _ _ _ _ _ _ Hb) as Hf. clear Hb Hr. revert Hf Hp Hn.
        induction y as [r ps IH | r ps IH | r x z IHx IHz | r m t' why IH] using gtree_ind2; cbn; intros Hf Hp Hn.
        + destruct Hf as [_ Hf]. apply fresh_all in Hf. apply paths_in_all in Hp. apply in_flat_map in Hn as (p & Hin & Hn).
          rewrite Forall_forall in *. eapply IH; eauto.
        + destruct Hf as [_ Hf]. apply fresh_all in Hf. apply paths_in_all in Hp. apply in_flat_map in Hn as (p & Hin & Hn).
          rewrite Forall_forall in *. eapply IH; eauto.
        + apply in_app_iff in Hn as [Hn | Hn]; [apply IHx | apply IHz]; tauto.
        + destruct Hf as [-> ->]. cbn in Hn. destruct Hn as [<- | []]. exact Hp. }
    assert (Happ : forall (xs ys xs' ys' : list rnode) (R : rnode -> Prop),
              (forall n, In n xs \/ In n ys -> R n) -> (forall n, In n xs' \/ In n ys' -> R n) ->
              forall n, In n (xs ++ xs') \/ In n (ys ++ ys') -> R n).
    { intros xs ys xs' ys' R H H' n. rewrite !in_app_iff. intros [[Hn | Hn] | [Hn | Hn]]; auto. }
    apply search_ind.
    - intros nd why seen id _ _ Hr n. cbn. intros [[] | [<- | []]]. exact Hr.
    - intros nd why seen id _ _ _ Hr n. cbn. intros [[<- | []] | []]. exact Hr.
    - intros nd why seen id _ _ _ _ Hr n. cbn. intros [[<- | []] | []]. exact Hr.
    - intros e rel why seen id t gt x seen' _ _ _ Ht Hb Hs IH Hr n.
      pose proof (node_rewrites E P es _ _ _ _ Ht Hb) as Hw.
      assert (Hi : forall n, In n (evaluated x) \/ In n (skipped x) -> reach E P succ origin n).
      { apply IH. intros ru m Ho Hy. eapply re_step; [exact Hr |]. econstructor; eauto. }
      destruct (stree_known E P es g _ _ _ _ _ _ Hs) as [-> | ->]; cbn; intros [[<- | Hn] | Hn]; auto.
    - intros r e rel ns seen b ps seen' He _ IH Hr. apply IH. intros n Hin. apply (Hr r); [constructor |].
      eapply evaluate_yields; eauto.
    - intros l r e rel seen x seen' y _ IH _ Hb Hr. cbn [evaluated skipped flat_map]. rewrite !app_nil_r. apply Happ.
      + apply IH. intros ru n Ho. apply Hr, occ_left, Ho.
      + eapply Hbuilt; eauto. intros ru n Ho. apply Hr, occ_right, Ho.
    - intros l r e rel seen x seen1 y seen2 _ IHl _ _ IHr Hr. cbn [evaluated skipped flat_map]. rewrite !app_nil_r. apply Happ.
      + apply IHl. intros ru n Ho. apply Hr, occ_left, Ho.
      + apply IHr. intros ru n Ho. apply Hr, occ_right, Ho.
    - intros l r e rel seen x seen' y _ IH _ Hb Hr. cbn [evaluated skipped flat_map]. rewrite !app_nil_r. apply Happ.
      + apply IH. intros ru n Ho. apply Hr, occ_left, Ho.
      + eapply Hbuilt; eauto. intros ru n Ho. apply Hr, occ_right, Ho.
    - intros l r e rel seen x seen1 y seen2 _ IHl _ _ IHr Hr. cbn [evaluated skipped flat_map]. rewrite !app_nil_r. apply Happ.
      + apply IHl. intros ru n Ho. apply Hr, occ_left, Ho.
      + apply IHr. intros ru n Ho. apply Hr, occ_right, Ho.
    - intros l r e rel seen x seen1 y seen2 _ IHl _ IHr Hr. cbn [evaluated skipped]. apply Happ.
      + apply IHl. intros ru n Ho. apply Hr, occ_left, Ho.
      + apply IHr. intros ru n Ho. apply Hr, occ_right, Ho.
    - intros why seen _ n. cbn. tauto.
    - intros why n ns seen x seen' _ IH _ Hr. cbn [flat_map]. apply Happ.
      + apply IH. apply Hr. left. reflexivity.
      + intros m [Hm | Hm]; apply in_flat_map in Hm as (p & Hp & Hm); apply in_map_iff in Hp as (k & <- & Hk); cbn in Hm; [contradiction |].
        destruct Hm as [<- | []]. apply Hr. right. exact Hk.
    - intros why n ns seen x seen1 b ps seen2 _ IHx _ _ IHs Hr. cbn [flat_map]. apply Happ.
      + apply IHx. apply Hr. left. reflexivity.
      + apply IHs. intros m Hm. apply Hr. right. exact Hm.
  Qed.
End Evaluated.

Lemma with_ids_in E ns ids n id : with_ids E ns ids -> In n ns -> node_id E n = Ok id -> In id ids.
Proof.
  intros H. induction H as [| m i ns ids Hm _ IH]; intros Hin Hid; [contradiction |].
  destruct Hin as [<- | Hin]; [left; congruence | right; auto].
Qed.

Lemma with_ids_back E ns ids id : with_ids E ns ids -> In id ids -> exists n, In n ns /\ node_id E n = Ok id.
Proof.
  intros H. induction H as [| m i ns ids Hm _ IH]; intros Hin; [contradiction |].
  destruct Hin as [<- | Hin]; [exists m; split; [left; reflexivity | exact Hm] |].
  destruct (IH Hin) as (n & Hn & Hid). exists n. split; [right; exact Hn | exact Hid].
Qed.

Lemma with_ids_nodup E ns ids : with_ids E ns ids -> NoDup ids -> NoDup ns.
Proof.
  intros H. induction H as [| m i ns ids Hm H IH]; intros Hnd; [constructor |].
  inversion Hnd; subst. constructor; [| auto]. intros Hin. apply H2. eapply with_ids_in; eauto.
Qed.

(** Each evaluated node is evaluated once (for every goal). *)
Theorem evaluated_once E P es g nd why x seen' : spath E P es g nd why [] x seen' -> NoDup (evaluated x).
Proof.
  intros H. destruct (proj1 (search_evaluated E P es g) _ _ _ _ _ H) as (ids & Hids & Hp & Hnd).
  eapply with_ids_nodup; [exact Hids |]. rewrite app_nil_r in Hp. eapply Permutation_NoDup; [exact Hp |].
  apply Hnd. constructor.
Qed.

(** A search without goal in a policy without intersections evaluates every reached node. *)
Theorem expand_complete E P es succ origin why x seen' : edge_subjects E es succ -> unique_decls P ->
  (forall op, policy_uses E P op -> op = OpUnion \/ op = OpDiff) ->
  distinct_ids E P succ origin ->
  spath E P es GoalNone origin why [] x seen' ->
  forall n, In n (evaluated x) <-> reach E P succ origin n.
Proof.
  intros Hsucc Hu Hops Hd Hs n. split.
  { intros Hn. eapply (proj1 (shown_reached E P es GoalNone succ Hsucc origin)); eauto. apply re_here. }
  destruct (proj1 (search_evaluated E P es GoalNone) _ _ _ _ _ Hs) as (ids & Hids & Hp & Hnd).
  rewrite app_nil_r in Hp.
  assert (Hex : explored E P succ origin GoalNone [] seen').
  { eapply (proj1 (search_complete E P es succ Hsucc origin GoalNone Hu _)); [exact Hs | apply re_here |].
    eapply (proj1 (no_success E P es)); eauto. }
  assert (Hback : forall m id, reach E P succ origin m -> node_id E m = Ok id -> In id seen' -> In m (evaluated x)).
  { intros m id Hm Hid Hin. apply (Permutation_in _ Hp) in Hin.
    destruct (with_ids_back _ _ _ _ Hids Hin) as (m' & Hm' & Hid').
    assert (m = m') as ->; [| exact Hm']. apply Hd; [exact Hm | | apply node_id_text in Hid, Hid'; congruence].
    eapply (proj1 (shown_reached E P es GoalNone succ Hsucc origin)); eauto. apply re_here. }
  intros Hr. induction Hr as [| y z Hy IH Hl].
  - destruct (proj1 (seen_grows E P es GoalNone) _ _ _ _ _ Hs) as [_ (id & Hid & Hin)]. eapply Hback; eauto. apply re_here.
  - assert (Hid : exists id, node_id E y = Ok id) by (inversion Hl; subst; eexists; reflexivity).
    destruct Hid as [id Hid]. pose proof (with_ids_in _ _ _ _ _ Hids IH Hid) as Hin.
    apply (Permutation_in _ (Permutation_sym Hp)) in Hin.
    destruct (Hex id Hin) as [[] | (y' & Hy' & Hid' & _ & Hall)].
    assert (y = y') as <- by (apply Hd; auto; apply node_id_text in Hid, Hid'; congruence).
    destruct (Hall z Hl) as (idz & Hidz & Hinz). eapply Hback; eauto. eapply re_step; eauto.
  Unshelve. intros op Hop. destruct (Hops op Hop); auto.
Qed.
