(** Explanations are honest. *)
From Coq Require Import Permutation.
From Verif Require Import Base Domain Lexer Parser Validate Store Search SearchRun BaseFacts SpecGrammar SpecPolicy SpecStore SpecSearch SpecAccount
  ValidateFacts SearchFacts SearchSem SearchTerm SearchExplain.

Definition goal_of (a : option entity) : goal := match a with Some _ => GoalEntity a | None => GoalNone end.

Lemma reason_name r : reason_builder r = rule_name r.
Proof. destruct r; reflexivity. Qed.

Section Account.
  Variable E : env.
  Variable P : policy.
  Variable es : list ((string * string) * edge).
  Variable succ : entity -> string -> subject -> Prop.
  Hypothesis Hsucc : edge_subjects E es succ.
  Variable a : option entity.
  Variable final : list string.

  Definition was_seen (n : rnode) : Prop := exists id, node_id E n = Ok id /\ In id final.

  Notation right := (right_step E P succ a was_seen).

  Lemma found_meets n b : goal_found n (goal_of a) = Ok b -> (b = true <-> meets a n).
  Proof.
    unfold goal_of, meets. destruct a as [a' |]; cbn; [| intros [= <-]; split; [discriminate | contradiction]].
    destruct n as [o rel | [e |] | rs |]; cbn; try discriminate; intros [= <-].
    - split; [discriminate | contradiction].
    - rewrite andb_true_iff, !String.eqb_eq. destruct e, a'; cbn. split; [intros [-> ->]; reflexivity | intros [= -> ->]; auto].
    - apply String.eqb_eq.
    - split; [discriminate | contradiction].
  Qed.

  Lemma within_or y r ps : within y (GOr r ps) -> y = GOr r ps \/ exists p, In p ps /\ within y p.
  Proof. intros H. inversion H; subst; eauto. Qed.

  Lemma within_and y r ps : within y (GAnd r ps) -> y = GAnd r ps \/ exists p, In p ps /\ within y p.
  Proof. intros H. inversion H; subst; eauto. Qed.

  Lemma fresh_right x : fresh x -> right x.
  Proof.
    destruct x as [r ps | r ps | r y z | r n sub why]; cbn; intros H.
    - destruct H as [-> H]. apply fresh_all in H. rewrite Forall_forall in H. intros p Hp. apply fresh_result. auto.
    - destruct H as [-> H]. apply fresh_all in H. rewrite Forall_forall in H. intros p Hp. apply fresh_result. auto.
    - destruct H as (-> & Hy & Hz). split; apply fresh_result; assumption.
    - destruct H as [-> ->]. reflexivity.
  Qed.

  Lemma fresh_steps x : fresh x -> forall y, within y x -> right y.
  Proof. intros H y Hy. apply fresh_right. eapply fresh_within; eauto. Qed.

  (** The nodes and reasons of alternatives. *)
  Definition alternatives (why : string) : list rnode -> list gtree -> Prop :=
    Forall2 (fun n p => exists r sub, p = GPath r n sub why).

  Lemma alternatives_drawn ru o rel ns r ps : evaluate E es ru (Some o) rel = Ok ns -> alternatives (reason_builder ru) ns ps ->
    drawn succ (TRule ru) o rel (GOr r ps).
  Proof.
    intros He Ha. exists r, ps. split; [reflexivity |]. split.
    - intros n. rewrite <- (evaluate_yields E es succ Hsucc ru o rel ns He n). clear He. split.
      + intros (r' & sub & why & Hin). induction Ha as [| m p ns ps (r2 & s2 & ->) _ IH]; [contradiction |].
        destruct Hin as [Hin | Hin]; [left; congruence | right; auto].
      + intros Hin. induction Ha as [| m p ns ps (r2 & s2 & ->) _ IH]; [contradiction |].
        destruct Hin as [-> | Hin]; [do 3 eexists; left; reflexivity |].
        destruct (IH Hin) as (r' & sub & why & Hp). do 3 eexists. right. exact Hp.
    - rewrite <- reason_name. clear He. induction Ha as [| m p ns ps (r2 & s2 & ->) _ IH]; intros q Hq; [contradiction |].
      destruct Hq as [<- | Hq]; eauto.
  Qed.

  Lemma alternatives_map why ns : alternatives why ns (map (fun n => GPath RUnknown n None why) ns).
  Proof. induction ns; constructor; eauto. Qed.

  Lemma built_drawn o rel : forall t x, build_goal_tree E es t (Some o) rel = Ok x -> drawn succ t o rel x.
  Proof.
    induction t as [| | ru | l IHl op r IHr]; cbn [build_goal_tree]; intros x H; try discriminate.
    - unfold build_goal_for_rule in H. apply bind_ok in H as (ns & He & H). injection H as <-.
      eapply alternatives_drawn; [exact He | apply alternatives_map].
    - apply bind_ok in H as (y & Hy & H). apply bind_ok in H as (z & Hz & H).
      destruct op; try discriminate; injection H as <-; cbn [drawn]; do 3 eexists; eauto.
  Qed.

  Lemma seen_grows :
    (forall nd why seen x seen', spath E P es (goal_of a) nd why seen x seen' -> incl seen seen') /\
    (forall t e rel seen x seen', stree E P es (goal_of a) t e rel seen x seen' -> incl seen seen') /\
    (forall why ns seen b ps seen', sor E P es (goal_of a) why ns seen b ps seen' -> incl seen seen').
  Proof.
    pose proof (search_evaluated E P es (goal_of a)) as (H1 & H2 & H3). repeat split; intros.
    - destruct (H1 _ _ _ _ _ H) as (ids & _ & Hp & _). intros i Hi. rewrite Hp. apply in_app_iff. auto.
    - destruct (H2 _ _ _ _ _ _ H) as (ids & _ & Hp & _). intros i Hi. rewrite Hp. apply in_app_iff. auto.
    - destruct (H3 _ _ _ _ _ _ H) as (ids & _ & Hp & _). intros i Hi. rewrite Hp. apply in_app_iff. auto.
  Qed.

  Lemma search_steps :
    (forall nd why seen x seen', spath E P es (goal_of a) nd why seen x seen' -> incl seen' final ->
      (exists r sub, x = GPath r nd sub why) /\ (get_result x = RUnknown -> x = GPath RUnknown nd None why /\ was_seen nd) /\
      forall y, within y x -> right y) /\
    (forall t e rel seen x seen', stree E P es (goal_of a) t e rel seen x seen' -> incl seen' final ->
      drawn succ t e rel x /\ forall y, within y x -> right y) /\
    (forall why ns seen b ps seen', sor E P es (goal_of a) why ns seen b ps seen' -> incl seen' final ->
      alternatives why ns ps /\ (forall p y, In p ps -> within y p -> right y) /\
      (if b then exists p, In p ps /\ get_result p = RSuccess
       else forall p, In p ps -> get_result p = RFailure \/ exists n why, p = GPath RUnknown n None why /\ was_seen n)).
  Proof.
    assert (Hleaf : forall r n why, right (GPath r n None why) -> forall y, within y (GPath r n None why) -> right y).
    { intros r n why Hr y Hy. inversion Hy; subst. exact Hr. }
    assert (Hor : forall r ps, right (GOr r ps) -> (forall p y, In p ps -> within y p -> right y) -> forall y, within y (GOr r ps) -> right y).
    { intros r ps Hr Hps y Hy. apply within_or in Hy as [-> | (p & Hp & Hy)]; eauto. }
    assert (Hand : forall r ps, right (GAnd r ps) -> (forall p y, In p ps -> within y p -> right y) -> forall y, within y (GAnd r ps) -> right y).
    { intros r ps Hr Hps y Hy. apply within_and in Hy as [-> | (p & Hp & Hy)]; eauto. }
    assert (Htwo : forall x z : gtree, (forall y, within y x -> right y) -> (forall y, within y z -> right y) ->
              forall p y, In p [x; z] -> within y p -> right y).
    { intros x z Hx Hz p y [<- | [<- | []]]; auto. }
    apply search_ind.
    - intros nd why seen id Hid Hin Hf. split; [eauto |]. split; [intros _; split; [reflexivity | exists id; auto] |].
      apply Hleaf. reflexivity.
    - intros nd why seen id Hid Hin Hg Hf. split; [eauto |]. split; [discriminate |]. apply Hleaf.
      apply (found_meets nd true Hg). reflexivity.
    - intros nd why seen id Hid Hin Hg Ht Hf. split; [eauto |]. split; [discriminate |]. apply Hleaf. cbn [right_step]. split.
      + intros o rel ->. discriminate.
      + intros Hm. apply (found_meets nd false Hg) in Hm. discriminate.
    - intros e rel why seen id t gt x seen' Hid Hin Hg Ht Hb Hs IH Hf. destruct (IH Hf) as [Hd Hw].
      pose proof (stree_known E P es _ _ _ _ _ _ _ Hs) as Hk. split; [eauto |].
      split; [cbn [get_result]; destruct Hk as [-> | ->]; discriminate |].
      intros y Hy. inversion Hy; subst; [| auto]. pose proof (node_rewrites E P es _ _ _ _ Ht Hb) as Hrw.
      destruct Hk as [Hk | Hk]; rewrite Hk; cbn [right_step]; (split; [exact Hk | exists e, rel, t; auto]).
    - intros r e rel ns seen b ps seen' He Hs IH Hf. destruct (IH Hf) as (Ha & Hw & Hb). split; [eapply alternatives_drawn; eauto |].
      apply Hor; [| exact Hw]. destruct b; exact Hb.
    - intros l r e rel seen x seen' y Hs IH Hr Hb Hf. destruct (IH Hf) as [Hd Hw]. split.
      + cbn [drawn]. do 3 eexists. split; [reflexivity |]. split; [exact Hd | eapply built_drawn; exact Hb].
      + apply Hor; [exists x; split; [left; reflexivity | exact Hr] |]. apply Htwo; [exact Hw |]. apply fresh_steps. eapply build_fresh; eauto.
    - intros l r e rel seen x seen1 y seen2 Hs IH Hr Hs2 IH2 Hf. destruct (IH2 Hf) as [Hd2 Hw2].
      destruct IH as [Hd Hw]; [eapply incl_tran; [eapply (proj1 (proj2 seen_grows)); exact Hs2 | exact Hf] |]. split.
      + cbn [drawn]. do 3 eexists. eauto.
      + apply Hor; [| apply Htwo; assumption]. destruct (stree_known E P es _ _ _ _ _ _ _ Hs2) as [Hk | Hk]; rewrite Hk; cbn [right_step].
        * exists y. split; [right; left; reflexivity | exact Hk].
        * intros p [<- | [<- | []]]; auto.
    - intros l r e rel seen x seen' y Hs IH Hr Hb Hf. destruct (IH Hf) as [Hd Hw]. split.
      + cbn [drawn]. do 3 eexists. split; [reflexivity |]. split; [exact Hd | eapply built_drawn; exact Hb].
      + apply Hand; [exists x; split; [left; reflexivity | exact Hr] |]. apply Htwo; [exact Hw |]. apply fresh_steps. eapply build_fresh; eauto.
    - intros l r e rel seen x seen1 y seen2 Hs IH Hr Hs2 IH2 Hf. destruct (IH2 Hf) as [Hd2 Hw2].
      destruct IH as [Hd Hw]; [eapply incl_tran; [eapply (proj1 (proj2 seen_grows)); exact Hs2 | exact Hf] |]. split.
      + cbn [drawn]. do 3 eexists. eauto.
      + apply Hand; [| apply Htwo; assumption]. destruct (stree_known E P es _ _ _ _ _ _ _ Hs2) as [Hk | Hk]; rewrite Hk; cbn [right_step].
        * intros p [<- | [<- | []]]; auto.
        * exists y. split; [right; left; reflexivity | exact Hk].
    - intros l r e rel seen x seen1 y seen2 Hs IH Hs2 IH2 Hf. destruct (IH2 Hf) as [Hd2 Hw2].
      destruct IH as [Hd Hw]; [eapply incl_tran; [eapply (proj1 (proj2 seen_grows)); exact Hs2 | exact Hf] |]. split.
      + cbn [drawn]. do 3 eexists. eauto.
      + intros z Hz. inversion Hz; subst; auto.
        destruct (stree_known E P es _ _ _ _ _ _ _ Hs) as [Hk | Hk], (stree_known E P es _ _ _ _ _ _ _ Hs2) as [Hk2 | Hk2];
          rewrite Hk, Hk2; cbn; auto.
    - intros why seen Hf. split; [constructor |]. split; [intros p y [] | intros p []].
    - intros why n ns seen x seen' Hs IH Hr Hf. destruct (IH Hf) as ((r & sub & Hx) & _ & Hw). split.
      + constructor; [eauto | apply alternatives_map].
      + split; [| exists x; split; [left; reflexivity | exact Hr]].
        intros p y [<- | Hp] Hy; [auto |]. apply in_map_iff in Hp as (m & <- & _). eapply fresh_steps; [| exact Hy]. cbn. auto.
    - intros why n ns seen x seen1 b ps seen2 Hs IH Hr Hs2 IH2 Hf. destruct (IH2 Hf) as (Ha & Hw2 & Hb).
      destruct IH as ((r & sub & Hx) & Hu & Hw); [eapply incl_tran; [eapply (proj2 (proj2 seen_grows)); exact Hs2 | exact Hf] |].
      split; [constructor; eauto |]. split; [intros p y [<- | Hp]; eauto |].
      destruct b; [destruct Hb as (p & Hp & Hps); exists p; split; [right; exact Hp | exact Hps] |].
      intros p [<- | Hp]; [| auto]. destruct (get_result x) eqn:Hk; [| contradiction (Hr eq_refl) | left; reflexivity].
      right. destruct (Hu eq_refl) as [-> Hseen]. eauto.
  Qed.
End Account.

Lemma right_step_mono E P succ a (v v' : rnode -> Prop) x : (forall n, v n -> v' n) -> right_step E P succ a v x -> right_step E P succ a v' x.
Proof.
  intros Hv. destruct x as [r ps | r ps | r y z | r n sub why]; destruct r; cbn [right_step]; auto.
  intros H p Hp. destruct (H p Hp) as [Hf | (n & why & -> & Hn)]; [auto |]. right. exists n, why. auto.
Qed.

Theorem search_honest E P es succ a root x seen' : edge_subjects E es succ ->
  spath E P es (goal_of a) root "Request" [] x seen' -> honest E P succ a root x.
Proof.
  intros Hsucc Hs. destruct (proj1 (search_steps E P es succ Hsucc a seen') _ _ _ _ _ Hs (incl_refl _)) as (Hx & _ & Hw).
  split; [exact Hx |]. intros y Hy. apply (right_step_mono _ _ _ _ (was_seen E seen')); [| auto].
  intros n (id & Hid & Hin). destruct (proj1 (search_evaluated E P es (goal_of a)) _ _ _ _ _ Hs) as (ids & Hids & Hp & _).
  rewrite Hp, app_nil_r in Hin. destruct (with_ids_back _ _ _ _ Hids Hin) as (m & Hm & Hid'). exists m. split; [exact Hm |].
  apply node_id_text in Hid, Hid'. congruence.
Qed.

(** The tree is also honest about relationships by name, if it only reaches relations whose keys are not shared. *)
Theorem honest_same E P (succ succ' : entity -> string -> subject -> Prop) a root x :
  (forall o rel y r why t ru n, within (GPath r (NSet (Some o) rel) (Some y) why) x -> rewrites E P o rel t -> occurs ru t ->
     (yields succ ru o rel n <-> yields succ' ru o rel n)) ->
  honest E P succ a root x -> honest E P succ' a root x.
Proof.
  intros Hy [Hx Hw]. split; [exact Hx |]. intros y Hin. specialize (Hw y Hin).
  destruct y as [r ps | r ps | r y z | r n [y |] why]; try exact Hw.
  assert (Hd : forall o rel t t0, rewrites E P o rel t0 -> (forall ru, occurs ru t -> occurs ru t0) -> n = NSet (Some o) rel ->
            forall y0, drawn succ t o rel y0 -> drawn succ' t o rel y0).
  { intros o rel t t0 Hr Ho ->. induction t as [| | ru | l IHl op r0 IHr]; cbn [drawn]; auto.
    - intros y0 (r' & ps & -> & Hn & Hp). exists r', ps. split; [reflexivity |]. split; [| exact Hp].
      intros m. rewrite Hn. eapply Hy; [exact Hin | exact Hr | apply Ho; constructor].
    - assert (Hl' := fun ru H => Ho ru (occ_left ru l op r0 H)). assert (Hr' := fun ru H => Ho ru (occ_right ru l op r0 H)).
      intros y0. destruct op; auto; intros (r' & u & v & -> & H1 & H2); exists r', u, v; auto. }
  destruct r; cbn [right_step] in *; try exact Hw;
    destruct Hw as (Hr & o & rel & t & -> & Hrw & Hdr); (split; [exact Hr |]); exists o, rel, t; (split; [reflexivity |]); (split; [exact Hrw |]); eapply Hd; eauto.
Qed.

Lemma expanded_shown E P succ a v x : (forall y, within y x -> right_step E P succ a v y) ->
  forall r n y why, within (GPath r n (Some y) why) x -> In n (evaluated x).
Proof.
  intros Hw r n y why Hin. remember (GPath r n (Some y) why) as z eqn:Hz.
  induction Hin as [| r' ps p Hp Hin IH | r' ps p Hp Hin IH | r' u w Hin IH | r' u w Hin IH | r' m u why' Hin IH]; subst.
  - specialize (Hw _ (wi_here _)). destruct r; cbn in Hw |- *; auto; discriminate.
  - cbn. apply in_flat_map. exists p. split; [exact Hp |]. apply IH. intros q Hq. apply Hw. eapply wi_or; eauto.
  - cbn. apply in_flat_map. exists p. split; [exact Hp |]. apply IH. intros q Hq. apply Hw. eapply wi_and; eauto.
  - cbn. apply in_app_iff. left. apply IH. intros q Hq. apply Hw, wi_left, Hq.
  - cbn. apply in_app_iff. right. apply IH. intros q Hq. apply Hw, wi_right, Hq.
  - assert (Hi : In n (evaluated u)) by (apply IH; intros q Hq; apply Hw, wi_path, Hq).
    specialize (Hw _ (wi_here _)). destruct r'; cbn in Hw |- *; auto; discriminate.
Qed.
