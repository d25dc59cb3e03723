(** Explanations made while other requests write. *)
From Coq Require Import Permutation.
From Verif Require Import Base Domain Lexer Parser Validate Store Search SearchRun Explain Yaml Service Dump Api
  SpecGrammar SpecPolicy SpecStore SpecSearch SpecConc SpecAccount SpecAccountConc BaseFacts ParserFacts ValidateFacts StoreFacts PolicyFacts RelFacts
  SearchFacts SearchSem SearchTerm SearchExplain AccountFacts ReadFacts GraphFacts ConcFacts ConcSearch.

(** ** Goal trees before and after their search *)

Definition operation (x : gtree) : Prop := match x with GPath _ _ _ _ => False | _ => True end.

(** Trees as they are built: the parts of intersections and differences are operations. *)
Inductive plan : gtree -> Prop :=
| pl_path n why : plan (GPath RUnknown n None why)
| pl_or ps : Forall plan ps -> plan (GOr RUnknown ps)
| pl_and ps : Forall plan ps -> Forall operation ps -> plan (GAnd RUnknown ps)
| pl_diff x y : plan x -> plan y -> operation x -> operation y -> plan (GDiff RUnknown x y).

(** The same form. *)
Inductive like : gtree -> gtree -> Prop :=
| lk_path r n sub why r' sub' : like (GPath r n sub why) (GPath r' n sub' why)
| lk_or r ps r' qs : Forall2 like ps qs -> like (GOr r ps) (GOr r' qs)
| lk_and r ps r' qs : Forall2 like ps qs -> like (GAnd r ps) (GAnd r' qs)
| lk_diff r x y r' x' y' : like x x' -> like y y' -> like (GDiff r x y) (GDiff r' x' y').

Lemma like_refl x : like x x.
Proof.
  induction x as [r ps IH | r ps IH | r x y IHx IHy | r n t why IH] using gtree_ind2; constructor; auto.
  - induction IH; constructor; auto.
  - induction IH; constructor; auto.
Qed.

Lemma likes_refl ps : Forall2 like ps ps.
Proof. induction ps; constructor; auto using like_refl. Qed.

Lemma plan_fresh x : plan x -> fresh x.
Proof.
  induction x as [r ps IH | r ps IH | r x y IHx IHy | r n t why IH] using gtree_ind2; intros H; inversion H; subst; cbn [fresh].
  - split; [reflexivity |]. apply fresh_all. rewrite Forall_forall in *. auto.
  - split; [reflexivity |]. apply fresh_all. rewrite Forall_forall in *. auto.
  - auto.
  - auto.
Qed.

Lemma like_drawn during succ t o rel x y : like x y -> drawn_once during succ t o rel x -> drawn_once during succ t o rel y.
Proof.
  revert x y. induction t as [| | ru | l IHl op r IHr]; intros x y Hl Hd; cbn [drawn_once] in *; try contradiction.
  - destruct Hd as (k & r & ps & Hk & -> & Hn & Hp). inversion Hl as [| ? ? r' qs Hq | |]; subst. exists k, r', qs. split; [exact Hk |]. split; [reflexivity |].
    assert (Hb : forall n, (exists r' sub why, In (GPath r' n sub why) qs) <-> (exists r' sub why, In (GPath r' n sub why) ps)).
    { intros n. clear -Hq. induction Hq as [| p q ps qs Hpq _ IH]; [reflexivity |]. split.
      - intros (r' & sub & why & [-> | Hin]); [inversion Hpq; subst; do 3 eexists; left; reflexivity |].
        destruct (proj1 IH (ex_intro _ r' (ex_intro _ sub (ex_intro _ why Hin)))) as (r2 & s2 & w2 & H). do 3 eexists. right. exact H.
      - intros (r' & sub & why & [-> | Hin]); [inversion Hpq; subst; do 3 eexists; left; reflexivity |].
        destruct (proj2 IH (ex_intro _ r' (ex_intro _ sub (ex_intro _ why Hin)))) as (r2 & s2 & w2 & H). do 3 eexists. right. exact H. }
    split; [intros n; rewrite Hb; apply Hn |]. clear -Hq Hp. induction Hq as [| p q ps qs Hpq _ IH]; [intros q [] |].
    intros z [<- | Hz]; [| apply IH; [intros; apply Hp; right; assumption | exact Hz]].
    destruct (Hp p (or_introl eq_refl)) as (r & n & sub & ->). inversion Hpq; subst. eauto.
  - assert (Htwo : forall u v qs, Forall2 like [u; v] qs -> exists u' v', qs = [u'; v'] /\ like u u' /\ like v v').
    { intros u v qs H. inversion H as [| ? u' ? ? Hu H1]; subst. inversion H1 as [| ? v' ? ? Hv H2]; subst. inversion H2; subst. eauto. }
    destruct op; try contradiction; destruct Hd as (r0 & u & v & -> & Hu & Hv).
    + inversion Hl as [| ? ? r' qs Hq | |]; subst. apply Htwo in Hq as (u' & v' & -> & H1 & H2). exists r', u', v'. eauto.
    + inversion Hl as [| | ? ? r' qs Hq |]; subst. apply Htwo in Hq as (u' & v' & -> & H1 & H2). exists r', u', v'. eauto.
    + inversion Hl as [| | | ? ? ? r' u' v' H1 H2]; subst. exists r', u', v'. eauto.
Qed.

Lemma right_then_mono E P during succ a (v v' : rnode -> Prop) x : (forall n, v n -> v' n) ->
  right_then E P during succ a v x -> right_then E P during succ a v' x.
Proof.
  intros Hv. destruct x as [r ps | r ps | r y z | r n sub why]; destruct r; cbn [right_then]; auto.
  intros H p Hp. destruct (H p Hp) as [Hf | (n & why & -> & Hn)]; [auto |]. right. exists n, why. auto.
Qed.

(** ** The search *)

Section Search.
  Variable E : env.
  Variable P : policy.
  Variable pid : string.
  Variable a : option entity.
  Variable S : store -> Prop.
  Variable during : nat -> Prop.
  Variable succ : nat -> entity -> string -> subject -> Prop.
  (** What a rule gives is what it yields at some moment. *)
  Hypothesis Hread : forall r e rel ns, outcome S (evaluate_prog E pid r (Some e) rel) (Ok ns) ->
    exists k, during k /\ forall n, In n ns <-> yields (succ k) r e rel n.

  Definition was_met (final : list string) (n : rnode) : Prop := exists id, node_id E n = Ok id /\ In id final.
  Notation right final := (right_then E P during succ a (was_met final)).

  Lemma met_more f f' n : incl f f' -> was_met f n -> was_met f' n.
  Proof. intros H (id & Hid & Hin). exists id. auto. Qed.

  (** What holds of the search of a plan. *)
  Record found (seen : list string) (x : gtree) (seen' : list string) : Prop := {
    fo_ids : exists ids, with_ids E (evaluated x) ids /\ Permutation seen' (ids ++ seen) /\ (NoDup seen -> NoDup seen');
    fo_unknown : get_result x = RUnknown -> exists n why, x = GPath RUnknown n None why /\ was_met seen' n;
    fo_right : forall y, within y x -> right seen' y }.

  (** The same for the alternatives of an operation, of which [ps] were searched and [rest] were not. *)
  Record founds (seen : list string) (ps : list gtree) (seen' : list string) : Prop := {
    fs_ids : exists ids, with_ids E (flat_map evaluated ps) ids /\ Permutation seen' (ids ++ seen) /\ (NoDup seen -> NoDup seen');
    fs_right : forall p y, In p ps -> within y p -> right seen' y }.

  Lemma ids_incl ns ids seen seen' : with_ids E ns ids -> Permutation seen' (ids ++ seen) -> incl seen seen'.
  Proof. intros _ Hp i Hi. rewrite Hp. apply in_app_iff. auto. Qed.

  Lemma founds_cons seen p seen1 ps seen2 : found seen p seen1 -> founds seen1 ps seen2 -> founds seen (p :: ps) seen2.
  Proof.
    intros [(ids1 & H1 & H2 & H3) _ Hr] [(ids2 & H4 & H5 & H6) Hrs]. split.
    - exists (ids1 ++ ids2). split; [apply Forall2_app; assumption |]. split; [| auto].
      rewrite H5, H2. rewrite !app_assoc. apply Permutation_app_tail, Permutation_app_comm.
    - intros q y [<- | Hq] Hy; [| eapply Hrs; eauto]. eapply right_then_mono; [| apply Hr; exact Hy].
      intros n. apply met_more. eapply ids_incl; eauto.
  Qed.

  Lemma fresh_right_then final x : fresh x -> right final x.
  Proof.
    destruct x as [r ps | r ps | r y z | r n sub why]; cbn; intros H.
    - destruct H as [-> H]. apply fresh_all in H. rewrite Forall_forall in H. intros p Hp. apply fresh_result. auto.
    - destruct H as [-> H]. apply fresh_all in H. rewrite Forall_forall in H. intros p Hp. apply fresh_result. auto.
    - destruct H as (-> & Hy & Hz). split; apply fresh_result; assumption.
    - destruct H as [-> ->]. reflexivity.
  Qed.

  Lemma founds_fresh seen ps : Forall plan ps -> founds seen ps seen.
  Proof.
    intros H. split.
    - exists []. split; [| auto]. replace (flat_map evaluated ps) with (@nil rnode); [constructor |].
      induction H as [| p ps Hp _ IH]; [reflexivity |]. cbn. rewrite (fresh_evaluated p) by (apply plan_fresh; exact Hp). exact IH.
    - intros p y Hp Hy. apply fresh_right_then. eapply fresh_within; [| exact Hy]. apply plan_fresh. rewrite Forall_forall in H. auto.
  Qed.

  Definition sound (sp : rnode -> string -> list string -> prog (res (gtree * list string))) : Prop :=
    forall nd why seen x seen', outcome S (sp nd why seen) (Ok (x, seen')) ->
      (exists r sub, x = GPath r nd sub why) /\ found seen x seen'.

  Section Loop.
    Variable f : gtree -> list string -> prog (res (gtree * list string)).

    Definition sound_on (gt : gtree) : Prop := plan gt -> forall seen x seen', outcome S (f gt seen) (Ok (x, seen')) ->
      like gt x /\ (operation gt -> get_result x <> RUnknown) /\ found seen x seen'.

    Lemma found_known seen x seen' : found seen x seen' -> get_result x <> RSuccess ->
      get_result x = RFailure \/ exists n why, x = GPath RUnknown n None why /\ was_met seen' n.
    Proof. intros Hf Hn. destruct (get_result x) eqn:Hr; [right; apply Hf, Hr | contradiction | auto]. Qed.

    Lemma or_loop_sound : forall ps, Forall sound_on ps -> Forall plan ps -> forall seen b qs seen',
      outcome S (or_loop_prog f ps seen) (Ok (b, qs, seen')) ->
      Forall2 like ps qs /\ founds seen qs seen' /\
      (if b then exists p, In p qs /\ get_result p = RSuccess
       else forall p, In p qs -> get_result p = RFailure \/ exists n why, p = GPath RUnknown n None why /\ was_met seen' n).
    Proof.
      intros ps HF. induction HF as [| p ps Hp _ IH]; intros Hpl seen b qs seen' H; cbn in H.
      - apply outcome_ret in H. injection H as <- <- <-. split; [constructor |]. split; [apply founds_fresh; constructor | intros p []].
      - inversion Hpl as [| ? ? Hpp Hpps]; subst. apply outcome_ok in H as ([x seen1] & Hx & H). destruct (Hp Hpp _ _ _ Hx) as (Hl & _ & Hf). cbn [fst snd] in H.
        destruct (is_success (get_result x)) eqn:Hs.
        + apply outcome_ret in H. injection H as <- <- <-. split; [constructor; [exact Hl | apply likes_refl] |]. split.
          * eapply founds_cons; [exact Hf | apply founds_fresh; exact Hpps].
          * exists x. split; [left; reflexivity | apply is_success_iff; exact Hs].
        + fold (or_loop_prog f) in H. apply outcome_ok in H as ([[b' qs'] seen2] & Hq & H). apply outcome_ret in H. injection H as <- <- <-.
          destruct (IH Hpps _ _ _ _ Hq) as (Hls & Hfs & Hb). split; [constructor; assumption |]. split; [eapply founds_cons; eassumption |].
          destruct b'; [destruct Hb as (q & Hq' & Hqs); exists q; split; [right; exact Hq' | exact Hqs] |].
          intros q [<- | Hq']; [| auto].
          destruct (found_known _ _ _ Hf) as [Hk | (n & why & Hn & Hm)]; [intros Hr; apply is_success_iff in Hr; congruence | auto |].
          right. exists n, why. split; [exact Hn |]. destruct Hfs as [(ids & Hi1 & Hi2 & _) _]. eapply met_more; [| exact Hm]. eapply ids_incl; eassumption.
    Qed.

    Lemma and_loop_sound : forall ps, Forall sound_on ps -> Forall plan ps -> Forall operation ps -> forall seen b qs seen',
      outcome S (and_loop_prog f ps seen) (Ok (b, qs, seen')) ->
      Forall2 like ps qs /\ founds seen qs seen' /\
      (if b then forall p, In p qs -> get_result p = RSuccess else exists p, In p qs /\ get_result p = RFailure).
    Proof.
      intros ps HF. induction HF as [| p ps Hp _ IH]; intros Hpl Hop seen b qs seen' H; cbn in H.
      - apply outcome_ret in H. injection H as <- <- <-. split; [constructor |]. split; [apply founds_fresh; constructor | intros p []].
      - inversion Hpl as [| ? ? Hpp Hpps]; subst. inversion Hop as [| ? ? Ho Hos]; subst.
        apply outcome_ok in H as ([x seen1] & Hx & H). destruct (Hp Hpp _ _ _ Hx) as (Hl & Hk & Hf). specialize (Hk Ho). cbn [fst snd] in H.
        destruct (is_failure (get_result x)) eqn:Hs.
        + apply outcome_ret in H. injection H as <- <- <-. split; [constructor; [exact Hl | apply likes_refl] |]. split.
          * eapply founds_cons; [exact Hf | apply founds_fresh; exact Hpps].
          * exists x. split; [left; reflexivity |]. destruct (get_result x); try discriminate. reflexivity.
        + fold (and_loop_prog f) in H. apply outcome_ok in H as ([[b' qs'] seen2] & Hq & H). apply outcome_ret in H. injection H as <- <- <-.
          destruct (IH Hpps Hos _ _ _ _ Hq) as (Hls & Hfs & Hb). split; [constructor; assumption |]. split; [eapply founds_cons; eassumption |].
          destruct b'; [| destruct Hb as (q & Hq' & Hqs); exists q; split; [right; exact Hq' | exact Hqs]].
          intros q [<- | Hq']; [| auto]. destruct (get_result x); try discriminate; [contradiction | reflexivity].
    Qed.
  End Loop.

  Lemma conditional_known b : conditional b <> RUnknown.
  Proof. destruct b; discriminate. Qed.

  Lemma search_tree_found sp : sound sp -> forall gt, sound_on (search_tree_prog sp) gt.
  Proof.
    intros Hsp gt. induction gt as [r ps IH | r ps IH | r u v IHu IHv | r n t why _] using gtree_ind2; intros Hpl seen x seen' H; cbn [search_tree_prog] in H.
    - inversion Hpl as [| ? Hps | |]; subst. apply outcome_ok in H as ([[b qs] s1] & Hq & H). apply outcome_ret in H. injection H as <- <-.
      destruct (or_loop_sound _ _ IH Hps _ _ _ _ Hq) as (Hl & [Hids Hr] & Hb). split; [constructor; exact Hl |].
      split; [intros _; apply conditional_known |]. split; [exact Hids | cbn [get_result]; intros Hu; destruct (conditional_known _ Hu) |].
      intros y Hy. apply within_or in Hy as [-> | (p & Hp & Hy)]; [| eauto]. destruct b; exact Hb.
    - inversion Hpl as [| | ? Hps Hop |]; subst. apply outcome_ok in H as ([[b qs] s1] & Hq & H). apply outcome_ret in H. injection H as <- <-.
      destruct (and_loop_sound _ _ IH Hps Hop _ _ _ _ Hq) as (Hl & [Hids Hr] & Hb). split; [constructor; exact Hl |].
      split; [intros _; apply conditional_known |]. split; [exact Hids | cbn [get_result]; intros Hu; destruct (conditional_known _ Hu) |].
      intros y Hy. apply within_and in Hy as [-> | (p & Hp & Hy)]; [| eauto]. destruct b; exact Hb.
    - inversion Hpl as [| | | ? ? Hu Hv Hou Hov]; subst. apply outcome_ok in H as ([y s1] & Hy & H). apply outcome_ok in H as ([z s2] & Hz & H). apply outcome_ret in H.
      cbn [fst snd] in *. injection H as <- <-. destruct (IHu Hu _ _ _ Hy) as (Hl1 & Hk1 & Hf1). destruct (IHv Hv _ _ _ Hz) as (Hl2 & Hk2 & Hf2).
      specialize (Hk1 Hou). specialize (Hk2 Hov). split; [constructor; assumption |]. split; [intros _; apply conditional_known |].
      assert (Hfs : founds seen [y; z] s2) by (eapply founds_cons; [exact Hf1 |]; eapply founds_cons; [exact Hf2 | apply founds_fresh; constructor]).
      destruct Hfs as [Hids Hr]. cbn [flat_map] in Hids. rewrite app_nil_r in Hids. split; [exact Hids | cbn [get_result]; intros Hx; destruct (conditional_known _ Hx) |].
      intros w Hw. inversion Hw; subst.
      + destruct (get_result y) eqn:H1, (get_result z) eqn:H2; try contradiction; cbn; auto.
      + eapply Hr; [left; reflexivity | assumption].
      + eapply Hr; [right; left; reflexivity | assumption].
    - inversion Hpl; subst. destruct (Hsp _ _ _ _ _ H) as ((r & sub & ->) & Hf). split; [constructor |]. split; [intros [] | exact Hf].
  Qed.

  (** Trees that were built are plans and have the form of the expression. *)
  Lemma built_once e rel : forall t gt, outcome S (build_goal_tree_prog E pid t (Some e) rel) (Ok gt) ->
    plan gt /\ operation gt /\ drawn_once during succ t e rel gt.
  Proof.
    intros t. induction t as [| | r | l IHl op r IHr]; intros gt H; cbn [build_goal_tree_prog] in H; try (apply outcome_ret in H; discriminate).
    - apply outcome_ok in H as (ns & He & H). apply outcome_ret in H. injection H as <-. split; [| split; [exact I |]].
      + constructor. apply Forall_forall. intros p Hp. apply in_map_iff in Hp as (n & <- & _). constructor.
      + destruct (Hread _ _ _ _ He) as (k & Hk & Hn). cbn [drawn_once]. do 3 eexists. split; [exact Hk |]. split; [reflexivity |]. split.
        * intros n. rewrite <- Hn. split.
          -- intros (r' & sub & why & Hin). apply in_map_iff in Hin as (m & Hm & Hin). congruence.
          -- intros Hin. do 3 eexists. apply in_map_iff. eauto.
        * intros p Hp. apply in_map_iff in Hp as (n & <- & _). rewrite reason_name. eauto.
    - apply outcome_ok in H as (u & Hu & H). apply outcome_ok in H as (v & Hv & H). apply outcome_ret in H.
      destruct (IHl _ Hu) as (Hp1 & Ho1 & Hd1). destruct (IHr _ Hv) as (Hp2 & Ho2 & Hd2).
      destruct op; try discriminate; injection H as <-; (split; [constructor; auto | split; [exact I |]]); cbn [drawn_once]; do 3 eexists; eauto.
  Qed.

  Lemma search_path_found : forall n, sound (search_path_prog E P pid (goal_of a) n).
  Proof.
    intros n. induction n as [| n IH]; intros nd why seen x seen' H; cbn [search_path_prog] in H; [apply outcome_ret in H; discriminate |].
    apply outcome_ok in H as (id & Hid & H). apply outcome_ret in Hid.
    assert (Hleaf : forall final r, right final (GPath r nd None why) -> forall y, within y (GPath r nd None why) -> right final y).
    { intros final r Hr y Hy. inversion Hy; subst. exact Hr. }
    destruct (existsb (String.eqb id) seen) eqn:Hs.
    - apply outcome_ret in H. injection H as <- <-. apply existsb_in in Hs. split; [eauto |]. split.
      + exists []. split; [constructor | auto].
      + intros _. exists nd, why. split; [reflexivity |]. exists id. auto.
      + apply Hleaf. reflexivity.
    - apply existsb_not_in in Hs. apply outcome_ok in H as (found & Hf & H). apply outcome_ret in Hf.
      assert (Hids : forall r, r <> RUnknown -> exists ids, with_ids E (evaluated (GPath r nd None why)) ids /\ Permutation (id :: seen) (ids ++ seen) /\ (NoDup seen -> NoDup (id :: seen))).
      { intros r Hr. exists [id]. split; [destruct r; [contradiction | |]; repeat constructor; exact Hid |]. split; [reflexivity |]. intros Hnd. constructor; assumption. }
      destruct found.
      { apply outcome_ret in H. injection H as <- <-. split; [eauto |]. split; [apply Hids; discriminate | discriminate |].
        apply Hleaf. apply (found_meets a nd true Hf). reflexivity. }
      cbn [orb] in H. destruct (is_terminal nd) eqn:Ht.
      { apply outcome_ret in H. injection H as <- <-. split; [eauto |]. split; [apply Hids; discriminate | discriminate |].
        apply Hleaf. cbn [conditional right_then]. split; [intros o rel ->; discriminate |].
        intros Hm. apply (found_meets a nd false Hf) in Hm. discriminate. }
      destruct nd as [[e |] rel | | |]; try discriminate.
      apply outcome_ok in H as (gt & Hb & H). apply outcome_ok in H as ([y seen1] & Hy & H). apply outcome_ret in H.
      cbn [fst snd] in H. injection H as <- <-. cbn [build_prog] in Hb.
      destruct (lut_get_relation P (e_res e) rel) as [l |] eqn:Hl; [| apply outcome_ret in Hb; discriminate].
      apply outcome_ok in Hb as (t & Hx & Hb). apply outcome_ret in Hx.
      destruct (built_once _ _ _ _ Hb) as (Hpl & Hop & Hd).
      destruct (search_tree_found _ IH gt Hpl _ _ _ Hy) as (Hlk & Hk & [(ids & H1 & H2 & H3) _ Hr]). specialize (Hk Hop).
      assert (Hrw : rewrites E P e rel t) by (apply node_tree_rewrites; [exists l; auto | eapply build_whole_prog; eauto]).
      split; [eauto |]. split.
      + exists (id :: ids). rewrite known_evaluated by exact Hk. split; [constructor; assumption |]. split.
        * rewrite H2. symmetry. apply Permutation_middle.
        * intros H. apply H3. constructor; assumption.
      + cbn [get_result]. intros Hu. contradiction.
      + intros z Hz. inversion Hz; subst; [| auto]. pose proof (like_drawn _ _ _ _ _ _ _ Hlk Hd) as Hd'.
        destruct (get_result y) eqn:Hres; [contradiction | |]; cbn [right_then]; (split; [exact Hres | exists e, rel, t; auto]).
  Qed.

  Theorem search_honest_then n root x : outcome S (search_prog E P pid n root (goal_of a)) (Ok x) ->
    honest_then E P during succ a root x /\ NoDup (evaluated x).
  Proof.
    intros H. unfold search_prog in H. apply outcome_ok in H as ([y seen'] & Hy & H). apply outcome_ret in H. injection H as <-. cbn [fst].
    destruct (search_path_found _ _ _ _ _ _ Hy) as (Hx & [(ids & Hids & Hp & Hnd) _ Hr]). rewrite app_nil_r in Hp. split.
    - split; [exact Hx |]. intros z Hz. eapply right_then_mono; [| apply Hr, Hz].
      intros m (id & Hid & Hin). rewrite Hp in Hin. destruct (with_ids_back _ _ _ _ Hids Hin) as (m' & Hm & Hid'). exists m'. split; [exact Hm |].
      apply node_id_text in Hid, Hid'. congruence.
    - eapply with_ids_nodup; [exact Hids |]. eapply Permutation_NoDup; [exact Hp |]. apply Hnd. constructor.
  Qed.
End Search.
