(** The search decides by the first way to the subject. *)
From Verif Require Import Base Domain Lexer Parser Validate Store Search BaseFacts SpecGrammar SpecPolicy SpecStore SpecSearch SpecExact
  ValidateFacts SearchFacts SearchSem Explain Yaml Service Dump Api StoreFacts PolicyFacts RelFacts GraphFacts.

Section Exact.
  Variable E : env.
  Variable P : policy.
  Variable es : list ((string * string) * edge).
  Variable subs : entity -> string -> list subject.
  Hypothesis Hsubs : forall o rel, get_successors E es (Some o) rel = Ok (map subject_node (subs o rel)).
  Variable a : entity.
  Variable origin : rnode.
  Hypothesis Huniq : unique_decls P.

  Notation g := (GoalEntity (Some a)).
  Notation succ := (fun o rel u => In u (subs o rel)).
  Notation R := (reach E P succ origin).
  Notation offers := (offers E P subs).
  Notation stands_for := (stands_for a).
  Notation finds := (finds E P subs a).
  Notation passes := (passes E P subs a).
  Notation refused := (refused E P subs a).
  Notation steps := (steps subs).
  Notation rule_steps := (rule_steps subs).
  Hypothesis Hids : distinct_ids E P succ origin.
  Hypothesis Honce : reached_once E P succ a origin.

  (** The node has been visited. *)
  Definition seen_in (seen : list string) (n : rnode) : Prop := In (sha E (id_text n)) seen.

  (** The subject has been visited. *)
  Definition found (seen : list string) : Prop := exists n, R n /\ stands_for n /\ seen_in seen n.

  (** All steps of a visited node have been taken, unless it is on the way. *)
  Definition closed_but (way : list rnode) (seen : list string) : Prop :=
    forall v l b m, R v -> seen_in seen v -> ~ In v way -> offers v l -> In (b, m) l -> seen_in seen m.

  Lemma evaluate_steps ru o rel ns : evaluate E es ru (Some o) rel = Ok ns -> ns = rule_steps ru o rel.
  Proof.
    intros H. destruct ru as [| c | ts cu |]; unfold evaluate in H; cbn [rule_steps SpecExact.rule_steps].
    - rewrite Hsubs in H. congruence.
    - congruence.
    - rewrite Hsubs in H. cbn [bind] in H. revert ns H. induction (subs o ts) as [| u us IH]; intros ns H; cbn in H; [injection H as <-; reflexivity |].
      destruct (build_ttu_node cu (subject_node u)) as [n | | |] eqn:Hb; try discriminate. cbn [bind] in H.
      destruct (map_res (build_ttu_node cu) (map subject_node us)) as [ns' | | |]; try discriminate. cbn [bind] in H. injection H as <-.
      specialize (IH ns' eq_refl). cbn [map]. rewrite IH. apply (f_equal (fun x => x :: _)). destruct u as [e | e r | rs |]; cbn in Hb |- *; congruence.
    - discriminate.
  Qed.

  Lemma steps_rule o rel b n : forall t, In (b, n) (steps o rel t) -> exists ru, occurs ru t /\ In n (rule_steps ru o rel).
  Proof.
    intros t. revert b. induction t as [| | ru | l IHl op r IHr]; intros b H; try contradiction; cbn [SpecExact.steps] in H.
    - apply in_map_iff in H as (m & [= <- <-] & Hm). exists ru. split; [constructor | exact Hm].
    - assert (Hs : forall t', In (b, n) (map (fun x : bool * rnode => (false, snd x)) (steps o rel t')) -> exists b', In (b', n) (steps o rel t')).
      { intros t' Hm. apply in_map_iff in Hm as ([b' n'] & [= <- <-] & Hm). eauto. }
      destruct op; try contradiction.
      + apply in_app_or in H as [H | H]; [apply IHl in H | apply IHr in H]; destruct H as (ru & Ho & Hn); exists ru; (split; [| exact Hn]); [apply occ_left | apply occ_right]; exact Ho.
      + apply Hs in H as (b' & H). apply IHl in H as (ru & Ho & Hn). exists ru. split; [apply occ_left; exact Ho | exact Hn].
      + apply in_app_or in H as [H | H]; [apply IHl in H | apply Hs in H as (b' & H); apply IHr in H]; destruct H as (ru & Ho & Hn); exists ru; (split; [| exact Hn]); [apply occ_left | apply occ_right]; exact Ho.
  Qed.

  Lemma rule_yields ru o rel n : In n (rule_steps ru o rel) -> yields succ ru o rel n.
  Proof.
    destruct ru as [| c | ts cu |]; cbn [SpecExact.rule_steps]; intros H.
    - apply in_map_iff in H as (u & <- & Hu). constructor. exact Hu.
    - destruct H as [<- | []]. constructor.
    - apply in_map_iff in H as (u & <- & Hu). constructor. exact Hu.
    - contradiction.
  Qed.

  Lemma offers_reach n l b m : R n -> offers n l -> In (b, m) l -> R m.
  Proof.
    intros Hn Ho Hm. destruct Ho as [o rel t Hw]. apply steps_rule in Hm as (ru & Hru & Hm). apply rule_yields in Hm.
    eapply re_step; [exact Hn |]. econstructor; eauto.
  Qed.

  Lemma offers_unique n l l' : offers n l -> offers n l' -> l = l'.
  Proof.
    intros H H'. destruct H as [o rel t Hw]. inversion H' as [o' rel' t' Hw']; subst.
    rewrite (rewrites_unique _ _ _ _ _ _ Huniq Hw Hw'). reflexivity.
  Qed.

  Lemma stands_stops n l : stands_for n -> ~ offers n l.
  Proof. intros [-> | ->] H; inversion H. Qed.

  Lemma found_stands n : goal_found n g = Ok true -> stands_for n.
  Proof.
    destruct n as [[o |] rel | [e |] | rs |]; cbn; try discriminate.
    - intros [= H]. apply andb_true_iff in H as [H1 H2]. apply String.eqb_eq in H1, H2. left.
      destruct a as [ra ia], e as [re ie]; cbn in *; congruence.
    - intros [= H]. apply String.eqb_eq in H. right. congruence.
  Qed.

  Lemma lost_stands n : goal_found n g = Ok false -> ~ stands_for n.
  Proof.
    intros H [-> | ->]; cbn in H; [rewrite !String.eqb_refl in H | rewrite String.eqb_refl in H]; discriminate.
  Qed.

  Lemma stands_same n m : R n -> R m -> stands_for n -> stands_for m -> n = m.
  Proof.
    intros Hn Hm [-> | ->] [-> | ->]; try reflexivity; exfalso; apply Honce; auto.
  Qed.

  Lemma seen_mono s s' n : incl s s' -> seen_in s n -> seen_in s' n.
  Proof. intros Hi H. apply Hi. exact H. Qed.

  Lemma found_mono s s' : incl s s' -> found s -> found s'.
  Proof. intros Hi (n & H1 & H2 & H3). exists n. split; [exact H1 |]. split; [exact H2 |]. exact (seen_mono _ _ _ Hi H3). Qed.

  Lemma seen_cons n m seen : R n -> R m -> seen_in (sha E (id_text n) :: seen) m -> m = n \/ seen_in seen m.
  Proof. intros Hn Hm [H | H]; [left; apply Hids; auto | right; exact H]. Qed.

  Lemma finds_mono above above' n : (forall x, In x above -> In x above') -> finds above' n -> finds above n.
  Proof.
    intros Hi H. induction H as [n Hs Hn | n l b m Hn Ho Hm _ IH].
    - apply fi_here; auto.
    - eapply fi_step; eauto.
  Qed.

  Lemma passes_finds above n : passes above n -> finds above n.
  Proof.
    intros H. induction H as [above n Hs Hn | above n before m after Hn Ho Hb _ IH].
    - apply fi_here; auto.
    - eapply fi_step; [exact Hn | exact Ho | apply in_or_app; right; left; reflexivity |].
      eapply finds_mono; [| exact IH]. intros x Hx. right. exact Hx.
  Qed.

  (** From visited nodes whose steps have been taken there is no way to a subject that has not been visited. *)
  Lemma closed_lost way seen n : closed_but way seen -> ~ found seen -> R n -> seen_in seen n -> ~ finds way n.
  Proof.
    intros Hc Hf HR Hs Hx. induction Hx as [n Hst Hn | n l b m Hn Ho Hm _ IH].
    - apply Hf. exists n. auto.
    - apply IH; [eapply offers_reach; eauto |]. eapply Hc; eauto.
  Qed.

  (** Once the subject has been visited nothing succeeds any more. *)
  Lemma search_late :
    (forall nd why seen x seen', spath E P es g nd why seen x seen' -> R nd -> found seen -> get_result x <> RSuccess) /\
    (forall t e rel seen x seen', stree E P es g t e rel seen x seen' ->
      (forall ru n, occurs ru t -> In n (rule_steps ru e rel) -> R n) -> found seen -> get_result x <> RSuccess) /\
    (forall why ns seen b ps seen', sor E P es g why ns seen b ps seen' -> (forall n, In n ns -> R n) -> found seen -> b = false).
  Proof.
    destruct (seen_grows E P es g) as (Gp & Gt & Go).
    apply search_ind; cbn [get_result]; try (intros; congruence).
    - intros nd why seen id Hid Hn Hf HR (m & Hm & Hs & Hv). exfalso. apply Hn. apply node_id_text in Hid. subst id.
      rewrite (stands_same nd m HR Hm (found_stands _ Hf) Hs). exact Hv.
    - intros e rel why seen id t gt x seen' Hid Hn Hf Ht Hb Hs IH HR Hx. apply IH.
      + intros ru n Ho Hin. eapply re_step; [exact HR |]. econstructor; [eapply node_rewrites; eauto | exact Ho | apply rule_yields; exact Hin].
      + eapply found_mono; [| exact Hx]. intros i Hi. right. exact Hi.
    - intros r e rel ns seen b ps seen' He _ IH HR Hf. rewrite IH; [discriminate | | exact Hf].
      intros n Hin. apply (HR r n (occ_here _)). rewrite <- (evaluate_steps _ _ _ _ He). exact Hin.
    - intros l r e rel seen x seen' y _ IH Hr _ HR Hf. exfalso. apply IH; auto. intros ru n Ho. apply HR. apply occ_left. exact Ho.
    - intros l r e rel seen x seen1 y seen2 Hs _ _ _ IH HR Hf. apply IH; [intros ru n Ho; apply HR; apply occ_right; exact Ho |].
      eapply found_mono; [exact (Gt _ _ _ _ _ _ Hs) | exact Hf].
    - intros l r e rel seen x seen1 y seen2 Hs IH Hx _ _ HR Hf. exfalso. apply IH; auto. intros ru n Ho. apply HR. apply occ_left. exact Ho.
    - intros l r e rel seen x seen1 y seen2 Hs IH _ _ HR Hf. assert (Hx : get_result x <> RSuccess) by (apply IH; auto; intros ru n Ho; apply HR; apply occ_left; exact Ho).
      destruct (get_result x); cbn; congruence.
    - intros why n ns seen x seen' _ IH Hr HR Hf. exfalso. apply IH; auto. apply HR. left. reflexivity.
    - intros why n ns seen x seen1 b ps seen2 Hs _ _ _ IH HR Hf. apply IH; [intros m Hm; apply HR; right; exact Hm |].
      eapply found_mono; [exact (proj1 (Gp _ _ _ _ _ Hs)) | exact Hf].
  Qed.

  (** The step by which the subject was found: none before it finds the subject. *)
  Definition first_step (way : list rnode) (l : list (bool * rnode)) (b : bool) (m : rnode) : Prop :=
    exists before after, l = before ++ (b, m) :: after /\ (forall b' x, In (b', x) before -> ~ finds way x) /\ finds way m.

  Lemma first_step_unique way l b m before m' after : first_step way l b m -> l = before ++ (true, m') :: after ->
    (forall b' x, In (b', x) before -> ~ finds way x) -> finds way m' -> b = true /\ m = m'.
  Proof.
    intros (bf & af & Hl & Hb & Hm) Hl' Hb' Hm'. rewrite Hl in Hl'. clear Hl. revert before Hl' Hb'.
    induction bf as [| [b0 x0] bf IH]; intros [| [b1 x1] before] Hl' Hb'; cbn in Hl'.
    - injection Hl' as -> -> _. auto.
    - injection Hl' as -> -> _. exfalso. eapply Hb'; [left; reflexivity | exact Hm].
    - injection Hl' as -> -> _. exfalso. eapply Hb; [left; reflexivity | exact Hm'].
    - injection Hl' as -> -> Hl'. eapply IH; [intros b' x Hx; apply (Hb b' x); right; exact Hx | exact Hl' | intros b' x Hx; apply (Hb' b' x); right; exact Hx].
  Qed.

  Lemma first_step_left way l l' b m : first_step way l b m -> first_step way (l ++ l') b m.
  Proof.
    intros (bf & af & -> & Hb & Hm). exists bf, (af ++ l'). rewrite <- app_assoc. auto.
  Qed.

  Lemma first_step_right way l l' b m : (forall b' x, In (b', x) l -> ~ finds way x) -> first_step way l' b m -> first_step way (l ++ l') b m.
  Proof.
    intros Hl (bf & af & -> & Hb & Hm). exists (l ++ bf), af. rewrite <- app_assoc. split; [reflexivity |]. split; [| exact Hm].
    intros b' x Hx. apply in_app_or in Hx as [Hx | Hx]; eauto.
  Qed.

  Lemma first_step_map way (l : list (bool * rnode)) b m : first_step way l b m -> first_step way (map (fun x => (false, snd x)) l) false m.
  Proof.
    intros (bf & af & -> & Hb & Hm). rewrite map_app. cbn [map snd]. eexists _, _. split; [reflexivity |]. split; [| exact Hm].
    intros b' x Hx. apply in_map_iff in Hx as ([b0 x0] & [= <- <-] & Hx). eapply Hb; exact Hx.
  Qed.

  Lemma first_step_finds way l b m : first_step way l b m -> In (b, m) l /\ finds way m.
  Proof. intros (bf & af & -> & _ & Hm). split; [apply in_or_app; right; left; reflexivity | exact Hm]. Qed.

  Lemma split_unique way (l1 : list (bool * rnode)) b1 m1 r1 l2 b2 m2 r2 : l1 ++ (b1, m1) :: r1 = l2 ++ (b2, m2) :: r2 ->
    (forall b x, In (b, x) l1 -> ~ finds way x) -> (forall b x, In (b, x) l2 -> ~ finds way x) -> finds way m1 -> finds way m2 ->
    b1 = b2 /\ m1 = m2.
  Proof.
    intros Hl H1 H2 Hm1 Hm2. revert l2 Hl H2. induction l1 as [| [b x] l1 IH]; intros [| [b' x'] l2] Hl H2; cbn in Hl.
    - injection Hl as -> -> _. auto.
    - injection Hl as -> -> _. exfalso. eapply H2; [left; reflexivity | exact Hm1].
    - injection Hl as -> -> _. exfalso. eapply H1; [left; reflexivity | exact Hm2].
    - injection Hl as -> -> Hl. eapply IH; [intros b0 y Hy; apply (H1 b0 y); right; exact Hy | exact Hl | intros b0 y Hy; apply (H2 b0 y); right; exact Hy].
  Qed.

  Lemma refused_finds above n : refused above n -> finds above n.
  Proof.
    intros H. induction H as [above n before m after Hn Ho Hb Hf | above n before m after Hn Ho Hb _ Hf];
      (eapply fi_step; [exact Hn | exact Ho | apply in_or_app; right; left; reflexivity |];
       eapply finds_mono; [| exact Hf]; intros x Hx; right; exact Hx).
  Qed.

  Lemma passes_refused above n : passes above n -> refused above n -> False.
  Proof.
    intros H. induction H as [above n Hs Hn | above n before m after Hn Ho Hb Hp IH]; intros Hr.
    - inversion Hr as [? ? ? ? _ Ho | ? ? ? ? _ Ho]; subst; exact (stands_stops _ _ Hs Ho).
    - apply passes_finds in Hp as Hf. inversion Hr as [? bf m' af _ Ho' Hb' Hf' | ? bf m' af _ Ho' Hb' Hr']; subst.
      + destruct (split_unique _ _ _ _ _ _ _ _ _ (offers_unique _ _ _ Ho Ho') Hb Hb' Hf Hf') as [[=] _].
      + destruct (split_unique _ _ _ _ _ _ _ _ _ (offers_unique _ _ _ Ho Ho') Hb Hb' Hf (refused_finds _ _ Hr')) as [_ ->]. auto.
  Qed.

  (** What is known after some steps: either the subject is still not found and all of them are closed, or the
      first of them that finds it decides. *)
  Definition outcome (way : list rnode) (l : list (bool * rnode)) (success : Prop) (seen' : list string) : Prop :=
    (~ found seen' /\ ~ success /\ closed_but way seen' /\ forall b m, In (b, m) l -> seen_in seen' m) \/
    (found seen' /\ exists b m, first_step way l b m /\ (success <-> b = true /\ passes way m) /\ (~ success -> b = false \/ refused way m)).

  Lemma closed_steps way seen (l : list (bool * rnode)) : closed_but way seen -> ~ found seen -> (forall b m, In (b, m) l -> R m /\ seen_in seen m) ->
    forall b m, In (b, m) l -> ~ finds way m.
  Proof. intros Hc Hf Hl b m Hm. destruct (Hl b m Hm) as [H1 H2]. eapply closed_lost; eauto. Qed.

  Lemma search_exact :
    (forall nd why seen x seen', spath E P es g nd why seen x seen' -> forall above, R nd -> ~ found seen ->
      (forall v, In v above -> seen_in seen v) -> closed_but above seen ->
      (~ found seen' /\ get_result x <> RSuccess /\ closed_but above seen' /\ seen_in seen' nd) \/
      (found seen' /\ finds above nd /\ (get_result x = RSuccess <-> passes above nd) /\ (get_result x <> RSuccess -> refused above nd))) /\
    (forall t e rel seen x seen', stree E P es g t e rel seen x seen' -> forall way,
      (forall ru n, occurs ru t -> In n (rule_steps ru e rel) -> R n) -> ~ found seen ->
      (forall v, In v way -> seen_in seen v) -> closed_but way seen ->
      outcome way (steps e rel t) (get_result x = RSuccess) seen') /\
    (forall why ns seen b ps seen', sor E P es g why ns seen b ps seen' -> forall way,
      (forall n, In n ns -> R n) -> ~ found seen ->
      (forall v, In v way -> seen_in seen v) -> closed_but way seen ->
      outcome way (map (fun n => (true, n)) ns) (b = true) seen').
  Proof.
    destruct (seen_grows E P es g) as (Gp & Gt & Go). destruct search_late as (Lp & Lt & Lo).
    assert (Hocc : forall e rel t n b, (forall ru n, occurs ru t -> In n (rule_steps ru e rel) -> R n) -> In (b, n) (steps e rel t) -> R n).
    { intros e rel t n b H Hin. apply steps_rule in Hin as (ru & Ho & Hn). eauto. }
    apply search_ind; cbn [get_result].
    - intros nd why seen id Hid Hn above HR Hf Ha Hc. left. apply node_id_text in Hid. subst id.
      split; [exact Hf |]. split; [discriminate |]. split; [exact Hc | exact Hn].
    - intros nd why seen id Hid Hn Hg above HR Hf Ha Hc. right. apply node_id_text in Hid. subst id. apply found_stands in Hg.
      assert (Hna : ~ In nd above) by (intros Hin; apply Hn; apply Ha; exact Hin).
      split; [exists nd; split; [exact HR |]; split; [exact Hg | left; reflexivity] |].
      split; [apply fi_here; assumption |]. split; [split; [intros _; apply pa_here; assumption | reflexivity] | congruence].
    - intros nd why seen id Hid Hn Hg Ht above HR Hf Ha Hc. left. apply node_id_text in Hid. subst id. apply lost_stands in Hg.
      split; [| split; [discriminate |]; split; [| left; reflexivity]].
      + intros (m & Hm & Hs & Hv). apply (seen_cons nd m seen HR Hm) in Hv as [-> | Hv]; [contradiction |]. apply Hf. exists m. auto.
      + intros v l b m Hv Hsv Hnv Ho Hm. right. apply (seen_cons nd v seen HR Hv) in Hsv as [-> | Hsv].
        * destruct Ho as [o rel t Hw]. discriminate Ht.
        * exact (Hc v l b m Hv Hsv Hnv Ho Hm).
    - intros e rel why seen id t gt x seen' Hid Hn Hg Ht Hb Hs IH above HR Hf Ha Hc.
      set (nd := NSet (Some e) rel) in *. apply node_id_text in Hid. subst id. apply lost_stands in Hg.
      assert (Hw : rewrites E P e rel t) by (eapply node_rewrites; eauto).
      assert (Ho : offers nd (steps e rel t)) by (constructor; exact Hw).
      assert (Hna : ~ In nd above) by (intros Hin; apply Hn; apply Ha; exact Hin).
      assert (Hsn : seen_in seen' nd) by (apply (Gt _ _ _ _ _ _ Hs); left; reflexivity).
      destruct (IH (nd :: above)) as [(H1 & H2 & H3 & H4) | (H1 & b & m & Hfs & Hr & Hq)].
      + intros ru n Hru Hin. eapply re_step; [exact HR |]. econstructor; [exact Hw | exact Hru | apply rule_yields; exact Hin].
      + intros (m & Hm & Hsm & Hv). apply (seen_cons nd m seen HR Hm) in Hv as [-> | Hv]; [contradiction |]. apply Hf. exists m. auto.
      + intros v [<- | Hv]; [left; reflexivity | right; apply Ha; exact Hv].
      + intros v l b m Hv Hsv Hnv Hov Hm. apply (seen_cons nd v seen HR Hv) in Hsv as [-> | Hsv]; [exfalso; apply Hnv; left; reflexivity |].
        right. eapply Hc; eauto. intros Hin. apply Hnv. right. exact Hin.
      + left. split; [exact H1 |]. split; [exact H2 |]. split; [| exact Hsn].
        intros v l b m Hv Hsv Hnv Hov Hm. destruct (in_dec string_dec (sha E (id_text v)) [sha E (id_text nd)]) as [[Heq | []] | Hne].
        * apply (Hids nd v HR Hv) in Heq. subst v. rewrite (offers_unique _ _ _ Hov Ho) in Hm. eapply H4; exact Hm.
        * eapply H3; [exact Hv | exact Hsv | | exact Hov | exact Hm]. intros [<- | Hin]; [apply Hne; left; reflexivity | contradiction].
      + right. split; [exact H1 |]. destruct (first_step_finds _ _ _ _ Hfs) as [Hin Hfm]. split.
        * eapply fi_step; [exact Hna | exact Ho | exact Hin |]. eapply finds_mono; [| exact Hfm]. intros y Hy. right. exact Hy.
        * split; [rewrite Hr; split |].
          -- intros [-> Hp]. destruct Hfs as (bf & af & Hl & Hbf & _). rewrite Hl in Ho. eapply pa_step; eauto.
          -- intros Hp. inversion Hp as [n Hst _ Heq | n bf m' af _ Ho' Hbf Hp' Heq]; subst n; [contradiction |].
             pose proof (offers_unique _ _ _ Ho Ho') as Hl.
             destruct (first_step_unique _ _ _ _ _ _ _ Hfs Hl Hbf (passes_finds _ _ Hp')) as [-> ->]. auto.
          -- intros Hns. destruct Hfs as (bf & af & Hl & Hbf & _). rewrite Hl in Ho. destruct (Hq Hns) as [-> | Hrf].
             ++ eapply rf_now; eauto.
             ++ destruct b; [eapply rf_later; eauto | eapply rf_now; eauto].
    - intros r e rel ns seen b ps seen' He Hs IH way HR Hf Ha Hc. cbn [SpecExact.steps]. rewrite <- (evaluate_steps _ _ _ _ He).
      assert (Hns : forall n, In n ns -> R n) by (intros n Hin; apply (HR r n (occ_here _)); rewrite <- (evaluate_steps _ _ _ _ He); exact Hin).
      destruct (IH way Hns Hf Ha Hc) as [(H1 & H2 & H3 & H4) | (H1 & b' & m & Hfs & Hr & Hq)].
      + left. rewrite conditional_success. auto.
      + right. split; [exact H1 |]. exists b', m. rewrite !conditional_success. auto.
    - intros l r e rel seen x seen' y Hs IH Hx _ way HR Hf Ha Hc. cbn [SpecExact.steps].
      destruct (IH way) as [(H1 & H2 & _) | (H1 & b & m & Hfs & Hr & Hq)]; auto; [intros ru n Ho; apply HR, occ_left, Ho | contradiction |].
      right. split; [exact H1 |]. exists b, m. split; [apply first_step_left; exact Hfs |]. rewrite <- Hr. split; [tauto | congruence].
    - intros l r e rel seen x seen1 y seen2 Hs IHl Hx Hs2 IHr way HR Hf Ha Hc. cbn [SpecExact.steps].
      assert (HRl : forall ru n, occurs ru l -> In n (rule_steps ru e rel) -> R n) by (intros ru n Ho; apply HR, occ_left, Ho).
      assert (HRr : forall ru n, occurs ru r -> In n (rule_steps ru e rel) -> R n) by (intros ru n Ho; apply HR, occ_right, Ho).
      destruct (IHl way) as [(H1 & _ & H3 & H4) | (H1 & b & m & Hfs & Hr & Hq)]; auto.
      + destruct (IHr way) as [(K1 & K2 & K3 & K4) | (K1 & b & m & Hfs & Hr & Hq)]; auto.
        * intros v Hv. exact (seen_mono _ _ _ (Gt _ _ _ _ _ _ Hs) (Ha v Hv)).
        * left. split; [exact K1 |]. split; [exact K2 |]. split; [exact K3 |]. intros b m Hm.
          apply in_app_or in Hm as [Hm | Hm]; [| eapply K4; exact Hm]. eapply seen_mono; [exact (Gt _ _ _ _ _ _ Hs2) | eapply H4; exact Hm].
        * right. split; [exact K1 |]. exists b, m. split; [| split; [exact Hr | exact Hq]]. apply first_step_right; [| exact Hfs].
          apply (closed_steps way seen1); [exact H3 | exact H1 |]. intros b' n Hn. split; [exact (Hocc e rel l n b' HRl Hn) | exact (H4 b' n Hn)].
      + right. split; [exact (found_mono _ _ (Gt _ _ _ _ _ _ Hs2) H1) |]. exists b, m. split; [apply first_step_left; exact Hfs |].
        rewrite <- Hr, Hx. split; [| intros _; apply Hq; congruence]. split; [| discriminate]. intros Hy. exfalso. exact (Lt _ _ _ _ _ _ Hs2 HRr H1 Hy).
    - intros l r e rel seen x seen' y Hs IH Hx _ way HR Hf Ha Hc. cbn [SpecExact.steps].
      destruct (IH way) as [(H1 & H2 & H3 & H4) | (H1 & b & m & Hfs & Hr & Hq)]; auto; [intros ru n Ho; apply HR, occ_left, Ho | |].
      + left. split; [exact H1 |]. split; [discriminate |]. split; [exact H3 |]. intros b m Hm.
        apply in_map_iff in Hm as ([b0 m0] & [= <- <-] & Hm). eapply H4; exact Hm.
      + right. split; [exact H1 |]. exists false, m. split; [eapply first_step_map; exact Hfs |]. split; [split; [discriminate | intros [[=] _]] | auto].
    - intros l r e rel seen x seen1 y seen2 Hs IH Hx Hs2 _ way HR Hf Ha Hc. cbn [SpecExact.steps].
      assert (HRr : forall ru n, occurs ru r -> In n (rule_steps ru e rel) -> R n) by (intros ru n Ho; apply HR, occ_right, Ho).
      destruct (IH way) as [(H1 & H2 & H3 & H4) | (H1 & b & m & Hfs & Hr & Hq)]; auto; [intros ru n Ho; apply HR, occ_left, Ho | contradiction |].
      right. split; [exact (found_mono _ _ (Gt _ _ _ _ _ _ Hs2) H1) |]. exists false, m. split; [eapply first_step_map; exact Hfs |].
      split; [| auto]. split; [| intros [[=] _]]. intros Hy. exfalso. exact (Lt _ _ _ _ _ _ Hs2 HRr H1 Hy).
    - intros l r e rel seen x seen1 y seen2 Hs IHl Hs2 IHr way HR Hf Ha Hc. cbn [SpecExact.steps].
      assert (HRl : forall ru n, occurs ru l -> In n (rule_steps ru e rel) -> R n) by (intros ru n Ho; apply HR, occ_left, Ho).
      assert (HRr : forall ru n, occurs ru r -> In n (rule_steps ru e rel) -> R n) by (intros ru n Ho; apply HR, occ_right, Ho).
      pose proof (conditional_success (is_success (get_result x) && is_failure (get_result y))) as Hiff.
      rewrite andb_true_iff, is_success_iff, is_failure_iff in Hiff.
      destruct (IHl way) as [(H1 & H2 & H3 & H4) | (H1 & b & m & Hfs & Hr & Hq)]; auto.
      + destruct (IHr way) as [(K1 & K2 & K3 & K4) | (K1 & b & m & Hfs & Hr & Hq)]; auto.
        * intros v Hv. exact (seen_mono _ _ _ (Gt _ _ _ _ _ _ Hs) (Ha v Hv)).
        * left. split; [exact K1 |]. split; [intros Hx; apply Hiff in Hx as [Hx _]; contradiction |]. split; [exact K3 |]. intros b m Hm.
          apply in_app_or in Hm as [Hm | Hm].
          -- eapply seen_mono; [exact (Gt _ _ _ _ _ _ Hs2) | eapply H4; exact Hm].
          -- apply in_map_iff in Hm as ([b0 m0] & [= <- <-] & Hm). eapply K4; exact Hm.
        * right. split; [exact K1 |]. exists false, m. split; [| split; [split; [intros Hx; apply Hiff in Hx as [Hx _]; contradiction | intros [[=] _]] | auto]].
          apply first_step_right; [| eapply first_step_map; exact Hfs].
          apply (closed_steps way seen1); [exact H3 | exact H1 |]. intros b' n Hn. split; [exact (Hocc e rel l n b' HRl Hn) | exact (H4 b' n Hn)].
      + right. split; [exact (found_mono _ _ (Gt _ _ _ _ _ _ Hs2) H1) |]. exists b, m. split; [apply first_step_left; exact Hfs |].
        rewrite <- Hr, Hiff. destruct (stree_known _ _ _ _ _ _ _ _ _ _ Hs2) as [Hy | Hy].
        * exfalso. exact (Lt _ _ _ _ _ _ Hs2 HRr H1 Hy).
        * tauto.
    - intros why seen way HR Hf Ha Hc. left. split; [exact Hf |]. split; [discriminate |]. split; [exact Hc | intros b m []].
    - intros why n ns seen x seen' Hs IH Hx way HR Hf Ha Hc.
      destruct (IH way) as [(H1 & H2 & _) | (H1 & Hfn & Hr & Hq)]; auto; [apply HR; left; reflexivity | contradiction |].
      right. split; [exact H1 |]. exists true, n. split; [| tauto]. exists [], (map (fun n => (true, n)) ns). split; [reflexivity |].
      split; [intros b' y [] | exact Hfn].
    - intros why n ns seen x seen1 b ps seen2 Hs IH Hx Hs2 IH2 way HR Hf Ha Hc.
      assert (HRn : R n) by (apply HR; left; reflexivity).
      assert (HRs : forall m, In m ns -> R m) by (intros m Hm; apply HR; right; exact Hm).
      cbn [map]. destruct (IH way) as [(H1 & _ & H3 & H4) | (H1 & Hfn & Hr & Hq)]; auto.
      + destruct (IH2 way) as [(K1 & K2 & K3 & K4) | (K1 & b' & m & Hfs & Hr & Hq)]; auto.
        * intros v Hv. exact (seen_mono _ _ _ (proj1 (Gp _ _ _ _ _ Hs)) (Ha v Hv)).
        * left. split; [exact K1 |]. split; [exact K2 |]. split; [exact K3 |]. intros b' m [[= <- <-] | Hm]; [| eapply K4; exact Hm].
          eapply seen_mono; [exact (Go _ _ _ _ _ _ Hs2) | exact H4].
        * right. split; [exact K1 |]. exists b', m. split; [| split; [exact Hr | exact Hq]].
          apply (first_step_right way [(true, n)]); [| exact Hfs]. intros b0 y [[= <- <-] | []]. eapply closed_lost; eauto.
      + right. split; [exact (found_mono _ _ (Go _ _ _ _ _ _ Hs2) H1) |]. exists true, n. split.
        * exists [], (map (fun n => (true, n)) ns). split; [reflexivity |]. split; [intros b' y [] | exact Hfn].
        * rewrite (Lo _ _ _ _ _ _ Hs2 HRs H1). split; [| auto]. split; [discriminate |]. intros [_ Hp]. exfalso. apply Hx, Hr, Hp.
  Qed.

  (** A search from the start. *)
  Lemma search_passes o rel why x seen' : origin = NSet (Some o) rel -> spath E P es g (NSet (Some o) rel) why [] x seen' ->
    (get_result x = RSuccess <-> passes [] (NSet (Some o) rel)) /\
    (get_result x <> RSuccess <-> refused [] (NSet (Some o) rel) \/ ~ finds [] (NSet (Some o) rel)).
  Proof.
    intros Hor Hs. destruct search_exact as (Hp & _ & _).
    assert (HR : R (NSet (Some o) rel)) by (rewrite Hor; apply re_here).
    destruct (Hp _ _ _ _ _ Hs []) as [(H1 & H2 & H3 & H4) | (_ & Hfn & H & Hq)].
    - exact HR.
    - intros (n & _ & _ & []).
    - intros v [].
    - intros v l b m _ [].
    - assert (Hnf : ~ finds [] (NSet (Some o) rel)) by (eapply closed_lost; [exact H3 | exact H1 | exact HR | exact H4]).
      split; [| tauto]. split; [contradiction |]. intros Hps. apply passes_finds in Hps. contradiction.
    - split; [exact H |]. split; [auto |]. intros [Hr | Hn] Hx; [| contradiction]. apply H in Hx. exact (passes_refused _ _ Hx Hr).
  Qed.
End Exact.

(** ** The listed subjects are those of the store *)

Lemma in_subjects_keyed E rels o rel u : In u (subjects_keyed E rels o rel) <-> key_subject E rels o rel u.
Proof.
  unfold subjects_keyed, key_subject. rewrite in_flat_map. split.
  - intros (r & Hr & Hu). exists r. destruct (r_subject r) as [u' |]; [| contradiction].
    destruct (String.eqb (sha E (object_text r)) (sha E (e_res o +++ e_id o +++ rel))) eqn:Hk; [| contradiction].
    destruct Hu as [<- | []]. apply String.eqb_eq in Hk. auto.
  - intros (r & Hr & Hu & Hk). exists r. split; [exact Hr |]. rewrite Hu, Hk, String.eqb_refl. left. reflexivity.
Qed.

Lemma keyed_successors E s pid : store_ok E s -> forall o rel,
  get_successors E (edges_of pid s) (Some o) rel = Ok (map subject_node (subjects_keyed E (relationships s pid) o rel)).
Proof.
  intros H o rel. unfold get_successors, relationships, subjects_keyed. cbn [from_public_node bind]. f_equal.
  assert (Ho : forall k e, In (k, e) (edges_of pid s) -> edge_image e /\ k = edge_key E e) by (intros; eapply edges_of_edge; eauto).
  induction (edges_of pid s) as [| [k e] es IH]; [reflexivity |].
  specialize (IH (fun k e Hin => Ho k e (or_intror Hin))). destruct (Ho k e (or_introl eq_refl)) as [Hi ->]. clear Ho.
  pose proof (to_from_internal e Hi) as He. destruct (dst_subject _ _ He) as (o' & u & Ho & Hu & Hd & Hs).
  cbn [filter map flat_map fst snd]. rewrite Hu, map_app, <- IH. clear IH.
  assert (Hk : fst (edge_key E e) = sha E (object_text (from_internal e))).
  { unfold edge_key, node_key. cbn [fst]. rewrite Hs. unfold object_text. rewrite Ho. reflexivity. }
  rewrite Hk. change (node_key E _) with (sha E (e_res o +++ e_id o +++ rel)).
  destruct (String.eqb (sha E (object_text (from_internal e))) (sha E (e_res o +++ e_id o +++ rel))); [| reflexivity].
  cbn [map app snd]. rewrite Hd. reflexivity.
Qed.

Lemma subjects_agree E P rels origin : unaliased E P rels origin -> forall o rel rel',
  reach E P (stored_subject rels) origin (NSet (Some o) rel) -> looks_up E P o rel rel' ->
  subjects_keyed E rels o rel' = subjects_of rels o rel'.
Proof.
  intros Hun o rel rel' Hr Hl. unfold subjects_keyed, subjects_of.
  assert (Hx : forall r, In r rels -> sha E (object_text r) = sha E (e_res o +++ e_id o +++ rel') -> r_object r = Some o /\ r_relation r = rel')
    by (intros r; eapply Hun; eauto). clear Hun Hr Hl.
  induction rels as [| r rs' IH]; [reflexivity |]. cbn [flat_map]. rewrite IH by (intros; apply Hx; [right |]; assumption). clear IH.
  f_equal. specialize (Hx r (or_introl eq_refl)). destruct (r_subject r) as [u |]; [| destruct (r_object r); reflexivity].
  destruct (String.eqb (sha E (object_text r)) (sha E (e_res o +++ e_id o +++ rel'))) eqn:Hk.
  - apply String.eqb_eq in Hk. destruct (Hx Hk) as [-> ->]. rewrite (proj2 (entity_eqb_ok o o) eq_refl), String.eqb_refl. reflexivity.
  - destruct (r_object r) as [o' |] eqn:Ho; [| reflexivity]. destruct (entity_eqb o' o) eqn:He; [| reflexivity].
    destruct (String.eqb (r_relation r) rel') eqn:Hrel; [| reflexivity]. exfalso.
    apply entity_eqb_ok in He. apply String.eqb_eq in Hrel. subst o' rel'. unfold object_text in Hk. rewrite Ho, String.eqb_refl in Hk. discriminate.
Qed.

(** ** Two listings that agree *)

Section Agree.
  Variable E : env.
  Variable P : policy.
  Variable s1 s2 : entity -> string -> list subject.
  Variable a : entity.
  Variable Q : rnode -> Prop.
  Hypothesis Hagree : forall n l, Q n -> (offers E P s1 n l <-> offers E P s2 n l).
  Hypothesis HQ : forall n l b m, Q n -> offers E P s1 n l -> In (b, m) l -> Q m.

  Lemma finds_agree avoid n : Q n -> (finds E P s1 a avoid n <-> finds E P s2 a avoid n).
  Proof.
    intros Hn. split; intros H; revert Hn; induction H as [n Hs Ha | n l b m Ha Ho Hm _ IH]; intros Hn.
    - apply fi_here; assumption.
    - eapply fi_step; [exact Ha | apply (Hagree n l Hn); exact Ho | exact Hm | apply IH; eapply HQ; eauto].
    - apply fi_here; assumption.
    - apply (Hagree n l Hn) in Ho. eapply fi_step; [exact Ha | exact Ho | exact Hm | apply IH; eapply HQ; eauto].
  Qed.

  Lemma passes_agree above n : Q n -> (passes E P s1 a above n <-> passes E P s2 a above n).
  Proof.
    intros Hn. split; intros H; revert Hn; induction H as [above n Hs Ha | above n bf m af Ha Ho Hb _ IH]; intros Hn.
    - apply pa_here; assumption.
    - eapply pa_step; [exact Ha | apply (Hagree n _ Hn); exact Ho | | apply IH; eapply HQ; [exact Hn | exact Ho | apply in_or_app; right; left; reflexivity]].
      intros b x Hx Hf. apply (Hb b x Hx). apply finds_agree; [| exact Hf]. eapply HQ; [exact Hn | exact Ho | apply in_or_app; left; exact Hx].
    - apply pa_here; assumption.
    - apply (Hagree n _ Hn) in Ho.
      eapply pa_step; [exact Ha | exact Ho | | apply IH; eapply HQ; [exact Hn | exact Ho | apply in_or_app; right; left; reflexivity]].
      intros b x Hx Hf. apply (Hb b x Hx). apply finds_agree; [| exact Hf]. eapply HQ; [exact Hn | exact Ho | apply in_or_app; left; exact Hx].
  Qed.

  Lemma refused_agree above n : Q n -> (refused E P s1 a above n <-> refused E P s2 a above n).
  Proof.
    intros Hn. split; intros H; revert Hn; induction H as [above n bf m af Ha Ho Hb Hf | above n bf m af Ha Ho Hb _ IH]; intros Hn.
    - assert (Hm : Q m) by (eapply HQ; [exact Hn | exact Ho | apply in_or_app; right; left; reflexivity]).
      eapply rf_now; [exact Ha | apply (Hagree n _ Hn); exact Ho | | apply finds_agree; assumption].
      intros b x Hx Hf'. apply (Hb b x Hx). apply finds_agree; [| exact Hf']. eapply HQ; [exact Hn | exact Ho | apply in_or_app; left; exact Hx].
    - eapply rf_later; [exact Ha | apply (Hagree n _ Hn); exact Ho | | apply IH; eapply HQ; [exact Hn | exact Ho | apply in_or_app; right; left; reflexivity]].
      intros b x Hx Hf. apply (Hb b x Hx). apply finds_agree; [| exact Hf]. eapply HQ; [exact Hn | exact Ho | apply in_or_app; left; exact Hx].
    - apply (Hagree n _ Hn) in Ho. assert (Hm : Q m) by (eapply HQ; [exact Hn | exact Ho | apply in_or_app; right; left; reflexivity]).
      eapply rf_now; [exact Ha | exact Ho | | apply finds_agree; assumption].
      intros b x Hx Hf'. apply (Hb b x Hx). apply finds_agree; [| exact Hf']. eapply HQ; [exact Hn | exact Ho | apply in_or_app; left; exact Hx].
    - apply (Hagree n _ Hn) in Ho.
      eapply rf_later; [exact Ha | exact Ho | | apply IH; eapply HQ; [exact Hn | exact Ho | apply in_or_app; right; left; reflexivity]].
      intros b x Hx Hf. apply (Hb b x Hx). apply finds_agree; [| exact Hf]. eapply HQ; [exact Hn | exact Ho | apply in_or_app; left; exact Hx].
  Qed.
End Agree.

Lemma steps_agree (s1 s2 : entity -> string -> list subject) o rel : forall t,
  (forall rel', (occurs RThis t /\ rel' = rel) \/ (exists cu, occurs (RTtu rel' cu) t) -> s1 o rel' = s2 o rel') ->
  steps s1 o rel t = steps s2 o rel t.
Proof.
  intros t. induction t as [| | ru | l IHl op r IHr]; intros H; try reflexivity.
  - cbn [steps]. f_equal. destruct ru as [| c | ts cu |]; cbn [rule_steps]; try reflexivity; f_equal; apply H.
    + left. split; [constructor | reflexivity].
    + right. exists cu. constructor.
  - assert (Hl : steps s1 o rel l = steps s2 o rel l).
    { apply IHl. intros rel' [[Ho Heq] | (cu & Ho)]; apply H; [left; split; [apply occ_left; exact Ho | exact Heq] | right; exists cu; apply occ_left; exact Ho]. }
    assert (Hr : steps s1 o rel r = steps s2 o rel r).
    { apply IHr. intros rel' [[Ho Heq] | (cu & Ho)]; apply H; [left; split; [apply occ_right; exact Ho | exact Heq] | right; exists cu; apply occ_right; exact Ho]. }
    cbn [steps]. rewrite Hl, Hr. reflexivity.
Qed.

Lemma offers_agree E P rels origin : unaliased E P rels origin -> forall n l, reach E P (stored_subject rels) origin n ->
  (offers E P (subjects_keyed E rels) n l <-> offers E P (subjects_of rels) n l).
Proof.
  intros Hun n l Hr. split; intros H; destruct H as [o rel t Hw].
  - rewrite (steps_agree (subjects_keyed E rels) (subjects_of rels) o rel t); [constructor; exact Hw |].
    intros rel' Hl. eapply subjects_agree; [exact Hun | exact Hr | exists t; auto].
  - rewrite <- (steps_agree (subjects_keyed E rels) (subjects_of rels) o rel t); [constructor; exact Hw |].
    intros rel' Hl. eapply subjects_agree; [exact Hun | exact Hr | exists t; auto].
Qed.

Lemma reach_listed E P rels origin n :
  reach E P (fun o rel u => In u (subjects_keyed E rels o rel)) origin n <-> reach E P (key_subject E rels) origin n.
Proof. split; apply reach_mono; intros o rel u; apply in_subjects_keyed. Qed.

Lemma offers_reached E P rels origin : unaliased E P rels origin -> forall n l b m, reach E P (stored_subject rels) origin n ->
  offers E P (subjects_keyed E rels) n l -> In (b, m) l -> reach E P (stored_subject rels) origin m.
Proof.
  intros Hun n l b m Hr Ho Hm. apply (reach_keyed E _ _ _ Hun), reach_listed. apply (reach_keyed E _ _ _ Hun), reach_listed in Hr.
  eapply offers_reach; eauto.
Qed.
