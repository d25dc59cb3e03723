(** Soundness and completeness of the search with respect to the set semantics. *)
From Verif Require Import Base Domain Lexer Parser Validate Store Search BaseFacts SpecGrammar SpecPolicy SpecStore SpecSearch ValidateFacts SearchFacts.

Lemma map_res_in {A B} (f : A -> res B) : forall l l', map_res f l = Ok l' ->
  forall y, In y l' <-> exists x, In x l /\ f x = Ok y.
Proof.
  intros l. induction l as [| a l IH]; intros l' H y; cbn in H.
  - injection H as <-. cbn. split; [tauto | intros (x & [] & _)].
  - destruct (f a) as [b | | |] eqn:Ha; try discriminate. cbn in H.
    destruct (map_res f l) as [bs | | |] eqn:Hl; try discriminate. injection H as <-.
    cbn [In]. rewrite (IH bs eq_refl y). split.
    + intros [<- | (x & Hx & Hy)]; eauto.
    + intros (x & [<- | Hx] & Hy); [left; congruence | eauto].
Qed.

Lemma map_res_ok {A B} (f : A -> res B) : forall l l', map_res f l = Ok l' ->
  forall x, In x l -> exists y, f x = Ok y.
Proof.
  intros l. induction l as [| a l IH]; intros l' H x Hx; cbn in H; [contradiction |].
  destruct (f a) as [b | | |] eqn:Ha; try discriminate. cbn in H.
  destruct (map_res f l) as [bs | | |] eqn:Hl; try discriminate.
  destruct Hx as [<- | Hx]; eauto.
Qed.

(** The subjects that the edge list gives. *)
Definition edge_subjects (E : env) (es : list ((string * string) * edge)) (succ : entity -> string -> subject -> Prop) : Prop :=
  forall o rel, exists ns, get_successors E es (Some o) rel = Ok ns /\
    forall n, In n ns <-> exists u, succ o rel u /\ n = subject_node u.

Section NodeIn.
  Variable a : entity.
  Variable M : entity -> string -> Prop.

  Definition node_in (n : rnode) : Prop :=
    match n with
    | NSet (Some o) rel => M o rel
    | NEntity (Some e) => e = a
    | NWild rs => rs = e_res a
    | NSet None _ | NEntity None | NUnset => False
    end.

  Lemma node_in_covers u : node_in (subject_node u) -> covers a M u.
  Proof. destruct u as [e | [o |] r | rs |]; cbn; auto. Qed.

  Lemma goal_found_in n : goal_found n (GoalEntity (Some a)) = Ok true -> node_in n.
  Proof.
    destruct n as [[o |] rel | [e |] | rs |]; cbn; try discriminate.
    - intros [= H]. apply andb_true_iff in H as [H1 H2]. apply String.eqb_eq in H1, H2.
      destruct a as [ra ia], e as [re ie]; cbn in *; congruence.
    - intros [= H]. apply String.eqb_eq in H. congruence.
  Qed.
End NodeIn.

Section Graph.
  Variable E : env.
  Variable P : policy.
  Variable es : list ((string * string) * edge).
  Variable succ : entity -> string -> subject -> Prop.
  Hypothesis Hsucc : edge_subjects E es succ.

  Lemma evaluate_yields ru o rel ns : evaluate E es ru (Some o) rel = Ok ns ->
    forall n, In n ns <-> yields succ ru o rel n.
  Proof.
    intros H n. destruct ru as [| c | ts cu |]; cbn in H.
    - destruct (Hsucc o rel) as (ns' & He & Hn). change (get_successors E es (Some o) rel = Ok ns) in H.
      rewrite He in H. injection H as <-. rewrite Hn. split.
      + intros (u & Hu & ->). constructor. exact Hu.
      + intros Hy. inversion Hy; subst. eauto.
    - injection H as <-. cbn. split.
      + intros [<- | []]. constructor.
      + intros Hy. inversion Hy; subst. auto.
    - destruct (Hsucc o ts) as (ns' & He & Hn). change (get_successors E es (Some o) ts) with (get_successors E es (Some o) ts) in H.
      unfold evaluate in H. cbn [bind] in H.
      assert (Hm : map_res (build_ttu_node cu) ns' = Ok ns).
      { unfold get_successors in He, H. cbn in He, H. injection He as <-. exact H. }
      rewrite (map_res_in _ _ _ Hm n). split.
      + intros (x & Hx & Hb). apply Hn in Hx as (u & Hu & ->).
        replace n with (NSet (subject_object u) cu); [constructor; exact Hu |].
        destruct u as [e | e r | rs |]; cbn in Hb |- *; congruence.
      + intros Hy. inversion Hy as [| | ? ? ? ? u Hu]; subst. exists (subject_node u).
        assert (Hin : In (subject_node u) ns') by (apply Hn; eauto). split; [exact Hin |].
        destruct (map_res_ok _ _ _ Hm _ Hin) as (y & Hb).
        destruct u as [e | e r | rs |]; cbn in Hb |- *; congruence.
    - discriminate.
  Qed.

  Lemma build_whole o rel : forall t gt, build_goal_tree E es t o rel = Ok gt -> whole t.
  Proof.
    intros t. induction t as [| | r | l IHl op r IHr]; intros gt H; try discriminate; [constructor |].
    cbn in H. destruct (build_goal_tree E es l o rel) as [a | | |]; try discriminate.
    destruct (build_goal_tree E es r o rel) as [b | | |]; try discriminate. constructor; eauto.
  Qed.

  Lemma node_rewrites e rel t gt : node_tree E P e rel t -> build_goal_tree E es t (Some e) rel = Ok gt ->
    rewrites E P e rel t.
  Proof.
    intros (l & Hl & Hx) Hb. exists l. apply lut_relation_some in Hl as [Hl Hn].
    repeat split; auto. apply expression_get. split; [exact Hx | eapply build_whole; eauto].
  Qed.

  Lemma rewrites_unique e rel t t' : unique_decls P -> rewrites E P e rel t -> rewrites E P e rel t' -> t = t'.
  Proof.
    intros Hu (l & Hl & Hn & Hx) (l' & Hl' & Hn' & Hx').
    assert (l = l') as -> by (eapply relation_of_unique; eauto; congruence).
    eapply expression_unique; eauto.
  Qed.

  Lemma rewrites_node e rel t : unique_decls P -> rewrites E P e rel t -> node_tree E P e rel t.
  Proof.
    intros Hu (l & Hl & <- & Hx). exists l. split; [apply lut_relation_found; auto | apply expression_get; exact Hx].
  Qed.

  (** ** Soundness *)

  Section Sound.
    Variable a : entity.
    Variable M : entity -> string -> Prop.
    Hypothesis Hclosed : closed E P succ a M.
    Hypothesis Hnodiff : ~ policy_uses E P OpDiff.

    Notation node_in := (node_in a M).

    Lemma search_sound :
      (forall nd why seen x seen', spath E P es (GoalEntity (Some a)) nd why seen x seen' ->
        get_result x = RSuccess -> node_in nd) /\
      (forall t e rel seen x seen', stree E P es (GoalEntity (Some a)) t e rel seen x seen' ->
        ~ uses OpDiff t -> get_result x = RSuccess -> eval succ a M e rel t) /\
      (forall why ns seen b ps seen', sor E P es (GoalEntity (Some a)) why ns seen b ps seen' ->
        b = true -> exists n, In n ns /\ node_in n).
    Proof.
      apply search_ind; cbn [get_result]; try discriminate.
      - intros nd why seen id _ _ Hf _. apply goal_found_in. exact Hf.
      - intros e rel why seen id t gt x seen' _ _ _ Ht Hb _ IH Hr.
        pose proof (node_rewrites _ _ _ _ Ht Hb) as Hw. cbn [SearchSem.node_in]. apply (Hclosed e rel t Hw).
        apply IH; [| exact Hr]. intros Hu. apply Hnodiff. destruct Hw as (l & Hl & _ & Hx). exists (e_res e), l, t. auto.
      - intros r e rel ns seen b ps seen' He _ IH _ Hr. apply conditional_success in Hr.
        destruct (IH Hr) as (n & Hin & Hn). apply (evaluate_yields _ _ _ _ He) in Hin.
        destruct Hin as [o rel u Hu | o rel c | o rel ts cu u Hu]; cbn [eval].
        + exists u. split; [exact Hu |]. apply node_in_covers. exact Hn.
        + exact Hn.
        + destruct (subject_object u) as [o' |] eqn:Ho; [| contradiction Hn]. exists u, o'. auto.
      - intros l r e rel seen x seen' y _ IH Hr _ Hu _. cbn [eval]. left. apply IH; [| exact Hr].
        intros H. apply Hu. apply us_left. exact H.
      - intros l r e rel seen x seen1 y seen2 _ _ _ _ IH Hu Hr. cbn [eval]. right. apply IH; [| exact Hr].
        intros H. apply Hu. apply us_right. exact H.
      - intros l r e rel seen x seen1 y seen2 _ IHl Hl _ IH Hu Hr. cbn [eval]. split.
        + apply IHl; [| exact Hl]. intros H. apply Hu. apply us_left. exact H.
        + apply IH; [| exact Hr]. intros H. apply Hu. apply us_right. exact H.
      - intros l r e rel seen x seen1 y seen2 _ _ _ _ Hu. exfalso. apply Hu. constructor.
      - intros why n ns seen x seen' _ IH Hr _. exists n. split; [left; reflexivity | auto].
      - intros why n ns seen x seen1 b ps seen2 _ _ _ _ IH Hb. destruct (IH Hb) as (m & Hm & Hn).
        exists m. split; [right; exact Hm | exact Hn].
    Qed.
  End Sound.

  (** ** Visited nodes *)

  Lemma seen_grows g :
    (forall nd why seen x seen', spath E P es g nd why seen x seen' ->
      incl seen seen' /\ (exists id, node_id E nd = Ok id /\ In id seen')) /\
    (forall t e rel seen x seen', stree E P es g t e rel seen x seen' -> incl seen seen') /\
    (forall why ns seen b ps seen', sor E P es g why ns seen b ps seen' -> incl seen seen').
  Proof.
    apply search_ind; try solve [intros; eapply incl_tran; eassumption | intros; auto using incl_refl].
    - intros. split; [apply incl_refl | eauto].
    - intros. split; [apply incl_tl, incl_refl |]. exists id. split; [auto | left; reflexivity].
    - intros. split; [apply incl_tl, incl_refl |]. exists id. split; [auto | left; reflexivity].
    - intros e rel why seen id t gt x seen' Hid _ _ _ _ _ IH. split.
      + intros i Hi. apply IH. right. exact Hi.
      + exists id. split; [exact Hid |]. apply IH. left. reflexivity.
    - intros why n ns seen x seen' _ [H _] _. exact H.
    - intros why n ns seen x seen1 b ps seen2 _ [H _] _ _ H'. eapply incl_tran; eauto.
  Qed.

  Lemma no_success :
    (forall nd why seen x seen', spath E P es GoalNone nd why seen x seen' -> get_result x <> RSuccess) /\
    (forall t e rel seen x seen', stree E P es GoalNone t e rel seen x seen' -> get_result x <> RSuccess) /\
    (forall why ns seen b ps seen', sor E P es GoalNone why ns seen b ps seen' -> b <> true).
  Proof.
    clear. apply search_ind; cbn [get_result goal_found]; try congruence.
    - intros r e rel ns seen b ps seen' _ _ H. destruct b; cbn; congruence.
    - intros l r e rel seen x seen1 y seen2 _ H _ _. destruct (get_result x); cbn; congruence.
  Qed.

  Variable origin : rnode.

  (** Everything seen after [seen] is a reached node that is no goal, whose successors have all been seen. *)
  Definition explored (g : goal) (seen seen' : list string) : Prop :=
    forall id, In id seen' -> In id seen \/
      exists x, reach E P succ origin x /\ node_id E x = Ok id /\ goal_found x g = Ok false /\
        forall y, leads E P succ x y -> exists idy, node_id E y = Ok idy /\ In idy seen'.

  Lemma explored_refl g seen : explored g seen seen.
  Proof. intros id H. auto. Qed.

  Lemma explored_trans g s1 s2 s3 : explored g s1 s2 -> explored g s2 s3 -> incl s2 s3 -> explored g s1 s3.
  Proof.
    intros H12 H23 Hi id Hid. destruct (H23 id Hid) as [Hid2 | Hx]; [| auto].
    destruct (H12 id Hid2) as [| (x & H1 & H2 & H3 & H4)]; [auto |].
    right. exists x. repeat split; auto. intros y Hy. destruct (H4 y Hy) as (idy & Hidy & Hin). eauto.
  Qed.

  Lemma terminal_leads n y : is_terminal n = true -> ~ leads E P succ n y.
  Proof. intros H Hl. destruct Hl. discriminate. Qed.

  (** Searches in which no tree stops early: there are no intersections, and differences only in a search
      without goal. *)
  Section Complete.
    Variable g : goal.
    Hypothesis Huniq : unique_decls P.
    Hypothesis Hops : forall op, policy_uses E P op -> op = OpUnion \/ op = OpDiff /\ g = GoalNone.

    Definition tree_seen (t : tree) (e : entity) (rel : string) (seen' : list string) : Prop :=
      forall ru n, occurs ru t -> yields succ ru e rel n -> exists id, node_id E n = Ok id /\ In id seen'.

    Lemma search_complete :
      (forall nd why seen x seen', spath E P es g nd why seen x seen' ->
        reach E P succ origin nd -> get_result x <> RSuccess -> explored g seen seen') /\
      (forall t e rel seen x seen', stree E P es g t e rel seen x seen' ->
        (forall op, uses op t -> op = OpUnion \/ op = OpDiff /\ g = GoalNone) ->
        (forall ru n, occurs ru t -> yields succ ru e rel n -> reach E P succ origin n) ->
        get_result x <> RSuccess -> explored g seen seen' /\ tree_seen t e rel seen') /\
      (forall why ns seen b ps seen', sor E P es g why ns seen b ps seen' ->
        (forall n, In n ns -> reach E P succ origin n) ->
        b <> true -> explored g seen seen' /\ forall n, In n ns -> exists id, node_id E n = Ok id /\ In id seen').
    Proof.
      destruct (seen_grows g) as (Gp & Gt & Go).
      apply search_ind; cbn [get_result]; try congruence.
      - intros. apply explored_refl.
      - intros nd why seen id Hid Hn Hf Ht Hr _ i [<- | Hi]; [| auto].
        right. exists nd. repeat split; auto. intros y Hy. exfalso. eapply terminal_leads; eauto.
      - intros e rel why seen id t gt x seen' Hid Hn Hf Ht Hb Hs IH Hr Hres.
        pose proof (node_rewrites _ _ _ _ Ht Hb) as Hw.
        destruct IH as [Hex Hts]; [| | exact Hres |].
        + intros op Hop. apply Hops. destruct Hw as (l & Hl & _ & Hx). exists (e_res e), l, t. auto.
        + intros ru n Ho Hy. eapply re_step; [exact Hr |]. econstructor; eauto.
        + intros i Hi. destruct (Hex i Hi) as [[<- |] | Hx]; [| auto | auto].
          right. exists (NSet (Some e) rel). repeat split; auto. intros y Hy.
          inversion Hy as [o' rel' t' ru n Hw' Ho Hyl]; subst.
          assert (t' = t) as -> by (eapply rewrites_unique; eauto). eapply Hts; eauto.
      - intros r e rel ns seen b ps seen' He Hs IH Hu Hr Hres.
        destruct IH as [Hex Hns].
        + intros n Hin. apply (Hr r n); [constructor |]. eapply evaluate_yields; eauto.
        + intros ->. apply Hres. reflexivity.
        + split; [exact Hex |]. intros ru n Ho Hy. inversion Ho; subst. apply Hns.
          eapply evaluate_yields; eauto.
      - intros l r e rel seen x seen1 y seen2 Hl IHl Hrl Hs IHr Hu Hr Hres.
        destruct IHl as [Hex1 Hts1]; [intros op H; apply Hu, us_left, H |
          intros ru n Ho Hy; eapply Hr; [apply occ_left; exact Ho | exact Hy] | congruence |].
        destruct IHr as [Hex2 Hts2]; [intros op H; apply Hu, us_right, H |
          intros ru n Ho Hy; eapply Hr; [apply occ_right; exact Ho | exact Hy] | exact Hres |].
        pose proof (Gt _ _ _ _ _ _ Hs) as Hi. split; [eapply explored_trans; eauto |].
        intros ru n Ho Hy. inversion Ho; subst.
        + destruct (Hts1 ru n) as (id & Hid & Hin); auto. exists id. auto.
        + eapply Hts2; eauto.
      - intros l r e rel seen x seen' y Hl IHl _ _ Hu. exfalso. destruct (Hu OpInter) as [| []]; [constructor | |]; discriminate.
      - intros l r e rel seen x seen1 y seen2 _ _ _ _ _ Hu. exfalso. destruct (Hu OpInter) as [| []]; [constructor | |]; discriminate.
      - intros l r e rel seen x seen1 y seen2 Hl IHl Hs IHr Hu Hr Hres.
        assert (Hg : g = GoalNone). { destruct (Hu OpDiff) as [| []]; [constructor | discriminate | assumption]. }
        rewrite Hg in Hl, Hs. destruct no_success as (_ & Nt & _).
        destruct IHl as [Hex1 Hts1]; [intros op H; apply Hu, us_left, H |
          intros ru n Ho Hy; eapply Hr; [apply occ_left; exact Ho | exact Hy] | eapply Nt; eauto |].
        destruct IHr as [Hex2 Hts2]; [intros op H; apply Hu, us_right, H |
          intros ru n Ho Hy; eapply Hr; [apply occ_right; exact Ho | exact Hy] | eapply Nt; eauto |].
        rewrite <- Hg in Hs. pose proof (Gt _ _ _ _ _ _ Hs) as Hi. split; [eapply explored_trans; eauto |].
        intros ru n Ho Hy. inversion Ho; subst.
        + destruct (Hts1 ru n) as (id & Hid & Hin); auto. exists id. auto.
        + eapply Hts2; eauto.
      - intros why seen _ _. split; [apply explored_refl | intros n []].
      - intros why n ns seen x seen1 b ps seen2 Hx IHx Hres Hs IHs Hr Hb.
        assert (Hex1 : explored g seen seen1) by (apply IHx; [apply Hr; left; reflexivity | exact Hres]).
        destruct IHs as [Hex2 Hns]; [intros m Hm; apply Hr; right; exact Hm | exact Hb |].
        pose proof (Go _ _ _ _ _ _ Hs) as Hi. split; [eapply explored_trans; eauto |].
        intros m [<- | Hm]; [| auto].
        destruct (Gp _ _ _ _ _ Hx) as [_ (id & Hid & Hin)]. exists id. auto.
    Qed.
  End Complete.
End Graph.

(** A search that does not succeed in a policy of unions shows that the subject is no member. *)
Theorem search_complete_member E P es succ a o rel why x seen' : edge_subjects E es succ -> unique_decls P -> union_only E P ->
  distinct_ids E P succ (NSet (Some o) rel) ->
  spath E P es (GoalEntity (Some a)) (NSet (Some o) rel) why [] x seen' -> get_result x <> RSuccess ->
  ~ member E P succ a o rel.
Proof.
  intros Hsucc Hu Hun Hd Hs Hres Hm. set (origin := NSet (Some o) rel) in *.
  pose proof (proj1 (search_complete E P es succ Hsucc origin (GoalEntity (Some a)) Hu (fun op H => or_introl (Hun op H)))
                _ _ _ _ _ Hs (re_here _ _ _ _) Hres) as Hex.
  destruct (proj1 (seen_grows E P es (GoalEntity (Some a))) _ _ _ _ _ Hs) as [_ (id0 & Hid0 & Hin0)].
  set (V := fun n => reach E P succ origin n /\ exists id, node_id E n = Ok id /\ In id seen').
  assert (HV : forall n, V n -> goal_found n (GoalEntity (Some a)) = Ok false /\
                 forall y, leads E P succ n y -> V y).
  { intros n [Hr (id & Hid & Hin)]. destruct (Hex id Hin) as [[] | (m & Hrm & Hidm & Hg & Hl)].
    assert (n = m) as <-. { apply Hd; auto. apply node_id_text in Hid, Hidm. congruence. }
    split; [exact Hg |]. intros y Hy. split; [eapply re_step; eauto | auto]. }
  apply (Hm (fun o rel => ~ V (NSet (Some o) rel))).
  2:{ split; [apply re_here | eauto]. }
  intros o' rel' t Hw Hev Hv. destruct (HV _ Hv) as [_ Hl].
  assert (Hy : forall ru n, occurs ru t -> yields succ ru o' rel' n -> V n).
  { intros ru n Ho Hy. apply Hl. econstructor; eauto. }
  assert (Huses : forall op, uses op t -> op = OpUnion).
  { intros op Hop. apply Hun. destruct Hw as (l & Hrl & _ & Hx). exists (e_res o'), l, t. auto. }
  clear Hw Hl. revert Hev Hy Huses. induction t as [| | r | l IHl op r IHr]; intros Hev Hy Huses; try contradiction.
  - destruct r as [| c | ts cu |]; cbn in Hev.
    + destruct Hev as (u & Hu' & Hc). assert (Hvu : V (subject_node u)) by (apply (Hy RThis); constructor; exact Hu').
      destruct u as [e | [e |] r' | rs |]; cbn in Hc, Hvu; try contradiction.
      * subst e. destruct (HV _ Hvu) as [Hf _]. cbn in Hf. rewrite !String.eqb_refl in Hf. discriminate.
      * subst rs. destruct (HV _ Hvu) as [Hf _]. cbn in Hf. rewrite String.eqb_refl in Hf. discriminate.
    + apply Hev. apply (Hy (RCu c)); constructor.
    + destruct Hev as (u & o2 & Hu' & Ho2 & Hn). apply Hn. rewrite <- Ho2. apply (Hy (RTtu ts cu)); constructor. exact Hu'.
    + contradiction.
  - assert (op = OpUnion) as -> by (apply Huses; constructor). cbn in Hev. destruct Hev as [Hev | Hev].
    + apply IHl; [exact Hev | | intros; apply Huses, us_left; assumption].
      intros ru n Ho. apply (Hy ru n). apply occ_left. exact Ho.
    + apply IHr; [exact Hev | | intros; apply Huses, us_right; assumption].
      intros ru n Ho. apply (Hy ru n). apply occ_right. exact Ho.
Qed.
