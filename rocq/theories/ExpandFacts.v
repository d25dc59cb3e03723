(** What a search without goal visits. *)
From Verif Require Import Base Domain Lexer Parser Validate Store Search BaseFacts SpecGrammar SpecPolicy SpecStore SpecSearch SpecExpand
  ValidateFacts SearchFacts SearchSem SearchExplain.
Require Import Permutation.

Lemma tried_occurs ru t : tried ru t -> occurs ru t.
Proof. induction 1; [constructor | apply occ_left; assumption | apply occ_right; assumption]. Qed.

Section Visit.
  Variable E : env.
  Variable P : policy.
  Variable es : list ((string * string) * edge).
  Variable succ : entity -> string -> subject -> Prop.
  Hypothesis Hsucc : edge_subjects E es succ.
  Hypothesis Huniq : unique_decls P.
  Variable origin : rnode.

  Notation un := (unfolds E P succ origin).

  Lemma unfolds_reach n : un n -> reach E P succ origin n.
  Proof.
    induction 1 as [| o rel t ru n _ IH Hw Ht Hy]; [constructor |]. eapply re_step; [exact IH |].
    econstructor; [exact Hw | apply tried_occurs; exact Ht | exact Hy].
  Qed.

  Lemma visited_unfolds :
    (forall nd why seen x seen', spath E P es GoalNone nd why seen x seen' -> un nd -> forall n, In n (evaluated x) -> un n) /\
    (forall t e rel seen x seen', stree E P es GoalNone t e rel seen x seen' ->
      (forall ru n, tried ru t -> yields succ ru e rel n -> un n) -> forall n, In n (evaluated x) -> un n) /\
    (forall why ns seen b ps seen', sor E P es GoalNone why ns seen b ps seen' ->
      (forall n, In n ns -> un n) -> forall n, In n (flat_map evaluated ps) -> un n).
  Proof.
    destruct (no_success E P es) as (Np & Nt & No).
    apply search_ind.
    - intros nd why seen id _ _ _ n [].
    - intros nd why seen id _ _ [=].
    - intros nd why seen id _ _ _ _ Hr n [<- | []]. exact Hr.
    - intros e rel why seen id t gt x seen' _ _ _ Ht Hb Hs IH Hr n.
      pose proof (node_rewrites E P es _ _ _ _ Ht Hb) as Hw.
      assert (Hi : forall n, In n (evaluated x) -> un n) by (apply IH; intros ru m Ho Hy; eapply un_step; eauto).
      rewrite known_evaluated by (destruct (stree_known E P es _ _ _ _ _ _ _ Hs) as [-> | ->]; discriminate).
      intros [<- | Hn]; auto.
    - intros r e rel ns seen b ps seen' He _ IH Hr. apply IH. intros n Hin. apply (Hr r); [constructor |]. eapply evaluate_yields; eauto.
    - intros l r e rel seen x seen' y Hl _ Hres. destruct (Nt _ _ _ _ _ _ Hl Hres).
    - intros l r e rel seen x seen1 y seen2 _ IHl _ _ IHr Hr n. cbn [evaluated flat_map]. rewrite app_nil_r, in_app_iff. intros [Hn | Hn].
      + apply IHl; [| exact Hn]. intros ru m Ho. apply Hr, td_left, Ho.
      + apply IHr; [| exact Hn]. intros ru m Ho. apply Hr, td_right; [discriminate | exact Ho].
    - intros l r e rel seen x seen' y _ IHl _ Hb Hr n. cbn [evaluated flat_map]. rewrite (fresh_evaluated y) by (eapply build_fresh; eauto).
      rewrite !app_nil_r. intros Hn. apply IHl; [| exact Hn]. intros ru m Ho. apply Hr, td_left, Ho.
    - intros l r e rel seen x seen1 y seen2 Hl _ Hres. destruct (Nt _ _ _ _ _ _ Hl Hres).
    - intros l r e rel seen x seen1 y seen2 _ IHl _ IHr Hr n. cbn [evaluated]. rewrite in_app_iff. intros [Hn | Hn].
      + apply IHl; [| exact Hn]. intros ru m Ho. apply Hr, td_left, Ho.
      + apply IHr; [| exact Hn]. intros ru m Ho. apply Hr, td_right; [discriminate | exact Ho].
    - intros why seen _ n [].
    - intros why n ns seen x seen' Hx _ Hres. destruct (Np _ _ _ _ _ Hx Hres).
    - intros why n ns seen x seen1 b ps seen2 _ IHx _ _ IHs Hr m. cbn [flat_map]. rewrite in_app_iff. intros [Hn | Hn].
      + apply IHx; [apply Hr; left; reflexivity | exact Hn].
      + apply IHs; [intros k Hk; apply Hr; right; exact Hk | exact Hn].
  Qed.

  (** Everything seen after [seen] is an unfolded node all of whose unfoldings have been seen. *)
  Definition unfolded (seen seen' : list string) : Prop :=
    forall id, In id seen' -> In id seen \/
      exists x, un x /\ node_id E x = Ok id /\
        forall o rel t ru n, x = NSet (Some o) rel -> rewrites E P o rel t -> tried ru t -> yields succ ru o rel n ->
          exists idn, node_id E n = Ok idn /\ In idn seen'.

  Lemma unfolded_trans s1 s2 s3 : unfolded s1 s2 -> unfolded s2 s3 -> incl s2 s3 -> unfolded s1 s3.
  Proof.
    intros H12 H23 Hi id Hid. destruct (H23 id Hid) as [Hid2 | Hx]; [| auto].
    destruct (H12 id Hid2) as [| (x & H1 & H2 & H3)]; [auto |].
    right. exists x. split; [exact H1 |]. split; [exact H2 |]. intros o rel t ru n Hx Hw Ht Hy.
    destruct (H3 o rel t ru n Hx Hw Ht Hy) as (idn & Hn & Hin). eauto.
  Qed.

  Lemma visits_all :
    (forall nd why seen x seen', spath E P es GoalNone nd why seen x seen' -> un nd -> unfolded seen seen') /\
    (forall t e rel seen x seen', stree E P es GoalNone t e rel seen x seen' ->
      (forall ru n, tried ru t -> yields succ ru e rel n -> un n) ->
      unfolded seen seen' /\ forall ru n, tried ru t -> yields succ ru e rel n -> exists id, node_id E n = Ok id /\ In id seen') /\
    (forall why ns seen b ps seen', sor E P es GoalNone why ns seen b ps seen' ->
      (forall n, In n ns -> un n) -> unfolded seen seen' /\ forall n, In n ns -> exists id, node_id E n = Ok id /\ In id seen').
  Proof.
    destruct (seen_grows E P es GoalNone) as (Gp & Gt & Go). destruct (no_success E P es) as (Np & Nt & No).
    assert (Hboth : forall l op r e rel seen seen1 seen2,
      (forall ru n, tried ru (TOp l op r) -> yields succ ru e rel n -> un n) -> op <> OpInter ->
      ((forall ru n, tried ru l -> yields succ ru e rel n -> un n) ->
        unfolded seen seen1 /\ forall ru n, tried ru l -> yields succ ru e rel n -> exists id, node_id E n = Ok id /\ In id seen1) ->
      ((forall ru n, tried ru r -> yields succ ru e rel n -> un n) ->
        unfolded seen1 seen2 /\ forall ru n, tried ru r -> yields succ ru e rel n -> exists id, node_id E n = Ok id /\ In id seen2) ->
      incl seen1 seen2 ->
      unfolded seen seen2 /\ forall ru n, tried ru (TOp l op r) -> yields succ ru e rel n -> exists id, node_id E n = Ok id /\ In id seen2).
    { intros l op r e rel seen seen1 seen2 Hr Hop IHl IHr Hi.
      destruct IHl as [H1 H2]; [intros ru n Ho; apply Hr, td_left, Ho |].
      destruct IHr as [H3 H4]; [intros ru n Ho; apply Hr, td_right; [exact Hop | exact Ho] |].
      split; [eapply unfolded_trans; eauto |]. intros ru n Ho Hy. inversion Ho; subst.
      - destruct (H2 ru n) as (id & Hid & Hin); auto. exists id. auto.
      - eauto. }
    apply search_ind.
    - intros nd why seen id _ _ _ i Hi. auto.
    - intros nd why seen id _ _ [=].
    - intros nd why seen id Hid _ _ Ht Hr i [<- | Hi]; [| auto]. right. exists nd. split; [exact Hr |]. split; [exact Hid |].
      intros o rel t ru n ->. discriminate.
    - intros e rel why seen id t gt x seen' Hid _ _ Ht Hb Hs IH Hr.
      pose proof (node_rewrites E P es _ _ _ _ Ht Hb) as Hw.
      destruct IH as [Hex Hts]; [intros ru m Ho Hy; eapply un_step; eauto |].
      intros i Hi. destruct (Hex i Hi) as [[<- |] | Hx]; [| auto | auto].
      right. exists (NSet (Some e) rel). split; [exact Hr |]. split; [exact Hid |].
      intros o rel' t' ru n [= <- <-] Hw' Ho Hy. assert (t' = t) as -> by (eapply rewrites_unique; eauto). eapply Hts; eauto.
    - intros r e rel ns seen b ps seen' He _ IH Hr. destruct IH as [Hex Hns].
      + intros n Hin. apply (Hr r n); [constructor |]. eapply evaluate_yields; eauto.
      + split; [exact Hex |]. intros ru n Ho Hy. inversion Ho; subst. apply Hns. eapply evaluate_yields; eauto.
    - intros l r e rel seen x seen' y Hl _ Hres. destruct (Nt _ _ _ _ _ _ Hl Hres).
    - intros l r e rel seen x seen1 y seen2 _ IHl _ Hs IHr Hr. eapply Hboth; eauto. discriminate.
    - intros l r e rel seen x seen' y _ IHl _ _ Hr. destruct IHl as [H1 H2]; [intros ru n Ho; apply Hr, td_left, Ho |].
      split; [exact H1 |]. intros ru n Ho Hy. inversion Ho; subst; [eauto | congruence].
    - intros l r e rel seen x seen1 y seen2 Hl _ Hres. destruct (Nt _ _ _ _ _ _ Hl Hres).
    - intros l r e rel seen x seen1 y seen2 _ IHl Hs IHr Hr. eapply Hboth; eauto. discriminate.
    - intros why seen _. split; [intros i Hi; auto | intros n []].
    - intros why n ns seen x seen' Hx _ Hres. destruct (Np _ _ _ _ _ Hx Hres).
    - intros why n ns seen x seen1 b ps seen2 Hx IHx _ Hs IHs Hr.
      assert (Hex1 : unfolded seen seen1) by (apply IHx, Hr; left; reflexivity).
      destruct IHs as [Hex2 Hns]; [intros m Hm; apply Hr; right; exact Hm |].
      pose proof (Go _ _ _ _ _ _ Hs) as Hi. split; [eapply unfolded_trans; eauto |].
      intros m [<- | Hm]; [| auto]. destruct (Gp _ _ _ _ _ Hx) as [_ (id & Hid & Hin)]. exists id. auto.
  Qed.

  (** A search without goal evaluates exactly the unfolded nodes, whatever the operators. *)
  Theorem expand_visits why x seen' : distinct_ids E P succ origin -> spath E P es GoalNone origin why [] x seen' ->
    forall n, In n (evaluated x) <-> un n.
  Proof.
    intros Hd Hs n. split.
    { intros Hn. eapply (proj1 visited_unfolds); eauto. apply un_here. }
    destruct (proj1 (search_evaluated E P es GoalNone) _ _ _ _ _ Hs) as (ids & Hids & Hp & Hnd). rewrite app_nil_r in Hp.
    assert (Hex : unfolded [] seen') by (eapply (proj1 visits_all); [exact Hs | apply un_here]).
    assert (Hback : forall m id, un m -> node_id E m = Ok id -> In id seen' -> In m (evaluated x)).
    { intros m id Hm Hid Hin. apply (Permutation_in _ Hp) in Hin.
      destruct (with_ids_back _ _ _ _ Hids Hin) as (m' & Hm' & Hid').
      assert (m = m') as ->; [| exact Hm']. apply Hd; [apply unfolds_reach; exact Hm | | apply node_id_text in Hid, Hid'; congruence].
      apply unfolds_reach. eapply (proj1 visited_unfolds); eauto. apply un_here. }
    intros Hr. induction Hr as [| o rel t ru n Hu IH Hw Ht Hy].
    - destruct (proj1 (seen_grows E P es GoalNone) _ _ _ _ _ Hs) as [_ (id & Hid & Hin)]. eapply Hback; eauto. apply un_here.
    - assert (Hid : exists id, node_id E (NSet (Some o) rel) = Ok id) by (eexists; reflexivity).
      destruct Hid as [id Hid]. pose proof (with_ids_in _ _ _ _ _ Hids IH Hid) as Hin.
      apply (Permutation_in _ (Permutation_sym Hp)) in Hin.
      destruct (Hex id Hin) as [[] | (y & Hy' & Hid' & Hall)].
      assert (NSet (Some o) rel = y) as <- by (apply Hd; [apply unfolds_reach; exact Hu | apply unfolds_reach; exact Hy' | apply node_id_text in Hid, Hid'; congruence]).
      destruct (Hall o rel t ru n eq_refl Hw Ht Hy) as (idn & Hidn & Hinn). eapply Hback; eauto. eapply un_step; eauto.
  Qed.

  Variable a : entity.

  (** A search that succeeds has found its goal at an unfolded node. *)
  Lemma found_unfolds :
    (forall nd why seen x seen', spath E P es (GoalEntity (Some a)) nd why seen x seen' -> un nd -> get_result x = RSuccess ->
      exists n, un n /\ goal_found n (GoalEntity (Some a)) = Ok true) /\
    (forall t e rel seen x seen', stree E P es (GoalEntity (Some a)) t e rel seen x seen' ->
      (forall ru n, tried ru t -> yields succ ru e rel n -> un n) -> get_result x = RSuccess ->
      exists n, un n /\ goal_found n (GoalEntity (Some a)) = Ok true) /\
    (forall why ns seen b ps seen', sor E P es (GoalEntity (Some a)) why ns seen b ps seen' ->
      (forall n, In n ns -> un n) -> b = true -> exists n, un n /\ goal_found n (GoalEntity (Some a)) = Ok true).
  Proof.
    apply search_ind; cbn [get_result]; try discriminate.
    - intros nd why seen id _ _ Hf Hr _. eauto.
    - intros e rel why seen id t gt x seen' _ _ _ Ht Hb Hs IH Hr Hres.
      pose proof (node_rewrites E P es _ _ _ _ Ht Hb) as Hw. apply IH; [| exact Hres]. intros ru m Ho Hy. eapply un_step; eauto.
    - intros r e rel ns seen b ps seen' He _ IH Hr Hres. apply IH; [| destruct b; [reflexivity | discriminate]].
      intros n Hin. apply (Hr r); [constructor |]. eapply evaluate_yields; eauto.
    - intros l r e rel seen x seen' y _ IH Hres _ Hr _. apply IH; [| exact Hres]. intros ru n Ho. apply Hr, td_left, Ho.
    - intros l r e rel seen x seen1 y seen2 _ _ _ _ IH Hr Hres. apply IH; [| exact Hres]. intros ru n Ho. apply Hr, td_right; [discriminate | exact Ho].
    - intros l r e rel seen x seen1 y seen2 _ IH Hres _ _ Hr _. apply IH; [| exact Hres]. intros ru n Ho. apply Hr, td_left, Ho.
    - intros l r e rel seen x seen1 y seen2 _ IH _ _ Hr Hres. apply IH; [intros ru n Ho; apply Hr, td_left, Ho |].
      apply is_success_iff. destruct (is_success (get_result x)); [reflexivity | discriminate].
    - intros why n ns seen x seen' _ IH Hres Hr _. apply IH; [apply Hr; left; reflexivity | exact Hres].
    - intros why n ns seen x seen1 b ps seen2 _ _ _ _ IH Hr Hb. apply IH; [| exact Hb]. intros m Hm. apply Hr. right. exact Hm.
  Qed.
End Visit.

(** In a policy of unions, reaching a node of the subject is membership. *)
Lemma reach_member E P succ a o rel x : union_only E P -> reach E P succ (NSet (Some o) rel) x ->
  x = NEntity (Some a) \/ x = NWild (e_res a) -> member E P succ a o rel.
Proof.
  intros Hun Hr Hx. set (good := fun M n => match n with NSet (Some o) rel => M o rel | NEntity (Some e) => e = a | NWild r => r = e_res a | _ => False end : Prop).
  intros M HM. assert (H : good M x) by (destruct Hx as [-> | ->]; reflexivity). clear Hx.
  change (good M (NSet (Some o) rel)). induction Hr as [| y z Hy IH Hl]; [exact H |]. apply IH. clear IH Hy.
  destruct Hl as [o1 rel1 t ru n Hw Ho Hyl]. cbn. apply (HM o1 rel1 t Hw).
  assert (Hut : forall op, uses op t -> op = OpUnion) by (intros op Hop; apply Hun; destruct Hw as (l & Hl & _ & Hx); exists (e_res o1), l, t; auto).
  assert (Hru : eval succ a M o1 rel1 (TRule ru)).
  { destruct Hyl as [o1 rel1 u Hu | o1 rel1 c | o1 rel1 ts cu u Hu]; cbn.
    - exists u. split; [exact Hu |]. destruct u as [e | [e |] r | r |]; cbn in *; auto.
    - exact H.
    - destruct (subject_object u) as [o' |] eqn:Hu'; [| destruct H]. exists u, o'. auto. }
  clear -Ho Hut Hru. induction Ho as [| l op r Ho IH | l op r Ho IH]; [exact Hru | |]; rewrite (Hut op (us_here op _ _)) in *; cbn.
  - left. apply IH. intros op' Hop. apply Hut, us_left, Hop.
  - right. apply IH. intros op' Hop. apply Hut, us_right, Hop.
Qed.
