(** Termination of the search, the fuel it needs, what it depends on, and when it cannot fail. *)
From Verif Require Import Base Domain Lexer Parser Validate Store Search SearchRun BaseFacts SpecGrammar ParserFacts SpecPolicy SpecStore SpecSearch ValidateFacts SearchFacts SearchSem.

(** All paths of a tree that are not expanded yet satisfy [Q]. *)
Fixpoint paths_in (Q : rnode -> Prop) (t : gtree) : Prop :=
  match t with
  | GOr _ ps | GAnd _ ps =>
      (fix all (ps : list gtree) : Prop := match ps with [] => True | p :: ps' => paths_in Q p /\ all ps' end) ps
  | GDiff _ l r => paths_in Q l /\ paths_in Q r
  | GPath _ n _ _ => Q n
  end.

Lemma paths_in_all Q ps :
  (fix all (ps : list gtree) : Prop := match ps with [] => True | p :: ps' => paths_in Q p /\ all ps' end) ps <->
  Forall (paths_in Q) ps.
Proof.
  induction ps as [| p ps IH]; [split; constructor |]. rewrite IH. split.
  - intros [H1 H2]. constructor; auto.
  - intros H. inversion H; auto.
Qed.

Lemma build_tree_paths E es (Q : rnode -> Prop) o rel : forall t gt, build_goal_tree E es t o rel = Ok gt ->
  (forall ru ns n, occurs ru t -> evaluate E es ru o rel = Ok ns -> In n ns -> Q n) -> paths_in Q gt.
Proof.
  intros t. induction t as [| | r | l IHl op r IHr]; intros gt H HQ; try discriminate.
  - cbn in H. unfold build_goal_for_rule in H. destruct (evaluate E es r o rel) as [ns | | |] eqn:He; try discriminate.
    injection H as <-. cbn [paths_in]. apply paths_in_all. apply Forall_forall. intros p Hp.
    apply in_map_iff in Hp as (n & <- & Hn). cbn. eapply HQ; eauto. constructor.
  - cbn in H. destruct (build_goal_tree E es l o rel) as [a | | |]; try discriminate.
    destruct (build_goal_tree E es r o rel) as [b | | |]; try discriminate. cbn in H.
    assert (paths_in Q a) by (apply IHl; [reflexivity |]; intros; eapply HQ; eauto using occ_left).
    assert (paths_in Q b) by (apply IHr; [reflexivity |]; intros; eapply HQ; eauto using occ_right).
    destruct op; try discriminate; injection H as <-; cbn; auto.
Qed.

(** ** Two searchPath functions that agree *)

Lemma search_tree_agree (Q : rnode -> Prop) sp sp' :
  (forall nd why seen, Q nd -> sp nd why seen <> Fuel -> sp' nd why seen = sp nd why seen) ->
  forall t seen, paths_in Q t -> search_tree sp t seen <> Fuel -> search_tree sp' t seen = search_tree sp t seen.
Proof.
  intros Hsp t. induction t as [r ps IH | r ps IH | r x y IHx IHy | r n t why IH] using gtree_ind2; intros seen Hq Hf.
  - cbn [search_tree] in *. cbn in Hq. apply paths_in_all in Hq.
    assert (Hl : or_loop (search_tree sp') ps seen = or_loop (search_tree sp) ps seen); [| rewrite Hl; reflexivity].
    assert (Hf' : or_loop (search_tree sp) ps seen <> Fuel) by (intros H; rewrite H in Hf; apply Hf; reflexivity).
    clear Hf. revert seen Hf'. induction IH as [| p ps Hp Hps IH]; intros seen Hf; [reflexivity |].
    inversion Hq; subst. cbn in *.
    assert (Hn : search_tree sp p seen <> Fuel) by (intros H; rewrite H in Hf; apply Hf; reflexivity).
    rewrite (Hp seen) by assumption. destruct (search_tree sp p seen) as [[x seen1] | | |]; try reflexivity. cbn [bind fst snd] in *.
    destruct (is_success (get_result x)); [reflexivity |]. rewrite IH; [reflexivity | assumption |].
    intros H. rewrite H in Hf. apply Hf. reflexivity.
  - cbn [search_tree] in *. cbn in Hq. apply paths_in_all in Hq.
    assert (Hl : and_loop (search_tree sp') ps seen = and_loop (search_tree sp) ps seen); [| rewrite Hl; reflexivity].
    assert (Hf' : and_loop (search_tree sp) ps seen <> Fuel) by (intros H; rewrite H in Hf; apply Hf; reflexivity).
    clear Hf. revert seen Hf'. induction IH as [| p ps Hp Hps IH]; intros seen Hf; [reflexivity |].
    inversion Hq; subst. cbn in *.
    assert (Hn : search_tree sp p seen <> Fuel) by (intros H; rewrite H in Hf; apply Hf; reflexivity).
    rewrite (Hp seen) by assumption. destruct (search_tree sp p seen) as [[x seen1] | | |]; try reflexivity. cbn [bind fst snd] in *.
    destruct (is_failure (get_result x)); [reflexivity |]. rewrite IH; [reflexivity | assumption |].
    intros H. rewrite H in Hf. apply Hf. reflexivity.
  - cbn [search_tree] in *. destruct Hq as [Hqx Hqy].
    assert (Hn : search_tree sp x seen <> Fuel) by (intros H; rewrite H in Hf; apply Hf; reflexivity).
    rewrite IHx by assumption. destruct (search_tree sp x seen) as [[x' seen1] | | |]; try reflexivity. cbn [bind fst snd] in *.
    rewrite IHy; [reflexivity | assumption |]. intros H. rewrite H in Hf. apply Hf. reflexivity.
  - cbn in *. auto.
Qed.

(** ** Building trees *)

Lemma get_successors_some E es o rel : exists ns, get_successors E es (Some o) rel = Ok ns.
Proof. eexists. reflexivity. Qed.

Lemma evaluate_no_fuel E es r o rel : evaluate E es r o rel <> Fuel.
Proof.
  destruct r as [| c | ts cu |]; cbn [evaluate]; try discriminate.
  - destruct o; discriminate.
  - destruct o as [e |]; [| discriminate]. destruct (get_successors_some E es e ts) as [ns Hns]. rewrite Hns.
    cbn [bind]. clear Hns. induction ns as [| n ns IH]; cbn; [discriminate |].
    destruct n; cbn; try discriminate; destruct (map_res (build_ttu_node cu) ns); cbn; congruence.
Qed.

Lemma build_no_fuel E P es nd : build E P es nd <> Fuel.
Proof.
  destruct nd as [[e |] rel | | |]; cbn; try discriminate.
  destruct (lut_get_relation P (e_res e) rel) as [l |]; [| discriminate].
  unfold get_expression_tree. destruct (rl_expr l) as [[s | t |] |]; cbn; try discriminate.
  - assert (H : forall t, build_goal_tree E es t (Some e) rel <> Fuel).
    2:{ destruct (parse_returns E s) as [[t ->] | [-> | [x ->]]]; cbn; auto; discriminate. }
    intros t. induction t as [| | r | a IHa op b IHb]; cbn; try discriminate.
    + unfold build_goal_for_rule. pose proof (evaluate_no_fuel E es r (Some e) rel).
      destruct (evaluate E es r (Some e) rel); cbn; congruence.
    + destruct (build_goal_tree E es a (Some e) rel); cbn; try congruence.
      destruct (build_goal_tree E es b (Some e) rel); cbn; try congruence. destruct op; discriminate.
  - induction t as [| | r | a IHa op b IHb]; cbn; try discriminate.
    + unfold build_goal_for_rule. pose proof (evaluate_no_fuel E es r (Some e) rel).
      destruct (evaluate E es r (Some e) rel); cbn; congruence.
    + destruct (build_goal_tree E es a (Some e) rel); cbn; try congruence.
      destruct (build_goal_tree E es b (Some e) rel); cbn; try congruence. destruct op; discriminate.
Qed.

Section Graph.
  Variable E : env.
  Variable P : policy.
  Variable es : list ((string * string) * edge).
  Variable g : goal.

  Lemma search_path_S n nd why seen : search_path E P es g (S n) nd why seen =
    let* id := node_id E nd in
    if existsb (String.eqb id) seen then Ok (GPath RUnknown nd None why, seen)
    else
      let* found := goal_found nd g in
      if found || is_terminal nd then Ok (GPath (conditional found) nd None why, id :: seen)
      else
        let* t := build E P es nd in
        let* x := search_tree (search_path E P es g n) t (id :: seen) in
        Ok (GPath (get_result (fst x)) nd (Some (fst x)) why, snd x).
  Proof. reflexivity. Qed.

  Lemma search_path_more : forall n nd why seen, search_path E P es g n nd why seen <> Fuel ->
    search_path E P es g (S n) nd why seen = search_path E P es g n nd why seen.
  Proof.
    intros n. induction n as [| n IH]; intros nd why seen Hf; [exfalso; apply Hf; reflexivity |].
    rewrite (search_path_S (S n)), (search_path_S n). rewrite search_path_S in Hf.
    destruct (node_id E nd) as [id | | |]; try reflexivity. cbn [bind] in *.
    destruct (existsb (String.eqb id) seen); [reflexivity |].
    destruct (goal_found nd g) as [f | | |]; try reflexivity. cbn [bind] in *.
    destruct (f || is_terminal nd); [reflexivity |].
    destruct (build E P es nd) as [t | | |]; try reflexivity. cbn [bind] in *.
    rewrite (search_tree_agree (fun _ => True) (search_path E P es g n) (search_path E P es g (S n))); [reflexivity | | |].
    - intros nd' why' seen' _ H. apply IH. exact H.
    - clear. induction t as [r ps IH | r ps IH | r x y IHx IHy | r n t why IH] using gtree_ind2; cbn; auto;
        apply paths_in_all; exact IH.
    - intros H. rewrite H in Hf. apply Hf. reflexivity.
  Qed.

  Lemma search_path_mono n m nd why seen : n <= m -> search_path E P es g n nd why seen <> Fuel ->
    search_path E P es g m nd why seen = search_path E P es g n nd why seen.
  Proof.
    intros Hle Hf. induction Hle as [| m Hle IH]; [reflexivity |].
    rewrite search_path_more; [exact IH | rewrite IH; exact Hf].
  Qed.

  (** ** Termination *)

  Variable Q : rnode -> Prop.
  Variable U : list string.
  Hypothesis HU : forall nd id, Q nd -> node_id E nd = Ok id -> In id U.
  Hypothesis HQ : forall nd t, Q nd -> build E P es nd = Ok t -> paths_in Q t.

  Definition unseen (seen : list string) : nat :=
    length (filter (fun id => negb (existsb (String.eqb id) seen)) U).

  Lemma unseen_incl seen seen' : incl seen seen' -> unseen seen' <= unseen seen.
  Proof.
    intros Hi. unfold unseen. clear HU. induction U as [| u V IH]; [apply le_n |]. cbn [filter].
    destruct (existsb (String.eqb u) seen) eqn:H1, (existsb (String.eqb u) seen') eqn:H2; cbn [negb length]; try lia.
    apply existsb_in in H1. apply existsb_not_in in H2. exfalso. auto.
  Qed.

  Lemma unseen_cons id seen : In id U -> ~ In id seen -> unseen (id :: seen) < unseen seen.
  Proof.
    intros Hin Hn. unfold unseen. clear HU. induction U as [| u V IH]; [contradiction |].
    assert (Hle : forall W, length (filter (fun i => negb (existsb (String.eqb i) (id :: seen))) W) <=
                            length (filter (fun i => negb (existsb (String.eqb i) seen)) W)).
    { intros W. induction W as [| w W IHW]; [apply le_n |]. cbn [filter].
      destruct (existsb (String.eqb w) seen) eqn:H1, (existsb (String.eqb w) (id :: seen)) eqn:H2; cbn [negb length]; try lia.
      apply existsb_in in H1. apply existsb_not_in in H2. exfalso. apply H2. right. exact H1. }
    cbn [filter]. destruct Hin as [-> | Hin].
    - assert (H1 : existsb (String.eqb id) (id :: seen) = true) by (apply existsb_in; left; reflexivity).
      assert (H2 : existsb (String.eqb id) seen = false) by (apply existsb_not_in; exact Hn).
      rewrite H1, H2. cbn [negb length]. specialize (Hle V). lia.
    - specialize (IH Hin). destruct (existsb (String.eqb u) seen) eqn:H1, (existsb (String.eqb u) (id :: seen)) eqn:H2; cbn [negb length]; try lia.
      apply existsb_in in H1. apply existsb_not_in in H2. exfalso. apply H2. right. exact H1.
  Qed.

  Definition grows (sp : rnode -> string -> list string -> res (gtree * list string)) : Prop :=
    forall nd why seen x, sp nd why seen = Ok x -> incl seen (snd x).

  Lemma search_tree_grows sp : grows sp -> forall t seen x, search_tree sp t seen = Ok x -> incl seen (snd x).
  Proof.
    intros Hg t. induction t as [r ps IH | r ps IH | r x y IHx IHy | r n t why IH] using gtree_ind2; intros seen z H.
    - cbn [search_tree] in H. destruct (or_loop (search_tree sp) ps seen) as [[[b qs] seen'] | | |] eqn:Hl; try discriminate.
      injection H as <-. cbn. revert seen b qs seen' Hl. induction IH as [| p ps Hp _ IH]; intros seen b qs seen' Hl; cbn in Hl.
      + injection Hl as _ _ <-. apply incl_refl.
      + destruct (search_tree sp p seen) as [[x seen1] | | |] eqn:Hx; try discriminate. cbn [bind fst snd] in Hl.
        apply Hp in Hx. cbn in Hx. destruct (is_success (get_result x)); [injection Hl as _ _ <-; exact Hx |].
        destruct (or_loop (search_tree sp) ps seen1) as [[[b' qs'] seen2] | | |] eqn:Hl'; try discriminate.
        injection Hl as _ _ <-. eapply incl_tran; [exact Hx | eapply IH; exact Hl'].
    - cbn [search_tree] in H. destruct (and_loop (search_tree sp) ps seen) as [[[b qs] seen'] | | |] eqn:Hl; try discriminate.
      injection H as <-. cbn. revert seen b qs seen' Hl. induction IH as [| p ps Hp _ IH]; intros seen b qs seen' Hl; cbn in Hl.
      + injection Hl as _ _ <-. apply incl_refl.
      + destruct (search_tree sp p seen) as [[x seen1] | | |] eqn:Hx; try discriminate. cbn [bind fst snd] in Hl.
        apply Hp in Hx. cbn in Hx. destruct (is_failure (get_result x)); [injection Hl as _ _ <-; exact Hx |].
        destruct (and_loop (search_tree sp) ps seen1) as [[[b' qs'] seen2] | | |] eqn:Hl'; try discriminate.
        injection Hl as _ _ <-. eapply incl_tran; [exact Hx | eapply IH; exact Hl'].
    - cbn [search_tree] in H. destruct (search_tree sp x seen) as [[x' seen1] | | |] eqn:Hx; try discriminate. cbn [bind fst snd] in H.
      destruct (search_tree sp y seen1) as [[y' seen2] | | |] eqn:Hy; try discriminate. injection H as <-.
      apply IHx in Hx. apply IHy in Hy. eapply incl_tran; eauto.
    - cbn in H. eapply Hg; eauto.
  Qed.

  Lemma search_path_grows : forall n, grows (search_path E P es g n).
  Proof.
    intros n. induction n as [| n IH]; intros nd why seen x H; [discriminate |]. cbn [search_path] in H.
    destruct (node_id E nd) as [id | | |]; try discriminate. cbn [bind] in H.
    destruct (existsb (String.eqb id) seen); [injection H as <-; apply incl_refl |].
    destruct (goal_found nd g) as [f | | |]; try discriminate. cbn [bind] in H.
    destruct (f || is_terminal nd); [injection H as <-; apply incl_tl, incl_refl |].
    destruct (build E P es nd) as [t | | |]; try discriminate. cbn [bind] in H.
    destruct (search_tree (search_path E P es g n) t (id :: seen)) as [[y seen1] | | |] eqn:Hy; try discriminate.
    injection H as <-. apply (search_tree_grows _ IH) in Hy. cbn in *. intros i Hi. apply Hy. right. exact Hi.
  Qed.

  Lemma search_tree_fuel sp : grows sp -> forall t seen, paths_in Q t ->
    (forall nd why seen', Q nd -> incl seen seen' -> sp nd why seen' <> Fuel) -> search_tree sp t seen <> Fuel.
  Proof.
    intros Hg t. induction t as [r ps IH | r ps IH | r x y IHx IHy | r n t why IH] using gtree_ind2; intros seen Hq Hsp.
    - cbn [search_tree]. cbn in Hq. apply paths_in_all in Hq.
      assert (Hl : or_loop (search_tree sp) ps seen <> Fuel).
      { clear r. revert seen Hsp. induction IH as [| p ps Hp _ IH]; intros seen Hsp; cbn; [discriminate |].
        inversion Hq; subst. specialize (Hp seen H1 Hsp).
        destruct (search_tree sp p seen) as [[x seen1] | | |] eqn:Hx; cbn [bind fst snd]; try congruence.
        destruct (is_success (get_result x)); [discriminate |].
        apply (search_tree_grows _ Hg) in Hx. cbn in Hx.
        specialize (IH H2 seen1 (fun nd why s Hn Hi => Hsp nd why s Hn (incl_tran Hx Hi))).
        destruct (or_loop (search_tree sp) ps seen1) as [[[b qs] seen2] | | |]; cbn; congruence. }
      destruct (or_loop (search_tree sp) ps seen) as [[[b qs] seen2] | | |]; cbn; congruence.
    - cbn [search_tree]. cbn in Hq. apply paths_in_all in Hq.
      assert (Hl : and_loop (search_tree sp) ps seen <> Fuel).
      { clear r. revert seen Hsp. induction IH as [| p ps Hp _ IH]; intros seen Hsp; cbn; [discriminate |].
        inversion Hq; subst. specialize (Hp seen H1 Hsp).
        destruct (search_tree sp p seen) as [[x seen1] | | |] eqn:Hx; cbn [bind fst snd]; try congruence.
        destruct (is_failure (get_result x)); [discriminate |].
        apply (search_tree_grows _ Hg) in Hx. cbn in Hx.
        specialize (IH H2 seen1 (fun nd why s Hn Hi => Hsp nd why s Hn (incl_tran Hx Hi))).
        destruct (and_loop (search_tree sp) ps seen1) as [[[b qs] seen2] | | |]; cbn; congruence. }
      destruct (and_loop (search_tree sp) ps seen) as [[[b qs] seen2] | | |]; cbn; congruence.
    - cbn [search_tree]. destruct Hq as [Hqx Hqy]. specialize (IHx seen Hqx Hsp).
      destruct (search_tree sp x seen) as [[x' seen1] | | |] eqn:Hx; cbn [bind fst snd]; try congruence.
      apply (search_tree_grows _ Hg) in Hx. cbn in Hx.
      specialize (IHy seen1 Hqy (fun nd why s Hn Hi => Hsp nd why s Hn (incl_tran Hx Hi))).
      destruct (search_tree sp y seen1) as [[y' seen2] | | |]; cbn; congruence.
    - cbn in *. apply Hsp; [exact Hq | apply incl_refl].
  Qed.

  Lemma search_path_fuel : forall n nd why seen, Q nd -> unseen seen < n -> search_path E P es g n nd why seen <> Fuel.
  Proof.
    intros n. induction n as [| n IH]; intros nd why seen Hq Hn; [lia |]. cbn [search_path].
    destruct (node_id E nd) as [id | | |] eqn:Hid; cbn [bind];
      try solve [destruct nd as [[] | [] | |]; cbn in Hid; discriminate].
    destruct (existsb (String.eqb id) seen) eqn:Hs; [discriminate |]. apply existsb_not_in in Hs.
    destruct (goal_found nd g) as [f | | |] eqn:Hf; cbn [bind]; try discriminate.
    2:{ destruct nd as [| [] | |], g as [| []]; cbn in Hf; discriminate. }
    destruct (f || is_terminal nd); [discriminate |].
    destruct (build E P es nd) as [t | | |] eqn:Hb; cbn [bind]; try discriminate.
    2:{ exfalso. eapply build_no_fuel; eauto. }
    assert (Hx : search_tree (search_path E P es g n) t (id :: seen) <> Fuel).
    { apply search_tree_fuel; [apply search_path_grows | eapply HQ; eauto |].
      intros nd' why' seen' Hq' Hi. apply IH; [exact Hq' |].
      apply unseen_incl in Hi. pose proof (unseen_cons id seen (HU _ _ Hq Hid) Hs). lia. }
    destruct (search_tree (search_path E P es g n) t (id :: seen)); cbn; congruence.
  Qed.
End Graph.

(** ** The nodes a search can meet *)

Definition node_object (n : rnode) : list entity :=
  match n with
  | NSet (Some o) _ => [o]
  | NEntity (Some o) => [o]
  | _ => []
  end.

Definition node_relation (n : rnode) : list string := match n with NSet _ rel => [rel] | _ => [] end.

Definition rule_names (r : rule) : list string :=
  match r with
  | RCu c => [c]
  | RTtu _ cu => [cu]
  | RThis | RUnset => []
  end.

Fixpoint tree_names (t : tree) : list string :=
  match t with
  | TNil | TUnset => []
  | TRule r => rule_names r
  | TOp l _ r => tree_names l ++ tree_names r
  end.

Lemma tree_names_occurs ru t x : occurs ru t -> In x (rule_names ru) -> In x (tree_names t).
Proof. induction 1; cbn; auto; intros Hx; apply in_app_iff; auto. Qed.

Section Universe.
  Variable E : env.
  Variable P : policy.
  Variable es : list ((string * string) * edge).
  Variable origin : rnode.

  Definition seeds : list rnode := origin :: map (fun x => to_public_node (ed_dst (snd x))) es.
  Definition objects : list entity := flat_map node_object seeds.
  Definition names : list string :=
    flat_map node_relation seeds ++
    flat_map (fun x => match get_expression_tree E (snd x) with Ok t => tree_names t | _ => [] end) (lut_relations P).

  Definition universe (n : rnode) : Prop :=
    match n with
    | NSet (Some o) rel => In o objects /\ In rel names
    | NEntity (Some o) => In o objects
    | NWild rs => In (NWild rs) seeds
    | NSet None _ | NEntity None | NUnset => True
    end.

  Definition universe_ids : list string :=
    sha E "" ::
    flat_map (fun o => sha E (id_text (NEntity (Some o))) :: map (fun r => sha E (id_text (NSet (Some o) r))) names) objects ++
    map (fun n => sha E (id_text n)) seeds.

  Definition search_bound : nat := S (length universe_ids).

  Lemma seeds_universe n : In n seeds -> universe n.
  Proof.
    intros H. destruct n as [[o |] rel | [o |] | rs |]; cbn [universe]; auto.
    - split.
      + apply in_flat_map. exists (NSet (Some o) rel). split; [exact H | left; reflexivity].
      + apply in_app_iff. left. apply in_flat_map. exists (NSet (Some o) rel). split; [exact H | left; reflexivity].
    - apply in_flat_map. exists (NEntity (Some o)). split; [exact H | left; reflexivity].
  Qed.

  Lemma universe_id nd id : universe nd -> node_id E nd = Ok id -> In id universe_ids.
  Proof.
    intros H Hid. pose proof (node_id_text _ _ _ Hid) as ->. unfold universe_ids.
    destruct nd as [[o |] rel | [o |] | rs |]; cbn in Hid; try discriminate.
    - right. apply in_app_iff. left. destruct H as [Ho Hr]. apply in_flat_map. exists o. split; [exact Ho |].
      right. apply in_map_iff. exists rel. auto.
    - right. apply in_app_iff. left. apply in_flat_map. exists o. split; [exact H | left; reflexivity].
    - right. apply in_app_iff. right. apply in_map_iff. exists (NWild rs). auto.
    - left. reflexivity.
  Qed.

  Lemma successors_seeds o rel ns n : get_successors E es o rel = Ok ns -> In n ns -> In n seeds.
  Proof.
    unfold get_successors. destruct (from_public_node (NSet o rel)); try discriminate. cbn. intros [= <-] H.
    right. apply in_map_iff in H as (x & <- & Hx). apply filter_In in Hx as [Hx _]. apply in_map_iff. eauto.
  Qed.

  Lemma universe_build nd t : universe nd -> build E P es nd = Ok t -> paths_in universe t.
  Proof.
    intros H Hb. destruct nd as [[e |] rel | o | rs |]; cbn [build handle_entity_set] in Hb; try discriminate.
    - destruct (lut_get_relation P (e_res e) rel) as [l |] eqn:Hl; try discriminate.
      destruct (get_expression_tree E l) as [tr | | |] eqn:Hx; try discriminate. cbn [bind] in Hb.
      assert (Hn : forall x, In x (tree_names tr) -> In x names).
      { intros x Hin. apply in_app_iff. right. apply in_flat_map.
        apply lut_relation_some in Hl as [H1 H2]. exists ((e_res e, rel), l). split; [apply lut_relations_in; auto |].
        cbn [snd]. rewrite Hx. exact Hin. }
      eapply build_tree_paths; [exact Hb |]. intros ru ns n Ho He Hin.
      destruct ru as [| c | ts cu |]; cbn [evaluate] in He; try discriminate.
      + apply seeds_universe. eapply successors_seeds; eauto.
      + injection He as <-. destruct Hin as [<- | []]. destruct H as [Ho' _]. split; [exact Ho' |].
        apply Hn. eapply tree_names_occurs; [exact Ho | left; reflexivity].
      + destruct (get_successors E es (Some e) ts) as [ns' | | |] eqn:Hs; try discriminate. cbn [bind] in He.
        apply (map_res_in _ _ _ He) in Hin as (x & Hx' & Hb').
        apply (successors_seeds _ _ _ _ Hs) in Hx'. apply seeds_universe in Hx'.
        assert (Hcu : In cu names) by (apply Hn; eapply tree_names_occurs; [exact Ho | left; reflexivity]).
        destruct x as [[o |] r | [o |] | rs |]; cbn in Hb'; try discriminate; injection Hb' as <-; cbn in *; tauto.
    - injection Hb as <-. exact H.
    - injection Hb as <-. exact H.
  Qed.

  (** The search ends within [search_bound] levels, with the same result for every greater bound. *)
  Theorem search_terminates g n : search_bound <= n ->
    search E P es n origin g <> Fuel /\ search E P es n origin g = search E P es search_bound origin g.
  Proof.
    intros Hn. unfold search.
    assert (Hf : search_path E P es g search_bound origin "Request" [] <> Fuel).
    { apply search_path_fuel with (Q := universe) (U := universe_ids);
        [exact universe_id | exact universe_build | apply seeds_universe; left; reflexivity |].
      unfold search_bound, unseen. apply le_n_S.
      generalize universe_ids. intros l. induction l as [| x l IH]; cbn; [apply le_n |]. apply le_n_S. exact IH. }
    rewrite (search_path_mono E P es g search_bound n) by assumption.
    split; [| reflexivity]. destruct (search_path E P es g search_bound origin "Request" []); cbn; congruence.
  Qed.
End Universe.

(** ** What the search depends on *)

Section Depend.
  Variable E : env.
  Variable P : policy.
  Variable es es' : list ((string * string) * edge).
  Variable g : goal.
  Variable Q : rnode -> Prop.
  Hypothesis HQ : forall nd t, Q nd -> build E P es nd = Ok t -> paths_in Q t.
  Hypothesis Hsame : forall nd, Q nd -> build E P es' nd = build E P es nd.

  (** Same as [search_tree_agree], without regard to fuel. *)
  Lemma search_tree_same sp sp' : (forall nd why seen, Q nd -> sp' nd why seen = sp nd why seen) ->
    forall t seen, paths_in Q t -> search_tree sp' t seen = search_tree sp t seen.
  Proof.
    intros Hsp t. induction t as [r ps IH | r ps IH | r x y IHx IHy | r n t why IH] using gtree_ind2; intros seen Hq.
    - cbn [search_tree]. cbn in Hq. apply paths_in_all in Hq.
      assert (Hl : or_loop (search_tree sp') ps seen = or_loop (search_tree sp) ps seen); [| rewrite Hl; reflexivity].
      revert seen. induction IH as [| p ps Hp Hps IH]; intros seen; [reflexivity |].
      inversion Hq; subst. cbn. rewrite (Hp seen) by assumption.
      destruct (search_tree sp p seen) as [[x seen1] | | |]; try reflexivity. cbn [bind fst snd].
      destruct (is_success (get_result x)); [reflexivity |]. rewrite IH by assumption. reflexivity.
    - cbn [search_tree]. cbn in Hq. apply paths_in_all in Hq.
      assert (Hl : and_loop (search_tree sp') ps seen = and_loop (search_tree sp) ps seen); [| rewrite Hl; reflexivity].
      revert seen. induction IH as [| p ps Hp Hps IH]; intros seen; [reflexivity |].
      inversion Hq; subst. cbn. rewrite (Hp seen) by assumption.
      destruct (search_tree sp p seen) as [[x seen1] | | |]; try reflexivity. cbn [bind fst snd].
      destruct (is_failure (get_result x)); [reflexivity |]. rewrite IH by assumption. reflexivity.
    - cbn [search_tree]. destruct Hq as [Hqx Hqy]. rewrite IHx by assumption.
      destruct (search_tree sp x seen) as [[x' seen1] | | |]; try reflexivity. cbn [bind fst snd].
      rewrite IHy by assumption. reflexivity.
    - cbn in *. auto.
  Qed.

  Lemma search_path_same : forall n nd why seen, Q nd ->
    search_path E P es' g n nd why seen = search_path E P es g n nd why seen.
  Proof.
    intros n. induction n as [| n IH]; intros nd why seen Hq; [reflexivity |]. cbn [search_path].
    destruct (node_id E nd) as [id | | |]; try reflexivity. cbn [bind].
    destruct (existsb (String.eqb id) seen); [reflexivity |].
    destruct (goal_found nd g) as [f | | |]; try reflexivity. cbn [bind].
    destruct (f || is_terminal nd); [reflexivity |]. rewrite Hsame by exact Hq.
    destruct (build E P es nd) as [t | | |] eqn:Hb; try reflexivity. cbn [bind].
    rewrite (search_tree_same (search_path E P es g n)); [reflexivity | exact IH | eapply HQ; eauto].
  Qed.

  Lemma search_same n nd : Q nd -> search E P es' n nd g = search E P es n nd g.
  Proof. intros Hq. unfold search. rewrite search_path_same by exact Hq. reflexivity. Qed.
End Depend.

(** ** When the search cannot fail *)

Section Safe.
  Variable E : env.
  Variable P : policy.
  Variable es : list ((string * string) * edge).
  Variable g : goal.
  Variable Q : rnode -> Prop.
  Hypothesis HQ : forall nd t, Q nd -> build E P es nd = Ok t -> paths_in Q t.
  Hypothesis Hid : forall nd, Q nd -> exists id, node_id E nd = Ok id.
  Hypothesis Hgoal : forall nd, Q nd -> exists b, goal_found nd g = Ok b.
  Hypothesis Hbuild : forall nd, Q nd -> is_terminal nd = false -> exists t, build E P es nd = Ok t.

  Definition safe {A} (x : res A) : Prop := x = Fuel \/ exists y, x = Ok y.

  Lemma search_tree_safe sp : (forall nd why seen, Q nd -> safe (sp nd why seen)) ->
    forall t seen, paths_in Q t -> safe (search_tree sp t seen).
  Proof.
    intros Hsp t. unfold safe in *.
    induction t as [r ps IH | r ps IH | r x y IHx IHy | r n t why IH] using gtree_ind2; intros seen Hq.
    - cbn [search_tree]. cbn in Hq. apply paths_in_all in Hq.
      assert (Hl : or_loop (search_tree sp) ps seen = Fuel \/ exists y, or_loop (search_tree sp) ps seen = Ok y).
      2:{ destruct Hl as [-> | [[[b qs] s] ->]]; cbn; eauto. }
      revert seen. induction IH as [| p ps Hp Hps IH]; intros seen; [cbn; eauto |].
      inversion Hq; subst. cbn. destruct (Hp seen) as [-> | [[x s1] ->]]; cbn; eauto.
      destruct (is_success (get_result x)); eauto. specialize (IH H2 s1).
      destruct IH as [-> | [[[b qs] s2] ->]]; cbn; eauto.
    - cbn [search_tree]. cbn in Hq. apply paths_in_all in Hq.
      assert (Hl : and_loop (search_tree sp) ps seen = Fuel \/ exists y, and_loop (search_tree sp) ps seen = Ok y).
      2:{ destruct Hl as [-> | [[[b qs] s] ->]]; cbn; eauto. }
      revert seen. induction IH as [| p ps Hp Hps IH]; intros seen; [cbn; eauto |].
      inversion Hq; subst. cbn. destruct (Hp seen) as [-> | [[x s1] ->]]; cbn; eauto.
      destruct (is_failure (get_result x)); eauto. specialize (IH H2 s1).
      destruct IH as [-> | [[[b qs] s2] ->]]; cbn; eauto.
    - cbn [search_tree]. destruct Hq as [Hqx Hqy]. destruct (IHx seen Hqx) as [-> | [[x' s1] ->]]; cbn; eauto.
      destruct (IHy s1 Hqy) as [-> | [[y' s2] ->]]; cbn; eauto.
    - cbn in *. auto.
  Qed.

  Lemma search_path_safe : forall n nd why seen, Q nd -> safe (search_path E P es g n nd why seen).
  Proof.
    intros n. induction n as [| n IH]; intros nd why seen Hq; [left; reflexivity |]. cbn [search_path].
    destruct (Hid nd Hq) as [id ->]. cbn [bind].
    destruct (existsb (String.eqb id) seen); [right; eauto |].
    destruct (Hgoal nd Hq) as [b ->]. cbn [bind]. destruct b; cbn [orb]; [right; eauto |].
    destruct (is_terminal nd) eqn:Ht; [right; eauto |].
    destruct (Hbuild nd Hq Ht) as [t Hb]. rewrite Hb. cbn [bind].
    destruct (search_tree_safe (search_path E P es g n) (fun nd why seen H => IH nd why seen H) t (id :: seen)) as [-> | [[x s] ->]];
      cbn; [eapply HQ; eauto | left; reflexivity | right; eauto].
  Qed.
End Safe.

Section NoPanic.
  Variable E : env.
  Variable P : policy.
  Variable es : list ((string * string) * edge).
  Variable g : goal.
  Variable Q : rnode -> Prop.
  Hypothesis HQ : forall nd t, Q nd -> build E P es nd = Ok t -> paths_in Q t.
  Hypothesis Hid : forall nd, Q nd -> node_id E nd <> Panic.
  Hypothesis Hgoal : forall nd, Q nd -> goal_found nd g <> Panic.
  Hypothesis Hbuild : forall nd, Q nd -> build E P es nd <> Panic.

  Lemma search_tree_no_panic sp : (forall nd why seen, Q nd -> sp nd why seen <> Panic) ->
    forall t seen, paths_in Q t -> search_tree sp t seen <> Panic.
  Proof.
    intros Hsp t.
    induction t as [r ps IH | r ps IH | r x y IHx IHy | r n t why IH] using gtree_ind2; intros seen Hq.
    - cbn [search_tree]. cbn in Hq. apply paths_in_all in Hq.
      assert (Hl : or_loop (search_tree sp) ps seen <> Panic).
      2:{ destruct (or_loop (search_tree sp) ps seen) as [[[b qs] s] | | |]; cbn; congruence. }
      revert seen. induction IH as [| p ps Hp Hps IH]; intros seen; [discriminate |].
      inversion Hq; subst. cbn. specialize (Hp seen H1).
      destruct (search_tree sp p seen) as [[x s1] | | |]; cbn; try congruence.
      destruct (is_success (get_result x)); [discriminate |]. specialize (IH H2 s1).
      destruct (or_loop (search_tree sp) ps s1) as [[[b qs] s2] | | |]; cbn; congruence.
    - cbn [search_tree]. cbn in Hq. apply paths_in_all in Hq.
      assert (Hl : and_loop (search_tree sp) ps seen <> Panic).
      2:{ destruct (and_loop (search_tree sp) ps seen) as [[[b qs] s] | | |]; cbn; congruence. }
      revert seen. induction IH as [| p ps Hp Hps IH]; intros seen; [discriminate |].
      inversion Hq; subst. cbn. specialize (Hp seen H1).
      destruct (search_tree sp p seen) as [[x s1] | | |]; cbn; try congruence.
      destruct (is_failure (get_result x)); [discriminate |]. specialize (IH H2 s1).
      destruct (and_loop (search_tree sp) ps s1) as [[[b qs] s2] | | |]; cbn; congruence.
    - cbn [search_tree]. destruct Hq as [Hqx Hqy]. specialize (IHx seen Hqx).
      destruct (search_tree sp x seen) as [[x' s1] | | |]; cbn; try congruence. specialize (IHy s1 Hqy).
      destruct (search_tree sp y s1) as [[y' s2] | | |]; cbn; congruence.
    - cbn in *. auto.
  Qed.

  Lemma search_path_no_panic : forall n nd why seen, Q nd -> search_path E P es g n nd why seen <> Panic.
  Proof.
    intros n. induction n as [| n IH]; intros nd why seen Hq; [discriminate |]. cbn [search_path].
    specialize (Hid nd Hq). destruct (node_id E nd) as [id | | |]; cbn [bind]; try congruence.
    destruct (existsb (String.eqb id) seen); [discriminate |].
    specialize (Hgoal nd Hq). destruct (goal_found nd g) as [b | | |]; cbn [bind]; try congruence.
    destruct (b || is_terminal nd); [discriminate |].
    specialize (Hbuild nd Hq). destruct (build E P es nd) as [t | | |] eqn:Hb; cbn [bind]; try congruence.
    pose proof (search_tree_no_panic (search_path E P es g n) (fun nd why seen H => IH nd why seen H) t (id :: seen)
                  (HQ nd t Hq Hb)) as Hx.
    destruct (search_tree (search_path E P es g n) t (id :: seen)); cbn; congruence.
  Qed.
End NoPanic.
