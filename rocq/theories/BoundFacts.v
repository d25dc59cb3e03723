(** Searches in policies with all three operators, against the policy without subtractions and intersections. *)
From Verif Require Import Base Domain Lexer Parser Validate Store Search BaseFacts SpecGrammar SpecPolicy SpecStore SpecSearch SpecBound
  ValidateFacts SearchFacts SearchSem SearchExplain GraphFacts.

Section Graph.
  Variable E : env.
  Variable P : policy.
  Variable es : list ((string * string) * edge).
  Variable succ : entity -> string -> subject -> Prop.
  Hypothesis Hsucc : edge_subjects E es succ.
  Variable a : entity.

  Section Sound.
    Variable M : entity -> string -> Prop.

    Lemma rule_sound r e rel ns : evaluate E es r (Some e) rel = Ok ns -> (exists n, In n ns /\ node_in a M n) ->
      eval succ a M e rel (TRule r).
    Proof.
      intros He (n & Hin & Hn). apply (evaluate_yields E es succ Hsucc _ _ _ _ He) in Hin.
      destruct Hin as [o rel u Hu | o rel c | o rel ts cu u Hu]; cbn [eval].
      - exists u. split; [exact Hu |]. apply node_in_covers. exact Hn.
      - exact Hn.
      - destruct (subject_object u) as [o' |] eqn:Ho; [| contradiction Hn]. exists u, o'. auto.
    Qed.

    Lemma diff_left x y :
      get_result (GDiff (conditional (is_success (get_result x) && is_failure (get_result y))) x y) = RSuccess ->
      get_result x = RSuccess.
    Proof. cbn. destruct (get_result x), (get_result y); cbn; congruence. Qed.

    Lemma loose_sound :
      (forall o rel t, rewrites E P o rel t -> eval succ a M o rel (unsubtracted t) -> M o rel) ->
      (forall nd why seen x seen', spath E P es (GoalEntity (Some a)) nd why seen x seen' ->
        get_result x = RSuccess -> node_in a M nd) /\
      (forall t e rel seen x seen', stree E P es (GoalEntity (Some a)) t e rel seen x seen' ->
        get_result x = RSuccess -> eval succ a M e rel (unsubtracted t)) /\
      (forall why ns seen b ps seen', sor E P es (GoalEntity (Some a)) why ns seen b ps seen' ->
        b = true -> exists n, In n ns /\ node_in a M n).
    Proof.
      intros Hcl. apply search_ind; try discriminate.
      - intros nd why seen id _ _ Hf _. apply goal_found_in. exact Hf.
      - intros e rel why seen id t gt x seen' _ _ _ Ht Hb _ IH Hr. cbn [node_in]. apply (Hcl e rel t); [| apply IH; exact Hr].
        eapply node_rewrites; eauto.
      - intros r e rel ns seen b ps seen' He _ IH Hr. apply conditional_success in Hr. eapply rule_sound; eauto.
      - intros l r e rel seen x seen' y _ IH Hr _ _. cbn [unsubtracted eval]. left. apply IH. exact Hr.
      - intros l r e rel seen x seen1 y seen2 _ _ _ _ IH Hr. cbn [unsubtracted eval]. right. apply IH. exact Hr.
      - intros l r e rel seen x seen1 y seen2 _ IHl Hl _ IH Hr. cbn [unsubtracted eval]. auto.
      - intros l r e rel seen x seen1 y seen2 _ IHl _ _ Hr. cbn [unsubtracted]. apply IHl. eapply diff_left; exact Hr.
      - intros why n ns seen x seen' _ IH Hr _. exists n. split; [left; reflexivity | auto].
      - intros why n ns seen x seen1 b ps seen2 _ _ _ _ IH Hb. destruct (IH Hb) as (m & Hm & Hn).
        exists m. split; [right; exact Hm | exact Hn].
    Qed.

    Lemma narrow_sound : (forall o rel, ~ succ o rel (SResourceSet (e_res a))) ->
      (forall o rel t, rewrites E P o rel t -> eval succ a M o rel (unions_of t) -> M o rel) ->
      (forall nd why seen x seen', spath E P es (GoalEntity (Some a)) nd why seen x seen' ->
        nd <> NWild (e_res a) -> get_result x = RSuccess -> node_in a M nd) /\
      (forall t e rel seen x seen', stree E P es (GoalEntity (Some a)) t e rel seen x seen' ->
        get_result x = RSuccess -> eval succ a M e rel (unions_of t)) /\
      (forall why ns seen b ps seen', sor E P es (GoalEntity (Some a)) why ns seen b ps seen' ->
        (forall n, In n ns -> n <> NWild (e_res a)) ->
        b = true -> exists n, In n ns /\ node_in a M n).
    Proof.
      intros Hno Hcl.
      destruct (search_once E P es succ Hsucc a Hno) as (_ & Ot & _).
      apply search_ind; try discriminate.
      - intros nd why seen id _ _ Hf _ _. apply goal_found_in. exact Hf.
      - intros e rel why seen id t gt x seen' _ _ _ Ht Hb _ IH _ Hr. cbn [node_in]. apply (Hcl e rel t); [| apply IH; exact Hr].
        eapply node_rewrites; eauto.
      - intros r e rel ns seen b ps seen' He _ IH Hr. apply conditional_success in Hr. eapply rule_sound; [exact He |].
        apply IH; [| exact Hr]. intros n Hin ->. apply (evaluate_yields E es succ Hsucc _ _ _ _ He) in Hin.
        inversion Hin as [o1 rel1 u Hu Hq1 Hq2 Hq3 Hq | |]; subst.
        destruct u; cbn in Hq; try discriminate. injection Hq as ->. eapply Hno; eauto.
      - intros l r e rel seen x seen' y _ IH Hr _ _. cbn [unions_of eval]. left. apply IH. exact Hr.
      - intros l r e rel seen x seen1 y seen2 _ _ _ _ IH Hr. cbn [unions_of eval]. right. apply IH. exact Hr.
      - intros l r e rel seen x seen1 y seen2 Hs1 _ Hx Hs2 _ Hr. exfalso.
        destruct (Ot _ _ _ _ _ _ Hs1) as [H1 _]. destruct (Ot _ _ _ _ _ _ Hs2) as [H2 _]. apply (H2 Hr). apply (H1 Hx).
      - intros l r e rel seen x seen1 y seen2 _ IHl _ _ Hr. cbn [unions_of]. apply IHl. eapply diff_left; exact Hr.
      - intros why n ns seen x seen' _ IH Hr Hw _. exists n. split; [left; reflexivity |]. apply IH; [apply Hw; left; reflexivity | exact Hr].
      - intros why n ns seen x seen1 b ps seen2 _ _ _ _ IH Hw Hb. destruct IH as (m & Hm & Hn); [intros m Hm; apply Hw; right; exact Hm | exact Hb |].
        exists m. split; [right; exact Hm | exact Hn].
    Qed.
  End Sound.

  (** ** Completeness of a failing search among nodes [R], when the nodes with identities in [seen0] are skipped *)
  Section Complete.
    Hypothesis Huniq : unique_decls P.
    Variable R : rnode -> Prop.
    Variable seen0 : list string.
    Notation g := (GoalEntity (Some a)).
    Hypothesis HR : forall e rel id t, R (NSet (Some e) rel) -> node_id E (NSet (Some e) rel) = Ok id -> ~ In id seen0 ->
      rewrites E P e rel t ->
      (forall op, uses op t -> op = OpUnion) /\ (forall ru n, occurs ru t -> yields succ ru e rel n -> R n).

    Definition explored_in (seen seen' : list string) : Prop :=
      forall id, In id seen' -> In id seen \/
        exists x, R x /\ node_id E x = Ok id /\ goal_found x g = Ok false /\
          forall y, leads E P succ x y -> exists idy, node_id E y = Ok idy /\ In idy seen'.

    Lemma explored_in_trans s1 s2 s3 : explored_in s1 s2 -> explored_in s2 s3 -> incl s2 s3 -> explored_in s1 s3.
    Proof.
      intros H12 H23 Hi id Hid. destruct (H23 id Hid) as [Hid2 | Hx]; [| auto].
      destruct (H12 id Hid2) as [| (x & H1 & H2 & H3 & H4)]; [auto |].
      right. exists x. repeat split; auto. intros y Hy. destruct (H4 y Hy) as (idy & Hidy & Hin). eauto.
    Qed.

    Lemma fails_explored :
      (forall nd why seen x seen', spath E P es g nd why seen x seen' ->
        incl seen0 seen -> R nd -> get_result x <> RSuccess -> explored_in seen seen') /\
      (forall t e rel seen x seen', stree E P es g t e rel seen x seen' ->
        incl seen0 seen -> (forall op, uses op t -> op = OpUnion) ->
        (forall ru n, occurs ru t -> yields succ ru e rel n -> R n) ->
        get_result x <> RSuccess -> explored_in seen seen' /\ tree_seen E succ t e rel seen') /\
      (forall why ns seen b ps seen', sor E P es g why ns seen b ps seen' ->
        incl seen0 seen -> (forall n, In n ns -> R n) ->
        b <> true -> explored_in seen seen' /\ forall n, In n ns -> exists id, node_id E n = Ok id /\ In id seen').
    Proof.
      destruct (seen_grows E P es g) as (Gp & Gt & Go).
      apply search_ind; cbn [get_result]; try congruence.
      - intros nd why seen id _ _ _ _ _ i Hi. auto.
      - intros nd why seen id Hid Hn Hf Ht _ Hr _ i [<- | Hi]; [| auto].
        right. exists nd. repeat split; auto. intros y Hy. exfalso. exact (terminal_leads E P succ _ _ Ht Hy).
      - intros e rel why seen id t gt x seen' Hid Hn Hf Ht Hb Hs IH H0 Hr Hres.
        assert (Hw : rewrites E P e rel t) by (eapply node_rewrites; eauto).
        destruct (HR e rel id t Hr Hid (fun H => Hn (H0 _ H)) Hw) as [Hops Hys].
        destruct IH as [Hex Hts]; [apply incl_tl; exact H0 | exact Hops | exact Hys | exact Hres |].
        intros i Hi. destruct (Hex i Hi) as [[<- |] | Hx]; [| auto | auto].
        right. exists (NSet (Some e) rel). repeat split; auto. intros y Hy.
        inversion Hy as [o' rel' t' ru n Hw' Ho Hyl]; subst.
        assert (t' = t) as -> by (eapply rewrites_unique; eauto). eapply Hts; eauto.
      - intros r e rel ns seen b ps seen' He Hs IH H0 Hu Hr Hres.
        destruct IH as [Hex Hns]; [exact H0 | | |].
        + intros n Hin. apply (Hr r n); [constructor |]. eapply evaluate_yields; eauto.
        + intros ->. apply Hres. reflexivity.
        + split; [exact Hex |]. intros ru n Ho Hy. inversion Ho; subst. apply Hns.
          eapply evaluate_yields; eauto.
      - intros l r e rel seen x seen1 y seen2 Hl IHl Hrl Hs IHr H0 Hu Hr Hres.
        destruct IHl as [Hex1 Hts1]; [exact H0 | intros op H; apply Hu, us_left, H |
          intros ru n Ho Hy; eapply Hr; [apply occ_left; exact Ho | exact Hy] | congruence |].
        destruct IHr as [Hex2 Hts2]; [eapply incl_tran; [exact H0 | eapply Gt; eauto] | intros op H; apply Hu, us_right, H |
          intros ru n Ho Hy; eapply Hr; [apply occ_right; exact Ho | exact Hy] | exact Hres |].
        pose proof (Gt _ _ _ _ _ _ Hs) as Hi. split; [eapply explored_in_trans; eauto |].
        intros ru n Ho Hy. inversion Ho; subst.
        + destruct (Hts1 ru n) as (id & Hid & Hin); auto. exists id. auto.
        + eapply Hts2; eauto.
      - intros l r e rel seen x seen' y Hl IHl _ _ _ Hu. exfalso. specialize (Hu OpInter (us_here _ _ _)). discriminate.
      - intros l r e rel seen x seen1 y seen2 _ _ _ _ _ _ Hu. exfalso. specialize (Hu OpInter (us_here _ _ _)). discriminate.
      - intros l r e rel seen x seen1 y seen2 _ _ _ _ _ Hu. exfalso. specialize (Hu OpDiff (us_here _ _ _)). discriminate.
      - intros why seen _ _ _. split; [intros i Hi; auto | intros n []].
      - intros why n ns seen x seen1 b ps seen2 Hx IHx Hres Hs IHs H0 Hr Hb.
        assert (Hex1 : explored_in seen seen1) by (apply IHx; [exact H0 | apply Hr; left; reflexivity | exact Hres]).
        destruct (Gp _ _ _ _ _ Hx) as [Hin1 (id & Hid & Hin)].
        destruct IHs as [Hex2 Hns]; [eapply incl_tran; eauto | intros m Hm; apply Hr; right; exact Hm | exact Hb |].
        pose proof (Go _ _ _ _ _ _ Hs) as Hi. split; [eapply explored_in_trans; eauto |].
        intros m [<- | Hm]; [| auto]. exists id. auto.
    Qed.
  End Complete.

  Lemma unions_of_union t : (forall op, uses op t -> op = OpUnion) -> unions_of t = t.
  Proof.
    induction t as [| | r | l IHl op r IHr]; intros H; try reflexivity.
    assert (op = OpUnion) as -> by (apply H; constructor). cbn [unions_of].
    rewrite IHl, IHr; [reflexivity | intros; apply H, us_right; assumption | intros; apply H, us_left; assumption].
  Qed.

  (** In a tree of unions, a member comes from a node that a rule yields. *)
  Lemma union_source M o rel : forall t, (forall op, uses op t -> op = OpUnion) -> eval succ a M o rel t ->
    exists ru n, occurs ru t /\ yields succ ru o rel n /\ node_in a M n.
  Proof.
    intros t. induction t as [| | r | l IHl op r IHr]; intros Hu Hev; try contradiction.
    - destruct r as [| c | ts cu |]; cbn in Hev.
      + destruct Hev as (u & Hs & Hc). exists RThis, (subject_node u). split; [constructor |]. split; [constructor; exact Hs |].
        destruct u as [e | [e |] r' | rs |]; cbn in *; auto.
      + exists (RCu c), (NSet (Some o) c). split; [constructor |]. split; [constructor | exact Hev].
      + destruct Hev as (u & o' & Hs & Ho & Hm). exists (RTtu ts cu), (NSet (subject_object u) cu).
        split; [constructor |]. split; [constructor; exact Hs |]. rewrite Ho. exact Hm.
      + contradiction.
    - assert (op = OpUnion) as -> by (apply Hu; constructor). cbn in Hev. destruct Hev as [Hev | Hev].
      + destruct IHl as (ru & n & H1 & H2); [intros; apply Hu, us_left; assumption | exact Hev |].
        exists ru, n. split; [apply occ_left; exact H1 | exact H2].
      + destruct IHr as (ru & n & H1 & H2); [intros; apply Hu, us_right; assumption | exact Hev |].
        exists ru, n. split; [apply occ_right; exact H1 | exact H2].
  Qed.

  (** When the search of [l] in [l - r] fails, the subject is no member. *)
  Lemma left_complete o rel l r id x seen' : unique_decls P -> rewrites E P o rel (TOp l OpDiff r) ->
    (forall op, uses op l -> op = OpUnion) -> unions_below E P succ o rel ->
    distinct_ids E P succ (NSet (Some o) rel) ->
    node_id E (NSet (Some o) rel) = Ok id -> stree E P es (GoalEntity (Some a)) l o rel [id] x seen' ->
    get_result x <> RSuccess -> ~ member_of unions_of E P succ a o rel.
  Proof.
    intros Hu Hw Hl Hbelow Hd Hid Hs Hres Hm. set (origin := NSet (Some o) rel) in *.
    assert (HR : forall e rel' id' t, reach E P succ origin (NSet (Some e) rel') -> node_id E (NSet (Some e) rel') = Ok id' -> ~ In id' [id] ->
      rewrites E P e rel' t ->
      (forall op, uses op t -> op = OpUnion) /\
      (forall ru n, occurs ru t -> yields succ ru e rel' n -> reach E P succ origin n)).
    { intros e rel' id' t Hr Hid' Hn Ht. split.
      - intros op Hop. eapply Hbelow; [exact Hr | | exact Ht | exact Hop]. intros Hq. rewrite Hq in Hid'. fold origin in Hid'.
        apply Hn. left. congruence.
      - intros ru n Ho Hy. eapply re_step; [exact Hr |]. econstructor; eauto. }
    destruct (fails_explored Hu _ _ HR) as (_ & Ft & _).
    destruct (Ft _ _ _ _ _ _ Hs) as [Hex Hts].
    { apply incl_refl. }
    { exact Hl. }
    { intros ru n Ho Hy. eapply re_step; [apply re_here |]. econstructor; [exact Hw | apply occ_left; exact Ho | exact Hy]. }
    { exact Hres. }
    set (V := fun n => reach E P succ origin n /\ exists i, node_id E n = Ok i /\ In i seen').
    assert (HV : forall n, V n -> n = origin \/ goal_found n (GoalEntity (Some a)) = Ok false /\ forall y, leads E P succ n y -> V y).
    { intros n [Hr (i & Hi & Hin)]. destruct (Hex i Hin) as [[<- | []] | (m & Hrm & Hidm & Hg & Hy)].
      - left. apply Hd; [exact Hr | apply re_here |]. apply node_id_text in Hi, Hid. congruence.
      - right. assert (n = m) as <-. { apply Hd; auto. apply node_id_text in Hi, Hidm. congruence. }
        split; [exact Hg |]. intros y Hl'. split; [eapply re_step; eauto | auto]. }
    assert (Hgoal : forall n, V n -> ~ node_in a (fun o rel => ~ V (NSet (Some o) rel)) n).
    { intros n Hv Hn. destruct (HV n Hv) as [-> | [Hg _]]; [exact (Hn Hv) |].
      destruct n as [[o' |] rel' | [e |] | rs |]; cbn in Hn; try contradiction.
      - subst e. cbn in Hg. rewrite !String.eqb_refl in Hg. discriminate.
      - subst rs. cbn in Hg. rewrite String.eqb_refl in Hg. discriminate. }
    assert (Hv0 : V origin).
    { split; [apply re_here |]. exists id. split; [exact Hid |].
      destruct (seen_grows E P es (GoalEntity (Some a))) as (_ & Gt & _). eapply Gt; [exact Hs | left; reflexivity]. }
    apply (Hm (fun o rel => ~ V (NSet (Some o) rel))); [| exact Hv0].
    intros o' rel' t Hw' Hev Hv. destruct (HV _ Hv) as [Hq | [_ Hy]].
    - unfold origin in Hq. injection Hq as -> ->. rewrite (rewrites_unique E P _ _ _ _ Hu Hw' Hw) in Hev.
      cbn [unions_of] in Hev. rewrite (unions_of_union l Hl) in Hev.
      apply union_source in Hev as (ru & n & Ho & Hyl & Hn); [| exact Hl]. apply (Hgoal n); [| exact Hn].
      split; [| apply (Hts ru n Ho Hyl)]. eapply re_step; [apply re_here |]. econstructor; [exact Hw | apply occ_left; exact Ho | exact Hyl].
    - assert (Hne : NSet (Some o') rel' <> origin \/ NSet (Some o') rel' = origin).
      { unfold origin. destruct (string_dec (e_res o') (e_res o)), (string_dec (e_id o') (e_id o)), (string_dec rel' rel);
          try (left; congruence). right. destruct o', o; cbn in *; congruence. }
      destruct Hne as [Hne | Hq].
      + assert (Hut : forall op, uses op t -> op = OpUnion) by (intros op; apply (Hbelow o' rel' t op (proj1 Hv) Hne Hw')).
        rewrite (unions_of_union t Hut) in Hev.
        apply union_source in Hev as (ru & n & Ho & Hyl & Hn); [| exact Hut]. apply (Hgoal n); [| exact Hn].
        apply Hy. econstructor; eauto.
      + unfold origin in Hq. injection Hq as -> ->. rewrite (rewrites_unique E P _ _ _ _ Hu Hw' Hw) in Hev.
        cbn [unions_of] in Hev. rewrite (unions_of_union l Hl) in Hev.
        apply union_source in Hev as (ru & n & Ho & Hyl & Hn); [| exact Hl]. apply (Hgoal n); [| exact Hn].
        apply Hy. econstructor; [exact Hw | apply occ_left; exact Ho | exact Hyl].
  Qed.
End Graph.

(** ** From keys to names *)

Lemma loose_no_diff t : ~ uses OpDiff (unsubtracted t).
Proof.
  induction t as [| | r | l IHl op r IHr]; cbn [unsubtracted]; intros H; try solve [inversion H].
  destruct op; try solve [contradiction]; inversion H; subst; auto.
Qed.

Lemma narrow_no_diff t : ~ uses OpDiff (unions_of t).
Proof.
  induction t as [| | r | l IHl op r IHr]; cbn [unions_of]; intros H; try solve [inversion H].
  destruct op; try solve [contradiction]; inversion H; subst; auto.
Qed.

Lemma loose_occurs ru t : occurs ru (unsubtracted t) -> occurs ru t.
Proof.
  induction t as [| | r | l IHl op r IHr]; cbn [unsubtracted]; auto.
  destruct op; intros H; try (apply occ_left; auto; fail); inversion H; subst; [apply occ_left; auto | apply occ_right; auto |
    apply occ_left; auto | apply occ_right; auto | apply occ_left; auto | apply occ_right; auto].
Qed.

Lemma narrow_occurs ru t : occurs ru (unions_of t) -> occurs ru t.
Proof.
  induction t as [| | r | l IHl op r IHr]; cbn [unions_of]; auto.
  destruct op; intros H; try (apply occ_left; auto; fail); inversion H; subst; [apply occ_left; auto | apply occ_right; auto |
    apply occ_left; auto | apply occ_right; auto].
Qed.

Lemma member_of_stored f E P rels a o rel : (forall t, ~ uses OpDiff (f t)) -> (forall ru t, occurs ru (f t) -> occurs ru t) ->
  unaliased E P rels (NSet (Some o) rel) ->
  (member_of f E P (key_subject E rels) a o rel <-> member_of f E P (stored_subject rels) a o rel).
Proof.
  intros Hd Hocc Hun. split.
  - intros Hm M HM.
    assert (H : reach E P (stored_subject rels) (NSet (Some o) rel) (NSet (Some o) rel) -> M o rel); [| apply H, re_here].
    apply (Hm (fun o' rel' => reach E P (stored_subject rels) (NSet (Some o) rel) (NSet (Some o') rel') -> M o' rel')).
    intros o' rel' t Hw Hev Hr. apply (HM o' rel' t Hw).
    eapply (eval_mono (key_subject E rels) (stored_subject rels) a _ M
             (fun n => reach E P (stored_subject rels) (NSet (Some o) rel) n)); [apply Hd | | | exact Hev].
    + intros ru n Ho Hy. apply Hocc in Ho.
      assert (Hy' : yields (stored_subject rels) ru o' rel' n) by (eapply yields_keyed; eauto).
      split; [exact Hy' |]. eapply re_step; [exact Hr |]. econstructor; eauto.
    + intros o2 rel2 H2 H3. apply H3. exact H2.
  - intros Hm M HM. apply Hm. intros o' rel' t Hw Hev. apply (HM o' rel' t Hw).
    apply (eval_mono (stored_subject rels) (key_subject E rels) a M M (fun _ => True)); auto.
    intros ru n _ Hy. split; [| exact I]. destruct Hy; constructor; apply stored_keyed; auto.
Qed.
