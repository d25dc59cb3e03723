(** A search that meets no node twice skips nothing. *)
From Verif Require Import Base Domain Lexer Parser Validate Store Search BaseFacts SpecGrammar SpecPolicy SpecStore SpecSearch SpecWays
  ValidateFacts StoreFacts RelFacts SearchFacts SearchSem SearchTerm SearchExplain GraphFacts.
Require Import Lia.

Inductive part_at : list bool -> tree -> tree -> Prop :=
| pa_here t : part_at [] t t
| pa_left p t l op r : part_at p (TOp l op r) t -> part_at (p ++ [true]) l t
| pa_right p t l op r : part_at p (TOp l op r) t -> part_at (p ++ [false]) r t.

Lemma part_rule p x t : part_at p x t -> forall q ru, rule_at q ru x -> rule_at (p ++ q) ru t.
Proof.
  induction 1 as [t | p t l op r _ IH | p t l op r _ IH]; intros q ru Hr; [exact Hr | |]; rewrite <- app_assoc; apply IH; constructor; exact Hr.
Qed.

Lemma rule_at_occurs p ru t : rule_at p ru t -> occurs ru t.
Proof. induction 1; [constructor | apply occ_left; assumption | apply occ_right; assumption]. Qed.

Section Ways.
  Variable E : env.
  Variable P : policy.
  Variable es : list ((string * string) * edge).
  Variable succ : entity -> string -> subject -> Prop.
  Hypothesis Hsucc : edge_subjects E es succ.
  Hypothesis Hnodup : forall o rel ns, get_successors E es (Some o) rel = Ok ns -> NoDup ns.
  Variable origin : rnode.
  Hypothesis Hids : distinct_ids E P succ origin.
  Hypothesis Hone : single_ways E P succ origin.
  Variable g : goal.

  Notation wy := (way E P succ origin).

  Lemma way_reach w n : wy w n -> reach E P succ origin n.
  Proof.
    induction 1 as [| w o rel t p ru u n _ IH Hw Hr Hy]; [constructor |]. eapply re_step; [exact IH |].
    econstructor; [exact Hw | eapply rule_at_occurs; exact Hr |]. destruct Hy; constructor; assumption.
  Qed.

  Lemma evaluate_labels ru o rel ns : evaluate E es ru (Some o) rel = Ok ns ->
    exists us, NoDup us /\ Forall2 (yields_by succ ru o rel) us ns.
  Proof.
    assert (Hs : forall rel' ns, get_successors E es (Some o) rel' = Ok ns ->
      exists us, NoDup us /\ Forall2 (fun u n => n = subject_node u /\ succ o rel' u) us ns).
    { intros rel' ms H. pose proof (Hnodup _ _ _ H) as Hn. destruct (Hsucc o rel') as (ms' & H' & Hin). rewrite H in H'. injection H' as <-.
      assert (Hall : forall m, In m ms -> exists u, succ o rel' u /\ m = subject_node u) by (intros m Hm; apply Hin; exact Hm). clear H Hin.
      induction ms as [| m ms IH]; [exists []; split; constructor |]. inversion Hn; subst.
      destruct IH as (us & Hus & Hf); [assumption | intros k Hk; apply Hall; right; exact Hk |].
      destruct (Hall m) as (u & Hu & ->); [left; reflexivity |]. exists (u :: us). split; [| constructor; auto].
      constructor; [| exact Hus]. intros Hi. apply H1. clear -Hf Hi. induction Hf as [| v n us ns [-> _] _ IH]; [destruct Hi |].
      destruct Hi as [-> | Hi]; [left; reflexivity | right; auto]. }
    intros H. destruct ru as [| c | ts cu |]; cbn [evaluate] in H.
    - destruct (Hs _ _ H) as (us & Hn & Hf). exists (map Some us). split.
      + apply FinFun.Injective_map_NoDup; [intros x y [=]; assumption | exact Hn].
      + clear -Hf. induction Hf as [| u n us ns [-> Hu] _ IH]; constructor; [constructor; exact Hu | exact IH].
    - injection H as <-. exists [None]. split; [repeat constructor; intros [] | repeat constructor].
    - destruct (get_successors E es (Some o) ts) as [ms | | |] eqn:Hg; try discriminate. cbn [bind] in H.
      destruct (Hs _ _ Hg) as (us & Hn & Hf). exists (map Some us). split.
      + apply FinFun.Injective_map_NoDup; [intros x y [=]; assumption | exact Hn].
      + clear -Hf H. revert ns H. induction Hf as [| u n us ns' [-> Hu] _ IH]; intros ns H; cbn in H.
        * injection H as <-. constructor.
        * destruct (build_ttu_node cu (subject_node u)) as [m | | |] eqn:Hm; try discriminate. cbn in H.
          destruct (map_res (build_ttu_node cu) ns') as [ms | | |] eqn:Hms; try discriminate. injection H as <-. constructor; [| apply IH; reflexivity].
          assert (m = NSet (subject_object u) cu) as -> by (destruct u; cbn in *; congruence). constructor. exact Hu.
    - discriminate.
  Qed.

  Definition below (w : list (list bool * option subject)) w' : Prop := exists x, w' = w ++ x.
  Definition within (w : list (list bool * option subject)) (p : list bool) w' : Prop := exists q u x, w' = w ++ (p ++ q, u) :: x.
  Definition among (w : list (list bool * option subject)) (p : list bool) (us : list (option subject)) w' : Prop :=
    exists u x, In u us /\ w' = w ++ (p, u) :: x.

  Definition outside (R : list (list bool * option subject) -> Prop) (seen : list string) : Prop :=
    forall id, In id seen -> exists m w', wy w' m /\ node_id E m = Ok id /\ ~ R w'.
  Definition grown (R : list (list bool * option subject) -> Prop) (seen seen' : list string) : Prop :=
    forall id, In id seen' -> In id seen \/ exists m w', wy w' m /\ node_id E m = Ok id /\ R w'.

  Lemma outside_grown (R R1 R2 : list (list bool * option subject) -> Prop) seen seen' : outside R seen -> grown R1 seen seen' ->
    (forall w, R2 w -> R w) -> (forall w, R1 w -> R2 w -> False) -> outside R2 seen'.
  Proof.
    intros Ho Hg H2 H12 id Hid. destruct (Hg id Hid) as [Hin | (m & w & Hw & Hm & Hr)].
    - destruct (Ho id Hin) as (m & w & Hw & Hm & Hr). exists m, w. split; [exact Hw |]. split; [exact Hm |]. intros Hx. apply Hr, H2, Hx.
    - exists m, w. split; [exact Hw |]. split; [exact Hm |]. intros Hr2. eauto.
  Qed.

  Lemma outside_weak (R R2 : list (list bool * option subject) -> Prop) seen : outside R seen -> (forall w, R2 w -> R w) -> outside R2 seen.
  Proof. intros Ho H id Hid. destruct (Ho id Hid) as (m & w & Hw & Hm & Hr). exists m, w. split; [exact Hw |]. split; [exact Hm |]. intros Hx. apply Hr, H, Hx. Qed.

  Lemma grown_trans (R R1 R2 : list (list bool * option subject) -> Prop) s1 s2 s3 : grown R1 s1 s2 -> grown R2 s2 s3 ->
    (forall w, R1 w -> R w) -> (forall w, R2 w -> R w) -> grown R s1 s3.
  Proof.
    intros H1 H2 Hr1 Hr2 id Hid. destruct (H2 id Hid) as [Hin | (m & w & Hw & Hm & Hr)]; [| right; exists m, w; auto].
    destruct (H1 id Hin) as [| (m & w & Hw & Hm & Hr)]; [auto | right; exists m, w; auto].
  Qed.

  Lemma grown_weak (R R1 : list (list bool * option subject) -> Prop) s1 s2 : grown R1 s1 s2 -> (forall w, R1 w -> R w) -> grown R s1 s2.
  Proof. intros H Hr id Hid. destruct (H id Hid) as [| (m & w & Hw & Hm & Hx)]; [auto | right; exists m, w; auto]. Qed.

  Lemma within_left w p : forall w', within w (p ++ [true]) w' -> within w p w'.
  Proof. intros w' (q & u & x & ->). exists (true :: q), u, x. rewrite <- app_assoc. reflexivity. Qed.
  Lemma within_right w p : forall w', within w (p ++ [false]) w' -> within w p w'.
  Proof. intros w' (q & u & x & ->). exists (false :: q), u, x. rewrite <- app_assoc. reflexivity. Qed.
  Lemma within_apart w p : forall w', within w (p ++ [true]) w' -> within w (p ++ [false]) w' -> False.
  Proof.
    intros w' (q & u & x & ->) (q' & u' & x' & H). apply app_inv_head in H. injection H as H _ _. rewrite <- !app_assoc in H.
    apply app_inv_head in H. discriminate.
  Qed.

  Lemma no_skips :
    (forall nd why seen x seen', spath E P es g nd why seen x seen' -> forall w, wy w nd -> outside (below w) seen ->
      certified x /\ grown (below w) seen seen') /\
    (forall t e rel seen x seen', stree E P es g t e rel seen x seen' -> forall w p T, wy w (NSet (Some e) rel) -> rewrites E P e rel T ->
      part_at p t T -> outside (within w p) seen -> certified x /\ grown (within w p) seen seen') /\
    (forall why ns seen b ps seen', sor E P es g why ns seen b ps seen' -> forall w p us, NoDup us ->
      Forall2 (fun u n => wy (w ++ [(p, u)]) n) us ns -> outside (among w p us) seen ->
      (if b then exists q, In q ps /\ get_result q = RSuccess /\ certified q else forall q, In q ps -> certified q) /\ grown (among w p us) seen seen').
  Proof.
    assert (Hfirst : forall w p u us, NoDup (u :: us) -> forall w', below (w ++ [(p, u)]) w' -> among w p us w' -> False).
    { intros w p u us Hn w' (x & ->) (v & y & Hv & H). rewrite <- app_assoc in H. apply app_inv_head in H. injection H as -> _. inversion Hn; contradiction. }
    assert (Hsub : forall w p u us w', below (w ++ [(p, u)]) w' -> among w p (u :: us) w').
    { intros w p u us w' (x & ->). exists u, x. rewrite <- app_assoc. split; [left; reflexivity | reflexivity]. }
    assert (Hrest : forall w p u us w', among w p us w' -> among w p (u :: us) w').
    { intros w p u us w' (v & x & Hv & ->). exists v, x. split; [right; exact Hv | reflexivity]. }
    assert (Hnew : forall nd id w seen, wy w nd -> node_id E nd = Ok id -> grown (below w) seen (id :: seen)).
    { intros nd id w seen Hw Hid i [<- | Hi]; [| auto]. right. exists nd, w. split; [exact Hw |]. split; [exact Hid |]. exists []. rewrite app_nil_r. reflexivity. }
    apply search_ind.
    - intros nd why seen id Hid Hin w Hw Ho. exfalso. destruct (Ho id Hin) as (m & w' & Hw' & Hm & Hb).
      assert (m = nd) as -> by (apply Hids; [eapply way_reach; eauto | eapply way_reach; eauto | apply node_id_text in Hid, Hm; congruence]).
      rewrite (Hone _ _ _ Hw Hw') in Hb. apply Hb. exists []. rewrite app_nil_r. reflexivity.
    - intros nd why seen id Hid _ _ w Hw _. split; [apply ce_leaf; discriminate | eauto].
    - intros nd why seen id Hid _ _ _ w Hw _. split; [apply ce_leaf; discriminate | eauto].
    - intros e rel why seen id t gt x seen' Hid _ _ Ht Hb Hs IH w Hw Ho.
      pose proof (node_rewrites E P es _ _ _ _ Ht Hb) as Hrw.
      destruct (IH w [] t Hw Hrw (pa_here t)) as [Hc Hg].
      + intros i [<- | Hi].
        * exists (NSet (Some e) rel), w. split; [exact Hw |]. split; [exact Hid |]. intros (q & u & y & H).
          rewrite <- app_nil_r in H at 1. apply app_inv_head in H. discriminate.
        * destruct (Ho i Hi) as (m & w' & Hw' & Hm & Hx). exists m, w'. split; [exact Hw' |]. split; [exact Hm |].
          intros (q & u & y & ->). apply Hx. eexists. reflexivity.
      + split; [apply ce_path; exact Hc |]. eapply grown_trans; [eapply Hnew; eauto | exact Hg | auto |].
        intros w' (q & u & y & ->). eexists. reflexivity.
    - intros r e rel ns seen b ps seen' He _ IH w p T Hw Hrw Hp Ho.
      destruct (evaluate_labels _ _ _ _ He) as (us & Hn & Hf).
      assert (Ham : forall w', among w p us w' -> within w p w').
      { intros w' (u & x & _ & ->). exists [], u, x. rewrite app_nil_r. reflexivity. }
      destruct (IH w p us Hn) as [Hc Hg].
      + clear -Hf Hw Hrw Hp. induction Hf as [| u n us ns Hy _ IH]; constructor; [| exact IH].
        eapply wy_step; [exact Hw | exact Hrw | | exact Hy]. rewrite <- (app_nil_r p). eapply part_rule; [exact Hp | constructor].
      + eapply outside_weak; eauto.
      + split; [| eapply grown_weak; eauto]. destruct b; cbn [conditional].
        * destruct Hc as (q & Hq & Hr & Hc). eapply ce_or_success; eauto.
        * apply ce_or_failure. exact Hc.
    - intros l r e rel seen x seen' y _ IH Hres _ w p T Hw Hrw Hp Ho.
      destruct (IH w (p ++ [true]) T Hw Hrw (pa_left _ _ _ _ _ Hp)) as [Hc Hg]; [eapply outside_weak; [exact Ho | apply within_left] |].
      split; [eapply ce_or_success; [left; reflexivity | exact Hres | exact Hc] | eapply grown_weak; [exact Hg | apply within_left]].
    - intros l r e rel seen x seen1 y seen2 Hl IHl Hres Hr IHr w p T Hw Hrw Hp Ho.
      destruct (IHl w (p ++ [true]) T Hw Hrw (pa_left _ _ _ _ _ Hp)) as [Hc Hg]; [eapply outside_weak; [exact Ho | apply within_left] |].
      destruct (IHr w (p ++ [false]) T Hw Hrw (pa_right _ _ _ _ _ Hp)) as [Hc2 Hg2];
        [eapply outside_grown; [exact Ho | exact Hg | apply within_right | apply within_apart] |].
      split; [| eapply grown_trans; [exact Hg | exact Hg2 | apply within_left | apply within_right]].
      destruct (stree_known E P es g _ _ _ _ _ _ Hr) as [Hy | Hy]; rewrite Hy.
      + eapply ce_or_success; [right; left; reflexivity | exact Hy | exact Hc2].
      + apply ce_or_failure. intros q [<- | [<- | []]]; assumption.
    - intros l r e rel seen x seen' y _ IH Hres _ w p T Hw Hrw Hp Ho.
      destruct (IH w (p ++ [true]) T Hw Hrw (pa_left _ _ _ _ _ Hp)) as [Hc Hg]; [eapply outside_weak; [exact Ho | apply within_left] |].
      split; [eapply ce_and_failure; [left; reflexivity | exact Hres | exact Hc] | eapply grown_weak; [exact Hg | apply within_left]].
    - intros l r e rel seen x seen1 y seen2 Hl IHl Hres Hr IHr w p T Hw Hrw Hp Ho.
      destruct (IHl w (p ++ [true]) T Hw Hrw (pa_left _ _ _ _ _ Hp)) as [Hc Hg]; [eapply outside_weak; [exact Ho | apply within_left] |].
      destruct (IHr w (p ++ [false]) T Hw Hrw (pa_right _ _ _ _ _ Hp)) as [Hc2 Hg2];
        [eapply outside_grown; [exact Ho | exact Hg | apply within_right | apply within_apart] |].
      split; [| eapply grown_trans; [exact Hg | exact Hg2 | apply within_left | apply within_right]].
      destruct (stree_known E P es g _ _ _ _ _ _ Hr) as [Hy | Hy]; rewrite Hy.
      + apply ce_and_success. intros q [<- | [<- | []]]; assumption.
      + eapply ce_and_failure; [right; left; reflexivity | exact Hy | exact Hc2].
    - intros l r e rel seen x seen1 y seen2 Hl IHl Hr IHr w p T Hw Hrw Hp Ho.
      destruct (IHl w (p ++ [true]) T Hw Hrw (pa_left _ _ _ _ _ Hp)) as [Hc Hg]; [eapply outside_weak; [exact Ho | apply within_left] |].
      destruct (IHr w (p ++ [false]) T Hw Hrw (pa_right _ _ _ _ _ Hp)) as [Hc2 Hg2];
        [eapply outside_grown; [exact Ho | exact Hg | apply within_right | apply within_apart] |].
      split; [| eapply grown_trans; [exact Hg | exact Hg2 | apply within_left | apply within_right]].
      destruct (stree_known E P es g _ _ _ _ _ _ Hl) as [Hx | Hx], (stree_known E P es g _ _ _ _ _ _ Hr) as [Hy | Hy]; rewrite Hx, Hy; cbn.
      + apply ce_diff_right; assumption.
      + apply ce_diff_success; assumption.
      + apply ce_diff_left; assumption.
      + apply ce_diff_left; assumption.
    - intros why seen w p us _ Hf _. split; [intros q [] | intros i Hi; auto].
    - intros why n ns seen x seen' _ IH Hres w p us Hn Hf Ho. inversion Hf as [| u n' us' ns' Hw Hf']; subst.
      destruct (IH _ Hw) as [Hc Hg]; [eapply outside_weak; eauto |].
      split; [exists x; split; [left; reflexivity | auto] | eapply grown_weak; eauto].
    - intros why n ns seen x seen1 b ps seen2 _ IHx _ _ IHs w p us Hn Hf Ho. inversion Hf as [| u n' us' ns' Hw Hf']; subst.
      destruct (IHx _ Hw) as [Hc Hg]; [eapply outside_weak; eauto |]. assert (Hn' : NoDup us') by (inversion Hn; assumption).
      destruct (IHs w p us' Hn' Hf') as [Hc2 Hg2]; [eapply outside_grown; [exact Ho | exact Hg | apply Hrest | apply Hfirst; exact Hn] |].
      split; [| eapply grown_trans; [exact Hg | exact Hg2 | apply Hsub | apply Hrest]].
      destruct b; [destruct Hc2 as (q & Hq & Hr & Hc2); exists q; split; [right; exact Hq | auto] |].
      intros q [<- | Hq]; auto.
  Qed.

  Lemma certified_single why x seen' : spath E P es g origin why [] x seen' -> certified x.
  Proof. intros Hs. apply (proj1 no_skips _ _ _ _ _ Hs []); [constructor | intros i []]. Qed.
End Ways.

Lemma dst_public r r' e e' : to_internal (Some r) = Ok e -> to_internal (Some r') = Ok e' ->
  to_public_node (ed_dst e) = to_public_node (ed_dst e') -> ed_dst e = ed_dst e'.
Proof.
  destruct r as [[o |] rel [[[? ?] | [[? ?] |] ? | ? |] |]]; cbn; try discriminate; intros [= <-];
  destruct r' as [[o' |] rel' [[[? ?] | [[? ?] |] ? | ? |] |]]; cbn; try discriminate; intros [= <-]; cbn; congruence.
Qed.

Lemma successors_nodup E s pid : store_ok E s -> forall o rel ns, get_successors E (edges_of pid s) (Some o) rel = Ok ns -> NoDup ns.
Proof.
  intros H o rel ns Hg. unfold get_successors in Hg. apply bind_ok in Hg as (m & _ & Hg). injection Hg as <-.
  assert (Hk : NoDup (map fst (edges_of pid s))) by (apply (sorted_nodup pcmp pcmp_ok), edges_of_sorted, (so_edges _ _ H)).
  assert (Ho : forall k e, In (k, e) (edges_of pid s) -> edge_image e /\ k = edge_key E e) by (intros; eapply edges_of_edge; eauto).
  induction (edges_of pid s) as [| [k e] es IH]; cbn; [constructor |]. cbn in Hk. inversion Hk as [| ? ? Hni Hnd]; subst.
  assert (Hrec : NoDup (map (fun x => to_public_node (ed_dst (snd x))) (filter (fun x : (string * string) * edge => (fst (fst x) =? node_key E m)%string) es)))
    by (apply IH; [exact Hnd | intros; apply Ho; right; assumption]).
  destruct (fst k =? node_key E m)%string eqn:Hm; [| exact Hrec]. cbn. constructor; [| exact Hrec].
  intros Hin. apply in_map_iff in Hin as ([k' e'] & Heq & Hin). apply filter_In in Hin as [Hin Hm']. cbn in Heq, Hm'.
  apply String.eqb_eq in Hm, Hm'. destruct (Ho k e) as [[r Hr] ->]; [left; reflexivity |]. destruct (Ho k' e') as [[r' Hr'] ->]; [right; exact Hin |].
  apply Hni. apply in_map_iff. exists (edge_key E e', e'). split; [| exact Hin]. cbn in *. unfold edge_key in *. cbn in *.
  rewrite (dst_public _ _ _ _ Hr' Hr Heq). congruence.
Qed.

(** ** The equations have a solution *)

Lemma eval_ext succ a (M M' : entity -> string -> Prop) o rel : forall t,
  (forall ru o' rel', occurs ru t -> yields succ ru o rel (NSet (Some o') rel') -> (M o' rel' <-> M' o' rel')) ->
  (eval succ a M o rel t <-> eval succ a M' o rel t).
Proof.
  intros t. induction t as [| | r | l IHl op r IHr]; intros H; try reflexivity.
  - destruct r as [| c | ts cu |]; cbn [eval]; try reflexivity.
    + assert (Hc : forall u, succ o rel u -> (covers a M u <-> covers a M' u)).
      { intros u Hu. destruct u as [e | [e |] r | rs |]; try reflexivity. apply (H RThis e r (occ_here _)). apply (yl_this _ o rel (SEntitySet (Some e) r) Hu). }
      split; intros (u & Hu & Hx); exists u; (split; [exact Hu | apply (Hc u Hu); exact Hx]).
    + apply (H (RCu c) o c (occ_here _)). constructor.
    + assert (Hc : forall u o', succ o ts u -> subject_object u = Some o' -> (M o' cu <-> M' o' cu)).
      { intros u o' Hu Ho. apply (H (RTtu ts cu) o' cu (occ_here _)). rewrite <- Ho. constructor. exact Hu. }
      split; intros (u & o' & Hu & Ho & Hx); exists u, o'; (split; [exact Hu | split; [exact Ho | apply (Hc u o' Hu Ho); exact Hx]]).
  - assert (Hl := IHl (fun ru o' rel' Ho => H ru o' rel' (occ_left ru _ _ _ Ho))).
    assert (Hr := IHr (fun ru o' rel' Ho => H ru o' rel' (occ_right ru _ _ _ Ho))).
    destruct op; cbn [eval]; rewrite ?Hl, ?Hr; reflexivity.
Qed.

Lemma occurs_rule_at ru t : occurs ru t -> exists p, rule_at p ru t.
Proof.
  induction 1 as [| l op r _ [p IH] | l op r _ [p IH]]; [exists []; constructor | exists (true :: p); constructor; exact IH | exists (false :: p); constructor; exact IH].
Qed.

Section Solution.
  Variable E : env.
  Variable P : policy.
  Variable es : list ((string * string) * edge).
  Variable succ : entity -> string -> subject -> Prop.
  Hypothesis Hsucc : edge_subjects E es succ.
  Hypothesis Hx : forall rs l t, relation_of P rs l -> expression E l t -> get_expression_tree E l = Ok t.
  Variable origin : rnode.
  Hypothesis Hids : distinct_ids E P succ origin.
  Hypothesis Hone : single_ways E P succ origin.
  Variable a : entity.

  Notation wy := (way E P succ origin).

  Lemma succ_seeds o rel u : succ o rel u -> In (subject_node u) (seeds es origin).
  Proof. intros Hu. destruct (Hsucc o rel) as (ns & Hg & Hin). eapply successors_seeds; [exact Hg |]. apply Hin. eauto. Qed.

  Lemma reach_universe n : reach E P succ origin n -> universe E P es origin n.
  Proof.
    induction 1 as [| x y _ IH Hl]; [apply seeds_universe; left; reflexivity |].
    destruct Hl as [o rel t ru n (l & Hl & Hrl & Ht) Ho Hy].
    assert (Hn : forall z, In z (tree_names t) -> In z (names E P es origin)).
    { intros z Hz. apply in_app_iff. right. apply in_flat_map. exists ((e_res o, rel), l). split; [apply lut_relations_in; subst rel; auto |].
      cbn [snd]. rewrite (Hx _ _ _ Hl Ht). exact Hz. }
    destruct Hy as [o rel u Hu | o rel c | o rel ts cu u Hu].
    - apply seeds_universe. eapply succ_seeds. exact Hu.
    - destruct IH as [IH _]. split; [exact IH |]. apply Hn. eapply tree_names_occurs; [exact Ho | left; reflexivity].
    - apply succ_seeds in Hu. apply (seeds_universe E P es origin) in Hu. assert (Hcu : In cu (names E P es origin)) by (apply Hn; eapply tree_names_occurs; [exact Ho | left; reflexivity]).
      destruct u as [e | [e |] r | rs |]; cbn in *; tauto.
  Qed.

  Lemma way_trail w n : wy w n -> exists l, length l = length w /\ NoDup l /\
    forall m, In m l -> (exists o rel, m = NSet (Some o) rel) /\ exists w', wy w' m /\ length w' < length w.
  Proof.
    induction 1 as [| w o rel t p ru u n Hw (l & Hl & Hn & IH) Hrw Hr Hy].
    - exists []. split; [reflexivity |]. split; [constructor | intros m []].
    - exists (NSet (Some o) rel :: l). rewrite app_length. cbn. split; [lia |]. split.
      + constructor; [| exact Hn]. intros Hin. destruct (IH _ Hin) as [_ (w' & Hw' & Hlt)]. rewrite (Hone _ _ _ Hw Hw') in Hlt. lia.
      + intros m [<- | Hm]; [split; [eauto | exists w; split; [exact Hw | lia]] |].
        destruct (IH m Hm) as [Hs (w' & Hw' & Hlt)]. split; [exact Hs |]. exists w'. split; [exact Hw' | lia].
  Qed.

  Lemma way_bound w n : wy w n -> length w <= length (universe_ids E P es origin).
  Proof.
    intros Hw. destruct (way_trail w n Hw) as (l & <- & Hn & Hl). rewrite <- (map_length (fun m => sha E (id_text m)) l). apply NoDup_incl_length.
    - assert (Hr : forall m, In m l -> reach E P succ origin m) by (intros m Hm; destruct (Hl m Hm) as [_ (w' & Hw' & _)]; eapply way_reach; exact Hw').
      clear Hl. induction Hn as [| m l Hm Hn IH]; cbn; [constructor |]. constructor.
      + intros Hin. apply in_map_iff in Hin as (k & Hk & Hin). apply Hm. rewrite <- (Hids k m (Hr k (or_intror Hin)) (Hr m (or_introl eq_refl)) Hk). exact Hin.
      + apply IH. intros k Hk. apply Hr. right. exact Hk.
    - intros id Hid. apply in_map_iff in Hid as (m & <- & Hm). destruct (Hl m Hm) as [(o & rel & ->) (w' & Hw' & _)].
      apply (universe_id E P es origin (NSet (Some o) rel)); [apply reach_universe; eapply way_reach; exact Hw' | reflexivity].
  Qed.

  (** Membership by recursion to the given depth. *)
  Fixpoint depth_member (k : nat) (o : entity) (rel : string) : Prop :=
    match k with O => False | S k => exists t, rewrites E P o rel t /\ eval succ a (depth_member k) o rel t end.

  Lemma depth_stable k : forall w o rel, wy w (NSet (Some o) rel) -> length (universe_ids E P es origin) < k + length w ->
    (depth_member k o rel <-> depth_member (S k) o rel).
  Proof.
    induction k as [| k IH]; intros w o rel Hw Hk.
    - pose proof (way_bound _ _ Hw). lia.
    - cbn [depth_member]. assert (Ht : forall t, rewrites E P o rel t -> (eval succ a (depth_member k) o rel t <-> eval succ a (depth_member (S k)) o rel t)).
      { intros t Hrw. apply eval_ext. intros ru o' rel' Ho Hy. destruct (occurs_rule_at _ _ Ho) as (p & Hp).
        assert (Hyb : forall n, yields succ ru o rel n -> exists u, yields_by succ ru o rel u n).
        { intros n Hn. destruct Hn; eexists; constructor; assumption. }
        destruct (Hyb _ Hy) as (u & Hyu). apply (IH (w ++ [(p, u)])); [eapply wy_step; eauto | rewrite app_length; cbn [length]; lia]. }
      split; intros (t & Hrw & Hev); exists t; (split; [exact Hrw | apply (Ht t Hrw); exact Hev]).
  Qed.

  Lemma reach_way n : reach E P succ origin n -> exists w, wy w n.
  Proof.
    induction 1 as [| x y _ [w IH] Hl]; [exists []; constructor |]. destruct Hl as [o rel t ru n Hrw Ho Hy].
    destruct (occurs_rule_at _ _ Ho) as (p & Hp). destruct Hy; eexists; (eapply wy_step; [exact IH | exact Hrw | exact Hp | constructor; assumption]).
  Qed.

  Lemma solution_exists : exists M, solution_below E P succ a origin M.
  Proof.
    exists (depth_member (S (length (universe_ids E P es origin)))). intros o rel Hr. destruct (reach_way _ Hr) as (w & Hw).
    rewrite (depth_stable _ w o rel Hw); [reflexivity | lia].
  Qed.
End Solution.

(** ** Ways by key and ways by name *)

Lemma way_keyed E P rels origin w n : unaliased E P rels origin ->
  (way E P (key_subject E rels) origin w n <-> way E P (stored_subject rels) origin w n).
Proof.
  intros Hun. split; intros H.
  - induction H as [| w o rel t p ru u n Hw IH Hrw Hr Hy]; [constructor |]. eapply wy_step; [exact IH | exact Hrw | exact Hr |].
    apply way_reach in IH. apply rule_at_occurs in Hr. destruct Hy as [o rel u Hu | o rel c | o rel ts cu u Hu]; constructor.
    + apply (keyed_stored E P rels origin Hun o rel rel); [exact IH | exists t; auto | exact Hu].
    + apply (keyed_stored E P rels origin Hun o rel ts); [exact IH | exists t; eauto | exact Hu].
  - induction H as [| w o rel t p ru u n Hw IH Hrw Hr Hy]; [constructor |]. eapply wy_step; [exact IH | exact Hrw | exact Hr |].
    destruct Hy; constructor; apply stored_keyed; assumption.
Qed.
