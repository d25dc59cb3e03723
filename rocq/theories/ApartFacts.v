(** Proofs about searches beside requests that change nothing they consult. *)
From Verif Require Import Base Domain Lexer Parser Validate Store Search Explain Yaml Service Dump Api
  SpecGrammar SpecPolicy SpecStore SpecSearch SpecExtend SpecConc SpecTouch SpecApart BaseFacts ParserFacts ValidateFacts StoreFacts PolicyFacts RelFacts
  SearchRun SearchFacts SearchSem SearchTerm ReadFacts GraphFacts ConcFacts ConcSearch TouchFacts.

(** ** Programs with one outcome *)

Lemma outcome_bind {A B} S (p : prog (res A)) (f : A -> prog (res B)) v g x : outcome S (rbind p f) x ->
  (forall y, outcome S p y -> y = v) -> (forall a y, v = Ok a -> outcome S (f a) y -> y = g a) -> x = bind v g.
Proof.
  intros H Hp Hf. apply outcome_rbind in H as [(a & Ha & H) | [(e & H & ->) | [[H ->] | [H ->]]]].
  - apply Hp in Ha. subst v. cbn [bind]. eapply Hf; [reflexivity | exact H].
  - apply Hp in H. subst v. reflexivity.
  - apply Hp in H. subst v. reflexivity.
  - apply Hp in H. subst v. reflexivity.
Qed.

Lemma outcome_lift {A} S (v : res A) y : outcome S (lift v) y -> y = v.
Proof. intros H. apply outcome_ret in H. auto. Qed.

Section Apart.
  Variable E : env.
  Variable P : policy.
  Variable pid : string.
  Variable S : store -> Prop.
  Variable es : list ((string * string) * edge).
  Variable g : goal.
  Variable Q : rnode -> Prop.
  Hypothesis HQ : forall nd t, Q nd -> build E P es nd = Ok t -> paths_in Q t.
  Hypothesis Hone : forall nd x, Q nd -> outcome S (build_prog E P pid nd) x -> x = build E P es nd.

  Lemma one_tree sp sp' : (forall nd why seen x, Q nd -> outcome S (sp nd why seen) x -> x = sp' nd why seen) ->
    forall t seen x, paths_in Q t -> outcome S (search_tree_prog sp t seen) x -> x = search_tree sp' t seen.
  Proof.
    intros Hsp t. induction t as [r ps IH | r ps IH | r a b IHa IHb | r n t why IH] using gtree_ind2; intros seen x Hq H.
    - cbn [search_tree_prog search_tree] in *. cbn in Hq. apply paths_in_all in Hq.
      eapply outcome_bind; [exact H | | intros [[b qs] seen'] y _ Hy; apply outcome_lift in Hy; exact Hy].
      clear H x. revert seen. induction IH as [| p ps Hp _ IH]; intros seen x H; [apply outcome_lift in H; exact H |].
      inversion Hq; subst. cbn [or_loop_prog or_loop] in *. eapply outcome_bind; [exact H | intros z Hz; apply Hp; assumption |].
      intros [z seen1] y _ Hy. cbn [fst snd] in *. destruct (is_success (get_result z)); [apply outcome_lift in Hy; exact Hy |].
      eapply outcome_bind; [exact Hy | apply IH; assumption |]. intros [[b qs] seen2] w _ Hw. apply outcome_lift in Hw. exact Hw.
    - cbn [search_tree_prog search_tree] in *. cbn in Hq. apply paths_in_all in Hq.
      eapply outcome_bind; [exact H | | intros [[b qs] seen'] y _ Hy; apply outcome_lift in Hy; exact Hy].
      clear H x. revert seen. induction IH as [| p ps Hp _ IH]; intros seen x H; [apply outcome_lift in H; exact H |].
      inversion Hq; subst. cbn [and_loop_prog and_loop] in *. eapply outcome_bind; [exact H | intros z Hz; apply Hp; assumption |].
      intros [z seen1] y _ Hy. cbn [fst snd] in *. destruct (is_failure (get_result z)); [apply outcome_lift in Hy; exact Hy |].
      eapply outcome_bind; [exact Hy | apply IH; assumption |]. intros [[b qs] seen2] w _ Hw. apply outcome_lift in Hw. exact Hw.
    - cbn [search_tree_prog search_tree] in *. destruct Hq as [Hqa Hqb].
      eapply outcome_bind; [exact H | intros z Hz; apply IHa; assumption |]. intros [z seen1] y _ Hy. cbn [fst snd] in *.
      eapply outcome_bind; [exact Hy | intros w Hw; apply IHb; assumption |]. intros [w seen2] v _ Hv. apply outcome_lift in Hv. exact Hv.
    - cbn in *. auto.
  Qed.

  Lemma one_path : forall n nd why seen x, Q nd -> outcome S (search_path_prog E P pid g n nd why seen) x ->
    x = search_path E P es g n nd why seen.
  Proof.
    intros n. induction n as [| n IH]; intros nd why seen x Hq H; cbn [search_path_prog search_path] in *; [apply outcome_lift in H; exact H |].
    eapply outcome_bind; [exact H | intros y Hy; apply outcome_lift in Hy; exact Hy |]. clear H x. intros id x _ H.
    cbv beta in *. destruct (existsb (String.eqb id) seen); [apply outcome_lift in H; exact H |]. cbv zeta in *.
    eapply outcome_bind; [exact H | intros y Hy; apply outcome_lift in Hy; exact Hy |]. clear H x. intros f x _ H. cbv beta in *.
    destruct (f || is_terminal nd); [apply outcome_lift in H; exact H |].
    eapply outcome_bind; [exact H | intros y Hy; apply Hone; assumption |]. clear H x. intros t x Ht H. cbv beta in *.
    eapply outcome_bind; [exact H | intros y Hy; eapply one_tree; [| eapply HQ; eassumption | exact Hy]; intros; apply IH; assumption |].
    clear H x. intros [z seen1] x _ H. apply outcome_lift in H. exact H.
  Qed.

  Lemma one_search n root x : Q root -> outcome S (search_prog E P pid n root g) x -> x = search E P es n root g.
  Proof.
    intros Hq H. unfold search_prog, search in *. eapply outcome_bind; [exact H | intros y Hy; eapply one_path; eassumption |].
    intros z y _ Hy. apply outcome_lift in Hy. exact Hy.
  Qed.
End Apart.

(** ** Searches in stores that agree on what the search consults *)

Section Stores.
  Variable E : env.
  Variable s : store.
  Hypothesis Hs : store_ok E s.
  Variable pid : string.
  Variable rec : policy_record.
  Hypothesis Hrec : policies s pid = Some rec.
  Variable root : rnode.
  Variable S : store -> Prop.
  Hypothesis HS : forall s', S s' -> store_ok E s' /\ policies s' pid = Some rec /\ same_consulted E (pr_policy rec) pid root s s'.

  Let P := pr_policy rec.
  Let Q := reach E P (key_subject E (relationships s pid)) root.

  Lemma reached_rules : forall rs l, relation_of P rs l -> exists t, expression E l t.
  Proof.
    pose proof (so_policy _ _ Hs pid rec Hrec) as [_ Hw].
    intros rs l Hl. destruct (wf_expressions _ _ Hw rs l Hl) as (t & Ht & _). eauto.
  Qed.

  Lemma one_rule e rel t ru x : Q (NSet (Some e) rel) -> rewrites E P e rel t -> occurs ru t ->
    outcome S (evaluate_prog E pid ru (Some e) rel) x -> x = evaluate E (edges_of pid s) ru (Some e) rel.
  Proof.
    intros Hq Hw Ho H. apply outcome_evaluate in H as [(s' & Hs' & <-) | H].
    - destruct (HS s' Hs') as (Hok & _ & Hc). destruct ru as [| c | ts cu |]; cbn [evaluate]; try reflexivity.
      + symmetry. apply successors_ext; [exact Hs | exact Hok |]. intros r Hr. apply Hc. exists e, rel, rel. split; [exact Hq |].
        split; [exists t; auto | exact Hr].
      + rewrite (successors_ext E s s' pid e ts); [reflexivity | exact Hs | exact Hok |]. intros r Hr. apply Hc. exists e, rel, ts.
        split; [exact Hq |]. split; [exists t; eauto | exact Hr].
    - destruct ru; try contradiction; symmetry; apply H.
  Qed.

  Lemma one_goal_tree e rel : Q (NSet (Some e) rel) -> forall t0, rewrites E P e rel t0 -> forall t x, (forall ru, occurs ru t -> occurs ru t0) ->
    outcome S (build_goal_tree_prog E pid t (Some e) rel) x -> x = build_goal_tree E (edges_of pid s) t (Some e) rel.
  Proof.
    intros Hq t0 Hw t. induction t as [| | r | l IHl op r IHr]; intros x Ho H; cbn [build_goal_tree_prog] in H; try (apply outcome_lift in H; exact H).
    - cbn [build_goal_tree]. unfold build_goal_for_rule. eapply outcome_bind; [exact H | |].
      + intros y Hy. eapply one_rule; [exact Hq | exact Hw | apply Ho; constructor | exact Hy].
      + intros ns y _ Hy. apply outcome_lift in Hy. exact Hy.
    - cbn [build_goal_tree]. eapply outcome_bind; [exact H | intros y Hy; apply IHl; [intros; apply Ho, occ_left; assumption | exact Hy] |].
      clear H x. intros a x _ H. cbv beta in *.
      eapply outcome_bind; [exact H | intros y Hy; apply IHr; [intros; apply Ho, occ_right; assumption | exact Hy] |].
      clear H x. intros b x _ H. apply outcome_lift in H. exact H.
  Qed.

  Lemma one_build nd x : Q nd -> outcome S (build_prog E P pid nd) x -> x = build E P (edges_of pid s) nd.
  Proof.
    intros Hq H. destruct nd as [[e |] rel | o | rs |]; cbn [build_prog build handle_entity_set] in *; try (apply outcome_lift in H; exact H).
    destruct (lut_get_relation P (e_res e) rel) as [l |] eqn:Hl; [| apply outcome_lift in H; exact H].
    apply lut_relation_some in Hl as [Hl Hn]. destruct (reached_rules _ l Hl) as (t & Ht).
    assert (Hw : rewrites E P e rel t) by (exists l; auto).
    apply expression_get in Ht as [Hg _]. rewrite Hg in *. cbn [bind].
    apply (one_goal_tree e rel Hq t Hw); [auto | exact H].
  Qed.

  Lemma one_answer_search n g x : outcome S (search_prog E P pid n root g) x -> x = search E P (edges_of pid s) n root g.
  Proof.
    apply one_search with (Q := Q); [| exact one_build | apply re_here].
    apply reach_build; [apply stored_edges; exact Hs | exact reached_rules].
  Qed.

  Lemma one_policy {A} f (x : A) : outcome S (pbind (repo_get_policy pid) f) x -> outcome S (f (Some rec)) x.
  Proof.
    unfold repo_get_policy. cbn [pbind]. intros H. apply outcome_get in H as (s' & Hs' & H). destruct (HS s' Hs') as (_ & Hp & _).
    unfold policies in Hp. rewrite Hp in H. exact H.
  Qed.

  Theorem one_answer q x : search_request pid root q -> outcome S (serve E q) x -> x = answer E q s.
  Proof.
    intros Hq H. assert (Hsearch : forall n o rel a, root = NSet o rel -> forall y, outcome S (check_search E n pid (Some (mkAccess o rel a))) y ->
                          y = check_tree E n pid s o rel a).
    { intros n o rel a Hr y Hy. unfold check_search in Hy. apply one_policy in Hy. cbv beta iota in Hy. cbn [a_object a_relation a_subject] in Hy.
      rewrite <- Hr in Hy. apply one_answer_search in Hy. unfold check_tree. rewrite Hrec, <- Hr. exact Hy. }
    remember root as origin eqn:Hroot in Hq.
    destruct Hq as [n o rel a | n o rel a f | n nd f]; cbn [serve] in H; unfold respond in H.
    - rewrite answer_check. unfold check in H.
      assert (H' : x = bind (bind (check_tree E n pid s o rel a) (fun t => Ok (is_success (get_result t)))) (fun b => Ok (ADecision b))).
      { eapply outcome_bind; [exact H | | intros b y _ Hy; apply outcome_lift in Hy; exact Hy].
        intros y Hy. eapply outcome_bind; [exact Hy | apply Hsearch; symmetry; exact Hroot |]. intros t z _ Hz. apply outcome_lift in Hz. exact Hz. }
      rewrite H'. destruct (check_tree E n pid s o rel a); reflexivity.
    - rewrite answer_explain. unfold explain_check in H.
      assert (H' : x = bind (bind (serializer_factory f) (fun _ => bind (check_tree E n pid s o rel a) (fun t =>
                         bind (serialize n f t) (fun _ => Ok (is_success (get_result t), t))))) (fun y => Ok (AExplained (fst y) (snd y)))).
      { eapply outcome_bind; [exact H | | intros b y _ Hy; apply outcome_lift in Hy; exact Hy].
        intros y Hy. eapply outcome_bind; [exact Hy | apply outcome_lift |]. clear y Hy. intros w y _ Hy. cbv beta in *.
        eapply outcome_bind; [exact Hy | apply Hsearch; symmetry; exact Hroot |]. clear y Hy. intros t y _ Hy. cbv beta in *.
        eapply outcome_bind; [exact Hy | apply outcome_lift |]. clear y Hy. intros v y _ Hy. apply outcome_lift in Hy. exact Hy. }
      rewrite H'. destruct (serializer_factory f); try reflexivity. cbn [bind]. destruct (check_tree E n pid s o rel a) as [t | | |]; try reflexivity.
      cbn [bind]. destruct (serialize n f t); reflexivity.
    - rewrite answer_expand, Hrec. unfold expand in H. rewrite Hroot in *.
      assert (H' : x = bind (bind (serializer_factory f) (fun _ => bind (search E (pr_policy rec) (edges_of pid s) n root GoalNone) (fun t =>
                         bind (serialize n f t) (fun _ => Ok t)))) (fun y => Ok (AExpanded y))).
      { eapply outcome_bind; [exact H | | intros b y _ Hy; apply outcome_lift in Hy; exact Hy].
        intros y Hy. eapply outcome_bind; [exact Hy | apply outcome_lift |]. clear y Hy. intros w y _ Hy. cbv beta in *.
        apply one_policy in Hy. cbv beta iota in Hy.
        eapply outcome_bind; [exact Hy | apply one_answer_search |]. clear y Hy. intros t y _ Hy. cbv beta in *.
        eapply outcome_bind; [exact Hy | apply outcome_lift |]. clear y Hy. intros v y _ Hy. apply outcome_lift in Hy. exact Hy. }
      rewrite H'. destruct (serializer_factory f); try reflexivity. cbn [bind]. destruct (search E (pr_policy rec) (edges_of pid s) n root GoalNone) as [t | | |]; try reflexivity.
      cbn [bind]. destruct (serialize n f t); reflexivity.
  Qed.
End Stores.

(** ** Places that nobody writes *)

Lemma serve_may_write E q : within (reads_at E q) (may_write E q) (serve E q).
Proof.
  destruct q as [| | | | | | | | | pid sel | | | |]; try exact (serve_within E _). destruct sel as [sel |]; [| exact (serve_within E _)].
  cbn [serve]. apply within_respond. unfold delete_relationships, repo_delete_relationships, repo_find_relationships.
  unfold rbind at 1, lift. cbn [pbind]. constructor; [intros; reflexivity |]. intros es.
  destruct (new_selector_spec (Some sel)) as [sp | | |] eqn:Hsp; cbn [bind]; try constructor.
  apply within_rbind; [| intros; constructor].
  assert (Hsel : forall r, In r (filter (selector_satisfies sp) (map (fun x => from_internal (snd x)) es)) -> selects sel r).
  { intros r Hr. apply filter_In in Hr as [_ Hr]. apply (selector_ok sel sp r Hsp). exact Hr. }
  induction (filter (selector_satisfies sp) (map (fun x => from_internal (snd x)) es)) as [| r l IH]; cbn [map_prog]; [constructor |].
  apply within_rbind; [| intros a; apply within_rbind; [apply IH; intros; apply Hsel; right; assumption | intros; constructor]].
  unfold repo_delete_relationship, rbind, lift. cbn [pbind]. destruct (to_internal (Some r)) as [e | | |] eqn:He; try constructor.
  - reflexivity.
  - intros x. constructor; [| constructor; [exact Logic.I | constructor]]. cbn [may_write]. split; [reflexivity |]. exists r.
    split; [apply Hsel; left; reflexivity | exists e; auto].
Qed.

Section Unwritten.
  Variable E : env.
  Variable qs : list request.
  Variable W : place -> Prop.
  Hypothesis HW : forall q x, In q qs -> may_write E q x -> W x.

  Lemma unwritten_interleave x : ~ W x -> forall sched c, sorted_store (snd c) ->
    (forall p, In p (fst c) -> exists q, In q qs /\ within (reads_at E q) (may_write E q) p) ->
    same_at x (snd c) (snd (interleave sched c)).
  Proof.
    intros Hx sched. induction sched as [| i sched IH]; intros c Hs Hp; [apply same_at_refl |]. cbn [interleave fold_left]. unfold advance at 2.
    destruct (nth_error (fst c) i) as [p |] eqn:Hi; [| apply IH; assumption]. apply nth_error_In in Hi.
    destruct (step1 p (snd c)) as [[p' s'] |] eqn:Hst; [| apply IH; assumption].
    destruct (Hp p Hi) as (q & Hq & Hw). pose proof (within_step _ _ p (snd c) (snd c) Hw Hs Hs (fun y _ => same_at_refl y _)) as Hstep.
    rewrite Hst in Hstep. destruct Hstep as (_ & Hw' & _ & Hsame).
    assert (Hn : ~ may_write E q x) by (intros Hwx; apply Hx; eapply HW; eassumption).
    eapply same_at_trans; [exact (proj1 (Hsame x Hn)) |]. apply (IH (replace i p' (fst c), s')).
    - eapply step_sorted; eassumption.
    - intros r Hr. cbn [fst] in Hr. apply in_replace in Hr as [-> | Hr]; eauto.
  Qed.

  Lemma unwritten x s sched : ~ W x -> sorted_store s -> same_at x s (snd (interleave sched (start E qs s))).
  Proof.
    intros Hx Hs. apply (unwritten_interleave x Hx sched (start E qs s)); [exact Hs |].
    intros p Hp. cbn [start fst] in Hp. apply in_map_iff in Hp as (q & <- & Hq). exists q. split; [exact Hq | apply serve_may_write].
  Qed.
End Unwritten.

Lemma unwritten_relationship E s s' pid r : store_ok E s -> store_ok E s' ->
  (forall k, fst k = sha E (object_text r) -> same_at (AtEdge pid k) s s') -> (In r (relationships s pid) <-> In r (relationships s' pid)).
Proof.
  intros H H' Hk. rewrite !(relationships_in E) by assumption.
  assert (Hone : forall e, to_internal (Some r) = Ok e -> same_at (AtEdge pid (edge_key E e)) s s').
  { intros e He. apply Hk. destruct (dst_subject _ _ He) as (o & u & Ho & _ & _ & Hs). unfold edge_key. cbn [fst].
    unfold node_key. rewrite Hs. cbn. unfold object_text. rewrite Ho. reflexivity. }
  split; intros (e & He & Hg); exists e; split; try exact He; specialize (Hone e He); cbn in Hone; congruence.
Qed.
