(** Proofs about requests that do not make the server panic. *)
From Verif Require Import Base Domain Lexer Parser Validate Store Search Explain Yaml Service Dump Api SpecGrammar SpecPolicy SpecStore SpecConc
  SpecSearch SpecDot SpecSafe BaseFacts ParserFacts ValidateFacts StoreFacts PolicyFacts RelFacts SearchTerm SearchSem GraphFacts ConcFacts DotFacts DumpFacts.

(** ** Programs whose answers satisfy [Q] when every read is answered by a store that satisfies [I] *)
Section Answers.
  Variable I : store -> Prop.

  Fixpoint answers {A} (Q : A -> Prop) (p : prog A) : Prop :=
    match p with
    | Ret a => Q a
    | PolGet id k => forall s, I s -> answers Q (k (kv_get scmp id (st_pol s)))
    | PolHas id k => forall s, I s -> answers Q (k (match kv_get scmp id (st_pol s) with Some _ => true | None => false end))
    | PolIds k => forall s, I s -> answers Q (k (map fst (st_pol s)))
    | EdgeGet pid key k => forall s, I s -> answers Q (k (kv_get ecmp (pid, key) (st_edges s)))
    | EdgeList pid k => forall s, I s -> answers Q (k (edges_of pid s))
    | DataGet key k => forall s, I s -> answers Q (k (kv_get pcmp key (st_data s)))
    | PolSet _ _ k | PolDel _ k | EdgeSet _ _ _ k | EdgeDel _ _ k | DataSet _ _ k | DataDel _ k => answers Q k
    end.

  Lemma answers_pbind {A B} (Q : A -> Prop) (R : B -> Prop) (p : prog A) (f : A -> prog B) :
    answers Q p -> (forall a, Q a -> answers R (f a)) -> answers R (pbind p f).
  Proof. intros Hp Hf. induction p; cbn [pbind answers] in *; auto. Qed.

  (** An answer that is not a panic and, when it is a result, satisfies [Q]. *)
  Definition calm {A} (Q : A -> Prop) (x : res A) : Prop :=
    match x with Ok a => Q a | Panic => False | _ => True end.

  Lemma answers_rbind {A B} (Q : A -> Prop) (R : B -> Prop) (p : prog (res A)) (f : A -> prog (res B)) :
    answers (calm Q) p -> (forall a, Q a -> answers (calm R) (f a)) -> answers (calm R) (rbind p f).
  Proof.
    intros Hp Hf. unfold rbind. eapply answers_pbind; [exact Hp |]. intros [a | e | |] Ha; cbn in *; auto.
  Qed.

  Lemma answers_map {A B} (Q : B -> Prop) (f : A -> prog (res B)) l :
    (forall a, answers (calm Q) (f a)) -> answers (calm (fun _ => True)) (map_prog f l).
  Proof.
    intros Hf. induction l as [| a l IH]; cbn [map_prog]; [exact Logic.I |].
    eapply answers_rbind; [apply Hf |]. intros b _. eapply answers_rbind; [exact IH |]. intros bs _. exact Logic.I.
  Qed.

  Lemma answers_step {A} (Q : A -> Prop) (p : prog A) s p' s' : answers Q p -> I s -> step1 p s = Some (p', s') -> answers Q p'.
  Proof. intros Hp Hs H. destruct p; cbn [step1 answers] in *; try discriminate; injection H as <- <-; auto. Qed.

  (** The programs of a configuration keep to it while the store does. *)
  Lemma answers_interleave Q sched : forall c, (forall m, I (snd (interleave (firstn m sched) c))) ->
    (forall p, In p (fst c) -> answers Q p) -> forall p, In p (fst (interleave sched c)) -> answers Q p.
  Proof.
    induction sched as [| i sched IH]; intros c HI Hc; [exact Hc |]. cbn [interleave fold_left]. apply IH.
    - intros m. exact (HI (S m)).
    - unfold advance. destruct (nth_error (fst c) i) as [p |] eqn:Hi; [| exact Hc]. apply nth_error_In in Hi.
      destruct (step1 p (snd c)) as [[p' s'] |] eqn:Hs; [| exact Hc]. cbn [fst]. intros r Hr.
      apply in_replace in Hr as [-> | Hr]; [| auto]. eapply answers_step; [apply Hc, Hi | exact (HI 0) | exact Hs].
  Qed.
End Answers.

Lemma calm_mono {A} (Q R : A -> Prop) x : (forall a, Q a -> R a) -> calm Q x -> calm R x.
Proof. intros H. destruct x; cbn; auto. Qed.

Lemma calm_true {A} (x : res A) : calm (fun _ => True) x <-> x <> Panic.
Proof. destruct x; cbn; split; intros; try discriminate; try contradiction; auto; congruence. Qed.

(** ** What careful requests leave in the store *)

Record careful_ok (E : env) (T : string -> Prop) (s : store) : Prop := {
  co_ok : store_ok E s;
  co_restricted : forall id rec, policies s id = Some rec -> restricted (pr_policy rec);
  co_tupleset : forall id rec ts, policies s id = Some rec -> tupleset E (pr_policy rec) ts -> T ts;
  co_narrow : forall pid r, In r (relationships s pid) -> narrow E T r }.

Lemma version_careful E T qs s id rec : careful_ok E T s -> Forall (careful E T) qs -> version E qs s id rec ->
  restricted (pr_policy rec) /\ forall ts, tupleset E (pr_policy rec) ts -> T ts.
Proof.
  intros H Hq Hv. rewrite Forall_forall in Hq.
  destruct Hv as [rec Ha | now d app p Hin Hd Hw Hid | d app p old Hin Hd Hw Hid Ho]; cbn [pr_policy].
  - rewrite answer_get_policy in Ha. injection Ha as Ha. split; [exact (co_restricted _ _ _ H _ _ Ha) |].
    intros ts. exact (co_tupleset _ _ _ H _ _ ts Ha).
  - apply (proj2 (Hq _ Hin) p Hd).
  - apply (proj2 (Hq _ Hin) p Hd).
Qed.

Lemma careful_interleave E T qs s sched : reachable E s -> careful_ok E T s -> Forall (careful E T) qs ->
  careful_ok E T (snd (interleave sched (start E qs s))).
Proof.
  intros Hr H Hq. pose proof (reachable_ok _ _ (re_serve E s qs sched Hr)) as Hok'. pose proof (co_ok _ _ _ H) as Hok.
  destruct (interleave_origin E qs s sched) as [Hp He]. constructor.
  - exact Hok'.
  - intros id rec Hrec. apply (version_careful E T qs s id rec H Hq (Hp _ _ Hrec)).
  - intros id rec ts Hrec. apply (version_careful E T qs s id rec H Hq (Hp _ _ Hrec)).
  - intros pid r Hin. apply (relationships_in E _ _ _ Hok') in Hin as (e & Hi & Hg).
    destruct (He _ _ _ Hg) as [Hs | (now & app & r' & rec & Hin & He' & _ & _)].
    + apply (co_narrow _ _ _ H pid). apply (relationships_in E _ _ _ Hok). eauto.
    + assert (r' = r) as -> by (rewrite <- (from_to_internal r' e He'); apply from_to_internal, Hi).
      rewrite Forall_forall in Hq. destruct (Hq _ Hin) as (x & [= <-] & _ & Hx). exact Hx.
Qed.

Lemma careful_reachable E T s : careful_store E T s -> reachable E s /\ careful_ok E T s.
Proof.
  induction 1 as [| s qs sched Hs [IHr IHo] Hq].
  - split; [apply re_empty |]. constructor; [apply reachable_ok, re_empty | | |]; intros; try discriminate. contradiction.
  - split; [apply re_serve, IHr | apply careful_interleave; assumption].
Qed.

(** ** The search *)
Section Search.
  Variable E : env.
  Variable T : string -> Prop.
  Notation ok := (careful_ok E T).
  Variable P : policy.
  Hypothesis Hw : well_formed E P.
  Hypothesis HT : forall ts, tupleset E P ts -> T ts.
  Variable pid : string.

  Definition objects (ns : list rnode) : Prop := forall n, In n ns -> has_object n.

  Lemma successors_calm s o rel : ok s -> exists ns, get_successors E (edges_of pid s) (Some o) rel = Ok ns /\ objects ns /\
    (T rel -> forall n, In n ns -> forall rs, n <> NWild rs).
  Proof.
    intros H. pose proof (co_ok _ _ _ H) as Hok.
    destruct (GraphFacts.stored_edges E s pid Hok o rel) as (ns & He & Hn). exists ns. split; [exact He |]. split.
    - intros n Hin. apply Hn in Hin as (u & (r & Hr & Hu & _) & ->). apply (relationships_in E) in Hr as (e & Hi & _); [| exact Hok].
      destruct r as [[x |] l [[y | [y |] l' | rs |] |]]; cbn in Hi, Hu; try discriminate; injection Hu as <-; exact Logic.I.
    - intros Ht n Hin rs ->. apply Hn in Hin as (u & (r & Hr & Hu & Hk) & Hx).
      destruct u as [| |rs' |]; try discriminate. eapply (co_narrow _ _ _ H pid r Hr rs' o rel Hu Ht Hk).
  Qed.

  Lemma map_ttu cu ns : objects ns -> (forall n, In n ns -> forall rs, n <> NWild rs) -> calm objects (map_res (build_ttu_node cu) ns).
  Proof.
    induction ns as [| n ns IH]; intros Ho Hn; [intros ? [] |]. cbn [map_res].
    assert (IH' : calm objects (map_res (build_ttu_node cu) ns)) by (apply IH; [intros m Hm; apply Ho | intros m Hm; apply Hn]; right; exact Hm).
    pose proof (Ho n (or_introl eq_refl)) as Hon. pose proof (Hn n (or_introl eq_refl)) as Hwn.
    destruct n as [o rel | o | rs |]; cbn [build_ttu_node bind]; try exact Logic.I; try (contradiction (Hwn rs eq_refl));
      (destruct (map_res (build_ttu_node cu) ns) as [bs | e | |]; cbn in *; auto; intros m [<- | Hm]; [| auto]; destruct o; auto).
  Qed.

  Lemma evaluate_calm ru o rel : (forall ts cu, ru = RTtu ts cu -> T ts) -> answers ok (calm objects) (evaluate_prog E pid ru (Some o) rel).
  Proof.
    intros Ht. destruct ru as [| c | ts cu |]; cbn [evaluate_prog].
    - unfold successors_prog. cbn [answers lift]. intros s Hs. destruct (successors_calm s o rel Hs) as (ns & -> & Hn & _). exact Hn.
    - cbn. intros n [<- | []]. exact Logic.I.
    - eapply answers_rbind with (Q := fun ns => objects ns /\ forall n, In n ns -> forall rs, n <> NWild rs).
      + unfold successors_prog. cbn [answers lift]. intros s Hs. destruct (successors_calm s o ts Hs) as (ns & -> & Hn & Hx).
        cbn. split; [exact Hn | eapply Hx, Ht; reflexivity].
      + intros ns [Ho Hn]. cbn [lift answers]. apply map_ttu; assumption.
    - exact Logic.I.
  Qed.

  (** Every node of the tree has its object. *)
  Definition drawn (t : gtree) : Prop := forall n, displayed t n -> has_object n.
  Definition drawn1 (x : gtree * list string) : Prop := drawn (fst x).
  Definition drawn_all (x : bool * list gtree * list string) : Prop := Forall drawn (snd (fst x)).

  Lemma drawn_or r ps : drawn (GOr r ps) <-> Forall drawn ps.
  Proof.
    unfold drawn. rewrite Forall_forall. split; intros H.
    - intros p Hp n Hn. apply H, displayed_or. eauto.
    - intros n Hn. apply displayed_or in Hn as (p & Hp & Hn). eauto.
  Qed.

  Lemma drawn_and r ps : drawn (GAnd r ps) <-> Forall drawn ps.
  Proof.
    unfold drawn. rewrite Forall_forall. split; intros H.
    - intros p Hp n Hn. apply H, displayed_and. eauto.
    - intros n Hn. apply displayed_and in Hn as (p & Hp & Hn). eauto.
  Qed.

  Lemma drawn_diff r a b : drawn (GDiff r a b) <-> drawn a /\ drawn b.
  Proof.
    unfold drawn. split.
    - intros H. split; intros n Hn; apply H, displayed_diff; auto.
    - intros [Ha Hb] n Hn. apply displayed_diff in Hn as [Hn | Hn]; auto.
  Qed.

  Lemma drawn_path r n p why : drawn (GPath r n p why) <-> has_object n /\ forall t, p = Some t -> drawn t.
  Proof.
    unfold drawn. split.
    - intros H. split; [apply H, displayed_path; auto |]. intros t -> m Hm. apply H, displayed_path. eauto.
    - intros [Hn Hp] m Hm. apply displayed_path in Hm as [-> | (t & Ht & Hm)]; eauto.
  Qed.

  Lemma build_tree_calm t o rel : whole t -> (forall ts cu, occurs (RTtu ts cu) t -> T ts) ->
    answers ok (calm drawn) (build_goal_tree_prog E pid t (Some o) rel).
  Proof.
    intros Hwt. induction Hwt as [| ru | a op b _ IHa _ IHb]; intros Ht; cbn [build_goal_tree_prog].
    - exact Logic.I.
    - eapply answers_rbind; [apply evaluate_calm |].
      + intros ts cu ->. apply (Ht ts cu). constructor.
      + intros ns Hn. cbn. apply drawn_or, Forall_forall. intros p Hp. apply in_map_iff in Hp as (n & <- & Hin).
        apply drawn_path. split; [apply Hn, Hin | discriminate].
    - eapply answers_rbind; [apply IHa; intros ts cu Ho; apply (Ht ts cu), occ_left, Ho |]. intros x Hx.
      eapply answers_rbind; [apply IHb; intros ts cu Ho; apply (Ht ts cu), occ_right, Ho |]. intros y Hy.
      destruct op; cbn; [apply drawn_or | apply drawn_and | apply drawn_diff |]; auto.
  Qed.

  Lemma build_calm nd : has_object nd -> answers ok (calm drawn) (build_prog E P pid nd).
  Proof.
    intros Hn. destruct nd as [[e |] rel | o | rs |]; cbn [build_prog]; try contradiction; try exact Logic.I;
      try (cbn; apply drawn_path; split; [exact Hn | discriminate]).
    destruct (lut_get_relation P (e_res e) rel) as [l |] eqn:Hl; [| exact Logic.I].
    apply lut_relation_some in Hl as [Hl _]. destruct (wf_expressions _ _ Hw _ l Hl) as (t & Ht & _).
    pose proof Ht as Hx. apply expression_get in Ht as [-> Hwt]. unfold lift at 1, rbind at 1. cbn [pbind].
    apply build_tree_calm; [exact Hwt |]. intros ts cu Ho. apply HT. exists (e_res e), l, t, cu. auto.
  Qed.

  Section Loops.
    Variable f : gtree -> list string -> prog (res (gtree * list string)).

    Lemma or_loop_calm ps : Forall (fun p => forall seen, drawn p -> answers ok (calm drawn1) (f p seen)) ps -> forall seen, Forall drawn ps ->
      answers ok (calm drawn_all) (or_loop_prog f ps seen).
    Proof.
      induction 1 as [| p ps Hp Hps IH]; intros seen Hd; cbn; [constructor |]. inversion Hd; subst.
      eapply answers_rbind; [apply Hp; assumption |]. intros x Hx. destruct (is_success (get_result (fst x))).
      - cbn. constructor; [exact Hx | assumption].
      - eapply answers_rbind; [apply IH; assumption |]. intros [[b qs] seen'] Hy. cbn. constructor; [exact Hx | exact Hy].
    Qed.

    Lemma and_loop_calm ps : Forall (fun p => forall seen, drawn p -> answers ok (calm drawn1) (f p seen)) ps -> forall seen, Forall drawn ps ->
      answers ok (calm drawn_all) (and_loop_prog f ps seen).
    Proof.
      induction 1 as [| p ps Hp Hps IH]; intros seen Hd; cbn; [constructor |]. inversion Hd; subst.
      eapply answers_rbind; [apply Hp; assumption |]. intros x Hx. destruct (is_failure (get_result (fst x))).
      - cbn. constructor; [exact Hx | assumption].
      - eapply answers_rbind; [apply IH; assumption |]. intros [[b qs] seen'] Hy. cbn. constructor; [exact Hx | exact Hy].
    Qed.
  End Loops.

  Lemma search_tree_calm sp : (forall nd why seen, has_object nd -> answers ok (calm drawn1) (sp nd why seen)) ->
    forall t seen, drawn t -> answers ok (calm drawn1) (search_tree_prog sp t seen).
  Proof.
    intros Hsp t. induction t as [r ps IH | r ps IH | r a b IHa IHb | r n p why IH] using gtree_ind2; intros seen Hd; cbn [search_tree_prog].
    - apply drawn_or in Hd. eapply answers_rbind; [apply or_loop_calm; [exact IH | exact Hd] |].
      intros [[b qs] seen'] Hq. cbn. apply drawn_or. exact Hq.
    - apply drawn_and in Hd. eapply answers_rbind; [apply and_loop_calm; [exact IH | exact Hd] |].
      intros [[b qs] seen'] Hq. cbn. apply drawn_and. exact Hq.
    - apply drawn_diff in Hd as [Ha Hb]. eapply answers_rbind; [apply IHa, Ha |]. intros x Hx.
      eapply answers_rbind; [apply IHb, Hb |]. intros y Hy. cbn. apply drawn_diff. split; assumption.
    - apply drawn_path in Hd as [Hn _]. apply Hsp, Hn.
  Qed.

  Lemma search_path_calm g : g <> GoalEntity None -> forall n nd why seen, has_object nd ->
    answers ok (calm drawn1) (search_path_prog E P pid g n nd why seen).
  Proof.
    intros Hg n. induction n as [| n IH]; intros nd why seen Hn; [exact Logic.I |]. cbn [search_path_prog].
    assert (Hid : exists id, node_id E nd = Ok id) by (destruct nd as [[] | [] | |]; cbn in *; try contradiction; eauto).
    assert (Hf : exists b, goal_found nd g = Ok b).
    { destruct g as [| [a |]]; [| | congruence]; destruct nd as [[] | [] | |]; cbn in *; try contradiction; eauto. }
    destruct Hid as [id ->]. unfold lift at 1, rbind at 1. cbn [pbind]. destruct (existsb (String.eqb id) seen).
    { cbn. apply drawn_path. split; [exact Hn | discriminate]. }
    destruct Hf as [b ->]. unfold lift at 1, rbind at 1. cbn [pbind]. destruct (b || is_terminal nd).
    { cbn. apply drawn_path. split; [exact Hn | discriminate]. }
    eapply answers_rbind; [apply build_calm, Hn |]. intros t Ht.
    eapply answers_rbind; [apply search_tree_calm; [intros; apply IH; assumption | exact Ht] |]. intros x Hx.
    cbn. apply drawn_path. split; [exact Hn |]. intros t' [= <-]. exact Hx.
  Qed.

  Lemma search_calm g n nd : g <> GoalEntity None -> has_object nd -> answers ok (calm drawn) (search_prog E P pid n nd g).
  Proof.
    intros Hg Hn. unfold search_prog. eapply answers_rbind; [apply search_path_calm; assumption |]. intros x Hx. exact Hx.
  Qed.
End Search.

(** ** Rendering *)

Lemma for_each_no_panic {A} (f : A -> res unit) l : (forall a, f a <> Panic) -> for_each f l <> Panic.
Proof. intros H. induction l as [| a l IH]; cbn; [discriminate |]. specialize (H a). destruct (f a); cbn; congruence. Qed.

Lemma json_no_panic n : forall t st a, json_visit n t st a <> Panic.
Proof.
  induction n as [| n IH]; intros t st a; cbn [json_visit]; [discriminate |]. destruct (existsb _ _); [discriminate |].
  apply for_each_no_panic. intros b. apply IH.
Qed.

Lemma serialize_calm n f t : drawn t -> serialize n f t <> Panic.
Proof.
  intros H. destruct f; cbn [serialize]; try discriminate; [apply json_no_panic |].
  destruct (goal_dot_total t H) as [l ->]. discriminate.
Qed.

(** ** The requests *)

Lemma from_internal_complete e : exists e', to_internal (Some (from_internal e)) = Ok e'.
Proof. destruct e as [[] [r i l []]]; eexists; reflexivity. Qed.

Lemma verify_calm E d p : complete_definition d -> defines d p -> verify_policy E p <> Panic.
Proof. intros Hc Hd. destruct (complete_returns E d p Hc Hd) as [[? ->] | [? ->]]; discriminate. Qed.

Lemma find_calm I pid sel : with_parts sel -> answers I (calm (Forall (fun r => exists e, r = from_internal e))) (repo_find_relationships pid (Some sel)).
Proof.
  intros (H1 & H2 & H3 & H4 & H5). unfold repo_find_relationships. cbn [answers lift]. intros s _. unfold new_selector_spec.
  destruct (s_obj sel) as [[] |]; try congruence; cbn [bind calm]; try exact Logic.I;
    (destruct (s_rel sel) as [[] |]; try congruence; cbn [bind calm]; try exact Logic.I);
    (destruct (s_subj sel) as [[] |]; try congruence; cbn [bind calm]; try exact Logic.I);
    apply Forall_forall; intros r Hr; apply filter_In in Hr as [Hr _]; apply in_map_iff in Hr as (x & <- & _); eauto.
Qed.

Lemma map_calm {A B} I (Q : B -> Prop) (R : A -> Prop) (f : A -> prog (res B)) l : Forall R l ->
  (forall a, R a -> answers I (calm Q) (f a)) -> answers I (calm (fun _ => True)) (map_prog f l).
Proof.
  intros Hl Hf. induction Hl as [| a l Ha _ IH]; cbn [map_prog]; [exact Logic.I |].
  eapply answers_rbind; [apply Hf, Ha |]. intros b _. eapply answers_rbind; [exact IH |]. intros bs _. exact Logic.I.
Qed.

Lemma delete_rels_calm E I pid sel : with_parts sel -> answers I (calm (fun _ => True)) (repo_delete_relationships E pid (Some sel)).
Proof.
  intros Hc. unfold repo_delete_relationships. eapply answers_rbind; [apply find_calm, Hc |]. intros rs Hr.
  eapply answers_rbind; [| intros a _; exact Logic.I]. eapply map_calm with (Q := fun _ => True); [exact Hr |]. intros r [e ->].
  unfold repo_delete_relationship. destruct (from_internal_complete e) as [e' ->]. cbn. intros s _. exact Logic.I.
Qed.

Lemma valid_selector_calm p sel : with_parts sel -> (s_obj sel = Some OSWild -> s_rel sel = Some LSWild) -> valid_selector p (Some sel) <> Panic.
Proof.
  intros (H1 & H2 & H3 & H4 & H5) Hn. unfold valid_selector, valid_object_selector, valid_relation_selector, valid_subject_selector.
  assert (Hs : forall n, match get_resource_by_name p n with Some _ => Ok tt | None => Err EResourceNotFound end <> Panic).
  { intros n. destruct (get_resource_by_name p n); discriminate. }
  assert (Hu : match s_subj sel with
               | None => Panic
               | Some (USSubject u) => let* n := subject_resource_name u in match get_resource_by_name p n with Some _ => Ok tt | None => Err EResourceNotFound end
               | Some (USResource rs) => match get_resource_by_name p rs with Some _ => Ok tt | None => Err EResourceNotFound end
               | Some USWild => Ok tt
               | Some USUnset => Err EInvalidVariant
               end <> Panic).
  { destruct (s_subj sel) as [[[[] |] | | |] |]; try congruence; cbn [subject_resource_name bind]; auto; discriminate. }
  destruct (s_obj sel) as [[[o |] | rs | |] |]; try congruence; cbn [object_selector_resource_name bind].
  1: remember (e_res o) as rs.
  1-2: destruct (get_resource_by_name p rs) as [r |] eqn:Hr; cbn [bind]; [| discriminate];
    destruct (s_rel sel) as [[] |]; cbn [get_relation_by_name bind]; try exact Hu;
    (destruct (find _ (rs_relations r)); cbn [bind]; [exact Hu | discriminate]).
  - rewrite (Hn eq_refl). cbn [bind]. exact Hu.
  - discriminate.
Qed.

Lemma respond_calm {A} I (Q : A -> Prop) (p : prog (res A)) f : answers I (calm Q) p -> answers I (calm (fun _ => True)) (respond p f).
Proof. intros H. unfold respond. eapply answers_rbind; [exact H |]. intros a _. exact Logic.I. Qed.

Lemma check_search_calm E T n pid a : whole_access a -> answers (careful_ok E T) (calm drawn) (check_search E n pid a).
Proof.
  intros (x & o & u & -> & Ho & Hu). unfold check_search, repo_get_policy. cbn [pbind answers]. intros s Hs.
  destruct (kv_get scmp pid (st_pol s)) as [rec |] eqn:Hg; [| exact Logic.I]. rewrite Ho, Hu.
  apply search_calm; [apply (so_policy _ _ (co_ok _ _ _ Hs) pid rec Hg) | intros ts; apply (co_tupleset _ _ _ Hs pid rec ts Hg) | discriminate | exact Logic.I].
Qed.

Lemma serve_calm E T q : careful E T q -> answers (careful_ok E T) (fun x => x <> Panic) (serve E q).
Proof.
  intros Hq. enough (answers (careful_ok E T) (calm (fun _ => True)) (serve E q)) as H.
  { revert H. generalize (serve E q). intros p H. induction p; cbn [answers] in *; auto. apply calm_true, H. }
  destruct q; cbn [serve careful] in *.
  - (* create *) eapply respond_calm with (Q := fun _ => True). destruct Hq as [Hc _]. unfold create_policy.
    destruct (get_policy_from_definition d) as [p | e | |] eqn:Hd; cbn; auto.
    + intros s _. destruct (kv_get scmp (p_id p) (st_pol s)); [exact Logic.I |].
      pose proof (verify_calm E d p Hc (proj1 (defines_ok d p) Hd)) as Hv.
      destruct (verify_policy E p); cbn; auto.
    + destruct Hc as [Hc _]. destruct d as [[? | [?|] |] |]; try discriminate. congruence.
  - (* update *) eapply respond_calm with (Q := fun _ => True). destruct Hq as [Hc _]. unfold update_policy.
    destruct (get_policy_from_definition d) as [p | e | |] eqn:Hd; cbn; auto.
    + intros s _. destruct (kv_get scmp (p_id p) (st_pol s)); [| exact Logic.I].
      pose proof (verify_calm E d p Hc (proj1 (defines_ok d p) Hd)) as Hv.
      destruct (verify_policy E p); cbn; auto.
    + destruct Hc as [Hc _]. destruct d as [[? | [?|] |] |]; try discriminate. congruence.
  - (* delete policy *) eapply respond_calm with (Q := fun _ => True). unfold delete_policy, repo_delete_policy. cbn [pbind answers]. intros s _.
    destruct (kv_get scmp id (st_pol s)); cbn [pbind answers]; [| exact Logic.I].
    eapply answers_rbind; [apply delete_rels_calm; cbn | intros a _; exact Logic.I].
    repeat split; discriminate.
  - cbn. intros s _. exact Logic.I.
  - cbn. intros s _. exact Logic.I.
  - (* set *) eapply respond_calm with (Q := fun _ => True). destruct Hq as (x & -> & Hc & _). unfold set_relationship, repo_get_policy. cbn [pbind answers].
    intros s Hs. destruct (kv_get scmp pid (st_pol s)) as [rec |] eqn:Hg; [| exact Logic.I].
    destruct (so_policy _ _ (co_ok _ _ _ Hs) pid rec Hg) as [_ Hw]. apply wf_unique in Hw.
    assert (Ha : allowed_relationship (pr_policy rec) (Some x) <> Panic).
    { intros Hp. apply (allowed_panic _ x Hw Hc) in Hp as (o & u & l & _ & _ & Hl & _ & _ & Hr).
      exact (co_restricted _ _ _ Hs pid rec Hg _ _ Hl Hr). }
    unfold rbind at 1, lift at 1. cbn [pbind]. destruct (allowed_relationship (pr_policy rec) (Some x)) as [[] | | |]; try exact Logic.I; [| congruence].
    unfold repo_set_relationship. destruct (proj1 (to_internal_complete x) Hc) as [e ->]. cbn. intros s' _. exact Logic.I.
  - (* delete *) eapply respond_calm with (Q := fun _ => True). destruct Hq as (x & -> & Hc). unfold delete_relationship, repo_delete_relationship.
    destruct (proj1 (to_internal_complete x) Hc) as [e ->]. cbn. intros s' _. exact Logic.I.
  - (* get *) eapply respond_calm with (Q := fun _ => True). destruct Hq as (x & -> & Hc). unfold get_relationship, repo_get_relationship.
    destruct (proj1 (to_internal_complete x) Hc) as [e ->]. cbn. intros s' _. exact Logic.I.
  - (* find *) eapply respond_calm with (Q := fun _ => True). destruct Hq as (x & -> & Hc & Hn). unfold find_relationship_records, repo_get_policy. cbn [pbind answers].
    intros st Hs. destruct (kv_get scmp pid (st_pol st)) as [rec |] eqn:Hg; [| exact Logic.I].
    destruct (so_policy _ _ (co_ok _ _ _ Hs) pid rec Hg) as [_ Hw]. apply wf_unique in Hw.
    pose proof (valid_selector_calm (pr_policy rec) x Hc Hn) as Hv.
    unfold rbind at 1, lift at 1. cbn [pbind]. destruct (valid_selector (pr_policy rec) (Some x)) as [[] | | |]; try exact Logic.I; [| congruence].
    unfold repo_find_relationship_records. eapply answers_rbind; [apply find_calm, Hc |]. intros rs Hr.
    eapply map_calm with (Q := fun _ => True); [exact Hr |]. intros r [e ->].
    unfold repo_get_relationship. destruct (from_internal_complete e) as [e' ->]. cbn. intros s' _. exact Logic.I.
  - (* delete many *) eapply respond_calm with (Q := fun _ => True). destruct Hq as (x & -> & Hc). apply delete_rels_calm, Hc.
  - (* check *) eapply respond_calm with (Q := fun _ => True). unfold check.
    eapply answers_rbind; [apply check_search_calm, Hq |]. intros t _. exact Logic.I.
  - (* explain *) eapply respond_calm with (Q := fun _ => True). unfold explain_check.
    unfold rbind at 1, lift at 1. cbn [pbind]. destruct (serializer_factory f) eqn:Hsf; try exact Logic.I; [| destruct f; discriminate].
    eapply answers_rbind; [apply check_search_calm, Hq |]. intros t Ht. pose proof (serialize_calm n f t Ht) as Hx.
    unfold rbind at 1, lift at 1. cbn [pbind]. destruct (serialize n f t); try exact Logic.I. congruence.
  - (* expand *) eapply respond_calm with (Q := fun _ => True). destruct Hq as (x & -> & Hx). unfold expand.
    unfold rbind at 1, lift at 1. cbn [pbind]. destruct (serializer_factory f) eqn:Hsf; try exact Logic.I; [| destruct f; discriminate].
    unfold repo_get_policy. cbn [pbind answers]. intros s Hs.
    destruct (kv_get scmp pid (st_pol s)) as [rec |] eqn:Hg; [| exact Logic.I].
    eapply answers_rbind.
    + apply search_calm with (T := T); [apply (so_policy _ _ (co_ok _ _ _ Hs) pid rec Hg) | intros ts; apply (co_tupleset _ _ _ Hs pid rec ts Hg) | discriminate | exact Hx].
    + intros t Ht. pose proof (serialize_calm n f t Ht) as Hy.
      unfold rbind at 1, lift at 1. cbn [pbind]. destruct (serialize n f t); try exact Logic.I. congruence.
  - (* dump *) eapply respond_calm with (Q := fun _ => True). unfold dump_relationships, repo_get_policy. cbn [pbind answers]. intros s _.
    destruct (kv_get scmp pid (st_pol s)); cbn [pbind answers]; [| exact Logic.I]. intros s' Hs.
    rewrite (DumpFacts.stored_edges E s' pid (co_ok _ _ _ Hs)).
    destruct (stored_ids E s' pid (co_ok _ _ _ Hs)) as (L & HL & _). cbn [lift answers].
    destruct (walk_ok E _ L HL) as (fo & roots & Hwk & _). rewrite Hwk. cbn [bind calm].
    destruct is_dot; [| exact Logic.I]. destruct (dump_no_panic E _ L n _ HL Hwk) as [[l ->] | ->]; exact Logic.I.
Qed.

Theorem careful_answers E T s qs sched i : careful_store E T s -> Forall (careful E T) qs ->
  answered (interleave sched (start E qs s)) i <> Some Panic.
Proof.
  intros Hs Hq. apply careful_reachable in Hs as [Hr Ho]. unfold answered.
  destruct (nth_error (fst (interleave sched (start E qs s))) i) as [p |] eqn:Hn; [| discriminate].
  apply nth_error_In in Hn.
  assert (Hp : answers (careful_ok E T) (fun x => x <> Panic) p).
  { eapply answers_interleave; [| | exact Hn].
    - intros m. apply careful_interleave; assumption.
    - intros q Hin. cbn [start fst] in Hin. apply in_map_iff in Hin as (x & <- & Hx). rewrite Forall_forall in Hq. apply serve_calm, Hq, Hx. }
  destruct p; try discriminate. cbn in Hp. congruence.
Qed.

Lemma yaml_restricted y : restricted (map_policy_definition y).
Proof.
  intros rs l (r & Hr & _ & Hl). cbn in Hr. apply in_map_iff in Hr as ([n d] & <- & _). cbn in Hl.
  apply in_map_iff in Hl as ([n' d'] & <- & _). discriminate.
Qed.
