(** Searches that read while other requests write. *)
From Verif Require Import Base Domain Lexer Parser Validate Store Search Explain Yaml Service Dump Api
  SpecGrammar SpecPolicy SpecStore SpecSearch SpecConc BaseFacts ParserFacts ValidateFacts StoreFacts PolicyFacts RelFacts
  SearchFacts SearchSem SearchTerm ReadFacts GraphFacts ConcFacts.

(** ** One rule *)

Lemma outcome_evaluate E pid S r o rel x : outcome S (evaluate_prog E pid r o rel) x ->
  (exists s, S s /\ evaluate E (edges_of pid s) r o rel = x) \/
  (match r with RThis | RTtu _ _ => False | _ => forall es, evaluate E es r o rel = x end).
Proof.
  intros H. destruct r as [| c | ts cu |]; cbn [evaluate_prog] in H.
  - left. apply outcome_list in H as (s & Hs & H). apply outcome_ret in H. eauto.
  - right. apply outcome_ret in H. auto.
  - left. apply outcome_rbind in H as [(ns & Hn & H) | [(e & H & ->) | [[H ->] | [H ->]]]].
    + apply outcome_list in Hn as (s & Hs & Hn). apply outcome_ret in Hn. apply outcome_ret in H.
      exists s. split; [exact Hs |]. cbn [evaluate]. rewrite Hn. exact H.
    + apply outcome_list in H as (s & Hs & H). apply outcome_ret in H. exists s. split; [exact Hs |]. cbn [evaluate]. rewrite H. reflexivity.
    + apply outcome_list in H as (s & Hs & H). apply outcome_ret in H. exists s. split; [exact Hs |]. cbn [evaluate]. rewrite H. reflexivity.
    + apply outcome_list in H as (s & Hs & H). apply outcome_ret in H. exists s. split; [exact Hs |]. cbn [evaluate]. rewrite H. reflexivity.
  - right. apply outcome_ret in H. auto.
Qed.

Section Rules.
  Variable E : env.
  Variable pid : string.
  Variable S : store -> Prop.
  Hypothesis HS : forall s, S s -> store_ok E s.

  Definition found_in (o : entity) (rel : string) (u : subject) : Prop :=
    exists s, S s /\ key_subject E (relationships s pid) o rel u.
  Definition found_in_all (o : entity) (rel : string) (u : subject) : Prop :=
    forall s, S s -> key_subject E (relationships s pid) o rel u.

  Lemma evaluated_hi r e rel ns n : evaluated_as E pid S r e rel ns -> In n ns -> yields found_in r e rel n.
  Proof.
    intros H Hin. apply outcome_evaluate in H as [(s & Hs & H) | H].
    - apply (evaluate_yields E _ _ (stored_edges E s pid (HS s Hs)) _ _ _ _ H) in Hin.
      apply (yields_mono (key_subject E (relationships s pid))); [| exact Hin]. intros. exists s. auto.
    - destruct r as [| c | ts cu |]; try contradiction; specialize (H []); cbn in H; [| discriminate].
      injection H as <-. destruct Hin as [<- | []]. constructor.
  Qed.

  Lemma evaluated_lo r e rel ns n : evaluated_as E pid S r e rel ns -> yields found_in_all r e rel n -> In n ns.
  Proof.
    intros H Hy. apply outcome_evaluate in H as [(s & Hs & H) | H].
    - apply (evaluate_yields E _ _ (stored_edges E s pid (HS s Hs)) _ _ _ _ H).
      apply (yields_mono found_in_all); [| exact Hy]. intros o' rel' u Hu. apply Hu. exact Hs.
    - destruct r as [| c | ts cu |]; try contradiction; specialize (H []); cbn in H; [| discriminate].
      injection H as <-. inversion Hy; subst. left. reflexivity.
  Qed.

  (** *** Termination *)

  Variable P : policy.
  Variable es : list ((string * string) * edge).
  Hypothesis Hes : forall s x, S s -> In x (edges_of pid s) -> In x es.
  Variable origin : rnode.

  Lemma outcome_build_tree (Q : rnode -> Prop) o rel : forall t gt, outcome S (build_goal_tree_prog E pid t o rel) (Ok gt) ->
    (forall ru ns n, occurs ru t -> outcome S (evaluate_prog E pid ru o rel) (Ok ns) -> In n ns -> Q n) -> paths_in Q gt.
  Proof.
    intros t. induction t as [| | r | l IHl op r IHr]; intros gt H HQ; cbn [build_goal_tree_prog] in H;
      try (apply outcome_ret in H; discriminate).
    - apply outcome_ok in H as (ns & He & H). apply outcome_ret in H. injection H as <-. cbn. apply paths_in_all.
      apply Forall_forall. intros x Hx. apply in_map_iff in Hx as (n & <- & Hn). cbn. eapply HQ; eauto. constructor.
    - apply outcome_ok in H as (a & Ha & H). apply outcome_ok in H as (b & Hb & H). apply outcome_ret in H.
      apply IHl in Ha; [| intros; eapply HQ; eauto using occ_left]. apply IHr in Hb; [| intros; eapply HQ; eauto using occ_right].
      destruct op; try discriminate; injection H as <-; cbn; auto.
  Qed.

  Lemma outcome_universe nd t : universe E P es origin nd -> outcome S (build_prog E P pid nd) (Ok t) -> paths_in (universe E P es origin) t.
  Proof.
    intros H Hb. destruct nd as [[e |] rel | o | rs |]; cbn [build_prog] in Hb; try (apply outcome_ret in Hb; discriminate).
    - destruct (lut_get_relation P (e_res e) rel) as [l |] eqn:Hl; [| apply outcome_ret in Hb; discriminate].
      apply outcome_ok in Hb as (tr & Hx & Hb). apply outcome_ret in Hx.
      assert (Hn : forall x, In x (tree_names tr) -> In x (names E P es origin)).
      { intros x Hin. apply in_app_iff. right. apply in_flat_map.
        apply lut_relation_some in Hl as [H1 H2]. exists ((e_res e, rel), l). split; [apply lut_relations_in; auto |].
        cbn [snd]. rewrite Hx. exact Hin. }
      assert (Hseed : forall s o' r' ns n, S s -> get_successors E (edges_of pid s) o' r' = Ok ns -> In n ns -> universe E P es origin n).
      { intros s o' r' ns n Hs Hg Hin. apply seeds_universe. apply (successors_seeds E (edges_of pid s) origin _ _ _ _ Hg) in Hin.
        destruct Hin as [<- | Hin]; [left; reflexivity |]. right. apply in_map_iff in Hin as (x & <- & Hx'). apply in_map_iff. exists x. eauto. }
      eapply outcome_build_tree; [exact Hb |]. intros ru ns n Ho He Hin.
      apply outcome_evaluate in He as [(s & Hs & He) | He].
      + destruct ru as [| c | ts cu |]; cbn [evaluate] in He; try discriminate.
        * eapply Hseed; eauto.
        * injection He as <-. destruct Hin as [<- | []]. destruct H as [Ho' _]. split; [exact Ho' |].
          apply Hn. eapply tree_names_occurs; [exact Ho | left; reflexivity].
        * destruct (get_successors E (edges_of pid s) (Some e) ts) as [ns' | | |] eqn:Hg; try discriminate. cbn [bind] in He.
          apply (map_res_in _ _ _ He) in Hin as (x & Hx' & Hb').
          apply (Hseed _ _ _ _ _ Hs Hg) in Hx'.
          assert (Hcu : In cu (names E P es origin)) by (apply Hn; eapply tree_names_occurs; [exact Ho | left; reflexivity]).
          destruct x as [[o |] r | [o |] | rs |]; cbn in Hb'; try discriminate; injection Hb' as <-; cbn in *; tauto.
      + destruct ru as [| c | ts cu |]; try contradiction; specialize (He []); cbn in He; [| discriminate].
        injection He as <-. destruct Hin as [<- | []]. destruct H as [Ho' _]. split; [exact Ho' |].
        apply Hn. eapply tree_names_occurs; [exact Ho | left; reflexivity].
    - apply outcome_ret in Hb. injection Hb as <-. exact H.
    - apply outcome_ret in Hb. injection Hb as <-. exact H.
  Qed.

  Lemma outcome_search_ends g n : search_bound E P es origin <= n -> ~ outcome S (search_prog E P pid n origin g) Fuel.
  Proof.
    intros Hn H. unfold search_prog in H. apply outcome_fuel in H as [H | (x & _ & H)]; [| apply outcome_ret in H; discriminate].
    revert H. apply search_path_fuel_prog with (Q := universe E P es origin) (U := universe_ids E P es origin).
    - apply universe_id.
    - apply outcome_universe.
    - apply seeds_universe. left. reflexivity.
    - eapply Nat.lt_le_trans; [| exact Hn]. unfold search_bound, unseen. apply le_n_S.
      generalize (universe_ids E P es origin). intros l. induction l as [| x l IH]; cbn; [apply le_n |]. apply le_n_S. exact IH.
  Qed.
End Rules.

(** ** Check among other requests *)

Section Among.
  Variable E : env.
  Variable qs : list request.
  Variable s0 : store.
  Hypothesis Hs0 : store_ok E s0.
  Variable sched : list nat.
  Variable i : nat.

  Definition during (s : store) : Prop := exists k, acts E qs s0 sched i k /\ s = moment E qs s0 sched k.

  Lemma moment_ok k : store_ok E (moment E qs s0 sched k).
  Proof. apply interleave_ok; [| exact Hs0]. intros p Hp. cbn [start fst] in Hp. apply in_map_iff in Hp as (q & <- & _). apply tidy_serve. Qed.

  Lemma during_ok s : during s -> store_ok E s.
  Proof. intros (k & _ & ->). apply moment_ok. Qed.

  Lemma request_outcome q x : nth_error qs i = Some q -> answered (interleave sched (start E qs s0)) i = Some x ->
    outcome during (serve E q) x.
  Proof.
    intros Hq Ha. eapply outcome_mono; [| eapply interleave_outcome; [| exact Ha]].
    - intros s (k & Hk & Hn & ->). exists k. repeat split; assumption.
    - cbn [start fst]. rewrite nth_error_map, Hq. reflexivity.
  Qed.

  Lemma found_in_sometimes pid o rel u : found_in E pid during o rel u <-> sometimes E qs s0 sched i pid o rel u.
  Proof.
    split.
    - intros (s & (k & Hk & ->) & H). exists k. auto.
    - intros (k & Hk & H). exists (moment E qs s0 sched k). split; [exists k; auto | exact H].
  Qed.

  Lemma found_in_always pid o rel u : found_in_all E pid during o rel u <-> always E qs s0 sched i pid o rel u.
  Proof.
    split.
    - intros H k Hk. apply H. exists k. auto.
    - intros H s (k & Hk & ->). apply H. exact Hk.
  Qed.

  Lemma outcome_policy id (f : option policy_record -> prog (res gtree)) t :
    outcome during (pbind (repo_get_policy id) f) (Ok t) ->
    exists k, acts E qs s0 sched i k /\ outcome during (f (policies (moment E qs s0 sched k) id)) (Ok t).
  Proof.
    intros H. unfold repo_get_policy in H. cbn [pbind] in H. apply outcome_get in H as (s & (k & Hk & ->) & H). eauto.
  Qed.

  Lemma check_path n pid o rel a x : outcome during (serve E (QCheck n pid (asks o rel a))) (Ok x) ->
    exists k rec r seen, x = ADecision (is_success r) /\ acts E qs s0 sched i k /\ policies (moment E qs s0 sched k) pid = Some rec /\
      rpath E (pr_policy rec) (GoalEntity (Some a)) (evaluated_as E pid during) (NSet (Some o) rel) [] r seen.
  Proof.
    intros H. cbn [serve] in H. unfold respond, check, check_search in H.
    apply outcome_ok in H as (b & Hb & H). apply outcome_ret in H. injection H as <-.
    apply outcome_ok in Hb as (t & Ht & H). apply outcome_ret in H. injection H as <-.
    apply outcome_policy in Ht as (k & Hk & Ht). destruct (policies (moment E qs s0 sched k) pid) as [rec |] eqn:Hp;
      [| apply outcome_ret in Ht; discriminate].
    cbn [asks a_object a_relation a_subject] in Ht. unfold search_prog in Ht.
    apply outcome_ok in Ht as ([y seen] & Hy & Ht). apply outcome_ret in Ht. injection Ht as <-.
    apply search_path_decides in Hy. exists k, rec, (get_result y), seen. auto.
  Qed.
End Among.

(** ** Bounds *)

Definition set_edges (E : env) (pid : string) (qs : list request) : list ((string * string) * edge) :=
  flat_map (fun q => match q with
                     | QSetRelationship _ pid' r _ =>
                         match to_internal r with Ok e => [(edge_key E e, e)] | _ => [] end
                     | _ => [] end) qs.

Lemma edges_bound E qs s sched pid x : store_ok E s -> In x (edges_of pid (snd (interleave sched (start E qs s)))) ->
  In x (edges_of pid s ++ set_edges E pid qs).
Proof.
  intros H Hin. pose proof (moment_ok E qs s H sched (length sched)) as Hok. unfold moment in Hok. rewrite firstn_all in Hok.
  destruct x as [k e]. destruct (edges_of_edge E _ pid k e Hok Hin) as [Hi ->].
  apply (edges_of_in E) in Hin; [| exact Hok]. destruct (interleave_origin E qs s sched) as [_ Ho].
  apply in_app_iff. destruct (Ho _ _ _ Hin) as [Hs | (now & app & r & rec & Hq & He & _)].
  - left. apply (edges_of_in E); assumption.
  - right. apply in_flat_map. eexists. split; [exact Hq |]. cbn beta iota. rewrite He. left. reflexivity.
Qed.

Definition defined (qs : list request) : list policy :=
  flat_map (fun q => match q with
                     | QCreatePolicy _ d _ | QUpdatePolicy d _ =>
                         match get_policy_from_definition d with Ok p => [p] | _ => [] end
                     | _ => [] end) qs.

Lemma version_defined E qs s id rec : version E qs s id rec ->
  policies s id = Some rec \/ In (pr_policy rec) (defined qs).
Proof.
  intros H. destruct H as [rec Ha | now d app p Hin Hd Hw Hid | d app p old Hin Hd Hw Hid Ho].
  - left. rewrite answer_get_policy in Ha. congruence.
  - right. apply in_flat_map. eexists. split; [exact Hin |]. cbn beta iota. apply defines_ok in Hd. rewrite Hd. left. reflexivity.
  - right. apply in_flat_map. eexists. split; [exact Hin |]. cbn beta iota. apply defines_ok in Hd. rewrite Hd. left. reflexivity.
Qed.

Definition bound_among (E : env) (qs : list request) (s : store) (pid : string) (origin : rnode) : nat :=
  list_max (map (fun P => search_bound E P (edges_of pid s ++ set_edges E pid qs) origin)
    (match policies s pid with Some rec => [pr_policy rec] | None => [] end ++ defined qs)).

Lemma bound_among_ok E qs s sched pid origin rec : 
  policies (snd (interleave sched (start E qs s))) pid = Some rec ->
  search_bound E (pr_policy rec) (edges_of pid s ++ set_edges E pid qs) origin <= bound_among E qs s pid origin.
Proof.
  intros Hp. destruct (interleave_origin E qs s sched) as [Ho _]. apply Ho, version_defined in Hp.
  assert (Hin : In (pr_policy rec) (match policies s pid with Some rec => [pr_policy rec] | None => [] end ++ defined qs)).
  { apply in_app_iff. destruct Hp as [-> |]; [left; left; reflexivity | right; assumption]. }
  unfold bound_among. revert Hin. generalize (match policies s pid with Some rec => [pr_policy rec] | None => [] end ++ defined qs). intros l Hl.
  pose proof (list_max_le (map (fun P => search_bound E P (edges_of pid s ++ set_edges E pid qs) origin) l)
    (list_max (map (fun P => search_bound E P (edges_of pid s ++ set_edges E pid qs) origin) l))) as [Hm _].
  specialize (Hm (le_n _)). rewrite Forall_forall in Hm. apply Hm. apply in_map_iff. eauto.
Qed.

(** ** Fair schedules *)

Lemma prefix_app sched k : forall m, prefix sched (k + m) = prefix sched k ++ prefix (fun j => sched (k + j)) m.
Proof.
  intros m. unfold prefix. rewrite seq_app, map_app. f_equal. cbn [Nat.add].
  rewrite <- (map_map (fun j => k + j) sched). f_equal. clear. revert k. change (0 + 0) with 0.
  assert (H : forall a k, seq (k + a) m = map (fun j => k + j) (seq a m)).
  { induction m as [| m IH]; intros a k; [reflexivity |]. cbn. f_equal. rewrite <- IH. f_equal. lia. }
  intros k. rewrite <- H. f_equal. lia.
Qed.

Lemma waits sched : forall c i p, nth_error (fst c) i = Some p -> ~ In i sched -> nth_error (fst (interleave sched c)) i = Some p.
Proof.
  induction sched as [| j sched IH]; intros c i p Hp Hn; [exact Hp |]. change (interleave (j :: sched) c) with (interleave sched (advance c j)).
  apply IH; [| intros H; apply Hn; right; exact H]. unfold advance. destruct (nth_error (fst c) j) as [q |]; [| exact Hp].
  destruct (step1 q (snd c)) as [[q' s'] |]; [| exact Hp]. cbn [fst]. rewrite replace_other; [exact Hp |]. intros ->. apply Hn. left. reflexivity.
Qed.

Lemma first_turn sched i : fair sched i -> exists k, sched k = i /\ ~ In i (prefix sched k).
Proof.
  intros H. destruct (H 0) as (k & _ & Hk). revert Hk. pattern k. apply (well_founded_ind lt_wf). clear k. intros k IH Hk.
  destruct (in_dec Nat.eq_dec i (prefix sched k)) as [Hin | Hn]; [| eauto].
  apply in_map_iff in Hin as (j & Hj & Hin). apply in_seq in Hin. apply (IH j); [lia | exact Hj].
Qed.

Lemma fair_answered : forall p c i sched, nth_error (fst c) i = Some p -> fair sched i ->
  exists k, answered (interleave (prefix sched k) c) i <> None.
Proof.
  assert (Hstep : forall p c i sched, nth_error (fst c) i = Some p -> fair sched i ->
    (forall s p' s', step1 p s = Some (p', s') -> forall c' sched', nth_error (fst c') i = Some p' -> fair sched' i ->
       exists k, answered (interleave (prefix sched' k) c') i <> None) ->
    (forall s, step1 p s <> None) -> exists k, answered (interleave (prefix sched k) c) i <> None).
  { intros p c i sched Hp Hf IH Hgo. destruct (first_turn sched i Hf) as (k & Hk & Hn).
    pose proof (waits (prefix sched k) c i p Hp Hn) as Hw. set (c1 := interleave (prefix sched k) c) in *.
    destruct (step1 p (snd c1)) as [[p' s'] |] eqn:Hs; [| contradiction (Hgo _ Hs)].
    destruct (IH _ _ _ Hs (advance c1 i) (fun j => sched (k + 1 + j))) as (m & Hm).
    - unfold advance. rewrite Hw, Hs. cbn [fst]. eapply replace_same. exact Hw.
    - intros m. destruct (Hf (k + 1 + m)) as (j & Hj & Hji). exists (j - (k + 1)). split; [lia |].
      replace (k + 1 + (j - (k + 1))) with j by lia. exact Hji.
    - exists (k + 1 + m). rewrite prefix_app, interleave_app. rewrite prefix_app, interleave_app. fold c1.
      unfold prefix at 2. cbn [seq map]. rewrite Nat.add_0_r, Hk. exact Hm. }
  intros p. induction p as [a | id k IH | id k IH | id r k IH | id k IH | k IH | pid key k IH | pid key e k IH | pid key k IH | pid k IH
                 | key k IH | key d k IH | key k IH]; intros c i sched Hp Hf.
  1: { exists 0. cbn. unfold answered. rewrite Hp. discriminate. }
  all: eapply Hstep; [exact Hp | exact Hf | | intros s; discriminate];
    intros s p' s' [= <- <-] c' sched' Hp' Hf'; eapply IH; eassumption.
Qed.

(** ** Requests among others that leave their policy alone *)

Lemma outcome_alike id (S : store -> Prop) s0 {A} (p : prog A) x : ordered s0 -> (forall s, S s -> ordered s /\ same_policy id s0 s) ->
  outcome S p x -> reads p -> only id p -> fst (run p s0) = x.
Proof.
  intros H0 HS H. induction H as [a | p s p' s' a Hs Hst _ IH]; intros Hr Ho; [reflexivity |].
  destruct (HS s Hs) as [Hos Hsame]. pose proof (only_step id p s0 s Ho H0 Hos Hsame) as Hstep. rewrite Hst in Hstep.
  destruct (step1 p s0) as [[p1 t1] |] eqn:H1; [| contradiction]. destruct Hstep as (-> & Ho' & _).
  destruct (reads_step _ _ _ _ Hr H1) as [Hr' ->]. rewrite <- IH by assumption.
  destruct Hr; cbn [step1] in H1; try discriminate; injection H1 as <-; reflexivity.
Qed.

Lemma quiet E qs s sched pid : ordered s -> (forall q, In q qs -> ~ writes q pid) ->
  let s' := snd (interleave sched (start E qs s)) in ordered s' /\ same_policy pid s s'.
Proof.
  intros Hs Hq. cbv zeta.
  apply (interleave_changes E anything qs (fun s' => ordered s' /\ same_policy pid s s')); [intros; exact Logic.I | | apply start_does |].
  2: { split; [exact Hs | split; reflexivity]. }
  intros s' q x [Ho [Hp He]] Hin Hx. specialize (Hq q Hin).
  assert (Hd : forall d p, defines d p -> definition_id d = Some (p_id p)) by apply defines_definition.
  assert (Hpol : forall id r, id <> pid -> changes E anything q (CPolSet id r) \/ True ->
            kv_get scmp pid (kv_set scmp id r (st_pol s')) = kv_get scmp pid (st_pol s')).
  { intros id r Hne _. apply (get_set_other scmp scmp_ok). congruence. }
  destruct q; destruct x; cbn [changes writes] in *; try contradiction; try (destruct r; contradiction);
    try (split; [exact Ho | split; [exact Hp | exact He]]).
  - destruct Hx as (p & Hdp & _ & -> & _). split; [exact Ho |]. split; [| exact He]. cbn [changed st_pol].
    rewrite Hpol; [exact Hp | | auto]. intros Hid. apply Hq. rewrite <- Hid. apply Hd, Hdp.
  - destruct Hx as (p & old & Hdp & _ & -> & _). split; [exact Ho |]. split; [| exact He]. cbn [changed st_pol].
    rewrite Hpol; [exact Hp | | auto]. intros Hid. apply Hq. rewrite <- Hid. apply Hd, Hdp.
  - subst. split; [exact Ho |]. split; [| exact He]. cbn [changed st_pol]. rewrite (get_del_other scmp scmp_ok) by congruence. exact Hp.
  - subst. split; [apply sorted_del; [exact ecmp_ok | exact Ho] |]. split; [exact Hp |]. rewrite He. apply edges_ext; [exact Ho | apply sorted_del; [exact ecmp_ok | exact Ho] |].
    intros k0. cbn [changed st_edges]. rewrite (get_del_other ecmp ecmp_ok) by congruence. reflexivity.
  - destruct r as [r |]; [| contradiction]. destruct Hx as (-> & _). split; [apply sorted_set; [exact ecmp_ok | exact Ho] |]. split; [exact Hp |]. rewrite He. apply edges_ext; [exact Ho | apply sorted_set; [exact ecmp_ok | exact Ho] |].
    intros k0. cbn [changed st_edges]. rewrite (get_set_other ecmp ecmp_ok) by congruence. reflexivity.
  - subst. split; [apply sorted_del; [exact ecmp_ok | exact Ho] |]. split; [exact Hp |]. rewrite He. apply edges_ext; [exact Ho | apply sorted_del; [exact ecmp_ok | exact Ho] |].
    intros k0. cbn [changed st_edges]. rewrite (get_del_other ecmp ecmp_ok) by congruence. reflexivity.
  - subst. split; [apply sorted_del; [exact ecmp_ok | exact Ho] |]. split; [exact Hp |]. rewrite He. apply edges_ext; [exact Ho | apply sorted_del; [exact ecmp_ok | exact Ho] |].
    intros k0. cbn [changed st_edges]. rewrite (get_del_other ecmp ecmp_ok) by congruence. reflexivity.
Qed.
