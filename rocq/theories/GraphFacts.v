(** The graph requests: Check, ExplainCheck and Expand in terms of the search. *)
From Verif Require Import Base Domain Lexer Parser Validate Store Search Explain Yaml Service Dump Api
  SpecGrammar SpecPolicy SpecStore SpecSearch BaseFacts ParserFacts ValidateFacts StoreFacts PolicyFacts RelFacts
  SearchFacts SearchSem SearchTerm SearchExplain.

(** ** Requests *)

Definition check_tree (E : env) (n : nat) (pid : string) (s : store) (o : option entity) (rel : string) (a : option entity) : res gtree :=
  match policies s pid with
  | None => Err EPolicyNotFound
  | Some rec => search E (pr_policy rec) (edges_of pid s) n (NSet o rel) (GoalEntity a)
  end.

Lemma check_search_tree E n pid o rel a s :
  fst (run (check_search E n pid (Some (mkAccess o rel a))) s) = check_tree E n pid s o rel a.
Proof.
  unfold check_search, check_tree, policies. rewrite run_pbind. cbn [repo_get_policy run fst snd].
  destruct (kv_get scmp pid (st_pol s)); [rewrite run_search |]; reflexivity.
Qed.

Lemma answer_check E n pid o rel a s :
  answer E (QCheck n pid (Some (mkAccess o rel a))) s =
  (let* t := check_tree E n pid s o rel a in Ok (ADecision (is_success (get_result t)))).
Proof.
  serve_eq. unfold check. rewrite run_rbind, check_search_tree.
  destruct (check_tree E n pid s o rel a); reflexivity.
Qed.

Lemma answer_explain E n pid o rel a f s :
  answer E (QExplainCheck n pid (Some (mkAccess o rel a)) f) s =
  (let* _ := serializer_factory f in
   let* t := check_tree E n pid s o rel a in
   let* _ := serialize n f t in
   Ok (AExplained (is_success (get_result t)) t)).
Proof.
  serve_eq. unfold explain_check. rewrite run_rbind. cbn [lift run fst snd].
  destruct (serializer_factory f); try reflexivity. cbn [bind].
  rewrite run_rbind, check_search_tree. destruct (check_tree E n pid s o rel a) as [t | | |]; try reflexivity.
  cbn [bind]. rewrite run_rbind. cbn [lift run fst snd]. destruct (serialize n f t); reflexivity.
Qed.

Lemma answer_expand E n pid nd f s :
  answer E (QExpand n pid (Some nd) f) s =
  (let* _ := serializer_factory f in
   match policies s pid with
   | None => Err EPolicyNotFound
   | Some rec =>
       let* t := search E (pr_policy rec) (edges_of pid s) n nd GoalNone in
       let* _ := serialize n f t in
       Ok (AExpanded t)
   end).
Proof.
  serve_eq. unfold expand. rewrite run_rbind. cbn [lift run fst snd].
  destruct (serializer_factory f); try reflexivity. cbn [bind].
  rewrite run_pbind. cbn [repo_get_policy run fst snd]. unfold policies.
  destruct (kv_get scmp pid (st_pol s)) as [rec |]; [| reflexivity]. rewrite run_rbind, run_search. cbn [fst snd].
  destruct (search E (pr_policy rec) (edges_of pid s) n nd GoalNone) as [t | | |]; try reflexivity. cbn [bind].
  rewrite run_rbind. cbn [lift run fst snd]. destruct (serialize n f t); reflexivity.
Qed.

Lemma check_decision E n pid o rel a s b :
  answer E (QCheck n pid (Some (mkAccess o rel a))) s = Ok (ADecision b) <->
  exists t, check_tree E n pid s o rel a = Ok t /\ b = is_success (get_result t).
Proof.
  rewrite answer_check. destruct (check_tree E n pid s o rel a) as [t | | |]; cbn; split; try discriminate;
    try (intros (t' & H & _); discriminate).
  - intros [= <-]. eauto.
  - intros (t' & [= <-] & ->). reflexivity.
Qed.

Lemma check_tree_ok E n pid s o rel a t : check_tree E n pid s (Some o) rel a = Ok t ->
  exists rec seen, policies s pid = Some rec /\
    spath E (pr_policy rec) (edges_of pid s) (GoalEntity a) (NSet (Some o) rel) "Request" [] t seen.
Proof.
  unfold check_tree. destruct (policies s pid) as [rec |]; [| discriminate]. unfold search. intros H.
  apply bind_ok in H as ([x seen] & Hs & H). injection H as <-. exists rec, seen. split; [reflexivity |].
  eapply search_path_sound. exact Hs.
Qed.

(** ** Relationships and edges *)

Lemma dst_subject r e : to_internal (Some r) = Ok e ->
  exists o u, r_object r = Some o /\ r_subject r = Some u /\ to_public_node (ed_dst e) = subject_node u /\
    ed_src e = mkINode (e_res o) (e_id o) (r_relation r) TyObjectSet.
Proof.
  destruct r as [[o |] rel [[e' | [e' |] rel' | rs |] |]]; cbn; try discriminate; intros [= <-]; cbn;
    exists o; eexists; repeat split; reflexivity || (destruct e'; reflexivity).
Qed.

Lemma stored_edges E s pid : store_ok E s -> edge_subjects E (edges_of pid s) (key_subject E (relationships s pid)).
Proof.
  intros H o rel. eexists. split; [reflexivity |]. intros n. rewrite in_map_iff. split.
  - intros ([k e] & <- & Hin). apply filter_In in Hin as [Hin Hk]. cbn [fst snd] in *. apply String.eqb_eq in Hk.
    destruct (edges_of_edge E s pid k e H Hin) as [Hi ->].
    pose proof (to_from_internal e Hi) as He. destruct (dst_subject _ _ He) as (o' & u & Ho & Hu & Hd & Hs).
    exists u. split; [| exact Hd]. exists (from_internal e). split; [| split; [exact Hu |]].
    + unfold relationships. apply in_map_iff. exists (edge_key E e, e). auto.
    + cbn in Hk. unfold node_key in Hk. rewrite Hs in Hk. cbn in Hk. unfold object_text. rewrite Ho. exact Hk.
  - intros (u & (r & Hr & Hu & Hk) & ->). apply (relationships_in E) in Hr as (e & He & Hg); [| exact H].
    destruct (dst_subject _ _ He) as (o' & u' & Ho & Hu' & Hd & Hs). exists (edge_key E e, e). split.
    + cbn. congruence.
    + apply filter_In. split; [apply (edges_of_in E); assumption |]. cbn. apply String.eqb_eq.
      unfold node_key. rewrite Hs. cbn. unfold object_text in Hk. rewrite Ho in Hk. exact Hk.
Qed.

Lemma stored_unique E s pid rec : store_ok E s -> policies s pid = Some rec -> unique_decls (pr_policy rec).
Proof. intros H Hp. eapply wf_unique. eapply so_policy; eauto. Qed.

(** ** Relationships by key and relationships by name *)

Section Alias.
  Variable E : env.
  Variable P : policy.
  Variable rels : list relationship.
  Variable origin : rnode.
  Hypothesis Hrels : forall r, In r rels -> complete_relationship r.

  Notation keyed := (key_subject E rels).
  Notation stored := (stored_subject rels).

  Lemma stored_keyed o rel u : stored o rel u -> keyed o rel u.
  Proof. intros H. exists (mkRel (Some o) rel (Some u)). auto. Qed.

  Lemma yields_mono (succ succ' : entity -> string -> subject -> Prop) ru o rel n :
    (forall o rel u, succ o rel u -> succ' o rel u) -> yields succ ru o rel n -> yields succ' ru o rel n.
  Proof. intros Hs Hy. destruct Hy; constructor; auto. Qed.

  Lemma reach_mono (succ succ' : entity -> string -> subject -> Prop) n :
    (forall o rel u, succ o rel u -> succ' o rel u) -> reach E P succ origin n -> reach E P succ' origin n.
  Proof.
    intros Hs H. induction H as [| x y _ IH Hl]; [apply re_here |]. eapply re_step; [exact IH |].
    destruct Hl as [o rel t ru n Hw Ho Hy]. econstructor; eauto. eapply yields_mono; eauto.
  Qed.

  Hypothesis Hun : unaliased E P rels origin.

  Lemma keyed_stored o rel rel' u : reach E P stored origin (NSet (Some o) rel) -> looks_up E P o rel rel' ->
    (keyed o rel' u <-> stored o rel' u).
  Proof.
    intros Hr Hl. split; [| apply stored_keyed]. intros (r & Hin & Hu & Hk).
    destruct (Hun o rel rel' r Hr Hl Hin Hk) as [Ho Hrel]. unfold stored_subject. destruct r; cbn in *. subst. exact Hin.
  Qed.

  Lemma yields_keyed o rel t ru n : reach E P stored origin (NSet (Some o) rel) -> rewrites E P o rel t -> occurs ru t ->
    (yields keyed ru o rel n <-> yields stored ru o rel n).
  Proof.
    intros Hr Hw Ho. split; [| apply yields_mono; apply stored_keyed].
    intros Hy. destruct Hy as [o rel u Hu | o rel c | o rel ts cu u Hu]; constructor.
    - apply (keyed_stored o rel rel); [exact Hr | exists t; auto | exact Hu].
    - apply (keyed_stored o rel ts); [exact Hr | exists t; eauto | exact Hu].
  Qed.

  Lemma reach_keyed n : reach E P keyed origin n <-> reach E P stored origin n.
  Proof.
    split; [| apply reach_mono; apply stored_keyed].
    intros H. induction H as [| x y _ IH Hl]; [apply re_here |]. eapply re_step; [exact IH |].
    destruct Hl as [o rel t ru n Hw Ho Hy]. econstructor; eauto. eapply yields_keyed; eauto.
  Qed.

  Lemma eval_keyed a M o rel : forall t t0, reach E P stored origin (NSet (Some o) rel) -> rewrites E P o rel t0 ->
    (forall ru, occurs ru t -> occurs ru t0) -> (eval keyed a M o rel t <-> eval stored a M o rel t).
  Proof.
    intros t t0 Hr Hw. induction t as [| | r | l IHl op r IHr]; intros Ho; try reflexivity.
    - specialize (Ho r (occ_here r)). destruct r as [| c | ts cu |]; cbn [eval]; try reflexivity.
      + split; intros (u & Hu & Hc); exists u; (split; [| exact Hc]);
          apply (keyed_stored o rel rel u Hr); auto; exists t0; auto.
      + split; intros (u & o' & Hu & Hc); exists u, o'; (split; [| exact Hc]);
          apply (keyed_stored o rel ts u Hr); auto; exists t0; eauto.
    - assert (Hl := IHl (fun ru H => Ho ru (occ_left ru _ _ _ H))).
      assert (Hrr := IHr (fun ru H => Ho ru (occ_right ru _ _ _ H))).
      destruct op; cbn [eval]; rewrite ?Hl, ?Hrr; reflexivity.
  Qed.
End Alias.

(** In difference-free policies, [eval] is monotone. *)
Lemma eval_mono (succ succ' : entity -> string -> subject -> Prop) a (M M' : entity -> string -> Prop) (R : rnode -> Prop) o rel :
  forall t, ~ uses OpDiff t ->
  (forall ru n, occurs ru t -> yields succ ru o rel n -> yields succ' ru o rel n /\ R n) ->
  (forall o rel, R (NSet (Some o) rel) -> M o rel -> M' o rel) ->
  eval succ a M o rel t -> eval succ' a M' o rel t.
Proof.
  intros t Hd Hy HM. induction t as [| | r | l IHl op r IHr]; cbn [eval]; try tauto.
  - destruct r as [| c | ts cu |]; cbn [eval]; try tauto.
    + intros (u & Hu & Hc). destruct (Hy RThis (subject_node u)) as [Hy' HR]; [constructor | constructor; exact Hu |].
      inversion Hy' as [? ? u' Hu' Hq1 Hq2 Hq3 Hq | |]; subst. exists u'. split; [exact Hu' |].
      destruct u as [e | [e |] r | rs |], u' as [e' | [e' |] r' | rs' |]; cbn in Hq, Hc, HR |- *; try discriminate; try congruence; try tauto.
      injection Hq as -> ->. apply HM; assumption.
    + intros Hm. destruct (Hy (RCu c) (NSet (Some o) c)) as [_ HR]; [constructor | constructor |]. apply HM; assumption.
    + intros (u & o' & Hu & Ho' & Hm).
      destruct (Hy (RTtu ts cu) (NSet (subject_object u) cu)) as [Hy' HR]; [constructor | constructor; exact Hu |].
      rewrite Ho' in *. inversion Hy' as [| | ? ? ? ? u' Hu' Hq1 Hq2 Hq3 Hq]; subst. exists u', o'.
      split; [exact Hu' |]. split; [exact Hq |]. apply HM; assumption.
  - assert (Hl : eval succ a M o rel l -> eval succ' a M' o rel l).
    { apply IHl; [intros H; apply Hd, us_left, H | intros ru n H; apply Hy, occ_left, H]. }
    assert (Hr : eval succ a M o rel r -> eval succ' a M' o rel r).
    { apply IHr; [intros H; apply Hd, us_right, H | intros ru n H; apply Hy, occ_right, H]. }
    destruct op; cbn [eval]; try tauto. exfalso. apply Hd. constructor.
Qed.

Lemma policy_no_diff E P o rel t : ~ policy_uses E P OpDiff -> rewrites E P o rel t -> ~ uses OpDiff t.
Proof. intros Hd (l & Hl & _ & Hx) Hu. apply Hd. exists (e_res o), l, t. auto. Qed.

Lemma member_mono E P (succ succ' : entity -> string -> subject -> Prop) a o rel : ~ policy_uses E P OpDiff ->
  (forall o rel u, succ o rel u -> succ' o rel u) ->
  member E P succ a o rel -> member E P succ' a o rel.
Proof.
  intros Hd Hs Hm M HM. apply Hm. intros o' rel' t Hw Hev. apply (HM o' rel' t Hw).
  apply (eval_mono succ succ' a M M (fun _ => True)); auto; [eapply policy_no_diff; eauto |].
  intros ru n _ Hy. split; [| exact I]. destruct Hy; constructor; auto.
Qed.

Lemma member_stored E P rels a o rel : ~ policy_uses E P OpDiff -> unaliased E P rels (NSet (Some o) rel) ->
  (member E P (key_subject E rels) a o rel <-> member E P (stored_subject rels) a o rel).
Proof.
  intros Hd Hun. split; [| apply member_mono; [exact Hd | apply stored_keyed]].
  intros Hm M HM.
  assert (H : reach E P (stored_subject rels) (NSet (Some o) rel) (NSet (Some o) rel) -> M o rel); [| apply H, re_here].
  apply (Hm (fun o' rel' => reach E P (stored_subject rels) (NSet (Some o) rel) (NSet (Some o') rel') -> M o' rel')).
  intros o' rel' t Hw Hev Hr. apply (HM o' rel' t Hw).
  eapply (eval_mono (key_subject E rels) (stored_subject rels) a _ M
           (fun n => reach E P (stored_subject rels) (NSet (Some o) rel) n)); [eapply policy_no_diff; eauto | | | exact Hev].
  - intros ru n Ho Hy.
    assert (Hy' : yields (stored_subject rels) ru o' rel' n) by (eapply yields_keyed; eauto).
    split; [exact Hy' |]. eapply re_step; [exact Hr |]. econstructor; eauto.
  - intros o2 rel2 H2 H3. apply H3. exact H2.
Qed.

Lemma distinct_keyed E P rels origin : unaliased E P rels origin ->
  distinct_ids E P (stored_subject rels) origin -> distinct_ids E P (key_subject E rels) origin.
Proof. intros Hun Hd x y Hx Hy. apply Hd; eapply reach_keyed; eauto. Qed.

(** ** JSON *)

Lemma children_path r n t why : children (GPath r n (Some t) why) = [t].
Proof. reflexivity. Qed.

(** A tree whose root has a child cannot be written: the child's parent pointer is met on the stack. *)
Lemma json_cycle t c cs n : children t = c :: cs -> json_visit (S (S (S n))) t [] [] = Err ESerialize.
Proof.
  intros H. change (for_each (json_visit (S (S n)) t [[]]) (map (fun i => [i]) (seq 0 (length (children t)))) = Err ESerialize).
  rewrite H. cbn [length seq map for_each].
  assert (Hp : json_visit (S (S n)) t [[]] [0] = Err ESerialize); [| rewrite Hp; reflexivity].
  cbn [json_visit existsb]. unfold addr_eqb. destruct (list_eq_dec Nat.eq_dec [0] []) as [| _]; [discriminate |]. cbn [orb].
  unfold pointers. cbn [parent app for_each].
  destruct n; cbn [json_visit existsb]; unfold addr_eqb;
    (destruct (list_eq_dec Nat.eq_dec [] [0]) as [| _]; [discriminate |]);
    (destruct (list_eq_dec Nat.eq_dec [] []) as [_ | Hn]; [| contradiction Hn; reflexivity]); reflexivity.
Qed.

Lemma json_leaf t n : children t = [] -> json_visit (S n) t [] [] = Ok tt.
Proof. intros H. cbn [json_visit existsb]. unfold pointers. cbn [parent app subtree]. rewrite H. reflexivity. Qed.

Lemma json_bound t n : 3 <= n -> json_visit n t [] [] = json_visit 3 t [] [] /\ json_visit n t [] [] <> Fuel.
Proof.
  intros Hn. destruct n as [| [| [| n]]]; try lia. destruct (children t) as [| c cs] eqn:Hc.
  - rewrite !json_leaf by exact Hc. split; [reflexivity | discriminate].
  - rewrite !(json_cycle t c cs) by exact Hc. split; [reflexivity | discriminate].
Qed.

(** ** What a check depends on *)

Lemma filter_sorted {V} (f : (string * string) * V -> bool) (m : list ((string * string) * V)) :
  kv_sorted pcmp m -> kv_sorted pcmp (filter f m).
Proof.
  induction m as [| [k v] m IH]; cbn; [auto |]. intros [Hlt Hs]. destruct (f (k, v)); [| auto].
  cbn. split; [| auto]. intros k' v' Hin. apply filter_In in Hin as [Hin _]. eauto.
Qed.

(** Successors are the same when the relationships stored under the key are. *)
Lemma successors_ext E s s' pid o rel : store_ok E s -> store_ok E s' ->
  (forall r, sha E (object_text r) = sha E (e_res o +++ e_id o +++ rel) ->
             (In r (relationships s pid) <-> In r (relationships s' pid))) ->
  get_successors E (edges_of pid s) (Some o) rel = get_successors E (edges_of pid s') (Some o) rel.
Proof.
  intros H H' Hr. unfold get_successors. cbn [from_public_node bind]. f_equal. f_equal.
  apply (sorted_ext pcmp pcmp_ok); try (apply filter_sorted, edges_of_sorted, so_edges with E; assumption).
  assert (Hone : forall s1 s2, store_ok E s1 -> store_ok E s2 ->
            (forall r, sha E (object_text r) = sha E (e_res o +++ e_id o +++ rel) -> In r (relationships s1 pid) -> In r (relationships s2 pid)) ->
            forall k e, In (k, e) (filter (fun x => String.eqb (fst (fst x)) (node_key E (mkINode (e_res o) (e_id o) rel TyObjectSet))) (edges_of pid s1)) ->
                        In (k, e) (filter (fun x => String.eqb (fst (fst x)) (node_key E (mkINode (e_res o) (e_id o) rel TyObjectSet))) (edges_of pid s2))).
  { intros s1 s2 H1 H2 Hx k e Hin. apply filter_In in Hin as [Hin Hk]. apply filter_In. split; [| exact Hk].
    apply String.eqb_eq in Hk. cbn [fst] in Hk.
    destruct (edges_of_edge E s1 pid k e H1 Hin) as [Hi ->].
    pose proof (to_from_internal e Hi) as He. destruct (dst_subject _ _ He) as (o' & u & Ho & _ & _ & Hs).
    assert (Hin2 : In (from_internal e) (relationships s2 pid)).
    { apply Hx.
      - cbn in Hk. unfold node_key in Hk. rewrite Hs in Hk. cbn in Hk. unfold object_text. rewrite Ho. exact Hk.
      - unfold relationships. apply in_map_iff. exists (edge_key E e, e). auto. }
    apply (relationships_in E) in Hin2 as (e' & He' & Hg); [| exact H2]. rewrite He in He'. injection He' as <-.
    apply (edges_of_in E); assumption. }
  intros k.
  match goal with |- kv_get _ _ ?m1 = kv_get _ _ ?m2 => destruct (kv_get pcmp k m1) as [e |] eqn:Hg; destruct (kv_get pcmp k m2) as [e' |] eqn:Hg' end;
    try reflexivity.
  - apply (get_iff pcmp pcmp_ok) in Hg; [| apply filter_sorted, edges_of_sorted, so_edges with E; assumption].
    apply (Hone s s' H H' (fun r Hk => proj1 (Hr r Hk))) in Hg.
    apply (get_iff pcmp pcmp_ok) in Hg; [| apply filter_sorted, edges_of_sorted, so_edges with E; assumption]. congruence.
  - apply (get_iff pcmp pcmp_ok) in Hg; [| apply filter_sorted, edges_of_sorted, so_edges with E; assumption].
    apply (Hone s s' H H' (fun r Hk => proj1 (Hr r Hk))) in Hg.
    apply (get_iff pcmp pcmp_ok) in Hg; [| apply filter_sorted, edges_of_sorted, so_edges with E; assumption]. congruence.
  - apply (get_iff pcmp pcmp_ok) in Hg'; [| apply filter_sorted, edges_of_sorted, so_edges with E; assumption].
    apply (Hone s' s H' H (fun r Hk => proj2 (Hr r Hk))) in Hg'.
    apply (get_iff pcmp pcmp_ok) in Hg'; [| apply filter_sorted, edges_of_sorted, so_edges with E; assumption]. congruence.
Qed.

Lemma build_tree_same E es es' o rel : forall t,
  (forall ru, occurs ru t -> evaluate E es' ru o rel = evaluate E es ru o rel) ->
  build_goal_tree E es' t o rel = build_goal_tree E es t o rel.
Proof.
  intros t. induction t as [| | r | l IHl op r IHr]; intros H; try reflexivity.
  - cbn. unfold build_goal_for_rule. rewrite H by constructor. reflexivity.
  - cbn. rewrite IHl, IHr; [reflexivity | |]; intros; apply H; auto using occ_left, occ_right.
Qed.

Lemma reach_build E P es succ origin : edge_subjects E es succ ->
  (forall rs l, relation_of P rs l -> exists t, expression E l t) ->
  forall nd t, reach E P succ origin nd -> build E P es nd = Ok t -> paths_in (reach E P succ origin) t.
Proof.
  intros Hsucc Hx nd t Hr Hb. destruct nd as [[e |] rel | o | rs |]; cbn [build handle_entity_set] in Hb; try discriminate;
    try (injection Hb as <-; exact Hr).
  destruct (lut_get_relation P (e_res e) rel) as [l |] eqn:Hl; try discriminate.
  destruct (get_expression_tree E l) as [tr | | |] eqn:Hg; try discriminate. cbn [bind] in Hb.
  assert (Hw : rewrites E P e rel tr). { eapply node_rewrites; [exists l; eauto | exact Hb]. }
  eapply build_tree_paths; [exact Hb |]. intros ru ns n Ho He Hin. eapply re_step; [exact Hr |].
  econstructor; eauto. eapply evaluate_yields; eauto.
Qed.

(** Two stores with the same policy, and the same relationships under all keys that the check looks up. *)
Theorem check_depends E s s' pid n o rel a : store_ok E s -> store_ok E s' ->
  option_map pr_policy (policies s pid) = option_map pr_policy (policies s' pid) ->
  (forall rec o1 rel1 rel2 r, policies s pid = Some rec ->
     reach E (pr_policy rec) (key_subject E (relationships s pid)) (NSet (Some o) rel) (NSet (Some o1) rel1) ->
     looks_up E (pr_policy rec) o1 rel1 rel2 ->
     sha E (object_text r) = sha E (e_res o1 +++ e_id o1 +++ rel2) ->
     (In r (relationships s pid) <-> In r (relationships s' pid))) ->
  check_tree E n pid s' (Some o) rel a = check_tree E n pid s (Some o) rel a.
Proof.
  intros H H' Hp Hr. unfold check_tree.
  destruct (policies s pid) as [rec |] eqn:Hrec, (policies s' pid) as [rec' |]; try discriminate; [| reflexivity].
  injection Hp as <-. pose proof (so_policy _ _ H pid rec Hrec) as [_ Hw].
  apply search_same with (Q := reach E (pr_policy rec) (key_subject E (relationships s pid)) (NSet (Some o) rel)); [| | apply re_here].
  - apply reach_build; [apply stored_edges; exact H |].
    intros rs l Hl. destruct (wf_expressions _ _ Hw rs l Hl) as (t & Ht & _). eauto.
  - intros nd Hq. destruct nd as [[e |] r | | |]; try reflexivity. cbn [build handle_entity_set].
    destruct (lut_get_relation (pr_policy rec) (e_res e) r) as [l |] eqn:Hl; [| reflexivity].
    apply lut_relation_some in Hl as [Hl Hn]. destruct (wf_expressions _ _ Hw _ l Hl) as (t & Ht & _).
    assert (Hrw : rewrites E (pr_policy rec) e r t) by (exists l; auto).
    apply expression_get in Ht as [-> _]. cbn [bind]. apply build_tree_same. intros ru Ho.
    destruct ru as [| c | ts cu |]; cbn [evaluate]; try reflexivity.
    + symmetry. apply successors_ext; [exact H | exact H' |]. intros x Hx. apply (Hr rec e r r x); auto. exists t. auto.
    + rewrite (successors_ext E s s' pid e ts); [reflexivity | exact H | exact H' |].
      intros x Hx. apply (Hr rec e r ts x); auto. exists t. eauto.
Qed.

(** ** When a search cannot fail *)

Lemma paths_in_mono (Q Q' : rnode -> Prop) : (forall n, Q n -> Q' n) -> forall t, paths_in Q t -> paths_in Q' t.
Proof.
  intros H t. induction t as [r ps IH | r ps IH | r x y IHx IHy | r n t why IH] using gtree_ind2; cbn.
  - rewrite !paths_in_all, !Forall_forall in *. auto.
  - rewrite !paths_in_all, !Forall_forall in *. auto.
  - tauto.
  - auto.
Qed.

Lemma map_res_total {A B} (f : A -> res B) l : (forall x, In x l -> exists y, f x = Ok y) -> exists l', map_res f l = Ok l'.
Proof.
  induction l as [| a l IH]; intros H; [eexists; reflexivity |]. cbn.
  destruct (H a (or_introl eq_refl)) as [b ->]. destruct IH as [bs ->]; [intros; apply H; right; assumption |].
  eexists. reflexivity.
Qed.

Lemma map_res_no_panic {A B} (f : A -> res B) l : (forall x, In x l -> f x <> Panic) -> map_res f l <> Panic.
Proof.
  induction l as [| a l IH]; intros H; [discriminate |]. cbn. specialize (H a (or_introl eq_refl)) as Ha.
  assert (Hl : map_res f l <> Panic) by (apply IH; intros; apply H; right; assumption).
  destruct (f a); cbn; try congruence. destruct (map_res f l); cbn; congruence.
Qed.

Section SafeSearch.
  Variable E : env.
  Variable P : policy.
  Variable es : list ((string * string) * edge).
  Variable succ : entity -> string -> subject -> Prop.
  Hypothesis Hsucc : edge_subjects E es succ.
  Hypothesis Hw : well_formed E P.
  Hypothesis Hobj : forall o rel u, succ o rel u -> has_object (subject_node u).
  Variable origin : rnode.
  Hypothesis Httu : ttu_objects E P succ origin.

  Definition sound_node (n : rnode) : Prop := has_object n /\ reach E P succ origin n.

  Lemma build_has_object nd t : sound_node nd -> build E P es nd = Ok t -> paths_in sound_node t.
  Proof.
    intros [Hr Hre] Hb. destruct nd as [[e |] rel | o | rs |]; cbn [build handle_entity_set] in Hb; try discriminate;
      try (injection Hb as <-; split; assumption).
    destruct (lut_get_relation P (e_res e) rel) as [l |] eqn:Hl; try discriminate.
    destruct (get_expression_tree E l) as [tr | | |] eqn:Hg; try discriminate. cbn [bind] in Hb.
    assert (Hrw : rewrites E P e rel tr). { eapply node_rewrites; [exists l; eauto | exact Hb]. }
    eapply build_tree_paths; [exact Hb |]. intros ru ns n Ho He Hin.
    apply (evaluate_yields E es succ Hsucc _ _ _ _ He) in Hin. split.
    - destruct Hin as [o rel u Hu | o rel c | o rel ts cu u Hu]; cbn; eauto.
      destruct (Httu o rel tr ts cu u Hre Hrw Ho Hu) as [o' ->]. exact I.
    - eapply re_step; [exact Hre |]. econstructor; eauto.
  Qed.

  Lemma build_no_panic nd : has_object nd -> build E P es nd <> Panic.
  Proof.
    intros Hr. destruct nd as [[e |] rel | o | rs |]; cbn [build handle_entity_set]; try discriminate; try contradiction.
    destruct (lut_get_relation P (e_res e) rel) as [l |] eqn:Hl; [| discriminate].
    apply lut_relation_some in Hl as [Hl Hn]. destruct (wf_expressions _ _ Hw _ l Hl) as (t & Ht & _).
    apply expression_get in Ht as [-> Hwt]. cbn [bind]. clear Hl Hn. induction Hwt as [| r | a op b _ IHa _ IHb]; cbn.
    - discriminate.
    - unfold build_goal_for_rule. assert (He : evaluate E es r (Some e) rel <> Panic).
      { destruct r as [| c | ts cu |]; cbn [evaluate]; try discriminate.
        destruct (get_successors_some E es e ts) as [ns ->]. cbn [bind]. apply map_res_no_panic.
        intros x _. destruct x; discriminate. }
      destruct (evaluate E es r (Some e) rel); cbn; congruence.
    - destruct (build_goal_tree E es a (Some e) rel); cbn; try congruence.
      destruct (build_goal_tree E es b (Some e) rel); cbn; try congruence. destruct op; discriminate.
  Qed.

  Theorem search_no_panic n g : has_object origin -> g <> GoalEntity None -> search E P es n origin g <> Panic.
  Proof.
    intros Hn Hg. unfold search.
    assert (H : search_path E P es g n origin "Request" [] <> Panic).
    { apply search_path_no_panic with (Q := sound_node); [| | | | split; [exact Hn | apply re_here]].
      - apply build_has_object.
      - intros m [Hm _]. destruct m as [[] | [] | |]; cbn in *; try discriminate; contradiction.
      - intros m [Hm _]. destruct g as [| [a |]], m as [[] | [] | |]; cbn in *; try discriminate; try contradiction; congruence.
      - intros m [Hm _]. apply build_no_panic. exact Hm. }
    destruct (search_path E P es g n origin "Request" []); cbn; congruence.
  Qed.

  (** Nodes that can be built: declared relations and terminal nodes. *)
  Definition declared_node (n : rnode) : Prop :=
    match n with
    | NSet (Some o) rel => declares P (e_res o) rel
    | NEntity (Some _) | NWild _ => True
    | NSet None _ | NEntity None | NUnset => False
    end.

  Hypothesis Hstd : standard E P.
  Hypothesis Hdecl : forall o rel u, succ o rel u -> declared_node (subject_node u).
  Hypothesis Httud : ttu_declared E P succ origin.

  Definition good_node (n : rnode) : Prop := declared_node n /\ reach E P succ origin n.

  Lemma declares_rewrites o rel : declares P (e_res o) rel ->
    exists l t, lut_get_relation P (e_res o) rel = Some l /\ relation_of P (e_res o) l /\ rl_name l = rel /\
      expression E l t /\ forall ru, occurs ru t -> rule_declared P (e_res o) ru.
  Proof.
    intros Hd. apply lut_relation_declares in Hd as [l Hl]. apply lut_relation_some in Hl as Hl'. destruct Hl' as [H1 H2].
    destruct (wf_expressions _ _ Hw _ l H1) as (t & Ht & Hr). exists l, t. auto.
  Qed.

  Lemma build_declared nd t : good_node nd -> build E P es nd = Ok t -> paths_in good_node t.
  Proof.
    intros [Hr Hre] Hb. destruct nd as [[e |] rel | o | rs |]; cbn [build handle_entity_set] in Hb; try discriminate;
      try (injection Hb as <-; split; assumption).
    destruct (declares_rewrites e rel Hr) as (l & tr & Hl & H1 & H2 & H3 & H4). rewrite Hl in Hb.
    assert (Hrw : rewrites E P e rel tr) by (exists l; auto).
    apply expression_get in H3 as [H3 _]. rewrite H3 in Hb. cbn [bind] in Hb.
    eapply build_tree_paths; [exact Hb |]. intros ru ns n Ho He Hin.
    apply (evaluate_yields E es succ Hsucc _ _ _ _ He) in Hin. split; [| eapply re_step; [exact Hre |]; econstructor; eauto].
    destruct Hin as [o rel u Hu | o rel c | o rel ts cu u Hu].
    - eauto.
    - specialize (H4 _ Ho). exact H4.
    - destruct (Httud o rel tr ts cu u Hre Hrw Ho Hu) as (o' & -> & Hd). exact Hd.
  Qed.

  Lemma build_total nd : good_node nd -> exists t, build E P es nd = Ok t.
  Proof.
    intros [Hr Hre]. destruct nd as [[e |] rel | o | rs |]; cbn [build handle_entity_set]; try (eexists; reflexivity); try contradiction.
    destruct (declares_rewrites e rel Hr) as (l & tr & Hl & H1 & H2 & H3 & H4). rewrite Hl.
    assert (Hrw : rewrites E P e rel tr) by (exists l; auto).
    pose proof (Hstd _ _ _ H1 H3) as Hst. apply expression_get in H3 as [-> _]. cbn [bind].
    assert (Hev : forall ru, occurs ru tr -> exists ns, evaluate E es ru (Some e) rel = Ok ns).
    { intros ru Ho. specialize (H4 ru Ho). destruct ru as [| c | ts cu |]; cbn [evaluate]; try contradiction; try (eexists; reflexivity).
      destruct (Hsucc e ts) as (ns & -> & Hn). cbn [bind]. apply map_res_total. intros x Hx.
      apply Hn in Hx as (u & Hu & ->). destruct (Httud e rel tr ts cu u Hre Hrw Ho Hu) as (o' & Ho' & _).
      destruct u; cbn in *; try discriminate; eexists; reflexivity. }
    clear H4 Hrw. clear Hr Hl Hre. induction tr as [| | r | a IHa op b IHb]; try contradiction.
    - cbn. unfold build_goal_for_rule. destruct (Hev r (occ_here r)) as [ns ->]. eexists. reflexivity.
    - cbn. cbn in Hst.
      destruct op; try contradiction; destruct Hst as [Ha Hb];
        (destruct IHa as [x ->]; [exact Ha | intros; apply Hev, occ_left; assumption |]);
        (destruct IHb as [y ->]; [exact Hb | intros; apply Hev, occ_right; assumption |]); cbn; eauto.
  Qed.

  Theorem search_total g : declared_node origin -> g <> GoalEntity None ->
    exists t, forall n, search_bound E P es origin <= n -> search E P es n origin g = Ok t.
  Proof.
    intros Hn Hg. destruct (search_terminates E P es origin g (search_bound E P es origin) (le_n _)) as [Hf _].
    assert (Hs : safe (search_path E P es g (search_bound E P es origin) origin "Request" [])).
    { apply search_path_safe with (Q := good_node); [| | | | split; [exact Hn | apply re_here]].
      - apply build_declared.
      - intros m [Hm _]. destruct m as [[] | [] | |]; cbn in Hm |- *; try contradiction; eexists; reflexivity.
      - intros m [Hm _]. destruct g as [| [a |]], m as [[] | [] | |]; cbn in Hm |- *; try contradiction; try (eexists; reflexivity); congruence.
      - intros m Hm _. apply build_total. exact Hm. }
    unfold search in Hf. destruct Hs as [Hs | [[t seen] Hs]]; [rewrite Hs in Hf; contradiction Hf; reflexivity |].
    exists t. intros n Hle. destruct (search_terminates E P es origin g n Hle) as [_ ->]. unfold search. rewrite Hs. reflexivity.
  Qed.
End SafeSearch.
