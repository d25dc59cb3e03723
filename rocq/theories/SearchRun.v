(** Running programs, and the search as a program. *)
From Verif Require Import Base Domain Lexer Parser Validate Store Search.

Lemma run_pbind {A B} (p : prog A) : forall (f : A -> prog B) s,
  run (pbind p f) s = run (f (fst (run p s))) (snd (run p s)).
Proof. induction p; intros f s; cbn [pbind run fst snd]; auto. Qed.

Lemma run_rbind {A B} (p : prog (res A)) (f : A -> prog (res B)) s :
  run (rbind p f) s =
  match fst (run p s) with
  | Ok a => run (f a) (snd (run p s))
  | Err e => (Err e, snd (run p s))
  | Panic => (Panic, snd (run p s))
  | Fuel => (Fuel, snd (run p s))
  end.
Proof. unfold rbind. rewrite run_pbind. destruct (fst (run p s)); reflexivity. Qed.

(** Induction over goal trees. *)
Section Ind.
  Variable Q : gtree -> Prop.
  Hypothesis HOr : forall r ps, Forall Q ps -> Q (GOr r ps).
  Hypothesis HAnd : forall r ps, Forall Q ps -> Q (GAnd r ps).
  Hypothesis HDiff : forall r x y, Q x -> Q y -> Q (GDiff r x y).
  Hypothesis HPath : forall r n t why, match t with Some x => Q x | None => True end -> Q (GPath r n t why).

  Fixpoint gtree_ind2 (t : gtree) : Q t :=
    let all := fix all (ps : list gtree) : Forall Q ps :=
      match ps with
      | [] => Forall_nil Q
      | p :: ps' => Forall_cons p (gtree_ind2 p) (all ps')
      end in
    match t with
    | GOr r ps => HOr r ps (all ps)
    | GAnd r ps => HAnd r ps (all ps)
    | GDiff r x y => HDiff r x y (gtree_ind2 x) (gtree_ind2 y)
    | GPath r n t why => HPath r n t why (match t with Some x => gtree_ind2 x | None => I end)
    end.
End Ind.

(** ** Programs that only list the relationships of [pid] *)

Inductive scans (pid : string) {A} : prog A -> Prop :=
| sc_ret a : scans pid (Ret a)
| sc_list k : (forall es, scans pid (k es)) -> scans pid (EdgeList pid k).

Lemma scans_rbind pid {A B} (p : prog (res A)) (f : A -> prog (res B)) :
  scans pid p -> (forall a, scans pid (f a)) -> scans pid (rbind p f).
Proof.
  intros Hp Hf. unfold rbind. induction Hp as [[a | | |] | k _ IH]; cbn [pbind]; try constructor; auto.
Qed.

Lemma scans_lift pid {A} (x : res A) : scans pid (lift x).
Proof. constructor. Qed.

Section Scans.
  Variable E : env.
  Variable P : policy.
  Variable pid : string.

  Lemma scans_evaluate r o rel : scans pid (evaluate_prog E pid r o rel).
  Proof.
    destruct r; cbn [evaluate_prog]; try apply scans_lift.
    - constructor. intros. constructor.
    - apply scans_rbind; [constructor; intros; constructor |]. intros. apply scans_lift.
  Qed.

  Lemma scans_build_tree o rel : forall t, scans pid (build_goal_tree_prog E pid t o rel).
  Proof.
    intros t. induction t as [| | r | l IHl op r IHr]; cbn [build_goal_tree_prog]; try apply scans_lift.
    - apply scans_rbind; [apply scans_evaluate |]. intros. apply scans_lift.
    - apply scans_rbind; [exact IHl |]. intros a. apply scans_rbind; [exact IHr |]. intros b. apply scans_lift.
  Qed.

  Lemma scans_build nd : scans pid (build_prog E P pid nd).
  Proof.
    destruct nd as [[e |] rel | o | rs |]; cbn [build_prog]; try apply scans_lift.
    destruct (lut_get_relation P (e_res e) rel); [| apply scans_lift].
    apply scans_rbind; [apply scans_lift |]. intros. apply scans_build_tree.
  Qed.

  Lemma scans_search_tree sp : (forall nd why seen, scans pid (sp nd why seen)) ->
    forall t seen, scans pid (search_tree_prog sp t seen).
  Proof.
    intros Hsp t. induction t as [r ps IH | r ps IH | r x y IHx IHy | r n t why IH] using gtree_ind2; intros seen; cbn [search_tree_prog].
    - apply scans_rbind; [| intros [[b qs] s]; apply scans_lift]. revert seen.
      induction IH as [| p ps Hp _ IH]; intros seen; [constructor |]. cbn. apply scans_rbind; [apply Hp |].
      intros x. destruct (is_success (get_result (fst x))); [apply scans_lift |].
      apply scans_rbind; [apply IH |]. intros [[b qs] s]. apply scans_lift.
    - apply scans_rbind; [| intros [[b qs] s]; apply scans_lift]. revert seen.
      induction IH as [| p ps Hp _ IH]; intros seen; [constructor |]. cbn. apply scans_rbind; [apply Hp |].
      intros x. destruct (is_failure (get_result (fst x))); [apply scans_lift |].
      apply scans_rbind; [apply IH |]. intros [[b qs] s]. apply scans_lift.
    - apply scans_rbind; [apply IHx |]. intros a. apply scans_rbind; [apply IHy |]. intros b. apply scans_lift.
    - apply Hsp.
  Qed.

  Lemma scans_search_path g : forall n nd why seen, scans pid (search_path_prog E P pid g n nd why seen).
  Proof.
    intros n. induction n as [| n IH]; intros nd why seen; [apply scans_lift |]. cbn [search_path_prog].
    apply scans_rbind; [apply scans_lift |]. intros id. destruct (existsb (String.eqb id) seen); [apply scans_lift |].
    apply scans_rbind; [apply scans_lift |]. intros f. destruct (f || is_terminal nd); [apply scans_lift |].
    apply scans_rbind; [apply scans_build |]. intros t.
    apply scans_rbind; [apply scans_search_tree; exact IH |]. intros x. apply scans_lift.
  Qed.

  Lemma scans_search n origin g : scans pid (search_prog E P pid n origin g).
  Proof. apply scans_rbind; [apply scans_search_path |]. intros x. apply scans_lift. Qed.

  (** ** An uninterrupted search *)

  Variable s : store.
  Notation es := (edges_of pid s).

  Lemma run_evaluate r o rel : run (evaluate_prog E pid r o rel) s = (evaluate E es r o rel, s).
  Proof.
    destruct r as [| t | ts cu |]; cbn [evaluate_prog evaluate]; try reflexivity.
    rewrite run_rbind. cbn [successors_prog run lift fst snd].
    destruct (get_successors E es o ts); reflexivity.
  Qed.

  Lemma run_build_tree o rel : forall t, run (build_goal_tree_prog E pid t o rel) s = (build_goal_tree E es t o rel, s).
  Proof.
    intros t. induction t as [| | r | l IHl op r IHr]; cbn [build_goal_tree_prog build_goal_tree]; try reflexivity.
    - rewrite run_rbind, run_evaluate. unfold build_goal_for_rule. cbn [fst snd].
      destruct (evaluate E es r o rel); reflexivity.
    - rewrite run_rbind, IHl. cbn [fst snd]. destruct (build_goal_tree E es l o rel); try reflexivity. cbn [bind].
      rewrite run_rbind, IHr. cbn [fst snd]. destruct (build_goal_tree E es r o rel); try reflexivity.
  Qed.

  Lemma run_build nd : run (build_prog E P pid nd) s = (build E P es nd, s).
  Proof.
    destruct nd as [[e |] rel | o | rs |]; cbn [build_prog build handle_entity_set]; try reflexivity.
    destruct (lut_get_relation P (e_res e) rel) as [l |]; [| reflexivity].
    rewrite run_rbind. cbn [lift run fst snd]. destruct (get_expression_tree E l); try reflexivity. cbn [bind].
    apply run_build_tree.
  Qed.

  Lemma run_search_tree sp sp' : (forall nd why seen, run (sp nd why seen) s = (sp' nd why seen, s)) ->
    forall t seen, run (search_tree_prog sp t seen) s = (search_tree sp' t seen, s).
  Proof.
    intros Hsp t. induction t as [r ps IH | r ps IH | r x y IHx IHy | r n t why IH] using gtree_ind2; intros seen; cbn [search_tree_prog search_tree].
    - assert (Hl : forall seen, run (or_loop_prog (search_tree_prog sp) ps seen) s = (or_loop (search_tree sp') ps seen, s)).
      { induction IH as [| p ps Hp _ IH]; intros seen1; [reflexivity |]. cbn. rewrite run_rbind, Hp. cbn [fst snd].
        destruct (search_tree sp' p seen1) as [x | | |]; try reflexivity. cbn [bind].
        destruct (is_success (get_result (fst x))); [reflexivity |]. rewrite run_rbind, IH. cbn [fst snd].
        destruct (or_loop (search_tree sp') ps (snd x)) as [[[b qs] s'] | | |]; reflexivity. }
      rewrite run_rbind, Hl. cbn [fst snd]. destruct (or_loop (search_tree sp') ps seen) as [[[b qs] s'] | | |]; reflexivity.
    - assert (Hl : forall seen, run (and_loop_prog (search_tree_prog sp) ps seen) s = (and_loop (search_tree sp') ps seen, s)).
      { induction IH as [| p ps Hp _ IH]; intros seen1; [reflexivity |]. cbn. rewrite run_rbind, Hp. cbn [fst snd].
        destruct (search_tree sp' p seen1) as [x | | |]; try reflexivity. cbn [bind].
        destruct (is_failure (get_result (fst x))); [reflexivity |]. rewrite run_rbind, IH. cbn [fst snd].
        destruct (and_loop (search_tree sp') ps (snd x)) as [[[b qs] s'] | | |]; reflexivity. }
      rewrite run_rbind, Hl. cbn [fst snd]. destruct (and_loop (search_tree sp') ps seen) as [[[b qs] s'] | | |]; reflexivity.
    - rewrite run_rbind, IHx. cbn [fst snd]. destruct (search_tree sp' x seen) as [a | | |]; try reflexivity. cbn [bind].
      rewrite run_rbind, IHy. cbn [fst snd]. destruct (search_tree sp' y (snd a)); reflexivity.
    - apply Hsp.
  Qed.

  Lemma run_search_path g : forall n nd why seen,
    run (search_path_prog E P pid g n nd why seen) s = (search_path E P es g n nd why seen, s).
  Proof.
    intros n. induction n as [| n IH]; intros nd why seen; [reflexivity |]. cbn [search_path_prog search_path].
    rewrite run_rbind. cbn [lift run fst snd]. destruct (node_id E nd) as [id | | |]; try reflexivity. cbn [bind].
    destruct (existsb (String.eqb id) seen); [reflexivity |].
    rewrite run_rbind. cbn [lift run fst snd]. destruct (goal_found nd g) as [f | | |]; try reflexivity. cbn [bind].
    destruct (f || is_terminal nd); [reflexivity |].
    rewrite run_rbind, run_build. cbn [fst snd]. destruct (build E P es nd) as [t | | |]; try reflexivity. cbn [bind].
    rewrite run_rbind, (run_search_tree _ _ IH). cbn [fst snd].
    destruct (search_tree (search_path E P es g n) t (id :: seen)); reflexivity.
  Qed.

  Theorem run_search n origin g : run (search_prog E P pid n origin g) s = (search E P es n origin g, s).
  Proof.
    unfold search_prog, search. rewrite run_rbind, run_search_path. cbn [fst snd].
    destruct (search_path E P es g n origin "Request" []); reflexivity.
  Qed.
End Scans.
