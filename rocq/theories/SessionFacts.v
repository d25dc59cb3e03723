(** Proofs about clients with policies of their own. *)
From Verif Require Import Base Domain Lexer Validate Store Search Explain Yaml Service Dump Api SpecPolicy SpecStore SpecConc SpecTouch
  SpecRefine SpecSessions BaseFacts ValidateFacts StoreFacts PolicyFacts RelFacts SearchRun ConcFacts TouchFacts.

Section Sessions.
  Variables (E : env) (owner : string -> nat) (U : string -> relationship -> Prop).
  Hypothesis Hapart : keys_apart E owner U.

  Definition filed (pid : string) (k : string * string) (e : edge) : Prop :=
    exists r, U pid r /\ to_internal (Some r) = Ok e /\ k = edge_key E e.

  (** The places of client [i]. *)
  Definition at_home (i : nat) (x : place) : Prop :=
    match x with
    | AtPolicy id => owner id = i
    | AtEdge pid _ => owner pid = i
    | AtRecord k => exists pid e, owner pid = i /\ filed pid k e
    end.

  Lemma home_apart i j x : at_home i x -> at_home j x -> i = j.
  Proof.
    destruct x as [id | pid k | k]; cbn; try congruence.
    intros (pid & e & <- & r & Hr & He & ->) (pid' & e' & <- & r' & Hr' & He' & Hk).
    assert (complete_relationship r) by (apply to_internal_complete; eauto).
    assert (complete_relationship r') by (apply to_internal_complete; eauto).
    apply (Hapart pid pid' r r'); auto.
    apply same_key_iff; auto.
    unfold rel_key. rewrite He, He'. exact Hk.
  Qed.

  Inductive inside (i : nat) {A} : prog A -> Prop :=
  | in_ret a : inside i (Ret a)
  | in_polget id k : owner id = i -> (forall x, inside i (k x)) -> inside i (PolGet id k)
  | in_polhas id k : owner id = i -> (forall x, inside i (k x)) -> inside i (PolHas id k)
  | in_polset id r k : owner id = i -> inside i k -> inside i (PolSet id r k)
  | in_poldel id k : owner id = i -> inside i k -> inside i (PolDel id k)
  | in_edgeget pid key k : owner pid = i -> (forall x, inside i (k x)) -> inside i (EdgeGet pid key k)
  | in_edgeset pid key e k : owner pid = i -> filed pid key e -> inside i k -> inside i (EdgeSet pid key e k)
  | in_edgedel pid key k : owner pid = i -> inside i k -> inside i (EdgeDel pid key k)
  | in_edgelist pid k : owner pid = i -> (forall l, (forall key e, In (key, e) l -> filed pid key e) -> inside i (k l)) ->
      inside i (EdgeList pid k)
  | in_dataget key k : at_home i (AtRecord key) -> (forall x, inside i (k x)) -> inside i (DataGet key k)
  | in_dataset key d k : at_home i (AtRecord key) -> inside i k -> inside i (DataSet key d k)
  | in_datadel key k : at_home i (AtRecord key) -> inside i k -> inside i (DataDel key k).

  Lemma inside_pbind i {A B} (p : prog A) (f : A -> prog B) : inside i p -> (forall a, inside i (f a)) -> inside i (pbind p f).
  Proof. intros Hp Hf. induction Hp; cbn [pbind]; auto; constructor; auto. Qed.

  Lemma inside_rbind i {A B} (p : prog (res A)) (f : A -> prog (res B)) : inside i p -> (forall a, inside i (f a)) -> inside i (rbind p f).
  Proof. intros Hp Hf. apply inside_pbind; [exact Hp |]. intros []; auto; constructor. Qed.

  Lemma inside_respond i {A} (p : prog (res A)) f : inside i p -> inside i (respond p f).
  Proof. intros Hp. apply inside_rbind; [exact Hp |]. intros a. constructor. Qed.

  Lemma inside_map i {A B} (f : A -> prog (res B)) l : (forall a, In a l -> inside i (f a)) -> inside i (map_prog f l).
  Proof.
    induction l as [| a l IH]; cbn; intros Hf; [constructor |]. apply inside_rbind; [apply Hf; auto |]. intros b.
    apply inside_rbind; [apply IH; auto |]. intros bs. constructor.
  Qed.

  Lemma inside_scans i pid {A} (p : prog A) : owner pid = i -> scans pid p -> inside i p.
  Proof. intros Ho. induction 1; constructor; auto. Qed.

  Ltac inside_tac :=
    repeat first
      [ assumption
      | match goal with
        | |- inside _ (respond _ _) => apply inside_respond
        | |- inside _ (rbind _ _) => apply inside_rbind
        | |- inside _ (pbind _ _) => apply inside_pbind
        | |- inside _ (search_prog _ _ ?pid _ _ _) => apply (inside_scans _ pid); [| apply scans_search]
        | |- inside _ (match ?x with _ => _ end) => destruct x eqn:?
        | |- inside _ (Ret _) => constructor
        | |- inside _ (lift _) => constructor
        | |- inside _ (PolGet _ _) => constructor
        | |- inside _ (PolHas _ _) => constructor
        | |- inside _ (PolSet _ _ _) => constructor
        | |- inside _ (PolDel _ _) => constructor
        | |- inside _ (EdgeList _ _) => constructor
        | |- forall _, _ => intros
        end
      | reflexivity ].

  (** Relationships that were found are named. *)
  Lemma inside_found i {A} pid sel (f : list relationship -> prog (res A)) : owner pid = i ->
    (forall l, (forall r, In r l -> U pid r) -> inside i (f l)) -> inside i (rbind (repo_find_relationships pid sel) f).
  Proof.
    intros Ho Hf. unfold repo_find_relationships, rbind, lift. cbn [pbind]. constructor; [exact Ho |]. intros l Hl.
    destruct (new_selector_spec sel) as [sp | | |]; cbn [bind]; try constructor. apply Hf. intros r Hr.
    apply filter_In in Hr as [Hr _]. apply in_map_iff in Hr as ([key e] & <- & Hin). cbn [snd].
    destruct (Hl _ _ Hin) as (r' & Hr' & He & _). rewrite (from_to_internal r' e He). exact Hr'.
  Qed.

  Lemma inside_delete i pid r : owner pid = i -> (forall x, r = Some x -> U pid x) -> inside i (repo_delete_relationship E pid r).
  Proof.
    intros Ho Hr. unfold repo_delete_relationship, rbind, lift. cbn [pbind]. destruct (to_internal r) as [e | | |] eqn:He; try constructor; [exact Ho |].
    intros x. constructor; [exact Ho |]. constructor; [| constructor]. destruct r as [r |]; [| discriminate].
    exists pid, e. split; [exact Ho |]. exists r. auto.
  Qed.

  Lemma inside_get i pid r : owner pid = i -> (forall x, r = Some x -> U pid x) -> inside i (repo_get_relationship E pid r).
  Proof.
    intros Ho Hr. unfold repo_get_relationship, rbind, lift. cbn [pbind]. destruct (to_internal r) as [e | | |] eqn:He; try constructor; [| intros; constructor].
    destruct r as [r |]; [| discriminate]. exists pid, e. split; [exact Ho |]. exists r. auto.
  Qed.

  Lemma inside_delete_many i pid sel : owner pid = i -> inside i (repo_delete_relationships E pid sel).
  Proof.
    intros Ho. apply inside_found; [exact Ho |]. intros l Hl. apply inside_rbind; [| intros; constructor]. apply inside_map. intros r Hr.
    apply inside_delete; [exact Ho |]. intros x [= <-]. auto.
  Qed.

  Lemma serve_inside i q : own_policy owner i q -> (forall pid r, mentions q pid r -> U pid r) -> inside i (serve E q).
  Proof.
    intros Ho HU. destruct q; cbn [serve own_policy concerns] in *; try (specialize (Ho _ eq_refl)).
    - unfold create_policy, repo_get_policy, repo_set_policy, lift. apply inside_respond.
      unfold rbind at 1. cbn [pbind]. destruct (get_policy_from_definition d) as [p | | |] eqn:Hd; try constructor;
        apply definition_id_ok in Hd; specialize (Ho _ Hd); inside_tac.
    - unfold update_policy, repo_get_policy, repo_set_policy, lift. apply inside_respond.
      unfold rbind at 1. cbn [pbind]. destruct (get_policy_from_definition d) as [p | | |] eqn:Hd; try constructor;
        apply definition_id_ok in Hd; specialize (Ho _ Hd); inside_tac.
    - unfold delete_policy, repo_delete_policy. inside_tac. apply inside_delete_many; exact Ho.
    - unfold get_policy, repo_get_policy. inside_tac.
    - contradiction.
    - unfold set_relationship, repo_get_policy. inside_tac. unfold repo_set_relationship, rbind, lift. cbn [pbind].
      destruct (to_internal r) as [e | | |] eqn:He; try constructor; [exact Ho |]. intros x.
      destruct r as [r |]; [| discriminate].
      assert (Hf : filed pid (edge_key E e) e) by (exists r; split; [apply HU; constructor | auto]).
      constructor; [exact Ho | exact Hf |]. constructor; [exists pid, e; auto | constructor].
    - apply inside_respond, inside_delete; [exact Ho |]. intros x ->. apply HU. constructor.
    - apply inside_respond, inside_get; [exact Ho |]. intros x ->. apply HU. constructor.
    - unfold find_relationship_records, repo_get_policy. inside_tac. apply inside_found; [exact Ho |]. intros l Hl.
      apply inside_map. intros x Hx. apply inside_get; [exact Ho |]. intros y [= <-]. auto.
    - apply inside_respond, inside_delete_many, Ho.
    - unfold check, check_search, repo_get_policy. inside_tac.
    - unfold explain_check, check_search, repo_get_policy. inside_tac.
    - unfold expand, repo_get_policy. inside_tac.
    - unfold dump_relationships, repo_get_policy. inside_tac.
  Qed.

  Lemma client_inside i qs : Forall (own_policy owner i) qs -> (forall q pid r, In q qs -> mentions q pid r -> U pid r) ->
    inside i (client E qs).
  Proof.
    induction 1 as [| q qs Hq _ IH]; cbn [client]; intros HU; [constructor |].
    apply inside_pbind; [apply serve_inside; [exact Hq | intros pid r; apply HU; left; reflexivity] |]. intros x.
    apply inside_pbind; [apply IH; intros q' pid r Hin; apply HU; right; exact Hin |]. intros xs. constructor.
  Qed.

  (** All stored relationships are named. *)
  Definition all_filed (s : store) : Prop := forall pid k e, kv_get ecmp (pid, k) (st_edges s) = Some e -> filed pid k e.

  Lemma listed_filed s pid key e : sorted_store s -> all_filed s -> In (key, e) (edges_of pid s) -> filed pid key e.
  Proof.
    intros (_ & H2 & _) Hf Hin. apply Hf. apply (get_iff ecmp ecmp_ok _ _ _ H2). unfold edges_of in Hin.
    apply in_map_iff in Hin as ([[pid' k'] e'] & [= <- <-] & Hin). apply filter_In in Hin as [Hin Heq].
    cbn in Heq. apply String.eqb_eq in Heq as ->. exact Hin.
  Qed.

  (** A turn of client [i] in two stores that agree at its places. *)
  Lemma inside_step i {A} (p : prog A) s t : inside i p -> sorted_store s -> sorted_store t -> all_filed s ->
    (forall x, at_home i x -> same_at x s t) ->
    match step1 p s, step1 p t with
    | Some (p1, s'), Some (p2, t') => p1 = p2 /\ inside i p1 /\ all_filed s' /\ (forall x, same_at x s t -> same_at x s' t') /\
                                      (forall x, ~ at_home i x -> same_at x s s')
    | None, None => True
    | _, _ => False
    end.
  Proof.
    intros Hw Hs Ht Hf HR. inversion Hw; subst; cbn [step1]; try exact I.
    - split; [| split; [auto | split; [auto | split; [auto | intros; apply same_at_refl]]]]. f_equal. exact (HR (AtPolicy id) eq_refl).
    - split; [| split; [auto | split; [auto | split; [auto | intros; apply same_at_refl]]]]. f_equal.
      pose proof (HR (AtPolicy id) eq_refl) as Hx. cbn in Hx. rewrite Hx. reflexivity.
    - split; [reflexivity |]. split; [assumption |]. split; [exact Hf |]. split.
      + intros [] Hx; cbn in *; try exact Hx. rewrite !(get_set scmp scmp_ok). destruct (scmp id0 id); auto.
      + intros [] Hx; cbn; try reflexivity. rewrite !(get_set scmp scmp_ok). destruct (scmp id0 id) eqn:Hc; auto.
        apply scmp_eq in Hc as ->. contradiction Hx. reflexivity.
    - split; [reflexivity |]. split; [assumption |]. split; [exact Hf |]. split.
      + intros [] Hx; cbn in *; try exact Hx. rewrite !(get_del scmp scmp_ok). destruct (scmp id0 id); auto.
      + intros [] Hx; cbn; try reflexivity. rewrite !(get_del scmp scmp_ok). destruct (scmp id0 id) eqn:Hc; auto.
        apply scmp_eq in Hc as ->. contradiction Hx. reflexivity.
    - split; [| split; [auto | split; [auto | split; [auto | intros; apply same_at_refl]]]]. f_equal. exact (HR (AtEdge pid key) eq_refl).
    - split; [reflexivity |]. split; [assumption |]. split; [| split].
      + intros pid0 k0 e0. cbn [st_edges]. rewrite (get_set ecmp ecmp_ok). destruct (ecmp (pid0, k0) (pid, key)) eqn:Hc; [| apply Hf | apply Hf].
        apply (cmp_eq _ ecmp_ok) in Hc. injection Hc as -> ->. intros [= <-]. assumption.
      + intros [] Hx; cbn in *; try exact Hx. rewrite !(get_set ecmp ecmp_ok). destruct (ecmp (pid0, key0) (pid, key)); auto.
      + intros [] Hx; cbn; try reflexivity. rewrite !(get_set ecmp ecmp_ok). destruct (ecmp (pid0, key0) (pid, key)) eqn:Hc; auto.
        apply (cmp_eq _ ecmp_ok) in Hc. injection Hc as -> ->. contradiction Hx. reflexivity.
    - split; [reflexivity |]. split; [assumption |]. split; [| split].
      + intros pid0 k0 e0. cbn [st_edges]. rewrite (get_del ecmp ecmp_ok) by apply Hs. destruct (ecmp (pid0, k0) (pid, key)); [discriminate | apply Hf | apply Hf].
      + intros [] Hx; cbn in *; try exact Hx. rewrite !(get_del ecmp ecmp_ok). destruct (ecmp (pid0, key0) (pid, key)); auto.
      + intros [] Hx; cbn; try reflexivity. rewrite !(get_del ecmp ecmp_ok). destruct (ecmp (pid0, key0) (pid, key)) eqn:Hc; auto.
        apply (cmp_eq _ ecmp_ok) in Hc. injection Hc as -> ->. contradiction Hx. reflexivity.
    - assert (He : edges_of pid s = edges_of pid t)
        by (apply edges_ext; [apply Hs | apply Ht |]; intros key; exact (HR (AtEdge pid key) eq_refl)).
      split; [rewrite He; reflexivity |]. split; [| split; [auto | split; [auto | intros; apply same_at_refl]]].
      apply H0. intros key e. apply listed_filed; assumption.
    - split; [| split; [auto | split; [auto | split; [auto | intros; apply same_at_refl]]]]. f_equal. exact (HR (AtRecord key) H).
    - split; [reflexivity |]. split; [assumption |]. split; [exact Hf |]. split.
      + intros [] Hx; cbn in *; try exact Hx. rewrite !(get_set pcmp pcmp_ok). destruct (pcmp key0 key); auto.
      + intros [] Hx; cbn; try reflexivity. rewrite !(get_set pcmp pcmp_ok). destruct (pcmp key0 key) eqn:Hc; auto.
        apply (cmp_eq _ pcmp_ok) in Hc as ->. contradiction.
    - split; [reflexivity |]. split; [assumption |]. split; [exact Hf |]. split.
      + intros [] Hx; cbn in *; try exact Hx. rewrite !(get_del pcmp pcmp_ok). destruct (pcmp key0 key); auto.
      + intros [] Hx; cbn; try reflexivity. rewrite !(get_del pcmp pcmp_ok). destruct (pcmp key0 key) eqn:Hc; auto.
        apply (cmp_eq _ pcmp_ok) in Hc as ->. contradiction.
  Qed.

  (** ** Clients beside each other *)

  Variables (cs : list (list request)) (s0 : store).
  Hypothesis Hs0 : sorted_store s0.
  Hypothesis Hf0 : all_filed s0.
  Hypothesis Hown : forall i qs, nth_error cs i = Some qs -> Forall (own_policy owner i) qs.
  Hypothesis HU : forall qs q pid r, In qs cs -> In q qs -> mentions q pid r -> U pid r.

  (** The client is where it would be if it were alone. *)
  Record undisturbed (s : store) (i : nat) (qs : list request) (p : prog (list (res response))) (t : store) : Prop := {
    un_run : run p t = run (client E qs) s0;
    un_inside : inside i p;
    un_sorted : sorted_store t;
    un_same : forall x, at_home i x -> same_at x s t }.

  Record peaceful (c : sessions) : Prop := {
    pf_sorted : sorted_store (snd c);
    pf_filed : all_filed (snd c);
    pf_length : length (fst c) = length cs;
    pf_own : forall i qs p, nth_error cs i = Some qs -> nth_error (fst c) i = Some p -> exists t, undisturbed (snd c) i qs p t }.

  Lemma peaceful_start : peaceful (open E cs s0).
  Proof.
    split; cbn [open fst snd]; auto; [apply map_length |].
    intros i qs p Hq Hp. rewrite nth_error_map, Hq in Hp. injection Hp as <-. exists s0.
    split; auto; [| intros; apply same_at_refl]. apply client_inside; [apply Hown; exact Hq |]. intros q pid r. apply HU.
    eapply nth_error_In, Hq.
  Qed.

  Lemma peaceful_step c i : peaceful c -> peaceful (turn c i).
  Proof.
    intros [H1 H2 H3 H4]. destruct c as [ts s]. cbn [fst snd] in *. unfold turn. cbn [fst snd].
    destruct (nth_error ts i) as [p |] eqn:Hp; [| split; auto].
    destruct (nth_error cs i) as [qs |] eqn:Hq.
    2: { exfalso. apply nth_error_None in Hq. apply nth_error_Some_lt in Hp. lia. }
    destruct (H4 i qs p Hq Hp) as (t & [W1 W2 W3 W4]).
    pose proof (inside_step i p s t W2 H1 W3 H2 W4) as St.
    destruct (step1 p s) as [[p1 s'] |] eqn:S1; [| split; auto].
    destruct (step1 p t) as [[p2 t'] |] eqn:S2; [| contradiction]. destruct St as (<- & Hw & Hf & Hs & Hn).
    split; cbn [fst snd].
    - eapply step_sorted; eassumption.
    - exact Hf.
    - rewrite replace_length. exact H3.
    - intros j qs' p' Hq' Hp'. destruct (Nat.eq_dec i j) as [<- | Hij].
      + rewrite (replace_same i p1 p) in Hp' by exact Hp. injection Hp' as <-. rewrite Hq in Hq'. injection Hq' as <-. exists t'.
        split; auto.
        * rewrite <- (step_run p t p1 t' S2). exact W1.
        * eapply step_sorted; eassumption.
      + rewrite replace_other in Hp' by exact Hij. destruct (H4 j qs' p' Hq' Hp') as (u & [U1 U2 U3 U4]). exists u. split; auto.
        intros x Hx. apply (same_at_trans x _ s); [| apply U4, Hx]. apply same_at_sym, Hn. intros Hi. apply Hij. eapply home_apart; eassumption.
  Qed.

  Lemma peaceful_play sched : peaceful (play sched (open E cs s0)).
  Proof.
    pose proof peaceful_start as H. revert H. generalize (open E cs s0). induction sched as [| i sched IH]; intros c H; [exact H |].
    apply IH, peaceful_step, H.
  Qed.

  Lemma heard_alone sched i qs xs : nth_error cs i = Some qs -> heard (play sched (open E cs s0)) i = Some xs ->
    (xs, snd (run (client E qs) s0)) = run (client E qs) s0 /\
    forall x, at_home i x -> same_at x (snd (play sched (open E cs s0))) (snd (run (client E qs) s0)).
  Proof.
    intros Hq Ha. pose proof (peaceful_play sched) as [_ _ _ H4]. unfold heard in Ha.
    destruct (nth_error (fst (play sched (open E cs s0))) i) as [p |] eqn:Hp; [| discriminate].
    destruct (H4 i qs p Hq Hp) as (t & [W1 _ _ W4]). destruct p; try discriminate. injection Ha as <-. rewrite <- W1. cbn [run snd].
    auto.
  Qed.
End Sessions.

Lemma run_client E qs : forall s, run (client E qs) s = (answers E qs s, after_all E qs s).
Proof.
  induction qs as [| q qs IH]; intros s; cbn [client answers]; [reflexivity |].
  rewrite run_pbind. unfold answer, after_all. cbn [fold_left]. unfold after at 2. destruct (run (serve E q) s) as [x s1] eqn:Hr.
  rewrite run_pbind, IH. cbn [run]. unfold after, after_all. rewrite Hr. reflexivity.
Qed.
