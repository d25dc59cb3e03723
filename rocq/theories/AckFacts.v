(** Proofs about requests that begin when others are answered. *)
From Verif Require Import Base Domain Lexer Validate Store Search Explain Yaml Service Dump Api SpecPolicy SpecStore SpecSearch SpecConc SpecTouch SpecAck
  BaseFacts ValidateFacts StoreFacts PolicyFacts RelFacts SearchRun ReadFacts ConcFacts ConcSearch TouchFacts.

(** ** The changes of a request, by key *)

Definition key_changes (E : env) (q : request) (x : change) : Prop :=
  match q, x with
  | (QCreatePolicy _ d _ | QUpdatePolicy d _), CPolSet id _ => definition_id d = Some id
  | QDeletePolicy id, CPolDel id' => id' = id
  | QDeletePolicy id, CEdgeDel pid _ => pid = id
  | QSetRelationship _ pid r _, CEdgeSet pid' k e => pid' = pid /\ to_internal r = Ok e /\ k = edge_key E e
  | QDeleteRelationship pid r, CEdgeDel pid' k => pid' = pid /\ stored_under E r k
  | QDeleteRelationships pid (Some sel), CEdgeDel pid' k => pid' = pid /\ exists r, selects sel r /\ stored_under E (Some r) k
  | QSetRelationship _ _ _ _, CDataSet _ _ => True
  | (QDeletePolicy _ | QDeleteRelationship _ _ | QDeleteRelationships _ _), CDataDel _ => True
  | _, _ => False
  end.

Lemma does_delete_one E (W : change -> Prop) pid r : (forall k, stored_under E r k -> W (CEdgeDel pid k)) -> (forall k, W (CDataDel k)) ->
  does anything W (repo_delete_relationship E pid r).
Proof.
  intros H1 H2. unfold repo_delete_relationship, rbind, lift. cbn [pbind]. destruct (to_internal r) as [e | | |] eqn:He; try constructor.
  intros x. constructor; [apply H1; exists e; auto |]. constructor; [auto |]. constructor.
Qed.

Lemma does_map_in G W {A B} (f : A -> prog (res B)) l : (forall a, In a l -> does G W (f a)) -> does G W (map_prog f l).
Proof.
  induction l as [| a l IH]; intros Hf; cbn [map_prog]; [constructor |].
  apply does_rbind; [apply Hf; left; reflexivity |]. intros b. apply does_rbind; [apply IH; intros; apply Hf; right; assumption |]. intros. constructor.
Qed.

Lemma serve_key E q : does anything (key_changes E q) (serve E q).
Proof.
  assert (Hd : is_read q \/ ~ is_read q) by (destruct q; cbn; tauto).
  destruct Hd as [Hr | Hr]; [apply does_reads, reads_serve, Hr |].
  destruct q; cbn [is_read] in Hr; try tauto; cbn [serve]; (apply does_rbind; [| intros; constructor]).
  - unfold create_policy, repo_get_policy, repo_set_policy, lift, rbind. cbn [pbind].
    destruct (get_policy_from_definition d) as [p | | |] eqn:Hd; try constructor. intros [r |] Hx; try constructor.
    cbn [pbind]. destruct (verify_policy E p) as [[] | | |] eqn:Hv; try constructor. intros x.
    constructor; [| constructor]. exact (definition_id_ok _ _ Hd).
  - unfold update_policy, repo_get_policy, repo_set_policy, lift, rbind. cbn [pbind].
    destruct (get_policy_from_definition d) as [p | | |] eqn:Hd; try constructor. intros [r |] Hx; try constructor.
    cbn [pbind]. destruct (verify_policy E p) as [[] | | |] eqn:Hv; try constructor. intros x.
    constructor; [| constructor]. exact (definition_id_ok _ _ Hd).
  - unfold delete_policy, repo_delete_policy. cbn [pbind]. constructor. intros []; cbn [pbind]; [| constructor].
    constructor; [reflexivity |]. apply does_rbind; [apply does_delete_relationships; cbn; auto | intros; constructor].
  - unfold set_relationship, repo_get_policy. cbn [pbind]. constructor. intros [rec |] Hx; [| constructor].
    unfold lift, rbind at 1. cbn [pbind]. destruct (allowed_relationship (pr_policy rec) r) as [[] | | |] eqn:Ha; try constructor.
    unfold repo_set_relationship, lift, rbind. cbn [pbind].
    destruct (to_internal r) as [e | | |] eqn:He; try constructor. intros x.
    constructor; [| constructor; [exact I | constructor]]. cbn. auto.
  - apply does_delete_one; cbn; auto.
  - unfold delete_relationships, repo_delete_relationships, repo_find_relationships, rbind at 1. cbn [pbind]. constructor. intros es.
    unfold lift. cbn [pbind]. destruct s as [sel |]; [| cbn; constructor].
    destruct (new_selector_spec (Some sel)) as [sp | | |] eqn:Hsp; cbn [bind]; try constructor.
    apply does_rbind; [| intros; constructor]. apply does_map_in. intros r Hin. apply filter_In in Hin as [_ Hs].
    apply (selector_ok sel sp r Hsp) in Hs. apply does_delete_one; [| intros; exact I].
    intros k Hk. cbn [key_changes]. split; [reflexivity |]. exists r. auto.
Qed.

Lemma not_added E pid e q x s : ~ may_add q pid (from_internal e) -> key_changes E q x ->
  kv_get ecmp (pid, edge_key E e) (st_edges s) <> Some e ->
  kv_get ecmp (pid, edge_key E e) (st_edges (changed x s)) <> Some e.
Proof.
  intros Hn Hx Hg. destruct x; cbn [changed st_edges]; try exact Hg.
  - rewrite (get_set ecmp ecmp_ok). destruct (ecmp (pid, edge_key E e) (pid0, k)) eqn:Hc; try exact Hg.
    apply (cmp_eq _ ecmp_ok) in Hc. injection Hc as <- <-. intros [= ->].
    destruct q; cbn [key_changes] in Hx; try contradiction; try (destruct s0; contradiction). destruct Hx as (<- & Hi & _).
    apply Hn. split; [reflexivity |]. destruct r as [r |]; [| discriminate]. rewrite (from_to_internal r e Hi). reflexivity.
  - rewrite (get_del ecmp ecmp_ok). destruct (ecmp (pid, edge_key E e) (pid0, k)); try exact Hg. discriminate.
Qed.

Lemma edge_step E q pid e x s : to_internal (Some (from_internal e)) = Ok e -> ~ may_remove E q pid (from_internal e) -> key_changes E q x ->
  kv_get ecmp (pid, edge_key E e) (st_edges s) = Some e -> kv_get ecmp (pid, edge_key E e) (st_edges (changed x s)) = Some e.
Proof.
  intros He Hn Hx Hg.
  assert (Hu : stored_under E (Some (from_internal e)) (edge_key E e)) by (exists e; auto).
  destruct x; cbn [changed st_edges]; try exact Hg.
  - rewrite (get_set ecmp ecmp_ok). destruct (ecmp (pid, edge_key E e) (pid0, k)) eqn:Hc; try exact Hg.
    apply (cmp_eq _ ecmp_ok) in Hc. injection Hc as <- <-.
    destruct q; cbn [key_changes] in Hx; try contradiction; try (destruct s0; contradiction). destruct Hx as (<- & Hi & Hk).
    f_equal. destruct r as [r |]; [| discriminate].
    destruct (relationship_dec r (from_internal e)) as [Heq | Hne].
    + subst r. congruence.
    + exfalso. apply Hn. cbn. split; [reflexivity |]. split; [congruence |]. exists (edge_key E e). split; [exists e0; auto | exact Hu].
  - rewrite (get_del ecmp ecmp_ok). destruct (ecmp (pid, edge_key E e) (pid0, k)) eqn:Hc; try exact Hg.
    apply (cmp_eq _ ecmp_ok) in Hc. injection Hc as <- <-. exfalso. apply Hn.
    destruct q; cbn [key_changes] in Hx; try contradiction; cbn [may_remove].
    + congruence.
    + destruct Hx as [-> Hx]. split; [reflexivity |]. exists (edge_key E e). auto.
    + destruct s0 as [sel |]; [| contradiction]. destruct Hx as (-> & r & Hs & Hx). split; [reflexivity |]. exists r. split; [exact Hs |].
      exists (edge_key E e). auto.
Qed.

Lemma firstn_S_nth {A} (l : list A) : forall n x, nth_error l n = Some x -> firstn (S n) l = firstn n l ++ [x].
Proof.
  induction l as [| a l IH]; intros [| n] x H; cbn in *; try discriminate; [congruence |]. f_equal. apply IH, H.
Qed.

(** ** From one moment on *)

Section From.
  Variable E : env.
  Variable qs : list request.
  Variable s0 : store.
  Variable sched : list nat.

  Lemma thread_key l j p : nth_error (fst (interleave l (start E qs s0))) j = Some p ->
    exists q, nth_error qs j = Some q /\ does anything (key_changes E q) p.
  Proof.
    revert j p. induction l as [| i l IH] using rev_ind; intros j p Hp.
    - cbn [interleave fold_left start fst] in Hp. rewrite nth_error_map in Hp. destruct (nth_error qs j) as [q |]; [| discriminate].
      injection Hp as <-. exists q. split; [reflexivity | apply serve_key].
    - unfold interleave in Hp. rewrite fold_left_app in Hp. cbn [fold_left] in Hp.
      change (fold_left advance l (start E qs s0)) with (interleave l (start E qs s0)) in Hp.
      unfold advance in Hp. destruct (nth_error (fst (interleave l (start E qs s0))) i) as [p1 |] eqn:Hi; [| apply IH; exact Hp].
      destruct (step1 p1 (snd (interleave l (start E qs s0)))) as [[p' s'] |] eqn:Hs; [| apply IH; exact Hp].
      cbn [fst] in Hp. destruct (Nat.eq_dec i j) as [-> | Hne].
      + destruct (IH _ _ Hi) as (q & Hq & Hd). exists q. split; [exact Hq |].
        erewrite replace_same in Hp by exact Hi. injection Hp as <-.
        apply (does_step anything _ p1 _ _ _ Hd (fun _ _ _ => Logic.I) Hs).
      + rewrite replace_other in Hp by exact Hne. apply IH. exact Hp.
  Qed.

  Lemma moment_later m k : m <= k ->
    moment E qs s0 sched k = snd (interleave (firstn (k - m) (skipn m sched)) (interleave (firstn m sched) (start E qs s0))).
  Proof.
    intros H. unfold moment, interleave. rewrite <- fold_left_app. f_equal. f_equal.
    rewrite <- (firstn_skipn m sched) at 1. rewrite firstn_app, firstn_firstn.
    destruct (Nat.le_gt_cases m (length sched)) as [Hl | Hl].
    - rewrite firstn_length, (Nat.min_l m (length sched)), (Nat.min_r k m) by lia. reflexivity.
    - rewrite (skipn_all2 sched) by lia. rewrite !firstn_nil, !app_nil_r. rewrite !firstn_all2; auto; lia.
  Qed.

  (** What the changes of the running requests keep holds at every later moment. *)
  Lemma later_inv m (J : store -> Prop) :
    (forall j q x s, running E qs s0 sched m j q -> key_changes E q x -> J s -> J (changed x s)) ->
    J (moment E qs s0 sched m) -> forall k, m <= k -> J (moment E qs s0 sched k).
  Proof.
    intros Hk H k Hm. rewrite (moment_later m k Hm). clear Hm.
    assert (Hgen : forall l c, J (snd c) ->
      (forall p, In p (fst c) -> (exists a, p = Ret a) \/ exists j q, running E qs s0 sched m j q /\ does anything (key_changes E q) p) ->
      J (snd (interleave l c))).
    { induction l as [| i l IH]; intros c HJ Ht; [exact HJ |]. cbn [interleave fold_left]. unfold advance at 2.
      destruct (nth_error (fst c) i) as [p |] eqn:Hi; [| apply IH; assumption]. apply nth_error_In in Hi.
      destruct (step1 p (snd c)) as [[p' s'] |] eqn:Hs; [| apply IH; assumption].
      destruct (Ht _ Hi) as [(a & ->) | (j & q & Hr & Hd)]; [discriminate |].
      destruct (does_step anything _ p _ _ _ Hd (fun _ _ _ => Logic.I) Hs) as [Hd' Hs'].
      apply IH; cbn [fst snd].
      - destruct Hs' as [-> | (x & Hx & ->)]; [exact HJ | eapply Hk; eassumption].
      - intros p2 Hin. apply in_replace in Hin as [-> | Hin]; [| auto]. right. eauto. }
    apply Hgen; [exact H |]. intros p Hp. apply In_nth_error in Hp as (j & Hj).
    destruct (thread_key _ _ _ Hj) as (q & Hq & Hd).
    destruct p as [a | | | | | | | | | | | |]; [left; eauto | ..]; right; exists j, q; (split; [split; [exact Hq |] | exact Hd]);
      unfold answered; rewrite Hj; reflexivity.
  Qed.

  Lemma running_before m k j q : m <= k -> running E qs s0 sched k j q -> running E qs s0 sched m j q.
  Proof.
    intros Hm [Hq Ha]. split; [exact Hq |]. destruct (answered (interleave (firstn m sched) (start E qs s0)) j) as [x |] eqn:Hx; [| reflexivity].
    exfalso. assert (Hs : firstn k sched = firstn m sched ++ skipn m (firstn k sched)).
    { rewrite <- (firstn_skipn m (firstn k sched)) at 1. rewrite firstn_firstn, Nat.min_l by lia. reflexivity. }
    rewrite Hs in Ha. unfold interleave in Ha. rewrite fold_left_app in Ha.
    fold (interleave (firstn m sched) (start E qs s0)) in Ha.
    revert Hx Ha. generalize (interleave (firstn m sched) (start E qs s0)). clear Hs.
    induction (skipn m (firstn k sched)) as [| i l IH]; intros c Hx Ha; [cbn in Ha; congruence |].
    cbn [fold_left] in Ha. revert Ha. apply IH. unfold answered in Hx |- *. unfold advance.
    destruct (nth_error (fst c) j) as [[a | | | | | | | | | | | |] |] eqn:Hj; try discriminate.
    destruct (nth_error (fst c) i) as [p |] eqn:Hi; [| rewrite Hj; exact Hx].
    destruct (step1 p (snd c)) as [[p' s'] |] eqn:Hst; [| rewrite Hj; exact Hx].
    cbn [fst]. destruct (Nat.eq_dec i j) as [-> | Hne].
    - rewrite Hi in Hj. injection Hj as ->. discriminate.
    - rewrite replace_other by exact Hne. rewrite Hj. exact Hx.
  Qed.

  Lemma edge_lasts m pid e : (forall j q, running E qs s0 sched m j q -> ~ may_remove E q pid (from_internal e)) ->
    to_internal (Some (from_internal e)) = Ok e ->
    kv_get ecmp (pid, edge_key E e) (st_edges (moment E qs s0 sched m)) = Some e ->
    forall k, m <= k -> kv_get ecmp (pid, edge_key E e) (st_edges (moment E qs s0 sched k)) = Some e.
  Proof.
    intros Hn He. apply (later_inv m (fun s => kv_get ecmp (pid, edge_key E e) (st_edges s) = Some e)).
    intros j q x s Hr Hx Hg. apply (edge_step E q); auto. eapply Hn; exact Hr.
  Qed.

  Lemma edge_stays_away m pid e : (forall j q, running E qs s0 sched m j q -> ~ may_add q pid (from_internal e)) ->
    kv_get ecmp (pid, edge_key E e) (st_edges (moment E qs s0 sched m)) <> Some e ->
    forall k, m <= k -> kv_get ecmp (pid, edge_key E e) (st_edges (moment E qs s0 sched k)) <> Some e.
  Proof.
    intros Hn. apply (later_inv m (fun s => kv_get ecmp (pid, edge_key E e) (st_edges s) <> Some e)).
    intros j q x s Hr Hx Hg. specialize (Hn j q Hr). exact (not_added E pid e q x s Hn Hx Hg).
  Qed.

  Lemma policy_lasts m pid rec : (forall j q, running E qs s0 sched m j q -> ~ may_redefine q pid) ->
    policies (moment E qs s0 sched m) pid = rec -> forall k, m <= k -> policies (moment E qs s0 sched k) pid = rec.
  Proof.
    intros Hn. apply (later_inv m (fun s => policies s pid = rec)). intros j q x s Hr Hx Hg. specialize (Hn j q Hr). unfold policies in *.
    destruct x; cbn [changed st_pol]; try exact Hg.
    - rewrite (get_set_other scmp scmp_ok); [exact Hg |]. intros ->. apply Hn. left.
      destruct q; cbn [key_changes] in Hx; try contradiction; try (destruct s1; contradiction); exact Hx.
    - rewrite (get_del_other scmp scmp_ok); [exact Hg |]. intros ->. apply Hn. right.
      destruct q; cbn [key_changes] in Hx; try contradiction; try (destruct s1; contradiction); congruence.
  Qed.

  (** ** One request from its beginning to its answer *)

  Lemma interleave_snoc l i c : interleave (l ++ [i]) c = advance (interleave l c) i.
  Proof. unfold interleave. rewrite fold_left_app. reflexivity. Qed.

  Lemma unstarted m j q : nth_error qs j = Some q -> begins_after E qs s0 sched j m -> 
    nth_error (fst (interleave (firstn m sched) (start E qs s0))) j = Some (serve E q).
  Proof.
    intros Hq Hb. assert (Hgen : forall m', m' <= m -> nth_error (fst (interleave (firstn m' sched) (start E qs s0))) j = Some (serve E q)); [| apply Hgen, le_n].
    induction m' as [| m' IH]; intros Hm.
    - cbn [firstn interleave fold_left start fst]. rewrite nth_error_map, Hq. reflexivity.
    - specialize (IH ltac:(lia)). destruct (nth_error sched m') as [i |] eqn:Hi.
      + rewrite (firstn_S_nth _ _ _ Hi), interleave_snoc. unfold advance.
        destruct (nth_error (fst (interleave (firstn m' sched) (start E qs s0))) i) as [p |] eqn:Hp; [| exact IH].
        destruct (step1 p (snd (interleave (firstn m' sched) (start E qs s0)))) as [[p' s'] |] eqn:Hs; [| exact IH].
        cbn [fst]. destruct (Nat.eq_dec i j) as [-> | Hne]; [| rewrite replace_other by exact Hne; exact IH].
        exfalso. assert (m <= m'); [| lia]. apply Hb. split; [exact Hi |]. unfold answered. rewrite Hp. destruct p; try discriminate; reflexivity.
      + apply nth_error_None in Hi. rewrite firstn_all2 in IH by lia. rewrite firstn_all2 by lia. exact IH.
  Qed.

  Lemma watch m j q (J : prog (res response) -> store -> Prop) : store_ok E s0 -> nth_error qs j = Some q -> begins_after E qs s0 sched j m ->
    J (serve E q) (moment E qs s0 sched m) ->
    (forall j' q' x p s, j' <> j -> running E qs s0 sched m j' q' -> key_changes E q' x -> J p s -> J p (changed x s)) ->
    (forall p s p' s', J p s -> store_ok E s -> step1 p s = Some (p', s') ->
       s' = s \/ (exists x, key_changes E q x /\ s' = changed x s) -> J p' s') ->
    forall k, m <= k -> exists p, nth_error (fst (interleave (firstn k sched) (start E qs s0))) j = Some p /\ J p (moment E qs s0 sched k).
  Proof.
    intros Hok Hq Hb H0 Hoth Hown k Hk. induction Hk as [| k Hk IH]; [eauto using unstarted |].
    destruct IH as (p & Hp & HJ). unfold moment in *. destruct (nth_error sched k) as [i |] eqn:Hi.
    2: { apply nth_error_None in Hi. rewrite (firstn_all2 sched) in Hp by lia. rewrite (firstn_all2 sched) in HJ by lia. rewrite (firstn_all2 sched) by lia. eauto. }
    rewrite (firstn_S_nth _ _ _ Hi), interleave_snoc. pose proof (moment_ok E qs s0 Hok sched k) as Hok'. unfold moment in Hok'.
    pose proof (thread_key (firstn k sched)) as Hth. pose proof (running_before m k) as Hrun.
    assert (Hans : forall j' p', nth_error (fst (interleave (firstn k sched) (start E qs s0))) j' = Some p' -> forall q', nth_error qs j' = Some q' ->
       step1 p' (snd (interleave (firstn k sched) (start E qs s0))) <> None -> running E qs s0 sched m j' q').
    { intros j' p' Hj' q' Hq' Hs. apply Hrun; [exact Hk |]. split; [exact Hq' |]. unfold answered. rewrite Hj'. destruct p'; try reflexivity. contradiction. }
    clear Hrun. revert Hp HJ Hok' Hth Hans. generalize (interleave (firstn k sched) (start E qs s0)). intros c Hp HJ Hok' Hth Hans.
    unfold advance. destruct (nth_error (fst c) i) as [p1 |] eqn:Hi'; [| eauto].
    destruct (step1 p1 (snd c)) as [[p' s'] |] eqn:Hs; [| eauto]. cbn [fst snd].
    destruct (Hth _ _ Hi') as (q1 & Hq1 & Hd). destruct (does_step anything _ p1 _ _ _ Hd (fun _ _ _ => Logic.I) Hs) as [_ Hs'].
    destruct (Nat.eq_dec i j) as [-> | Hne].
    - rewrite Hp in Hi'. injection Hi' as <-. exists p'. split; [eapply replace_same; exact Hp |].
      rewrite Hq in Hq1. injection Hq1 as <-. eapply Hown; eassumption.
    - exists p. rewrite replace_other by exact Hne. split; [exact Hp |].
      destruct Hs' as [-> | (x & Hx & ->)]; [exact HJ |]. eapply Hoth; try eassumption. eapply Hans; try eassumption. congruence.
  Qed.
End From.

(** Programs that give the answer [good] only if they have made the relationship stored. *)
Inductive puts (pid : string) (k : string * string) (e : edge) {A} (good : A -> Prop) : prog A -> Prop :=
| pu_ret a : ~ good a -> puts pid k e good (Ret a)
| pu_here p : puts pid k e good (EdgeSet pid k e p)
| pu_polget id f : (forall x, puts pid k e good (f x)) -> puts pid k e good (PolGet id f)
| pu_edgeget pid' k' f : (forall x, puts pid k e good (f x)) -> puts pid k e good (EdgeGet pid' k' f).

Lemma puts_set E now pid r e app : to_internal (Some r) = Ok e ->
  puts pid (edge_key E e) e (fun x => exists b, x = Ok (ASet b)) (serve E (QSetRelationship now pid (Some r) app)).
Proof.
  intros He. cbn [serve]. unfold respond, rbind at 1, set_relationship, repo_get_policy. cbn [pbind]. constructor. intros [rec |].
  - unfold rbind, lift at 1. cbn [pbind]. destruct (allowed_relationship (pr_policy rec) (Some r)) as [[] | | |]; cbn [pbind];
      try (constructor; intros (b & Hb); discriminate).
    unfold repo_set_relationship, rbind, lift. cbn [pbind]. rewrite He. cbn [pbind]. constructor. intros x. cbn [pbind]. constructor.
  - cbn [pbind]. constructor. intros (b & Hb). discriminate.
Qed.

(** Programs that give the answer [good] only if they have deleted the relationship, if it was there when they listed. *)
Inductive clears (pid : string) (k : string * string) (e : edge) {A} (good : A -> Prop) : prog A -> Prop :=
| cl_ret a : ~ good a -> clears pid k e good (Ret a)
| cl_here p : clears pid k e good (EdgeDel pid k p)
| cl_polhas id f : (forall x, clears pid k e good (f x)) -> clears pid k e good (PolHas id f)
| cl_poldel id p : clears pid k e good p -> clears pid k e good (PolDel id p)
| cl_edgeget pid' k' f : (forall x, clears pid k e good (f x)) -> clears pid k e good (EdgeGet pid' k' f)
| cl_edgedel pid' k' p : clears pid k e good p -> clears pid k e good (EdgeDel pid' k' p)
| cl_datadel k' p : clears pid k e good p -> clears pid k e good (DataDel k' p)
| cl_list f : (forall es, In (k, e) es -> clears pid k e good (f es)) -> clears pid k e good (EdgeList pid f).

Definition is_ok {A} (x : res A) : Prop := exists a, x = Ok a.

Lemma clears_rbind pid k e {A B} (good : res B -> Prop) (p : prog (res A)) (f : A -> prog (res B)) :
  (forall x, good x -> is_ok x) -> clears pid k e is_ok p -> clears pid k e good (rbind p f).
Proof.
  intros Hg Hp. unfold rbind. induction Hp; cbn [pbind]; try (constructor; auto; fail).
  destruct a as [a | | |]; [exfalso; apply H; exists a; reflexivity | ..]; constructor; intros Hx; apply Hg in Hx as (y & Hy); discriminate.
Qed.

Lemma clears_one E pid r e : to_internal (Some r) = Ok e -> clears pid (edge_key E e) e is_ok (repo_delete_relationship E pid (Some r)).
Proof. intros He. unfold repo_delete_relationship, rbind, lift. cbn [pbind]. rewrite He. constructor. intros x. constructor. Qed.

Lemma clears_past E pid k e r {B} (good : res B -> Prop) (f : bool -> prog (res B)) :
  (forall x, good x -> is_ok x) -> (forall b, clears pid k e good (f b)) -> clears pid k e good (rbind (repo_delete_relationship E pid r) f).
Proof.
  intros Hg Hf. unfold repo_delete_relationship, rbind, lift. cbn [pbind].
  destruct (to_internal r); try (constructor; intros Hx; apply Hg in Hx as (y & Hy); discriminate).
  cbn [pbind]. constructor. intros x. constructor. constructor. apply Hf.
Qed.

Lemma clears_many E pid r e rs : to_internal (Some r) = Ok e -> In r rs ->
  clears pid (edge_key E e) e is_ok (map_prog (fun r => repo_delete_relationship E pid (Some r)) rs).
Proof.
  intros He. induction rs as [| r' rs IH]; intros Hin; [contradiction |]. cbn [map_prog]. destruct Hin as [-> | Hin].
  - apply clears_rbind; [auto |]. apply clears_one, He.
  - apply clears_past; [auto |]. intros b. apply clears_rbind; auto.
Qed.

Lemma clears_delete_many E pid sel r e : to_internal (Some r) = Ok e -> selects sel r ->
  clears pid (edge_key E e) e is_ok (repo_delete_relationships E pid (Some sel)).
Proof.
  intros He Hs. unfold repo_delete_relationships, repo_find_relationships, rbind at 1. cbn [pbind]. constructor. intros es Hin.
  unfold lift. cbn [pbind]. destruct (new_selector_spec (Some sel)) as [sp | | |] eqn:Hsp; cbn [bind]; try (constructor; intros (y & Hy); discriminate).
  apply clears_rbind; [auto |]. apply (clears_many E pid r); [exact He |]. apply filter_In. split; [| apply (selector_ok sel sp r Hsp), Hs].
  apply in_map_iff. exists (edge_key E e, e). split; [apply from_to_internal, He | exact Hin].
Qed.

Lemma everything_selected r : selects all_relationships_selector r.
Proof. exists OSWild, LSWild, USWild. repeat split. Qed.

Lemma clears_serve E q pid r e : to_internal (Some r) = Ok e ->
  (exists x, revokes q x pid r) ->
  clears pid (edge_key E e) e (fun x => revokes q x pid r) (serve E q).
Proof.
  intros He (x & Hx). destruct q; cbn [revokes] in Hx; try (destruct x as [[] | | |]; contradiction); cbn [serve].
  - assert (id = pid) as -> by (destruct x as [[| | [] | | | | | | | | | | |] | | |]; try contradiction; exact Hx).
    unfold respond, rbind at 1, delete_policy, repo_delete_policy. cbn [pbind]. constructor. intros []; cbn [pbind].
    + constructor. change (clears pid (edge_key E e) e (fun x => revokes (QDeletePolicy pid) x pid r) (delete_rest E pid)).
      unfold delete_rest. apply clears_rbind; [intros y Hy; destruct y; try contradiction; eexists; reflexivity |].
      apply clears_rbind; [auto |]. eapply clears_delete_many; [exact He | apply everything_selected].
    + constructor. cbn. auto.
  - assert (Hr : pid0 = pid /\ r0 = Some r) by (destruct x as [[] | | |]; try contradiction; exact Hx). destruct Hr as [-> ->].
    apply clears_rbind; [| apply clears_one, He]. intros y. cbn. destruct y; try contradiction. eexists. reflexivity.
  - destruct s as [sel |]; [| destruct x as [[] | | |]; contradiction].
    assert (Hr : pid0 = pid /\ selects sel r) by (destruct x as [[] | | |]; try contradiction; exact Hx). destruct Hr as [-> Hs].
    apply clears_rbind; [| eapply clears_delete_many; eauto]. intros y. cbn. destruct y; try contradiction. eexists. reflexivity.
Qed.

Section Acknowledged.
  Variable E : env.
  Variable qs : list request.
  Variable s0 : store.
  Hypothesis Hok : store_ok E s0.
  Variable sched : list nat.

  Lemma stored_edge m pid r e : to_internal (Some r) = Ok e ->
    (In r (relationships (moment E qs s0 sched m) pid) <-> kv_get ecmp (pid, edge_key E e) (st_edges (moment E qs s0 sched m)) = Some e).
  Proof.
    intros He. rewrite (relationships_in E _ _ _ (moment_ok E qs s0 Hok sched m)). split.
    - intros (e' & He' & Hg). congruence.
    - intros Hg. eauto.
  Qed.

  Lemma lasting_lasts m pid r : lasting E qs s0 sched m pid r -> forall k, m <= k -> In r (relationships (moment E qs s0 sched k) pid).
  Proof.
    intros [Hin Hn] k Hk. pose proof Hin as H. apply (relationships_in E _ _ _ (moment_ok E qs s0 Hok sched m)) in H as (e & He & Hg).
    apply (stored_edge k pid r e He). apply (edge_lasts E qs s0 sched m pid e); [| | exact Hg | exact Hk]; rewrite (from_to_internal r e He); assumption.
  Qed.

  Lemma only_possible m k pid r : m <= k -> In r (relationships (moment E qs s0 sched k) pid) ->
    In r (relationships (moment E qs s0 sched m) pid) \/ ~ (forall j q, running E qs s0 sched m j q -> ~ may_add q pid r).
  Proof.
    intros Hk Hin. pose proof Hin as H. apply (relationships_in E _ _ _ (moment_ok E qs s0 Hok sched k)) in H as (e & He & Hg).
    destruct (in_dec relationship_dec r (relationships (moment E qs s0 sched m) pid)) as [Hi | Hi]; [left; exact Hi | right]. intros Hn.
    revert Hg. apply (edge_stays_away E qs s0 sched m pid e); [rewrite (from_to_internal r e He); exact Hn | | exact Hk].
    rewrite <- (stored_edge m pid r e He). exact Hi.
  Qed.

  Lemma adders m pid r : (exists j q, running E qs s0 sched m j q /\ may_add q pid r) \/ (forall j q, running E qs s0 sched m j q -> ~ may_add q pid r).
  Proof.
    assert (Hgen : forall n, (exists j q, running E qs s0 sched m j q /\ may_add q pid r) \/ (forall j q, j < n -> running E qs s0 sched m j q -> ~ may_add q pid r)).
    { induction n as [| n [IH | IH]]; [right; intros; lia | left; exact IH |].
      assert (Hd : (exists q, running E qs s0 sched m n q /\ may_add q pid r) \/ (forall q, running E qs s0 sched m n q -> ~ may_add q pid r)).
      { unfold running. destruct (nth_error qs n) as [q |]; [| right; intros q [Hq _]; discriminate].
        destruct (answered (interleave (firstn m sched) (start E qs s0)) n); [right; intros q' [_ Ha]; discriminate |].
        assert (Ha : may_add q pid r \/ ~ may_add q pid r).
        { destruct q; cbn [may_add]; try tauto. destruct (string_dec pid0 pid) as [-> | Hp]; [| right; intros [? _]; contradiction].
          destruct r0 as [r0 |]; [| right; intros [_ ?]; discriminate]. destruct (relationship_dec r0 r) as [-> | Hr]; [left; auto | right; intros [_ ?]; congruence]. }
        destruct Ha as [Ha | Ha]; [left; exists q; auto |]. right. intros q' [[= <-] _]. exact Ha. }
      destruct Hd as [(q & Hq) | Hd]; [left; exists n, q; exact Hq |]. right. intros j q Hj. destruct (Nat.eq_dec j n) as [-> | Hne]; [auto |]. apply IH. lia. }
    destruct (Hgen (length qs)) as [H | H]; [left; exact H |]. right. intros j q Hr. apply (H j q); [| exact Hr].
    apply nth_error_Some. destruct Hr as [Hr _]. congruence.
  Qed.

  Lemma later_possible m k pid r : m <= k -> In r (relationships (moment E qs s0 sched k) pid) -> possible E qs s0 sched m pid r.
  Proof.
    intros Hk Hin. destruct (only_possible m k pid r Hk Hin) as [H | H]; [left; exact H |]. right.
    destruct (adders m pid r) as [Ha | Ha]; [exact Ha | contradiction].
  Qed.

  Lemma acknowledged_set m0 m j q x pid r : nth_error qs j = Some q -> begins_after E qs s0 sched j m0 -> m0 <= m ->
    answered (interleave (firstn m sched) (start E qs s0)) j = Some x -> grants q x pid r ->
    (forall j' q', j' <> j -> running E qs s0 sched m0 j' q' -> ~ may_remove E q' pid r) ->
    lasting E qs s0 sched m pid r.
  Proof.
    intros Hq Hb Hm Ha Hg Hn.
    assert (Hj : forall j' q', running E qs s0 sched m j' q' -> ~ may_remove E q' pid r).
    { intros j' q' Hr. destruct (Nat.eq_dec j' j) as [-> | Hne]; [destruct Hr; congruence |].
      apply (Hn j' q' Hne). apply (running_before E qs s0 sched m0 m); assumption. }
    split; [| exact Hj].
    destruct q as [| | | | | now pid' r' app | | | | | | | |]; cbn [grants] in Hg; try contradiction.
    destruct x as [[] | | |]; try contradiction. destruct Hg as [-> ->].
    assert (He : exists e, to_internal (Some r) = Ok e).
    { pose proof (request_outcome E qs s0 (firstn m sched) j _ _ Hq Ha) as Ho. cbn [serve] in Ho. unfold respond, set_relationship in Ho.
      apply outcome_ok in Ho as (b & Ho & _). unfold repo_get_policy in Ho. cbn [pbind] in Ho. apply outcome_get in Ho as (s & _ & Ho).
      destruct (kv_get scmp pid (st_pol s)) as [rec |]; [| apply outcome_ret in Ho; discriminate].
      apply outcome_ok in Ho as ([] & _ & Ho). unfold repo_set_relationship in Ho. apply outcome_ok in Ho as (e & Ho & _).
      apply outcome_ret in Ho. exists e. congruence. }
    destruct He as (e & He).
    - rewrite (stored_edge m pid r e He).
      pose proof (from_to_internal r e He) as Hr.
      destruct (watch E qs s0 sched m0 j _ (fun p s => puts pid (edge_key E e) e (fun x => exists b, x = Ok (ASet b)) p \/
          kv_get ecmp (pid, edge_key E e) (st_edges s) = Some e) Hok Hq Hb) with (k := m) as (p & Hp & HJ).
      + left. apply puts_set, He.
      + intros j' q' x p s Hne Hrun Hx [H | H]; [left; exact H | right].
        apply (edge_step E q' pid e x s); [rewrite Hr; exact He | | exact Hx | exact H]. rewrite Hr. eapply Hn; eassumption.
      + intros p s p' s' [H | H] Hs Hst Hx.
        * inversion H; subst; cbn [step1] in Hst; try discriminate; injection Hst as <- <-; auto.
          right. cbn [st_edges]. apply get_set_same, ecmp_ok.
        * right. destruct Hx as [-> | (x & Hx & ->)]; [exact H |].
          apply (edge_step E (QSetRelationship now pid (Some r) app) pid e x s); [rewrite Hr; exact He | | exact Hx | exact H].
          cbn. rewrite Hr. intros (_ & Hne & _). contradiction.
      + exact Hm.
      + unfold answered in Ha. rewrite Hp in Ha. destruct p; try discriminate. injection Ha as ->. destruct HJ as [HJ | HJ]; [| exact HJ].
        inversion HJ as [a Hx | | |]. exfalso. apply Hx. eexists. reflexivity.
  Qed.

  Lemma acknowledged_delete m0 m j q x pid r : nth_error qs j = Some q -> begins_after E qs s0 sched j m0 -> m0 <= m ->
    answered (interleave (firstn m sched) (start E qs s0)) j = Some x -> revokes q x pid r ->
    (forall j' q', j' <> j -> running E qs s0 sched m0 j' q' -> ~ may_add q' pid r) ->
    ~ possible E qs s0 sched m pid r.
  Proof.
    intros Hq Hb Hm Ha Hg Hn [Hin | (j' & q' & Hr & Hadd)].
    2: { destruct (Nat.eq_dec j' j) as [-> | Hne]; [destruct Hr; congruence |].
         apply (Hn j' q' Hne); [| exact Hadd]. apply (running_before E qs s0 sched m0 m); assumption. }
    assert (He : exists e, to_internal (Some r) = Ok e).
    { apply (relationships_in E _ _ _ (moment_ok E qs s0 Hok sched m)) in Hin as (e & He & _). eauto. }
    destruct He as (e & He). apply (stored_edge m pid r e He) in Hin. revert Hin.
    pose proof (from_to_internal r e He) as Hr.
    destruct (watch E qs s0 sched m0 j _ (fun p s => clears pid (edge_key E e) e (fun x => revokes q x pid r) p \/
          kv_get ecmp (pid, edge_key E e) (st_edges s) <> Some e) Hok Hq Hb) with (k := m) as (p & Hp & HJ).
    - left. apply clears_serve; [exact He | eauto].
    - intros j' q' y p s Hne Hrun Hx [H | H]; [left; exact H | right].
      apply (not_added E pid e q' y s); [rewrite Hr; eapply Hn; eassumption | exact Hx | exact H].
    - intros p s p' s' [H | H] Hs Hst Hx.
      + inversion H; subst; cbn [step1] in Hst; try discriminate; injection Hst as <- <-; auto.
        * right. cbn [st_edges]. rewrite (get_del_same ecmp). discriminate.
        * destruct (kv_get ecmp (pid, edge_key E e) (st_edges s)) as [e' |] eqn:Hge; [| right; congruence].
          destruct (relationship_dec (from_internal e') (from_internal e)) as [Heq | Hne]; [| right; congruence].
          assert (e' = e) as -> by (pose proof (to_from_internal e' (proj1 (so_edge E s Hs _ _ _ Hge))); congruence). left. apply H0. apply (edges_of_in E); assumption.
      + right. destruct Hx as [-> | (y & Hx & ->)]; [exact H |].
        apply (not_added E pid e q y s); [| exact Hx | exact H]. destruct q; cbn in Hg |- *; try (destruct x as [[] | | |]; contradiction); tauto.
    - exact Hm.
    - unfold answered in Ha. rewrite Hp in Ha. destruct p; try discriminate. injection Ha as ->. destruct HJ as [HJ | HJ]; [| exact HJ].
      inversion HJ as [a Hx | | | | | | |]. contradiction.
  Qed.
End Acknowledged.
