(** Proofs about requests that touch different places. *)
From Coq Require Import Permutation.
From Verif Require Import Base Domain Lexer Validate Store Search Explain Yaml Service Dump Api SpecPolicy SpecStore SpecConc SpecTouch
  BaseFacts ValidateFacts StoreFacts PolicyFacts RelFacts SearchRun ConcFacts.

(** ** Programs that stay within some places *)

Inductive within (R W : place -> Prop) {A} : prog A -> Prop :=
| wi_ret a : within R W (Ret a)
| wi_polget id k : R (AtPolicy id) -> (forall x, within R W (k x)) -> within R W (PolGet id k)
| wi_polhas id k : R (AtPolicy id) -> (forall x, within R W (k x)) -> within R W (PolHas id k)
| wi_polset id r k : W (AtPolicy id) -> within R W k -> within R W (PolSet id r k)
| wi_poldel id k : W (AtPolicy id) -> within R W k -> within R W (PolDel id k)
| wi_polids k : (forall id, R (AtPolicy id)) -> (forall x, within R W (k x)) -> within R W (PolIds k)
| wi_edgeget pid key k : R (AtEdge pid key) -> (forall x, within R W (k x)) -> within R W (EdgeGet pid key k)
| wi_edgeset pid key e k : W (AtEdge pid key) -> within R W k -> within R W (EdgeSet pid key e k)
| wi_edgedel pid key k : W (AtEdge pid key) -> within R W k -> within R W (EdgeDel pid key k)
| wi_edgelist pid k : (forall key, R (AtEdge pid key)) -> (forall x, within R W (k x)) -> within R W (EdgeList pid k)
| wi_dataget key k : R (AtRecord key) -> (forall x, within R W (k x)) -> within R W (DataGet key k)
| wi_dataset key d k : W (AtRecord key) -> within R W k -> within R W (DataSet key d k)
| wi_datadel key k : W (AtRecord key) -> within R W k -> within R W (DataDel key k).

Lemma within_pbind (R W : place -> Prop) {A B} (p : prog A) (f : A -> prog B) : within R W p -> (forall a, within R W (f a)) -> within R W (pbind p f).
Proof. intros Hp Hf. induction Hp; cbn [pbind]; auto; constructor; auto. Qed.

Lemma within_rbind (R W : place -> Prop) {A B} (p : prog (res A)) (f : A -> prog (res B)) : within R W p -> (forall a, within R W (f a)) -> within R W (rbind p f).
Proof. intros Hp Hf. apply within_pbind; [exact Hp |]. intros []; auto; constructor. Qed.

Lemma within_respond (R W : place -> Prop) {A} (p : prog (res A)) f : within R W p -> within R W (respond p f).
Proof. intros Hp. apply within_rbind; [exact Hp |]. intros a. constructor. Qed.

Lemma within_map (R W : place -> Prop) {A B} (f : A -> prog (res B)) l : (forall a, within R W (f a)) -> within R W (map_prog f l).
Proof.
  intros Hf. induction l as [| a l IH]; cbn; [constructor |]. apply within_rbind; [apply Hf |]. intros b. apply within_rbind; [exact IH |].
  intros bs. constructor.
Qed.

Lemma within_scans (R W : place -> Prop) pid {A} (p : prog A) : (forall key, R (AtEdge pid key)) -> scans pid p -> within R W p.
Proof. intros HR. induction 1; constructor; auto. Qed.

Ltac within_tac :=
  repeat first
    [ assumption
    | match goal with
      | |- within _ _ (respond _ _) => apply within_respond
      | |- within _ _ (rbind _ _) => apply within_rbind
      | |- within _ _ (pbind _ _) => apply within_pbind
      | |- within _ _ (map_prog _ _) => apply within_map
      | |- within _ _ (search_prog _ _ ?pid _ _ _) => apply (within_scans _ _ pid); [| apply scans_search]
      | |- within _ _ (match ?x with _ => _ end) => destruct x eqn:?
      | |- within _ _ (Ret _) => constructor
      | |- within _ _ (lift _) => constructor
      | |- within _ _ (PolGet _ _) => constructor
      | |- within _ _ (PolHas _ _) => constructor
      | |- within _ _ (PolSet _ _ _) => constructor
      | |- within _ _ (PolDel _ _) => constructor
      | |- within _ _ (PolIds _) => constructor
      | |- within _ _ (EdgeGet _ _ _) => constructor
      | |- within _ _ (EdgeSet _ _ _ _) => constructor
      | |- within _ _ (EdgeDel _ _ _) => constructor
      | |- within _ _ (EdgeList _ _) => constructor
      | |- within _ _ (DataGet _ _) => constructor
      | |- within _ _ (DataSet _ _ _) => constructor
      | |- within _ _ (DataDel _ _) => constructor
      | |- forall _, _ => intros
      | |- reads_at _ _ _ => cbn [reads_at]
      | |- writes_at _ _ _ => cbn [writes_at]
      end
    | exact I | reflexivity ].

Lemma serve_within E q : within (reads_at E q) (writes_at E q) (serve E q).
Proof.
  destruct q; cbn [serve].
  - unfold create_policy, repo_get_policy, repo_set_policy, lift. apply within_respond.
    unfold rbind at 1. cbn [pbind]. destruct (get_policy_from_definition d) as [p | | |] eqn:Hd; try constructor.
    + apply definition_id_ok in Hd. exact Hd.
    + apply definition_id_ok in Hd. within_tac; exact Hd.
  - unfold update_policy, repo_get_policy, repo_set_policy, lift. apply within_respond.
    unfold rbind at 1. cbn [pbind]. destruct (get_policy_from_definition d) as [p | | |] eqn:Hd; try constructor.
    + apply definition_id_ok in Hd. exact Hd.
    + apply definition_id_ok in Hd. within_tac; exact Hd.
  - unfold delete_policy, repo_delete_policy, repo_delete_relationships, repo_find_relationships, repo_delete_relationship. within_tac.
  - unfold get_policy, repo_get_policy. within_tac.
  - unfold list_policy_ids, repo_list_policy_ids. within_tac.
  - unfold set_relationship, repo_get_policy. within_tac. unfold repo_set_relationship, rbind, lift. cbn [pbind].
    destruct (to_internal r) as [e | | |] eqn:He; try constructor; [split; [reflexivity | exists e; auto] |]. intros x.
    constructor; [split; [reflexivity | exists e; auto] |]. constructor; [exists e; auto | constructor].
  - unfold delete_relationship, repo_delete_relationship. apply within_respond. unfold rbind, lift. cbn [pbind].
    destruct (to_internal r) as [e | | |] eqn:He; try constructor; [split; [reflexivity | exists e; auto] |]. intros x.
    constructor; [split; [reflexivity | exists e; auto] |]. constructor; [exists e; auto | constructor].
  - unfold get_relationship, repo_get_relationship. apply within_respond. unfold rbind, lift. cbn [pbind].
    destruct (to_internal r) as [e | | |] eqn:He; try constructor; [exists e; auto |]. intros x. constructor.
  - unfold find_relationship_records, repo_get_policy, repo_find_relationship_records, repo_find_relationships, repo_get_relationship. within_tac.
  - unfold delete_relationships, repo_delete_relationships, repo_find_relationships, repo_delete_relationship. within_tac.
  - unfold check, check_search, repo_get_policy. within_tac.
  - unfold explain_check, check_search, repo_get_policy. within_tac.
  - unfold expand, repo_get_policy. within_tac.
  - unfold dump_relationships, repo_get_policy. within_tac.
Qed.

(** ** Stores that agree at a place *)

Definition same_at (x : place) (s t : store) : Prop :=
  match x with
  | AtPolicy id => kv_get scmp id (st_pol s) = kv_get scmp id (st_pol t)
  | AtEdge pid k => kv_get ecmp (pid, k) (st_edges s) = kv_get ecmp (pid, k) (st_edges t)
  | AtRecord k => kv_get pcmp k (st_data s) = kv_get pcmp k (st_data t)
  end.

Lemma same_at_refl x s : same_at x s s.
Proof. destruct x; reflexivity. Qed.
Lemma same_at_sym x s t : same_at x s t -> same_at x t s.
Proof. destruct x; cbn; auto. Qed.
Lemma same_at_trans x s t u : same_at x s t -> same_at x t u -> same_at x s u.
Proof. destruct x; cbn; congruence. Qed.

Definition sorted_store (s : store) : Prop :=
  kv_sorted scmp (st_pol s) /\ kv_sorted ecmp (st_edges s) /\ kv_sorted pcmp (st_data s).

Lemma same_everywhere s t : sorted_store s -> sorted_store t -> (forall x, same_at x s t) -> s = t.
Proof.
  intros (H1 & H2 & H3) (G1 & G2 & G3) H. destruct s as [p e d], t as [p' e' d']. cbn in *.
  assert (p = p') as -> by (apply (sorted_ext scmp scmp_ok); auto; intros k; apply (H (AtPolicy k))).
  assert (e = e') as -> by (apply (sorted_ext ecmp ecmp_ok); auto; intros [pid k]; apply (H (AtEdge pid k))).
  assert (d = d') as -> by (apply (sorted_ext pcmp pcmp_ok); auto; intros k; apply (H (AtRecord k))). reflexivity.
Qed.

Lemma step_sorted {A} (p : prog A) s p' s' : step1 p s = Some (p', s') -> sorted_store s -> sorted_store s'.
Proof.
  intros Hs (H1 & H2 & H3). destruct p; cbn [step1] in Hs; try discriminate; injection Hs as <- <-;
    (split; [| split]); cbn [st_pol st_edges st_data]; auto using sorted_set, sorted_del, scmp_ok, ecmp_ok, pcmp_ok.
Qed.

(** A step of the program in two stores that agree at its places. *)
Lemma within_step (R W : place -> Prop) {A} (p : prog A) s t : within R W p -> sorted_store s -> sorted_store t -> (forall x, R x -> same_at x s t) ->
  match step1 p s, step1 p t with
  | Some (p1, s'), Some (p2, t') => p1 = p2 /\ within R W p1 /\ (forall x, same_at x s t -> same_at x s' t') /\
                                    (forall x, ~ W x -> same_at x s s' /\ same_at x t t')
  | None, None => True
  | _, _ => False
  end.
Proof.
  intros Hw Hs Ht HR. inversion Hw; subst; cbn [step1]; try exact I.
  - split; [| split; [auto | split; [auto | intros; split; apply same_at_refl]]]. f_equal. exact (HR (AtPolicy id) H).
  - split; [| split; [auto | split; [auto | intros; split; apply same_at_refl]]]. f_equal.
    pose proof (HR (AtPolicy id) H) as Hx. cbn in Hx. rewrite Hx. reflexivity.
  - split; [reflexivity |]. split; [assumption |]. split.
    + intros [] Hx; cbn in *; try exact Hx. rewrite !(get_set scmp scmp_ok). destruct (scmp id0 id); auto.
    + intros [] Hx; cbn; try (split; reflexivity). rewrite !(get_set scmp scmp_ok). destruct (scmp id0 id) eqn:Hc; auto.
      apply scmp_eq in Hc as ->. contradiction.
  - split; [reflexivity |]. split; [assumption |]. split.
    + intros [] Hx; cbn in *; try exact Hx. rewrite !(get_del scmp scmp_ok). destruct (scmp id0 id); auto.
    + intros [] Hx; cbn; try (split; reflexivity). rewrite !(get_del scmp scmp_ok). destruct (scmp id0 id) eqn:Hc; auto.
      apply scmp_eq in Hc as ->. contradiction.
  - split; [| split; [auto | split; [auto | intros; split; apply same_at_refl]]]. f_equal. f_equal.
    apply (sorted_ext scmp scmp_ok); [apply Hs | apply Ht |]. intros id. exact (HR (AtPolicy id) (H id)).
  - split; [| split; [auto | split; [auto | intros; split; apply same_at_refl]]]. f_equal. exact (HR (AtEdge pid key) H).
  - split; [reflexivity |]. split; [assumption |]. split.
    + intros [] Hx; cbn in *; try exact Hx. rewrite !(get_set ecmp ecmp_ok). destruct (ecmp (pid0, key0) (pid, key)); auto.
    + intros [] Hx; cbn; try (split; reflexivity). rewrite !(get_set ecmp ecmp_ok). destruct (ecmp (pid0, key0) (pid, key)) eqn:Hc; auto.
      apply (cmp_eq _ ecmp_ok) in Hc. injection Hc as -> ->. contradiction.
  - split; [reflexivity |]. split; [assumption |]. split.
    + intros [] Hx; cbn in *; try exact Hx. rewrite !(get_del ecmp ecmp_ok). destruct (ecmp (pid0, key0) (pid, key)); auto.
    + intros [] Hx; cbn; try (split; reflexivity). rewrite !(get_del ecmp ecmp_ok). destruct (ecmp (pid0, key0) (pid, key)) eqn:Hc; auto.
      apply (cmp_eq _ ecmp_ok) in Hc. injection Hc as -> ->. contradiction.
  - split; [| split; [auto | split; [auto | intros; split; apply same_at_refl]]]. f_equal.
    apply edges_ext; [apply Hs | apply Ht |]. intros key. exact (HR (AtEdge pid key) (H key)).
  - split; [| split; [auto | split; [auto | intros; split; apply same_at_refl]]]. f_equal. exact (HR (AtRecord key) H).
  - split; [reflexivity |]. split; [assumption |]. split.
    + intros [] Hx; cbn in *; try exact Hx. rewrite !(get_set pcmp pcmp_ok). destruct (pcmp key0 key); auto.
    + intros [] Hx; cbn; try (split; reflexivity). rewrite !(get_set pcmp pcmp_ok). destruct (pcmp key0 key) eqn:Hc; auto.
      apply (cmp_eq _ pcmp_ok) in Hc as ->. contradiction.
  - split; [reflexivity |]. split; [assumption |]. split.
    + intros [] Hx; cbn in *; try exact Hx. rewrite !(get_del pcmp pcmp_ok). destruct (pcmp key0 key); auto.
    + intros [] Hx; cbn; try (split; reflexivity). rewrite !(get_del pcmp pcmp_ok). destruct (pcmp key0 key) eqn:Hc; auto.
      apply (cmp_eq _ pcmp_ok) in Hc as ->. contradiction.
Qed.

Lemma step_run {A} (p : prog A) s p' s' : step1 p s = Some (p', s') -> run p s = run p' s'.
Proof. destruct p; cbn [step1]; intros [= <- <-]; reflexivity. Qed.

Lemma nth_error_Some_lt {A} (l : list A) i x : nth_error l i = Some x -> i < length l.
Proof. intros H. apply nth_error_Some. congruence. Qed.

Lemma NoDup_app_disjoint {A} (l l' : list A) : NoDup l -> NoDup l' -> (forall x, In x l -> ~ In x l') -> NoDup (l ++ l').
Proof.
  induction 1 as [| x l Hx _ IH]; intros H' Hd; cbn; [exact H' |]. constructor.
  - intros Hi. apply in_app_or in Hi as [Hi | Hi]; [contradiction |]. apply (Hd x); [left; reflexivity | exact Hi].
  - apply IH; [exact H' |]. intros y Hy. apply Hd. right. exact Hy.
Qed.

Lemma NoDup_app_comm_one {A} (l : list A) x : NoDup l -> ~ In x l -> NoDup (l ++ [x]).
Proof.
  intros H Hx. apply NoDup_app_disjoint; [exact H | repeat constructor; intros [] |]. intros y Hy [-> | []]. contradiction.
Qed.

(** ** Independent requests *)

Section Independent.
  Variables (E : env) (qs : list request) (s0 : store).
  Hypothesis Hs0 : sorted_store s0.
  Hypothesis Hind : all_independent E qs.

  (** The request is where it would be if it were served alone. *)
  Record on_its_own (s : store) (q : request) (p : prog (res response)) (t : store) : Prop := {
    ow_run : run p t = run (serve E q) s0;
    ow_within : within (reads_at E q) (writes_at E q) p;
    ow_sorted : sorted_store t;
    ow_same : forall x, reads_at E q x \/ writes_at E q x -> same_at x s t;
    ow_rest : forall x, ~ writes_at E q x -> same_at x s0 t }.

  Record separate (c : config) : Prop := {
    se_sorted : sorted_store (snd c);
    se_length : length (fst c) = length qs;
    se_own : forall i q p, nth_error qs i = Some q -> nth_error (fst c) i = Some p -> exists t, on_its_own (snd c) q p t;
    se_rest : forall x, (forall q, In q qs -> ~ writes_at E q x) -> same_at x s0 (snd c) }.

  Lemma separate_start : separate (start E qs s0).
  Proof.
    split; cbn [start fst snd]; [exact Hs0 | apply map_length | | intros; apply same_at_refl].
    intros i q p Hq Hp. rewrite nth_error_map, Hq in Hp. injection Hp as <-. exists s0.
    split; auto; intros; try apply same_at_refl. apply serve_within.
  Qed.

  Lemma replace_length {A} i (x : A) l : length (replace i x l) = length l.
  Proof. revert i. induction l; intros []; cbn; auto. Qed.

  Lemma separate_step c i : separate c -> separate (advance c i).
  Proof.
    intros [H1 H2 H3 H4]. destruct c as [ts s]. cbn [fst snd] in *. unfold advance. cbn [fst snd].
    destruct (nth_error ts i) as [p |] eqn:Hp; [| split; auto].
    destruct (nth_error qs i) as [q |] eqn:Hq.
    2: { exfalso. apply nth_error_None in Hq. apply nth_error_Some_lt in Hp. lia. }
    destruct (H3 i q p Hq Hp) as (t & [W1 W2 W3 W4 W5]).
    pose proof (within_step (reads_at E q) (writes_at E q) p s t W2 H1 W3 (fun x Hx => W4 x (or_introl Hx))) as St.
    destruct (step1 p s) as [[p1 s'] |] eqn:S1; [| split; auto].
    destruct (step1 p t) as [[p2 t'] |] eqn:S2; [| contradiction]. destruct St as (<- & Hw & Hs & Hn).
    split; cbn [fst snd].
    - eapply step_sorted; eassumption.
    - rewrite replace_length. exact H2.
    - intros j q' p' Hq' Hp'. destruct (Nat.eq_dec i j) as [<- | Hij].
      + rewrite (replace_same i p1 p) in Hp' by exact Hp. injection Hp' as <-. rewrite Hq in Hq'. injection Hq' as <-. exists t'.
        split; auto.
        * rewrite <- (step_run p t p1 t' S2). exact W1.
        * eapply step_sorted; eassumption.
        * intros x Hx. apply (same_at_trans x _ t); [apply W5, Hx | apply Hn, Hx].
      + rewrite replace_other in Hp' by exact Hij. destruct (H3 j q' p' Hq' Hp') as (u & [U1 U2 U3 U4 U5]). exists u. split; auto.
        intros x Hx. apply (same_at_trans x _ s); [| apply U4, Hx]. apply same_at_sym, Hn. intros Hwx.
        destruct (Hind i j q q' Hq Hq' Hij x) as [Hi _]. destruct (Hi Hwx) as [Hr Hw']. destruct Hx; contradiction.
    - intros x Hx. apply (same_at_trans x _ s); [apply H4, Hx |]. apply Hn, Hx. eapply nth_error_In, Hq.
  Qed.

  Lemma separate_interleave sched : separate (interleave sched (start E qs s0)).
  Proof.
    pose proof separate_start as H. revert H. generalize (start E qs s0). induction sched as [| i sched IH]; intros c H; [exact H |].
    apply IH, separate_step, H.
  Qed.

  (** Every answer is that of the request alone. *)
  Lemma separate_answer sched i q x : nth_error qs i = Some q -> answered (interleave sched (start E qs s0)) i = Some x -> x = answer E q s0.
  Proof.
    intros Hq Ha. pose proof (separate_interleave sched) as [_ _ H3 _]. unfold answered in Ha.
    destruct (nth_error (fst (interleave sched (start E qs s0))) i) as [p |] eqn:Hp; [| discriminate].
    destruct (H3 i q p Hq Hp) as (t & [W1 _ _ _ _]). destruct p; try discriminate. injection Ha as <-. unfold answer. rewrite <- W1. reflexivity.
  Qed.

  Lemma writes_dec q x : writes_at E q x \/ ~ writes_at E q x.
  Proof.
    assert (Hk : forall r k, stored_under E r k \/ ~ stored_under E r k).
    { intros r k. unfold stored_under. destruct (to_internal r) as [e | | |]; try (right; intros (e1 & He1 & _); discriminate).
      destruct (key_dec k (edge_key E e)) as [-> | Hne]; [left; exists e; split; reflexivity |]. right. intros (e' & He' & Hx). injection He' as <-. contradiction. }
    assert (Ho : forall d id, definition_id d = Some id \/ definition_id d <> Some id).
    { intros d id. destruct (definition_id d) as [y |]; [| right; discriminate]. destruct (string_dec y id) as [-> | Hne]; [auto | right; congruence]. }
    destruct q, x; cbn [writes_at]; try (right; intros []; fail); try apply Ho; try apply Hk; auto;
      try (match goal with |- ?a = ?b \/ _ => destruct (string_dec a b); auto end);
      try (match goal with |- ?a = ?b /\ stored_under _ ?r ?k \/ _ => destruct (string_dec a b); [| tauto]; destruct (Hk r k); tauto end).
  Qed.

  Lemma someone_writes x : (exists i q, nth_error qs i = Some q /\ writes_at E q x) \/ forall q, In q qs -> ~ writes_at E q x.
  Proof.
    clear Hind. induction qs as [| q l IH]; [right; intros q [] |]. destruct (writes_dec q x) as [Hw | Hw].
    - left. exists 0, q. auto.
    - destruct IH as [(i & q' & Hq & Hw') | IH]; [left; exists (S i), q'; auto |]. right. intros q' [<- | Hq]; auto.
  Qed.

  (** When all are answered, every place is as the request that writes it alone would leave it. *)
  Lemma separate_end sched x : finished (interleave sched (start E qs s0)) ->
    (exists i q, nth_error qs i = Some q /\ writes_at E q x /\ same_at x (snd (interleave sched (start E qs s0))) (after E q s0)) \/
    ((forall q, In q qs -> ~ writes_at E q x) /\ same_at x (snd (interleave sched (start E qs s0))) s0).
  Proof.
    intros Hf. pose proof (separate_interleave sched) as [_ H2 H3 H4]. destruct (someone_writes x) as [(i & q & Hq & Hw) | Hn].
    - left. exists i, q. split; [exact Hq |]. split; [exact Hw |].
      assert (Hi : i < length (fst (interleave sched (start E qs s0)))) by (rewrite H2; eapply nth_error_Some_lt, Hq).
      specialize (Hf i Hi). unfold answered in Hf.
      destruct (nth_error (fst (interleave sched (start E qs s0))) i) as [p |] eqn:Hp; [| contradiction].
      destruct (H3 i q p Hq Hp) as (t & [W1 _ _ W4 _]). destruct p; try contradiction. unfold after. rewrite <- W1. cbn [run snd]. apply W4. auto.
    - right. split; [exact Hn |]. apply same_at_sym, H4, Hn.
  Qed.

  Lemma separate_unique sched sched' : finished (interleave sched (start E qs s0)) -> finished (interleave sched' (start E qs s0)) ->
    snd (interleave sched (start E qs s0)) = snd (interleave sched' (start E qs s0)).
  Proof.
    intros Hf Hf'. apply same_everywhere; [apply separate_interleave | apply separate_interleave |]. intros x.
    destruct (separate_end sched x Hf) as [(i & q & Hq & Hw & Hs) | [Hn Hs]];
      destruct (separate_end sched' x Hf') as [(j & q' & Hq' & Hw' & Hs') | [Hn' Hs']].
    - destruct (Nat.eq_dec i j) as [<- | Hij].
      + rewrite Hq in Hq'. injection Hq' as <-. eapply same_at_trans; [exact Hs | apply same_at_sym, Hs'].
      + exfalso. destruct (Hind i j q q' Hq Hq' Hij x) as [Hi _]. apply (Hi Hw), Hw'.
    - exfalso. apply (Hn' q); [eapply nth_error_In, Hq | exact Hw].
    - exfalso. apply (Hn q'); [eapply nth_error_In, Hq' | exact Hw'].
    - eapply same_at_trans; [exact Hs | apply same_at_sym, Hs'].
  Qed.
End Independent.

(** One after the other is one of the schedules. *)
Lemma replace_middle {A} (l : list A) x y l' : replace (length l) y (l ++ x :: l') = l ++ y :: l'.
Proof. induction l as [| z l IH]; cbn; [reflexivity |]. rewrite IH. reflexivity. Qed.

Lemma nth_middle {A} (l : list A) x l' : nth_error (l ++ x :: l') (length l) = Some x.
Proof. induction l as [| z l IH]; cbn; auto. Qed.

Lemma one_by_one E : forall qs ds s, (forall p, In p ds -> exists a, p = Ret a) ->
  exists sched ds', interleave sched (ds ++ map (serve E) qs, s) = (ds', after_all E qs s) /\ (forall p, In p ds' -> exists a, p = Ret a).
Proof.
  induction qs as [| q qs IH]; intros ds s Hd; cbn [map].
  - exists [], ds. rewrite app_nil_r. split; [reflexivity | exact Hd].
  - destruct (complete_one (serve E q) (length ds) (ds ++ serve E q :: map (serve E) qs) s) as [k Hk]; [apply nth_middle |].
    rewrite replace_middle in Hk. destruct (IH (ds ++ [Ret (answer E q s)]) (after E q s)) as (sched & ds' & Hi & Hd').
    { intros p Hp. apply in_app_or in Hp as [Hp | [<- | []]]; [auto | eauto]. }
    exists (repeat (length ds) k ++ sched), ds'. split; [| exact Hd']. rewrite interleave_app, Hk. rewrite <- app_assoc in Hi. exact Hi.
Qed.

Lemma one_by_one_start E qs s : exists sched, finished (interleave sched (start E qs s)) /\ snd (interleave sched (start E qs s)) = after_all E qs s.
Proof.
  destruct (one_by_one E qs [] s) as (sched & ds' & Hi & Hd); [intros p [] |]. exists sched. cbn [app] in Hi. unfold start. rewrite Hi.
  split; [| reflexivity]. intros i Hlt. unfold answered. cbn [fst] in *. destruct (nth_error ds' i) as [p |] eqn:Hp.
  - destruct (Hd p (nth_error_In _ _ Hp)) as [a ->]. discriminate.
  - apply nth_error_None in Hp. lia.
Qed.

Lemma ok_sorted E s : store_ok E s -> sorted_store s.
Proof. intros H. split; [apply H | split; apply H]. Qed.

Lemma independent_sym E q q' : independent E q q' -> independent E q' q.
Proof. intros H x. destruct (H x). auto. Qed.

(** ** Requests that set or delete relationships *)

Section Order.
  Variables (E : env) (qs : list request) (s0 : store).
  Hypothesis Hone : forall q, In q qs -> about_one q.

  Lemma about_one_pol q s : about_one q -> st_pol (after E q s) = st_pol s.
  Proof.
    intros H. destruct q; cbn in H; try contradiction; unfold after; cbn [serve]; rewrite run_respond; cbn [snd].
    - rewrite run_set_rel. destruct (kv_get scmp pid (st_pol s)); [| reflexivity]. destruct (allowed_relationship _ r); try reflexivity.
      destruct (to_internal r); reflexivity.
    - rewrite run_delete_rel. destruct (to_internal r); reflexivity.
  Qed.

  (** What the request does to the relationships. *)
  Definition shifts (q : request) (f : list ((string * (string * string)) * edge) -> list ((string * (string * string)) * edge)) : Prop :=
    forall s, st_pol s = st_pol s0 -> st_edges (after E q s) = f (st_edges s).

  (** The relationships have been written. *)
  Inductive settled : prog (res response) -> Prop :=
  | st_ret a : settled (Ret a)
  | st_dataset key d k : settled k -> settled (DataSet key d k)
  | st_datadel key k : settled k -> settled (DataDel key k).

  Inductive pending (q : request) : prog (res response) -> Prop :=
  | pe_pol id k : pending q (k (kv_get scmp id (st_pol s0))) -> pending q (PolGet id k)
  | pe_get pid key k : (forall x, pending q (k x)) -> pending q (EdgeGet pid key k)
  | pe_set pid key e k : shifts q (kv_set ecmp (pid, key) e) -> settled k -> pending q (EdgeSet pid key e k)
  | pe_del pid key k : shifts q (kv_del ecmp (pid, key)) -> settled k -> pending q (EdgeDel pid key k)
  | pe_ret a : shifts q (fun m => m) -> pending q (Ret a).

  Lemma serve_pending q : about_one q -> pending q (serve E q).
  Proof.
    intros H. destruct q; cbn in H; try contradiction; cbn [serve].
    - unfold set_relationship, repo_get_policy, respond, rbind, lift. cbn [pbind]. apply pe_pol.
      destruct (kv_get scmp pid (st_pol s0)) as [rec |] eqn:Hp.
      2: { apply pe_ret. intros s Hs. unfold after. cbn [serve]. rewrite run_respond, run_set_rel, Hs, Hp. reflexivity. }
      cbn [pbind]. destruct (allowed_relationship (pr_policy rec) r) as [[] | | |] eqn:Ha;
        try (apply pe_ret; intros s Hs; unfold after; cbn [serve]; rewrite run_respond, run_set_rel, Hs, Hp, Ha; reflexivity).
      unfold repo_set_relationship, rbind, lift. cbn [pbind]. destruct (to_internal r) as [e | | |] eqn:He;
        try (apply pe_ret; intros s Hs; unfold after; cbn [serve]; rewrite run_respond, run_set_rel, Hs, Hp, Ha, He; reflexivity).
      cbn [pbind]. apply pe_get. intros x. apply pe_set; [| repeat constructor].
      intros s Hs. unfold after. cbn [serve]. rewrite run_respond, run_set_rel, Hs, Hp, Ha, He. reflexivity.
    - unfold delete_relationship, repo_delete_relationship, respond, rbind, lift. cbn [pbind]. destruct (to_internal r) as [e | | |] eqn:He;
        try (apply pe_ret; intros s Hs; unfold after; cbn [serve]; rewrite run_respond, run_delete_rel, He; reflexivity).
      cbn [pbind]. apply pe_get. intros x. apply pe_del; [| repeat constructor].
      intros s Hs. unfold after. cbn [serve]. rewrite run_respond, run_delete_rel, He. reflexivity.
  Qed.

  Definition named (is : list nat) : list request := map (fun i => nth i qs QListPolicyIds) is.

  Record ordered_by (c : config) (done : list nat) : Prop := {
    ob_nodup : NoDup done;
    ob_lt : forall i, In i done -> i < length qs;
    ob_length : length (fst c) = length qs;
    ob_pol : st_pol (snd c) = st_pol s0;
    ob_edges : st_edges (snd c) = st_edges (after_all E (named done) s0);
    ob_threads : forall i p, nth_error (fst c) i = Some p -> if in_dec Nat.eq_dec i done then settled p else pending (nth i qs QListPolicyIds) p }.

  Lemma named_pol : forall is s, (forall i, In i is -> i < length qs) -> st_pol (after_all E (named is) s) = st_pol s.
  Proof.
    induction is as [| i is IH]; intros s H; [reflexivity |]. cbn. fold (named is). unfold after_all in IH. rewrite IH by (intros; apply H; right; assumption).
    apply about_one_pol, Hone, nth_In, H. left. reflexivity.
  Qed.

  Lemma named_snoc is i s : after_all E (named (is ++ [i])) s = after E (nth i qs QListPolicyIds) (after_all E (named is) s).
  Proof. unfold named, after_all. rewrite map_app, fold_left_app. reflexivity. Qed.

  Lemma ordered_start : ordered_by (start E qs s0) [].
  Proof.
    split; cbn [start fst snd]; auto; [constructor | intros i [] | apply map_length |].
    intros i p Hp. cbn. rewrite nth_error_map in Hp. destruct (nth_error qs i) as [q |] eqn:Hq; [| discriminate]. injection Hp as <-.
    rewrite (nth_error_nth qs i QListPolicyIds Hq). apply serve_pending, Hone. eapply nth_error_In, Hq.
  Qed.

  Lemma ordered_step c done i : ordered_by c done -> exists done', ordered_by (advance c i) done'.
  Proof.
    intros [H1 H2 H3 H4 H5 H6]. destruct c as [ts s]. cbn [fst snd] in *. unfold advance. cbn [fst snd].
    destruct (nth_error ts i) as [p |] eqn:Hp; [| exists done; split; auto].
    pose proof (H6 i p Hp) as Hi. assert (Hlt : i < length qs) by (rewrite <- H3; eapply nth_error_Some_lt, Hp).
    assert (Hkeep : forall p' s', st_pol s' = st_pol s -> st_edges s' = st_edges s ->
              (if in_dec Nat.eq_dec i done then settled p' else pending (nth i qs QListPolicyIds) p') -> ordered_by (replace i p' ts, s') done).
    { intros p' s' Hs1 Hs2 Hp'. split; cbn [fst snd]; auto; try congruence; [rewrite replace_length; exact H3 |].
      intros j pj Hj. destruct (Nat.eq_dec i j) as [<- | Hij].
      - rewrite (replace_same i p' p) in Hj by exact Hp. injection Hj as <-. exact Hp'.
      - rewrite replace_other in Hj by exact Hij. apply H6, Hj. }
    destruct (in_dec Nat.eq_dec i done) as [Hd | Hd] eqn:Hdec.
    - inversion Hi; subst; cbn [step1]; exists done; try (apply Hkeep; auto; fail). split; auto.
    - assert (Hmove : forall k f s', st_pol s' = st_pol s -> st_edges s' = f (st_edges s) -> shifts (nth i qs QListPolicyIds) f -> settled k ->
                ordered_by (replace i k ts, s') (done ++ [i])).
      { intros k f s' Hs1 Hs2 Hf Hk. split; cbn [fst snd].
        - apply NoDup_app_comm_one; assumption.
        - intros j Hj. apply in_app_or in Hj as [Hj | [<- | []]]; auto.
        - rewrite replace_length. exact H3.
        - congruence.
        - rewrite named_snoc, Hf, <- H5, Hs2; [reflexivity |]. apply named_pol, H2.
        - intros j pj Hj. destruct (Nat.eq_dec i j) as [<- | Hij].
          + rewrite (replace_same i k p) in Hj by exact Hp. injection Hj as <-.
            destruct (in_dec Nat.eq_dec i (done ++ [i])) as [_ | Hx]; [exact Hk |]. exfalso. apply Hx, in_or_app. right. left. reflexivity.
          + rewrite replace_other in Hj by exact Hij. specialize (H6 j pj Hj). destruct (in_dec Nat.eq_dec j done) as [Hx | Hx];
              destruct (in_dec Nat.eq_dec j (done ++ [i])) as [Hy | Hy]; auto.
            * exfalso. apply Hy, in_or_app. auto.
            * exfalso. apply in_app_or in Hy as [Hy | [<- | []]]; contradiction. }
      inversion Hi; subst; cbn [step1].
      + exists done. apply Hkeep; auto. rewrite H4. assumption.
      + exists done. apply Hkeep; auto.
      + exists (done ++ [i]). eapply Hmove; [reflexivity | reflexivity | eassumption | assumption].
      + exists (done ++ [i]). eapply Hmove; [reflexivity | reflexivity | eassumption | assumption].
      + exists done. split; auto.
  Qed.

  Lemma ordered_interleave sched : exists done, ordered_by (interleave sched (start E qs s0)) done.
  Proof.
    assert (H : forall c, (exists done, ordered_by c done) -> exists done, ordered_by (interleave sched c) done).
    { induction sched as [| i sched IH]; intros c Hc; [exact Hc |]. apply IH. destruct Hc as [done Hc]. eapply ordered_step, Hc. }
    apply H. exists []. apply ordered_start.
  Qed.

  Lemma idle_edges : forall is s, (forall i, In i is -> i < length qs /\ shifts (nth i qs QListPolicyIds) (fun m => m)) ->
    st_pol s = st_pol s0 -> st_edges (after_all E (named is) s) = st_edges s.
  Proof.
    induction is as [| i is IH]; intros s H Hs; [reflexivity |]. cbn. fold (named is). unfold after_all in IH.
    destruct (H i) as [Hlt Hi]; [left; reflexivity |]. rewrite IH.
    - apply Hi, Hs.
    - intros j Hj. apply H. right. exact Hj.
    - rewrite about_one_pol; [exact Hs |]. apply Hone, nth_In, Hlt.
  Qed.

  Lemma named_all : named (seq 0 (length qs)) = qs.
  Proof.
    unfold named. clear Hone. induction qs as [| q l IH]; [reflexivity |]. cbn [length seq map nth]. f_equal. rewrite <- seq_shift, map_map. exact IH.
  Qed.

  Lemma some_order sched : finished (interleave sched (start E qs s0)) -> exists qs', Permutation qs qs' /\
    st_edges (snd (interleave sched (start E qs s0))) = st_edges (after_all E qs' s0).
  Proof.
    intros Hf. destruct (ordered_interleave sched) as [done [H1 H2 H3 H4 H5 H6]].
    set (rest := filter (fun i => negb (if in_dec Nat.eq_dec i done then true else false)) (seq 0 (length qs))).
    exists (named (done ++ rest)). split.
    - rewrite <- named_all at 1. apply Permutation_map. apply NoDup_Permutation.
      + apply seq_NoDup.
      + apply NoDup_app_disjoint; [exact H1 | apply NoDup_filter, seq_NoDup |]. intros i Hi Hr. apply filter_In in Hr as [_ Hr].
        destruct (in_dec Nat.eq_dec i done); [discriminate | contradiction].
      + intros i. rewrite in_app_iff, in_seq. unfold rest. rewrite filter_In, in_seq. destruct (in_dec Nat.eq_dec i done) as [Hi | Hi]; cbn.
        * split; [auto |]. intros _. specialize (H2 i Hi). lia.
        * intuition.
    - unfold named. rewrite map_app. fold (named done) (named rest). unfold after_all. rewrite fold_left_app. fold (after_all E (named done) s0).
      fold (after_all E (named rest) (after_all E (named done) s0)). rewrite idle_edges; [exact H5 | | apply named_pol, H2].
      intros i Hi. apply filter_In in Hi as [Hi Hn]. apply in_seq in Hi as [_ Hi]. cbn in Hi. split; [exact Hi |].
      rewrite <- H3 in Hi. specialize (Hf i Hi). unfold answered in Hf. destruct (nth_error (fst (interleave sched (start E qs s0))) i) as [p |] eqn:Hp; [| contradiction].
      specialize (H6 i p Hp). destruct (in_dec Nat.eq_dec i done); [discriminate |]. destruct p; try contradiction. inversion H6; subst. assumption.
  Qed.
End Order.
