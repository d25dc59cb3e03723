(** Facts about the marks of errors. *)
From Verif Require Import Base Domain Lexer Parser Validate Store Search Explain Yaml Service Dump Api Fault Blame
  SpecPolicy SpecStore SpecErrors SpecBlame BaseFacts ValidateFacts StoreFacts.
From Verif Require ErrorFacts.

Lemma ops_pbind {A B} (p : prog A) (f : A -> prog B) : forall s,
  operations (pbind p f) s = operations p s + operations (f (fst (run p s))) (snd (run p s)).
Proof. induction p; intros s; cbn [pbind operations run Nat.add]; f_equal; auto. Qed.

(** A method without marks: the same answers and store, the same operations, and the storage error when one of them fails. *)
Definition matches {A} (ph : phases A) (p : prog (res A)) : Prop :=
  (forall s, run p s = (unmarked (fst (m_run ph s)), snd (m_run ph s))) /\
  (forall n s, unmarked (m_hit n ph s) = if Nat.ltb n (operations p s) then Err EStorage else fst (run p s)) /\
  (forall a, can_return p a -> exists x, m_can ph x /\ unmarked x = a).

Lemma can_pbind {A B} (p : prog A) (f : A -> prog B) b : can_return (pbind p f) b <-> exists a, can_return p a /\ can_return (f a) b.
Proof.
  induction p; cbn [pbind can_return]; auto; try (split; [intros H; eauto | intros (x & -> & H); exact H]);
    (split; [intros (x & H'); apply H in H' as (y & H1 & H2); eauto | intros (y & (x & H1) & H2); exists x; apply H; eauto]).
Qed.

Lemma matches_done {A} (x : marked A) p : p = Ret (unmarked x) -> matches (Done x) p.
Proof.
  intros ->. split; [| split]; [reflexivity | reflexivity |]. cbn. intros a ->. eauto.
Qed.

Lemma matches_phase {A B} ms (p : prog B) (k : B -> phases A) f : (forall b, matches (k b) (f b)) -> matches (Phase ms p k) (pbind p f).
Proof.
  intros H. split; [| split].
  - intros s. rewrite run_pbind. cbn [m_run]. destruct (run p s) as [b s1]. apply H.
  - intros n s. rewrite ops_pbind, run_pbind. cbn [m_hit].
    destruct (Nat.ltb_spec n (operations p s)) as [Hn | Hn].
    + destruct (Nat.ltb_spec n (operations p s + operations (f (fst (run p s))) (snd (run p s)))); [reflexivity | lia].
    + destruct (run p s) as [b s1]. cbn [fst snd]. rewrite (proj1 (proj2 (H b))).
      destruct (Nat.ltb_spec (n - operations p s) (operations (f b) s1)), (Nat.ltb_spec n (operations p s + operations (f b) s1)); try reflexivity; lia.
  - intros a Ha. apply can_pbind in Ha as (b & Hb & Ha). apply (H b) in Ha as (x & Hx & <-). exists x. cbn [m_can]. eauto.
Qed.

Lemma matches_when {A B} (x : marked A) (k : A -> phases B) f r : r = unmarked x -> (forall a, x = MOk a -> matches (k a) (f a)) ->
  matches (when x k) (rbind (lift r) f).
Proof. intros -> H. destruct x; cbn; auto; apply matches_done; reflexivity. Qed.

Lemma matches_told {A} (ph : phases A) p f : matches ph p -> matches (told ph f) (respond p f).
Proof.
  intros (H1 & H2 & H3).
  assert (T1 : forall ph s, unmarked (fst (m_run (told ph f) s)) = bind (unmarked (fst (m_run ph s))) (fun a => Ok (f a)) /\
                snd (m_run (told ph f) s) = snd (m_run ph s)).
  { clear. induction ph as [[] | ? ? ? ? IH]; intros s; cbn; auto. }
  assert (T2 : forall ph n s, unmarked (m_hit n (told ph f) s) = bind (unmarked (m_hit n ph s)) (fun a => Ok (f a))).
  { clear. induction ph as [[] | ? ? ? ? IH]; intros n s; cbn [told m_hit]; try reflexivity. destruct (Nat.ltb n (operations p s)); [reflexivity | apply IH]. }
  assert (T3 : forall ph x, m_can ph x -> exists y, m_can (told ph f) y /\ unmarked y = bind (unmarked x) (fun a => Ok (f a))).
  { clear. induction ph as [[] | ? ? ? ? IH]; intros x; cbn [m_can told].
    1-4: intros ->; eexists; (split; [reflexivity | reflexivity]).
    intros [-> | (b & Hb & Hx)]; [eexists; split; [left; reflexivity | reflexivity] |].
    apply IH in Hx as (y & Hy & He). exists y. eauto. }
  assert (R : forall x s, run (match x with Ok a => Ret (Ok (f a)) | Err e => Ret (Err e) | Panic => Ret Panic | Fuel => Ret Fuel end) s
            = (bind x (fun a => Ok (f a)), s)) by (intros []; reflexivity).
  assert (O : forall x s, operations (match x with Ok a => Ret (Ok (f a)) | Err e => Ret (Err e) | Panic => Ret Panic | Fuel => Ret Fuel end) s = 0)
    by (intros []; reflexivity).
  unfold respond, rbind. split; [| split].
  - intros s. rewrite run_pbind, H1. cbn [fst snd]. rewrite R. destruct (T1 ph s) as [-> ->]. reflexivity.
  - intros n s. rewrite ops_pbind, run_pbind, O, T2, H2, Nat.add_0_r. destruct (Nat.ltb n (operations p s)); [reflexivity |].
    destruct (run p s) as [b s1]. cbn [fst snd]. rewrite R. reflexivity.
  - intros a Ha. apply can_pbind in Ha as (x & Hx & Ha). apply H3 in Hx as (y & Hy & <-). apply T3 in Hy as (z & Hz & He).
    exists z. split; [exact Hz |]. rewrite He. destruct (unmarked y); cbn in Ha |- *; congruence.
Qed.

Lemma unmarked_wrap {A} ms (x : res A) : unmarked (wrap ms x) = x.
Proof. destruct x; reflexivity. Qed.

Lemma pbind_ret_r {A} (p : prog A) : forall f, (forall a, f a = Ret a) -> forall s, run (pbind p f) s = run p s.
Proof. intros f Hf s. rewrite run_pbind. destruct (run p s). rewrite Hf. reflexivity. Qed.

(** The last phase. *)
Lemma matches_last {A} ms ms' (p : prog (res A)) : matches (Phase ms p (fun x => Done (wrap ms' x))) p.
Proof.
  split; [| split].
  - intros s. cbn. rewrite unmarked_wrap. destruct (run p s). reflexivity.
  - intros n s. cbn [m_hit]. destruct (Nat.ltb n (operations p s)); [reflexivity | apply unmarked_wrap].
  - intros a Ha. exists (wrap ms' a). split; [cbn; eauto | apply unmarked_wrap].
Qed.

Lemma unmarked_allowed p r : unmarked (m_allowed_relationship p r) = allowed_relationship p r.
Proof.
  destruct r as [r |]; [| reflexivity]. cbn. destruct (check_symbols p r); cbn; try reflexivity.
  unfold m_subject_restriction_spec, subject_restriction_spec. destruct (r_object r); [| reflexivity].
  destruct (lut_get_relation p (e_res e) (r_relation r)) as [l |]; [| reflexivity]. destruct (rl_restr l) as [[] |]; try reflexivity. apply unmarked_wrap.
Qed.

Lemma unmarked_selector p s : unmarked (m_valid_selector p s) = valid_selector p s.
Proof.
  destruct s as [s |]; [| reflexivity]. cbn. assert (H : unmarked (m_valid_object_selector p (s_obj s)) = valid_object_selector p (s_obj s)).
  { destruct (s_obj s) as [[] |]; try apply unmarked_wrap; reflexivity. }
  rewrite <- H. destruct (m_valid_object_selector p (s_obj s)); cbn; try reflexivity.
  destruct (valid_relation_selector p (s_obj s) (s_rel s)); cbn; try reflexivity. apply unmarked_wrap.
Qed.

Lemma matches_search {A} E n pid a (k : gtree -> phases A) f : (forall t, matches (k t) (f t)) ->
  matches (m_check_search E n pid a k) (rbind (check_search E n pid a) f).
Proof.
  intros H. unfold m_check_search.
  change (rbind (check_search E n pid a) f) with (pbind (repo_get_policy pid) (fun record =>
    rbind (match record with None => Ret (Err EPolicyNotFound) | Some rec => match a with None => Ret Panic | Some a =>
      search_prog E (pr_policy rec) pid n (NSet (a_object a) (a_relation a)) (GoalEntity (a_subject a)) end end) f)).
  apply matches_phase. intros [rec |]; [| apply matches_done; reflexivity]. destruct a as [a |]; [| apply matches_done; reflexivity].
  unfold rbind. apply matches_phase. intros t. apply (matches_when (wrap [] t) k f t); [symmetry; apply unmarked_wrap |]. auto.
Qed.

Lemma matches_serve E q : matches (m_serve E q) (serve E q).
Proof.
  destruct q; cbn [m_serve serve]; apply matches_told.
  - apply matches_when; [symmetry; apply unmarked_wrap |]. intros p _. apply matches_phase. intros [r |]; [apply matches_done; reflexivity |].
    apply matches_when; [symmetry; apply unmarked_wrap |]. intros _ _. apply matches_phase. intros b. apply matches_done. reflexivity.
  - apply matches_when; [symmetry; apply unmarked_wrap |]. intros p _. apply matches_phase. intros [r |]; [| apply matches_done; reflexivity].
    apply matches_when; [symmetry; apply unmarked_wrap |]. intros _ _. apply matches_phase. intros b. apply matches_done. reflexivity.
  - apply matches_phase. intros []; [| apply matches_done; reflexivity]. unfold rbind. apply matches_phase. intros n.
    apply (matches_when (wrap [] n) _ (fun n => Ret (Ok (true, n))) n); [symmetry; apply unmarked_wrap |]. intros m _. apply matches_done. reflexivity.
  - apply matches_phase. intros r. apply matches_done. reflexivity.
  - apply matches_phase. intros l. apply matches_done. reflexivity.
  - apply matches_phase. intros [rec |]; [| apply matches_done; reflexivity].
    apply matches_when; [symmetry; apply unmarked_allowed |]. intros _ _. apply matches_last.
  - apply matches_last.
  - apply matches_last.
  - apply matches_phase. intros [rec |]; [| apply matches_done; reflexivity].
    apply matches_when; [symmetry; apply unmarked_selector |]. intros _ _. apply matches_last.
  - apply matches_last.
  - apply matches_search. intros t. apply matches_done. reflexivity.
  - apply matches_when; [symmetry; apply unmarked_wrap |]. intros _ _. apply matches_search. intros t.
    apply matches_when; [symmetry; apply unmarked_wrap |]. intros _ _. apply matches_done. reflexivity.
  - apply matches_when; [symmetry; apply unmarked_wrap |]. intros _ _. apply matches_phase. intros [rec |]; [| apply matches_done; reflexivity].
    destruct root as [nd |]; [| apply matches_done; reflexivity]. unfold rbind. apply matches_phase. intros t.
    apply (matches_when (wrap [] t) _ (fun t => rbind (lift (serialize n f t)) (fun _ => Ret (Ok t))) t); [symmetry; apply unmarked_wrap |]. intros g _.
    apply matches_when; [symmetry; apply unmarked_wrap |]. intros _ _. apply matches_done. reflexivity.
  - apply matches_phase. intros [rec |]; [| apply matches_done; reflexivity].
    match goal with |- matches _ (EdgeList pid ?g) => change (EdgeList pid g) with (pbind (EdgeList pid (fun es => Ret es)) g) end.
    apply matches_phase. intros es. destruct (walk E (list_edges es)) as [x | e | |]; cbn; apply matches_done; try reflexivity.
    unfold lift. rewrite unmarked_wrap. reflexivity.
Qed.

(** ** Executions *)

Lemma step_operations {A} (p : prog A) s p' s' : step1 p s = Some (p', s') -> operations p s = S (operations p' s') /\ run p s = run p' s'.
Proof. destruct p; cbn [step1]; intros [= <- <-]; split; reflexivity. Qed.

Lemma step_none {A} (p : prog A) s : step1 p s = None -> operations p s = 0.
Proof. destruct p; cbn [step1]; try discriminate. reflexivity. Qed.

Lemma step_can {A} (p : prog A) s p' s' a : step1 p s = Some (p', s') -> can_return p' a -> can_return p a.
Proof. destruct p; cbn [step1]; intros [= <- <-] H; cbn [can_return]; eauto. Qed.

Lemma run_can {A} (p : prog A) : forall s, can_return p (fst (run p s)).
Proof. induction p; intros s; cbn [run can_return fst]; eauto. Qed.

Lemma m_run_can {A} (ph : phases A) : forall s, m_can ph (fst (m_run ph s)).
Proof. induction ph as [x | B ms p k IH]; intros s; cbn; [reflexivity |]. right. exists (fst (run p s)). split; [apply run_can | apply IH]. Qed.

Lemma m_hit_can {A} (ph : phases A) : forall n s, m_can ph (m_hit n ph s).
Proof.
  induction ph as [x | B ms p k IH]; intros n s; cbn [m_hit m_can]; [reflexivity |]. destruct (Nat.ltb n (operations p s)); [left; reflexivity |].
  right. exists (fst (run p s)). split; [apply run_can | apply IH].
Qed.

Lemma happen_app es es' c : happen (es ++ es') c = happen es' (happen es c).
Proof. apply fold_left_app. Qed.

Lemma happen_hit n b : forall p s, answered (happen (hit n b) ([p], s)) 0 = Some (if Nat.ltb n (operations p s) then Err EStorage else fst (run p s)).
Proof.
  assert (Hd : forall n x s, happen (hit n b) ([Ret x], s) = ([Ret x], s)).
  { clear n. intros n x s. induction n as [| n IH]; [reflexivity |]. exact IH. }
  induction n as [| n IH]; intros p s.
  - cbn. destruct (step1 p s) as [[p' s'] |] eqn:Hs.
    + apply step_operations in Hs as [-> _]. reflexivity.
    + pose proof (step_none _ _ Hs) as Hn. rewrite Hn. destruct p; try discriminate. reflexivity.
  - change (hit (S n) b) with (Works 0 :: hit n b). cbn [happen fold_left occur advance fst snd nth_error].
    destruct (step1 p s) as [[p' s'] |] eqn:Hs.
    + apply step_operations in Hs as [-> ->]. cbn [replace]. exact (IH p' s').
    + pose proof (step_none _ _ Hs) as Hn. rewrite Hn. destruct p; try discriminate. fold (happen (hit n b) ([Ret a], s)). rewrite Hd. reflexivity.
Qed.

Lemma happen_can E qs s es i q x : nth_error qs i = Some q -> answered (happen es (start E qs s)) i = Some x ->
  exists y, m_can (m_serve E q) y /\ unmarked y = x.
Proof.
  intros Hi. pose (ok := fun a => exists y, m_can (m_serve E q) y /\ unmarked y = a).
  pose (J := fun p : prog (res response) => (forall a, can_return p a -> ok a) /\ (p = serve E q \/ ok (Err EStorage))).
  assert (Hfail : forall s', 0 < operations (serve E q) s' -> ok (Err EStorage)).
  { intros s' Hn. exists (m_hit 0 (m_serve E q) s'). split; [apply m_hit_can |].
    rewrite (proj1 (proj2 (matches_serve E q))). apply Nat.ltb_lt in Hn. rewrite Hn. reflexivity. }
  assert (Hgen : forall c, (exists p, nth_error (fst c) i = Some p /\ J p) -> exists p, nth_error (fst (happen es c)) i = Some p /\ J p).
  { clear x. induction es as [| e es IH]; intros c Hc; [exact Hc |]. cbn [happen fold_left]. apply IH. destruct Hc as (p & Hp & HJ1 & HJ2).
    assert (Hstep : forall p' s', step1 p (snd c) = Some (p', s') -> ok (Err EStorage)).
    { intros p' s' Hs. destruct HJ2 as [-> | H]; [| exact H]. apply (Hfail (snd c)). apply step_operations in Hs as [-> _]. lia. }
    destruct e as [j | j b]; cbn [occur]; [unfold advance |]; destruct (nth_error (fst c) j) as [p1 |] eqn:Hj; try (exists p; split; [exact Hp | split; assumption]);
      destruct (step1 p1 (snd c)) as [[p' s'] |] eqn:Hs; try (exists p; split; [exact Hp | split; assumption]); cbn [fst].
    - destruct (Nat.eq_dec j i) as [-> | Hne].
      + rewrite Hp in Hj. injection Hj as <-. exists p'. split; [eapply replace_same; exact Hp |]. split; [| right; eapply Hstep; exact Hs].
        intros a Ha. apply HJ1. eapply step_can; eassumption.
      + exists p. rewrite replace_other by exact Hne. split; [exact Hp | split; assumption].
    - destruct (Nat.eq_dec j i) as [-> | Hne].
      + rewrite Hp in Hj. injection Hj as <-. exists (Ret (Err EStorage)). split; [eapply replace_same; exact Hp |].
        split; [| right; eapply Hstep; exact Hs]. cbn. intros a ->. eapply Hstep; exact Hs.
      + exists p. rewrite replace_other by exact Hne. split; [exact Hp | split; assumption]. }
  destruct (Hgen (start E qs s)) as (p & Hp & HJ & _).
  { exists (serve E q). cbn [start fst]. rewrite nth_error_map, Hi. split; [reflexivity |]. split; [| left; reflexivity]. apply matches_serve. }
  unfold answered. rewrite Hp. destruct p; try discriminate. intros [= <-]. apply HJ. reflexivity.
Qed.

(** ** The marks of all errors that a method can return *)

Definition every {A} (P : list mark -> err -> Prop) (ph : phases A) : Prop := forall ms e, m_can ph (MErr ms e) -> P ms e.

Lemma every_told {A B} P (ph : phases A) (f : A -> B) : every P ph -> every P (told ph f).
Proof.
  intros H ms e Hc. apply H. clear H. induction ph as [[] | C ms' p k IH]; cbn in *; try discriminate; [congruence |].
  destruct Hc as [Hc | (b & Hb & Hc)]; [left; congruence |]. right. exists b. split; [exact Hb | apply IH, Hc].
Qed.

Lemma every_done {A} (P : list mark -> err -> Prop) (x : marked A) : (forall ms e, x = MErr ms e -> P ms e) -> every P (Done x).
Proof. intros H ms e Hc. apply H. symmetry. exact Hc. Qed.

Lemma every_phase {A B} (P : list mark -> err -> Prop) ms (p : prog B) (k : B -> phases A) :
  P ms EStorage -> (forall b, every P (k b)) -> every P (Phase ms p k).
Proof. intros H1 H2 ms' e [[= -> ->] | (b & _ & Hc)]; [exact H1 | exact (H2 b _ _ Hc)]. Qed.

Lemma every_when {A B} (P : list mark -> err -> Prop) (x : marked A) (k : A -> phases B) :
  (forall ms e, x = MErr ms e -> P ms e) -> (forall a, x = MOk a -> every P (k a)) -> every P (when x k).
Proof. intros H1 H2. destruct x; cbn; auto; apply every_done; try discriminate. intros ms' e' [= <- <-]. auto. Qed.

(** Neither the one nor the other. *)
Definition nobody (ms : list mark) (e : err) : Prop := ~ In MInternal ms /\ ~ In MInvalidRequest ms /\ (e = EStorage -> ms = []).

Lemma nobody_own e e' : e' <> EStorage \/ e = e' -> nobody (own_marks e) e'.
Proof.
  intros He. unfold nobody, own_marks. split; [| split]; [destruct e; cbn; intros H; decompose [or] H; try discriminate; contradiction .. |].
  intros ->. destruct He as [He | ->]; [contradiction | reflexivity].
Qed.

Lemma nobody_nil e : nobody [] e.
Proof. split; [| split]; try intros []. reflexivity. Qed.

Lemma nobody_wrap {A} (x : res A) ms e : wrap [] x = MErr ms e -> nobody ms e.
Proof. destruct x; cbn; intros [= <- <-]. apply nobody_own; auto. Qed.

Lemma nobody_allowed p r ms e : m_allowed_relationship p r = MErr ms e -> nobody ms e.
Proof.
  destruct r as [r |]; [| discriminate]. cbn. destruct (check_symbols p r) eqn:Hc; cbn; try discriminate.
  - unfold m_subject_restriction_spec. destruct (r_object r) as [o |]; [| discriminate].
    destruct (lut_get_relation p (e_res o) (r_relation r)) as [l |]; [| intros [= <- <-]; apply nobody_nil].
    destruct (rl_restr l) as [[] |]; try discriminate; [apply nobody_wrap |]. intros [= <- <-]. apply (nobody_own EInvalidVariant); left; discriminate.
  - intros [= <- <-]. apply nobody_own; auto.
Qed.

Lemma nobody_selector p s ms e : m_valid_selector p s = MErr ms e -> nobody ms e.
Proof.
  destruct s as [s |]; [| discriminate]. cbn.
  assert (H : forall ms e, m_valid_object_selector p (s_obj s) = MErr ms e -> nobody ms e).
  { intros ms' e'. unfold m_valid_object_selector. destruct (s_obj s) as [[] |]; try apply nobody_wrap. intros [= <- <-]. apply nobody_nil. }
  destruct (m_valid_object_selector p (s_obj s)) as [[] | ms' e' | |]; try discriminate; [| intros [= <- <-]; apply H; reflexivity].
  destruct (valid_relation_selector p (s_obj s) (s_rel s)); cbn; try discriminate; [apply nobody_wrap | intros [= <- <-]; apply nobody_own; auto].
Qed.

(** What is known of the errors of searches and of those of the other requests. *)
Definition graph_marks (ms : list mark) (e : err) : Prop :=
  (In MInternal ms -> (e = EStorage \/ e = ESerialize) /\ ~ In MInvalidRequest ms) /\ (In MInvalidRequest ms -> e = EPolicyNotFound).

Lemma graph_nobody ms e : nobody ms e -> graph_marks ms e.
Proof. intros (H1 & H2 & _). split; intros H; contradiction. Qed.

Lemma graph_wrap {A} (x : res A) ms e : wrap [] x = MErr ms e -> graph_marks ms e.
Proof. intros H. eapply graph_nobody, nobody_wrap, H. Qed.

Lemma graph_absent : graph_marks [MInvalidRequest] EPolicyNotFound.
Proof. split; cbn; [intros [H | []]; discriminate | auto]. Qed.

Lemma graph_storage : graph_marks [MInternal] EStorage.
Proof. split; cbn; [intros _; split; [auto |] |]; intros [H | []]; discriminate. Qed.

Lemma graph_serialize n f t ms e : known_format f -> wrap [MInternal] (serialize n f t) = MErr ms e -> graph_marks ms e.
Proof.
  intros Hk. destruct (serialize n f t) as [| e' | |] eqn:Hs; cbn; try discriminate. intros [= <- <-].
  apply (ErrorFacts.serialize_err n f t e' Hk) in Hs as [-> ->].
  split; cbn; [intros _; split; [auto |] |]; intros [H | []]; discriminate.
Qed.

Lemma every_search {A} (P : list mark -> err -> Prop) E n pid a (k : gtree -> phases A) : P [MInternal] EStorage -> P [MInvalidRequest] EPolicyNotFound ->
  P [] EStorage -> (forall e, P (own_marks e) e) -> (forall t, every P (k t)) -> every P (m_check_search E n pid a k).
Proof.
  intros H1 H2 H3 H4 H5. apply every_phase; [exact H1 |]. intros [rec |]; [| apply every_done; intros ms e [= <- <-]; exact H2].
  destruct a as [a |]; [| apply every_done; discriminate]. apply every_phase; [exact H3 |]. intros t. apply every_when; [| auto].
  intros ms e. destruct t; cbn; intros [= <- <-]. apply H4.
Qed.

(** The first phase of a format that is not known. *)
Lemma format_case f : (known_format f /\ wrap [MInvalidRequest] (serializer_factory f) = MOk tt) \/
  (~ known_format f /\ wrap [MInvalidRequest] (serializer_factory f) = MErr [MInvalidRequest; MInvalidVariant] EInvalidVariant).
Proof. destruct f; cbn; auto. Qed.

Lemma every_policy E q : (forall pid, ~ consults q pid) -> ~ unknown_format q -> every nobody (m_serve E q).
Proof.
  intros Hc Hu. destruct q; cbn [m_serve]; try (apply every_told).
  - apply every_when; [apply nobody_wrap |]. intros p _. apply every_phase; [apply nobody_nil |]. intros [r |]; [apply every_done; intros ms e [= <- <-]; apply nobody_nil |].
    apply every_when; [apply nobody_wrap |]. intros _ _. apply every_phase; [apply nobody_nil |]. intros b. apply every_done. discriminate.
  - apply every_when; [apply nobody_wrap |]. intros p _. apply every_phase; [apply nobody_nil |]. intros [r |]; [| apply every_done; intros ms e [= <- <-]; apply nobody_nil].
    apply every_when; [apply nobody_wrap |]. intros _ _. apply every_phase; [apply nobody_nil |]. intros b. apply every_done. discriminate.
  - apply every_phase; [apply nobody_nil |]. intros []; [| apply every_done; discriminate]. apply every_phase; [apply nobody_nil |]. intros n.
    apply every_when; [apply nobody_wrap |]. intros m _. apply every_done. discriminate.
  - apply every_phase; [apply nobody_nil |]. intros r. apply every_done. discriminate.
  - apply every_phase; [apply nobody_nil |]. intros r. apply every_done. discriminate.
  - apply every_phase; [apply nobody_nil |]. intros [rec |]; [| apply every_done; intros ms e [= <- <-]; apply nobody_nil].
    apply every_when; [apply nobody_allowed |]. intros _ _. apply every_phase; [apply nobody_nil |]. intros b. apply every_done, nobody_wrap.
  - apply every_phase; [apply nobody_nil |]. intros b. apply every_done, nobody_wrap.
  - apply every_phase; [apply nobody_nil |]. intros b. apply every_done, nobody_wrap.
  - apply every_phase; [apply nobody_nil |]. intros [rec |]; [| apply every_done; intros ms e [= <- <-]; apply nobody_nil].
    apply every_when; [apply nobody_selector |]. intros _ _. apply every_phase; [apply nobody_nil |]. intros b. apply every_done, nobody_wrap.
  - apply every_phase; [apply nobody_nil |]. intros b. apply every_done, nobody_wrap.
  - exfalso. apply (Hc pid). constructor.
  - exfalso. destruct (format_case f) as [[Hk _] | [Hk _]]; [apply (Hc pid) | apply Hu]; constructor; exact Hk.
  - exfalso. destruct (format_case f) as [[Hk _] | [Hk _]]; [apply (Hc pid) | apply Hu]; constructor; exact Hk.
  - exfalso. apply (Hc pid). constructor.
Qed.

Lemma every_graph E q pid : consults q pid -> every graph_marks (m_serve E q).
Proof.
  intros Hq. destruct Hq as [n pid a | n pid a f Hk | n pid root f Hk | n pid d]; cbn [m_serve]; apply every_told.
  - apply every_search; auto using graph_storage, graph_absent, graph_nobody, nobody_nil, nobody_own. intros t. apply every_done. discriminate.
  - unfold m_explain_check. destruct (format_case f) as [[_ ->] | [Hn _]]; [| contradiction]. cbn [when].
    apply every_search; auto using graph_storage, graph_absent, graph_nobody, nobody_nil, nobody_own. intros t.
    apply every_when; [intros ms e; apply graph_serialize, Hk |]. intros _ _. apply every_done. discriminate.
  - unfold m_expand. destruct (format_case f) as [[_ ->] | [Hn _]]; [| contradiction]. cbn [when].
    apply every_phase; [apply graph_storage |]. intros [rec |]; [| apply every_done; intros ms e [= <- <-]; apply graph_absent].
    destruct root as [nd |]; [| apply every_done; discriminate]. apply every_phase; [apply graph_nobody, nobody_nil |]. intros t.
    apply every_when; [apply graph_wrap |]. intros g _. apply every_when; [intros ms e; apply graph_serialize, Hk |]. intros _ _. apply every_done. discriminate.
  - apply every_phase; [apply graph_storage |]. intros [rec |]; [| apply every_done; intros ms e [= <- <-]; apply graph_absent].
    apply every_phase; [apply graph_nobody, nobody_nil |]. intros es. apply every_when; [apply graph_wrap |]. intros x _. apply every_done, graph_wrap.
Qed.

(** ** One execution *)

Lemma every_run {A} (P : list mark -> err -> Prop) (ph : phases A) s ms e : every P ph -> fst (m_run ph s) = MErr ms e -> P ms e.
Proof. intros H He. apply H. rewrite <- He. apply m_run_can. Qed.

Lemma every_hit {A} (P : list mark -> err -> Prop) (ph : phases A) n s ms e : every P ph -> m_hit n ph s = MErr ms e -> P ms e.
Proof. intros H He. apply H. rewrite <- He. apply m_hit_can. Qed.

(** What a method of the relation graph service does after it has the policy: it never says that the request is invalid, and
    failures of the storage have no marks. *)
Definition later (ms : list mark) (e : err) : Prop := ~ In MInvalidRequest ms /\ (e = EStorage -> ms = []).

Lemma later_own e : later (own_marks e) e.
Proof. split; [apply (nobody_own e e); auto | intros ->; reflexivity]. Qed.

Lemma later_nil e : later [] e.
Proof. split; [intros [] | reflexivity]. Qed.

Lemma later_wrap {A} (x : res A) ms e : wrap [] x = MErr ms e -> later ms e.
Proof. destruct x; cbn; intros [= <- <-]. apply later_own. Qed.

Lemma later_serialize n f t ms e : known_format f -> wrap [MInternal] (serialize n f t) = MErr ms e -> later ms e.
Proof.
  intros Hk. destruct (serialize n f t) as [| e' | |] eqn:Hs; cbn; try discriminate. intros [= <- <-].
  apply (ErrorFacts.serialize_err n f t e' Hk) in Hs as [-> ->]. split; [intros [H | []]; discriminate | discriminate].
Qed.

(** The one phase that all of them begin with. *)
Lemma consult_shape E q pid : consults q pid -> exists k : option policy_record -> phases response,
  m_serve E q = Phase [MInternal] (repo_get_policy pid) k /\
  k None = Done (MErr [MInvalidRequest] EPolicyNotFound) /\ forall rec, every later (k (Some rec)).
Proof.
  intros Hq. destruct Hq as [n pid a | n pid a f Hk | n pid root f Hk | n pid d]; cbn [m_serve].
  - unfold m_check, m_check_search. cbn [told]. eexists. split; [reflexivity |]. cbn beta. split; [reflexivity |]. intros rec. apply every_told.
    destruct a as [a |]; [| apply every_done; discriminate]. apply every_phase; [apply later_nil |]. intros t. apply every_when; [apply later_wrap |].
    intros g _. apply every_done. discriminate.
  - unfold m_explain_check. destruct (format_case f) as [[_ ->] | [Hn _]]; [| contradiction]. cbn [when]. unfold m_check_search. cbn [told].
    eexists. split; [reflexivity |]. cbn beta. split; [reflexivity |]. intros rec. apply every_told.
    destruct a as [a |]; [| apply every_done; discriminate]. apply every_phase; [apply later_nil |]. intros t. apply every_when; [apply later_wrap |].
    intros g _. apply every_when; [intros ms e; apply later_serialize, Hk |]. intros _ _. apply every_done. discriminate.
  - unfold m_expand. destruct (format_case f) as [[_ ->] | [Hn _]]; [| contradiction]. cbn [when told].
    eexists. split; [reflexivity |]. cbn beta. split; [reflexivity |]. intros rec. apply every_told.
    destruct root as [nd |]; [| apply every_done; discriminate]. apply every_phase; [apply later_nil |]. intros t. apply every_when; [apply later_wrap |].
    intros g _. apply every_when; [intros ms e; apply later_serialize, Hk |]. intros _ _. apply every_done. discriminate.
  - unfold m_dump_relationships. cbn [told]. eexists. split; [reflexivity |]. cbn beta. split; [reflexivity |]. intros rec. apply every_told.
    apply every_phase; [apply later_nil |]. intros es. apply every_when; [apply later_wrap |]. intros x _. apply every_done, later_wrap.
Qed.

Lemma unknown_shape E q : unknown_format q -> m_serve E q = Done (MErr [MInvalidRequest; MInvalidVariant] EInvalidVariant).
Proof.
  intros [n pid a f Hk | n pid root f Hk]; cbn [m_serve]; unfold m_explain_check, m_expand;
    (destruct (format_case f) as [[Hk' _] | [_ ->]]; [contradiction | reflexivity]).
Qed.

Lemma request_cases q : (exists pid, consults q pid) \/ unknown_format q \/ ((forall pid, ~ consults q pid) /\ ~ unknown_format q).
Proof.
  destruct q; try (right; right; split; [intros pid' H | intros H]; inversion H; fail); try (left; eexists; constructor; fail);
    (destruct (format_case f) as [[Hk _] | [Hk _]]; [left; eexists; constructor; exact Hk | right; left; constructor; exact Hk]).
Qed.

Lemma consult_known q pid : consults q pid -> ~ unknown_format q.
Proof. intros H Hu. destruct H; inversion Hu; contradiction. Qed.

Lemma consult_one q pid pid' : consults q pid -> consults q pid' -> pid = pid'.
Proof. intros H H'. destruct H; inversion H'; reflexivity. Qed.

Lemma run_absent E s pid : absent E s pid <-> kv_get scmp pid (st_pol s) = None.
Proof. unfold absent, answer. cbn. destruct (kv_get scmp pid (st_pol s)); split; congruence. Qed.

(** ** The mark of the variant *)

(** [x] is an error about the variant if and only if it says so. *)
Definition says_variant (ms : list mark) (e : err) : Prop := In MInvalidVariant ms <-> e = EInvalidVariant.

Lemma variant_own ms e : ~ In MInvalidVariant ms -> says_variant (ms ++ own_marks e) e.
Proof.
  intros H. unfold says_variant. rewrite in_app_iff. split; [intros [Hm | Hm]; [contradiction |] | intros ->; right; left; reflexivity].
  destruct e; cbn in Hm; contradiction || reflexivity.
Qed.

Lemma variant_wrap {A} msw (x : res A) ms e : ~ In MInvalidVariant msw -> wrap msw x = MErr ms e -> says_variant ms e.
Proof. intros H. destruct x; cbn; intros [= <- <-]. apply variant_own, H. Qed.

Lemma variant_none ms e : ~ In MInvalidVariant ms -> e <> EInvalidVariant -> says_variant ms e.
Proof. unfold says_variant. tauto. Qed.

Ltac vnil := apply variant_none; [intros [] | discriminate].

Lemma variant_search {A} E n pid a (k : gtree -> phases A) : (forall t, every says_variant (k t)) -> every says_variant (m_check_search E n pid a k).
Proof.
  intros H. apply every_search; [| | vnil | | exact H]; try (apply variant_none; [intros [H' | []]; discriminate | discriminate]).
  intros e. apply (variant_own [] e). intros [].
Qed.

Lemma variant_policies E q : match q with QSetRelationship _ _ _ _ => False | _ => True end -> ~ unset_object q -> every says_variant (m_serve E q).
Proof.
  assert (W : forall A (x : res A) ms e, wrap [] x = MErr ms e -> says_variant ms e) by (intros A x ms e; apply variant_wrap; intros []).
  assert (W2 : forall A (x : res A) m ms e, m <> MInvalidVariant -> wrap [m] x = MErr ms e -> says_variant ms e)
    by (intros A x m ms e Hm; apply variant_wrap; intros [H | []]; contradiction).
  assert (D : forall A e, e <> EInvalidVariant -> every says_variant (Done (MErr [] e : marked A)))
    by (intros A e He; apply every_done; intros ms e' [= <- <-]; apply variant_none; [intros [] | exact He]).
  assert (O : forall A (a : A), every says_variant (Done (MOk a))) by (intros A a; apply every_done; discriminate).
  intros Hq Hu. destruct q; cbn [m_serve]; try contradiction; try (apply every_told).
  - apply every_when; [apply W |]. intros p _. apply every_phase; [vnil |]. intros [r |]; [apply D; discriminate |].
    apply every_when; [apply W |]. intros _ _. apply every_phase; [vnil |]. intros b. apply O.
  - apply every_when; [apply W |]. intros p _. apply every_phase; [vnil |]. intros [r |]; [| apply D; discriminate].
    apply every_when; [apply W |]. intros _ _. apply every_phase; [vnil |]. intros b. apply O.
  - apply every_phase; [vnil |]. intros []; [| apply O]. apply every_phase; [vnil |]. intros n.
    apply every_when; [apply W |]. intros m _. apply O.
  - apply every_phase; [vnil |]. intros r. apply O.
  - apply every_phase; [vnil |]. intros r. apply O.
  - apply every_phase; [vnil |]. intros b. apply every_done, W.
  - apply every_phase; [vnil |]. intros b. apply every_done, W.
  - apply every_phase; [vnil |]. intros [rec |]; [| apply D; discriminate].
    apply every_when; [| intros _ _; apply every_phase; [vnil |]; intros b; apply every_done, W].
    intros ms e. destruct s as [sel |]; [| discriminate]. cbn in Hu. cbn.
    assert (H : m_valid_object_selector (pr_policy rec) (s_obj sel) = wrap [] (valid_object_selector (pr_policy rec) (s_obj sel)))
      by (destruct (s_obj sel) as [[] |]; reflexivity || contradiction).
    rewrite H. clear H. destruct (valid_object_selector (pr_policy rec) (s_obj sel)) as [u | e' | |]; cbn; try discriminate;
      [| intros [= <- <-]; apply (variant_own []); intros []].
    destruct (valid_relation_selector (pr_policy rec) (s_obj sel) (s_rel sel)) as [u' | e' | |]; cbn; try discriminate; [apply W | intros [= <- <-]; apply (variant_own []); intros []].
  - apply every_phase; [vnil |]. intros b. apply every_done, W.
  - apply variant_search. intros t. apply O.
  - apply every_when; [intros ms e; apply W2; discriminate |]. intros _ _. apply variant_search. intros t.
    apply every_when; [intros ms e; apply W2; discriminate |]. intros _ _. apply O.
  - apply every_when; [intros ms e; apply W2; discriminate |]. intros _ _.
    apply every_phase; [apply variant_none; [intros [H' | []]; discriminate | discriminate] |].
    intros [rec |]; [| apply every_done; intros ms e [= <- <-]; apply variant_none; [intros [H' | []]; discriminate | discriminate]].
    destruct root as [nd |]; [| apply every_done; discriminate]. apply every_phase; [vnil |]. intros t.
    apply every_when; [apply W |]. intros g _. apply every_when; [intros ms e; apply W2; discriminate |]. intros _ _. apply O.
  - apply every_phase; [apply variant_none; [intros [H' | []]; discriminate | discriminate] |].
    intros [rec |]; [| apply every_done; intros ms e [= <- <-]; apply variant_none; [intros [H' | []]; discriminate | discriminate]].
    apply every_phase; [vnil |]. intros es. apply every_when; [apply W |]. intros x _. apply every_done, W.
Qed.

Lemma variant_set E rec r (k : unit -> phases bool) : well_formed E (pr_policy rec) -> (forall a, every says_variant (k a)) ->
  every says_variant (when (m_allowed_relationship (pr_policy rec) r) k).
Proof.
  intros Hw Hk. apply every_when; [| auto]. intros ms e. destruct r as [r |]; [| discriminate]. cbn.
  destruct (check_symbols (pr_policy rec) r) as [u | e' | |]; cbn; try discriminate; [| intros [= <- <-]; apply (variant_own []); intros []].
  unfold m_subject_restriction_spec. destruct (r_object r) as [o |]; [| discriminate].
  destruct (lut_get_relation (pr_policy rec) (e_res o) (r_relation r)) as [l |] eqn:Hl; [| intros [= <- <-]; vnil].
  apply lut_relation_some in Hl as [Hl _]. apply (wf_restrictions _ _ Hw) in Hl.
  destruct (rl_restr l) as [[] |]; try discriminate; [apply variant_wrap; intros [] | contradiction].
Qed.
