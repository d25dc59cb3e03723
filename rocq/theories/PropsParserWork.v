(** C97: the work of parsing a relation expression. *)
From Verif Require Import Base Domain Lexer Parser ParserWork SpecGrammar Fixtures BaseFacts ParserFacts.

(** Tokens looked at and messages built, and the tokens shown in the messages. *)
Definition steps (w : list effort) : nat := length w.
Fixpoint shown (w : list effort) : nat :=
  match w with
  | [] => 0
  | Look :: w' => shown w'
  | Message n :: w' => n + shown w'
  end.

(** ** The counted parser is the parser *)

Lemma fst_then {A B} (x : worked A) (f : A -> list tok -> worked B) : fst (then_w x f) = (let* y := fst x in fst (f (fst y) (snd y))).
Proof. unfold then_w. destruct (fst x) as [[a r] | | |]; reflexivity. Qed.

Lemma fst_or {A} ts (x : worked A) : fst (or_message ts x) = fst x.
Proof. unfold or_message. destruct (fst x) eqn:H; cbn; auto. Qed.

Lemma fst_parse_if f ts : fst (parse_if_w f ts) = parse_if f ts.
Proof. destruct ts as [| t r]; [reflexivity |]. cbn. destruct (f t); reflexivity. Qed.
Lemma fst_ident ts : fst (ident_w ts) = ident_p ts.
Proof. destruct ts as [| [] r]; reflexivity. Qed.
Lemma fst_cu ts : fst (cu_w ts) = cu_p ts.
Proof. unfold cu_w, cu_p. rewrite fst_then, fst_ident. reflexivity. Qed.
Lemma fst_this ts : fst (this_w ts) = this_p ts.
Proof. unfold this_w, this_p. rewrite fst_then, fst_parse_if. reflexivity. Qed.
Lemma fst_ttu ts : fst (ttu_w ts) = ttu_p ts.
Proof.
  unfold ttu_w, ttu_p. rewrite fst_or, fst_then, fst_ident. destruct (ident_p ts) as [[a r] | | |]; try reflexivity. cbn [bind fst snd].
  rewrite fst_then, fst_parse_if. destruct (parse_if is_arrow r) as [[b r'] | | |]; try reflexivity. cbn [bind fst snd].
  rewrite fst_then, fst_ident. reflexivity.
Qed.

Lemma fst_first {T} (ps : list (w_fn T)) (qs : list (p_fn T)) ts : Forall2 (fun p q => fst (p ts) = q ts) ps qs -> fst (first_w ps ts) = first_p qs ts.
Proof.
  intros H. unfold first_w. destruct ts as [| t ts]; [destruct qs; reflexivity |].
  induction H as [| p q ps qs Hp _ IH]; [reflexivity |]. cbn [try_w first_p]. rewrite <- Hp.
  destruct (fst (p (t :: ts))) eqn:Hx; try exact Hx. exact IH.
Qed.

Lemma fst_rule ts : fst (rule_w ts) = rule_p ts.
Proof. apply fst_first. repeat constructor; [apply fst_this | apply fst_ttu | apply fst_cu]. Qed.
Lemma fst_set_op ts : fst (set_op_w ts) = set_op_p ts.
Proof. destruct ts as [| [] r]; reflexivity. Qed.
Lemma fst_op_term pw p ts : (forall ts, fst (pw ts) = p ts) -> fst (op_term_w pw ts) = op_term_p p ts.
Proof.
  intros H. unfold op_term_w, op_term_p. rewrite fst_or, fst_then, fst_set_op. destruct (set_op_p ts) as [[o r] | | |]; try reflexivity. cbn [bind fst snd].
  rewrite fst_then, H. reflexivity.
Qed.
Lemma fst_loop {T} (pw : w_fn T) p : (forall ts, fst (pw ts) = p ts) -> forall n ts, fst (loop_w n pw ts) = many_p n p ts.
Proof.
  intros H. induction n as [| n IH]; intros ts; [reflexivity |]. cbn [loop_w many_p]. rewrite <- H. destruct (fst (pw ts)) as [[x r] | | |]; try reflexivity.
  cbn [fst]. rewrite fst_then, IH. reflexivity.
Qed.
Lemma fst_many pw p n ts : (forall ts, fst (pw ts) = p ts) -> fst (many_w (S n) (op_term_w pw) ts) = many_p (S n) (op_term_p p) ts.
Proof.
  intros H. unfold many_w. destruct ts as [| t ts]; [reflexivity |]. apply fst_loop. intros ts'. apply fst_op_term, H.
Qed.
Lemma fst_subexpr pw p ts : (forall ts, fst (pw ts) = p ts) -> fst (subexpr_w pw ts) = subexpr_p p ts.
Proof.
  intros H. unfold subexpr_w, subexpr_p. rewrite fst_or, fst_then, fst_parse_if. destruct (parse_if is_open ts) as [[o r] | | |]; try reflexivity. cbn [bind fst snd].
  rewrite fst_then, H. destruct (p r) as [[e r'] | | |]; try reflexivity. cbn [bind fst snd]. rewrite fst_then, fst_parse_if. reflexivity.
Qed.
Lemma fst_term pw p ts : (forall ts, fst (pw ts) = p ts) -> fst (term_w pw ts) = term_p p ts.
Proof. intros H. apply fst_first. repeat constructor; [apply fst_rule | apply fst_subexpr; exact H]. Qed.
Lemma fst_expr : forall n ts, fst (expr_w n ts) = expr_p n ts.
Proof.
  induction n as [| n IH]; intros ts; [reflexivity |]. cbn [expr_w expr_p]. rewrite fst_then, fst_or, (fst_term _ _ ts IH).
  destruct (term_p (expr_p n) ts) as [[h r] | | |]; try reflexivity. cbn [bind fst snd]. rewrite fst_then.
  rewrite (fst_many _ (term_p (expr_p n))); [reflexivity |]. intros ts'. apply fst_term, IH.
Qed.

Theorem C97_same : forall E s, fst (parse_w E s) = parse E s.
Proof.
  intros E s. unfold parse_w, parse. destruct (lex E s) as [ts | | |]; try reflexivity. cbn [bind]. unfold parse_tokens_w, parse_tokens.
  destruct (is_error (last ts KEof)); [reflexivity |]. pose proof (fst_expr (S (length ts)) ts) as H.
  destruct (expr_w (S (length ts)) ts) as [x w]. cbn [fst] in H. subst x. destruct (expr_p (S (length ts)) ts) as [[t r] | | |]; try reflexivity.
  cbn [bind fst snd]. destruct (skip_eof r); reflexivity.
Qed.

(** ** Upper bounds *)

Definition small (n : nat) (w : list effort) : Prop := Forall (fun x => match x with Look => True | Message m => m <= n end) w.

Lemma small_app n w w' : small n (w ++ w') <-> small n w /\ small n w'.
Proof. apply Forall_app. Qed.
Lemma small_le n n' w : n <= n' -> small n w -> small n' w.
Proof. intros H. apply Forall_impl. intros [| m]; [auto | lia]. Qed.

Definition op_first (ts : list tok) : bool := match ts with (KUnion | KInter | KDiff) :: _ => true | _ => false end.

(** [good f g ts x]: [x] consumed some of [ts] in at most [f k r] steps, [k] tokens consumed and [r] left, or failed in at most [g]. *)
Definition good {A} (lo : nat) (f : nat -> list tok -> nat) (g : nat) (ts : list tok) (x : worked A) : Prop :=
  small (length ts) (snd x) /\
  match fst x with
  | Ok (_, r) => exists k, lo <= k /\ length ts = k + length r /\ length (snd x) <= f k r
  | Err _ => length (snd x) <= g
  | _ => True
  end.

Ltac sm := repeat (constructor; cbn; auto; try lia).

Lemma good_parse_if f ts : good 1 (fun _ _ => 1) 2 ts (parse_if_w f ts).
Proof. destruct ts as [| t r]; unfold good; cbn; [split; [sm | lia] |]. destruct (f t); cbn; (split; [sm |]); [exists 1; lia | lia]. Qed.
Lemma good_ident ts : good 1 (fun _ _ => 1) 2 ts (ident_w ts).
Proof. destruct ts as [| [] r]; unfold good; cbn; (split; [sm |]); try lia. exists 1; lia. Qed.
Lemma good_set_op ts : good 1 (fun _ _ => 1) 2 ts (set_op_w ts).
Proof. destruct ts as [| [] r]; unfold good; cbn; (split; [sm |]); try lia; exists 1; lia. Qed.

Lemma set_op_fails ts : op_first ts = false -> exists e, fst (set_op_w ts) = Err e.
Proof. destruct ts as [| [] r]; cbn; try discriminate; eauto. Qed.

Lemma good_weaken {A} lo f g f' g' ts (x : worked A) : (forall k r, lo <= k -> length ts = k + length r -> f k r <= f' k r) -> g <= g' ->
  good lo f g ts x -> good lo f' g' ts x.
Proof.
  intros Hf Hg [H1 H2]. split; [exact H1 |]. destruct (fst x) as [[a r] | | |]; auto; [| lia].
  destruct H2 as (k & Hk & Hl & H2). exists k. specialize (Hf k r Hk Hl). lia.
Qed.

Lemma good_or {A} lo f g ts (x : worked A) : good lo f g ts x -> good lo f (S g) ts (or_message ts x).
Proof.
  intros [H1 H2]. unfold or_message. destruct (fst x) as [[a r] | | |] eqn:Hx; unfold good; cbn [fst snd]; rewrite ?Hx; auto.
  split; [apply small_app; split; [exact H1 | sm] |]. rewrite app_length. cbn. lia.
Qed.

(** The steps of a sequence: those of the first part, and of the second on what is left. *)
Lemma good_then {A B} lo lo' f g f' g' F G ts (x : worked A) (h : A -> list tok -> worked B) : good lo f g ts x ->
  (forall a k r, fst x = Ok (a, r) -> lo <= k -> length ts = k + length r -> good lo' (f' k r) (g' k r) r (h a r) /\
     (forall b k' r', fst (h a r) = Ok (b, r') -> lo' <= k' -> length r = k' + length r' -> f k r + f' k r k' r' <= F (k + k') r') /\ (forall e, fst (h a r) = Err e -> f k r + g' k r <= G)) ->
  g <= G -> good (lo + lo') F G ts (then_w x h).
Proof.
  intros [H1 H2] Hh Hg. unfold then_w, good. destruct (fst x) as [[a r] | | |] eqn:Hx; cbn [fst snd]; auto; [| split; [exact H1 | lia]].
  destruct H2 as (k & Hk & Hl & H2). destruct (Hh a k r eq_refl Hk Hl) as ([G1 G2] & HF & HG).
  split; [apply small_app; split; [exact H1 | apply (small_le (length r)); [lia | exact G1]] |].
  destruct (fst (h a r)) as [[b r'] | | |]; auto.
  - destruct G2 as (k' & Hk' & Hl' & G2). exists (k + k'). split; [lia |]. split; [lia |]. rewrite app_length. specialize (HF b k' r' eq_refl Hk' Hl'). lia.
  - specialize (HG _ eq_refl). rewrite app_length. lia.
Qed.

Lemma good_done {A} (a : A) r : good 0 (fun _ _ => 0) 0 r (done_w a r).
Proof. split; [constructor |]. cbn. exists 0. lia. Qed.

Lemma good_cu ts : good 1 (fun _ _ => 1) 2 ts (cu_w ts).
Proof.
  apply (good_then 1 0 _ _ (fun _ _ _ _ => 0) (fun _ _ => 0) _ _ _ _ _ (good_ident ts)); [| lia]. intros a k r _ _ _. split; [apply good_done |]. split; intros; cbv beta; lia.
Qed.
Lemma good_this ts : good 1 (fun _ _ => 1) 2 ts (this_w ts).
Proof.
  apply (good_then 1 0 _ _ (fun _ _ _ _ => 0) (fun _ _ => 0) _ _ _ _ _ (good_parse_if is_this ts)); [| lia]. intros a k r _ _ _. split; [apply good_done |]. split; intros; cbv beta; lia.
Qed.
Lemma good_ttu ts : good 3 (fun _ _ => 3) 5 ts (ttu_w ts).
Proof.
  apply (good_or 3 _ 4). apply (good_then 1 2 _ _ (fun _ _ _ _ => 2) (fun _ _ => 3) _ _ _ _ _ (good_ident ts)); [| lia]. intros a k r _ _ _. split; [| split; intros; cbv beta; lia].
  apply (good_then 1 1 _ _ (fun _ _ _ _ => 1) (fun _ _ => 2) _ _ _ _ _ (good_parse_if is_arrow r)); [| lia]. intros b k' r' _ _ _. split; [| split; intros; cbv beta; lia].
  apply (good_then 1 0 _ _ (fun _ _ _ _ => 0) (fun _ _ => 0) _ _ _ _ _ (good_ident r')); [| lia]. intros c k'' r'' _ _ _. split; [apply good_done |]. split; intros; cbv beta; lia.
Qed.

Lemma good_try {A} lo f g F' G' F G ts (p : w_fn A) ps : good lo f g ts (p ts) -> good lo F' G' ts (try_w ps ts) ->
  (forall k r, lo <= k -> length ts = k + length r -> f k r <= F k r /\ g + F' k r <= F k r) -> g + G' <= G -> good lo F G ts (try_w (p :: ps) ts).
Proof.
  intros [H1 H2] [G1 G2] HF HG. unfold good. cbn [try_w]. destruct (fst (p ts)) as [[a r] | e | |] eqn:Hp; cbn [fst snd]; rewrite ?Hp; auto.
  - split; [exact H1 |]. destruct H2 as (k & Hk & Hl & H2). exists k. specialize (HF k r Hk Hl). lia.
  - split; [apply small_app; auto |]. destruct (fst (try_w ps ts)) as [[a r] | | |]; auto; rewrite app_length; [| lia].
    destruct G2 as (k & Hk & Hl & G2). exists k. specialize (HF k r Hk Hl). lia.
Qed.

Lemma good_lo {A} lo lo' f g ts (x : worked A) : lo <= lo' -> good lo' f g ts x -> good lo f g ts x.
Proof.
  intros Hl [H1 H2]. split; [exact H1 |]. destruct (fst x) as [[a r] | | |]; auto. destruct H2 as (k & Hk & Hk' & H2). exists k. lia.
Qed.

Lemma good_try_nil {A} lo f ts : good lo f 1 ts (@try_w A [] ts).
Proof. split; [sm |]. cbn. lia. Qed.

Lemma good_rule ts : good 1 (fun _ _ => 9) 10 ts (rule_w ts).
Proof.
  destruct ts as [| t ts]; [split; [sm | cbn; lia] |]. change (good 1 (fun _ _ => 9) 10 (t :: ts) (try_w [this_w; ttu_w; cu_w] (t :: ts))).
  eapply good_try; [apply good_this | | |].
  - eapply good_try with (F := fun _ _ => 7) (G := 8); [apply (good_lo 1 3); [lia | apply good_ttu] | | |].
    + eapply good_try with (F := fun _ _ => 2) (G := 3); [apply good_cu | apply (good_try_nil 1 (fun _ _ => 0)) | |]; cbn; lia.
    + cbn. lia.
    + lia.
  - cbn. lia.
  - lia.
Qed.

(** What a failed last attempt at an operator and a term may cost. *)
Definition rest_cost (r : list tok) : nat := if op_first r then 15 * length r + 14 else 3.

Lemma good_op_term term ts : (forall ts, good 1 (fun k _ => 15 * k) (15 * length ts + 14) ts (term ts)) ->
  good 1 (fun k _ => 15 * k) (rest_cost ts) ts (op_term_w term ts).
Proof.
  intros Ht. unfold rest_cost. destruct (op_first ts) eqn:Ho.
  - apply (good_lo 1 2); [lia |]. eapply good_weaken; [| | apply (good_or 2 (fun k _ => 15 * k) (15 * length ts + 13))]; [intros; cbv beta; lia | lia |].
    apply (good_then 1 1 _ _ (fun _ _ k _ => 15 * k) (fun _ r => 15 * length r + 14) _ _ _ _ _ (good_set_op ts)); [| lia].
    intros o k r _ Hk Hl. split; [| split; intros; cbv beta; lia].
    apply (good_then 1 0 _ _ (fun _ _ _ _ => 0) (fun _ _ => 0) _ _ _ _ _ (Ht r)); [| lia]. intros a k' r' _ _ Hl'. split; [apply good_done |]. split; intros; cbv beta; lia.
  - destruct (set_op_fails ts Ho) as [e He]. pose proof (good_set_op ts) as [H1 H2]. rewrite He in H2.
    unfold op_term_w, or_message, then_w. rewrite He. cbn [fst snd]. split; cbn [fst snd].
    + apply small_app. split; [exact H1 | sm].
    + rewrite app_length. cbn. lia.
Qed.

Lemma loop_no_error {T} (p : w_fn T) : forall n ts e, fst (loop_w n p ts) <> Err e.
Proof.
  induction n as [| n IH]; intros ts e; cbn [loop_w]; [discriminate |]. destruct (fst (p ts)) as [[x r] | | |]; cbn [fst]; try discriminate.
  rewrite fst_then. specialize (IH r). destruct (fst (loop_w n p r)) as [[l r'] | e' | |]; cbn; try discriminate. destruct (IH e' eq_refl).
Qed.

Lemma good_loop term : (forall ts, good 1 (fun k _ => 15 * k) (15 * length ts + 14) ts (term ts)) ->
  forall n ts, good 0 (fun k r => 15 * k + rest_cost r) 0 ts (loop_w n (op_term_w term) ts).
Proof.
  intros Ht. induction n as [| n IH]; intros ts; [split; [constructor | exact I] |]. cbn [loop_w].
  destruct (good_op_term term ts Ht) as [H1 H2]. destruct (fst (op_term_w term ts)) as [[x r] | | |] eqn:Hx; unfold good; cbn [fst snd]; auto.
  - destruct H2 as (k & Hk & Hl & H2). destruct (IH r) as [G1 G2].
    split; [apply small_app; split; [exact H1 | apply (small_le (length r)); [lia | exact G1]] |].
    rewrite fst_then. destruct (fst (loop_w n (op_term_w term) r)) as [[l r'] | e | |] eqn:Hm; cbn [bind fst snd done_w]; auto.
    + destruct G2 as (k' & Hk' & Hl' & G2). exists (k + k'). rewrite app_length. lia.
    + destruct (loop_no_error _ _ _ _ Hm).
  - split; [exact H1 |]. exists 0. lia.
Qed.

Lemma good_many term n ts : (forall ts, good 1 (fun k _ => 15 * k) (15 * length ts + 14) ts (term ts)) ->
  good 0 (fun k r => 15 * k + rest_cost r) 0 ts (many_w n (op_term_w term) ts).
Proof. intros Ht. destruct ts as [| t ts]; [split; [constructor |]; exists 0; cbn; lia |]. apply good_loop, Ht. Qed.

Lemma good_subexpr expr ts : (forall ts, good 1 (fun k r => 15 * k + rest_cost r) (15 * length ts + 15) ts (expr ts)) ->
  good 1 (fun k _ => 15 * k - 10) (15 * length ts + 3) ts (subexpr_w expr ts).
Proof.
  intros He. apply (good_lo 1 3); [lia |]. eapply good_weaken; [| | apply (good_or 3 (fun k _ => 15 * k - 10) (15 * length ts + 2))]; [intros; cbv beta; lia | lia |].
  apply (good_then 1 2 _ _ (fun _ _ k _ => 15 * k + 4) (fun _ r => 15 * length r + 16) _ _ _ _ _ (good_parse_if is_open ts)); [| lia].
  intros o k r _ Hk Hl. split; [| split; intros; cbv beta; lia].
  apply (good_then 1 1 _ _ (fun _ _ _ _ => 1) (fun _ _ => 2) _ _ _ _ _ (He r)); [| lia].
  intros e k' r' _ Hk' Hl'. unfold rest_cost. destruct (op_first r') eqn:Ho.
  - split; [| split].
    + destruct r' as [| [] r'']; try discriminate Ho; unfold good; cbn; (split; [sm | lia]).
    + intros b k'' r'' Hb. exfalso. destruct r' as [| [] r3]; discriminate.
    + lia.
  - split; [| split; intros; cbv beta; lia]. apply (good_then 1 0 _ _ (fun _ _ _ _ => 0) (fun _ _ => 0) _ _ _ _ _ (good_parse_if is_close r')); [| lia].
    intros c k'' r'' _ _ _. split; [apply good_done |]. split; intros; cbv beta; lia.
Qed.

Lemma good_term expr : (forall ts, good 1 (fun k r => 15 * k + rest_cost r) (15 * length ts + 15) ts (expr ts)) ->
  forall ts, good 1 (fun k _ => 15 * k) (15 * length ts + 14) ts (term_w expr ts).
Proof.
  intros He ts. destruct ts as [| t ts]; [split; [sm | cbn; lia] |]. change (good 1 (fun k _ => 15 * k) (15 * length (t :: ts) + 14) (t :: ts) (try_w [rule_w; subexpr_w expr] (t :: ts))).
  destruct (good_rule (t :: ts)) as [H1 H2]. destruct (good_subexpr expr (t :: ts) He) as [G1 G2]. cbn [try_w].
  destruct (fst (rule_w (t :: ts))) as [[a r] | | |] eqn:Hr; unfold good; cbn [fst snd]; rewrite ?Hr; auto.
  - split; [exact H1 |]. destruct H2 as (k & Hk & Hl & H2). exists k. lia.
  - destruct (fst (subexpr_w expr (t :: ts))) as [[b r] | | |] eqn:Hs; cbn [fst snd]; rewrite ?Hs.
    + split; [apply small_app; auto |]. destruct G2 as (k & Hk & Hl & G2). exists k. rewrite app_length. lia.
    + split; [rewrite !small_app; repeat split; auto; sm |]. rewrite !app_length. cbn [length] in *. lia.
    + split; [apply small_app; auto | exact I].
    + split; [apply small_app; auto | exact I].
Qed.

Lemma good_expr : forall n ts, good 1 (fun k r => 15 * k + rest_cost r) (15 * length ts + 15) ts (expr_w n ts).
Proof.
  induction n as [| n IH]; intros ts; [split; [constructor | exact I] |]. cbn [expr_w].
  pose proof (good_term _ IH) as Ht.
  apply (good_then 1 0 _ _ (fun _ _ k r => 15 * k + rest_cost r) (fun _ _ => 0) _ _ _ _ _ (good_or _ _ _ _ _ (Ht ts))); [| lia].
  intros h k r _ Hk Hl. split; [| split; intros; cbv beta; lia].
  apply (good_then 0 0 _ _ (fun _ _ _ _ => 0) (fun _ _ => 0) _ _ _ _ _ (good_many _ (S (length r)) r Ht)); [| lia].
  intros ps k' r' Hm _ Hl'. split; [apply good_done |]. split; [| discriminate].
  intros b k'' r'' Hd Hk'' Hl''. injection Hd as _ <-. replace k'' with 0 by lia. rewrite Nat.add_0_r. lia.
Qed.

Lemma loop_eof : forall n ts, small (length ts) (snd (loop_w n (parse_if_w is_eof) ts)) /\ length (snd (loop_w n (parse_if_w is_eof) ts)) <= length ts + 2.
Proof.
  induction n as [| n IH]; intros ts; cbn [loop_w]; [split; [constructor | cbn; lia] |].
  destruct (good_parse_if is_eof ts) as [H1 H2]. destruct (fst (parse_if_w is_eof ts)) as [[x r] | | |] eqn:Hx; cbn [snd].
  - destruct H2 as (k & Hk & Hl & H2). destruct (IH r) as [G1 G2]. rewrite app_length. split; [| lia].
    apply small_app. split; [exact H1 |]. apply (small_le (length r)); [lia | exact G1].
  - split; [exact H1 | lia].
  - destruct ts as [| t ts]; [discriminate |]. cbn in Hx. destruct (is_eof t); discriminate.
  - destruct ts as [| t ts]; [discriminate |]. cbn in Hx. destruct (is_eof t); discriminate.
Qed.
Lemma skip_eof_bound ts : small (length ts) (skip_eof_w ts) /\ steps (skip_eof_w ts) <= length ts + 2.
Proof. unfold skip_eof_w, many_w. destruct ts as [| t ts]; [split; [constructor | cbn; lia] |]. apply loop_eof. Qed.

Lemma skip_eof_shorter ts : length (skip_eof ts) <= length ts.
Proof. induction ts as [| [] ts IH]; cbn; lia. Qed.

Lemma parse_tokens_bound ts : small (length ts) (snd (parse_tokens_w ts)) /\ steps (snd (parse_tokens_w ts)) <= 16 * length ts + 17.
Proof.
  unfold parse_tokens_w. destruct (is_error (last ts KEof)); [split; [constructor | cbn; lia] |].
  destruct (good_expr (S (length ts)) ts) as [H1 H2]. pose proof (fst_expr (S (length ts)) ts) as Hf.
  destruct (expr_returns (S (length ts)) ts) as [[x Hx] | [e Hx]]; [lia | |]; rewrite Hx in Hf;
    destruct (expr_w (S (length ts)) ts) as [y w]; cbn [fst snd] in *; subst y; cbn [fst snd].
  - destruct x as [t r]. destruct H2 as (k & Hk & Hl & H2). destruct (skip_eof_bound r) as [G1 G2]. pose proof (skip_eof_shorter r) as Hs.
    assert (rest_cost r <= 15 * length r + 14) as Hr by (unfold rest_cost; destruct (op_first r); lia).
    assert (small (length ts) (skip_eof_w r)) as G3 by (apply (small_le (length r)); [lia | exact G1]). unfold steps in *.
    destruct (skip_eof r) as [| k' r'] eqn:Hk'; cbn [snd]; rewrite ?small_app, ?app_length.
    + split; [tauto | lia].
    + split; [| cbn [length]; lia]. repeat split; auto. constructor; [lia | constructor].
  - cbn [snd]. split; [exact H1 | unfold steps; lia].
Qed.

Lemma scan_count E : forall n s ts, scan E n s = Ok ts -> length ts <= n.
Proof.
  induction n as [| n IH]; intros s ts; cbn [scan]; [discriminate |].
  destruct (lex_terminal terminals s) as [[t s'] |].
  - destruct (scan E n s') as [ts' | | |] eqn:H; try discriminate. intros [= <-]. apply IH in H. cbn. lia.
  - destruct (span (is_ident_rune E) s) as [[| a x] s'].
    + destruct (peek s) as [[[r c] s''] |]; [| intros [= <-]; cbn; lia].
      destruct (is_space E r); [intros H; apply IH in H; lia | intros [= <-]; cbn; lia].
    + destruct (scan E n s') as [ts' | | |] eqn:H; try discriminate. intros [= <-]. apply IH in H. cbn. lia.
Qed.

Lemma shown_small n w : small n w -> shown w <= steps w * n.
Proof. unfold steps. induction 1 as [| x w Hx Hw IH]; [cbn; lia |]. destruct x as [| m]; cbn [shown length]; nia. Qed.

Lemma parse_bound E s : exists n, n <= S (String.length s) /\ small n (snd (parse_w E s)) /\ steps (snd (parse_w E s)) <= 16 * n + 17.
Proof.
  unfold parse_w. destruct (lex E s) as [ts | | |] eqn:Hl; try (exists 0; split; [lia |]; split; [constructor | cbn; lia]).
  exists (length ts). split; [apply (scan_count E _ s), Hl | apply parse_tokens_bound].
Qed.

(** The parser never goes back over what it has read: tokens are looked at, and messages built, at most a fixed number of times for
    each character. *)
Theorem C97_steps : forall E s, steps (snd (parse_w E s)) <= 16 * String.length s + 33.
Proof. intros E s. destruct (parse_bound E s) as (n & Hn & _ & Hs). lia. Qed.

(** What the messages show, put together, is at most of the order of the square of the length. *)
Theorem C97_shown_partial : forall E s,
  shown (snd (parse_w E s)) <= (16 * String.length s + 33) * S (String.length s).
Proof.
  intros E s. destruct (parse_bound E s) as (n & Hn & Hw & Hs). etransitivity; [apply (shown_small n _ Hw) |]. apply Nat.mul_le_mono; lia.
Qed.

(** ** The square is reached by expressions that are accepted *)

Fixpoint sum_text (k : nat) : string := match k with O => "a" | S k' => "a+" +++ sum_text k' end.
Fixpoint sum_rest (k : nat) : list tok := match k with O => [KEof] | S k' => KUnion :: KIdent "a" :: sum_rest k' end.

Lemma sum_text_length k : String.length (sum_text k) = 2 * k + 1.
Proof. induction k as [| k IH]; [reflexivity |]. change (S (S (String.length (sum_text k))) = 2 * S k + 1). lia. Qed.
Lemma sum_rest_length k : length (sum_rest k) = 2 * k + 1.
Proof. induction k as [| k IH]; [reflexivity |]. cbn [sum_rest length]. lia. Qed.

Lemma scan_sum E : forall k n, 2 * k + 1 < n -> scan E n (sum_text k) = Ok (KIdent "a" :: sum_rest k).
Proof.
  induction k as [| k IH]; intros n Hn.
  - destruct n as [| [| n]]; try lia. reflexivity.
  - destruct n as [| [| n]]; try lia. change (sum_text (S k)) with (String "a" (String "+" (sum_text k))).
    change (scan E (S (S n)) (String "a" (String "+" (sum_text k)))) with (let* ts := (let* ts := scan E n (sum_text k) in Ok (KUnion :: ts)) in Ok (KIdent "a" :: ts)).
    rewrite IH by lia. reflexivity.
Qed.
Lemma lex_sum E k : lex E (sum_text k) = Ok (KIdent "a" :: sum_rest k).
Proof. apply scan_sum. rewrite sum_text_length. lia. Qed.

Lemma shown_app w w' : shown (w ++ w') = shown w + shown w'.
Proof. induction w as [| [| m] w IH]; cbn [shown app]; lia. Qed.

Lemma not_arrow_rest k : exists t r, sum_rest k = t :: r /\ (t = KEof \/ t = KUnion).
Proof. destruct k; cbn; eauto. Qed.

Lemma term_sum e k : term_w e (KIdent "a" :: sum_rest k) =
  (Ok (TRule (RCu "a"), sum_rest k),
   [Look; Message (2 * k + 2); Look; Look; Message (2 * k + 1); Message (2 * k + 2); Look]).
Proof.
  pose proof (sum_rest_length k) as Hl. destruct (not_arrow_rest k) as (t & r & Hk & Ht). rewrite Hk in *.
  unfold term_w, first_w, rule_w. destruct Ht as [-> | ->]; cbn -[Nat.mul]; cbn [length] in Hl; rewrite Hl; repeat (f_equal; try lia).
Qed.

Lemma op_term_sum e k : op_term_w (term_w e) (KUnion :: KIdent "a" :: sum_rest k) =
  (Ok ((OpUnion, TRule (RCu "a")), sum_rest k),
   [Look; Look; Message (2 * k + 2); Look; Look; Message (2 * k + 1); Message (2 * k + 2); Look]).
Proof. unfold op_term_w. cbn [set_op_w]. unfold then_w at 1. cbn [fst snd]. rewrite term_sum. reflexivity. Qed.

Lemma loop_sum e : forall k n, k < n -> exists l,
  fst (loop_w n (op_term_w (term_w e)) (sum_rest k)) = Ok (l, [KEof]) /\
  3 * k * k <= shown (snd (loop_w n (op_term_w (term_w e)) (sum_rest k))).
Proof.
  induction k as [| k IH]; intros n Hn; (destruct n as [| n]; [lia |]).
  - exists []. cbn. split; [reflexivity | lia].
  - destruct (IH n) as (l & Hl & Hs); [lia |]. cbn [sum_rest loop_w]. rewrite op_term_sum. cbn [fst snd].
    rewrite fst_then, Hl. cbn [bind fst snd done_w].
    eexists. split; [reflexivity |]. rewrite shown_app. cbn [shown app]. nia.
Qed.

Lemma expr_sum n k : exists t, fst (expr_w (S n) (KIdent "a" :: sum_rest k)) = Ok (t, [KEof]) /\
  3 * k * k <= shown (snd (expr_w (S n) (KIdent "a" :: sum_rest k))).
Proof.
  cbn [expr_w]. rewrite term_sum. unfold or_message. cbn [fst snd]. unfold then_w at 1 3. cbn [fst snd].
  destruct (loop_sum (expr_w n) k (S (length (sum_rest k)))) as (l & Hl & Hs); [rewrite sum_rest_length; lia |].
  assert (many_w (S (length (sum_rest k))) (op_term_w (term_w (expr_w n))) (sum_rest k) =
          loop_w (S (length (sum_rest k))) (op_term_w (term_w (expr_w n))) (sum_rest k)) as -> by (destruct k; reflexivity).
  unfold then_w. rewrite Hl. cbn [fst snd done_w]. eexists. split; [reflexivity |]. rewrite !shown_app. lia.
Qed.

Lemma parse_sum E k : exists t, fst (parse_w E (sum_text k)) = Ok t /\ 3 * k * k <= shown (snd (parse_w E (sum_text k))).
Proof.
  unfold parse_w. rewrite lex_sum. unfold parse_tokens_w.
  replace (is_error (last (KIdent "a" :: sum_rest k) KEof)) with false.
  2: { induction k as [| k IH]; [reflexivity |]. etransitivity; [exact IH |]. cbn [sum_rest last]. destruct (sum_rest k) eqn:H; [destruct k; discriminate |]. reflexivity. }
  destruct (expr_sum (length (KIdent "a" :: sum_rest k)) k) as (t & Ht & Hs).
  destruct (expr_w (S (length (KIdent "a" :: sum_rest k))) (KIdent "a" :: sum_rest k)) as [x w]. cbn [fst snd] in *. subst x. cbn [skip_eof fst snd].
  exists t. split; [reflexivity |]. rewrite shown_app. lia.
Qed.

(** The full claim would be a bound proportional to the length; the messages, which are thrown away, are not within any. *)
Theorem C97_linear_refuted : forall E c, exists s t,
  parse E s = Ok t /\ c * String.length s < shown (snd (parse_w E s)).
Proof.
  intros E c. destruct (parse_sum E (S c)) as (t & Ht & Hs). exists (sum_text (S c)), t. rewrite <- C97_same. split; [exact Ht |].
  rewrite sum_text_length. nia.
Qed.

(** Expressions of 3, 9 and 17 characters. *)
Example C97_case :
  parse_w E0 "_this" = (Ok (TRule RThis), [Look; Look; Message 1; Message 1; Look; Look]) /\
  sum_text 1 = "a+a"%string /\ steps (snd (parse_w E0 "a+a")) = 20 /\ shown (snd (parse_w E0 "a+a")) = 18 /\
  shown (snd (parse_w E0 (sum_text 4))) = 87 /\ shown (snd (parse_w E0 (sum_text 8))) = 263.
Proof. vm_compute. auto 10. Qed.

Print Assumptions C97_same.
Print Assumptions C97_steps.
Print Assumptions C97_shown_partial.
Print Assumptions C97_linear_refuted.
