(** The parser accepts exactly the grammar of [SpecGrammar]. *)
From Coq Require Import Lia.
From Verif Require Import Base Domain Lexer Parser BaseFacts SpecGrammar LexerFacts.

Definition not_arrow (ts : list tok) : Prop :=
  match ts with KArrow :: _ => False | _ => True end.

Definition no_op (ts : list tok) : Prop :=
  match ts with KUnion :: _ | KInter :: _ | KDiff :: _ => False | _ => True end.

(** A right-recursive reading of expressions. *)
Inductive tail : tree -> list tok -> tree -> Prop :=
| tail_nil l : tail l [] l
| tail_cons l o k r ts1 ts2 t :
    op_token o k -> g_term r ts1 -> tail (TOp l o r) ts2 t -> tail l (k :: ts1 ++ ts2) t.

Lemma tail_snoc l ts t : tail l ts t -> forall o k r ts2,
  op_token o k -> g_term r ts2 -> tail l (ts ++ k :: ts2) (TOp t o r).
Proof.
  induction 1 as [l | l o k r ts1 ts2 t Ho Hr Ht IH]; intros o' k' r' ts3 Ho' Hr'; cbn [app].
  - rewrite <- (app_nil_r ts3). econstructor; eauto. constructor.
  - rewrite <- app_assoc. econstructor; eauto.
Qed.

Lemma g_expr_tail t ts : g_expr t ts ->
  exists h ts1 ts2, g_term h ts1 /\ tail h ts2 t /\ ts = ts1 ++ ts2.
Proof.
  induction 1 as [t ts H | l o k r ts1 ts2 H (h & a & b & H1 & H2 & ->) Ho Hr].
  - exists t, ts, []. repeat split; auto. constructor. rewrite app_nil_r. reflexivity.
  - exists h, a, (b ++ k :: ts2). repeat split; auto.
    + apply tail_snoc; auto.
    + rewrite <- app_assoc. reflexivity.
Qed.

Lemma tail_g_expr l ts t : tail l ts t -> forall ts0, g_expr l ts0 -> g_expr t (ts0 ++ ts).
Proof.
  induction 1 as [l | l o k r ts1 ts2 t Ho Hr Ht IH]; intros ts0 H0.
  - rewrite app_nil_r. exact H0.
  - replace (ts0 ++ k :: ts1 ++ ts2) with ((ts0 ++ k :: ts1) ++ ts2) by (rewrite <- app_assoc; reflexivity).
    apply IH. apply ge_op; auto.
Qed.

(** ** Completeness *)

Lemma tail_no_arrow l ts t rest : tail l ts t -> not_arrow rest -> not_arrow (ts ++ rest).
Proof. intros H Hr. destruct H as [| l o k r ts1 ts2 t Ho]; [exact Hr |]. destruct Ho; exact I. Qed.

Lemma set_op_ok o k ts : op_token o k -> set_op_p (k :: ts) = Ok (o, ts).
Proof. destruct 1; reflexivity. Qed.

Lemma tail_complete term : forall l ts t, tail l ts t -> forall rest m,
  (forall r ts1 rest1, g_term r ts1 -> not_arrow rest1 -> length ts1 <= length ts ->
                       term (ts1 ++ rest1) = Ok (r, rest1)) ->
  not_arrow rest -> no_op rest -> length (ts ++ rest) < m ->
  exists ps, many_p m (op_term_p term) (ts ++ rest) = Ok (ps, rest) /\
             fold_left (fun acc q => TOp acc (fst q) (snd q)) ps l = t.
Proof.
  induction 1 as [l | l o k r ts1 ts2 t Ho Hr Ht IH]; intros rest m Hterm Hna Hno Hm.
  - destruct m; [cbn in Hm; lia |]. exists []. split; [| reflexivity]. cbn [app many_p].
    assert (op_term_p term rest = Err EParse) as ->; [| reflexivity].
    unfold op_term_p. destruct rest as [| [] rest]; cbn in Hno |- *; tauto || reflexivity.
  - destruct m; [cbn in Hm; lia |]. cbn [app many_p].
    cbn [app length] in Hm. rewrite !app_length in Hm.
    unfold op_term_p at 1. rewrite (set_op_ok _ _ _ Ho). cbn [bind fst snd].
    rewrite <- app_assoc.
    rewrite (Hterm r ts1); [| exact Hr | eapply tail_no_arrow; eauto
                   | cbn [length]; rewrite app_length; lia].
    cbn [bind fst snd].
    destruct (IH rest m) as (ps & Hps & Hf); auto.
    { intros r' t' rest' H1 H2 H3. apply Hterm; auto. cbn [length]. rewrite app_length. lia. }
    { rewrite app_length. lia. }
    rewrite Hps. cbn [bind fst snd]. exists ((o, r) :: ps). split; [reflexivity |]. exact Hf.
Qed.

Lemma expr_complete : forall n t ts rest,
  g_expr t ts -> length ts < n -> not_arrow rest -> no_op rest ->
  expr_p n (ts ++ rest) = Ok (t, rest).
Proof.
  induction n as [| n IH]; intros t ts rest Hg Hn Hna Hno; [lia |].
  assert (forall r ts1 rest1, g_term r ts1 -> not_arrow rest1 -> length ts1 <= n ->
          term_p (expr_p n) (ts1 ++ rest1) = Ok (r, rest1)) as Hterm.
  { intros r ts1 rest1 Hr Hna1 Hlen. destruct Hr as [| m | a b | t' ts' Hr].
    - reflexivity.
    - destruct rest1 as [| [] rest1]; cbn in Hna1 |- *; tauto || reflexivity.
    - reflexivity.
    - unfold term_p. cbn [app first_p]. rewrite <- app_assoc.
      cbn. cbn [length] in Hlen. rewrite app_length in Hlen. cbn in Hlen.
      rewrite (IH t' ts' (KClose :: rest1)) by (auto; lia || exact I). reflexivity. }
  cbn [expr_p].
  apply g_expr_tail in Hg as (h & ts1 & ts2 & Hh & Ht & ->).
  rewrite app_length in Hn. rewrite <- app_assoc.
  rewrite (Hterm h ts1); [| exact Hh | eapply tail_no_arrow; eauto | lia].
  cbn [bind fst snd].
  destruct (tail_complete (term_p (expr_p n)) h ts2 t Ht rest (S (length (ts2 ++ rest)))) as (ps & Hps & Hf); auto.
  { intros r ts3 rest1 H1 H2 H3. apply Hterm; auto. lia. }
  rewrite Hps. cbn [bind fst snd]. rewrite Hf. reflexivity.
Qed.

(** ** Soundness *)

Definition sound (p : p_fn tree) (g : tree -> list tok -> Prop) : Prop :=
  forall ts t rest, p ts = Ok (t, rest) -> exists ts1, ts = ts1 ++ rest /\ g t ts1.

Lemma rule_sound : sound rule_p g_term.
Proof.
  intros ts t rest H. unfold rule_p in H.
  destruct ts as [| k ts]; [discriminate |].
  destruct k; cbn in H; try discriminate.
  - destruct ts as [| k ts]; cbn in H.
    { injection H as <- <-. eexists [_]. split; [reflexivity | constructor]. }
    destruct k; cbn in H; try (injection H as <- <-; eexists [_]; split; [reflexivity | constructor]).
    destruct ts as [| k ts]; cbn in H.
    { injection H as <- <-. eexists [_]. split; [reflexivity | constructor]. }
    destruct k; cbn in H; try (injection H as <- <-; eexists [_]; split; [reflexivity | constructor]).
    injection H as <- <-. eexists [_; _; _]. split; [reflexivity | constructor].
  - injection H as <- <-. eexists [_]. split; [reflexivity | constructor].
Qed.

Lemma parse_if_ok f ts k rest : parse_if f ts = Ok (k, rest) -> ts = k :: rest /\ f k = true.
Proof.
  unfold parse_if. destruct ts as [| k' ts]; cbn; [discriminate |].
  destruct (f k') eqn:Hf; [| discriminate]. intros [= <- <-]. auto.
Qed.

Lemma subexpr_sound e : sound e g_expr -> sound (subexpr_p e) g_term.
Proof.
  intros He ts t rest H. unfold subexpr_p in H.
  apply bind_ok in H as ([k r1] & H1 & H). apply bind_ok in H as ([t' r2] & H2 & H).
  apply bind_ok in H as ([k' r3] & H3 & [= <- <-]). cbn [fst snd] in *.
  apply parse_if_ok in H1 as [-> Hk]. apply parse_if_ok in H3 as [-> Hk'].
  destruct k; try discriminate. destruct k'; try discriminate.
  apply He in H2 as (ts1 & -> & Hg).
  exists (KOpen :: ts1 ++ [KClose]). split; [cbn; rewrite <- app_assoc; reflexivity |].
  constructor. exact Hg.
Qed.

Lemma term_sound e : sound e g_expr -> sound (term_p e) g_term.
Proof.
  intros He ts t rest H. unfold term_p in H.
  destruct ts as [| k ts]; [discriminate |]. cbn [first_p] in H.
  destruct (rule_p (k :: ts)) as [[t' r'] | | |] eqn:Hr; try discriminate.
  - injection H as <- <-. apply rule_sound in Hr. exact Hr.
  - destruct (subexpr_p e (k :: ts)) as [[t' r'] | | |] eqn:Hs; try discriminate.
    injection H as <- <-. apply (subexpr_sound e He) in Hs. exact Hs.
Qed.

Lemma op_term_sound term : sound term g_term -> forall ts o t rest,
  op_term_p term ts = Ok ((o, t), rest) ->
  exists k ts1, ts = k :: ts1 ++ rest /\ op_token o k /\ g_term t ts1.
Proof.
  intros Ht ts o t rest H. unfold op_term_p in H.
  apply bind_ok in H as ([o' r1] & H1 & H). apply bind_ok in H as ([t' r2] & H2 & [= <- <- <-]).
  cbn [fst snd] in *. apply Ht in H2 as (ts1 & -> & Hg).
  destruct ts as [| k ts]; [discriminate |].
  exists k, ts1. destruct k; try discriminate; injection H1 as <- <-; repeat split; auto; constructor.
Qed.

Lemma many_sound term : sound term g_term -> forall m ts ps rest,
  many_p m (op_term_p term) ts = Ok (ps, rest) ->
  exists ts1, ts = ts1 ++ rest /\
    forall l, tail l ts1 (fold_left (fun acc q => TOp acc (fst q) (snd q)) ps l).
Proof.
  intros Ht. induction m as [| m IH]; intros ts ps rest; cbn [many_p]; [discriminate |].
  destruct (op_term_p term ts) as [[[o r] ts'] | e | |] eqn:Ho; try discriminate.
  - intros H. apply bind_ok in H as ([ps' rest'] & H & [= <- <-]). cbn [fst snd].
    apply IH in H as (ts1 & -> & H).
    apply (op_term_sound _ Ht) in Ho as (k & ts0 & -> & Hk & Hr).
    exists (k :: ts0 ++ ts1). split; [cbn; rewrite <- app_assoc; reflexivity |].
    intros l. cbn [fold_left fst snd]. econstructor; eauto.
  - intros [= <- <-]. exists []. split; [reflexivity |]. intros l. constructor.
Qed.

Lemma expr_sound n : sound (expr_p n) g_expr.
Proof.
  induction n as [| n IH]; intros ts t rest H; cbn [expr_p] in H; [discriminate |].
  apply bind_ok in H as ([h r1] & H1 & H). apply bind_ok in H as ([ps r2] & H2 & [= <- <-]).
  cbn [fst snd] in *.
  apply (term_sound _ IH) in H1 as (ts1 & -> & Hh).
  apply (many_sound _ (term_sound _ IH)) in H2 as (ts2 & -> & Ht).
  exists (ts1 ++ ts2). split; [rewrite <- app_assoc; reflexivity |].
  eapply tail_g_expr; [apply Ht |]. constructor. exact Hh.
Qed.

(** ** The parser returns: no panic, no missing fuel *)

Definition returns {A} (x : res A) : Prop := (exists y, x = Ok y) \/ (exists e, x = Err e).

Lemma returns_bind {A B} (x : res A) (f : A -> res B) :
  returns x -> (forall a, x = Ok a -> returns (f a)) -> returns (bind x f).
Proof.
  intros [[y ->] | [e ->]] H; cbn; [apply H; reflexivity |]. right. eauto.
Qed.

Lemma rule_returns ts : returns (rule_p ts).
Proof.
  unfold rule_p, returns.
  destruct ts as [| [] ts]; cbn; eauto.
  destruct ts as [| [] ts]; cbn; eauto.
  destruct ts as [| [] ts]; cbn; eauto.
Qed.

Lemma parse_if_returns f ts : returns (parse_if f ts).
Proof. unfold parse_if, returns. destruct ts as [| k ts]; cbn; eauto. destruct (f k); eauto. Qed.

Lemma g_nonempty : (forall t ts, g_expr t ts -> ts <> []) /\ (forall t ts, g_term t ts -> ts <> []).
Proof.
  assert (forall t ts, g_term t ts -> ts <> []) as H by (intros t ts []; discriminate).
  split; [| exact H]. intros t ts []; eauto. destruct ts1; discriminate.
Qed.

Lemma many_returns term : sound term g_term -> forall m ts, length ts < m ->
  (forall ts', length ts' < length ts -> returns (term ts')) ->
  returns (many_p m (op_term_p term) ts).
Proof.
  intros Ht. induction m as [| m IH]; intros ts Hm Hr; [lia |]. cbn [many_p].
  assert (returns (op_term_p term ts)) as Ho.
  { unfold op_term_p. apply returns_bind.
    - unfold returns. destruct ts as [| [] ts]; cbn; eauto.
    - intros [o r] H. apply returns_bind.
      + apply Hr. destruct ts as [| [] ts]; try discriminate; cbn in H; injection H as <- <-; cbn; lia.
      + intros. left. eauto. }
  destruct Ho as [[[[o t] r] Ho] | [e ->]]; [rewrite Ho | left; eauto].
  apply (op_term_sound _ Ht) in Ho as (k & ts1 & -> & _ & _).
  cbn [length] in Hm. rewrite app_length in Hm.
  apply returns_bind; [| intros; left; eauto].
  apply IH; [lia |]. intros ts' H'. apply Hr. cbn [length]. rewrite app_length. lia.
Qed.

Lemma expr_returns : forall n ts, length ts < n -> returns (expr_p n ts).
Proof.
  induction n as [| n IH]; intros ts Hn; [lia |].
  assert (forall ts', length ts' <= n -> returns (term_p (expr_p n) ts')) as Hterm.
  { intros ts' Hn'. unfold term_p. destruct ts' as [| k ts']; [right; cbn; eauto |].
    cbn [first_p]. destruct (rule_returns (k :: ts')) as [[y ->] | [e ->]]; [left; eauto |].
    assert (returns (subexpr_p (expr_p n) (k :: ts'))) as Hs.
    { unfold subexpr_p. apply returns_bind; [apply parse_if_returns |].
      intros [k' r] H. apply parse_if_ok in H as [[= -> ->] _].
      apply returns_bind; [apply IH; cbn in *; lia |]. intros a _.
      apply returns_bind; [apply parse_if_returns |]. intros. left. eauto. }
    destruct Hs as [[y ->] | [e' ->]]; [left; eauto | right; eauto]. }
  cbn [expr_p]. apply returns_bind; [apply Hterm; lia |].
  intros [h r] Hh. cbn [fst snd].
  pose proof (term_sound _ (expr_sound n) _ _ _ Hh) as (ts1 & -> & _).
  rewrite app_length in Hn.
  apply returns_bind; [| intros; left; eauto].
  apply many_returns; [apply term_sound, expr_sound | lia |].
  intros ts' H'. apply Hterm. lia.
Qed.

(** ** The parser and the grammar *)

Definition plain (k : tok) : Prop := k <> KEof /\ k <> KError.

Lemma tokenizes_plain E s ts : tokenizes E s ts -> Forall plain ts.
Proof. induction 1; auto; constructor; auto; split; discriminate. Qed.

Lemma last_snoc {A} (l : list A) x d : last (l ++ [x]) d = x.
Proof. induction l as [| a l IH]; [reflexivity |]. cbn. rewrite IH. destruct l; reflexivity. Qed.

Lemma skip_eof_nil ts : skip_eof ts = [] -> Forall (fun k => k = KEof) ts.
Proof. induction ts as [| [] ts IH]; cbn; try discriminate; constructor; auto. Qed.

Scheme g_expr_ind2 := Induction for g_expr Sort Prop
  with g_term_ind2 := Induction for g_term Sort Prop.

Lemma g_expr_plain t ts : g_expr t ts -> Forall plain ts.
Proof.
  induction 1 using g_expr_ind2 with (P0 := fun t ts _ => Forall plain ts); auto.
  - apply Forall_app. split; [auto |]. constructor; [| auto]. destruct o0; split; discriminate.
  - repeat constructor; discriminate.
  - repeat constructor; discriminate.
  - repeat constructor; discriminate.
  - constructor; [split; discriminate |]. apply Forall_app. split; [auto |].
    repeat constructor; discriminate.
Qed.

Lemma parse_tokens_iff ts t : Forall plain ts ->
  parse_tokens (ts ++ [KEof]) = Ok t <-> g_expr t ts.
Proof.
  intros Hp. unfold parse_tokens. rewrite last_snoc. cbn [is_error]. split.
  - intros H. apply bind_ok in H as ([t' rest] & H & H'). cbn [fst snd] in *.
    destruct (skip_eof rest) eqn:Hs; [| discriminate]. injection H' as <-.
    apply skip_eof_nil in Hs.
    apply expr_sound in H as (ts1 & Heq & Hg).
    assert (ts1 = ts) as <-; [| exact Hg].
    pose proof (g_expr_plain _ _ Hg) as Hp1.
    clear Hg. revert ts1 Heq Hp1. induction Hp as [| k ts Hk Hp IH]; intros ts1 Heq Hp1.
    + destruct ts1 as [| k1 ts1]; [reflexivity |]. cbn in Heq. injection Heq as <- _.
      inversion Hp1 as [| ? ? [H1 _]]; subst. congruence.
    + destruct ts1 as [| k1 ts1]; cbn in Heq.
      * subst rest. inversion Hs; subst. destruct Hk. congruence.
      * injection Heq as <- Heq. inversion Hp1; subst. f_equal. apply IH; auto.
  - intros Hg. rewrite (expr_complete _ t ts [KEof] Hg); [reflexivity | rewrite app_length; cbn; lia | exact I | exact I].
Qed.

Theorem parse_iff E s t : parse E s = Ok t <-> denotes E s t.
Proof.
  unfold parse, lex, denotes. split.
  - intros H. apply bind_ok in H as (ts & Hs & H).
    apply scan_sound in Hs as [(ts' & -> & Ht) | (ts' & ->)].
    + exists ts'. split; [exact Ht |]. apply parse_tokens_iff; [eapply tokenizes_plain; eauto | exact H].
    + unfold parse_tokens in H. rewrite last_snoc in H. discriminate.
  - intros (ts & Ht & Hg). rewrite (scan_complete E s ts Ht) by lia. cbn [bind].
    apply parse_tokens_iff; [eapply tokenizes_plain; eauto | exact Hg].
Qed.

Theorem parse_returns E s : (exists t, parse E s = Ok t) \/ parse E s = Err EParse \/ exists e, parse E s = Err e.
Proof.
  unfold parse, lex. destruct (scan_no_fuel E (S (String.length s)) s) as [ts ->]; [lia |]. cbn [bind].
  unfold parse_tokens. destruct (is_error (last ts KEof)); [auto |].
  destruct (expr_returns (S (length ts)) ts) as [[[t r] ->] | [e ->]]; [lia | |]; cbn [bind]; eauto.
  cbn [snd fst]. destruct (skip_eof r); eauto.
Qed.
