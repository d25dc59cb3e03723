(** The texts of the parser's errors. *)
From Coq Require Import Lia.
From Verif Require Import Base Domain Lexer LexPos Parser ParserText BaseFacts SpecGrammar SpecSpan LexerFacts ParserFacts SpanFacts.

(** ** Both parsers *)

Definition agree {T} (x : parsed T) (y : res (T * list tok)) : Prop :=
  match x, y with
  | Got a r, Ok (b, s) => a = b /\ s = map kind r
  | Failed _, Err _ => True
  | Spent, Fuel => True
  | _, _ => False
  end.

Definition agrees {T} (p : t_fn T) (q : p_fn T) : Prop := forall ts, agree (p ts) (q (map kind ts)).

Lemma agree_then {A B} (x : parsed A) y (f : A -> list token -> parsed B) (g : A * list tok -> res (B * list tok)) :
  agree x y -> (forall a r, x = Got a r -> agree (f a r) (g (a, map kind r))) -> agree (and_then x f) (bind y g).
Proof.
  destruct x as [a r | | |], y as [[b s] | | |]; cbn; try contradiction; auto. intros [-> ->] H. apply H. reflexivity.
Qed.

Lemma agree_or {A} text (x : parsed A) y : agree x y -> agree (or_fail text x) y.
Proof. destruct x; cbn; auto. Qed.

Lemma same_type_iff a b : same_type a b = true <-> a = b.
Proof. destruct a, b; cbn; split; congruence. Qed.

Lemma token_agrees ty f : (forall t, f (kind t) = same_type (tk_type t) ty) -> forall ts,
  match parse_if_type ty ts, parse_if f (map kind ts) with
  | Got a r, Ok (k, s) => k = kind a /\ s = map kind r /\ tk_type a = ty /\ ts = a :: r
  | Failed _, Err _ => True
  | _, _ => False
  end.
Proof.
  intros Hf [| t ts]; [exact I |]. unfold parse_if_type, parse_if_t, parse_if. cbn [map unit_t unit_p and_then bind fst].
  rewrite Hf. destruct (same_type (tk_type t) ty) eqn:H; [| exact I]. apply same_type_iff in H. auto.
Qed.

Lemma this_agrees : agrees this_t this_p.
Proof.
  intros ts. unfold this_t, this_p, this_token_t. assert (Hf : forall t, is_this (kind t) = same_type (tk_type t) TyThis) by (intros [[] x i j]; reflexivity).
  pose proof (token_agrees TyThis is_this Hf ts) as H. destruct (parse_if_type TyThis ts), (parse_if is_this (map kind ts)) as [[k s] | | |]; try contradiction; cbn; auto. tauto.
Qed.

Lemma ident_agrees ts :
  match identifier_t ts, ident_p (map kind ts) with
  | Got a r, Ok (x, s) => x = tk_lexeme a /\ s = map kind r /\ ts = a :: r
  | Failed _, Err _ => True
  | _, _ => False
  end.
Proof. destruct ts as [| [[] x i j] ts]; cbn; auto. Qed.

Lemma cu_agrees : agrees cu_t cu_p.
Proof.
  intros ts. unfold cu_t, cu_p. pose proof (ident_agrees ts) as H. destruct (identifier_t ts), (ident_p (map kind ts)) as [[x' s] | | |]; try contradiction; cbn; auto.
  destruct H as (-> & -> & _). auto.
Qed.

Lemma ttu_agrees : agrees ttu_t ttu_p.
Proof.
  intros ts. unfold ttu_t, ttu_p. apply agree_or. pose proof (ident_agrees ts) as H.
  destruct (identifier_t ts) as [a r | | |], (ident_p (map kind ts)) as [[x' s] | | |]; try contradiction; cbn [and_then bind]; auto. destruct H as (-> & -> & _). cbn [fst snd].
  assert (Hf : forall t, is_arrow (kind t) = same_type (tk_type t) TyArrow) by (intros [[] x i j]; reflexivity).
  pose proof (token_agrees TyArrow is_arrow Hf r) as H. unfold arrow_t.
  destruct (parse_if_type TyArrow r) as [b r' | | |], (parse_if is_arrow (map kind r)) as [[k s] | | |]; try contradiction; cbn [and_then bind]; auto.
  destruct H as (_ & -> & _). cbn [fst snd]. pose proof (ident_agrees r') as H.
  destruct (identifier_t r') as [c r'' | | |], (ident_p (map kind r')) as [[x'' s] | | |]; try contradiction; cbn; auto. destruct H as (-> & -> & _). auto.
Qed.

Lemma first_agrees {T} msg (ps : list (t_fn T)) (qs : list (p_fn T)) : Forall2 agrees ps qs -> agrees (first_t msg ps) (first_p qs).
Proof.
  intros H ts. destruct ts as [| t ts]; [destruct qs; exact I |]. unfold first_t.
  induction H as [| p q ps qs Hp Hps IH]; [exact I |]. cbn [try_t]. specialize (Hp (t :: ts)). cbn [first_p map] in *.
  destruct (p (t :: ts)) as [a r | e | |], (q (kind t :: map kind ts)) as [[b s] | | |]; try contradiction; auto.
Qed.

Lemma rule_agrees : agrees rule_t rule_p.
Proof. apply first_agrees. repeat constructor; [apply this_agrees | apply ttu_agrees | apply cu_agrees]. Qed.

Lemma set_op_agrees : agrees set_op_t set_op_p.
Proof. intros [| [[] x i j] ts]; cbn; auto. Qed.

Lemma op_term_agrees term term' : agrees term term' -> agrees (op_term_t term) (op_term_p term').
Proof.
  intros Ht ts. unfold op_term_t, op_term_p. apply agree_or. apply agree_then; [apply set_op_agrees |]. intros o r _. cbn [fst snd].
  apply agree_then; [apply Ht |]. intros t r' _. cbn. auto.
Qed.

Lemma loop_agrees {T} (p : t_fn T) q : agrees p q -> forall n, agrees (many_loop n p) (many_p n q).
Proof.
  intros H. induction n as [| n IH]; intros ts; [exact I |]. cbn [many_loop many_p]. specialize (H ts).
  destruct (p ts) as [a r | e | |], (q (map kind ts)) as [[b s] | | |]; try contradiction; cbn [bind]; auto.
  - destruct H as [-> ->]. apply agree_then; [apply IH |]. intros l r' _. cbn. auto.
  - cbn. auto.
Qed.

Lemma many_agrees {T} (p : t_fn T) q n : agrees p q -> (exists e, q [] = Err e) -> agrees (many_t (S n) p) (many_p (S n) q).
Proof.
  intros H [e He] ts. destruct ts as [| t ts]; [cbn; rewrite He; auto |]. apply (loop_agrees p q H (S n) (t :: ts)).
Qed.

Lemma loop_never_fails {T} (p : t_fn T) : forall n ts text, many_loop n p ts <> Failed text.
Proof.
  induction n as [| n IH]; intros ts text; cbn [many_loop]; [discriminate |]. destruct (p ts) as [a r | | |]; try discriminate.
  specialize (IH r). destruct (many_loop n p r); cbn; try discriminate. intros [= ->]. exact (IH text eq_refl).
Qed.

Lemma many_never_fails {T} (p : t_fn T) n ts text : many_t n p ts <> Failed text.
Proof. destruct ts; [discriminate |]. apply loop_never_fails. Qed.

Lemma subexpr_agrees expr expr' : agrees expr expr' -> agrees (subexpr_t expr) (subexpr_p expr').
Proof.
  intros He ts. unfold subexpr_t, subexpr_p. apply agree_or.
  assert (Hf : forall t, is_open (kind t) = same_type (tk_type t) TyOpen) by (intros [[] x i j]; reflexivity).
  pose proof (token_agrees TyOpen is_open Hf ts) as H. unfold group_begin_t.
  destruct (parse_if_type TyOpen ts) as [a r | | |], (parse_if is_open (map kind ts)) as [[k s] | | |]; try contradiction; cbn [and_then bind]; auto.
  destruct H as (_ & -> & _). cbn [fst snd]. apply agree_then; [apply He |]. intros e r' _. cbn [fst snd].
  assert (Hf' : forall t, is_close (kind t) = same_type (tk_type t) TyClose) by (intros [[] x i j]; reflexivity).
  pose proof (token_agrees TyClose is_close Hf' r') as H. unfold group_end_t.
  destruct (parse_if_type TyClose r') as [b r'' | | |], (parse_if is_close (map kind r')) as [[k' s] | | |]; try contradiction; cbn [and_then bind]; auto.
  destruct H as (_ & -> & _). cbn. auto.
Qed.

Lemma term_agrees expr expr' : agrees expr expr' -> agrees (term_t expr) (term_p expr').
Proof. intros H. apply first_agrees. repeat constructor; [apply rule_agrees | apply subexpr_agrees, H]. Qed.

Lemma expression_agrees n : agrees (expression_t n) (expr_p n).
Proof.
  induction n as [| n IH]; intros ts; [exact I |]. cbn [expression_t expr_p]. apply agree_then.
  - apply agree_or, term_agrees, IH.
  - intros h r _. cbn [fst snd]. rewrite map_length. apply agree_then.
    + apply many_agrees; [apply op_term_agrees, term_agrees, IH | eexists; reflexivity].
    + intros ps r' _. cbn. auto.
Qed.

Lemma expression_failure n ts text : expression_t n ts = Failed text -> text = build_err ts "expression needs: term".
Proof.
  destruct n as [| n]; cbn [expression_t]; [discriminate |]. destruct (term_t (expression_t n) ts) as [h r | | |]; cbn [or_fail and_then]; try discriminate.
  - intros H. destruct (many_t (S (length r)) (op_term_t (term_t (expression_t n))) r) eqn:Hm; cbn [and_then] in H; try discriminate.
    injection H as ->. apply many_never_fails in Hm. contradiction.
  - intros [= <-]. reflexivity.
Qed.

Lemma skip_eof_agrees ts : exists l r, skip_eof_t ts = Got l r /\ map kind r = skip_eof (map kind ts) /\ exists ts0, ts = ts0 ++ r /\ Forall (fun t => tk_type t = TyEof) ts0.
Proof.
  unfold skip_eof_t. destruct ts as [| t ts]; [exists [], []; split; [reflexivity |]; split; [reflexivity |]; exists []; split; [reflexivity | constructor] |]. unfold many_t.
  remember (S (length (t :: ts))) as n. assert (Hn : length (t :: ts) < n) by lia. clear Heqn. revert Hn. generalize (t :: ts). clear. induction n as [| n IH]; intros l Hn; [lia |].
  cbn [many_loop]. destruct l as [| [ty x i j] l].
  - exists [], []. split; [reflexivity |]. split; [reflexivity |]. exists []. split; [reflexivity | constructor].
  - assert (Hne : ty <> TyEof -> exists l0 r, Got [] ({| tk_type := ty; tk_lexeme := x; tk_start := i; tk_end := j |} :: l) = Got (T := list token) l0 r /\
        map kind r = map kind ({| tk_type := ty; tk_lexeme := x; tk_start := i; tk_end := j |} :: l) /\
        exists ts0, {| tk_type := ty; tk_lexeme := x; tk_start := i; tk_end := j |} :: l = ts0 ++ r /\ Forall (fun t => tk_type t = TyEof) ts0).
    { intros _. eexists [], _. split; [reflexivity |]. split; [reflexivity |]. exists []. split; [reflexivity | constructor]. }
    destruct ty; try (apply Hne; discriminate). cbn. destruct (IH l) as (l' & r & -> & Hr & ts0 & -> & Hall); [cbn in Hn; lia |].
    cbn. eexists _, r. split; [reflexivity |]. split; [exact Hr |]. eexists (_ :: ts0). split; [reflexivity |]. constructor; [reflexivity | exact Hall].
Qed.

(** ** What is left is the end of what was given *)

Definition suffixes {T} (p : t_fn T) : Prop := forall ts a r, p ts = Got a r -> exists ts1, ts = ts1 ++ r.

Lemma got_then {A B} (x : parsed A) (f : A -> list token -> parsed B) b r : and_then x f = Got b r -> exists a r', x = Got a r' /\ f a r' = Got b r.
Proof. destruct x; cbn; try discriminate. eauto. Qed.

Lemma got_or {A} text (x : parsed A) a r : or_fail text x = Got a r -> x = Got a r.
Proof. destruct x; cbn; try discriminate. auto. Qed.

Lemma suffix_token f msg : suffixes (parse_if_t f msg).
Proof. intros [| t ts] a r; cbn; [discriminate |]. destruct (f t); [| discriminate]. intros [= <- <-]. exists [t]. reflexivity. Qed.

Lemma suffix_then {A B} (p : t_fn A) (f : A -> t_fn B) : suffixes p -> (forall a, suffixes (f a)) -> suffixes (fun ts => and_then (p ts) f).
Proof.
  intros Hp Hf ts b r H. apply got_then in H as (a & r' & Ha & Hb). apply Hp in Ha as (t1 & ->). apply Hf in Hb as (t2 & ->).
  exists (t1 ++ t2). apply app_assoc.
Qed.

Lemma suffix_got {A} (a : A) : suffixes (Got a).
Proof. intros ts b r [= <- <-]. exists []. reflexivity. Qed.

Lemma suffix_or {A} (text : list token -> string) (p : t_fn A) : suffixes p -> suffixes (fun ts => or_fail (text ts) (p ts)).
Proof. intros Hp ts a r H. apply got_or in H. exact (Hp _ _ _ H). Qed.

Lemma suffix_first {T} msg (ps : list (t_fn T)) : Forall suffixes ps -> suffixes (first_t msg ps).
Proof.
  intros H [| t ts] a r; cbn [first_t]; [discriminate |]. induction H as [| p ps Hp Hps IH]; cbn [try_t]; [discriminate |].
  destruct (p (t :: ts)) as [b r' | | |] eqn:Hx; try discriminate; [| exact IH]. intros [= <- <-]. exact (Hp _ _ _ Hx).
Qed.

Lemma suffix_loop {T} (p : t_fn T) : suffixes p -> forall n, suffixes (many_loop n p).
Proof.
  intros Hp. induction n as [| n IH]; intros ts a r; cbn [many_loop]; [discriminate |].
  destruct (p ts) as [b r' | | |] eqn:Hx; try discriminate.
  - intros H. apply got_then in H as (l & r2 & Hl & [= <- <-]). apply Hp in Hx as (t1 & ->). apply IH in Hl as (t2 & ->).
    exists (t1 ++ t2). apply app_assoc.
  - intros [= <- <-]. exists []. reflexivity.
Qed.

Lemma suffix_many {T} (p : t_fn T) n : suffixes p -> suffixes (many_t n p).
Proof. intros Hp [| t ts] a r; [intros [= <- <-]; exists []; reflexivity |]. apply suffix_loop, Hp. Qed.

Lemma suffix_set_op : suffixes set_op_t.
Proof.
  apply (suffix_then set_op_token_t); [apply suffix_token |]. intros t ts o r. destruct (tk_type t); try discriminate; intros [= <- <-]; exists []; reflexivity.
Qed.

Lemma suffix_op_term term : suffixes term -> suffixes (op_term_t term).
Proof.
  intros Ht. apply (suffix_or (fun ts => build_err ts _)). apply (suffix_then set_op_t); [apply suffix_set_op |]. intros o.
  apply (suffix_then term); [exact Ht |]. intros t. apply suffix_got.
Qed.

Lemma suffix_rule : suffixes rule_t.
Proof.
  apply suffix_first. repeat constructor.
  - apply (suffix_then this_token_t); [apply suffix_token | intros; apply suffix_got].
  - apply (suffix_or (fun ts => build_err ts _)). apply (suffix_then identifier_t); [apply suffix_token |]. intros a.
    apply (suffix_then arrow_t); [apply suffix_token |]. intros _. apply (suffix_then identifier_t); [apply suffix_token | intros; apply suffix_got].
  - apply (suffix_then identifier_t); [apply suffix_token | intros; apply suffix_got].
Qed.

Lemma suffix_term expr : suffixes expr -> suffixes (term_t expr).
Proof.
  intros He. apply suffix_first. repeat constructor; [apply suffix_rule |].
  apply (suffix_or (fun ts => build_err ts _)). apply (suffix_then group_begin_t); [apply suffix_token |]. intros _.
  apply (suffix_then expr); [exact He |]. intros e. apply (suffix_then group_end_t); [apply suffix_token | intros; apply suffix_got].
Qed.

Lemma suffix_expression n : suffixes (expression_t n).
Proof.
  induction n as [| n IH]; [intros ts a r; discriminate |].
  apply (suffix_then (fun ts => or_fail (build_err ts "expression needs: term") (term_t (expression_t n) ts))).
  - apply (suffix_or (fun ts => build_err ts _)), suffix_term, IH.
  - intros h ts a r H. apply got_then in H as (ps & r' & Hm & [= <- <-]). revert Hm. apply suffix_many, suffix_op_term, suffix_term, IH.
Qed.

Lemma expression_got n ts t r : expression_t n ts = Got t r -> exists ts1, ts = ts1 ++ r /\ g_expr t (map kind ts1).
Proof.
  intros H. pose proof (suffix_expression n ts t r H) as (ts1 & ->). exists ts1. split; [reflexivity |].
  pose proof (expression_agrees n (ts1 ++ r)) as Ha. rewrite H in Ha. destruct (expr_p n (map kind (ts1 ++ r))) as [[t' s] | | |] eqn:He; try contradiction.
  destruct Ha as [<- ->]. apply expr_sound in He as (ks & Heq & Hg). rewrite map_app in Heq. apply app_inv_tail in Heq. congruence.
Qed.

(** ** The longest expression *)

Lemma many_no_error {T} (p : p_fn T) : forall n ts e, many_p n p ts <> Err e.
Proof.
  induction n as [| n IH]; intros ts e; cbn [many_p]; [discriminate |]. destruct (p ts) as [[x r] | | |]; try discriminate.
  specialize (IH r). destruct (many_p n p r); cbn; try discriminate. intros [= ->]. exact (IH e eq_refl).
Qed.

Lemma tail_reaches term : sound term g_term -> forall l ts t, tail l ts t -> forall rest m,
  (forall ts', length ts' < length (ts ++ rest) -> returns (term ts')) ->
  (forall r ts1 rest1, g_term r ts1 -> length ts1 <= length ts -> exists r' rest2, term (ts1 ++ rest1) = Ok (r', rest2) /\ length rest2 <= length rest1) ->
  (forall r ts1 rest1, g_term r ts1 -> not_arrow rest1 -> length ts1 <= length ts -> term (ts1 ++ rest1) = Ok (r, rest1)) ->
  length (ts ++ rest) < m ->
  exists ps rest', many_p m (op_term_p term) (ts ++ rest) = Ok (ps, rest') /\ length rest' <= length rest.
Proof.
  intros Hs. induction 1 as [l | l o k r ts1 ts2 t Ho Hr Ht IH]; intros rest m Hret Hreach Hex Hm.
  - cbn [app] in *. destruct (many_returns term Hs m rest Hm Hret) as [[[ps rest'] Hp] | [e He]]; [| apply many_no_error in He; contradiction].
    exists ps, rest'. split; [exact Hp |]. apply (many_sound term Hs) in Hp as (t1 & -> & _). rewrite app_length. lia.
  - destruct m; [lia |]. cbn [app many_p]. unfold op_term_p at 1. rewrite (set_op_ok _ _ _ Ho). cbn [bind fst snd].
    cbn [app length] in *. rewrite !app_length in *. rewrite <- app_assoc.
    assert (Hnext : exists r' rest2, term (ts1 ++ ts2 ++ rest) = Ok (r', rest2) /\
              exists ps rest', many_p m (op_term_p term) rest2 = Ok (ps, rest') /\ length rest' <= length rest).
    { destruct ts2 as [| k2 ts2].
      - cbn [app]. destruct (Hreach r ts1 rest Hr) as (r' & rest2 & Hr' & Hl); [lia |]. exists r', rest2. split; [exact Hr' |].
        destruct (many_returns term Hs m rest2) as [[[ps rest'] Hp] | [e He]]; [cbn in Hm; lia | | | apply many_no_error in He; contradiction].
        + intros ts' Hl'. apply Hret. cbn [length]. lia.
        + exists ps, rest'. split; [exact Hp |]. apply (many_sound term Hs) in Hp as (t1 & -> & _). rewrite app_length in Hl. lia.
      - exists r, ((k2 :: ts2) ++ rest). split.
        + apply Hex; [exact Hr | | lia]. inversion Ht as [| ? ? ? ? ? ? ? Ho2]; subst. destruct Ho2; exact I.
        + apply IH; [intros ts' Hl'; apply Hret; rewrite !app_length in Hl' | intros r0 t0 rest0 Hg0 Hl0; apply (Hreach r0); [exact Hg0 |] | intros r0 t0 rest0 Hg0 Hna Hl0; apply Hex; [exact Hg0 | exact Hna |] | rewrite app_length]; cbn [length] in *; lia. }
    destruct Hnext as (r' & rest2 & -> & ps & rest' & Hp & Hl). cbn [bind fst snd]. rewrite Hp. cbn [bind]. eexists _, rest'. split; [reflexivity | exact Hl].
Qed.

(** An expression at the beginning is read, or one that is longer. *)
Lemma expr_reaches : forall n t ts rest, g_expr t ts -> length (ts ++ rest) < n ->
  exists t' rest', expr_p n (ts ++ rest) = Ok (t', rest') /\ length rest' <= length rest.
Proof.
  intros [| n] t ts rest Hg Hn; [lia |].
  assert (Hgroup : forall t' ts' rest1, g_expr t' ts' -> length (KOpen :: ts' ++ [KClose]) <= n ->
            term_p (expr_p n) ((KOpen :: ts' ++ [KClose]) ++ rest1) = Ok (t', rest1)).
  { intros t' ts' rest1 Hr Hlen. unfold term_p. cbn [app first_p]. rewrite <- app_assoc. cbn. cbn [length] in Hlen. rewrite app_length in Hlen. cbn in Hlen.
    rewrite (expr_complete n t' ts' (KClose :: rest1)) by (auto; lia || exact I). reflexivity. }
  assert (Hex : forall r ts1 rest1, g_term r ts1 -> not_arrow rest1 -> length ts1 <= n -> term_p (expr_p n) (ts1 ++ rest1) = Ok (r, rest1)).
  { intros r ts1 rest1 Hr Hna1 Hlen. destruct Hr as [| m | a b | t' ts' Hr]; [reflexivity | | reflexivity | apply Hgroup; assumption].
    destruct rest1 as [| [] rest1]; cbn in Hna1 |- *; tauto || reflexivity. }
  assert (Hreach : forall r ts1 rest1, g_term r ts1 -> length ts1 <= n ->
            exists r' rest2, term_p (expr_p n) (ts1 ++ rest1) = Ok (r', rest2) /\ length rest2 <= length rest1).
  { intros r ts1 rest1 Hr Hlen. destruct Hr as [| m | a b | t' ts' Hr].
    - eexists _, rest1. split; [reflexivity | lia].
    - destruct rest1 as [| [] rest1]; try (eexists _, _; split; [reflexivity | cbn; lia]).
      destruct rest1 as [| [] rest1]; eexists _, _; (split; [reflexivity | cbn; lia]).
    - eexists _, rest1. split; [reflexivity | lia].
    - exists t', rest1. split; [apply Hgroup; assumption | lia]. }
  assert (Hret : forall ts', length ts' <= n -> returns (term_p (expr_p n) ts')).
  { intros ts' Hn'. unfold term_p. destruct ts' as [| k ts']; [right; cbn; eauto |].
    cbn [first_p]. destruct (rule_returns (k :: ts')) as [[y ->] | [e ->]]; [left; eauto |].
    assert (returns (subexpr_p (expr_p n) (k :: ts'))) as Hs.
    { unfold subexpr_p. apply returns_bind; [apply parse_if_returns |].
      intros [k' r] H. apply parse_if_ok in H as [[= -> ->] _].
      apply returns_bind; [apply expr_returns; cbn in *; lia |]. intros a _.
      apply returns_bind; [apply parse_if_returns |]. intros. left. eauto. }
    destruct Hs as [[y ->] | [e' ->]]; [left; eauto | right; eauto]. }
  pose proof (term_sound _ (expr_sound n)) as Hs. cbn [expr_p]. apply g_expr_tail in Hg as (h & ts1 & ts2 & Hh & Ht & ->). rewrite !app_length in Hn. rewrite <- app_assoc.
  assert (Hnext : exists h' rest2, term_p (expr_p n) (ts1 ++ ts2 ++ rest) = Ok (h', rest2) /\
            exists ps rest', many_p (S (length rest2)) (op_term_p (term_p (expr_p n))) rest2 = Ok (ps, rest') /\ length rest' <= length rest).
  { destruct ts2 as [| k2 ts2].
    - cbn [app]. destruct (Hreach h ts1 rest Hh) as (r' & rest2 & Hr' & Hl); [lia |]. exists r', rest2. split; [exact Hr' |].
      destruct (many_returns _ Hs (S (length rest2)) rest2) as [[[ps rest'] Hp] | [e He]]; [lia | | | apply many_no_error in He; contradiction].
      + intros ts' Hl'. apply Hret. lia.
      + exists ps, rest'. split; [exact Hp |]. apply (many_sound _ Hs) in Hp as (t1 & -> & _). rewrite app_length in Hl. lia.
    - exists h, ((k2 :: ts2) ++ rest). split.
      + apply Hex; [exact Hh | | lia]. inversion Ht as [| ? ? ? ? ? ? ? Ho2]; subst. destruct Ho2; exact I.
      + apply (tail_reaches _ Hs h _ t Ht); [intros ts' Hl'; apply Hret; rewrite app_length in Hl' | intros r0 t0 rest0 Hg0 Hl0; apply (Hreach r0); [exact Hg0 |] | intros r0 t0 rest0 Hg0 Hna Hl0; apply Hex; [exact Hg0 | exact Hna |] |]; lia. }
  destruct Hnext as (h' & rest2 & -> & ps & rest' & Hp & Hl). cbn [bind fst snd]. rewrite Hp. cbn [bind]. eexists _, rest'. split; [reflexivity | exact Hl].
Qed.

(** ** The answer *)

Lemma longest_of ts : forall ts1 r, ts = ts1 ++ r ->
  (forall t p q, map kind ts = p ++ q -> g_expr t p -> length r <= length q) -> longest (length ts1) ts.
Proof.
  intros ts1 r -> H p q x Heq Hg. specialize (H x (map kind p) (map kind q)). rewrite Heq, map_app, map_length in H.
  specialize (H eq_refl Hg). apply (f_equal (@length token)) in Heq. rewrite !app_length in Heq. lia.
Qed.

Lemma parse_text_cases E s : exists ts, lex_tokens E s = Ok ts /\ lex E s = Ok (map kind ts) /\ tiles E "" s ts /\
  ((exists ts0 t, ts = ts0 ++ [t] /\ tk_type t = TyError /\
      parse_text E s = Ok (inr ("error parsing expression " +++ s +++ ": " +++ tk_lexeme t)) /\ exists e, parse E s = Err e) \/
   (well_lexed ts /\ longest 0 ts /\
      parse_text E s = Ok (inr ("error parsing: expression needs: term: have: " +++ show_tokens ts)) /\ exists e, parse E s = Err e) \/
   (exists ts1 ts2 x, ts = ts1 ++ ts2 /\ well_lexed ts /\ g_expr x (map kind ts1) /\ longest (length ts1) ts /\
      ((map kind ts2 = [KEof] /\ parse_text E s = Ok (inl x) /\ parse E s = Ok x) \/
       (map kind ts2 <> [KEof] /\
        parse_text E s = Ok (inr ("error parsing expression " +++ s +++ ": leftover tokens, possibly misformed: tokens=" +++ show_tokens ts2)) /\
        exists e, parse E s = Err e)))).
Proof.
  destruct (lex_tokens_ok E s) as (ts & Hts & Hlex & Ht). exists ts. do 3 (split; [assumption |]).
  unfold parse_text, parse, parse_tokens. rewrite Hts, Hlex. cbn [bind].
  destruct (exists_last (tiles_nonempty _ _ _ _ Ht)) as (ts0 & t & Heq). replace (rev ts) with (t :: rev ts0) by (rewrite Heq, rev_app_distr; reflexivity).
  replace (last (map kind ts) KEof) with (kind t) by (rewrite Heq, map_app; cbn [map]; rewrite last_snoc; reflexivity).
  pose proof (proj2 (tiles_last _ _ _ _ Ht _ _ _ Heq) eq_refl) as Hlast.
  assert (Hlasts : forall p u q, ts = p ++ u :: q -> tk_type u = TyError \/ tk_type u = TyEof -> q = [] /\ u = t).
  { intros p u q Hpq Hu. apply (tiles_last _ _ _ _ Ht _ _ _ Hpq) in Hu. subst q. rewrite Heq in Hpq. apply app_inj_tail in Hpq as [_ ->]. auto. }
  destruct Hlast as [Herr | Heof].
  { left. exists ts0, t. unfold is_error, kind. rewrite Herr. cbn. eauto 8. }
  right. replace (is_error (kind t)) with false by (unfold kind; rewrite Heof; reflexivity).
  replace (same_type (tk_type t) TyError) with false by (rewrite Heof; reflexivity).
  assert (Hwell : well_lexed ts).
  { intros u Hu Herr. apply in_split in Hu as (p & q & Hpq). destruct (Hlasts _ _ _ Hpq (or_introl Herr)) as [_ ->]. congruence. }
  rewrite map_length. pose proof (expression_agrees (S (length ts)) ts) as Ha.
  assert (Hlong : forall x p q, map kind ts = p ++ q -> g_expr x p ->
            exists t' rest', expr_p (S (length ts)) (map kind ts) = Ok (t', rest') /\ length rest' <= length q).
  { intros x p q Hpq Hg. rewrite Hpq. apply (expr_reaches _ x); [exact Hg |]. rewrite <- Hpq, map_length. lia. }
  destruct (expr_returns (S (length ts)) (map kind ts)) as [[[x rest] Hx] | [e Hx]]; [rewrite map_length; lia | |];
    rewrite Hx in *; destruct (expression_t (S (length ts)) ts) as [x' r | text | |] eqn:Hexp; try contradiction.
  - right. destruct Ha as [-> ->]. destruct (expression_got _ _ _ _ Hexp) as (ts1 & Hsplit & Hg). exists ts1, r, x.
    split; [exact Hsplit |]. split; [exact Hwell |]. split; [exact Hg |]. split.
    { apply (longest_of ts ts1 r Hsplit). intros y p q Hpq Hy. destruct (Hlong y p q Hpq Hy) as (t' & rest' & [= <- <-] & Hl). rewrite map_length in Hl. exact Hl. }
    cbn [bind fst snd]. destruct (skip_eof_agrees r) as (l & r' & -> & Hsk & r0 & Hr & Hr0). rewrite <- Hsk.
    destruct r0 as [| u r0].
    + cbn [app] in Hr. subst r'. right. destruct r as [| v r].
      * exfalso. rewrite app_nil_r in Hsplit. subst ts1. apply g_expr_plain in Hg. rewrite Heq, map_app in Hg. apply Forall_app in Hg as [_ Hg].
        inversion Hg as [| ? ? Hp]; subst. unfold kind in Hp. rewrite Heof in Hp. destruct Hp; congruence.
      * split.
        { intros Hk. rewrite Hk in Hsk. discriminate Hsk. }
        cbn [map]. eauto.
    + left. inversion Hr0 as [| ? ? Hu _]; subst. rewrite <- app_assoc in Hsplit || idtac. cbn [app] in Hsplit.
      destruct (Hlasts _ _ _ Hsplit (or_intror Hu)) as [Hnil ->]. apply app_eq_nil in Hnil as [-> ->]. cbn.
      split; [unfold kind; rewrite Hu; reflexivity | auto].
  - left. split; [exact Hwell |]. split.
    { intros p q y Hpq Hy. exfalso. destruct (Hlong y (map kind p) (map kind q)) as (? & ? & H & _); [rewrite Hpq; apply map_app | exact Hy | discriminate]. }
    rewrite (expression_failure _ _ _ Hexp). split; [reflexivity |]. cbn. eauto.
Qed.
