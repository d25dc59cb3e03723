(** Properties C105 and C106: where tokens lie, and what refused expressions are answered. *)
From Coq Require Import Lia.
From Verif Require Import Base Domain Lexer LexPos Parser ParserText BaseFacts SpecGrammar SpecSpan LexerFacts ParserFacts SpanFacts TextFacts Fixtures.

(** ** C105 *)

(** Every text is lexed, and the tokens are the ones the parser of C01 to C06 is given. *)
Theorem C105_lexed : forall E s, exists ts, lex_tokens E s = Ok ts /\ lex E s = Ok (map kind ts).
Proof. intros E s. destruct (lex_tokens_ok E s) as (ts & H1 & H2 & _). eauto. Qed.

(** The tokens cover the text, with white space between them, and there is one way to do so. *)
Theorem C105_tiles : forall E s ts, lex_tokens E s = Ok ts <-> tiles E "" s ts.
Proof.
  intros E s ts. destruct (lex_tokens_ok E s) as (ts' & Hts & _ & Ht). split.
  - congruence.
  - intros H. rewrite (tiles_unique _ _ _ _ H _ Ht). exact Hts.
Qed.

(** The bytes between the recorded ends of a token are its lexeme. *)
Theorem C105_quotes : forall E s ts t, lex_tokens E s = Ok ts -> In t ts -> tk_type t <> TyError ->
  tk_start t <= tk_end t <= String.length s /\ substring (tk_start t) (tk_end t - tk_start t) s = tk_lexeme t.
Proof.
  intros E s ts t Hts Hin Hne. apply C105_tiles in Hts. apply in_split in Hin as (ts1 & ts2 & Heq).
  destruct (tiles_at _ _ _ _ Hts _ _ _ Heq) as (x & y & -> & Hs & _ & _ & _ & Hq). destruct (Hq Hne) as (y' & -> & He).
  cbn [append] in *. rewrite He, Hs, !length_app_s. split; [lia |].
  replace (String.length x + String.length (tk_lexeme t) - String.length x) with (String.length (tk_lexeme t)) by lia. apply substring_mid.
Qed.

(** Between one token and the next there is white space and nothing else. *)
Theorem C105_between : forall E s ts1 t u ts2, lex_tokens E s = Ok (ts1 ++ t :: u :: ts2) ->
  tk_end t <= tk_start u /\ white E (substring (tk_end t) (tk_start u - tk_end t) s).
Proof.
  intros E s ts1 t u ts2 H. apply C105_tiles in H. destruct (tiles_between _ _ _ _ H _ _ _ _ eq_refl) as (x & w & y & -> & Hw & He & Hs).
  cbn [append] in *. rewrite He, Hs, length_app_s. split; [lia |].
  replace (String.length x + String.length w - String.length x) with (String.length w) by lia. rewrite substring_mid. exact Hw.
Qed.

(** Before a token lie the tokens before it. *)
Theorem C105_before : forall E s ts1 t ts2, lex_tokens E s = Ok (ts1 ++ t :: ts2) ->
  tokenizes E (substring 0 (tk_start t) s) (map kind ts1).
Proof.
  intros E s ts1 t ts2 H. apply C105_tiles in H. destruct (tiles_at _ _ _ _ H _ _ _ eq_refl) as (x & y & -> & Hs & Hx & _).
  rewrite Hs. cbn [append]. rewrite (substring_mid "" x y : substring 0 (String.length x) (x +++ y) = x). exact Hx.
Qed.

(** The last token, and no other, is the end of the text or an error. *)
Theorem C105_last : forall E s ts1 t ts2, lex_tokens E s = Ok (ts1 ++ t :: ts2) ->
  (ts2 = [] <-> tk_type t = TyError \/ tk_type t = TyEof).
Proof. intros E s ts1 t ts2 H. apply C105_tiles in H. symmetry. exact (tiles_last _ _ _ _ H _ _ _ eq_refl). Qed.

Theorem C105_end : forall E s ts t, lex_tokens E s = Ok (ts ++ [t]) -> tk_type t = TyEof ->
  t = mkToken TyEof "" (String.length s) (String.length s) /\ tokenizes E s (map kind ts).
Proof.
  intros E s ts t H Ht. apply C105_tiles in H. destruct (tiles_at _ _ _ _ H _ _ _ eq_refl) as (x & y & -> & Hs & Hx & _ & He & _).
  destruct (He Ht) as (_ & He' & -> & Hl). rewrite app_nil_r_s. split; [| exact Hx]. destruct t as [ty l i j]. cbn in *. congruence.
Qed.

(** An error token is where the text stops being readable: what lies before it reads as tokens, nothing longer does,
    and its text quotes what follows. *)
Theorem C105_error : forall E s ts t, lex_tokens E s = Ok (ts ++ [t]) -> tk_type t = TyError ->
  exists b r, s = b +++ r /\ t = mkToken TyError ("unknown token: context: " +++ r) (String.length b) (String.length b) /\
    foreign E r /\ tokenizes E b (map kind ts) /\
    forall x y, s = x +++ y -> String.length b < String.length x -> ~ reads_as_tokens E x.
Proof.
  intros E s ts t H Ht. apply C105_tiles in H. destruct (tiles_at _ _ _ _ H _ _ _ eq_refl) as (x & y & Hsp & Hs & Hx & He & _).
  destruct (He Ht) as (_ & He' & Hf & Hl). exists x, y. cbn [append] in Hs. split; [exact Hsp |]. split; [destruct t as [ty l i j]; cbn in *; congruence |].
  split; [exact Hf |]. split; [exact Hx |]. intros x' y' Heq Hlen (ks & Hk).
  apply (tiles_stuck _ _ _ _ H t (in_or_app ts [t] t (or_intror (or_introl eq_refl))) Ht x' y' ks); [exact Heq | cbn [append]; lia | exact Hk].
Qed.

Theorem C105_error_iff : forall E s, (exists ts t, lex_tokens E s = Ok (ts ++ [t]) /\ tk_type t = TyError) <-> ~ reads_as_tokens E s.
Proof.
  intros E s. split.
  - intros (ts & t & Hts & Ht). destruct (C105_error _ _ _ _ Hts Ht) as (b & r & Hsp & _ & Hf & _ & Hn). apply (Hn s ""%string); [symmetry; apply app_nil_r_s |].
    rewrite Hsp, length_app_s. destruct Hf as [Hne _]. destruct r; [congruence | cbn; lia].
  - intros Hn. destruct (C105_lexed E s) as (ts & Hts & _). destruct (exists_last (tiles_nonempty _ _ _ _ (proj1 (C105_tiles _ _ _) Hts))) as (ts0 & t & ->).
    exists ts0, t. split; [exact Hts |]. destruct (proj1 (C105_last _ _ _ _ _ Hts) eq_refl) as [Ht | Ht]; [exact Ht |].
    destruct Hn. exists (map kind ts0). apply (C105_end _ _ _ _ Hts Ht).
Qed.

Example C105_case :
  lex_tokens E0 " (a->b)" = Ok [mkToken TyOpen "(" 1 2; mkToken TyIdent "a" 2 3; mkToken TyArrow "->" 3 5; mkToken TyIdent "b" 5 6; mkToken TyClose ")" 6 7; mkToken TyEof "" 7 7] /\
  lex_tokens E0 "a > b" = Ok [mkToken TyIdent "a" 0 1; mkToken TyError "unknown token: context: > b" 2 2] /\
  ~ reads_as_tokens E0 "a > b" /\ reads_as_tokens E0 "a ".
Proof.
  split; [vm_compute; reflexivity |]. split; [vm_compute; reflexivity |]. split.
  - apply C105_error_iff. exists [mkToken TyIdent "a" 0 1], (mkToken TyError "unknown token: context: > b" 2 2). split; [vm_compute; reflexivity | reflexivity].
  - exists (map kind [mkToken TyIdent "a" 0 1]). apply (C105_end E0 "a " _ (mkToken TyEof "" 2 2)); [vm_compute; reflexivity | reflexivity].
Qed.

(** Positions count bytes, not characters. *)
Example C105_bytes_case : let E := mkEnv (fun s => s) (fun _ => ClLetter) in let e := encode 233 in
  String.length e = 2 /\ lex_tokens E (e +++ "+b") = Ok [mkToken TyIdent e 0 2; mkToken TyUnion "+" 2 3; mkToken TyIdent "b" 3 4; mkToken TyEof "" 4 4].
Proof. vm_compute. split; reflexivity. Qed.

(** ** C106 *)

(** The trees are those of C01 to C06. *)
Theorem C106_same : forall E s t, parse_text E s = Ok (inl t) <-> parse E s = Ok t.
Proof.
  intros E s t. destruct (parse_text_cases E s) as (ts & _ & _ & _ & [(ts0 & u & _ & _ & -> & e & ->) | [(_ & _ & -> & e & ->) | (ts1 & ts2 & x & _ & _ & _ & _ & [(_ & -> & ->) | (_ & -> & e & ->)])]]);
    (split; intros H; [| ]; (discriminate H || (injection H as H; subst; reflexivity))).
Qed.

Theorem C106_answers : forall E s, (exists t, parse_text E s = Ok (inl t)) \/ (exists m, parse_text E s = Ok (inr m)).
Proof.
  intros E s. destruct (parse_text_cases E s) as (ts & _ & _ & _ & [(ts0 & u & _ & _ & -> & _) | [(_ & _ & -> & _) | (ts1 & ts2 & x & _ & _ & _ & _ & [(_ & -> & _) | (_ & -> & _)])]]);
    eauto.
Qed.

Lemma message_found E s m : parse_text E s = Ok (inr m) -> message E s m.
Proof.
  intros H. destruct (parse_text_cases E s) as (ts & _ & _ & Ht & [(ts0 & u & -> & Hu & Hp & _) | [(Hw & Hl & Hp & _) | (ts1 & ts2 & x & -> & Hw & Hg & Hl & [(_ & Hp & _) | (Hne & Hp & _)])]]);
    rewrite Hp in H; try discriminate; injection H as <-.
  - apply (me_token _ _ ts0); assumption.
  - apply me_term; assumption.
  - apply (me_left _ _ ts1 ts2 x); assumption.
Qed.

Lemma no_longer ts ts1 ts2 x : longest 0 ts -> ts = ts1 ++ ts2 -> g_expr x (map kind ts1) -> False.
Proof.
  intros Hl Heq Hg. specialize (Hl _ _ _ Heq Hg). destruct ts1; [| cbn in Hl; lia]. apply (proj1 g_nonempty) in Hg. apply Hg. reflexivity.
Qed.

Lemma same_cut (ts1 ts2 ts1' ts2' : list token) x x' : ts1 ++ ts2 = ts1' ++ ts2' -> longest (length ts1) (ts1 ++ ts2) -> longest (length ts1') (ts1 ++ ts2) ->
  g_expr x (map kind ts1) -> g_expr x' (map kind ts1') -> ts2 = ts2'.
Proof.
  intros Heq Hl Hl' Hg Hg'. specialize (Hl _ _ _ Heq Hg'). specialize (Hl' _ _ _ eq_refl Hg).
  assert (Hlen : length ts1 = length ts1') by lia. clear - Heq Hlen. revert ts1' Heq Hlen.
  induction ts1 as [| t ts1 IH]; intros [| t' ts1'] Heq Hlen; try discriminate; [exact Heq |]. cbn in Heq. injection Heq as _ Heq. injection Hlen as Hlen. eauto.
Qed.

(** A refused text is answered the message the specification gives, and no accepted text has one. *)
Theorem C106_messages : forall E s m, parse_text E s = Ok (inr m) <-> message E s m.
Proof.
  intros E s m. split; [apply message_found |]. intros Hm.
  destruct (parse_text_cases E s) as (ts & _ & _ & Ht & Hcases).
  assert (Huse : forall ts', tiles E "" s ts' -> ts' = ts) by (intros ts' H; exact (tiles_unique _ _ _ _ H _ Ht)).
  assert (Hin : forall ts' (t : token), In t (ts' ++ [t])) by (intros; apply in_or_app; cbn; auto).
  destruct Hm as [ts' t Ht' He | ts' Ht' Hw Hl | ts1' ts2' x' Ht' Hw Hg Hl Hne]; apply Huse in Ht'; subst ts;
    destruct Hcases as [(ts0 & u & Heq & Hu & -> & _) | [(Hw2 & Hl2 & -> & _) | (ts1 & ts2 & x & Heq & Hw2 & Hg2 & Hl2 & [(Hk & -> & _) | (Hne2 & -> & _)])]].
  - apply app_inj_tail in Heq as [_ ->]. reflexivity.
  - destruct (Hw2 t); auto.
  - destruct (Hw2 t); auto.
  - destruct (Hw2 t); auto.
  - subst ts'. destruct (Hw u); auto.
  - reflexivity.
  - destruct (no_longer _ _ _ _ Hl Heq Hg2).
  - destruct (no_longer _ _ _ _ Hl Heq Hg2).
  - destruct (Hw u); [rewrite Heq; auto | exact Hu].
  - destruct (no_longer _ _ _ _ Hl2 eq_refl Hg).
  - destruct Hne. rewrite (same_cut _ _ _ _ _ _ Heq Hl Hl2 Hg Hg2). exact Hk.
  - rewrite (same_cut _ _ _ _ _ _ Heq Hl Hl2 Hg Hg2). reflexivity.
Qed.

(** When tokens are left over, the text before the first of them is an expression of its own. *)
Theorem C106_before_the_leftovers : forall E s ts1 t ts2 x, tiles E "" s (ts1 ++ t :: ts2) -> g_expr x (map kind ts1) ->
  parse E (substring 0 (tk_start t) s) = Ok x.
Proof.
  intros E s ts1 t ts2 x Ht Hg. apply parse_iff. exists (map kind ts1). split; [| exact Hg]. apply C105_tiles in Ht. exact (C105_before _ _ _ _ _ Ht).
Qed.

Example C106_case :
  parse_text E0 "a + + b" = Ok (inr "error parsing expression a + + b: leftover tokens, possibly misformed: tokens=[{2 + 2 3} {2 + 4 5} {1 b 6 7} {0  7 7}]") /\
  parse E0 (substring 0 2 "a + + b") = Ok (TRule (RCu "a")) /\
  parse_text E0 "a > b" = Ok (inr "error parsing expression a > b: unknown token: context: > b") /\
  parse_text E0 ")" = Ok (inr "error parsing: expression needs: term: have: [{6 ) 0 1} {0  1 1}]") /\
  parse_text E0 "a + b" = Ok (inl (TOp (TRule (RCu "a")) OpUnion (TRule (RCu "b")))).
Proof. vm_compute. repeat split. Qed.

Print Assumptions C105_lexed.
Print Assumptions C105_tiles.
Print Assumptions C105_quotes.
Print Assumptions C105_between.
Print Assumptions C105_before.
Print Assumptions C105_last.
Print Assumptions C105_end.
Print Assumptions C105_error.
Print Assumptions C105_error_iff.
Print Assumptions C106_same.
Print Assumptions C106_answers.
Print Assumptions C106_messages.
Print Assumptions C106_before_the_leftovers.
