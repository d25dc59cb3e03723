(** The lexer with the positions and lexemes of its tokens, statement by statement:
    internal/relation_expression_parser/lexer.go.  Lexer.v is the same lexer on the remaining input, without positions. *)
From Verif Require Import Base Lexer.
Local Open Scope nat_scope.

(** lexer.go:26-39 tokenType *)
Inductive tok_type := TyEof | TyIdent | TyUnion | TyDiff | TyInter | TyOpen | TyClose | TyArrow | TyThis | TyError.

(** lexer.go:12-17 token; positions are byte offsets *)
Record token := mkToken { tk_type : tok_type; tk_lexeme : string; tk_start : nat; tk_end : nat }.

(** lexer.go:41-47 Lexer; the channel is the list of the tokens sent so far (Chan.v has the channel itself). *)
Record lexer := mkLexer { lx_input : string; lx_start : nat; lx_curr : nat; lx_width : nat; lx_q : list token }.

(** lexer.go:49-59 NewLexer *)
Definition new_lexer (input : string) : lexer := mkLexer input 0 0 0 [].

(** Go's s[i:j] *)
Definition slice (s : string) (i j : nat) : res string :=
  if (i <=? j) && (j <=? String.length s) then Ok (substring i (j - i) s) else Panic.

(** Go's s[i:] *)
Definition slice_from (s : string) (i : nat) : res string := slice s i (String.length s).

(** utf8.DecodeRuneInString: rune and width *)
Definition decode_rune (s : string) : N * nat :=
  match peek s with
  | None => (rune_error, 0)
  | Some (r, c, _) => (r, String.length c)
  end.

(** lexer.go:62-68 peek; [None] is eof *)
Definition l_peek (L : lexer) : res (option N * nat) :=
  if lx_curr L =? String.length (lx_input L) then Ok (None, 0)
  else let* s := slice_from (lx_input L) (lx_curr L) in
       Ok (Some (fst (decode_rune s)), snd (decode_rune s)).

(** lexer.go:77-82 step.  backtrack (72-74) and reset (84-86) are not called. *)
Definition l_step (L : lexer) : res (option N * lexer) :=
  let* p := l_peek L in
  Ok (fst p, mkLexer (lx_input L) (lx_start L) (lx_curr L + snd p) (snd p) (lx_q L)).

(** lexer.go:88-90 ignore *)
Definition l_ignore (L : lexer) : lexer := mkLexer (lx_input L) (lx_curr L) (lx_curr L) (lx_width L) (lx_q L).

(** A predicate of the unicode package on a rune or on eof (-1), which is in no table *)
Definition holds (f : N -> bool) (r : option N) : bool := match r with Some x => f x | None => false end.

(** lexer.go:93-100 stepIf *)
Definition l_step_if (f : N -> bool) (L : lexer) : res (bool * lexer) :=
  let* p := l_peek L in
  if holds f (fst p) then let* x := l_step L in Ok (true, snd x) else Ok (false, L).

(** lexer.go:103-110 stepIfRune *)
Definition l_step_if_rune (r : N) (L : lexer) : res (bool * lexer) :=
  let* p := l_peek L in
  if match fst p with Some x => N.eqb x r | None => false end
  then let* x := l_step L in Ok (true, snd x) else Ok (false, L).

(** lexer.go:113-118 stepWhile: the number of steps.  [n] bounds the iterations. *)
Fixpoint l_step_while (f : N -> bool) (n : nat) (L : lexer) : res (nat * lexer) :=
  match n with
  | O => Fuel
  | S n' =>
      let* x := l_step_if f L in
      if fst x then let* y := l_step_while f n' (snd x) in Ok (S (fst y), snd y)
      else Ok (0, snd x)
  end.

(** lexer.go:126-131 the loop of consumeString; the literals are ASCII *)
Fixpoint l_consume_runes (lit : string) (L : lexer) : res (bool * lexer) :=
  match lit with
  | EmptyString => Ok (true, L)
  | String c lit' =>
      let* x := l_step_if_rune (byte c) L in
      if fst x then l_consume_runes lit' (snd x) else Ok (false, snd x)
  end.

(** lexer.go:123-138 consumeString *)
Definition l_consume_string (lit : string) (L : lexer) : res (bool * lexer) :=
  let* x := l_consume_runes lit L in
  if fst x then Ok x
  else Ok (false, mkLexer (lx_input (snd x)) (lx_start (snd x)) (lx_curr L) (lx_width (snd x)) (lx_q (snd x))).

(** lexer.go:141-144 skipSpaces *)
Definition l_skip_spaces (E : env) (L : lexer) : res lexer :=
  let* x := l_step_while (is_space E) (S (String.length (lx_input L))) L in Ok (l_ignore (snd x)).

(** lexer.go:194-204 emit *)
Definition l_emit (ty : tok_type) (L : lexer) : res lexer :=
  let* lexeme := slice (lx_input L) (lx_start L) (lx_curr L) in
  Ok (l_ignore (mkLexer (lx_input L) (lx_start L) (lx_curr L) (lx_width L)
                  (lx_q L ++ [mkToken ty lexeme (lx_start L) (lx_curr L)]))).

(** lexer.go:206-217 emitError *)
Definition l_emit_error (msg : string) (L : lexer) : res lexer :=
  let* rest := slice_from (lx_input L) (lx_start L) in
  Ok (l_ignore (mkLexer (lx_input L) (lx_start L) (lx_curr L) (lx_width L)
                  (lx_q L ++ [mkToken TyError (msg +++ ": context: " +++ rest) (lx_start L) (lx_curr L)]))).

(** lexer.go:146-153 lexTerminal *)
Definition l_lex_terminal (ty : tok_type) (str : string) (L : lexer) : res (bool * lexer) :=
  let* x := l_consume_string str L in
  if fst x then let* L' := l_emit ty (snd x) in Ok (true, L') else Ok (false, snd x).

(** lexer.go:174-180 the chain of terminals, in order *)
Definition l_terminals : list (tok_type * string) :=
  [(TyOpen, "("); (TyClose, ")"); (TyArrow, "->"); (TyUnion, "+"); (TyDiff, "-"); (TyInter, "&"); (TyThis, "_this")]%string.

Fixpoint l_lex_terminals (l : list (tok_type * string)) (L : lexer) : res (bool * lexer) :=
  match l with
  | [] => Ok (false, L)
  | (ty, str) :: l' =>
      let* x := l_lex_terminal ty str L in
      if fst x then Ok x else l_lex_terminals l' (snd x)
  end.

(** lexer.go:155-158 lexEOF *)
Definition l_lex_eof (L : lexer) : res bool :=
  let* p := l_peek L in Ok (match fst p with None => true | Some _ => false end).

(** lexer.go:160-168 lexIdentifier *)
Definition l_lex_identifier (E : env) (L : lexer) : res (bool * lexer) :=
  let* x := l_step_while (is_ident_rune E) (S (String.length (lx_input L))) L in
  if 0 <? fst x then let* L' := l_emit TyIdent (snd x) in Ok (true, L') else Ok (false, snd x).

(** lexer.go:170-192 scan.  [n] bounds the iterations. *)
Fixpoint l_scan (E : env) (n : nat) (L : lexer) : res lexer :=
  match n with
  | O => Fuel
  | S n' =>
      let* x := l_lex_terminals l_terminals L in
      if fst x then l_scan E n' (snd x)
      else
        let* y := l_lex_identifier E (snd x) in
        if fst y then l_scan E n' (snd y)
        else
          let* p := l_peek (snd y) in
          if holds (is_space E) (fst p) then
            let* L' := l_skip_spaces E (snd y) in l_scan E n' L'
          else
            let* e := l_lex_eof (snd y) in
            if e then l_emit TyEof (snd y) else l_emit_error "unknown token" (snd y)
  end.

(** lexer.go:219-222 Lex: the tokens put on the channel *)
Definition lex_tokens (E : env) (s : string) : res (list token) :=
  let* L := l_scan E (S (String.length s)) (new_lexer s) in Ok (lx_q L).
