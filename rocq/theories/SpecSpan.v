(** Specification of the positions of tokens. *)
From Verif Require Import Base Domain Lexer LexPos ParserText SpecGrammar.

(** What a token of each type looks like, and what cannot follow it. *)
Inductive lexeme (E : env) : tok_type -> string -> string -> Prop :=
| lo_open r : lexeme E TyOpen "(" r
| lo_close r : lexeme E TyClose ")" r
| lo_arrow r : lexeme E TyArrow "->" r
| lo_union r : lexeme E TyUnion "+" r
| lo_diff r : (forall r', r <> ">" +++ r') -> lexeme E TyDiff "-" r
| lo_inter r : lexeme E TyInter "&" r
| lo_this r : lexeme E TyThis "_this" r
| lo_name w r : name E w -> prefix "_this" w = false -> no_name_here E r -> lexeme E TyIdent w r.

(** The text [r] begins with something that is neither white space nor part of a token. *)
Definition foreign (E : env) (r : string) : Prop :=
  r <> "" /\ (forall x, In x ["("; ")"; "+"; "-"; "&"] -> forall r', r <> x +++ r') /\
  forall c r', scalar c -> r = encode c +++ r' -> is_space E c = false /\ is_ident_rune E c = false.

(** The tokens [ts] lie in order in the text [r] that follows the text [b], with white space between them.
    The last one is the end of the text, or an error that quotes the rest of it. *)
Inductive tiles (E : env) : string -> string -> list token -> Prop :=
| ti_token b w x r ty ts : white E w -> lexeme E ty x r -> tiles E (b +++ w +++ x) r ts ->
    tiles E b (w +++ x +++ r) (mkToken ty x (String.length (b +++ w)) (String.length (b +++ w +++ x)) :: ts)
| ti_end b w : white E w -> tiles E b w [mkToken TyEof "" (String.length (b +++ w)) (String.length (b +++ w))]
| ti_error b w r : white E w -> foreign E r ->
    tiles E b (w +++ r) [mkToken TyError ("unknown token: context: " +++ r) (String.length (b +++ w)) (String.length (b +++ w))].

(** What the grammar sees of a token. *)
Definition kind (t : token) : tok :=
  match tk_type t with
  | TyEof => KEof
  | TyIdent => KIdent (tk_lexeme t)
  | TyUnion => KUnion
  | TyDiff => KDiff
  | TyInter => KInter
  | TyOpen => KOpen
  | TyClose => KClose
  | TyArrow => KArrow
  | TyThis => KThis
  | TyError => KError
  end.

Definition reads_as_tokens (E : env) (s : string) : Prop := exists ts, tokenizes E s ts.

(** ** Messages *)

Definition well_lexed (ts : list token) : Prop := forall t, In t ts -> tk_type t <> TyError.

(** No expression at the beginning of [ts] is longer than [n] tokens. *)
Definition longest (n : nat) (ts : list token) : Prop :=
  forall ts1 ts2 x, ts = ts1 ++ ts2 -> g_expr x (map kind ts1) -> length ts1 <= n.

(** What a refused text is answered. *)
Inductive message (E : env) (s : string) : string -> Prop :=
| me_token ts t : tiles E "" s (ts ++ [t]) -> tk_type t = TyError ->
    message E s ("error parsing expression " +++ s +++ ": " +++ tk_lexeme t)
| me_term ts : tiles E "" s ts -> well_lexed ts -> longest 0 ts ->
    message E s ("error parsing: expression needs: term: have: " +++ show_tokens ts)
| me_left ts1 ts2 x : tiles E "" s (ts1 ++ ts2) -> well_lexed (ts1 ++ ts2) ->
    g_expr x (map kind ts1) -> longest (length ts1) (ts1 ++ ts2) -> map kind ts2 <> [KEof] ->
    message E s ("error parsing expression " +++ s +++ ": leftover tokens, possibly misformed: tokens=" +++ show_tokens ts2).
