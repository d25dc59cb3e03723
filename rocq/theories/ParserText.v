(** The parser on tokens with positions, with the texts of its errors:
    internal/relation_expression_parser/parser.go and primitives.go.
    Parser.v is the same parser on token kinds, with one error. *)
From Coq Require Import DecimalString.
From Verif Require Import Base Domain Lexer LexPos.

(** What fmt prints of an int with %v *)
Definition show_int (n : nat) : string := NilEmpty.string_of_uint (Nat.to_uint n).

(** lexer.go:28-39 the values of the constants *)
Definition type_number (ty : tok_type) : nat :=
  match ty with
  | TyEof => 0 | TyIdent => 1 | TyUnion => 2 | TyDiff => 3 | TyInter => 4
  | TyOpen => 5 | TyClose => 6 | TyArrow => 7 | TyThis => 8 | TyError => 9
  end.

Definition same_type (a b : tok_type) : bool := Nat.eqb (type_number a) (type_number b).

(** What fmt prints of a token (a struct) with %v *)
Definition show_token (t : token) : string :=
  "{" +++ show_int (type_number (tk_type t)) +++ " " +++ tk_lexeme t +++ " " +++
  show_int (tk_start t) +++ " " +++ show_int (tk_end t) +++ "}".

Fixpoint join (sep : string) (l : list string) : string :=
  match l with
  | [] => ""
  | [x] => x
  | x :: l' => x +++ sep +++ join sep l'
  end.

(** What fmt prints of a slice of tokens with %v *)
Definition show_tokens (ts : list token) : string := "[" +++ join " " (map show_token ts) +++ "]".

(** primitives.go:9 parserFn: a value and the remaining tokens, or an error text.
    [Spent] is the model's fuel, [Broken] a panic. *)
Inductive parsed (T : Type) := Got (x : T) (rest : list token) | Failed (text : string) | Spent | Broken.
Arguments Got {T} x rest.
Arguments Failed {T} text.
Arguments Spent {T}.
Arguments Broken {T}.

Definition t_fn (T : Type) := list token -> parsed T.

(** primitives.go:21-24 buildErr *)
Definition build_err (ts : list token) (msg : string) : string := "error parsing: " +++ msg +++ ": have: " +++ show_tokens ts.

(** An error is passed on as it is. *)
Definition and_then {A B} (x : parsed A) (f : A -> list token -> parsed B) : parsed B :=
  match x with
  | Got a r => f a r
  | Failed e => Failed e
  | Spent => Spent
  | Broken => Broken
  end.

(** An error is replaced by another one. *)
Definition or_fail {A} (text : string) (x : parsed A) : parsed A :=
  match x with Failed _ => Failed text | _ => x end.

(** primitives.go:13-19 unit *)
Definition unit_t : t_fn token :=
  fun ts => match ts with [] => Failed "failed parsing: no tokens left" | t :: r => Got t r end.

(** primitives.go:68-79 parseIf *)
Definition parse_if_t (f : token -> bool) (msg : string) : t_fn token :=
  fun ts => and_then (unit_t ts) (fun t r => if f t then Got t r else Failed (build_err ts msg)).

(** primitives.go:81-85 parseIfType; the arguments are passed as one slice, hence the brackets. *)
Definition parse_if_type (ty : tok_type) : t_fn token :=
  parse_if_t (fun t => same_type (tk_type t) ty) ("want token of type [" +++ show_int (type_number ty) +++ "]").

(** primitives.go:87-98 parseIfAnyType *)
Definition parse_if_any_type (tys : list tok_type) : t_fn token :=
  parse_if_t (fun t => existsb (fun ty => same_type (tk_type t) ty) tys)
    ("possible accepted tokens [[" +++ join " " (map (fun ty => show_int (type_number ty)) tys) +++ "]]").

(** primitives.go:36-45 the loop of many.  [n] bounds the iterations. *)
Fixpoint many_loop {T} (n : nat) (p : t_fn T) (ts : list token) : parsed (list T) :=
  match n with
  | O => Spent
  | S n' =>
      match p ts with
      | Got x r => and_then (many_loop n' p r) (fun l r' => Got (x :: l) r')
      | Failed _ => Got [] ts
      | Spent => Spent
      | Broken => Broken
      end
  end.

(** primitives.go:30-47 many *)
Definition many_t {T} (n : nat) (p : t_fn T) : t_fn (list T) :=
  fun ts => match ts with [] => Got [] [] | _ => many_loop n p ts end.

(** primitives.go:57-62 the loop of first *)
Fixpoint try_t {T} (ps : list (t_fn T)) (ts : list token) : option (parsed T) :=
  match ps with
  | [] => None
  | p :: ps' => match p ts with Failed _ => try_t ps' ts | x => Some x end
  end.

(** primitives.go:50-66 first *)
Definition first_t {T} (msg : string) (ps : list (t_fn T)) : t_fn T :=
  fun ts =>
    match ts with
    | [] => Failed (build_err ts msg)
    | _ => match try_t ps ts with Some x => x | None => Failed (build_err ts msg) end
    end.

(** parser.go:36-42 token parsers *)
Definition identifier_t : t_fn token := parse_if_type TyIdent.
Definition this_token_t : t_fn token := parse_if_type TyThis.
Definition arrow_t : t_fn token := parse_if_type TyArrow.
Definition group_begin_t : t_fn token := parse_if_type TyOpen.
Definition group_end_t : t_fn token := parse_if_type TyClose.
Definition set_op_token_t : t_fn token := parse_if_any_type [TyUnion; TyDiff; TyInter].
Definition skip_eof_t (ts : list token) : parsed (list token) := many_t (S (length ts)) (parse_if_type TyEof) ts.

(** parser.go:51-58 computedUsersetParser *)
Definition cu_t : t_fn tree := fun ts => and_then (identifier_t ts) (fun id r => Got (TRule (RCu (tk_lexeme id))) r).

(** parser.go:61-68 thisParser *)
Definition this_t : t_fn tree := fun ts => and_then (this_token_t ts) (fun _ r => Got (TRule RThis) r).

(** parser.go:71-88 tupleToUsersetParser *)
Definition ttu_t : t_fn tree :=
  fun ts =>
    or_fail (build_err ts "TupleToUserset needs: identifier arrow identifier")
      (and_then (identifier_t ts) (fun a r =>
       and_then (arrow_t r) (fun _ r =>
       and_then (identifier_t r) (fun b r => Got (TRule (RTtu (tk_lexeme a) (tk_lexeme b))) r)))).

(** parser.go:45 ruleParser *)
Definition rule_t : t_fn tree := first_t "Rule needs: This | ComputedUserset | TupleToUserset" [this_t; ttu_t; cu_t].

(** parser.go:91-110 setOpParser *)
Definition set_op_t : t_fn operator :=
  fun ts =>
    and_then (set_op_token_t ts) (fun t r =>
      match tk_type t with
      | TyUnion => Got OpUnion r
      | TyInter => Got OpInter r
      | TyDiff => Got OpDiff r
      | _ => Broken
      end).

(** parser.go:113-126 opTermParser *)
Definition op_term_t (term : t_fn tree) : t_fn (operator * tree) :=
  fun ts =>
    or_fail (build_err ts "opTerm needs: op + term")
      (and_then (set_op_t ts) (fun o r => and_then (term r) (fun t r => Got (o, t) r))).

(** parser.go:152-169 subexprParser *)
Definition subexpr_t (expr : t_fn tree) : t_fn tree :=
  fun ts =>
    or_fail (build_err ts "SubExpr needs: GroupBegin Expr GroupEnd")
      (and_then (group_begin_t ts) (fun _ r =>
       and_then (expr r) (fun e r =>
       and_then (group_end_t r) (fun _ r => Got e r)))).

(** parser.go:171-174 termParser *)
Definition term_t (expr : t_fn tree) : t_fn tree := first_t "Term needs: Rule | SubExpr" [rule_t; subexpr_t expr].

(** parser.go:131-149 expressionParser.  [n] bounds the nesting of parentheses. *)
Fixpoint expression_t (n : nat) (ts : list token) : parsed tree :=
  match n with
  | O => Spent
  | S n' =>
      and_then (or_fail (build_err ts "expression needs: term") (term_t (expression_t n') ts)) (fun h r =>
      and_then (many_t (S (length r)) (op_term_t (term_t (expression_t n'))) r) (fun ps r =>
      Got (fold_left (fun acc q => TOp acc (fst q) (snd q)) ps h) r))
  end.

(** parser.go:13-34 Parse: the tree, or the text of the error *)
Definition parse_text (E : env) (s : string) : res (tree + string) :=
  let* ts := lex_tokens E s in
  match rev ts with
  | [] => Panic
  | last :: _ =>
      if same_type (tk_type last) TyError then Ok (inr ("error parsing expression " +++ s +++ ": " +++ tk_lexeme last))
      else
        match expression_t (S (length ts)) ts with
        | Failed e => Ok (inr e)
        | Spent => Fuel
        | Broken => Panic
        | Got t r =>
            match skip_eof_t r with
            | Got _ [] => Ok (inl t)
            | Got _ rest => Ok (inr ("error parsing expression " +++ s +++ ": leftover tokens, possibly misformed: tokens=" +++ show_tokens rest))
            | Failed e => Ok (inr e)
            | Spent => Fuel
            | Broken => Panic
            end
        end
  end.
