(** Parser: internal/relation_expression_parser/parser.go and primitives.go,
    and the printer of pkg/domain/relation_expression_tree.go. *)
From Verif Require Import Base Domain Lexer.

(** primitives.go:9 parserFn: an error leaves the caller with the tokens it passed. *)
Definition p_fn (T : Type) := list tok -> res (T * list tok).

(** primitives.go:13-19 unit *)
Definition unit_p : p_fn tok :=
  fun ts => match ts with [] => Err EParse | t :: r => Ok (t, r) end.

(** primitives.go:30-47 many: runs the parser until it fails.  [n] bounds the iterations. *)
Fixpoint many_p {T} (n : nat) (p : p_fn T) (ts : list tok) : res (list T * list tok) :=
  match n with
  | O => Fuel
  | S n' =>
      match p ts with
      | Ok (x, r) => let* y := many_p n' p r in Ok (x :: fst y, snd y)
      | Err _ => Ok ([], ts)
      | Panic => Panic
      | Fuel => Fuel
      end
  end.

(** primitives.go:50-66 first *)
Fixpoint first_p {T} (ps : list (p_fn T)) (ts : list tok) : res (T * list tok) :=
  match ts with
  | [] => Err EParse
  | _ =>
      match ps with
      | [] => Err EParse
      | p :: ps' =>
          match p ts with
          | Err _ => first_p ps' ts
          | x => x
          end
      end
  end.

(** primitives.go:68-79 parseIf *)
Definition parse_if (f : tok -> bool) : p_fn tok :=
  fun ts => let* x := unit_p ts in if f (fst x) then Ok x else Err EParse.

(** parser.go:36-42 token parsers *)
Definition is_open (t : tok) : bool := match t with KOpen => true | _ => false end.
Definition is_close (t : tok) : bool := match t with KClose => true | _ => false end.
Definition is_this (t : tok) : bool := match t with KThis => true | _ => false end.
Definition is_arrow (t : tok) : bool := match t with KArrow => true | _ => false end.
Definition is_eof (t : tok) : bool := match t with KEof => true | _ => false end.
Definition is_error (t : tok) : bool := match t with KError => true | _ => false end.

(** parser.go:36 identifierTokenParser, returning the lexeme *)
Definition ident_p : p_fn string :=
  fun ts =>
    match ts with
    | KIdent s :: r => Ok (s, r)
    | _ => Err EParse
    end.

(** parser.go:51-58 computedUsersetParser *)
Definition cu_p : p_fn tree :=
  fun ts => let* x := ident_p ts in Ok (TRule (RCu (fst x)), snd x).

(** parser.go:61-68 thisParser *)
Definition this_p : p_fn tree :=
  fun ts => let* x := parse_if is_this ts in Ok (TRule RThis, snd x).

(** parser.go:71-88 tupleToUsersetParser *)
Definition ttu_p : p_fn tree :=
  fun ts =>
    let* a := ident_p ts in
    let* b := parse_if is_arrow (snd a) in
    let* c := ident_p (snd b) in
    Ok (TRule (RTtu (fst a) (fst c)), snd c).

(** parser.go:45 ruleParser *)
Definition rule_p : p_fn tree := first_p [this_p; ttu_p; cu_p].

(** parser.go:91-110 setOpParser *)
Definition set_op_p : p_fn operator :=
  fun ts =>
    match ts with
    | KUnion :: r => Ok (OpUnion, r)
    | KInter :: r => Ok (OpInter, r)
    | KDiff :: r => Ok (OpDiff, r)
    | _ => Err EParse
    end.

(** parser.go:113-126 opTermParser *)
Definition op_term_p (term : p_fn tree) : p_fn (operator * tree) :=
  fun ts =>
    let* o := set_op_p ts in
    let* t := term (snd o) in
    Ok ((fst o, fst t), snd t).

(** parser.go:152-169 subexprParser *)
Definition subexpr_p (expr : p_fn tree) : p_fn tree :=
  fun ts =>
    let* a := parse_if is_open ts in
    let* e := expr (snd a) in
    let* c := parse_if is_close (snd e) in
    Ok (fst e, snd c).

(** parser.go:171-174 termParser *)
Definition term_p (expr : p_fn tree) : p_fn tree := first_p [rule_p; subexpr_p expr].

(** parser.go:131-149 expressionParser.  [n] bounds the nesting depth of parentheses. *)
Fixpoint expr_p (n : nat) (ts : list tok) : res (tree * list tok) :=
  match n with
  | O => Fuel
  | S n' =>
      let* h := term_p (expr_p n') ts in
      let* ps := many_p (S (length (snd h))) (op_term_p (term_p (expr_p n'))) (snd h) in
      Ok (fold_left (fun acc q => TOp acc (fst q) (snd q)) (fst ps) (fst h), snd ps)
  end.

(** parser.go:42 skipEof *)
Fixpoint skip_eof (ts : list tok) : list tok :=
  match ts with
  | KEof :: r => skip_eof r
  | _ => ts
  end.

(** parser.go:13-34 Parse, from the collected tokens *)
Definition parse_tokens (ts : list tok) : res tree :=
  if is_error (last ts KEof) then Err EParse
  else
    let* x := expr_p (S (length ts)) ts in
    match skip_eof (snd x) with
    | [] => Ok (fst x)
    | _ => Err EParse
    end.

(** parser.go:13-34 Parse *)
Definition parse (E : env) (s : string) : res tree :=
  let* ts := lex E s in parse_tokens ts.

(** pkg/domain/relation_expression_tree.go:121-131 Operator.RelationExpression *)
Definition print_op (o : operator) : string :=
  match o with
  | OpUnion => "+"
  | OpInter => "&"
  | OpDiff => "-"
  | OpOther _ => ""
  end.

(** relation_expression_tree.go:106-117 Rule.RelationExpression *)
Definition print_rule (r : rule) : string :=
  match r with
  | RThis => "_this"
  | RCu t => t
  | RTtu a b => a +++ "->" +++ b
  | RUnset => ""
  end.

(** relation_expression_tree.go:91-102 RelationExpression *)
Fixpoint print_tree (t : tree) : res string :=
  match t with
  | TNil => Panic
  | TUnset => Ok ""
  | TRule r => Ok (print_rule r)
  | TOp l o r =>
      let* a := print_tree l in
      let* b := print_tree r in
      Ok ("(" +++ a +++ " " +++ print_op o +++ " " +++ b +++ ")")
  end.
