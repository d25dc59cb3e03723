(** The work of the parser: internal/relation_expression_parser/parser.go and primitives.go, with the tokens that are
    looked at and the error messages that are built. *)
From Verif Require Import Base Domain Lexer Parser.

(** A token parser looks at the first token (primitives.go:13-19, 68-79); buildErr writes a message that shows all tokens
    it is given (primitives.go:21-24), here counted.  The errors of [unit] show none and are left out. *)
Inductive effort := Look | Message (tokens : nat).

Definition worked (T : Type) := (res (T * list tok) * list effort)%type.
Definition w_fn (T : Type) := list tok -> worked T.

Definition then_w {A B} (x : worked A) (f : A -> list tok -> worked B) : worked B :=
  match fst x with
  | Ok (a, r) => (fst (f a r), snd x ++ snd (f a r))
  | Err e => (Err e, snd x)
  | Panic => (Panic, snd x)
  | Fuel => (Fuel, snd x)
  end.

(** An error is answered with a message of its own, which shows the tokens [ts]. *)
Definition or_message {A} (ts : list tok) (x : worked A) : worked A :=
  match fst x with
  | Err e => (Err e, snd x ++ [Message (length ts)])
  | _ => x
  end.

Definition done_w {A} (a : A) (r : list tok) : worked A := (Ok (a, r), []).

(** primitives.go:68-79 parseIf *)
Definition parse_if_w (f : tok -> bool) : w_fn tok :=
  fun ts =>
    match ts with
    | [] => (Err EParse, [Look])
    | t :: r => if f t then (Ok (t, r), [Look]) else (Err EParse, [Look; Message (length ts)])
    end.

(** parser.go:36 identifierTokenParser *)
Definition ident_w : w_fn string :=
  fun ts =>
    match ts with
    | [] => (Err EParse, [Look])
    | KIdent s :: r => (Ok (s, r), [Look])
    | _ => (Err EParse, [Look; Message (length ts)])
    end.

(** parser.go:51-68 computedUsersetParser, thisParser: the error of the token parser is passed on. *)
Definition cu_w : w_fn tree := fun ts => then_w (ident_w ts) (fun s r => done_w (TRule (RCu s)) r).
Definition this_w : w_fn tree := fun ts => then_w (parse_if_w is_this ts) (fun _ r => done_w (TRule RThis) r).

(** parser.go:71-88 tupleToUsersetParser *)
Definition ttu_w : w_fn tree :=
  fun ts => or_message ts
    (then_w (ident_w ts) (fun a r =>
     then_w (parse_if_w is_arrow r) (fun _ r =>
     then_w (ident_w r) (fun c r => done_w (TRule (RTtu a c)) r)))).

(** primitives.go:50-66 first *)
Fixpoint try_w {T} (ps : list (w_fn T)) (ts : list tok) : worked T :=
  match ps with
  | [] => (Err EParse, [Message (length ts)])
  | p :: ps' =>
      match fst (p ts) with
      | Err _ => (fst (try_w ps' ts), snd (p ts) ++ snd (try_w ps' ts))
      | _ => p ts
      end
  end.

Definition first_w {T} (ps : list (w_fn T)) : w_fn T :=
  fun ts => match ts with [] => (Err EParse, [Message 0]) | _ => try_w ps ts end.

(** parser.go:45 ruleParser *)
Definition rule_w : w_fn tree := first_w [this_w; ttu_w; cu_w].

(** parser.go:91-110 setOpParser *)
Definition set_op_w : w_fn operator :=
  fun ts =>
    match ts with
    | [] => (Err EParse, [Look])
    | KUnion :: r => (Ok (OpUnion, r), [Look])
    | KInter :: r => (Ok (OpInter, r), [Look])
    | KDiff :: r => (Ok (OpDiff, r), [Look])
    | _ => (Err EParse, [Look; Message (length ts)])
    end.

(** parser.go:113-126 opTermParser *)
Definition op_term_w (term : w_fn tree) : w_fn (operator * tree) :=
  fun ts => or_message ts (then_w (set_op_w ts) (fun o r => then_w (term r) (fun t r => done_w (o, t) r))).

(** primitives.go:36-45, the loop of many *)
Fixpoint loop_w {T} (n : nat) (p : w_fn T) (ts : list tok) : worked (list T) :=
  match n with
  | O => (Fuel, [])
  | S n' =>
      match fst (p ts) with
      | Ok (x, r) => (fst (then_w (loop_w n' p r) (fun l r => done_w (x :: l) r)), snd (p ts) ++ snd (loop_w n' p r))
      | Err _ => (Ok ([], ts), snd (p ts))
      | Panic => (Panic, snd (p ts))
      | Fuel => (Fuel, snd (p ts))
      end
  end.

(** primitives.go:30-47 many: nothing is tried on no tokens. *)
Definition many_w {T} (n : nat) (p : w_fn T) : w_fn (list T) :=
  fun ts => match ts with [] => done_w [] [] | _ => loop_w n p ts end.

(** parser.go:152-169 subexprParser *)
Definition subexpr_w (expr : w_fn tree) : w_fn tree :=
  fun ts => or_message ts
    (then_w (parse_if_w is_open ts) (fun _ r =>
     then_w (expr r) (fun e r =>
     then_w (parse_if_w is_close r) (fun _ r => done_w e r)))).

(** parser.go:171-174 termParser *)
Definition term_w (expr : w_fn tree) : w_fn tree := first_w [rule_w; subexpr_w expr].

(** parser.go:131-149 expressionParser *)
Fixpoint expr_w (n : nat) (ts : list tok) : worked tree :=
  match n with
  | O => (Fuel, [])
  | S n' =>
      then_w (or_message ts (term_w (expr_w n') ts)) (fun h r =>
      then_w (many_w (S (length r)) (op_term_w (term_w (expr_w n'))) r) (fun ps r =>
      done_w (fold_left (fun acc q => TOp acc (fst q) (snd q)) ps h) r))
  end.

(** parser.go:42 skipEof *)
Definition skip_eof_w (ts : list tok) : list effort := snd (many_w (S (length ts)) (parse_if_w is_eof) ts).

(** parser.go:13-34 Parse, from the collected tokens.  (The message for leftover tokens shows them.) *)
Definition parse_tokens_w (ts : list tok) : res tree * list effort :=
  if is_error (last ts KEof) then (Err EParse, [])
  else
    match expr_w (S (length ts)) ts with
    | (Ok (t, r), w) =>
        match skip_eof r with
        | [] => (Ok t, w ++ skip_eof_w r)
        | r' => (Err EParse, w ++ skip_eof_w r ++ [Message (length r')])
        end
    | (Err e, w) => (Err e, w)
    | (Panic, w) => (Panic, w)
    | (Fuel, w) => (Fuel, w)
    end.

(** parser.go:13-34 Parse.  The work of the lexer is not counted. *)
Definition parse_w (E : env) (s : string) : res tree * list effort :=
  match lex E s with
  | Ok ts => parse_tokens_w ts
  | Err e => (Err e, [])
  | Panic => (Panic, [])
  | Fuel => (Fuel, [])
  end.
