(** Lexer: internal/relation_expression_parser/lexer.go *)
From Verif Require Import Base.
Local Open Scope N_scope.

Notation "a +++ b" := (String.append a b) (at level 60, right associativity).

(** Unicode categories the lexer distinguishes. *)
Inductive rune_class := ClLetter | ClDigit | ClSpace | ClOther.

(** External functions the code depends on, arbitrary in every theorem:
    [sha] is sha256 (crypto/sha256), and [hi_class] is the class of a rune above U+00FF
    in the tables of the unicode package (the three categories are disjoint). *)
Record env := mkEnv {
  sha : string -> string;
  hi_class : N -> rune_class }.

Definition class_letter (c : rune_class) : bool := match c with ClLetter => true | _ => false end.
Definition class_digit (c : rune_class) : bool := match c with ClDigit => true | _ => false end.
Definition class_space (c : rune_class) : bool := match c with ClSpace => true | _ => false end.

Definition byte (a : ascii) : N := N_of_ascii a.

(** utf8.RuneError *)
Definition rune_error : N := 65533.

Definition between (lo hi x : N) : bool := (lo <=? x) && (x <=? hi).

(** Go's unicode.IsLetter: the Latin-1 table is concrete, U+FFFD is not a letter. *)
Definition is_letter (E : env) (r : N) : bool :=
  if r <=? 255 then
    between 65 90 r || between 97 122 r || (r =? 170) || (r =? 181) || (r =? 186)
    || between 192 214 r || between 216 246 r || between 248 255 r
  else if r =? rune_error then false else class_letter (hi_class E r).

(** Go's unicode.IsDigit *)
Definition is_digit (E : env) (r : N) : bool :=
  if r <=? 255 then between 48 57 r
  else if r =? rune_error then false else class_digit (hi_class E r).

(** Go's unicode.IsSpace *)
Definition is_space (E : env) (r : N) : bool :=
  if r <=? 255 then between 9 13 r || (r =? 32) || (r =? 133) || (r =? 160)
  else if r =? rune_error then false else class_space (hi_class E r).

(** lexer.go:21-24 isIdentifierRune *)
Definition is_ident_rune (E : env) (r : N) : bool :=
  is_letter E r || is_digit E r || (r =? 95).

(** utf8.DecodeRuneInString: length and range of the second byte for a leading byte. *)
Definition utf8_lead (b : N) : option (nat * N * N) :=
  if between 194 223 b then Some (2%nat, 128, 191)
  else if b =? 224 then Some (3%nat, 160, 191)
  else if between 225 236 b || between 238 239 b then Some (3%nat, 128, 191)
  else if b =? 237 then Some (3%nat, 128, 159)
  else if b =? 240 then Some (4%nat, 144, 191)
  else if between 241 243 b then Some (4%nat, 128, 191)
  else if b =? 244 then Some (4%nat, 128, 143)
  else None.

Definition is_cont (a : ascii) : bool := between 128 191 (byte a).

Definition one (a : ascii) : string := String a EmptyString.

(** lexer.go:62-68 peek: [None] is eof; otherwise the rune, its bytes and the rest of the input.
    Invalid UTF-8 decodes to RuneError with width 1. *)
Definition peek (s : string) : option (N * string * string) :=
  match s with
  | EmptyString => None
  | String a s1 =>
      let b0 := byte a in
      let bad := Some (rune_error, one a, s1) in
      if b0 <? 128 then Some (b0, one a, s1)
      else
        match utf8_lead b0 with
        | None => bad
        | Some (n, lo, hi) =>
            match s1 with
            | EmptyString => bad
            | String a1 s2 =>
                if negb (between lo hi (byte a1)) then bad
                else if Nat.eqb n 2 then
                  Some ((b0 - 192) * 64 + (byte a1 - 128), String a (one a1), s2)
                else
                  match s2 with
                  | EmptyString => bad
                  | String a2 s3 =>
                      if negb (is_cont a2) then bad
                      else if Nat.eqb n 3 then
                        Some ((b0 - 224) * 4096 + (byte a1 - 128) * 64 + (byte a2 - 128),
                              String a (String a1 (one a2)), s3)
                      else
                        match s3 with
                        | EmptyString => bad
                        | String a3 s4 =>
                            if negb (is_cont a3) then bad
                            else
                              Some ((b0 - 240) * 262144 + (byte a1 - 128) * 4096
                                    + (byte a2 - 128) * 64 + (byte a3 - 128),
                                    String a (String a1 (String a2 (one a3))), s4)
                        end
                  end
            end
        end
  end.

(** lexer.go:26-38 tokenType and token.  Positions are left out; lexemes are kept for identifiers,
    the only lexemes the parser reads. *)
Inductive tok :=
| KEof
| KIdent (s : string)
| KUnion
| KDiff
| KInter
| KOpen
| KClose
| KArrow
| KThis
| KError.

(** lexer.go:123-138 consumeString: rune by rune, no change on failure.
    The literals are ASCII, so a rune of the literal is one byte. *)
Fixpoint consume (lit s : string) : option string :=
  match lit with
  | EmptyString => Some s
  | String c lit' =>
      match peek s with
      | Some (r, _, s') => if r =? byte c then consume lit' s' else None
      | None => None
      end
  end.

(** lexer.go:112-117 stepWhile: bytes stepped over and remaining input.
    [n] bounds the number of runes; the length of the input is enough. *)
Fixpoint step_while (f : N -> bool) (n : nat) (s : string) : string * string :=
  match n with
  | O => (EmptyString, s)
  | S n' =>
      match peek s with
      | None => (EmptyString, s)
      | Some (r, c, s') =>
          if f r then let (x, y) := step_while f n' s' in (c +++ x, y)
          else (EmptyString, s)
      end
  end.

Definition span (f : N -> bool) (s : string) : string * string :=
  step_while f (String.length s) s.

(** lexer.go:170-183 the terminals in the order scan tries them;
    lexemes from pkg/domain/relation_expression_tree.go:133-141. *)
Definition terminals : list (string * tok) :=
  [("(", KOpen); (")", KClose); ("->", KArrow); ("+", KUnion); ("-", KDiff); ("&", KInter);
   ("_this", KThis)]%string.

Fixpoint lex_terminal (l : list (string * tok)) (s : string) : option (tok * string) :=
  match l with
  | [] => None
  | (lit, t) :: l' =>
      match consume lit s with
      | Some s' => Some (t, s')
      | None => lex_terminal l' s
      end
  end.

(** lexer.go:170-192 scan, and the tokens it emits (194-217), in order.
    [n] bounds the number of loop iterations. *)
Fixpoint scan (E : env) (n : nat) (s : string) : res (list tok) :=
  match n with
  | O => Fuel
  | S n' =>
      match lex_terminal terminals s with
      | Some (t, s') => let* ts := scan E n' s' in Ok (t :: ts)
      | None =>
          match span (is_ident_rune E) s with
          | (String a x, s') => let* ts := scan E n' s' in Ok (KIdent (String a x) :: ts)
          | (EmptyString, _) =>
              match peek s with
              | None => Ok [KEof]
              | Some (r, _, _) =>
                  if is_space E r then scan E n' (snd (span (is_space E) s))
                  else Ok [KError]
              end
          end
      end
  end.

(** lexer.go:219-222 Lex: all tokens put on the channel. *)
Definition lex (E : env) (s : string) : res (list tok) := scan E (S (String.length s)) s.
