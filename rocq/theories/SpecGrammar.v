(** Specification of the relation expression language, independent of the lexer and the parser.
    It follows docs/relation-expression.md. *)
From Verif Require Import Base Domain Lexer.

(** ** UTF-8 encoding of a rune *)

Definition chr (n : N) : string := String (ascii_of_N n) EmptyString.

Definition encode (r : N) : string :=
  (if r <? 128 then chr r
   else if r <? 2048 then chr (192 + r / 64) +++ chr (128 + r mod 64)
   else if r <? 65536 then
     chr (224 + r / 4096) +++ chr (128 + (r / 64) mod 64) +++ chr (128 + r mod 64)
   else
     chr (240 + r / 262144) +++ chr (128 + (r / 4096) mod 64) +++ chr (128 + (r / 64) mod 64)
       +++ chr (128 + r mod 64))%N.

Fixpoint encode_all (rs : list N) : string :=
  match rs with [] => "" | r :: rs' => encode r +++ encode_all rs' end.

(** Unicode scalar values *)
Definition scalar (r : N) : Prop := (r < 55296 \/ (57344 <= r /\ r < 1114112))%N.

(** ** Characters from U+0080 to U+00FF *)

(** General categories of Unicode. *)
Inductive category := Cc | Cf | Ll | Lo | Lu | No | Pd | Pf | Pi | Po | Sc | Sk | Sm | So | Zs.

(** UnicodeData.txt, U+0080 to U+00FF. *)
Definition latin1_categories : list category :=
  [Cc; Cc; Cc; Cc; Cc; Cc; Cc; Cc; Cc; Cc; Cc; Cc; Cc; Cc; Cc; Cc;
   Cc; Cc; Cc; Cc; Cc; Cc; Cc; Cc; Cc; Cc; Cc; Cc; Cc; Cc; Cc; Cc;
   Zs; Po; Sc; Sc; Sc; Sc; So; Po; Sk; So; Lo; Pi; Sm; Cf; So; Sk;
   So; Sm; No; No; Sk; Ll; Po; Po; Sk; No; Lo; Pf; No; No; No; Po;
   Lu; Lu; Lu; Lu; Lu; Lu; Lu; Lu; Lu; Lu; Lu; Lu; Lu; Lu; Lu; Lu;
   Lu; Lu; Lu; Lu; Lu; Lu; Lu; Sm; Lu; Lu; Lu; Lu; Lu; Lu; Lu; Ll;
   Ll; Ll; Ll; Ll; Ll; Ll; Ll; Ll; Ll; Ll; Ll; Ll; Ll; Ll; Ll; Ll;
   Ll; Ll; Ll; Ll; Ll; Ll; Ll; Sm; Ll; Ll; Ll; Ll; Ll; Ll; Ll; Ll].

Definition latin1_letter (r : N) : Prop :=
  exists c, nth_error latin1_categories (N.to_nat r - 128) = Some c /\ (c = Ll \/ c = Lo \/ c = Lu).

(** The property White_Space: U+0085 and U+00A0. *)
Definition latin1_space (r : N) : Prop := (r = 133 \/ r = 160)%N.

(** ** Words *)

(** White space: a sequence of space runes. *)
Definition white (E : env) (w : string) : Prop :=
  exists rs, w = encode_all rs /\ Forall (fun r => scalar r /\ is_space E r = true) rs.

(** A name: one or more letters, digits or underscores. *)
Definition name (E : env) (w : string) : Prop :=
  exists rs, w = encode_all rs /\ rs <> [] /\
             Forall (fun r => scalar r /\ is_ident_rune E r = true) rs.

(** [s] does not continue a name. *)
Definition no_name_here (E : env) (s : string) : Prop :=
  forall r s', scalar r -> is_ident_rune E r = true -> s <> encode r +++ s'.

(** ** Tokens of an expression *)
Inductive tokenizes (E : env) : string -> list tok -> Prop :=
| tz_end : tokenizes E "" []
| tz_space r s ts :
    scalar r -> is_space E r = true -> tokenizes E s ts -> tokenizes E (encode r +++ s) ts
| tz_open s ts : tokenizes E s ts -> tokenizes E ("(" +++ s) (KOpen :: ts)
| tz_close s ts : tokenizes E s ts -> tokenizes E (")" +++ s) (KClose :: ts)
| tz_arrow s ts : tokenizes E s ts -> tokenizes E ("->" +++ s) (KArrow :: ts)
| tz_union s ts : tokenizes E s ts -> tokenizes E ("+" +++ s) (KUnion :: ts)
| tz_inter s ts : tokenizes E s ts -> tokenizes E ("&" +++ s) (KInter :: ts)
| tz_diff s ts :
    (forall s', s <> ">" +++ s') -> tokenizes E s ts -> tokenizes E ("-" +++ s) (KDiff :: ts)
| tz_this s ts : tokenizes E s ts -> tokenizes E ("_this" +++ s) (KThis :: ts)
| tz_name w s ts :
    name E w -> prefix "_this" w = false -> no_name_here E s ->
    tokenizes E s ts -> tokenizes E (w +++ s) (KIdent w :: ts).

(** ** Grammar

    expr ::= term | expr op term
    term ::= _this | name | name -> name | ( expr )
    op   ::= + | & | -  *)
Inductive op_token : operator -> tok -> Prop :=
| op_union : op_token OpUnion KUnion
| op_inter : op_token OpInter KInter
| op_diff : op_token OpDiff KDiff.

Inductive g_expr : tree -> list tok -> Prop :=
| ge_term t ts : g_term t ts -> g_expr t ts
| ge_op l o k r ts1 ts2 :
    g_expr l ts1 -> op_token o k -> g_term r ts2 -> g_expr (TOp l o r) (ts1 ++ k :: ts2)
with g_term : tree -> list tok -> Prop :=
| gt_this : g_term (TRule RThis) [KThis]
| gt_cu n : g_term (TRule (RCu n)) [KIdent n]
| gt_ttu a b : g_term (TRule (RTtu a b)) [KIdent a; KArrow; KIdent b]
| gt_group t ts : g_expr t ts -> g_term t (KOpen :: ts ++ [KClose]).

(** The expression [s] denotes the tree [t]. *)
Definition denotes (E : env) (s : string) (t : tree) : Prop :=
  exists ts, tokenizes E s ts /\ g_expr t ts.

(** Names that the language can refer to: names that do not begin with the keyword. *)
Definition usable_name (E : env) (w : string) : Prop := name E w /\ prefix "_this" w = false.

(** Trees that can be written down: built from rules over usable names and the three operators. *)
Fixpoint writable (E : env) (t : tree) : Prop :=
  match t with
  | TRule RThis => True
  | TRule (RCu n) => usable_name E n
  | TRule (RTtu a b) => usable_name E a /\ usable_name E b
  | TOp l o r => (o = OpUnion \/ o = OpInter \/ o = OpDiff) /\ writable E l /\ writable E r
  | TRule RUnset | TNil | TUnset => False
  end.

(** [s] is a single term: a rule or a parenthesised expression. *)
Definition is_term (E : env) (s : string) (t : tree) : Prop :=
  exists ts, tokenizes E s ts /\ g_term t ts.

Definition op_text (o : operator) : string :=
  match o with OpUnion => "+" | OpInter => "&" | OpDiff => "-" | OpOther _ => "?" end.

(** The text [s op1 x1 op2 x2 ...] and the tree that groups it to the left. *)
Definition chain_text (s : string) (l : list (operator * (string * tree))) : string :=
  fold_left (fun acc q => acc +++ " " +++ op_text (fst q) +++ " " +++ fst (snd q)) l s.

Definition chain_tree (t : tree) (l : list (operator * (string * tree))) : tree :=
  fold_left (fun acc q => TOp acc (fst q) (snd (snd q))) l t.
