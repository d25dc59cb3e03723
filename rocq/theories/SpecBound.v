(** Specification of what authorisations are bounded by, for policies with all three operators. *)
From Verif Require Import Base Domain Lexer Store Search SpecGrammar SpecPolicy SpecStore SpecSearch.

(** The expression with every [x - y] replaced by [x]. *)
Fixpoint unsubtracted (t : tree) : tree :=
  match t with
  | TOp l OpDiff _ => unsubtracted l
  | TOp l op r => TOp (unsubtracted l) op (unsubtracted r)
  | TRule _ | TNil | TUnset => t
  end.

(** Moreover every [x & y] is replaced by an expression that holds nobody. *)
Fixpoint unions_of (t : tree) : tree :=
  match t with
  | TOp l OpDiff _ => unions_of l
  | TOp _ OpInter _ => TUnset
  | TOp l op r => TOp (unions_of l) op (unions_of r)
  | TRule _ | TNil | TUnset => t
  end.

(** Membership in the policy whose expressions are changed by [f]: the least set closed under the changed expressions. *)
Definition member_of (f : tree -> tree) (E : env) (P : policy) (succ : entity -> string -> subject -> Prop)
    (a o : entity) (rel : string) : Prop :=
  forall M : entity -> string -> Prop,
    (forall o' rel' t, rewrites E P o' rel' t -> eval succ a M o' rel' (f t) -> M o' rel') -> M o rel.

(** No relationship names all entities of the resource [rs]. *)
Definition names_one_by_one (rels : list relationship) (rs : string) : Prop :=
  forall x, In x rels -> r_subject x <> Some (SResourceSet rs).

(** Every other relation below [rel] of [o] is a union of rules. *)
Definition unions_below (E : env) (P : policy) (succ : entity -> string -> subject -> Prop) (o : entity) (rel : string) : Prop :=
  forall o' rel' t op, reach E P succ (NSet (Some o) rel) (NSet (Some o') rel') -> NSet (Some o') rel' <> NSet (Some o) rel ->
    rewrites E P o' rel' t -> uses op t -> op = OpUnion.
