(** Specification of policies that say the same. *)
From Verif Require Import Base Domain Lexer Search SpecGrammar SpecPolicy SpecSearch.

(** The relations of the two policies combine the same rules. *)
Definition same_rules (E : env) (P P' : policy) : Prop :=
  forall o rel ru, (exists t, rewrites E P o rel t /\ occurs ru t) <-> (exists t, rewrites E P' o rel t /\ occurs ru t).

(** The same expression up to the order of the operands of unions and intersections. *)
Inductive reordered : tree -> tree -> Prop :=
| ro_rule r : reordered (TRule r) (TRule r)
| ro_keep l l' op r r' : reordered l l' -> reordered r r' -> reordered (TOp l op r) (TOp l' op r')
| ro_swap l l' op r r' : op = OpUnion \/ op = OpInter -> reordered l l' -> reordered r r' -> reordered (TOp l op r) (TOp r' op l').

(** The policies declare the same relations with reordered expressions. *)
Definition reordered_policy (E : env) (P P' : policy) : Prop :=
  (forall o rel t, rewrites E P o rel t -> exists t', rewrites E P' o rel t' /\ reordered t t') /\
  (forall o rel t', rewrites E P' o rel t' -> exists t, rewrites E P o rel t /\ reordered t t').
