(** Specification of what Expand lists. *)
From Verif Require Import Base Domain Lexer Store Search SpecGrammar SpecPolicy SpecStore SpecSearch.

(** The rule occurs outside the right operands of intersections. *)
Inductive tried (ru : rule) : tree -> Prop :=
| td_here : tried ru (TRule ru)
| td_left l op r : tried ru l -> tried ru (TOp l op r)
| td_right l op r : op <> OpInter -> tried ru r -> tried ru (TOp l op r).

Section Unfolding.
  Variable E : env.
  Variable P : policy.
  Variable succ : entity -> string -> subject -> Prop.

  Inductive unfolds (origin : rnode) : rnode -> Prop :=
  | un_here : unfolds origin origin
  | un_step o rel t ru n : unfolds origin (NSet (Some o) rel) -> rewrites E P o rel t -> tried ru t -> yields succ ru o rel n ->
      unfolds origin n.
End Unfolding.

(** The tree lists the entity, or all entities of its resource. *)
Definition lists (t : gtree) (a : entity) : Prop :=
  In (NEntity (Some a)) (evaluated t) \/ In (NWild (e_res a)) (evaluated t).
