(** Specification of the paths of a relationship graph. *)
From Verif Require Import Base Domain Lexer Validate Store Search Service Dump Api SpecStore SpecDump.

(** Nonempty sequences of nodes, each pointing to the next one. *)
Inductive path (R : string -> string -> Prop) : list string -> Prop :=
| pa_one a : path R [a]
| pa_step a b p : R a b -> path R (b :: p) -> path R (a :: b :: p).

Definition from_top (R : string -> string -> Prop) (p : list string) : Prop :=
  path R p /\ exists a q, p = a :: q /\ top R a.

(** Different relationships have different ends. *)
Definition distinct_ends (E : env) (s : store) (pid : string) : Prop :=
  forall r r', In r (relationships s pid) -> In r' (relationships s pid) ->
    node_id E (source_node r) = node_id E (source_node r') -> node_id E (target_node r) = node_id E (target_node r') -> r = r'.
