(** Specification of the ways in which a search can come to a node. *)
From Verif Require Import Base Domain Lexer Store Search SpecGrammar SpecPolicy SpecStore SpecSearch.

(** The rule at a position of an expression ([true]: left operand). *)
Inductive rule_at : list bool -> rule -> tree -> Prop :=
| ra_here ru : rule_at [] ru (TRule ru)
| ra_left p ru l op r : rule_at p ru l -> rule_at (true :: p) ru (TOp l op r)
| ra_right p ru l op r : rule_at p ru r -> rule_at (false :: p) ru (TOp l op r).

Section Ways.
  Variable E : env.
  Variable P : policy.
  Variable succ : entity -> string -> subject -> Prop.

  (** The rule leads to the node by a relationship with the given subject, or without a relationship. *)
  Inductive yields_by : rule -> entity -> string -> option subject -> rnode -> Prop :=
  | yb_this o rel u : succ o rel u -> yields_by RThis o rel (Some u) (subject_node u)
  | yb_cu o rel c : yields_by (RCu c) o rel None (NSet (Some o) c)
  | yb_ttu o rel ts cu u : succ o ts u -> yields_by (RTtu ts cu) o rel (Some u) (NSet (subject_object u) cu).

  (** A way to a node: the positions and subjects along it. *)
  Inductive way (origin : rnode) : list (list bool * option subject) -> rnode -> Prop :=
  | wy_here : way origin [] origin
  | wy_step w o rel t p ru u n : way origin w (NSet (Some o) rel) -> rewrites E P o rel t -> rule_at p ru t ->
      yields_by ru o rel u n -> way origin (w ++ [(p, u)]) n.

  (** There is at most one way to every node. *)
  Definition single_ways (origin : rnode) : Prop :=
    forall w w' n, way origin w n -> way origin w' n -> w = w'.

  (** [M] satisfies the equations of the policy for all relations below [origin]. *)
  Definition solution_below (a : entity) (origin : rnode) (M : entity -> string -> Prop) : Prop :=
    forall o rel, reach E P succ origin (NSet (Some o) rel) ->
      (M o rel <-> exists t, rewrites E P o rel t /\ eval succ a M o rel t).
End Ways.
