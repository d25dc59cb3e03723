(** Specification of the work of a request. *)
From Verif Require Import Base Domain Lexer Store Search Explain Yaml Service Dump Api SpecPolicy SpecSearch SpecConc.

(** The number of operations on the store that request [i] performs in a schedule. *)
Definition operations (E : env) (qs : list request) (s : store) (sched : list nat) (i : nat) : nat :=
  length (filter (fun k => match nth_error sched k, answered (interleave (firstn k sched) (start E qs s)) i with
                           | Some j, None => Nat.eqb j i
                           | _, _ => false end)
                 (seq 0 (length sched))).

(** The rules of an expression that consult relationships. *)
Fixpoint lookups (t : tree) : nat :=
  match t with
  | TRule RThis | TRule (RTtu _ _) => 1
  | TRule (RCu _) | TRule RUnset | TNil | TUnset => 0
  | TOp l _ r => lookups l + lookups r
  end.

(** [cost] bounds the lookups of the expression of each node. *)
Definition costs (E : env) (P : policy) (cost : rnode -> nat) : Prop :=
  forall o rel t, rewrites E P o rel t -> lookups t <= cost (NSet (Some o) rel).

Definition total (cost : rnode -> nat) (nodes : list rnode) : nat := list_sum (map cost nodes).

(** The requests that search, with their policy and the node they start from. *)
Definition search_from (q : request) : option (string * rnode) :=
  match q with
  | QCheck _ pid (Some a) | QExplainCheck _ pid (Some a) _ => Some (pid, NSet (a_object a) (a_relation a))
  | QExpand _ pid (Some nd) _ => Some (pid, nd)
  | _ => None
  end.

(** The lookups of all expressions of a resource. *)
Definition resource_lookups (E : env) (r : resource) (n : nat) : Prop :=
  exists ts, Forall2 (expression E) (rs_relations r) ts /\ n = list_sum (map lookups ts).

(** The request is answered when it has performed [k] operations and no other request is served. *)
Definition answered_within (E : env) (q : request) (s : store) (k : nat) : Prop :=
  answered (interleave (repeat 0 k) (start E [q] s)) 0 <> None.
