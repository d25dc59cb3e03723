(** Specification of the dumped relationship graph. *)
From Verif Require Import Base Domain Lexer Validate Store Search Service Dump Api SpecStore.

(** The two ends of a relationship. *)
Definition source_node (r : relationship) : rnode := NSet (r_object r) (r_relation r).
Definition target_node (r : relationship) : rnode :=
  match r_subject r with
  | Some (SEntity e) => NEntity (Some e)
  | Some (SEntitySet o rel) => NSet o rel
  | Some (SResourceSet rs) => NWild rs
  | Some SUnset | None => NUnset
  end.

(** [a] and [b] identify the ends of a relationship of the policy. *)
Definition points (E : env) (s : store) (pid : string) (a b : string) : Prop :=
  exists r, In r (relationships s pid) /\ node_id E (source_node r) = Ok a /\ node_id E (target_node r) = Ok b.

(** One or more steps. *)
Inductive leads (R : string -> string -> Prop) : string -> string -> Prop :=
| le_one a b : R a b -> leads R a b
| le_step a b c : R a b -> leads R b c -> leads R a c.

Definition acyclic (R : string -> string -> Prop) : Prop := forall a, ~ leads R a a.

(** A node without relationships to it. *)
Definition top (R : string -> string -> Prop) (a : string) : Prop := (exists b, R a b) /\ forall b, ~ R b a.

(** The graph shows the relation: its edges, the ends of its edges, and an artificial root above the top nodes. *)
Record shows (R : string -> string -> Prop) (l : list dot_stmt) : Prop := {
  sh_edges : forall a b, In (DotEdge (Some a) (Some b)) l <-> R a b;
  sh_root : forall b, In (DotEdge None (Some b)) l <-> top R b;
  sh_other : forall x, ~ In (DotEdge x None) l;
  sh_nodes : forall a, (exists nd, In (DotNode (Some a) nd) l) <-> exists b, R a b \/ R b a }.

(** Labels belong to the nodes. *)
Definition labelled (E : env) (s : store) (pid : string) (l : list dot_stmt) : Prop :=
  forall a nd, In (DotNode a nd) l ->
    (a = None /\ nd = None) \/
    exists r x, In r (relationships s pid) /\ nd = Some x /\ (x = source_node r \/ x = target_node r) /\
      exists i, a = Some i /\ node_id E x = Ok i.

(** A top node, or a node that relationships from a top node lead to. *)
Definition under_top (R : string -> string -> Prop) (a : string) : Prop :=
  exists t, top R t /\ (t = a \/ leads R t a).

(** The graph shows what is under the top nodes, and nothing else. *)
Record shows_tops (R : string -> string -> Prop) (l : list dot_stmt) : Prop := {
  st_edges : forall a b, In (DotEdge (Some a) (Some b)) l <-> R a b /\ under_top R a;
  st_root : forall b, In (DotEdge None (Some b)) l <-> top R b;
  st_other : forall x, ~ In (DotEdge x None) l;
  st_nodes : forall a, (exists nd, In (DotNode (Some a) nd) l) <-> under_top R a }.
