(** Specification of the graphs of pkg/types/graph.go. *)
From Verif Require Import Base Explain DiGraph SpecDot.

(** Calls on a graph; [DSend] stands for encoding it and decoding it elsewhere. *)
Inductive di_op :=
| DNode (n : option gnode)
| DEdge (e : option gedge)
| DSend.

Definition di_step (g : digraph) (o : di_op) : res digraph :=
  match o with
  | DNode n => dg_add_node n g
  | DEdge e => dg_add_edge e g
  | DSend => Ok (dg_send g)
  end.

(** The calls in this order, on a given and on a new graph. *)
Fixpoint di_run (g : digraph) (ops : list di_op) : res digraph :=
  match ops with
  | [] => Ok g
  | o :: ops' => let* g' := di_step g o in di_run g' ops'
  end.
Definition di_after (ops : list di_op) : res digraph := di_run dg_new ops.

(** The node added last with an id, the edge added last between two ids. *)
Definition last_node (ops : list di_op) (id : string) (n : gnode) : Prop :=
  gn_id n = id /\ exists before after, ops = before ++ DNode (Some n) :: after /\
    forall n', In (DNode (Some n')) after -> gn_id n' <> id.
Definition last_edge (ops : list di_op) (a b : string) (e : gedge) : Prop :=
  ge_source e = a /\ ge_dest e = b /\ exists before after, ops = before ++ DEdge (Some e) :: after /\
    forall e', In (DEdge (Some e')) after -> ge_source e' <> a \/ ge_dest e' <> b.

(** All messages are given. *)
Definition given (o : di_op) : Prop := o <> DNode None /\ o <> DEdge None.

(** Ids that survive [map_id]: a backslash is followed by a character that is not a quote. *)
Inductive slashed : string -> Prop :=
| sl_end : slashed ""
| sl_char c s : c <> backslash -> slashed s -> slashed (String c s)
| sl_pair c s : c <> dquote -> slashed s -> slashed (String backslash (String c s)).
