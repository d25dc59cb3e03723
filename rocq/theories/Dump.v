(** Dump: internal/relation_graph/walker.go and relation_tree_serializer.go *)
From Verif Require Import Base Domain Lexer Parser Validate Store Search Explain Service.

(** walker.go:24-64: the map of trees, keyed by node id. A tree object holds its node and the ids of
    its children, in the order they were appended. *)
Definition forest := list (string * (rnode * list string)).

(** walker.go:55-64 getTree: creates the tree of a node that is not in the map. *)
Definition get_tree (id : string) (n : rnode) (f : forest) : forest :=
  match kv_get scmp id f with
  | Some _ => f
  | None => kv_set scmp id (n, []) f
  end.

Definition append_child (pid cid : string) (f : forest) : forest :=
  match kv_get scmp pid f with
  | Some (n, cs) => kv_set scmp pid (n, cs ++ [cid]) f
  | None => f
  end.

(** walker.go:37-42 the second loop: builds trees and removes children from the orphans. *)
Fixpoint walk_edges (E : env) (es : list (rnode * rnode)) (f : forest) (orphans : list (string * unit))
    : res (forest * list (string * unit)) :=
  match es with
  | [] => Ok (f, orphans)
  | (a, b) :: es' =>
      let* ia := node_id E a in
      let* ib := node_id E b in
      let f1 := get_tree ib b (get_tree ia a f) in
      walk_edges E es' (append_child ia ib f1) (kv_del scmp ib orphans)
  end.

(** walker.go:33-35 the first loop: every source is an orphan candidate. *)
Fixpoint orphan_candidates (E : env) (es : list (rnode * rnode)) (orphans : list (string * unit))
    : res (list (string * unit)) :=
  match es with
  | [] => Ok orphans
  | (a, _) :: es' =>
      let* ia := node_id E a in
      orphan_candidates E es' (kv_set scmp ia tt orphans)
  end.

(** walker.go:24-53 Walk: the trees and the ids of the roots.  Go ranges over the orphans in random
    order; the model lists them in key order (the theorems are about sets of nodes and edges). *)
Definition walk (E : env) (es : list (rnode * rnode)) : res (forest * list string) :=
  let* os := orphan_candidates E es [] in
  let* x := walk_edges E es [] os in
  Ok (fst x, map fst (snd x)).

(** Statements added to the DOT graph.  [None] is the artificial root node (nil). *)
Inductive dot_stmt :=
| DotNode (id : option string) (n : option rnode)
| DotEdge (src dst : option string).

(** relation_tree_serializer.go:63-68 nodeLabel.  A node whose label panics has no identity either, and
    handleNode asks for the identity first. *)
Definition dump_label (n : option rnode) : res string :=
  match n with
  | None => Ok (wrap_quotes "root")
  | Some n => let* p := pretty n in Ok (wrap_quotes p)
  end.

(** relation_tree_serializer.go:27-54 handleNode on a node of the forest: no visited set.
    [n] bounds the recursion depth. *)
Fixpoint handle_node (n : nat) (f : forest) (parent : option string) (id : string)
    : res (list dot_stmt) :=
  match n with
  | O => Fuel
  | S n' =>
      match kv_get scmp id f with
      | None => Panic
      | Some (nd, cs) =>
          let* rest := map_res (handle_node n' f (Some id)) cs in
          Ok (DotNode (Some id) (Some nd) :: DotEdge parent (Some id) :: concat rest)
      end
  end.

(** relation_tree_serializer.go:14-25 Serialize on the root tree *)
Definition dump_dot (n : nat) (x : forest * list string) : res (list dot_stmt) :=
  let* rest := map_res (handle_node n (fst x) None) (snd x) in
  Ok (DotNode None None :: concat rest).

(** relation_graph/service.go:178-211 DumpRelationships; the format is [true] for DOT.
    The walk happens before the format is looked at. *)
Definition dump_relationships (E : env) (n : nat) (pid : string) (is_dot : bool)
    : prog (res (list dot_stmt)) :=
  pbind (repo_get_policy pid) (fun record =>
    match record with
    | None => Ret (Err EPolicyNotFound)
    | Some _ =>
        EdgeList pid (fun es =>
          lift (let* x := walk E (list_edges es) in
                if is_dot then dump_dot n x else Err EInvalidVariant))
    end).
