(** MapGraph: pkg/types/map_graph.go *)
From Verif Require Import Base.

Section MapGraph.
  Context {T : Type}.

  (** map_graph.go:8-12.  The inner maps of forwardEdges and backwardEdges are flattened:
      a pair (a, b) is present when the inner map of [a] has the key [b]. *)
  Record map_graph := mkGraph {
    mg_nodes : list (string * T);
    mg_fwd : list ((string * string) * unit);
    mg_bwd : list ((string * string) * unit) }.

  (** map_graph.go:14-20 New *)
  Definition mg_new : map_graph := mkGraph [] [] [].

  (** map_graph.go:23-25 SetNode *)
  Definition mg_set_node (id : string) (x : T) (g : map_graph) : map_graph :=
    mkGraph (kv_set scmp id x (mg_nodes g)) (mg_fwd g) (mg_bwd g).

  (** map_graph.go:28-34 GetNode *)
  Definition mg_get_node (id : string) (g : map_graph) : option T := kv_get scmp id (mg_nodes g).

  (** map_graph.go:46-53 getNodesFromEdges: a missing node would be a zero value, shown as [None]. *)
  Definition mg_get_nodes (g : map_graph) (id : string) (es : list ((string * string) * unit))
      : list (string * option T) :=
    map (fun x => (snd (fst x), mg_get_node (snd (fst x)) g))
      (filter (fun x => String.eqb (fst (fst x)) id) es).

  (** map_graph.go:38-44 GetAncestors and 57-63 GetSucessors, with the ids of the nodes *)
  Definition mg_ancestors (id : string) (g : map_graph) := mg_get_nodes g id (mg_bwd g).
  Definition mg_successors (id : string) (g : map_graph) := mg_get_nodes g id (mg_fwd g).

  (** map_graph.go:67-93 SetEdge: [None] is the error *)
  Definition mg_set_edge (a b : string) (g : map_graph) : option map_graph :=
    match mg_get_node a g, mg_get_node b g with
    | Some _, Some _ =>
        Some (mkGraph (mg_nodes g) (kv_set pcmp (a, b) tt (mg_fwd g))
                (kv_set pcmp (b, a) tt (mg_bwd g)))
    | _, _ => None
    end.
End MapGraph.
Arguments map_graph T : clear implicits.
