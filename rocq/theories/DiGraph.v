(** DiGraph: pkg/types/graph.go.  No code of the server uses it; it is part of the public package. *)
From Verif Require Import Base Explain.

(** types/graph.pb.go:23-31, 86-93 GraphEdge and GraphNode *)
Record gnode := mkGNode { gn_id : string; gn_data : string }.
Record gedge := mkGEdge { ge_source : string; ge_dest : string; ge_label : string }.

(** types/graph.pb.go:142-148 EdgeMap, 191-199 MapDiGraph.  [None] is a nil map.  The inner maps are never nil: AddEdge makes
    them and puts an edge into them. *)
Definition edge_map := list (string * gedge).
Record digraph := mkDi {
  dg_nodes : option (list (string * gnode));
  dg_fwd : option (list (string * edge_map));
  dg_back : option (list (string * edge_map)) }.

(** graph.go:9-15 NewMapDiGraph *)
Definition dg_new : digraph := mkDi (Some []) (Some []) (Some []).

(** graph.go:17-19 AddNode: a nil node or a nil map panics. *)
Definition dg_add_node (n : option gnode) (g : digraph) : res digraph :=
  match n with
  | None => Panic
  | Some n =>
      match dg_nodes g with
      | None => Panic
      | Some m => Ok (mkDi (Some (kv_set scmp (gn_id n) n m)) (dg_fwd g) (dg_back g))
      end
  end.

(** graph.go:22-34, 36-37 the two steps for one direction: the inner map is made when it is missing, which panics on a nil
    map; then the edge is put into it. *)
Definition dg_index (key other : string) (e : gedge) (m : option (list (string * edge_map)))
    : res (option (list (string * edge_map))) :=
  match m with
  | None => Panic
  | Some m =>
      let inner := match kv_get scmp key m with Some x => x | None => [] end in
      Ok (Some (kv_set scmp key (kv_set scmp other e inner) m))
  end.

(** graph.go:21-38 AddEdge: a nil edge panics. *)
Definition dg_add_edge (e : option gedge) (g : digraph) : res digraph :=
  match e with
  | None => Panic
  | Some e =>
      let* f := dg_index (ge_source e) (ge_dest e) e (dg_fwd g) in
      let* b := dg_index (ge_dest e) (ge_source e) e (dg_back g) in
      Ok (mkDi (dg_nodes g) f b)
  end.

(** Reading a map: a nil map is empty. *)
Definition entries {A} (m : option (list (string * A))) : list (string * A) := match m with Some m => m | None => [] end.

(** graph.go:40-46 GetNode *)
Definition dg_get_node (id : string) (g : digraph) : option gnode := kv_get scmp id (entries (dg_nodes g)).

(** Reading the exported maps: the edge from [a] to [b] as filed under its source and under its destination. *)
Definition dg_forward (a b : string) (g : digraph) : option gedge :=
  match kv_get scmp a (entries (dg_fwd g)) with Some m => kv_get scmp b m | None => None end.
Definition dg_backward (a b : string) (g : digraph) : option gedge :=
  match kv_get scmp b (entries (dg_back g)) with Some m => kv_get scmp a m | None => None end.

(** The graph as a message that was encoded and decoded: protobuf does not write a map without entries, and decoding leaves
    a field that was not written nil. *)
Definition sent {A} (m : option (list (string * A))) : option (list (string * A)) :=
  match m with Some (x :: m) => Some (x :: m) | _ => None end.
Definition dg_send (g : digraph) : digraph := mkDi (sent (dg_nodes g)) (sent (dg_fwd g)) (sent (dg_back g)).

(** graph.go:70-73 mapId: strings.ReplaceAll of every quote, then wrap (75-77) *)
Fixpoint escape (s : string) : string :=
  match s with
  | EmptyString => ""
  | String c s' =>
      if Ascii.eqb c """" then String "\" (String """" (escape s')) else String c (escape s')
  end.
Definition map_id (id : string) : string := wrap_quotes (escape id).

(** graph.go:49-68 GraphToDOT: the statements added to the gographviz graph.  Go ranges over the maps in random order; the
    model lists them in key order. *)
Definition graph_to_dot (g : digraph) : list goal_stmt :=
  map (fun x => GNode (map_id (gn_id (snd x))) (Some (wrap_quotes (gn_data (snd x))))) (entries (dg_nodes g)) ++
  concat (map (fun x => map (fun y => GEdge (map_id (fst x)) (map_id (fst y))) (snd x)) (entries (dg_fwd g))).
