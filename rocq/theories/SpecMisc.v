(** Specification of YAML definitions and of the in-memory graph. *)
From Coq Require Import Permutation.
From Verif Require Import Base Domain Lexer Yaml MapGraph.

(** ** YAML definitions *)

(** Two documents that differ only in the order of resources and relations. *)
Inductive same_resource : string * option yres -> string * option yres -> Prop :=
| sr_null k : same_resource (k, None) (k, None)
| sr_some k d l l' : Permutation l l' -> same_resource (k, Some (mkYRes d l)) (k, Some (mkYRes d l')).

Definition same_document (d d' : ydef) : Prop :=
  y_id d = y_id d' /\ y_name d = y_name d' /\ y_doc d = y_doc d' /\ y_attrs d = y_attrs d' /\
  exists m, Permutation (y_resources d) m /\ Forall2 same_resource m (y_resources d').

(** Keys of a YAML map are distinct. *)
Definition proper (d : ydef) : Prop :=
  NoDup (map fst (y_resources d)) /\
  forall k r, In (k, Some r) (y_resources d) -> NoDup (map fst (yr_relations r)).

(** [declared_in d rs rl r]: the document declares [rl] under [rs] with the definition [r] (possibly null). *)
Definition declared_in (d : ydef) (rs rl : string) (r : option yrel) : Prop :=
  exists x, In (rs, Some x) (y_resources d) /\ In (rl, r) (yr_relations x).

(** Strings in strictly increasing byte order. *)
Fixpoint increasing (l : list string) : Prop :=
  match l with
  | x :: (y :: _) as l' => scmp x y = Lt /\ increasing l'
  | _ => True
  end.

(** The character [c] does not occur in [s]. *)
Fixpoint without (c : ascii) (s : string) : Prop :=
  match s with
  | EmptyString => True
  | String d s' => d <> c /\ without c s'
  end.

(** The restriction an entry of a type list stands for. *)
Inductive entry_means : string -> restriction -> Prop :=
| em_resource s : without ":" s -> entry_means s (REntity s)
| em_set rs rl : without ":" rs -> entry_means (rs +++ ":" +++ rl) (REntitySet rs rl).

Inductive types_mean : list string -> subj_restriction -> Prop :=
| tm_universal l : In "*" l -> types_mean l SRUniversal
| tm_set l xs : ~ In "*" l -> Forall2 entry_means l xs -> types_mean l (SRSet xs).

(** ** The in-memory graph *)

Inductive graph_op (T : Type) :=
| ONode (id : string) (x : T)
| OEdge (a b : string).
Arguments ONode {T}.
Arguments OEdge {T}.

(** The graph after a sequence of operations; a failing SetEdge leaves the graph. *)
Definition graph_step {T} (g : map_graph T) (o : graph_op T) : map_graph T :=
  match o with
  | ONode id x => mg_set_node id x g
  | OEdge a b => match mg_set_edge a b g with Some g' => g' | None => g end
  end.
Definition graph_after {T} (ops : list (graph_op T)) : map_graph T := fold_left graph_step ops mg_new.

(** The value given last to a node. *)
Fixpoint node_value {T} (ops : list (graph_op T)) (id : string) : option T :=
  match ops with
  | [] => None
  | ONode id' x :: ops' =>
      match node_value ops' id with
      | Some y => Some y
      | None => if String.eqb id id' then Some x else None
      end
  | OEdge _ _ :: ops' => node_value ops' id
  end.

(** An edge was inserted when both its nodes existed. *)
Definition edge_inserted {T} (ops : list (graph_op T)) (a b : string) : Prop :=
  exists before after, ops = before ++ OEdge a b :: after /\
    node_value before a <> None /\ node_value before b <> None.

(** What a document says about a relation: a null entry says nothing. *)
Definition says_doc (y : option yrel) : string := match y with Some r => yl_doc r | None => "" end.
Definition says_expr (y : option yrel) : string := match y with Some r => yl_expr r | None => "" end.
Definition says_types (y : option yrel) : list string := match y with Some r => yl_types r | None => [] end.
Definition says_about (y : option yres) : string := match y with Some r => yr_doc r | None => "" end.

(** [p] is the policy a document describes, except for the types of relations. *)
Record describes (d : ydef) (p : policy) : Prop := {
  ds_id : p_id p = y_id d;
  ds_name : p_name p = y_name d;
  ds_doc : p_desc p = y_doc d;
  ds_attrs : p_attrs p = y_attrs d;
  ds_sorted : increasing (map rs_name (p_resources p));
  ds_resources : forall n, In n (map rs_name (p_resources p)) <-> In n (map fst (y_resources d));
  ds_resource : forall r, In r (p_resources p) ->
    increasing (map rl_name (rs_relations r)) /\
    (forall y, In (rs_name r, y) (y_resources d) -> rs_desc r = says_about y) /\
    (forall n, In n (map rl_name (rs_relations r)) <-> exists y, declared_in d (rs_name r) n y);
  ds_relation : forall r l y, In r (p_resources p) -> In l (rs_relations r) -> declared_in d (rs_name r) (rl_name l) y ->
    rl_desc l = says_doc y /\ rl_expr l = Some (XExpr (says_expr y)) }.
