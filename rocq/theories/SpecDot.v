(** Specification of DOT graphs: what graph a list of statements describes, and which texts are DOT strings. *)
From Verif Require Import Base Domain Lexer Store Search Explain SpecSearch.

(** ** Graphs *)

(** The labels given to a node, the targets of its edges in order, and all named nodes. *)
Definition labels_of (l : list goal_stmt) (id : string) : list (option string) :=
  flat_map (fun x => match x with GNode i lab => if String.eqb i id then [lab] else [] | GEdge _ _ => [] end) l.
Definition targets_of (l : list goal_stmt) (id : string) : list string :=
  flat_map (fun x => match x with GEdge a b => if String.eqb a id then [b] else [] | GNode _ _ => [] end) l.
Definition node_names (l : list goal_stmt) : list string :=
  flat_map (fun x => match x with GNode i _ => [i] | GEdge _ _ => [] end) l.

(** Where the edges start. *)
Definition edge_sources (l : list goal_stmt) : list string :=
  flat_map (fun x => match x with GEdge a _ => [a] | GNode _ _ => [] end) l.

(** Trees of labels. *)
Inductive rose := Rose (label : option string) (below : list rose).

(** Read from the node [id] along the edges, the statements show a tree. *)
Inductive depicts (l : list goal_stmt) : string -> rose -> Prop :=
| de id lab rs : labels_of l id = [lab] -> depicts_all l (targets_of l id) rs -> depicts l id (Rose lab rs)
with depicts_all (l : list goal_stmt) : list string -> list rose -> Prop :=
| da_nil : depicts_all l [] []
| da_cons id ids r rs : depicts l id r -> depicts_all l ids rs -> depicts_all l (id :: ids) (r :: rs).

(** ** Search trees *)

Inductive kind := KOr | KAnd | KDiff | KPath.
Definition kind_of (t : gtree) : kind :=
  match t with GOr _ _ => KOr | GAnd _ _ => KAnd | GDiff _ _ _ => KDiff | GPath _ _ _ _ => KPath end.

(** The same objects with the same results, in the same places. *)
Inductive alike : gtree -> gtree -> Prop :=
| al t t' : kind_of t = kind_of t' -> get_result t = get_result t' -> alike_all (children t) (children t') -> alike t t'
with alike_all : list gtree -> list gtree -> Prop :=
| aa_nil : alike_all [] []
| aa_cons t t' ts ts' : alike t t' -> alike_all ts ts' -> alike_all (t :: ts) (t' :: ts').

(** The tree of the labels of a search tree ([goal_label]: its kind, node, reason and result). *)
Inductive portrays : gtree -> rose -> Prop :=
| po t lab rs : goal_label t = Ok lab -> portrays_all (children t) rs -> portrays t (Rose (Some lab) rs)
with portrays_all : list gtree -> list rose -> Prop :=
| pa_nil : portrays_all [] []
| pa_cons t ts r rs : portrays t r -> portrays_all ts rs -> portrays_all (t :: ts) (r :: rs).

(** How many objects there are. *)
Fixpoint size (t : gtree) : nat :=
  match t with
  | GOr _ ps | GAnd _ ps => S (list_sum (map size ps))
  | GDiff _ l r => S (size l + size r)
  | GPath _ _ (Some p) _ => S (size p)
  | GPath _ _ None _ => 1
  end.

(** The relation nodes of a search tree. *)
Definition displayed (t : gtree) (n : rnode) : Prop := exists r p why, within (GPath r n p why) t.

(** Names that can be told apart in a label: one line, no colon in resources, no comma in ids. *)
Definition nl : ascii := "010".
Definition legible (n : rnode) : Prop :=
  match n with
  | NSet (Some o) rel => lacks ":" (e_res o) /\ lacks nl (e_res o) /\ lacks "," (e_id o) /\ lacks nl (e_id o) /\
      lacks nl rel /\ rel <> ""
  | NEntity (Some o) => lacks ":" (e_res o) /\ lacks nl (e_res o) /\ lacks "," (e_id o) /\ lacks nl (e_id o) /\ e_id o <> "*"
  | NWild rs => lacks ":" rs /\ lacks nl rs
  | _ => False
  end.
Definition legible_tree (t : gtree) : Prop :=
  forall r n p why, within (GPath r n p why) t -> legible n /\ lacks nl why.

(** ** DOT strings *)

Definition dquote : ascii := """".
Definition backslash : ascii := "\".

(** Characters of a quoted string up to its end: a quote only after a backslash. *)
Inductive string_body : string -> Prop :=
| sb_end : string_body ""
| sb_char c s : c <> dquote -> c <> backslash -> string_body s -> string_body (String c s)
| sb_escaped c s : string_body s -> string_body (String backslash (String c s)).

(** One quoted string and nothing more. *)
Definition dot_string (s : string) : Prop := exists b, s = String dquote "" +++ b +++ String dquote "" /\ string_body b.

(** The names of a node have no quotes. *)
Definition unquoted (n : rnode) : Prop :=
  match n with
  | NSet (Some o) rel => lacks dquote (e_res o) /\ lacks dquote (e_id o) /\ lacks dquote rel
  | NEntity (Some o) => lacks dquote (e_res o) /\ lacks dquote (e_id o)
  | NWild rs => lacks dquote rs
  | _ => True
  end.
