(** Specification of what a YAML document says. *)
From Coq Require Import Permutation.
From Verif Require Import Base Domain Lexer Yaml YamlDoc SpecMisc.

(** The node that a document has under a path of keys. *)
Inductive holds : ynode -> list string -> ynode -> Prop :=
| ho_here n : holds n [] n
| ho_key l k v path w : In (YScalar false k, v) l -> holds v path w -> holds (YMap l) (k :: path) w.

Definition nothing (n : ynode) : Prop := exists t, n = YScalar true t.

(** The text under a path: that of the scalar there, or empty if there is nothing. *)
Definition text_at (d : ynode) (path : list string) (s : string) : Prop :=
  holds d path (YScalar false s) \/ (s = "" /\ forall v, holds d path v -> nothing v).

(** The texts of a sequence; null elements have none. *)
Inductive items : list ynode -> list string -> Prop :=
| it_nil : items [] []
| it_text t l ts : items l ts -> items (YScalar false t :: l) (t :: ts)
| it_null t l ts : items l ts -> items (YScalar true t :: l) ts.

Definition texts_at (d : ynode) (path : list string) (ts : list string) : Prop :=
  (exists l, holds d path (YSeq l) /\ items l ts) \/ (ts = [] /\ forall v, holds d path v -> nothing v).

(** The policy [p] says what the document [d] says. *)
Record transcribes (d : ynode) (p : policy) : Prop := {
  tr_id : text_at d ["id"] (p_id p);
  tr_name : text_at d ["name"] (p_name p);
  tr_doc : text_at d ["doc"] (p_desc p);
  tr_resources : forall rs, In rs (map rs_name (p_resources p)) <-> exists v, holds d ["resources"; rs] v;
  tr_resource : forall r, In r (p_resources p) -> text_at d ["resources"; rs_name r; "doc"] (rs_desc r);
  tr_relations : forall r rl, In r (p_resources p) ->
    (In rl (map rl_name (rs_relations r)) <-> exists v, holds d ["resources"; rs_name r; "relations"; rl] v);
  tr_relation : forall r l, In r (p_resources p) -> In l (rs_relations r) ->
    let at_relation k := ["resources"; rs_name r; "relations"; rl_name l; k] in
    text_at d (at_relation "doc") (rl_desc l) /\
    (exists e, rl_expr l = Some (XExpr e) /\ text_at d (at_relation "expr") e) /\
    (exists ts x, rl_restr l = Some x /\ texts_at d (at_relation "types") ts /\ types_mean ts x);
  tr_attributes : forall k, In k (map fst (p_attrs p)) <-> exists v, holds d ["attributes"; k] v;
  tr_attribute : forall k s, In (k, s) (p_attrs p) -> text_at d ["attributes"; k] s }.

(** The fields that a definition can have. *)
Definition policy_fields : list string := ["id"; "name"; "doc"; "resources"; "attributes"].
Definition resource_fields : list string := ["doc"; "relations"].
Definition relation_fields : list string := ["doc"; "expr"; "types"].

(** The keys of a mapping are scalars with different texts, and those that are not null are [fields]. *)
Definition tidy (n : ynode) : Prop :=
  forall l, n = YMap l -> exists ks, map fst l = map (fun k => YScalar (fst k) (snd k)) ks /\ NoDup (map snd ks).
Definition only_fields (fields : list string) (n : ynode) : Prop :=
  nothing n \/ exists l, n = YMap l /\ tidy n /\ forall k v, In (YScalar false k, v) l -> In k fields.

(** Nodes that differ in the order of keys only. *)
Inductive reordered : ynode -> ynode -> Prop :=
| re_scalar b t : reordered (YScalar b t) (YScalar b t)
| re_seq l l' : Forall2 reordered l l' -> reordered (YSeq l) (YSeq l')
| re_map l m l' : Permutation l m -> Forall2 (fun x y => fst x = fst y /\ reordered (snd x) (snd y)) m l' ->
    reordered (YMap l) (YMap l').

(** A policy whose resources, relations and attributes are in the order of their names. *)
Definition in_order (p : policy) : Prop :=
  increasing (map rs_name (p_resources p)) /\ increasing (map fst (p_attrs p)) /\
  forall r, In r (p_resources p) -> increasing (map rl_name (rs_relations r)).

(** The same for a decoded definition. *)
Definition ordered_definition (y : ydef) : Prop :=
  increasing (map fst (y_resources y)) /\ increasing (map fst (y_attrs y)) /\
  forall k r, In (k, Some r) (y_resources y) -> increasing (map fst (yr_relations r)).

(** The fields that docs/policy-definition.md describes and that the structs do not have. *)
Definition documented_only : list string := ["version"; "description"; "actors"].
