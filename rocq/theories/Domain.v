(** Domain: pkg/domain messages and their hand-written methods.
    Message pointers that a gRPC client can leave unset are [option]s and every
    [oneof] has an explicit unset case.  The members of a set [oneof] and list elements are
    not nil (protobuf decoding guarantees that). *)
From Verif Require Import Base.

(** pkg/domain/relationship.pb.go Entity *)
Record entity := mkEntity { e_res : string; e_id : string }.

(** pkg/domain/relationship.pb.go Subject (a oneof): Entity, EntitySet, ResourceSet or unset.
    EntitySet.Entity may be nil. *)
Inductive subject :=
| SEntity (e : entity)
| SEntitySet (e : option entity) (rel : string)
| SResourceSet (res : string)
| SUnset.

(** pkg/domain/relationship.pb.go Relationship *)
Record relationship := mkRel {
  r_object : option entity;
  r_relation : string;
  r_subject : option subject }.

(** pkg/domain/relation_expression_tree.pb.go Operator: an open proto3 enum. *)
Inductive operator := OpUnion | OpInter | OpDiff | OpOther (n : N).

(** Rule (a oneof): This, ComputedUserset, TupleToUserset or unset. *)
Inductive rule :=
| RThis
| RCu (target : string)
| RTtu (tupleset computed : string)
| RUnset.

(** RelationExpressionTree: nil pointer, node unset, rule, or operation node. *)
Inductive tree :=
| TNil
| TUnset
| TRule (r : rule)
| TOp (l : tree) (o : operator) (r : tree).

(** policy.pb.go RelationExpression (oneof). *)
Inductive relexpr :=
| XExpr (s : string)
| XTree (t : tree)
| XUnset.

(** policy.pb.go SubjectRestrictionSet_Restriction (oneof). *)
Inductive restriction :=
| REntity (res : string)
| REntitySet (res rel : string)
| RRUnset.

(** policy.pb.go SubjectRestriction (oneof). *)
Inductive subj_restriction :=
| SRUniversal
| SRSet (l : list restriction)
| SRUnset.

(** policy.pb.go Relation *)
Record relation := mkRelation {
  rl_name : string;
  rl_desc : string;
  rl_expr : option relexpr;
  rl_restr : option subj_restriction }.

(** policy.pb.go Resource *)
Record resource := mkResource {
  rs_name : string;
  rs_desc : string;
  rs_relations : list relation }.

(** policy.pb.go Policy *)
Record policy := mkPolicy {
  p_id : string;
  p_name : string;
  p_desc : string;
  p_resources : list resource;
  p_attrs : list (string * string) }.

(** policy.pb.go PolicyRecord.  Times are integers. *)
Record policy_record := mkPRec {
  pr_policy : policy;
  pr_app : string;
  pr_created : N }.

(** relationship.pb.go RelationshipRecord *)
Record rel_record := mkRRec {
  rr_policy : string;
  rr_rel : relationship;
  rr_created : N;
  rr_app : string }.

(** relation_graph.pb.go RelationNode (oneof); the Object pointers may be nil. *)
Inductive rnode :=
| NSet (o : option entity) (rel : string)
| NEntity (o : option entity)
| NWild (res : string)
| NUnset.

(** selector.pb.go *)
Inductive obj_selector :=
| OSObject (e : option entity)
| OSResource (res : string)
| OSWild
| OSUnset.
Inductive rel_selector :=
| LSName (rel : string)
| LSWild
| LSUnset.
Inductive subj_selector :=
| USSubject (s : option subject)
| USResource (res : string)
| USWild
| USUnset.
Record selector := mkSel {
  s_obj : option obj_selector;
  s_rel : option rel_selector;
  s_subj : option subj_selector }.

(** ** Decidable equality (Go == on strings, reflect.DeepEqual on messages) *)

Definition entity_eqb (a b : entity) : bool :=
  String.eqb (e_res a) (e_res b) && String.eqb (e_id a) (e_id b).

Definition opt_eqb {A} (f : A -> A -> bool) (a b : option A) : bool :=
  match a, b with
  | Some x, Some y => f x y
  | None, None => true
  | _, _ => false
  end.

Definition subject_eqb (a b : subject) : bool :=
  match a, b with
  | SEntity x, SEntity y => entity_eqb x y
  | SEntitySet x r, SEntitySet y r' => opt_eqb entity_eqb x y && String.eqb r r'
  | SResourceSet x, SResourceSet y => String.eqb x y
  | SUnset, SUnset => true
  | _, _ => false
  end.

(** pkg/domain/policy.go:16-23 Policy.GetResourceByName: first match, nil if none. *)
Definition get_resource_by_name (p : policy) (name : string) : option resource :=
  find (fun r => String.eqb (rs_name r) name) (p_resources p).

(** pkg/domain/relationship.go:94-101 Resource.GetRelationByName.
    A nil receiver panics (field access). *)
Definition get_relation_by_name (r : option resource) (name : string) : res (option relation) :=
  match r with
  | None => Panic
  | Some r => Ok (find (fun l => String.eqb (rl_name l) name) (rs_relations r))
  end.

(** pkg/domain/relationship.go:82-92 Subject.GetResourceName.
    The EntitySet case returns the relation name, as the code does. *)
Definition subject_resource_name (s : option subject) : res string :=
  match s with
  | None => Panic
  | Some (SEntity e) => Ok (e_res e)
  | Some (SEntitySet _ rel) => Ok rel
  | Some (SResourceSet r) => Ok r
  | Some SUnset => Ok ""
  end.
