(** The field rules that the proto files declare: proto/zanzi/zanzi/domain/policy.proto and relationship.proto, options
    (buf.validate.field).string.min_len = 1 and (buf.validate.oneof).required = true. *)
From Verif Require Import Base Domain SpecPolicy.

Definition filled (s : string) : Prop := s <> ""%string.

(** ** relationship.proto *)

Definition entity_rules (e : entity) : Prop := filled (e_res e) /\ filled (e_id e).

Definition subject_rules (u : subject) : Prop :=
  match u with
  | SEntity e => entity_rules e
  | SEntitySet e rel => (forall x, e = Some x -> entity_rules x) /\ filled rel
  | SResourceSet rs => filled rs
  | SUnset => True
  end.

Record relationship_rules (r : relationship) : Prop := {
  rr_object : forall o, r_object r = Some o -> entity_rules o;
  rr_relation : filled (r_relation r);
  rr_subject : forall u, r_subject r = Some u -> subject_rules u }.

(** The same without what is said about ids. *)
Definition ids_filled (r : relationship) : Prop :=
  (forall o, r_object r = Some o -> filled (e_id o)) /\
  (forall e, r_subject r = Some (SEntity e) -> filled (e_id e)) /\
  (forall e rel, r_subject r = Some (SEntitySet (Some e) rel) -> filled (e_id e)).

(** ** policy.proto *)

(** Names of resources and relations. *)
Definition names_filled (p : policy) : Prop :=
  (forall rs, declares_resource p rs -> filled rs) /\ (forall rs rl, declares p rs rl -> filled rl).

(** The oneofs of a relation. *)
Definition variants_set (l : relation) : Prop :=
  rl_expr l <> Some XUnset /\ rl_restr l <> Some SRUnset /\
  forall xs, rl_restr l = Some (SRSet xs) -> ~ In RRUnset xs.

Record policy_rules (p : policy) : Prop := {
  pr_id_filled : filled (p_id p);
  pr_names : names_filled p;
  pr_variants : forall rs l, relation_of p rs l -> variants_set l }.

(** ** Messages that break the rules *)

Definition without_id (p : policy) : policy :=
  mkPolicy "" (p_name p) (p_desc p) (p_resources p) (p_attrs p).

(** A resource without a name that has a relation without a name. *)
Definition nameless : resource :=
  mkResource "" "" [mkRelation "" "" (Some (XTree (TRule RThis))) (Some SRUniversal)].
Definition with_nameless (p : policy) : policy :=
  mkPolicy (p_id p) (p_name p) (p_desc p) (p_resources p ++ [nameless]) (p_attrs p).

(** A relationship with empty ids instead of its own. *)
Definition drop_id (e : entity) : entity := mkEntity (e_res e) "".
Definition drop_ids (r : relationship) : relationship :=
  mkRel (option_map drop_id (r_object r)) (r_relation r)
    (option_map (fun u => match u with
                          | SEntity e => SEntity (drop_id e)
                          | SEntitySet e rel => SEntitySet (option_map drop_id e) rel
                          | u => u
                          end) (r_subject r)).
