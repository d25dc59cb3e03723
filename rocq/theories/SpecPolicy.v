(** Specification of well-formed policies and admissible relationships, independent of the validators. *)
From Verif Require Import Base Domain Lexer SpecGrammar.

(** ** Declarations *)

Definition declares_resource (p : policy) (rs : string) : Prop :=
  exists r, In r (p_resources p) /\ rs_name r = rs.

(** [l] is a relation of the resource named [rs] in [p]. *)
Definition relation_of (p : policy) (rs : string) (l : relation) : Prop :=
  exists r, In r (p_resources p) /\ rs_name r = rs /\ In l (rs_relations r).

Definition declares (p : policy) (rs rl : string) : Prop :=
  exists l, relation_of p rs l /\ rl_name l = rl.

(** ** Expressions *)

Inductive occurs (ru : rule) : tree -> Prop :=
| occ_here : occurs ru (TRule ru)
| occ_left l o r : occurs ru l -> occurs ru (TOp l o r)
| occ_right l o r : occurs ru r -> occurs ru (TOp l o r).

(** No nil pointer inside the tree. *)
Inductive whole : tree -> Prop :=
| wh_unset : whole TUnset
| wh_rule r : whole (TRule r)
| wh_op l o r : whole l -> whole r -> whole (TOp l o r).

(** The expression tree of a relation: given as a tree, or as a text that denotes it. *)
Inductive expression (E : env) (l : relation) (t : tree) : Prop :=
| ex_text s : rl_expr l = Some (XExpr s) -> denotes E s t -> expression E l t
| ex_tree : rl_expr l = Some (XTree t) -> whole t -> expression E l t.

(** Rules over relations of the resource [rs].  The computed relation of a tuple-to-userset belongs to
    other resources and is not constrained. *)
Definition rule_declared (p : policy) (rs : string) (ru : rule) : Prop :=
  match ru with
  | RThis => True
  | RCu t => declares p rs t
  | RTtu ts _ => declares p rs ts
  | RUnset => False
  end.

(** ** Restrictions *)

Definition restriction_declared (p : policy) (x : restriction) : Prop :=
  match x with
  | REntity rs => declares_resource p rs
  | REntitySet rs rl => declares p rs rl
  | RRUnset => False
  end.

Definition restrictions_declared (p : policy) (x : option subj_restriction) : Prop :=
  match x with
  | None | Some SRUniversal => True
  | Some (SRSet l) => Forall (restriction_declared p) l
  | Some SRUnset => False
  end.

(** ** Well-formed policies *)

Record well_formed (E : env) (p : policy) : Prop := {
  wf_resources : NoDup (map rs_name (p_resources p));
  wf_relations : forall r, In r (p_resources p) -> NoDup (map rl_name (rs_relations r));
  wf_restrictions : forall rs l, relation_of p rs l -> restrictions_declared p (rl_restr l);
  wf_expressions : forall rs l, relation_of p rs l ->
    exists t, expression E l t /\ forall ru, occurs ru t -> rule_declared p rs ru }.

(** ** Admissible relationships *)

Definition subject_declared (p : policy) (s : subject) : Prop :=
  match s with
  | SEntity e => declares_resource p (e_res e)
  | SEntitySet (Some e) rel => declares p (e_res e) rel
  | SResourceSet rs => declares_resource p rs
  | SEntitySet None _ | SUnset => False
  end.

Definition admits (x : option subj_restriction) (s : subject) : Prop :=
  match x with
  | Some SRUniversal => True
  | Some (SRSet l) =>
      match s with
      | SEntity e => In (REntity (e_res e)) l
      | SEntitySet (Some e) rel => In (REntitySet (e_res e) rel) l
      | SResourceSet rs => In (REntity rs) l
      | SEntitySet None _ | SUnset => False
      end
  | None | Some SRUnset => False
  end.

Definition admissible (p : policy) (r : relationship) : Prop :=
  exists o u l, r_object r = Some o /\ r_subject r = Some u /\
    relation_of p (e_res o) l /\ rl_name l = r_relation r /\
    subject_declared p u /\ admits (rl_restr l) u.

(** A relationship message with all its parts. *)
Definition complete_relationship (r : relationship) : Prop :=
  r_object r <> None /\ r_subject r <> None /\ forall rel, r_subject r <> Some (SEntitySet None rel).
