(** Validate: internal/policy/types.go, helpers.go and spec.go *)
From Verif Require Import Base Domain Lexer Parser.

(** ** PolicyLookUpTable (internal/policy/types.go:36-77) *)

(** types.go:41-55 NewPolicyLookUpTable, relations map: insertion order, later entries overwrite.
    The map key is the text of the RelationFQN message, modelled as the pair of names. *)
Definition lut_relations (p : policy) : list ((string * string) * relation) :=
  flat_map (fun rs => map (fun rl => ((rs_name rs, rl_name rl), rl)) (rs_relations rs))
    (p_resources p).

Definition pair_eqb (a b : string * string) : bool :=
  String.eqb (fst a) (fst b) && String.eqb (snd a) (snd b).

(** Lookup in a Go map built by successive assignments: the last assignment wins. *)
Fixpoint assoc_last {K V} (eqb : K -> K -> bool) (k : K) (l : list (K * V)) : option V :=
  match l with
  | [] => None
  | (k', v) :: l' =>
      match assoc_last eqb k l' with
      | Some w => Some w
      | None => if eqb k k' then Some v else None
      end
  end.

(** types.go:62-69 GetRelation *)
Definition lut_get_relation (p : policy) (rs rl : string) : option relation :=
  assoc_last pair_eqb (rs, rl) (lut_relations p).

(** types.go:71-77 GetResource *)
Definition lut_get_resource (p : policy) (rs : string) : option resource :=
  assoc_last String.eqb rs (map (fun r => (rs_name r, r)) (p_resources p)).

(** ** Expression trees *)

(** helpers.go:20-37 GetExpressionTree: a nil RelationExpression panics. *)
Definition get_expression_tree (E : env) (r : relation) : res tree :=
  match rl_expr r with
  | None => Panic
  | Some (XExpr s) => parse E s
  | Some (XTree t) => Ok t
  | Some XUnset => Err EInvalidVariant
  end.

(** pkg/domain/relation_expression_tree.go:73-87 GetRules: a nil tree panics. *)
Fixpoint get_rules (t : tree) : res (list rule) :=
  match t with
  | TNil => Panic
  | TUnset => Ok []
  | TRule r => Ok [r]
  | TOp l _ r =>
      let* a := get_rules l in
      let* b := get_rules r in
      Ok (a ++ b)
  end.

(** ** ValidPolicySpec (spec.go:9-167) *)

(** spec.go:45-76: the names map as the list of names already seen. *)
Fixpoint unique_names (seen : list string) (l : list string) : res unit :=
  match l with
  | [] => Ok tt
  | n :: l' =>
      if existsb (String.eqb n) seen then Err EDuplicateDefinition
      else unique_names (n :: seen) l'
  end.

(** spec.go:45-62 UniqueResourceAndRelationsNames with 64-76 UniqueRelationNameForResource *)
Fixpoint unique_resource_names (seen : list string) (l : list resource) : res unit :=
  match l with
  | [] => Ok tt
  | r :: l' =>
      if existsb (String.eqb (rs_name r)) seen then Err EDuplicateDefinition
      else
        let* _ := unique_names [] (map rl_name (rs_relations r)) in
        unique_resource_names (rs_name r :: seen) l'
  end.

(** spec.go:41-43 RequiredFieldsPresent: the generated Validate (policy.pb.validate.go) has no
    field rules and only rejects typed nil oneof members, which the model does not have. *)
Definition required_fields_present (p : policy) : res unit := Ok tt.

(** spec.go:149-167 validSubjectRestrictionSet *)
Definition valid_restriction (p : policy) (r : restriction) : res unit :=
  match r with
  | REntity rs =>
      match lut_get_resource p rs with Some _ => Ok tt | None => Err ESubjectRestriction end
  | REntitySet rs rl =>
      match lut_get_relation p rs rl with Some _ => Ok tt | None => Err ESubjectRestriction end
  | RRUnset => Err ESubjectRestriction
  end.

(** spec.go:138-147 ValidSubjectRestriction; a nil restriction is skipped (127-129). *)
Definition valid_subject_restriction (p : policy) (r : option subj_restriction) : res unit :=
  match r with
  | None => Ok tt
  | Some SRUniversal => Ok tt
  | Some (SRSet l) => for_each (valid_restriction p) l
  | Some SRUnset => Err ESubjectRestriction
  end.

(** spec.go:123-136 SubjectRestrictionsConsistent *)
Definition subject_restrictions_consistent (p : policy) : res unit :=
  for_each
    (fun rs => for_each (fun rl => valid_subject_restriction p (rl_restr rl)) (rs_relations rs))
    (p_resources p).

(** spec.go:97-121 policyContainsRelationsInRule: the computed relation of a TTU is not looked at. *)
Definition policy_contains_relations_in_rule (p : policy) (rs : string) (r : rule) : res unit :=
  match r with
  | RCu t => match lut_get_relation p rs t with Some _ => Ok tt | None => Err ERelExpTree end
  | RThis => Ok tt
  | RTtu ts _ => match lut_get_relation p rs ts with Some _ => Ok tt | None => Err ERelExpTree end
  | RUnset => Err EInvalidVariant
  end.

(** spec.go:78-95 RelationExpressionWellDefined *)
Definition relation_expression_well_defined (E : env) (p : policy) : res unit :=
  for_each
    (fun rs =>
       for_each
         (fun rl =>
            let* t := get_expression_tree E rl in
            let* rules := get_rules t in
            for_each (policy_contains_relations_in_rule p (rs_name rs)) rules)
         (rs_relations rs))
    (p_resources p).

(** spec.go:19-39 verify *)
Definition verify_policy (E : env) (p : policy) : res unit :=
  let* _ := unique_resource_names [] (p_resources p) in
  let* _ := required_fields_present p in
  let* _ := subject_restrictions_consistent p in
  relation_expression_well_defined E p.

(** ** AllowedRelationshipSpec (spec.go:171-245) *)

(** spec.go:185-220 checkSymbols: nil object, nil subject or nil entity of an entity set panic. *)
Definition check_symbols (p : policy) (r : relationship) : res unit :=
  match r_object r with
  | None => Panic
  | Some o =>
      match lut_get_resource p (e_res o) with
      | None => Err EResourceNotFound
      | Some _ =>
          match lut_get_relation p (e_res o) (r_relation r) with
          | None => Err ERelationNotFound
          | Some _ =>
              match r_subject r with
              | None => Panic
              | Some (SEntity e) =>
                  match lut_get_resource p (e_res e) with
                  | Some _ => Ok tt
                  | None => Err EResourceNotFound
                  end
              | Some (SEntitySet None _) => Panic
              | Some (SEntitySet (Some e) rel) =>
                  match lut_get_relation p (e_res e) rel with
                  | Some _ => Ok tt
                  | None => Err ERelationNotFound
                  end
              | Some (SResourceSet rs) =>
                  match lut_get_resource p rs with
                  | Some _ => Ok tt
                  | None => Err EResourceNotFound
                  end
              | Some SUnset => Err EInvalidVariant
              end
          end
      end
  end.

(** spec.go:299-335 satisfiesRestrictionForEntitySet and satisfiesRestriction *)
Definition satisfies_restriction_for_entity_set (r : restriction) (rs rl : string) : bool :=
  match r with
  | REntitySet a b => String.eqb a rs && String.eqb b rl
  | _ => false
  end.
Definition satisfies_restriction (r : restriction) (rs : string) : bool :=
  match r with
  | REntity a => String.eqb a rs
  | _ => false
  end.

(** spec.go:272-297 satisfiesRestrictionSet.  An unset subject has an empty resource name
    (it cannot be reached: checkSymbols rejects it before). *)
Definition satisfies_restriction_set (s : option subject) (l : list restriction) : res unit :=
  let check b := if b : bool then Ok tt else Err ESubjectNotAllowed in
  match s with
  | None => Panic
  | Some (SEntity e) => check (existsb (fun r => satisfies_restriction r (e_res e)) l)
  | Some (SEntitySet None _) => Panic
  | Some (SEntitySet (Some e) rel) =>
      check (existsb (fun r => satisfies_restriction_for_entity_set r (e_res e) rel) l)
  | Some (SResourceSet rs) => check (existsb (fun r => satisfies_restriction r rs) l)
  | Some SUnset => check (existsb (fun r => satisfies_restriction r "") l)
  end.

(** spec.go:249-270 SubjectRestrictionSpec.Satisfies: a nil SubjectRestriction panics. *)
Definition subject_restriction_spec (p : policy) (r : relationship) : res unit :=
  match r_object r with
  | None => Panic
  | Some o =>
      match lut_get_relation p (e_res o) (r_relation r) with
      | None => Err ERelationNotFound
      | Some rl =>
          match rl_restr rl with
          | None => Panic
          | Some SRUniversal => Ok tt
          | Some (SRSet l) => satisfies_restriction_set (r_subject r) l
          | Some SRUnset => Err ESubjectNotAllowed
          end
      end
  end.

(** spec.go:222-245 AllowedRelationshipSpec.Satisfies.  requiredFields (175-181) calls the
    generated Validate, which has no field rules and accepts a nil message. A nil relationship panics
    in checkSymbols. *)
Definition allowed_relationship (p : policy) (r : option relationship) : res unit :=
  match r with
  | None => Panic
  | Some r =>
      let* _ := check_symbols p r in
      subject_restriction_spec p r
  end.

(** ** ValidSelectorSpec (spec.go:337-425) *)

(** spec.go:359-378 validObjectSelector.  The error for an unset selector (374) carries the text of ErrInvalidVariant
    without wrapping it; the model does not make that difference. *)
Definition valid_object_selector (p : policy) (s : option obj_selector) : res unit :=
  let check n :=
    match get_resource_by_name p n with Some _ => Ok tt | None => Err EResourceNotFound end in
  match s with
  | None => Panic
  | Some (OSObject None) => Panic
  | Some (OSObject (Some e)) => check (e_res e)
  | Some (OSResource rs) => check rs
  | Some OSWild => Ok tt
  | Some OSUnset => Err EInvalidVariant
  end.

(** spec.go:397-405 getObjectSelectorResourceName *)
Definition object_selector_resource_name (s : option obj_selector) : res string :=
  match s with
  | None => Panic
  | Some (OSObject None) => Panic
  | Some (OSObject (Some e)) => Ok (e_res e)
  | Some (OSResource rs) => Ok rs
  | Some OSWild | Some OSUnset => Ok ""
  end.

(** spec.go:380-395 validRelationSelector: getters of a nil selector return zero values. *)
Definition valid_relation_selector (p : policy) (o : option obj_selector)
    (s : option rel_selector) : res unit :=
  match s with
  | Some LSWild => Ok tt
  | _ =>
      let name := match s with Some (LSName n) => n | _ => "" end in
      let* rs := object_selector_resource_name o in
      let* rl := get_relation_by_name (get_resource_by_name p rs) name in
      match rl with Some _ => Ok tt | None => Err ERelationNotFound end
  end.

(** spec.go:407-425 validSubjectSelector *)
Definition valid_subject_selector (p : policy) (s : option subj_selector) : res unit :=
  let check n :=
    match get_resource_by_name p n with Some _ => Ok tt | None => Err EResourceNotFound end in
  match s with
  | None => Panic
  | Some (USResource rs) => check rs
  | Some (USSubject u) => let* n := subject_resource_name u in check n
  | Some USWild => Ok tt
  | Some USUnset => Err EInvalidVariant
  end.

(** spec.go:340-357 ValidSelectorSpec.Satisfies *)
Definition valid_selector (p : policy) (s : option selector) : res unit :=
  match s with
  | None => Panic
  | Some s =>
      let* _ := valid_object_selector p (s_obj s) in
      let* _ := valid_relation_selector p (s_obj s) (s_rel s) in
      valid_subject_selector p (s_subj s)
  end.

(** ** Selector predicates (internal/policy/selector_spec.go) *)

(** selector_spec.go:19-54 NewSelectorSpec: nil selectors panic, unset variants are errors. *)
Definition new_selector_spec (s : option selector) : res (obj_selector * rel_selector * subj_selector) :=
  match s with
  | None => Panic
  | Some s =>
      let* o := match s_obj s with
                | None => Panic | Some OSUnset => Err EInvalidVariant | Some o => Ok o end in
      let* l := match s_rel s with
                | None => Panic | Some LSUnset => Err EInvalidVariant | Some l => Ok l end in
      let* u := match s_subj s with
                | None => Panic | Some USUnset => Err EInvalidVariant | Some u => Ok u end in
      Ok (o, l, u)
  end.

(** selector_spec.go:60-77 object predicates.  reflect.DeepEqual on two messages
    is modelled as equality of their fields.  Stored relationships have an object. *)
Definition object_predicate (o : obj_selector) (r : relationship) : bool :=
  match o with
  | OSObject e => opt_eqb entity_eqb e (r_object r)
  | OSResource rs => match r_object r with Some e => String.eqb (e_res e) rs | None => false end
  | OSWild => true
  | OSUnset => false
  end.

(** selector_spec.go:79-89 relation predicates *)
Definition relation_predicate (l : rel_selector) (r : relationship) : bool :=
  match l with
  | LSName n => String.eqb (r_relation r) n
  | LSWild => true
  | LSUnset => false
  end.

(** selector_spec.go:91-115 subject predicates *)
Definition subject_predicate (u : subj_selector) (r : relationship) : bool :=
  match u with
  | USSubject s => opt_eqb subject_eqb (r_subject r) s
  | USResource rs =>
      match r_subject r with
      | Some (SEntity e) => String.eqb (e_res e) rs
      | Some (SEntitySet (Some e) _) => String.eqb (e_res e) rs
      | Some (SResourceSet x) => String.eqb x rs
      | _ => false
      end
  | USWild => true
  | USUnset => false
  end.

(** selector_spec.go:56-58 Satisfies *)
Definition selector_satisfies (s : obj_selector * rel_selector * subj_selector)
    (r : relationship) : bool :=
  let '(o, l, u) := s in
  object_predicate o r && relation_predicate l r && subject_predicate u r.
