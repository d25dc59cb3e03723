(** Yaml: pkg/policy_definition, from the decoded YAML document on.
    YAML decoding itself (gopkg.in/yaml.v3, KnownFields) is not modelled: a document that does not decode is [None]
    in [yaml_source].  Go maps are lists of key/value pairs with distinct keys in arbitrary order. *)
From Verif Require Import Base Domain Lexer.

(** types.go RelationDefinition (without the name, which comes from the key) *)
Record yrel := mkYRel { yl_doc : string; yl_expr : string; yl_types : list string }.
(** types.go ResourceDefinition; a relation value may be null *)
Record yres := mkYRes { yr_doc : string; yr_relations : list (string * option yrel) }.
(** types.go PolicyDefinition; a resource value may be null *)
Record ydef := mkYDef {
  y_id : string; y_name : string; y_doc : string;
  y_resources : list (string * option yres);
  y_attrs : list (string * string) }.

(** unmarshaler.go:27-51 setEntityNames: null entries become empty definitions; the key is the name. *)
Definition default_rel (r : option yrel) : yrel :=
  match r with Some r => r | None => mkYRel "" "" [] end.
Definition default_res (r : option yres) : yres :=
  match r with Some r => r | None => mkYRes "" [] end.

(** mapper.go:118-127 mapItemsToSlice: items of a map sorted by name. *)
Fixpoint insert_by_name {A} (x : string * A) (l : list (string * A)) : list (string * A) :=
  match l with
  | [] => [x]
  | y :: l' =>
      match scmp (fst x) (fst y) with
      | Gt => y :: insert_by_name x l'
      | _ => x :: y :: l'
      end
  end.
Definition sort_by_name {A} (l : list (string * A)) : list (string * A) :=
  fold_right insert_by_name [] l.

(** strings.Cut(s, ":") *)
Fixpoint cut_colon (s : string) : string * option string :=
  match s with
  | EmptyString => (EmptyString, None)
  | String c s' =>
      if Ascii.eqb c ":" then (EmptyString, Some s')
      else let (a, b) := cut_colon s' in (String c a, b)
  end.

(** mapper.go:91-112 mapSubjectRestrictionElem *)
Definition map_restriction_elem (s : string) : restriction :=
  match cut_colon s with
  | (rs, None) => REntity rs
  | (rs, Some rl) => REntitySet rs rl
  end.

(** mapper.go:73-89 mapSubjectRestriction *)
Definition map_subject_restriction (types : list string) : subj_restriction :=
  if existsb (String.eqb "*") types then SRUniversal
  else SRSet (map map_restriction_elem types).

(** mapper.go:60-71 mapRelation *)
Definition map_relation (x : string * option yrel) : relation :=
  let r := default_rel (snd x) in
  mkRelation (fst x) (yl_doc r) (Some (XExpr (yl_expr r)))
    (Some (map_subject_restriction (yl_types r))).

(** mapper.go:45-57 mapResource *)
Definition map_resource (x : string * option yres) : resource :=
  let r := default_res (snd x) in
  mkResource (fst x) (yr_doc r) (map map_relation (sort_by_name (yr_relations r))).

(** mapper.go:28-42 MapPolicyDefinition *)
Definition map_policy_definition (d : ydef) : policy :=
  mkPolicy (y_id d) (y_name d) (y_doc d)
    (map map_resource (sort_by_name (y_resources d))) (y_attrs d).
