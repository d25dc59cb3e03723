(** YamlDoc: pkg/policy_definition/unmarshaler.go, from the YAML node tree on.

    The text is a stream of documents, each a tree of nodes as gopkg.in/yaml.v3 (v3.0.1) parses them.  The decoding of
    nodes into the structs of types.go is done by that library; it is not part of /repo, and its rules for the few types
    that occur (string, []string, maps with string keys, structs and pointers to structs) are written down here from its
    documentation and source.  Left out: text syntax, anchors and aliases, merge keys (a plain [<<] key), !!binary tags. *)
From Verif Require Import Base Domain Lexer Yaml Service.

(** A scalar has its source text; it is null when it is a plain null, Null, NULL, ~ or empty. *)
Inductive ynode :=
| YScalar (null : bool) (text : string)
| YMap (l : list (ynode * ynode))
| YSeq (l : list ynode).

(** yaml.v3 decode.go mapping: keys of the same kind and text are duplicates, and an error (uniqueKeys is the default). *)
Definition same_key (a b : ynode) : bool :=
  match a, b with
  | YScalar _ s, YScalar _ t => String.eqb s t
  | YMap _, YMap _ | YSeq _, YSeq _ => true
  | _, _ => false
  end.
Fixpoint unique_keys (l : list (ynode * ynode)) : bool :=
  match l with
  | [] => true
  | x :: l' => negb (existsb (fun y => same_key (fst x) (fst y)) l') && unique_keys l'
  end.

(** decode.go scalar and null, into a string: null leaves the target alone and reports that nothing was decoded
    ([Some None]); every other scalar gives its text; anything else is an error ([None]).  All errors of a document are
    collected and the whole decoding fails, so one error is [None] here. *)
Definition decode_string (n : ynode) : option (option string) :=
  match n with
  | YScalar true _ => Some None
  | YScalar false s => Some (Some s)
  | _ => None
  end.
Definition set_string (n : ynode) (old : string) : option string :=
  match decode_string n with
  | Some (Some s) => Some s
  | Some None => Some old
  | None => None
  end.

(** decode.go sequence, into []string: elements for which nothing was decoded are dropped. *)
Fixpoint decode_strings (l : list ynode) : option (list string) :=
  match l with
  | [] => Some []
  | n :: l' =>
      match decode_string n, decode_strings l' with
      | Some (Some s), Some ss => Some (s :: ss)
      | Some None, Some ss => Some ss
      | _, _ => None
      end
  end.
Definition decode_slice (n : ynode) : option (list string) :=
  match n with
  | YScalar true _ => Some []
  | YSeq l => decode_strings l
  | _ => None
  end.

(** decode.go mappingStruct with KnownFields(true) (unmarshaler.go:14): the key is decoded into a string first; a key
    for which nothing was decoded is passed over with its value; [set] fails for an unknown field. *)
Definition struct_step {A} (set : string -> ynode -> A -> option A) (acc : option A) (x : ynode * ynode) : option A :=
  match acc, decode_string (fst x) with
  | Some a, Some (Some k) => set k (snd x) a
  | Some a, Some None => Some a
  | _, _ => None
  end.
Definition decode_struct {A} (set : string -> ynode -> A -> option A) (zero : A) (l : list (ynode * ynode)) : option A :=
  if unique_keys l then fold_left (struct_step set) l (Some zero) else None.

(** decode.go, into a pointer to a struct: null is nil. *)
Definition decode_pointer {A} (set : string -> ynode -> A -> option A) (zero : A) (n : ynode) : option (option A) :=
  match n with
  | YScalar true _ => Some None
  | YMap l => option_map Some (decode_struct set zero l)
  | _ => None
  end.

(** decode.go mapping, into a map with string keys: entries with a null key are passed over.  [decode] is the decoding of
    a value.  The Go map is represented by the list of its entries sorted by key. *)
Fixpoint decode_entries {A} (decode : ynode -> option A) (l : list (ynode * ynode)) : option (list (string * A)) :=
  match l with
  | [] => Some []
  | x :: l' =>
      match decode_string (fst x) with
      | None => None
      | Some None => decode_entries decode l'
      | Some (Some k) =>
          match decode (snd x), decode_entries decode l' with
          | Some v, Some m => Some ((k, v) :: m)
          | _, _ => None
          end
      end
  end.
Definition decode_map {A} (decode : ynode -> option A) (n : ynode) : option (list (string * A)) :=
  match n with
  | YScalar true _ => Some []
  | YMap l => if unique_keys l then option_map sort_by_name (decode_entries decode l) else None
  | _ => None
  end.

(** types.go:46-79 RelationDefinition *)
Definition set_yrel (k : string) (v : ynode) (r : yrel) : option yrel :=
  if String.eqb k "doc" then option_map (fun s => mkYRel s (yl_expr r) (yl_types r)) (set_string v (yl_doc r))
  else if String.eqb k "expr" then option_map (fun s => mkYRel (yl_doc r) s (yl_types r)) (set_string v (yl_expr r))
  else if String.eqb k "types" then option_map (fun l => mkYRel (yl_doc r) (yl_expr r) l) (decode_slice v)
  else None.
Definition decode_yrel : ynode -> option (option yrel) := decode_pointer set_yrel (mkYRel "" "" []).

(** types.go:39-43 ResourceDefinition *)
Definition set_yres (k : string) (v : ynode) (r : yres) : option yres :=
  if String.eqb k "doc" then option_map (fun s => mkYRes s (yr_relations r)) (set_string v (yr_doc r))
  else if String.eqb k "relations" then option_map (fun m => mkYRes (yr_doc r) m) (decode_map decode_yrel v)
  else None.
Definition decode_yres : ynode -> option (option yres) := decode_pointer set_yres (mkYRes "" []).

(** types.go:19-36 PolicyDefinition; a null attribute is an entry with the empty text. *)
Definition set_ydef (k : string) (v : ynode) (d : ydef) : option ydef :=
  if String.eqb k "id" then option_map (fun s => mkYDef s (y_name d) (y_doc d) (y_resources d) (y_attrs d)) (set_string v (y_id d))
  else if String.eqb k "name" then option_map (fun s => mkYDef (y_id d) s (y_doc d) (y_resources d) (y_attrs d)) (set_string v (y_name d))
  else if String.eqb k "doc" then option_map (fun s => mkYDef (y_id d) (y_name d) s (y_resources d) (y_attrs d)) (set_string v (y_doc d))
  else if String.eqb k "resources" then
    option_map (fun m => mkYDef (y_id d) (y_name d) (y_doc d) m (y_attrs d)) (decode_map decode_yres v)
  else if String.eqb k "attributes" then
    option_map (fun m => mkYDef (y_id d) (y_name d) (y_doc d) (y_resources d) m) (decode_map (fun v => set_string v "") v)
  else None.

Definition zero_ydef : ydef := mkYDef "" "" "" [] [].

(** unmarshaler.go:11-25 UnmarshalPolicyDefinition: Decode reads the first document; a null document changes nothing;
    a stream without documents is an error (io.EOF). *)
Definition decode_stream (docs : list ynode) : option ydef :=
  match docs with
  | YScalar true _ :: _ => Some zero_ydef
  | YMap l :: _ => decode_struct set_ydef zero_ydef l
  | _ => None
  end.

(** mapper.go:17-24 PolicyFromYaml: the policy definition of a request that carries the text. *)
Definition policy_yaml (docs : list ynode) : option policy_def := Some (DYaml (decode_stream docs)).
