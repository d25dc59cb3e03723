(** Client: the builders of pkg/domain that clients use, and the response messages of ExplainCheck and Expand. *)
From Verif Require Import Base Domain Lexer Parser Validate Store Search Explain Yaml Service Dump Api.

(** ** pkg/domain/selector.go *)

(** selector.go:4-8 SelectorBuilder; the zero value has no selector. *)
Record builder := mkBuilder { b_obj : option obj_selector; b_rel : option rel_selector; b_subj : option subj_selector }.

Definition new_builder : builder := mkBuilder None None None.

(** The methods of SelectorBuilder.  Their arguments are not nil. *)
Inductive build_step :=
| BAnyObject
| BWithObject (e : entity)
| BWithRelation (n : string)
| BAnyRelation
| BAnySubject
| BWithSubject (u : subject)
| BReset.

(** selector.go:10-69 AnyObject, WithObject, WithRelation, AnyRelation, AnySubject, WithSubject and 80-85 Reset *)
Definition build_with (b : builder) (x : build_step) : builder :=
  match x with
  | BAnyObject => mkBuilder (Some OSWild) (b_rel b) (b_subj b)
  | BWithObject e => mkBuilder (Some (OSObject (Some e))) (b_rel b) (b_subj b)
  | BWithRelation n => mkBuilder (b_obj b) (Some (LSName n)) (b_subj b)
  | BAnyRelation => mkBuilder (b_obj b) (Some LSWild) (b_subj b)
  | BAnySubject => mkBuilder (b_obj b) (b_rel b) (Some USWild)
  | BWithSubject u => mkBuilder (b_obj b) (b_rel b) (Some (USSubject (Some u)))
  | BReset => new_builder
  end.

(** selector.go:71-78 Build, after the given calls on a new builder *)
Definition built (xs : list build_step) : selector :=
  let b := fold_left build_with xs new_builder in mkSel (b_obj b) (b_rel b) (b_subj b).

(** ** pkg/domain/relationship.go *)

(** relationship.go:25-41 Relationship, 43-62 EntitySet, 64-79 Wildcard *)
Definition build_relationship (rs id rel urs uid : string) : relationship :=
  mkRel (Some (mkEntity rs id)) rel (Some (SEntity (mkEntity urs uid))).
Definition build_entity_set (rs id rel urs uid urel : string) : relationship :=
  mkRel (Some (mkEntity rs id)) rel (Some (SEntitySet (Some (mkEntity urs uid)) urel)).
Definition build_wildcard (rs id rel urs : string) : relationship :=
  mkRel (Some (mkEntity rs id)) rel (Some (SResourceSet urs)).

(** ** Responses of internal/relation_graph/service.go *)

(** api ExplainCheckResponse and ExpandResponse.  [x_tree] stands for the text, the tree rendered in the requested format. *)
Record explained := mkExplained { x_tree : gtree; x_authorized : bool; x_format : format }.
Record expanded := mkExpanded { w_tree : gtree; w_format : format }.

(** relation_graph/service.go:133-136: the field format is left at its zero value, SPEW. *)
Definition explain_message (E : env) (n : nat) (pid : string) (a : option access_request) (f : format)
    : prog (res explained) :=
  rbind (explain_check E n pid a f) (fun x => Ret (Ok (mkExplained (snd x) (fst x) FSpew))).

(** relation_graph/service.go:172-175 *)
Definition expand_message (E : env) (n : nat) (pid : string) (root : option rnode) (f : format)
    : prog (res expanded) :=
  rbind (expand E n pid root f) (fun t => Ret (Ok (mkExpanded t f))).
