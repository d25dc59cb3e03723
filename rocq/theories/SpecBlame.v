(** Specification of the marks of errors. *)
From Verif Require Import Base Domain Lexer Store Search Explain Yaml Service Dump Api Blame SpecErrors.

(** The answer without its marks. *)
Definition unmarked {A} (x : marked A) : res A :=
  match x with MOk a => Ok a | MErr _ e => Err e | MPanic => Panic | MFuel => Fuel end.

Definition has_mark {A} (x : marked A) (m : mark) : Prop := match x with MErr ms _ => In m ms | _ => False end.

(** Requests to the relation graph service, with the policy they name. *)
Inductive consults : request -> string -> Prop :=
| co_check n pid a : consults (QCheck n pid a) pid
| co_explain n pid a f : known_format f -> consults (QExplainCheck n pid a f) pid
| co_expand n pid root f : known_format f -> consults (QExpand n pid root f) pid
| co_dump n pid d : consults (QDumpRelationships n pid d) pid.

(** Requests that ask for an explanation in a format that the server does not know. *)
Inductive unknown_format : request -> Prop :=
| uf_explain n pid a f : ~ known_format f -> unknown_format (QExplainCheck n pid a f)
| uf_expand n pid root f : ~ known_format f -> unknown_format (QExpand n pid root f).

(** FindRelationshipRecords with a selector whose object part is not set. *)
Definition unset_object (q : request) : Prop :=
  match q with QFindRelationshipRecords _ (Some sel) => s_obj sel = Some OSUnset | _ => False end.
