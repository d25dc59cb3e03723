(** Specification of interrupted requests. *)
From Verif Require Import Base Domain Lexer Validate Store Search Explain Yaml Service Dump Api SpecStore.

(** The store left when the server stops after [n] storage operations of a request. *)
Definition stopped (E : env) (n : nat) (q : request) (s : store) : store := crash n (serve E q) s.

(** A relationship is part of the graph and has a record, or neither. *)
Definition fully_set (E : env) (s : store) (pid : string) (r : relationship) : Prop :=
  In r (relationships s pid) /\ exists rec, answer E (QGetRelationship pid (Some r)) s = Ok (ARecord (Some rec)).
Definition fully_unset (E : env) (s : store) (pid : string) (r : relationship) : Prop :=
  ~ In r (relationships s pid) /\ answer E (QGetRelationship pid (Some r)) s = Ok (ARecord None).

(** Selects every relationship. *)
Definition everything : selector := mkSel (Some OSWild) (Some LSWild) (Some USWild).
