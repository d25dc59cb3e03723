(** Specification of a layout that keeps policies apart. *)
From Verif Require Import Base Domain Lexer Store Search Explain Yaml Service Dump Api SpecConc.

(** The policy whose relationships a request reads or writes. *)
Definition about (q : request) : option string :=
  match q with
  | QCreatePolicy _ _ _ | QUpdatePolicy _ _ | QGetPolicy _ | QListPolicyIds | QGetRelationship _ _ => None
  | QDeletePolicy pid | QSetRelationship _ pid _ _ | QDeleteRelationship pid _ | QFindRelationshipRecords pid _
  | QDeleteRelationships pid _ | QCheck _ pid _ | QExplainCheck _ pid _ _ | QExpand _ pid _ _ | QDumpRelationships _ pid _ => Some pid
  end.

Definition about_only (U : string -> Prop) (qs : list request) : Prop :=
  forall q pid, In q qs -> about q = Some pid -> U pid.

(** No id in [U], with the separator, continues another one. *)
Definition apart (sep : string) (U : string -> Prop) : Prop :=
  forall p q t, U p -> U q -> p +++ sep = (q +++ sep) +++ t -> p = q.

(** Every hash has [L] bytes. *)
Definition hashes_to (E : env) (L : nat) : Prop := forall t, String.length (sha E t) = L.
