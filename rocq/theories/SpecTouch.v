(** Specification of what a request reads and writes. *)
From Verif Require Import Base Domain Lexer Store Search Explain Yaml Service Dump Api SpecConc.

(** The places of a store: the record of a policy, a relationship of a policy, and the record of a relationship,
    which all policies share. *)
Inductive place :=
| AtPolicy (id : string)
| AtEdge (pid : string) (key : string * string)
| AtRecord (key : string * string).

(** The storage key of a relationship. *)
Definition stored_under (E : env) (r : option relationship) (k : string * string) : Prop :=
  exists e, to_internal r = Ok e /\ k = edge_key E e.

Definition reads_at (E : env) (q : request) (x : place) : Prop :=
  match q, x with
  | (QCreatePolicy _ d _ | QUpdatePolicy d _), AtPolicy id => definition_id d = Some id
  | (QDeletePolicy id' | QGetPolicy id'), AtPolicy id => id = id'
  | QDeletePolicy id', AtEdge pid _ => pid = id'
  | QListPolicyIds, AtPolicy _ => True
  | QSetRelationship _ pid' _ _, AtPolicy id => id = pid'
  | (QSetRelationship _ pid' r _ | QDeleteRelationship pid' r), AtEdge pid k => pid = pid' /\ stored_under E r k
  | QGetRelationship _ r, AtRecord k => stored_under E r k
  | (QFindRelationshipRecords pid' _ | QCheck _ pid' _ | QExplainCheck _ pid' _ _ | QExpand _ pid' _ _
     | QDumpRelationships _ pid' _), AtPolicy id => id = pid'
  | (QFindRelationshipRecords pid' _ | QDeleteRelationships pid' _ | QCheck _ pid' _ | QExplainCheck _ pid' _ _
     | QExpand _ pid' _ _ | QDumpRelationships _ pid' _), AtEdge pid _ => pid = pid'
  | QFindRelationshipRecords _ _, AtRecord _ => True
  | _, _ => False
  end.

Definition writes_at (E : env) (q : request) (x : place) : Prop :=
  match q, x with
  | (QCreatePolicy _ d _ | QUpdatePolicy d _), AtPolicy id => definition_id d = Some id
  | QDeletePolicy id', AtPolicy id => id = id'
  | (QDeletePolicy pid' | QDeleteRelationships pid' _), AtEdge pid _ => pid = pid'
  | (QDeletePolicy _ | QDeleteRelationships _ _), AtRecord _ => True
  | (QSetRelationship _ pid' r _ | QDeleteRelationship pid' r), AtEdge pid k => pid = pid' /\ stored_under E r k
  | (QSetRelationship _ _ r _ | QDeleteRelationship _ r), AtRecord k => stored_under E r k
  | _, _ => False
  end.

(** Neither request writes what the other reads or writes. *)
Definition independent (E : env) (q q' : request) : Prop :=
  forall x, (writes_at E q x -> ~ reads_at E q' x /\ ~ writes_at E q' x) /\
            (writes_at E q' x -> ~ reads_at E q x /\ ~ writes_at E q x).

Definition all_independent (E : env) (qs : list request) : Prop :=
  forall i j q q', nth_error qs i = Some q -> nth_error qs j = Some q' -> i <> j -> independent E q q'.

(** Requests that set or delete one relationship. *)
Definition about_one (q : request) : Prop :=
  match q with
  | QSetRelationship _ _ _ _ | QDeleteRelationship _ _ => True
  | _ => False
  end.
