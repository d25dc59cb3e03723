(** Specification of messages from programs with a later version of the protobuf definitions, which has further fields. *)
From Verif Require Import Base Domain Wire Rpc.
Local Open Scope N_scope.

(** A payload that the wire format can carry: an integer of 64 bits, bytes, or four or eight bytes. *)
Definition carried (v : wval) : Prop :=
  match v with
  | WVarint n => n < 18446744073709551616
  | WLen s => slen s < 18446744073709551616
  | WFixed s => slen s = 4 \/ slen s = 8
  end.
Definition well_formed (f : field) : Prop := 0 < fst f <= 536870911 /\ carried (snd f).

(** No message of /repo has a field whose number is above 15. *)
Definition foreign (f : field) : Prop := well_formed f /\ 15 < fst f.

(** ** Which fields hold messages

    The messages of proto/zanzi/zanzi/{domain,api} and proto/internal/kv_store that hold others; [Flat] stands for those that do
    not.  [About k] is a request with a policy id and a message, [Holding k] a response with one message. *)
Inductive kind :=
| Flat
| EntitySet | Subject | Relationship | RelationshipRecord
| Rule | Tree | Operation | Expression
| Restriction | Restrictions | SubjectRestriction | Relation | Resource | Policy | PolicyRecord | Definition_
| ObjectSelector | RelationSelector | SubjectSelector | Selector
| AccessRequest | EntityNode | RelationNode
| Edge | Data
| Create | About (k : kind)
| Holding (k : kind)
| Dump.

Definition inner (k : kind) : list (N * kind) :=
  match k with
  | Flat | Dump => []
  | EntitySet => [(1, Flat)]
  | Subject => [(1, Flat); (2, EntitySet); (3, Flat)]
  | Relationship => [(1, Flat); (3, Subject)]
  | RelationshipRecord => [(2, Relationship); (3, Flat)]
  | Rule => [(1, Flat); (2, Flat); (3, Flat)]
  | Tree => [(1, Operation); (2, Rule)]
  | Operation => [(1, Tree); (3, Tree)]
  | Expression => [(2, Tree)]
  | Restriction => [(1, Flat); (2, Flat)]
  | Restrictions => [(1, Restriction)]
  | SubjectRestriction => [(1, Restrictions); (2, Flat)]
  | Relation => [(3, Expression); (4, SubjectRestriction)]
  | Resource => [(3, Relation)]
  | Policy => [(4, Resource); (5, Flat)]
  | PolicyRecord => [(1, Policy); (3, Flat)]
  | Definition_ => [(1, Policy)]
  | ObjectSelector => [(1, Flat); (2, Flat)]
  | RelationSelector => [(2, Flat)]
  | SubjectSelector => [(1, Subject); (2, Flat)]
  | Selector => [(1, ObjectSelector); (2, RelationSelector); (3, SubjectSelector)]
  | AccessRequest => [(1, Flat); (3, Flat)]
  | EntityNode => [(1, Flat)]
  | RelationNode => [(1, EntitySet); (2, EntityNode); (3, Flat)]
  | Edge => [(1, Flat); (2, Flat)]
  | Data => [(2, Flat)]
  | Create => [(1, Definition_)]
  | About k => [(2, k)]
  | Holding k => [(1, k)]
  end.

Definition request_kind (m : method) : kind :=
  match m with
  | MCreatePolicy | MUpdatePolicy => Create
  | MDeletePolicy | MGetPolicy | MListPolicyIds | MDumpRelationships => Flat
  | MSetRelationship | MDeleteRelationship | MGetRelationship => About Relationship
  | MFindRelationshipRecords | MDeleteRelationships => About Selector
  | MCheck | MExplainCheck => About AccessRequest
  | MExpand => About RelationNode
  end.

Definition response_kind (m : method) : kind :=
  match m with
  | MCreatePolicy | MGetPolicy => Holding PolicyRecord
  | MListPolicyIds | MCheck => Holding Flat
  | MGetRelationship => Holding RelationshipRecord
  | MFindRelationshipRecords => Holding (Holding RelationshipRecord)
  | MUpdatePolicy | MDeletePolicy | MSetRelationship | MDeleteRelationship | MDeleteRelationships | MExplainCheck | MExpand => Flat
  | MDumpRelationships => Dump
  end.

(** The fields of which a message has at most one, its oneof; of several, the last one counts. *)
Definition choice (k : kind) : list N :=
  match k with
  | Subject | Rule | ObjectSelector | SubjectSelector | RelationNode => [1; 2; 3]
  | Tree | Expression | Restriction | SubjectRestriction | Definition_ | RelationSelector | Dump => [1; 2]
  | _ => []
  end.

(** Two fields whose order does not matter. *)
Definition apart (k : kind) (n m : N) : Prop := n <> m /\ ~ (In n (choice k) /\ In m (choice k)).

(** The fields of a message that hold any number of messages, with the fields of those that hold a text.  (Attributes are entries
    with a key and a value.) *)
Definition elements (k : kind) : list (N * list N) :=
  match k with
  | Resource => [(3, [1; 2])]
  | Policy => [(4, [1; 2]); (5, [1; 2])]
  | _ => []
  end.

(** [extended k fs gs]: [gs] are the fields [fs] of a message of kind [k] and more, at any level, in any place, and in any
    order that keeps the order of the fields of one number and of those of a oneof.  An empty text of an element may be
    written or left out. *)
Inductive extended (k : kind) : list field -> list field -> Prop :=
| ext_nil : extended k [] []
| ext_same f fs gs : well_formed f -> extended k fs gs -> extended k (f :: fs) (f :: gs)
| ext_more f fs gs : foreign f -> extended k fs gs -> extended k fs (f :: gs)
| ext_inner n i hs js fs gs : In (n, i) (inner k) -> extended i hs js ->
    well_formed (n, WLen (put_fields hs)) -> well_formed (n, WLen (put_fields js)) ->
    extended k fs gs -> extended k ((n, WLen (put_fields hs)) :: fs) ((n, WLen (put_fields js)) :: gs)
| ext_swap f g fs gs : apart k (fst f) (fst g) -> well_formed f -> well_formed g ->
    extended k fs gs -> extended k (f :: g :: fs) (g :: f :: gs)
| ext_empty n l z hs fs gs : In (n, l) (elements k) -> In z l -> Forall well_formed hs ->
    well_formed (n, WLen (put_fields hs)) -> well_formed (n, WLen (put_fields ((z, WLen "") :: hs))) ->
    extended k fs gs -> extended k ((n, WLen (put_fields hs)) :: fs) ((n, WLen (put_fields ((z, WLen "") :: hs))) :: gs)
| ext_left_out n l z hs fs gs : In (n, l) (elements k) -> In z l -> Forall well_formed hs ->
    well_formed (n, WLen (put_fields hs)) -> well_formed (n, WLen (put_fields ((z, WLen "") :: hs))) ->
    extended k fs gs -> extended k ((n, WLen (put_fields ((z, WLen "") :: hs))) :: fs) ((n, WLen (put_fields hs)) :: gs)
| ext_then fs gs hs : extended k fs gs -> extended k gs hs -> extended k fs hs.

(** The fields of a request that hold a text or bytes. *)
Definition request_texts (m : method) : list N :=
  match m with
  | MCreatePolicy | MUpdatePolicy => [2]
  | MListPolicyIds => []
  | MSetRelationship => [1; 3]
  | _ => [1]
  end.
