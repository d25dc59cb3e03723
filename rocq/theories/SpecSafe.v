(** Specification of requests that do not make the server panic. *)
From Verif Require Import Base Domain Lexer Validate Store Search Explain Yaml Service Dump Api SpecGrammar SpecPolicy SpecStore SpecSearch.

(** Every relation of the policy has a subject restriction. *)
Definition restricted (p : policy) : Prop := forall rs l, relation_of p rs l -> rl_restr l <> None.

(** An expression of the policy follows the relation [ts] of an object to other objects. *)
Definition tupleset (E : env) (p : policy) (ts : string) : Prop :=
  exists rs l t cu, relation_of p rs l /\ expression E l t /\ occurs (RTtu ts cu) t.

(** The relationship is found when the subjects of [o] under [rel] are looked up. *)
Definition filed_under (E : env) (r : relationship) (o : entity) (rel : string) : Prop :=
  sha E (object_text r) = sha E (e_res o +++ e_id o +++ rel).

(** A subject that is a whole resource is not set where a relation named in [T] is looked up. *)
Definition narrow (E : env) (T : string -> Prop) (r : relationship) : Prop :=
  forall rs o ts, r_subject r = Some (SResourceSet rs) -> T ts -> ~ filed_under E r o ts.

Definition whole_access (a : option access_request) : Prop :=
  exists x o u, a = Some x /\ a_object x = Some o /\ a_subject x = Some u.

(** The three parts of a selector are there.  They may be left unset, that is an error and no panic. *)
Definition with_parts (x : selector) : Prop :=
  s_obj x <> None /\ s_obj x <> Some (OSObject None) /\ s_rel x <> None /\ s_subj x <> None /\ s_subj x <> Some (USSubject None).

(** A request that keeps to the rules, where [T] holds of all relation names that policies use as tuplesets. *)
Definition careful (E : env) (T : string -> Prop) (q : request) : Prop :=
  match q with
  | QCreatePolicy _ d _ | QUpdatePolicy d _ =>
      complete_definition d /\ forall p, defines d p -> restricted p /\ forall ts, tupleset E p ts -> T ts
  | QSetRelationship _ _ r _ => exists x, r = Some x /\ complete_relationship x /\ narrow E T x
  | QDeleteRelationship _ r | QGetRelationship _ r => exists x, r = Some x /\ complete_relationship x
  | QFindRelationshipRecords _ sel =>
      exists x, sel = Some x /\ with_parts x /\ (s_obj x = Some OSWild -> s_rel x = Some LSWild)
  | QDeleteRelationships _ sel => exists x, sel = Some x /\ with_parts x
  | QCheck _ _ a | QExplainCheck _ _ a _ => whole_access a
  | QExpand _ _ root _ => exists x, root = Some x /\ has_object x
  | QDeletePolicy _ | QGetPolicy _ | QListPolicyIds | QDumpRelationships _ _ _ => True
  end.

(** Stores of a server that has only served such requests, at the same time and with stops at any point. *)
Inductive careful_store (E : env) (T : string -> Prop) : store -> Prop :=
| ca_empty : careful_store E T empty_store
| ca_serve s qs sched : careful_store E T s -> Forall (careful E T) qs ->
    careful_store E T (snd (interleave sched (start E qs s))).
