(** Specification of what a search consults. *)
From Verif Require Import Base Domain Lexer Store Search Explain Yaml Service Dump Api SpecGrammar SpecPolicy SpecStore SpecSearch SpecConc SpecTouch.

(** A search from [root] consults the relationships whose source has the storage key [k]: a node that it can reach looks them up. *)
Definition consults (E : env) (P : policy) (rels : list relationship) (root : rnode) (k : string) : Prop :=
  exists o rel rel', reach E P (key_subject E rels) root (NSet (Some o) rel) /\ looks_up E P o rel rel' /\
    k = sha E (e_res o +++ e_id o +++ rel').

(** The relationships of [pid] that the search consults are the same in both stores. *)
Definition same_consulted (E : env) (P : policy) (pid : string) (root : rnode) (s s' : store) : Prop :=
  forall r, consults E P (relationships s pid) root (sha E (object_text r)) ->
    (In r (relationships s pid) <-> In r (relationships s' pid)).

(** What a request may write: of the relationships of a policy, a bulk deletion only deletes those that it selects. *)
Definition may_write (E : env) (q : request) (x : place) : Prop :=
  match q, x with
  | QDeleteRelationships pid' (Some sel), AtEdge pid k => pid = pid' /\ exists r, selects sel r /\ stored_under E (Some r) k
  | _, _ => writes_at E q x
  end.

(** A request that changes neither the policy nor a relationship that the search consults. *)
Definition keeps_away (E : env) (P : policy) (rels : list relationship) (pid : string) (root : rnode) (q : request) : Prop :=
  ~ may_write E q (AtPolicy pid) /\
  forall k, may_write E q (AtEdge pid k) -> ~ consults E P rels root (fst k).

(** By name: a request about the policy sets or deletes one of [rels], or changes no relationship of it. *)
Definition writes_only (E : env) (pid : string) (rels : list relationship) (q : request) : Prop :=
  ~ may_write E q (AtPolicy pid) /\
  match q with
  | QSetRelationship _ pid' (Some r) _ | QDeleteRelationship pid' (Some r) => pid' = pid -> In r rels
  | _ => forall k, ~ may_write E q (AtEdge pid k)
  end.
