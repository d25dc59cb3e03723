(** Specification of executions in which relationships are only added, or only removed. *)
From Verif Require Import Base Domain Lexer Store Search Explain Yaml Service Dump Api SpecGrammar SpecPolicy SpecStore SpecSearch SpecConc SpecTouch.

(** Whatever relationship of [pid] is stored at one moment is stored at every later one. *)
Definition growing (E : env) (qs : list request) (s : store) (sched : list nat) (pid : string) : Prop :=
  forall k k' r, k <= k' -> In r (relationships (moment E qs s sched k) pid) -> In r (relationships (moment E qs s sched k') pid).

(** Whatever is stored at one moment was stored at every earlier one. *)
Definition shrinking (E : env) (qs : list request) (s : store) (sched : list nat) (pid : string) : Prop :=
  forall k k' r, k <= k' -> In r (relationships (moment E qs s sched k') pid) -> In r (relationships (moment E qs s sched k) pid).

(** Requests that can remove, or add, relationships of a policy. *)
Definition may_remove (q : request) (pid : string) : Prop :=
  match q with
  | QDeletePolicy id => id = pid
  | QDeleteRelationship pid' _ | QDeleteRelationships pid' _ => pid' = pid
  | _ => False
  end.

Definition may_add (q : request) (pid : string) (r : relationship) : Prop :=
  match q with
  | QSetRelationship _ pid' (Some r') _ => pid' = pid /\ r' = r
  | _ => False
  end.

(** No two different relationships in [R] share a storage key. *)
Definition own_keys (E : env) (R : relationship -> Prop) : Prop :=
  forall r r' k, R r -> R r' -> stored_under E (Some r) k -> stored_under E (Some r') k -> r = r'.

(** A moment of the request at which the answer is what a check made alone then decides. *)
Definition as_at_one_moment (E : env) (qs : list request) (s : store) (sched : list nat) (i : nat) (pid : string)
    (P : policy) (o : entity) (rel : string) (a : entity) (b : bool) : Prop :=
  exists k, acts E qs s sched i k /\
    (b = true <-> member E P (key_subject E (relationships (moment E qs s sched k) pid)) a o rel) /\
    forall n b', answer E (QCheck n pid (asks o rel a)) (moment E qs s sched k) = Ok (ADecision b') -> b' = b.
