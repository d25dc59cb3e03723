(** Specification of what a request sees of the requests answered before it began. *)
From Verif Require Import Base Domain Lexer Store Search Explain Yaml Service Dump Api SpecStore SpecSearch SpecConc SpecTouch.

(** Request [j] is not answered after [m] steps of the schedule. *)
Definition running (E : env) (qs : list request) (s : store) (sched : list nat) (m j : nat) (q : request) : Prop :=
  nth_error qs j = Some q /\ answered (interleave (firstn m sched) (start E qs s)) j = None.

(** Request [i] takes none of the first [m] steps. *)
Definition begins_after (E : env) (qs : list request) (s : store) (sched : list nat) (i m : nat) : Prop :=
  forall k, acts E qs s sched i k -> m <= k.

(** Two relationships with the same storage key. *)
Definition same_place (E : env) (r r' : option relationship) : Prop :=
  exists k, stored_under E r k /\ stored_under E r' k.

(** Requests that can take a relationship away, and requests that can add it. *)
Definition may_remove (E : env) (q : request) (pid : string) (r : relationship) : Prop :=
  match q with
  | QDeletePolicy pid' => pid' = pid
  | QDeleteRelationship pid' r' => pid' = pid /\ same_place E r' (Some r)
  | QDeleteRelationships pid' (Some sel) => pid' = pid /\ exists r', selects sel r' /\ same_place E (Some r') (Some r)
  | QSetRelationship _ pid' r' _ => pid' = pid /\ r' <> Some r /\ same_place E r' (Some r)
  | _ => False
  end.

Definition may_add (q : request) (pid : string) (r : relationship) : Prop :=
  match q with
  | QSetRelationship _ pid' r' _ => pid' = pid /\ r' = Some r
  | _ => False
  end.

(** Requests that can change the policy record. *)
Definition may_redefine (q : request) (pid : string) : Prop := defines_policy q pid \/ q = QDeletePolicy pid.

(** Relationships stored after [m] steps that no running request can take away; relationships stored after [m] steps
    or that a running request can add. *)
Definition lasting (E : env) (qs : list request) (s : store) (sched : list nat) (m : nat) (pid : string) (r : relationship) : Prop :=
  In r (relationships (moment E qs s sched m) pid) /\ forall j q, running E qs s sched m j q -> ~ may_remove E q pid r.

Definition possible (E : env) (qs : list request) (s : store) (sched : list nat) (m : nat) (pid : string) (r : relationship) : Prop :=
  In r (relationships (moment E qs s sched m) pid) \/ exists j q, running E qs s sched m j q /\ may_add q pid r.

(** The subjects of some relationships whose source has the storage key of an object and relation. *)
Definition subject_among (E : env) (rels : relationship -> Prop) (o : entity) (rel : string) (u : subject) : Prop :=
  exists r, rels r /\ r_subject r = Some u /\ sha E (object_text r) = sha E (e_res o +++ e_id o +++ rel).

(** Answers that acknowledge a grant or a revocation. *)
Definition grants (q : request) (x : res response) (pid : string) (r : relationship) : Prop :=
  match q, x with
  | QSetRelationship _ pid' r' _, Ok (ASet _) => pid' = pid /\ r' = Some r
  | _, _ => False
  end.

Definition revokes (q : request) (x : res response) (pid : string) (r : relationship) : Prop :=
  match q, x with
  | QDeleteRelationship pid' r', Ok (ADeleted _) => pid' = pid /\ r' = Some r
  | QDeleteRelationships pid' (Some sel), Ok (ACount _) => pid' = pid /\ selects sel r
  | QDeletePolicy pid', Ok (ADeletedPolicy true _) => pid' = pid
  | _, _ => False
  end.
