(** Specification of concurrent requests. *)
From Verif Require Import Base Domain Lexer Validate Store Search Explain Yaml Service Dump Api SpecPolicy SpecStore SpecSearch.

(** All requests are answered. *)
Definition finished (c : config) : Prop := forall i, i < length (fst c) -> answered c i <> None.

(** The policy a request is about. *)
Definition definition_id (d : option policy_def) : option string :=
  match d with
  | Some (DPolicy p) => Some (p_id p)
  | Some (DYaml (Some y)) => Some (y_id y)
  | _ => None
  end.

Definition concerns (q : request) : option string :=
  match q with
  | QCreatePolicy _ d _ | QUpdatePolicy d _ => definition_id d
  | QDeletePolicy id | QGetPolicy id => Some id
  | QListPolicyIds => None
  | QSetRelationship _ pid _ _ | QDeleteRelationship pid _ | QGetRelationship pid _
  | QFindRelationshipRecords pid _ | QDeleteRelationships pid _ => Some pid
  | QCheck _ pid _ | QExplainCheck _ pid _ _ | QExpand _ pid _ _ | QDumpRelationships _ pid _ => Some pid
  end.

(** Requests that read the records shared by all policies. *)
Definition reads_records (q : request) : Prop :=
  match q with
  | QGetRelationship _ _ | QFindRelationshipRecords _ _ => True
  | _ => False
  end.

(** The steps of a schedule that belong to requests about the policy. *)
Definition about (id : string) (qs : list request) (i : nat) : bool :=
  match nth_error qs i with
  | Some q => match concerns q with Some id' => String.eqb id' id | None => false end
  | None => false
  end.

(** What a store holds about one policy. *)
Definition same_policy (id : string) (s s' : store) : Prop :=
  kv_get scmp id (st_pol s) = kv_get scmp id (st_pol s') /\ edges_of id s = edges_of id s'.

(** The records that policy [id] can have had while [qs] were served, beginning with the store [s]. *)
Inductive version (E : env) (qs : list request) (s : store) (id : string) : policy_record -> Prop :=
| ver_stored rec : answer E (QGetPolicy id) s = Ok (APolicy (Some rec)) -> version E qs s id rec
| ver_created now d app p : In (QCreatePolicy now d app) qs -> defines d p -> well_formed E p -> p_id p = id ->
    version E qs s id (mkPRec p app now)
| ver_updated d app p old : In (QUpdatePolicy d app) qs -> defines d p -> well_formed E p -> p_id p = id ->
    version E qs s id old -> version E qs s id (mkPRec p app (pr_created old)).

(** Requests that can make policy [id] exist, end, or get a relationship. *)
Definition defines_policy (q : request) (id : string) : Prop :=
  match q with
  | QCreatePolicy _ d _ | QUpdatePolicy d _ => definition_id d = Some id
  | _ => False
  end.
Definition sets_relationship (q : request) (pid : string) : Prop :=
  match q with QSetRelationship _ pid' _ _ => pid' = pid | _ => False end.

(** Requests that can change what is stored about policy [pid]. *)
Definition writes (q : request) (pid : string) : Prop :=
  match q with
  | QCreatePolicy _ d _ | QUpdatePolicy d _ => definition_id d = Some pid
  | QDeletePolicy id => id = pid
  | QSetRelationship _ pid' _ _ | QDeleteRelationship pid' _ | QDeleteRelationships pid' _ => pid' = pid
  | _ => False
  end.

(** ** Moments of a schedule *)

(** The store when [k] steps of the schedule have been taken. *)
Definition moment (E : env) (qs : list request) (s : store) (sched : list nat) (k : nat) : store :=
  snd (interleave (firstn k sched) (start E qs s)).

(** Request [i] takes step number [k]. *)
Definition acts (E : env) (qs : list request) (s : store) (sched : list nat) (i k : nat) : Prop :=
  nth_error sched k = Some i /\ answered (interleave (firstn k sched) (start E qs s)) i = None.

(** Subjects of the relationships of policy [pid] that were stored at some step, or at every step, of request [i]. *)
Definition sometimes (E : env) (qs : list request) (s : store) (sched : list nat) (i : nat) (pid : string)
    (o : entity) (rel : string) (u : subject) : Prop :=
  exists k, acts E qs s sched i k /\ key_subject E (relationships (moment E qs s sched k) pid) o rel u.

Definition always (E : env) (qs : list request) (s : store) (sched : list nat) (i : nat) (pid : string)
    (o : entity) (rel : string) (u : subject) : Prop :=
  forall k, acts E qs s sched i k -> key_subject E (relationships (moment E qs s sched k) pid) o rel u.

(** The first steps of a schedule without end, and schedules in which request [i] is never forgotten. *)
Definition prefix (sched : nat -> nat) (k : nat) : list nat := map sched (seq 0 k).
Definition fair (sched : nat -> nat) (i : nat) : Prop := forall m, exists k, m <= k /\ sched k = i.
