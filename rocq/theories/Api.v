(** Api: the requests a client can send (pkg/api service definitions, served by
    internal/policy/service.go and internal/relation_graph/service.go), and histories of requests. *)
From Verif Require Import Base Domain Lexer Parser Validate Store Search Explain Yaml Service Dump.

(** Requests of pkg/api PolicyService (api/policy_service.pb.go) and RelationGraph
    (api/relation_graph.pb.go).  [now] is the server's clock when it handles the request; [n] bounds the
    recursion of a search in the model. *)
Inductive request :=
| QCreatePolicy (now : N) (d : option policy_def) (app : string)
| QUpdatePolicy (d : option policy_def) (app : string)
| QDeletePolicy (id : string)
| QGetPolicy (id : string)
| QListPolicyIds
| QSetRelationship (now : N) (pid : string) (r : option relationship) (app : string)
| QDeleteRelationship (pid : string) (r : option relationship)
| QGetRelationship (pid : string) (r : option relationship)
| QFindRelationshipRecords (pid : string) (s : option selector)
| QDeleteRelationships (pid : string) (s : option selector)
| QCheck (n : nat) (pid : string) (a : option access_request)
| QExplainCheck (n : nat) (pid : string) (a : option access_request) (f : format)
| QExpand (n : nat) (pid : string) (root : option rnode) (f : format)
| QDumpRelationships (n : nat) (pid : string) (is_dot : bool).

Inductive response :=
| ACreated (r : policy_record)
| AUpdated
| ADeletedPolicy (found : bool) (count : nat)
| APolicy (r : option policy_record)
| APolicyIds (l : list string)
| ASet (overwritten : bool)
| ADeleted (found : bool)
| ARecord (r : option rel_record)
| ARecords (l : list (option rel_record))
| ACount (n : nat)
| ADecision (b : bool)
| AExplained (b : bool) (t : gtree)
| AExpanded (t : gtree)
| ADumped (l : list dot_stmt).

(** Wraps the result of a method into its response message. *)
Definition respond {A} (p : prog (res A)) (f : A -> response) : prog (res response) :=
  rbind p (fun a => Ret (Ok (f a))).

Definition serve (E : env) (q : request) : prog (res response) :=
  match q with
  | QCreatePolicy now d app => respond (create_policy E now d app) ACreated
  | QUpdatePolicy d app => respond (update_policy E d app) (fun _ => AUpdated)
  | QDeletePolicy id => respond (delete_policy E id) (fun x => ADeletedPolicy (fst x) (snd x))
  | QGetPolicy id => respond (get_policy id) APolicy
  | QListPolicyIds => respond list_policy_ids APolicyIds
  | QSetRelationship now pid r app => respond (set_relationship E now pid r app) ASet
  | QDeleteRelationship pid r => respond (delete_relationship E pid r) ADeleted
  | QGetRelationship pid r => respond (get_relationship E pid r) ARecord
  | QFindRelationshipRecords pid s => respond (find_relationship_records E pid s) ARecords
  | QDeleteRelationships pid s => respond (delete_relationships E pid s) ACount
  | QCheck n pid a => respond (check E n pid a) ADecision
  | QExplainCheck n pid a f =>
      respond (explain_check E n pid a f) (fun x => AExplained (fst x) (snd x))
  | QExpand n pid root f => respond (expand E n pid root f) AExpanded
  | QDumpRelationships n pid is_dot => respond (dump_relationships E n pid is_dot) ADumped
  end.

(** The answer to a request and the store after it. *)
Definition answer (E : env) (q : request) (s : store) : res response := fst (run (serve E q) s).
Definition after (E : env) (q : request) (s : store) : store := snd (run (serve E q) s).

(** The store after a history of requests served one after the other. *)
Definition after_all (E : env) (qs : list request) (s : store) : store :=
  fold_left (fun s q => after E q s) qs s.

(** Stores a server can be in when it serves one request after the other. *)
Definition sequential (E : env) (s : store) : Prop :=
  exists qs, s = after_all E qs empty_store.

(** ** Requests served at the same time

    pkg/server/server.go:47-54 and 69-71: grpc.Server handles each request in its own goroutine, and no
    lock or transaction spans the storage operations of a request (zanzi.go, internal/policy/service.go,
    internal/store/kv_store).  A configuration is the rest of each request and the shared store; a schedule
    names the request that performs the next storage operation. *)

Definition config := (list (prog (res response)) * store)%type.

Fixpoint replace {A} (i : nat) (x : A) (l : list A) : list A :=
  match l, i with
  | [], _ => []
  | _ :: l', O => x :: l'
  | y :: l', S i' => y :: replace i' x l'
  end.

(** Request [i] performs its next operation; a finished or unknown request does nothing. *)
Definition advance (c : config) (i : nat) : config :=
  match nth_error (fst c) i with
  | None => c
  | Some p =>
      match step1 p (snd c) with
      | None => c
      | Some (p', s') => (replace i p' (fst c), s')
      end
  end.

Definition interleave (sched : list nat) (c : config) : config := fold_left advance sched c.

(** All requests have arrived and none has begun. *)
Definition start (E : env) (qs : list request) (s : store) : config := (map (serve E) qs, s).

(** The answer of request [i], once it is finished. *)
Definition answered (c : config) (i : nat) : option (res response) :=
  match nth_error (fst c) i with
  | Some (Ret a) => Some a
  | _ => None
  end.

(** Stores a server can be in: any requests are served at the same time, and the server may stop at any
    point and start again with what is stored. *)
Inductive reachable (E : env) : store -> Prop :=
| re_empty : reachable E empty_store
| re_serve s qs sched : reachable E s -> reachable E (snd (interleave sched (start E qs s))).
