(** Blame: the exported errors that a client in the same process finds in an error (errors.Is).

    The services wrap errors with fmt.Errorf.  An error keeps what is wrapped with %w (Go 1.21, go.mod:5: also several
    in one call) and loses what is only printed with %v.  The errors of internal/policy/errors.go and
    internal/relation_graph/errors.go are not exported to clients, so three remain: api.ErrInternal and
    api.ErrInvalidRequest (pkg/api/errors.go:5-6) and domain.ErrInvalidVariant (pkg/domain/errors.go:7).  Errors of
    the storage, of the YAML decoder, of encoding/json and of gographviz are taken to wrap none of them.

    Each method is written again, with the operations in the phases between which its errors are wrapped.
    BlameFacts.v proves that without the marks these are the methods of Service.v and Dump.v. *)
From Verif Require Import Base Domain Lexer Parser Validate Store Search Explain Yaml Service Dump Api.

Inductive mark := MInternal | MInvalidRequest | MInvalidVariant.

(** [res] with the marks of an error. *)
Inductive marked (A : Type) :=
| MOk (a : A)
| MErr (ms : list mark) (e : err)
| MPanic
| MFuel.
Arguments MOk {A} a.
Arguments MErr {A} ms e.
Arguments MPanic {A}.
Arguments MFuel {A}.

(** A method: operations of the repositories in phases.  If one of the operations of a phase fails, the method returns its
    error with the marks of the phase. *)
Inductive phases (A : Type) : Type :=
| Done (x : marked A)
| Phase (B : Type) (ms : list mark) (p : prog B) (k : B -> phases A).
Arguments Done {A} x.
Arguments Phase {A B} ms p k.

(** An error that is passed on with %w and further marks. *)
Definition own_marks (e : err) : list mark :=
  match e with EInvalidVariant => [MInvalidVariant] | _ => [] end.
Definition wrap {A} (ms : list mark) (x : res A) : marked A :=
  match x with
  | Ok a => MOk a
  | Err e => MErr (ms ++ own_marks e) e
  | Panic => MPanic
  | Fuel => MFuel
  end.

Definition when {A B} (x : marked A) (k : A -> phases B) : phases B :=
  match x with
  | MOk a => k a
  | MErr ms e => Done (MErr ms e)
  | MPanic => Done MPanic
  | MFuel => Done MFuel
  end.

(** ** internal/policy *)

(** service.go:30-64 CreatePolicy: errors are wrapped without marks (36, 43, 46, 52, 58). *)
Definition m_create_policy (E : env) (now : N) (d : option policy_def) (app : string) : phases policy_record :=
  when (wrap [] (get_policy_from_definition d)) (fun p =>
    Phase [] (repo_get_policy (p_id p)) (fun fetched =>
      match fetched with
      | Some _ => Done (MErr [] EPolicyExists)
      | None =>
          when (wrap [] (verify_policy E p)) (fun _ =>
            Phase [] (repo_set_policy (mkPRec p app now)) (fun _ => Done (MOk (mkPRec p app now))))
      end)).

(** service.go:66-99 UpdatePolicy (72, 79, 82, 88, 95) *)
Definition m_update_policy (E : env) (d : option policy_def) (app : string) : phases unit :=
  when (wrap [] (get_policy_from_definition d)) (fun p =>
    Phase [] (repo_get_policy (p_id p)) (fun record =>
      match record with
      | None => Done (MErr [] EPolicyNotFound)
      | Some r =>
          when (wrap [] (verify_policy E p)) (fun _ =>
            Phase [] (repo_set_policy (mkPRec p app (pr_created r))) (fun _ => Done (MOk tt)))
      end)).

(** service.go:101-128 DeletePolicy (109, 121) *)
Definition m_delete_policy (E : env) (id : string) : phases (bool * nat) :=
  Phase [] (repo_delete_policy id) (fun found =>
    if found then
      Phase [] (repo_delete_relationships E id (Some all_relationships_selector)) (fun n =>
        when (wrap [] n) (fun n => Done (MOk (true, n))))
    else Done (MOk (false, O))).

(** service.go:130-143 GetPolicy (137), 145-164 ListPolicyIds (152) *)
Definition m_get_policy (id : string) : phases (option policy_record) :=
  Phase [] (repo_get_policy id) (fun r => Done (MOk r)).
Definition m_list_policy_ids : phases (list string) :=
  Phase [] repo_list_policy_ids (fun l => Done (MOk l)).

(** spec.go:249-270 SubjectRestrictionSpec.Satisfies: line 270 wraps ErrSubjectNotAllowed, and the error of 266 for an unset
    restriction or the one of 297 that has no mark. *)
Definition m_subject_restriction_spec (p : policy) (r : relationship) : marked unit :=
  match r_object r with
  | None => MPanic
  | Some o =>
      match lut_get_relation p (e_res o) (r_relation r) with
      | None => MErr [] ERelationNotFound
      | Some rl =>
          match rl_restr rl with
          | None => MPanic
          | Some SRUniversal => MOk tt
          | Some (SRSet l) => wrap [] (satisfies_restriction_set (r_subject r) l)
          | Some SRUnset => MErr [MInvalidVariant] ESubjectNotAllowed
          end
      end
  end.

(** spec.go:222-245 AllowedRelationshipSpec.Satisfies (225), errors of checkSymbols (190-216) *)
Definition m_allowed_relationship (p : policy) (r : option relationship) : marked unit :=
  match r with
  | None => MPanic
  | Some r =>
      match wrap [] (check_symbols p r) with
      | MOk _ => m_subject_restriction_spec p r
      | x => x
      end
  end.

(** service.go:166-195 SetRelationship (173, 175, 183, 189) *)
Definition m_set_relationship (E : env) (now : N) (pid : string) (r : option relationship) (app : string) : phases bool :=
  Phase [] (repo_get_policy pid) (fun record =>
    match record with
    | None => Done (MErr [] EPolicyNotFound)
    | Some rec =>
        when (m_allowed_relationship (pr_policy rec) r) (fun _ =>
          Phase [] (repo_set_relationship E pid r (mkData app now)) (fun b => Done (wrap [] b)))
    end).

(** service.go:197-210 DeleteRelationship (204), 212-225 GetRelationship (219) *)
Definition m_delete_relationship (E : env) (pid : string) (r : option relationship) : phases bool :=
  Phase [] (repo_delete_relationship E pid r) (fun b => Done (wrap [] b)).
Definition m_get_relationship (E : env) (pid : string) (r : option relationship) : phases (option rel_record) :=
  Phase [] (repo_get_relationship E pid r) (fun x => Done (wrap [] x)).

(** spec.go:359-378 validObjectSelector: line 374 prints ErrInvalidVariant with %v. *)
Definition m_valid_object_selector (p : policy) (s : option obj_selector) : marked unit :=
  match s with
  | Some OSUnset => MErr [] EInvalidVariant
  | _ => wrap [] (valid_object_selector p s)
  end.

(** spec.go:340-357 ValidSelectorSpec.Satisfies (343, 348, 353; 390, 411, 417, 422) *)
Definition m_valid_selector (p : policy) (s : option selector) : marked unit :=
  match s with
  | None => MPanic
  | Some s =>
      match m_valid_object_selector p (s_obj s) with
      | MOk _ =>
          match wrap [] (valid_relation_selector p (s_obj s) (s_rel s)) with
          | MOk _ => wrap [] (valid_subject_selector p (s_subj s))
          | x => x
          end
      | x => x
      end
  end.

(** service.go:227-256 FindRelationshipRecords: 234, 237, 243, 248 *)
Definition m_find_relationship_records (E : env) (pid : string) (s : option selector) : phases (list (option rel_record)) :=
  Phase [] (repo_get_policy pid) (fun record =>
    match record with
    | None => Done (MErr [] EPolicyNotFound)
    | Some rec =>
        when (m_valid_selector (pr_policy rec) s) (fun _ =>
          Phase [] (repo_find_relationship_records E pid s) (fun l => Done (wrap [] l)))
    end).

(** service.go:258-271 DeleteRelationships (265); the selector's errors are those of selector_spec.go:30, 39, 50. *)
Definition m_delete_relationships (E : env) (pid : string) (s : option selector) : phases nat :=
  Phase [] (repo_delete_relationships E pid s) (fun n => Done (wrap [] n)).

(** ** internal/relation_graph *)

(** service.go:33-64 of Check and 88-119 of ExplainCheck: errors of GetPolicy are marked (35, 38, 90, 93), errors of the search
    are returned as they are (65-67, 118-120). *)
Definition m_check_search {A} (E : env) (n : nat) (pid : string) (a : option access_request) (k : gtree -> phases A) : phases A :=
  Phase [MInternal] (repo_get_policy pid) (fun record =>
    match record with
    | None => Done (MErr [MInvalidRequest] EPolicyNotFound)
    | Some rec =>
        match a with
        | None => Done MPanic
        | Some a =>
            Phase [] (search_prog E (pr_policy rec) pid n (NSet (a_object a) (a_relation a)) (GoalEntity (a_subject a)))
              (fun t => when (wrap [] t) k)
        end
    end).

(** service.go:30-78 Check *)
Definition m_check (E : env) (n : nat) (pid : string) (a : option access_request) : phases bool :=
  m_check_search E n pid a (fun t => Done (MOk (is_success (get_result t)))).

(** service.go:80-137 ExplainCheck: a format that is not known is an invalid request (85), a tree that cannot be written
    an internal error (130). *)
Definition m_explain_check (E : env) (n : nat) (pid : string) (a : option access_request) (f : format) : phases (bool * gtree) :=
  when (wrap [MInvalidRequest] (serializer_factory f)) (fun _ =>
    m_check_search E n pid a (fun t =>
      when (wrap [MInternal] (serialize n f t)) (fun _ => Done (MOk (is_success (get_result t), t))))).

(** service.go:139-176 Expand (144, 149, 152, 164, 169) *)
Definition m_expand (E : env) (n : nat) (pid : string) (root : option rnode) (f : format) : phases gtree :=
  when (wrap [MInvalidRequest] (serializer_factory f)) (fun _ =>
    Phase [MInternal] (repo_get_policy pid) (fun record =>
      match record with
      | None => Done (MErr [MInvalidRequest] EPolicyNotFound)
      | Some rec =>
          match root with
          | None => Done MPanic
          | Some nd =>
              Phase [] (search_prog E (pr_policy rec) pid n nd GoalNone) (fun t =>
                when (wrap [] t) (fun t =>
                  when (wrap [MInternal] (serialize n f t)) (fun _ => Done (MOk t))))
          end
      end)).

(** service.go:178-211 DumpRelationships (183, 186, 192, 201, 207): a format that is not known has the mark of the variant only. *)
Definition m_dump_relationships (E : env) (n : nat) (pid : string) (is_dot : bool) : phases (list dot_stmt) :=
  Phase [MInternal] (repo_get_policy pid) (fun record =>
    match record with
    | None => Done (MErr [MInvalidRequest] EPolicyNotFound)
    | Some _ =>
        Phase [] (EdgeList pid (fun es => Ret es)) (fun es =>
          when (wrap [] (walk E (list_edges es))) (fun x =>
            Done (wrap [] (if is_dot then dump_dot n x else Err EInvalidVariant))))
    end).

(** ** Requests *)

Fixpoint told {A B} (ph : phases A) (f : A -> B) : phases B :=
  match ph with
  | Done (MOk a) => Done (MOk (f a))
  | Done (MErr ms e) => Done (MErr ms e)
  | Done MPanic => Done MPanic
  | Done MFuel => Done MFuel
  | Phase ms p k => Phase ms p (fun b => told (k b) f)
  end.

Definition m_serve (E : env) (q : request) : phases response :=
  match q with
  | QCreatePolicy now d app => told (m_create_policy E now d app) ACreated
  | QUpdatePolicy d app => told (m_update_policy E d app) (fun _ => AUpdated)
  | QDeletePolicy id => told (m_delete_policy E id) (fun x => ADeletedPolicy (fst x) (snd x))
  | QGetPolicy id => told (m_get_policy id) APolicy
  | QListPolicyIds => told m_list_policy_ids APolicyIds
  | QSetRelationship now pid r app => told (m_set_relationship E now pid r app) ASet
  | QDeleteRelationship pid r => told (m_delete_relationship E pid r) ADeleted
  | QGetRelationship pid r => told (m_get_relationship E pid r) ARecord
  | QFindRelationshipRecords pid s => told (m_find_relationship_records E pid s) ARecords
  | QDeleteRelationships pid s => told (m_delete_relationships E pid s) ACount
  | QCheck n pid a => told (m_check E n pid a) ADecision
  | QExplainCheck n pid a f => told (m_explain_check E n pid a f) (fun x => AExplained (fst x) (snd x))
  | QExpand n pid root f => told (m_expand E n pid root f) AExpanded
  | QDumpRelationships n pid is_dot => told (m_dump_relationships E n pid is_dot) ADumped
  end.

(** ** Executions *)

(** The number of operations that a program performs alone. *)
Fixpoint operations {A} (p : prog A) (s : store) : nat :=
  match p with
  | Ret _ => O
  | PolGet id k => S (operations (k (kv_get scmp id (st_pol s))) s)
  | PolHas id k => S (operations (k (match kv_get scmp id (st_pol s) with Some _ => true | None => false end)) s)
  | PolSet id r k => S (operations k (mkStore (kv_set scmp id r (st_pol s)) (st_edges s) (st_data s)))
  | PolDel id k => S (operations k (mkStore (kv_del scmp id (st_pol s)) (st_edges s) (st_data s)))
  | PolIds k => S (operations (k (map fst (st_pol s))) s)
  | EdgeGet pid key k => S (operations (k (kv_get ecmp (pid, key) (st_edges s))) s)
  | EdgeSet pid key e k => S (operations k (mkStore (st_pol s) (kv_set ecmp (pid, key) e (st_edges s)) (st_data s)))
  | EdgeDel pid key k => S (operations k (mkStore (st_pol s) (kv_del ecmp (pid, key) (st_edges s)) (st_data s)))
  | EdgeList pid k => S (operations (k (edges_of pid s)) s)
  | DataGet key k => S (operations (k (kv_get pcmp key (st_data s))) s)
  | DataSet key d k => S (operations k (mkStore (st_pol s) (st_edges s) (kv_set pcmp key d (st_data s))))
  | DataDel key k => S (operations k (mkStore (st_pol s) (st_edges s) (kv_del pcmp key (st_data s))))
  end.

(** What a method returns alone, when the storage works and when operation number [n] (from 0) fails. *)
Fixpoint m_run {A} (ph : phases A) (s : store) : marked A * store :=
  match ph with
  | Done x => (x, s)
  | Phase ms p k => m_run (k (fst (run p s))) (snd (run p s))
  end.

Fixpoint m_hit {A} (n : nat) (ph : phases A) (s : store) : marked A :=
  match ph with
  | Done x => x
  | Phase ms p k =>
      if Nat.ltb n (operations p s) then MErr ms EStorage
      else m_hit (n - operations p s) (k (fst (run p s))) (snd (run p s))
  end.

(** What a method can return beside any other requests: each operation returns anything that its type has, or fails. *)
Fixpoint can_return {A} (p : prog A) (a : A) : Prop :=
  match p with
  | Ret b => a = b
  | PolGet _ k => exists x, can_return (k x) a
  | PolHas _ k => exists x, can_return (k x) a
  | PolSet _ _ k | PolDel _ k | EdgeSet _ _ _ k | EdgeDel _ _ k | DataSet _ _ k | DataDel _ k => can_return k a
  | PolIds k => exists x, can_return (k x) a
  | EdgeGet _ _ k => exists x, can_return (k x) a
  | EdgeList _ k => exists x, can_return (k x) a
  | DataGet _ k => exists x, can_return (k x) a
  end.

Fixpoint m_can {A} (ph : phases A) (x : marked A) : Prop :=
  match ph with
  | Done y => x = y
  | Phase ms p k => x = MErr ms EStorage \/ exists b, can_return p b /\ m_can (k b) x
  end.

Definition m_answer (E : env) (q : request) (s : store) : marked response := fst (m_run (m_serve E q) s).
