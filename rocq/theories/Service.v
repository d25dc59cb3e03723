(** Service: internal/policy/service.go and internal/relation_graph/service.go *)
From Verif Require Import Base Domain Lexer Parser Validate Store Search Explain Yaml.

(** ** Requests *)

(** api.PolicyDefinition (oneof).  [DYaml None] is a YAML text that does not decode. *)
Inductive policy_def :=
| DPolicy (p : policy)
| DYaml (y : option ydef)
| DUnset.

(** helpers.go:39-57 GetPolicyFromDefinition: a nil definition panics. *)
Definition get_policy_from_definition (d : option policy_def) : res policy :=
  match d with
  | None => Panic
  | Some (DPolicy p) => Ok p
  | Some (DYaml (Some y)) => Ok (map_policy_definition y)
  | Some (DYaml None) => Err EYaml
  | Some DUnset => Err EInvalidVariant
  end.

(** ** internal/policy/service.go *)

(** service.go:30-64 CreatePolicy.  [now] is the time NewPolicyRecord reads
    (pkg/domain/policy.go:7-13). *)
Definition create_policy (E : env) (now : N) (d : option policy_def) (app : string)
    : prog (res policy_record) :=
  rbind (lift (get_policy_from_definition d)) (fun p =>
    pbind (repo_get_policy (p_id p)) (fun fetched =>
      match fetched with
      | Some _ => Ret (Err EPolicyExists)
      | None =>
          rbind (lift (verify_policy E p)) (fun _ =>
            pbind (repo_set_policy (mkPRec p app now)) (fun _ =>
              Ret (Ok (mkPRec p app now))))
      end)).

(** service.go:66-99 UpdatePolicy *)
Definition update_policy (E : env) (d : option policy_def) (app : string) : prog (res unit) :=
  rbind (lift (get_policy_from_definition d)) (fun p =>
    pbind (repo_get_policy (p_id p)) (fun record =>
      match record with
      | None => Ret (Err EPolicyNotFound)
      | Some r =>
          rbind (lift (verify_policy E p)) (fun _ =>
            pbind (repo_set_policy (mkPRec p app (pr_created r))) (fun _ => Ret (Ok tt)))
      end)).

(** helpers.go:12-18 allRelationshipsSelector *)
Definition all_relationships_selector : selector :=
  mkSel (Some OSWild) (Some LSWild) (Some USWild).

(** service.go:101-128 DeletePolicy: found, number of relationships removed *)
Definition delete_policy (E : env) (id : string) : prog (res (bool * nat)) :=
  pbind (repo_delete_policy id) (fun found =>
    if found then
      rbind (repo_delete_relationships E id (Some all_relationships_selector)) (fun n =>
        Ret (Ok (true, n)))
    else Ret (Ok (false, O))).

(** service.go:130-143 GetPolicy *)
Definition get_policy (id : string) : prog (res (option policy_record)) :=
  pbind (repo_get_policy id) (fun r => Ret (Ok r)).

(** service.go:145-164 ListPolicyIds *)
Definition list_policy_ids : prog (res (list string)) :=
  pbind repo_list_policy_ids (fun l => Ret (Ok l)).

(** service.go:166-195 SetRelationship; [now] is read by NewRelationshipRecord
    (pkg/domain/relationship.go:14-21). *)
Definition set_relationship (E : env) (now : N) (pid : string) (r : option relationship)
    (app : string) : prog (res bool) :=
  pbind (repo_get_policy pid) (fun record =>
    match record with
    | None => Ret (Err EPolicyNotFound)
    | Some rec =>
        rbind (lift (allowed_relationship (pr_policy rec) r)) (fun _ =>
          repo_set_relationship E pid r (mkData app now))
    end).

(** service.go:197-210 DeleteRelationship *)
Definition delete_relationship (E : env) (pid : string) (r : option relationship)
    : prog (res bool) := repo_delete_relationship E pid r.

(** service.go:212-225 GetRelationship *)
Definition get_relationship (E : env) (pid : string) (r : option relationship)
    : prog (res (option rel_record)) := repo_get_relationship E pid r.

(** service.go:227-256 FindRelationshipRecords *)
Definition find_relationship_records (E : env) (pid : string) (s : option selector)
    : prog (res (list (option rel_record))) :=
  pbind (repo_get_policy pid) (fun record =>
    match record with
    | None => Ret (Err EPolicyNotFound)
    | Some rec =>
        rbind (lift (valid_selector (pr_policy rec) s)) (fun _ =>
          repo_find_relationship_records E pid s)
    end).

(** service.go:258-271 DeleteRelationships *)
Definition delete_relationships (E : env) (pid : string) (s : option selector)
    : prog (res nat) := repo_delete_relationships E pid s.

(** ** internal/relation_graph/service.go *)

(** api.AccessRequest *)
Record access_request := mkAccess {
  a_object : option entity; a_relation : string; a_subject : option entity }.

(** relation_graph/service.go:30-64: the search that Check and ExplainCheck run. [n] bounds its depth. *)
Definition check_search (E : env) (n : nat) (pid : string) (a : option access_request)
    : prog (res gtree) :=
  pbind (repo_get_policy pid) (fun record =>
    match record with
    | None => Ret (Err EPolicyNotFound)
    | Some rec =>
        match a with
        | None => Ret Panic
        | Some a =>
            search_prog E (pr_policy rec) pid n (NSet (a_object a) (a_relation a))
              (GoalEntity (a_subject a))
        end
    end).

(** relation_graph/service.go:30-78 Check.  The policy searched is [pol.Policy]; its
    relationships are those of [pol.Policy.Id], which is the requested id (PolSet stores a record
    under its own id). *)
Definition check (E : env) (n : nat) (pid : string) (a : option access_request)
    : prog (res bool) :=
  rbind (check_search E n pid a) (fun t => Ret (Ok (is_success (get_result t)))).

(** relation_graph/service.go:80-137 ExplainCheck: the decision and the tree that is rendered *)
Definition explain_check (E : env) (n : nat) (pid : string) (a : option access_request)
    (f : format) : prog (res (bool * gtree)) :=
  rbind (lift (serializer_factory f)) (fun _ =>
    rbind (check_search E n pid a) (fun t =>
      rbind (lift (serialize n f t)) (fun _ =>
        Ret (Ok (is_success (get_result t), t))))).

(** relation_graph/service.go:139-176 Expand: the tree that is rendered; a nil root panics. *)
Definition expand (E : env) (n : nat) (pid : string) (root : option rnode) (f : format)
    : prog (res gtree) :=
  rbind (lift (serializer_factory f)) (fun _ =>
    pbind (repo_get_policy pid) (fun record =>
      match record with
      | None => Ret (Err EPolicyNotFound)
      | Some rec =>
          match root with
          | None => Ret Panic
          | Some nd =>
              rbind (search_prog E (pr_policy rec) pid n nd GoalNone) (fun t =>
                rbind (lift (serialize n f t)) (fun _ => Ret (Ok t)))
          end
      end)).
