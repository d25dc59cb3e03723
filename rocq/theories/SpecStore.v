(** Specification of the policy map, of selectors and of the stored relationships. *)
From Verif Require Import Base Domain Lexer Validate Store Search Explain Yaml Service Dump Api SpecGrammar SpecPolicy.

(** ** What a store holds *)

(** The relationships of a policy: the edges stored under its id, read back. *)
Definition relationships (s : store) (pid : string) : list relationship :=
  map (fun x => from_internal (snd x)) (edges_of pid s).

(** ** Definitions *)

(** The policy a definition stands for. *)
Inductive defines : option policy_def -> policy -> Prop :=
| def_policy p : defines (Some (DPolicy p)) p
| def_yaml y : defines (Some (DYaml (Some y))) (map_policy_definition y).

(** All expression fields of the policy are set. *)
Definition complete_policy (p : policy) : Prop :=
  forall rs l, relation_of p rs l ->
    rl_expr l <> None /\ forall t, rl_expr l = Some (XTree t) -> whole t.

Definition complete_definition (d : option policy_def) : Prop :=
  d <> None /\ forall p, d = Some (DPolicy p) -> complete_policy p.

(** An answer that is not a response: an error or a panic. *)
Definition failed {A} (x : res A) : Prop := forall a, x <> Ok a.

(** A response or a returned error: not a panic, not an exhausted model budget. *)
Definition returned {A} (x : res A) : Prop := (exists a, x = Ok a) \/ (exists e, x = Err e).

(** ** The policy map *)

Definition pmap := string -> option policy_record.

Definition put (m : pmap) (id : string) (v : option policy_record) : pmap :=
  fun id' => if String.eqb id' id then v else m id'.

(** Requests that do not concern policies as such. *)
Definition about_relationships (q : request) : Prop :=
  match q with
  | QCreatePolicy _ _ _ | QUpdatePolicy _ _ | QDeletePolicy _ | QGetPolicy _ | QListPolicyIds => False
  | _ => True
  end.

(** [policy_step E m q x m']: on the map [m] the request [q] is answered by [x] and leaves [m']. *)
Inductive policy_step (E : env) (m : pmap) : request -> res response -> pmap -> Prop :=
| ps_create now d app p :
    defines d p -> m (p_id p) = None -> well_formed E p ->
    policy_step E m (QCreatePolicy now d app) (Ok (ACreated (mkPRec p app now)))
      (put m (p_id p) (Some (mkPRec p app now)))
| ps_create_exists now d app p r :
    defines d p -> m (p_id p) = Some r ->
    policy_step E m (QCreatePolicy now d app) (Err EPolicyExists) m
| ps_create_bad now d app x :
    (forall p, defines d p -> m (p_id p) = None /\ ~ well_formed E p) -> failed x ->
    policy_step E m (QCreatePolicy now d app) x m
| ps_update d app p r :
    defines d p -> m (p_id p) = Some r -> well_formed E p ->
    policy_step E m (QUpdatePolicy d app) (Ok AUpdated)
      (put m (p_id p) (Some (mkPRec p app (pr_created r))))
| ps_update_missing d app p :
    defines d p -> m (p_id p) = None ->
    policy_step E m (QUpdatePolicy d app) (Err EPolicyNotFound) m
| ps_update_bad d app x :
    (forall p, defines d p -> m (p_id p) <> None /\ ~ well_formed E p) -> failed x ->
    policy_step E m (QUpdatePolicy d app) x m
| ps_delete id r n :
    m id = Some r ->
    policy_step E m (QDeletePolicy id) (Ok (ADeletedPolicy true n)) (put m id None)
| ps_delete_missing id :
    m id = None ->
    policy_step E m (QDeletePolicy id) (Ok (ADeletedPolicy false 0)) m
| ps_get id :
    policy_step E m (QGetPolicy id) (Ok (APolicy (m id))) m
| ps_list l :
    NoDup l -> (forall id, In id l <-> m id <> None) ->
    policy_step E m QListPolicyIds (Ok (APolicyIds l)) m
| ps_other q x :
    about_relationships q -> policy_step E m q x m.

(** A history of requests and answers. *)
Inductive policy_history (E : env) : pmap -> list request -> list (res response) -> pmap -> Prop :=
| ph_nil m : policy_history E m [] [] m
| ph_cons m q x m1 m2 qs xs m' :
    policy_step E m q x m1 -> (forall id, m1 id = m2 id) -> policy_history E m2 qs xs m' ->
    policy_history E m (q :: qs) (x :: xs) m'.

(** The answers of the server to a history. *)
Fixpoint answers (E : env) (qs : list request) (s : store) : list (res response) :=
  match qs with
  | [] => []
  | q :: qs' => answer E q s :: answers E qs' (after E q s)
  end.

(** ** Selectors *)

Definition subject_resource (u : subject) : option string :=
  match u with
  | SEntity e => Some (e_res e)
  | SEntitySet (Some e) _ => Some (e_res e)
  | SResourceSet rs => Some rs
  | SEntitySet None _ | SUnset => None
  end.

Definition selects_object (s : obj_selector) (r : relationship) : Prop :=
  match s with
  | OSObject e => r_object r = e
  | OSResource rs => exists o, r_object r = Some o /\ e_res o = rs
  | OSWild => True
  | OSUnset => False
  end.

Definition selects_relation (s : rel_selector) (r : relationship) : Prop :=
  match s with
  | LSName n => r_relation r = n
  | LSWild => True
  | LSUnset => False
  end.

Definition selects_subject (s : subj_selector) (r : relationship) : Prop :=
  match s with
  | USSubject u => r_subject r = u
  | USResource rs => exists u, r_subject r = Some u /\ subject_resource u = Some rs
  | USWild => True
  | USUnset => False
  end.

Definition selects (sel : selector) (r : relationship) : Prop :=
  exists o l u, s_obj sel = Some o /\ s_rel sel = Some l /\ s_subj sel = Some u /\
    selects_object o r /\ selects_relation l r /\ selects_subject u r.

(** A selector message with all its parts. *)
Definition complete_selector (sel : selector) : Prop :=
  (exists o, s_obj sel = Some o /\ o <> OSUnset /\ o <> OSObject None) /\
  (exists l, s_rel sel = Some l /\ l <> LSUnset) /\
  (exists u, s_subj sel = Some u /\ u <> USUnset /\ u <> USSubject None).

(** Every name in the selector is declared by the policy. *)
Definition selector_declared (p : policy) (sel : selector) : Prop :=
  match s_obj sel with
  | Some (OSObject (Some e)) => declares_resource p (e_res e)
  | Some (OSResource rs) => declares_resource p rs
  | _ => True
  end /\
  match s_rel sel with
  | Some (LSName n) =>
      match s_obj sel with
      | Some (OSObject (Some e)) => declares p (e_res e) n
      | Some (OSResource rs) => declares p rs n
      | _ => exists rs, declares p rs n
      end
  | _ => True
  end /\
  match s_subj sel with
  | Some (USSubject (Some u)) => subject_declared p u
  | Some (USResource rs) => declares_resource p rs
  | _ => True
  end.

(** ** Storage keys *)

(** The text that is hashed for an object and relation, and for a subject. *)
Definition object_text (r : relationship) : string :=
  match r_object r with Some o => e_res o +++ e_id o +++ r_relation r | None => "" end.

Definition subject_text (r : relationship) : string :=
  match r_subject r with
  | Some (SEntity e) => e_res e +++ e_id e
  | Some (SEntitySet (Some e) rel) => e_res e +++ e_id e +++ rel
  | Some (SResourceSet rs) => rs
  | _ => ""
  end.

(** Two relationships whose storage keys are equal. *)
Definition same_key (E : env) (r r' : relationship) : Prop :=
  sha E (object_text r) = sha E (object_text r') /\ sha E (subject_text r) = sha E (subject_text r').

(** Relationships named by a request. *)
Inductive mentions : request -> string -> relationship -> Prop :=
| me_set now pid r app : mentions (QSetRelationship now pid (Some r) app) pid r
| me_delete pid r : mentions (QDeleteRelationship pid (Some r)) pid r
| me_get pid r : mentions (QGetRelationship pid (Some r)) pid r.

(** No two different relationships named in the history, in the same policy or in two policies, share
    their storage key. *)
Definition distinct_keys (E : env) (qs : list request) : Prop :=
  forall q q' pid pid' r r', In q qs -> In q' qs -> mentions q pid r -> mentions q' pid' r' ->
    complete_relationship r -> complete_relationship r' -> same_key E r r' -> pid = pid' /\ r = r'.

(** ** The relationship map *)

(** Per policy, the app data and creation time of each relationship that is set. *)
Definition rmap := string -> relationship -> option (string * N).

Definition present {A} (o : option A) : bool := match o with Some _ => true | None => false end.

Definition record_in (m : rmap) (pid : string) (r : relationship) : option rel_record :=
  match m pid r with
  | Some (app, created) => Some (mkRRec pid r created app)
  | None => None
  end.

(** [m'] is [m] except at one relationship. *)
Definition updated (m : rmap) (pid : string) (r : relationship) (v : option (string * N)) (m' : rmap) : Prop :=
  m' pid r = v /\ forall pid' r', pid' <> pid \/ r' <> r -> m' pid' r' = m pid' r'.

(** [m'] is [m] without the relationships of [pid] in [P]. *)
Definition removed (m : rmap) (pid : string) (P : relationship -> Prop) (m' : rmap) : Prop :=
  (forall r, P r -> m' pid r = None) /\
  forall pid' r, pid' <> pid \/ ~ P r -> m' pid' r = m pid' r.

(** [l] lists exactly the relationships of [pid] in [P], once each. *)
Definition lists (m : rmap) (pid : string) (P : relationship -> Prop) (l : list relationship) : Prop :=
  NoDup l /\ forall r, In r l <-> m pid r <> None /\ P r.

Definition parts_set (sel : selector) : Prop :=
  (exists o, s_obj sel = Some o /\ o <> OSUnset) /\ (exists l, s_rel sel = Some l /\ l <> LSUnset) /\
  (exists u, s_subj sel = Some u /\ u <> USUnset).

(** [rel_step m q x m']: on the map [m] the request [q] is answered by [x] and leaves [m']. *)
Inductive rel_step (m : rmap) : request -> res response -> rmap -> Prop :=
| rs_set now pid r app m' :
    updated m pid r (Some (app, now)) m' ->
    rel_step m (QSetRelationship now pid (Some r) app) (Ok (ASet (present (m pid r)))) m'
| rs_set_failed now pid r app x :
    failed x -> rel_step m (QSetRelationship now pid r app) x m
| rs_delete pid r m' :
    complete_relationship r -> updated m pid r None m' ->
    rel_step m (QDeleteRelationship pid (Some r)) (Ok (ADeleted (present (m pid r)))) m'
| rs_delete_failed pid r x :
    (forall r', r = Some r' -> ~ complete_relationship r') -> failed x ->
    rel_step m (QDeleteRelationship pid r) x m
| rs_get pid r :
    complete_relationship r ->
    rel_step m (QGetRelationship pid (Some r)) (Ok (ARecord (record_in m pid r))) m
| rs_get_failed pid r x :
    (forall r', r = Some r' -> ~ complete_relationship r') -> failed x ->
    rel_step m (QGetRelationship pid r) x m
| rs_find pid sel l :
    lists m pid (selects sel) l ->
    rel_step m (QFindRelationshipRecords pid (Some sel)) (Ok (ARecords (map (record_in m pid) l))) m
| rs_find_failed pid sel x :
    failed x -> rel_step m (QFindRelationshipRecords pid sel) x m
| rs_delete_many pid sel l m' :
    parts_set sel -> lists m pid (selects sel) l -> removed m pid (selects sel) m' ->
    rel_step m (QDeleteRelationships pid (Some sel)) (Ok (ACount (length l))) m'
| rs_delete_many_failed pid sel x :
    (forall sel', sel = Some sel' -> ~ parts_set sel') -> failed x ->
    rel_step m (QDeleteRelationships pid sel) x m
| rs_delete_policy id l m' :
    lists m id (fun _ => True) l -> removed m id (fun _ => True) m' ->
    rel_step m (QDeletePolicy id) (Ok (ADeletedPolicy true (length l))) m'
| rs_delete_policy_missing id :
    (forall r, m id r = None) -> rel_step m (QDeletePolicy id) (Ok (ADeletedPolicy false 0)) m
| rs_create now d app x : rel_step m (QCreatePolicy now d app) x m
| rs_update d app x : rel_step m (QUpdatePolicy d app) x m
| rs_get_policy id x : rel_step m (QGetPolicy id) x m
| rs_ids x : rel_step m QListPolicyIds x m
| rs_check n pid a x : rel_step m (QCheck n pid a) x m
| rs_explain n pid a f x : rel_step m (QExplainCheck n pid a f) x m
| rs_expand n pid nd f x : rel_step m (QExpand n pid nd f) x m
| rs_dump n pid b x : rel_step m (QDumpRelationships n pid b) x m.

Inductive rel_history : rmap -> list request -> list (res response) -> rmap -> Prop :=
| rh_nil m : rel_history m [] [] m
| rh_cons m q x m1 qs xs m' :
    rel_step m q x m1 -> rel_history m1 qs xs m' -> rel_history m (q :: qs) (x :: xs) m'.

(** The policy whose relationships a request may write. *)
Definition writes_policy (q : request) (pid : string) : Prop :=
  match q with
  | QSetRelationship _ p _ _ | QDeleteRelationship p _ | QDeleteRelationships p _ | QDeletePolicy p => p = pid
  | _ => False
  end.

(** Requests that read the graph of a policy. *)
Definition graph_request (q : request) (pid : string) : Prop :=
  match q with
  | QCheck _ p _ | QExplainCheck _ p _ _ | QExpand _ p _ _ | QDumpRelationships _ p _ => p = pid
  | _ => False
  end.

(** Selectors without an entity-set subject and without a relation name under any object. *)
Definition plain_selector (sel : selector) : Prop :=
  (forall e rel, s_subj sel <> Some (USSubject (Some (SEntitySet e rel)))) /\
  (forall n, s_rel sel = Some (LSName n) -> s_obj sel <> Some OSWild).
