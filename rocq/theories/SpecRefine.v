(** Specification of an authorisation service without storage, keys and searches, and of the rules for clients under
    which the server is one. *)
From Coq Require Import Permutation.
From Verif Require Import Base Domain Lexer Store Search Explain Yaml Service Dump Api
  SpecGrammar SpecPolicy SpecStore SpecSearch SpecSafe SpecErrors SpecAccount SpecExpand SpecDump.

(** ** The service *)

(** The policies it knows, and per policy the relationships that are granted, with their data. *)
Record service := mkService { known : pmap; granted : rmap }.

Definition nothing : service := mkService (fun _ => None) (fun _ _ => None).

Definition grants (S : service) (pid : string) (o : entity) (rel : string) (u : subject) : Prop :=
  granted S pid (mkRel (Some o) rel (Some u)) <> None.

(** The subject [a] is a member of [rel] of [o]: the least set closed under the rules of the policy. *)
Definition may (E : env) (S : service) (pid : string) (P : policy) (a o : entity) (rel : string) : Prop :=
  member E P (grants S pid) a o rel.

(** A granted relationship leads from [a] to [b] in the drawing of a policy. *)
Definition links (E : env) (S : service) (pid : string) (a b : string) : Prop :=
  exists r, granted S pid r <> None /\ a = sha E (id_text (source_node r)) /\ b = sha E (id_text (target_node r)).

(** [ideal E S q x S']: in the state [S] the request [q] is answered by [x], and the state is [S'] then. *)
Inductive ideal (E : env) (S : service) : request -> res response -> service -> Prop :=
(* policies *)
| id_create now d app p : defines d p -> known S (p_id p) = None -> well_formed E p ->
    ideal E S (QCreatePolicy now d app) (Ok (ACreated (mkPRec p app now)))
      (mkService (put (known S) (p_id p) (Some (mkPRec p app now))) (granted S))
| id_create_exists now d app p rec : defines d p -> known S (p_id p) = Some rec ->
    ideal E S (QCreatePolicy now d app) (Err EPolicyExists) S
| id_create_faulty now d app p e : defines d p -> known S (p_id p) = None -> policy_fault E p e ->
    ideal E S (QCreatePolicy now d app) (Err e) S
| id_update d app p rec : defines d p -> known S (p_id p) = Some rec -> well_formed E p ->
    ideal E S (QUpdatePolicy d app) (Ok AUpdated)
      (mkService (put (known S) (p_id p) (Some (mkPRec p app (pr_created rec)))) (granted S))
| id_update_unknown d app p : defines d p -> known S (p_id p) = None ->
    ideal E S (QUpdatePolicy d app) (Err EPolicyNotFound) S
| id_update_faulty d app p rec e : defines d p -> known S (p_id p) = Some rec -> policy_fault E p e ->
    ideal E S (QUpdatePolicy d app) (Err e) S
| id_delete id rec l g : known S id = Some rec ->
    SpecStore.lists (granted S) id (fun _ => True) l -> removed (granted S) id (fun _ => True) g ->
    ideal E S (QDeletePolicy id) (Ok (ADeletedPolicy true (length l))) (mkService (put (known S) id None) g)
| id_delete_unknown id : known S id = None -> ideal E S (QDeletePolicy id) (Ok (ADeletedPolicy false 0)) S
| id_get id : ideal E S (QGetPolicy id) (Ok (APolicy (known S id))) S
| id_list l : NoDup l -> (forall id, In id l <-> known S id <> None) -> ideal E S QListPolicyIds (Ok (APolicyIds l)) S
(* relationships *)
| id_set now pid r app rec g : known S pid = Some rec -> admissible (pr_policy rec) r ->
    updated (granted S) pid r (Some (app, now)) g ->
    ideal E S (QSetRelationship now pid (Some r) app) (Ok (ASet (present (granted S pid r)))) (mkService (known S) g)
| id_set_unknown now pid r app : known S pid = None ->
    ideal E S (QSetRelationship now pid r app) (Err EPolicyNotFound) S
| id_set_faulty now pid r app rec e : known S pid = Some rec -> relationship_fault (pr_policy rec) r e ->
    ideal E S (QSetRelationship now pid (Some r) app) (Err e) S
| id_delete_rel pid r g : updated (granted S) pid r None g ->
    ideal E S (QDeleteRelationship pid (Some r)) (Ok (ADeleted (present (granted S pid r)))) (mkService (known S) g)
| id_get_rel pid r : ideal E S (QGetRelationship pid (Some r)) (Ok (ARecord (record_in (granted S) pid r))) S
| id_find pid sel rec l : known S pid = Some rec -> selector_declared (pr_policy rec) sel ->
    SpecStore.lists (granted S) pid (selects sel) l ->
    ideal E S (QFindRelationshipRecords pid (Some sel)) (Ok (ARecords (map (record_in (granted S) pid) l))) S
| id_find_unknown pid sel : known S pid = None -> ideal E S (QFindRelationshipRecords pid sel) (Err EPolicyNotFound) S
| id_find_faulty pid sel rec e : known S pid = Some rec -> ~ selector_declared (pr_policy rec) sel ->
    selector_fault (pr_policy rec) sel e ->
    ideal E S (QFindRelationshipRecords pid (Some sel)) (Err e) S
| id_delete_many pid sel l g : SpecStore.lists (granted S) pid (selects sel) l -> removed (granted S) pid (selects sel) g ->
    ideal E S (QDeleteRelationships pid (Some sel)) (Ok (ACount (length l))) (mkService (known S) g)
(* decisions *)
| id_check n pid o rel a rec b : known S pid = Some rec -> declares (pr_policy rec) (e_res o) rel ->
    (b = true <-> may E S pid (pr_policy rec) a o rel) ->
    ideal E S (QCheck n pid (asks o rel a)) (Ok (ADecision b)) S
| id_check_undeclared n pid o rel a rec : known S pid = Some rec -> ~ declares (pr_policy rec) (e_res o) rel ->
    ideal E S (QCheck n pid (asks o rel a)) (Err ERelationNotFound) S
| id_check_unknown n pid a : known S pid = None -> ideal E S (QCheck n pid a) (Err EPolicyNotFound) S
| id_explain n pid o rel a f rec b t : known S pid = Some rec -> declares (pr_policy rec) (e_res o) rel ->
    (b = true <-> may E S pid (pr_policy rec) a o rel) ->
    honest E (pr_policy rec) (grants S pid) (Some a) (NSet (Some o) rel) t -> (b = true <-> get_result t = RSuccess) ->
    ideal E S (QExplainCheck n pid (asks o rel a) f) (Ok (AExplained b t)) S
| id_explain_undeclared n pid o rel a f rec : known S pid = Some rec -> ~ declares (pr_policy rec) (e_res o) rel ->
    ideal E S (QExplainCheck n pid (asks o rel a) f) (Err ERelationNotFound) S
| id_explain_unknown n pid a f : known S pid = None -> ideal E S (QExplainCheck n pid a f) (Err EPolicyNotFound) S
| id_expand n pid o rel f rec t : known S pid = Some rec -> declares (pr_policy rec) (e_res o) rel ->
    (forall a, SpecExpand.lists t a <-> may E S pid (pr_policy rec) a o rel) ->
    honest E (pr_policy rec) (grants S pid) None (NSet (Some o) rel) t ->
    ideal E S (QExpand n pid (Some (NSet (Some o) rel)) f) (Ok (AExpanded t)) S
| id_expand_undeclared n pid o rel f rec : known S pid = Some rec -> ~ declares (pr_policy rec) (e_res o) rel ->
    ideal E S (QExpand n pid (Some (NSet (Some o) rel)) f) (Err ERelationNotFound) S
| id_expand_unknown n pid root f : known S pid = None -> ideal E S (QExpand n pid root f) (Err EPolicyNotFound) S
(* drawings: only promised for relationships without cycles *)
| id_dump n pid rec x : known S pid = Some rec ->
    (acyclic (links E S pid) -> exists l, x = Ok (ADumped l) /\ shows (links E S pid) l) ->
    ideal E S (QDumpRelationships n pid true) x S
| id_dump_unknown n pid d : known S pid = None -> ideal E S (QDumpRelationships n pid d) (Err EPolicyNotFound) S.

Inductive ideal_history (E : env) : service -> list request -> list (res response) -> service -> Prop :=
| ih_nil S : ideal_history E S [] [] S
| ih_cons S q x S1 qs xs S' : ideal E S q x S1 -> ideal_history E S1 qs xs S' -> ideal_history E S (q :: qs) (x :: xs) S'.

(** Two states with the same contents. *)
Definition same_service (S T : service) : Prop :=
  (forall id, known S id = known T id) /\ forall pid r, granted S pid r = granted T pid r.

(** Two answers that tell a client the same: lists up to order, explanations up to the verdict, expansions up to the
    members, errors up to which of several faults is named. *)
Definition alike (x y : res response) : Prop :=
  match x, y with
  | Ok (APolicyIds l), Ok (APolicyIds l') => Permutation l l'
  | Ok (ARecords l), Ok (ARecords l') => Permutation l l'
  | Ok (AExplained b _), Ok (AExplained b' _) => b = b'
  | Ok (AExpanded t), Ok (AExpanded t') => forall a, SpecExpand.lists t a <-> SpecExpand.lists t' a
  | Ok a, Ok a' => a = a'
  | Err _, Err _ => True
  | _, _ => False
  end.

Definition draws (q : request) : Prop := match q with QDumpRelationships _ _ _ => True | _ => False end.

(** The request with the step bound [n] of the model. *)
Definition budget (n : nat) (q : request) : request :=
  match q with
  | QCheck _ pid a => QCheck n pid a
  | QExplainCheck _ pid a f => QExplainCheck n pid a f
  | QExpand _ pid root f => QExpand n pid root f
  | QDumpRelationships _ pid d => QDumpRelationships n pid d
  | _ => q
  end.

(** ** The rules *)

(** What the clients have agreed on: a character that begins and ends all ids and occurs in no name, the names of the
    relations that expressions follow to other objects, the one policy of each relationship, and the versions of each
    policy. *)
Record rules := mkRules {
  mark : ascii;
  followed : string -> Prop;
  home : relationship -> string;
  version : string -> policy -> Prop }.

Definition tidy_name (R : rules) (s : string) : Prop := lacks (mark R) s /\ lacks "/" s.

Definition tidy_entity (R : rules) (e : entity) : Prop :=
  tidy_name R (e_res e) /\ delimited (mark R) (e_id e) /\ lacks "/" (e_id e).

Definition tidy_subject (R : rules) (rel : string) (u : subject) : Prop :=
  match u with
  | SEntity e => tidy_entity R e
  | SEntitySet (Some e) rel' => tidy_entity R e /\ tidy_name R rel' /\ rel' <> ""
  | SResourceSet rs => tidy_name R rs /\ ~ followed R rel
  | SEntitySet None _ | SUnset => False
  end.

Record tidy_relationship (R : rules) (pid : string) (r : relationship) : Prop := {
  tr_home : home R r = pid;
  tr_parts : exists o u, r_object r = Some o /\ r_subject r = Some u /\ tidy_entity R o /\ tidy_subject R (r_relation r) u;
  tr_relation : tidy_name R (r_relation r) /\ r_relation r <> "" }.

Record tidy_policy (E : env) (R : rules) (p : policy) : Prop := {
  tp_complete : complete_policy p;
  tp_restricted : restricted p;
  tp_standard : standard E p;
  tp_union : union_only E p;
  tp_resources : forall rs, declares_resource p rs -> tidy_name R rs;
  tp_relations : forall rs rl, declares p rs rl -> tidy_name R rl /\ rl <> "";
  tp_objects : ttu_restricted E p;
  tp_followed : forall ts, tupleset E p ts -> followed R ts;
  tp_version : version R (p_id p) p }.

Definition shown_as_text (f : format) : Prop := f = FSpew \/ f = FDot.

Definition tidy (E : env) (R : rules) (q : request) : Prop :=
  match q with
  | QCreatePolicy _ d _ => exists p, defines d p /\ tidy_policy E R p
  | QUpdatePolicy d _ => exists p, defines d p /\ tidy_policy E R p /\
      forall p' r, version R (p_id p) p' -> admissible p' r -> admissible p r
  | QSetRelationship _ pid r _ | QDeleteRelationship pid r | QGetRelationship pid r =>
      exists x, r = Some x /\ tidy_relationship R pid x
  | QFindRelationshipRecords _ sel => exists x, sel = Some x /\ complete_selector x /\ plain_selector x /\
      s_subj x <> Some (USSubject (Some SUnset))
  | QDeleteRelationships _ sel => exists x, sel = Some x /\ complete_selector x
  | QCheck _ _ a => exists o rel u, a = asks o rel u /\ tidy_entity R o
  | QExplainCheck _ _ a f => (exists o rel u, a = asks o rel u /\ tidy_entity R o) /\ shown_as_text f
  | QExpand _ _ root f => (exists o rel, root = Some (NSet (Some o) rel) /\ tidy_entity R o) /\ shown_as_text f
  | QDumpRelationships _ _ d => d = true
  | QDeletePolicy _ | QGetPolicy _ | QListPolicyIds => True
  end.
