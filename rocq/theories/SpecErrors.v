(** Specification of what each error says about the request and the stored policies, independent of the validators and
    of the search. *)
From Verif Require Import Base Domain Lexer Store Search Explain Yaml Service Dump Api SpecGrammar SpecPolicy SpecStore SpecSearch.

(** GetPolicy shows [rec] under the id, or shows that there is none. *)
Definition shown (E : env) (s : store) (pid : string) (rec : policy_record) : Prop :=
  answer E (QGetPolicy pid) s = Ok (APolicy (Some rec)).
Definition absent (E : env) (s : store) (pid : string) : Prop :=
  answer E (QGetPolicy pid) s = Ok (APolicy None).

(** What is wrong with a policy. *)
Definition policy_fault (E : env) (p : policy) (e : err) : Prop :=
  match e with
  | EDuplicateDefinition =>
      ~ NoDup (map rs_name (p_resources p)) \/
      exists r, In r (p_resources p) /\ ~ NoDup (map rl_name (rs_relations r))
  | ESubjectRestriction => exists rs l, relation_of p rs l /\ ~ restrictions_declared p (rl_restr l)
  | ERelExpTree =>
      exists rs l t ru, relation_of p rs l /\ expression E l t /\ occurs ru t /\ ru <> RUnset /\ ~ rule_declared p rs ru
  | EParse => exists rs l x, relation_of p rs l /\ rl_expr l = Some (XExpr x) /\ forall t, ~ denotes E x t
  | EInvalidVariant =>
      exists rs l, relation_of p rs l /\
        (rl_expr l = Some XUnset \/ exists t, rl_expr l = Some (XTree t) /\ occurs RUnset t)
  | _ => False
  end.

(** What is wrong with a relationship of a policy. *)
Definition relationship_fault (p : policy) (r : relationship) (e : err) : Prop :=
  match e with
  | EResourceNotFound =>
      (exists o, r_object r = Some o /\ ~ declares_resource p (e_res o)) \/
      (exists u, r_subject r = Some (SEntity u) /\ ~ declares_resource p (e_res u)) \/
      (exists rs, r_subject r = Some (SResourceSet rs) /\ ~ declares_resource p rs)
  | ERelationNotFound =>
      (exists o, r_object r = Some o /\ declares_resource p (e_res o) /\ ~ declares p (e_res o) (r_relation r)) \/
      (exists u rel, r_subject r = Some (SEntitySet (Some u) rel) /\ ~ declares p (e_res u) rel)
  | EInvalidVariant => r_subject r = Some SUnset
  | ESubjectNotAllowed =>
      exists o u l, r_object r = Some o /\ r_subject r = Some u /\
        relation_of p (e_res o) l /\ rl_name l = r_relation r /\ ~ admits (rl_restr l) u
  | _ => False
  end.

(** The resources the parts of a selector name. *)
Inductive object_names : obj_selector -> string -> Prop :=
| on_object o : object_names (OSObject (Some o)) (e_res o)
| on_resource rs : object_names (OSResource rs) rs
| on_any rs : object_names OSWild rs.

Inductive subject_names : subj_selector -> string -> Prop :=
| sn_entity u : subject_names (USSubject (Some (SEntity u))) (e_res u)
| sn_set u rel : subject_names (USSubject (Some (SEntitySet (Some u) rel))) (e_res u)
| sn_all rs : subject_names (USSubject (Some (SResourceSet rs))) rs
| sn_resource rs : subject_names (USResource rs) rs.

(** The relation a selector names; a part that is not set names the empty relation. *)
Definition relation_named (sel : selector) : string :=
  match s_rel sel with Some (LSName n) => n | _ => "" end.

(** A part of the selector has no variant set. *)
Definition part_unset (sel : selector) : Prop :=
  s_obj sel = Some OSUnset \/ s_rel sel = Some LSUnset \/ s_subj sel = Some USUnset.

(** What is wrong with a selector over a policy. *)
Definition selector_fault (p : policy) (sel : selector) (e : err) : Prop :=
  match e with
  | EResourceNotFound =>
      (exists o, s_obj sel = Some o /\ forall rs, object_names o rs -> ~ declares_resource p rs) \/
      (exists u, s_subj sel = Some u /\ forall rs, subject_names u rs -> ~ declares_resource p rs)
  | ERelationNotFound =>
      exists o, s_obj sel = Some o /\ s_rel sel <> Some LSWild /\
        forall rs, object_names o rs -> ~ declares p rs (relation_named sel)
  | EInvalidVariant => part_unset sel
  | _ => False
  end.

(** What is wrong with the nodes below [root]: a relation that the policy does not declare, or an expression with a
    part that is not set or an unknown operator. *)
Definition search_fault (E : env) (P : policy) (succ : entity -> string -> subject -> Prop) (root : rnode) (e : err) : Prop :=
  match e with
  | ERelationNotFound =>
      exists o rel, reach E P succ root (NSet (Some o) rel) /\ ~ declares P (e_res o) rel
  | EInvalidVariant =>
      exists o rel t, reach E P succ root (NSet (Some o) rel) /\ rewrites E P o rel t /\ ~ standard_tree t
  | _ => False
  end.

Definition known_format (f : format) : Prop := match f with FOther _ => False | _ => True end.

(** [cause E s q e]: what the error [e] in answer to the request [q] says is the case in the store [s]. *)
Inductive cause (E : env) (s : store) : request -> err -> Prop :=
| ca_create_text now app : cause E s (QCreatePolicy now (Some (DYaml None)) app) EYaml
| ca_create_unset now app : cause E s (QCreatePolicy now (Some DUnset) app) EInvalidVariant
| ca_create_exists now d app p rec : defines d p -> shown E s (p_id p) rec -> cause E s (QCreatePolicy now d app) EPolicyExists
| ca_create_policy now d app p e : defines d p -> absent E s (p_id p) -> policy_fault E p e ->
    cause E s (QCreatePolicy now d app) e
| ca_update_text app : cause E s (QUpdatePolicy (Some (DYaml None)) app) EYaml
| ca_update_unset app : cause E s (QUpdatePolicy (Some DUnset) app) EInvalidVariant
| ca_update_absent d app p : defines d p -> absent E s (p_id p) -> cause E s (QUpdatePolicy d app) EPolicyNotFound
| ca_update_policy d app p rec e : defines d p -> shown E s (p_id p) rec -> policy_fault E p e ->
    cause E s (QUpdatePolicy d app) e
| ca_set_absent now pid r app : absent E s pid -> cause E s (QSetRelationship now pid r app) EPolicyNotFound
| ca_set now pid r app rec e : shown E s pid rec -> relationship_fault (pr_policy rec) r e ->
    cause E s (QSetRelationship now pid (Some r) app) e
| ca_find_absent pid sel : absent E s pid -> cause E s (QFindRelationshipRecords pid sel) EPolicyNotFound
| ca_find pid sel rec e : shown E s pid rec -> selector_fault (pr_policy rec) sel e ->
    cause E s (QFindRelationshipRecords pid (Some sel)) e
| ca_delete_many pid sel : part_unset sel -> cause E s (QDeleteRelationships pid (Some sel)) EInvalidVariant
| ca_check_absent n pid a : absent E s pid -> cause E s (QCheck n pid a) EPolicyNotFound
| ca_check n pid a rec e : shown E s pid rec ->
    search_fault E (pr_policy rec) (key_subject E (relationships s pid)) (NSet (a_object a) (a_relation a)) e ->
    cause E s (QCheck n pid (Some a)) e
| ca_explain_format n pid a f : ~ known_format f -> cause E s (QExplainCheck n pid a f) EInvalidVariant
| ca_explain_absent n pid a f : known_format f -> absent E s pid -> cause E s (QExplainCheck n pid a f) EPolicyNotFound
| ca_explain n pid a f rec e : shown E s pid rec ->
    search_fault E (pr_policy rec) (key_subject E (relationships s pid)) (NSet (a_object a) (a_relation a)) e ->
    cause E s (QExplainCheck n pid (Some a) f) e
| ca_explain_json n pid a rec : shown E s pid rec -> cause E s (QExplainCheck n pid a FJson) ESerialize
| ca_expand_format n pid root f : ~ known_format f -> cause E s (QExpand n pid root f) EInvalidVariant
| ca_expand_absent n pid root f : known_format f -> absent E s pid -> cause E s (QExpand n pid root f) EPolicyNotFound
| ca_expand n pid root f rec e : shown E s pid rec ->
    search_fault E (pr_policy rec) (key_subject E (relationships s pid)) root e ->
    cause E s (QExpand n pid (Some root) f) e
| ca_expand_json n pid root rec : shown E s pid rec -> cause E s (QExpand n pid root FJson) ESerialize
| ca_dump_absent n pid d : absent E s pid -> cause E s (QDumpRelationships n pid d) EPolicyNotFound
| ca_dump_format n pid rec : shown E s pid rec -> cause E s (QDumpRelationships n pid false) EInvalidVariant.

(** Selectors whose names the validator reads as they are meant: no entity set as the subject, and no relation under any object. *)
Definition read_as_meant (q : request) : Prop :=
  forall pid sel, q = QFindRelationshipRecords pid (Some sel) ->
    (forall e rel, s_subj sel <> Some (USSubject (Some (SEntitySet e rel)))) /\
    (s_obj sel = Some OSWild -> s_rel sel = Some LSWild).

(** The policy a request is about, for requests that need it to exist. *)
Inductive needs : request -> string -> Prop :=
| ne_update d app p : defines d p -> needs (QUpdatePolicy d app) (p_id p)
| ne_set now pid r app : needs (QSetRelationship now pid r app) pid
| ne_find pid sel : needs (QFindRelationshipRecords pid sel) pid
| ne_check n pid a : needs (QCheck n pid a) pid
| ne_explain n pid a f : known_format f -> needs (QExplainCheck n pid a f) pid
| ne_expand n pid root f : known_format f -> needs (QExpand n pid root f) pid
| ne_dump n pid d : needs (QDumpRelationships n pid d) pid.
