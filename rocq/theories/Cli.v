(** Cli: the request that a command of zanzi-cli sends (cmd/zanzi-cli/main.go; the commands are generated by protoc-gen-cobra in
    pkg/api/policy_service.cobra.pb.go and pkg/api/relation_graph.cobra.pb.go).

    A command has a request [req], whose sub-messages exist, and variables for the members of its oneofs.  A flag sets a field of one of them; a flag inside
    a oneof then also points the oneof at the variable of its member (flag.WithPostSetHook).  The command reads a message from
    its input, merges [req] into it (proto.Merge) and sends it.

    The texts of flags are taken as already read: base64, the names of enum values, and JSON for resources.  Flags set from
    the environment (flag.SetFlagsFromEnv) come after those of the command line, and are not told apart from them.  The libraries
    cobra, pflag and protoc-gen-cobra are not part of the repository; what is assumed of them is said here: flags are set in
    their order, a text or enum flag replaces the value, a slice flag appends to it, and a map flag adds to it. *)
From Verif Require Import Base Domain Lexer Store Search Explain Yaml Service Dump Api Wire Rpc.
Local Open Scope N_scope.

(** ** Flags *)

(** Fields of an Entity: policy_service.cobra.pb.go:326-327 and others. *)
Inductive entity_flag := EfResource (s : string) | EfId (s : string).

Definition set_entity (f : entity_flag) (e : entity) : entity :=
  match f with
  | EfResource s => mkEntity s (e_id e)
  | EfId s => mkEntity (e_res e) s
  end.

(** A Subject: policy_service.cobra.pb.go:329-363, 415-449, 500-534.  The flags named after a member are boolean. *)
Inductive subject_flag :=
| UfEntity (value : bool)
| UfEntityPart (f : entity_flag)
| UfEntitySet (value : bool)
| UfEntitySetEntity (f : entity_flag)
| UfEntitySetRelation (s : string)
| UfResourceSet (value : bool)
| UfResourceName (s : string).

(** What Subject.Subject points at. *)
Inductive subject_member := UmNone | UmEntity | UmEntitySet | UmResourceSet.

(** RelationshipSubjectEntity, RelationshipSubjectEntitySet and its entity, RelationshipSubjectResourceSet. *)
Record subject_vars := mkUv {
  uv_entity : entity;
  uv_set_entity : entity;
  uv_set_relation : string;
  uv_resource : string;
  uv_member : subject_member }.

Definition new_subject : subject_vars := mkUv no_entity no_entity "" "" UmNone.

(** The value of a boolean flag is not looked at: its hook runs when it is set. *)
Definition set_subject (f : subject_flag) (v : subject_vars) : subject_vars :=
  match f with
  | UfEntity _ => mkUv (uv_entity v) (uv_set_entity v) (uv_set_relation v) (uv_resource v) UmEntity
  | UfEntityPart g => mkUv (set_entity g (uv_entity v)) (uv_set_entity v) (uv_set_relation v) (uv_resource v) UmEntity
  | UfEntitySet _ => mkUv (uv_entity v) (uv_set_entity v) (uv_set_relation v) (uv_resource v) UmEntitySet
  | UfEntitySetEntity g => mkUv (uv_entity v) (set_entity g (uv_set_entity v)) (uv_set_relation v) (uv_resource v) UmEntitySet
  | UfEntitySetRelation s => mkUv (uv_entity v) (uv_set_entity v) s (uv_resource v) UmEntitySet
  | UfResourceSet _ => mkUv (uv_entity v) (uv_set_entity v) (uv_set_relation v) (uv_resource v) UmResourceSet
  | UfResourceName s => mkUv (uv_entity v) (uv_set_entity v) (uv_set_relation v) s UmResourceSet
  end.

Definition subject_at (v : subject_vars) : subject :=
  match uv_member v with
  | UmNone => SUnset
  | UmEntity => SEntity (uv_entity v)
  | UmEntitySet => SEntitySet (Some (uv_set_entity v)) (uv_set_relation v)
  | UmResourceSet => SResourceSet (uv_resource v)
  end.

(** A Relationship: policy_service.cobra.pb.go:326-363. *)
Inductive relationship_flag :=
| TfObject (f : entity_flag)
| TfRelation (s : string)
| TfSubject (f : subject_flag).

Record relationship_vars := mkTv { tv_object : entity; tv_relation : string; tv_subject : subject_vars }.

Definition new_relationship : relationship_vars := mkTv no_entity "" new_subject.

Definition set_relationship_flag (f : relationship_flag) (v : relationship_vars) : relationship_vars :=
  match f with
  | TfObject g => mkTv (set_entity g (tv_object v)) (tv_relation v) (tv_subject v)
  | TfRelation s => mkTv (tv_object v) s (tv_subject v)
  | TfSubject g => mkTv (tv_object v) (tv_relation v) (set_subject g (tv_subject v))
  end.

Definition relationship_at (v : relationship_vars) : relationship :=
  mkRel (Some (tv_object v)) (tv_relation v) (Some (subject_at (tv_subject v))).

(** A RelationshipSelector: policy_service.cobra.pb.go:583-659, 708-784.  There is no flag for a wildcard member. *)
Inductive selector_flag :=
| LfObject (value : bool)
| LfObjectPart (f : entity_flag)
| LfObjectResource (s : string)
| LfRelation (s : string)
| LfSubject (value : bool)
| LfSubjectPart (f : subject_flag)
| LfSubjectResource (s : string).

(** What ObjectSelector.Selector and SubjectSelector.Selector point at. *)
Inductive selector_member := LmNone | LmSpec | LmResource.

Record selector_vars := mkLv {
  lv_object : entity;
  lv_object_resource : string;
  lv_object_member : selector_member;
  lv_relation : option string;
  lv_subject : subject_vars;
  lv_subject_resource : string;
  lv_subject_member : selector_member }.

Definition new_selector : selector_vars := mkLv no_entity "" LmNone None new_subject "" LmNone.

Definition set_selector (f : selector_flag) (v : selector_vars) : selector_vars :=
  let object e r m := mkLv e r m (lv_relation v) (lv_subject v) (lv_subject_resource v) (lv_subject_member v) in
  let subject u r m := mkLv (lv_object v) (lv_object_resource v) (lv_object_member v) (lv_relation v) u r m in
  match f with
  | LfObject _ => object (lv_object v) (lv_object_resource v) LmSpec
  | LfObjectPart g => object (set_entity g (lv_object v)) (lv_object_resource v) LmSpec
  | LfObjectResource s => object (lv_object v) s LmResource
  | LfRelation s =>
      mkLv (lv_object v) (lv_object_resource v) (lv_object_member v) (Some s) (lv_subject v) (lv_subject_resource v)
        (lv_subject_member v)
  | LfSubject _ => subject (lv_subject v) (lv_subject_resource v) LmSpec
  | LfSubjectPart g => subject (set_subject g (lv_subject v)) (lv_subject_resource v) LmSpec
  | LfSubjectResource s => subject (lv_subject v) s LmResource
  end.

Definition selector_at (v : selector_vars) : selector :=
  mkSel
    (Some (match lv_object_member v with
           | LmNone => OSUnset
           | LmSpec => OSObject (Some (lv_object v))
           | LmResource => OSResource (lv_object_resource v)
           end))
    (Some (match lv_relation v with None => LSUnset | Some s => LSName s end))
    (Some (match lv_subject_member v with
           | LmNone => USUnset
           | LmSpec => USSubject (Some (subject_at (lv_subject v)))
           | LmResource => USResource (lv_subject_resource v)
           end)).

(** An AccessRequest: relation_graph.cobra.pb.go:75-79, 127-131. *)
Inductive access_flag := AfObject (f : entity_flag) | AfRelation (s : string) | AfSubject (f : entity_flag).

Record access_vars := mkAv { av_object : entity; av_relation : string; av_subject : entity }.

Definition new_access : access_vars := mkAv no_entity "" no_entity.

Definition set_access (f : access_flag) (v : access_vars) : access_vars :=
  match f with
  | AfObject g => mkAv (set_entity g (av_object v)) (av_relation v) (av_subject v)
  | AfRelation s => mkAv (av_object v) s (av_subject v)
  | AfSubject g => mkAv (av_object v) (av_relation v) (set_entity g (av_subject v))
  end.

Definition access_at (v : access_vars) : access_request := mkAccess (Some (av_object v)) (av_relation v) (Some (av_subject v)).

(** The root of an expansion, a RelationNode: relation_graph.cobra.pb.go:177-201. *)
Inductive root_flag :=
| RfEntitySet (value : bool)
| RfEntitySetObject (f : entity_flag)
| RfEntitySetRelation (s : string)
| RfEntity (value : bool)
| RfEntityObject (f : entity_flag)
| RfWildcard (value : bool)
| RfWildcardResource (s : string).

Inductive root_member := RmNone | RmEntitySet | RmEntity | RmWildcard.

Record root_vars := mkRv {
  rv_set_object : entity;
  rv_set_relation : string;
  rv_object : entity;
  rv_resource : string;
  rv_member : root_member }.

Definition new_root : root_vars := mkRv no_entity "" no_entity "" RmNone.

Definition set_root (f : root_flag) (v : root_vars) : root_vars :=
  match f with
  | RfEntitySet _ => mkRv (rv_set_object v) (rv_set_relation v) (rv_object v) (rv_resource v) RmEntitySet
  | RfEntitySetObject g => mkRv (set_entity g (rv_set_object v)) (rv_set_relation v) (rv_object v) (rv_resource v) RmEntitySet
  | RfEntitySetRelation s => mkRv (rv_set_object v) s (rv_object v) (rv_resource v) RmEntitySet
  | RfEntity _ => mkRv (rv_set_object v) (rv_set_relation v) (rv_object v) (rv_resource v) RmEntity
  | RfEntityObject g => mkRv (rv_set_object v) (rv_set_relation v) (set_entity g (rv_object v)) (rv_resource v) RmEntity
  | RfWildcard _ => mkRv (rv_set_object v) (rv_set_relation v) (rv_object v) (rv_resource v) RmWildcard
  | RfWildcardResource s => mkRv (rv_set_object v) (rv_set_relation v) (rv_object v) s RmWildcard
  end.

Definition root_at (v : root_vars) : rnode :=
  match rv_member v with
  | RmNone => NUnset
  | RmEntitySet => NSet (Some (rv_set_object v)) (rv_set_relation v)
  | RmEntity => NEntity (Some (rv_object v))
  | RmWildcard => NWild (rv_resource v)
  end.

(** A PolicyDefinition: policy_service.cobra.pb.go:77-92, 137-152. *)
Inductive definition_flag :=
| DfPolicy (value : bool)
| DfId (s : string)
| DfName (s : string)
| DfDescription (s : string)
| DfResources (l : list resource)
| DfAttributes (l : list (string * string))
| DfYaml (s : string).

Inductive definition_member := DmNone | DmPolicy | DmYaml.

Record definition_vars := mkDv { dv_policy : policy; dv_yaml : string; dv_member : definition_member }.

Definition new_definition : definition_vars := mkDv no_policy "" DmNone.

(** Entries of a map are set one by one. *)
Definition set_all (l : list (string * string)) (m : list (string * string)) : list (string * string) :=
  fold_left (fun m x => kv_set scmp (fst x) (snd x) m) l m.

Definition set_definition (f : definition_flag) (v : definition_vars) : definition_vars :=
  let p := dv_policy v in
  match f with
  | DfPolicy _ => mkDv p (dv_yaml v) DmPolicy
  | DfId s => mkDv (mkPolicy s (p_name p) (p_desc p) (p_resources p) (p_attrs p)) (dv_yaml v) DmPolicy
  | DfName s => mkDv (mkPolicy (p_id p) s (p_desc p) (p_resources p) (p_attrs p)) (dv_yaml v) DmPolicy
  | DfDescription s => mkDv (mkPolicy (p_id p) (p_name p) s (p_resources p) (p_attrs p)) (dv_yaml v) DmPolicy
  | DfResources l => mkDv (mkPolicy (p_id p) (p_name p) (p_desc p) (p_resources p ++ l) (p_attrs p)) (dv_yaml v) DmPolicy
  | DfAttributes l => mkDv (mkPolicy (p_id p) (p_name p) (p_desc p) (p_resources p) (set_all l (p_attrs p))) (dv_yaml v) DmPolicy
  | DfYaml s => mkDv p s DmYaml
  end.

Definition definition_at (v : definition_vars) : sent_def :=
  match dv_member v with
  | DmNone => SentUnset
  | DmPolicy => SentPolicy (dv_policy v)
  | DmYaml => SentYaml (dv_yaml v)
  end.

(** ** Commands *)

(** The flags of all commands.  [FId] is the id of a policy, called Id or PolicyId; enums are numbers. *)
Inductive cflag :=
| FId (s : string)
| FAppData (s : string)
| FStrategy (n : N)
| FFormat (n : N)
| FDefinition (f : definition_flag)
| FRelationship (f : relationship_flag)
| FSelector (f : selector_flag)
| FAccess (f : access_flag)
| FRoot (f : root_flag).

(** The flags that a command has: policy_service.cobra.pb.go:77-93, 137-154, 196, 238, 243-281 (none), 325-364, 411-449,
    496-534, 582-659, 707-784; relation_graph.cobra.pb.go:74-79, 126-132, 176-202, 244-245. *)
Definition has_flag (m : method) (f : cflag) : bool :=
  match m, f with
  | MCreatePolicy, (FAppData _ | FDefinition _) => true
  | MUpdatePolicy, (FAppData _ | FDefinition _ | FStrategy _) => true
  | (MDeletePolicy | MGetPolicy), FId _ => true
  | MSetRelationship, (FId _ | FRelationship _ | FAppData _) => true
  | (MDeleteRelationship | MGetRelationship), (FId _ | FRelationship _) => true
  | (MFindRelationshipRecords | MDeleteRelationships), (FId _ | FSelector _) => true
  | MCheck, (FId _ | FAccess _) => true
  | MExplainCheck, (FId _ | FAccess _ | FFormat _) => true
  | MExpand, (FId _ | FRoot _ | FFormat _) => true
  | MDumpRelationships, (FId _ | FFormat _) => true
  | _, _ => false
  end.

(** The request and the variables of a command; a command uses those of its flags. *)
Record vars := mkVars {
  v_id : string;
  v_app : string;
  v_strategy : N;
  v_format : N;
  v_def : definition_vars;
  v_rel : relationship_vars;
  v_sel : selector_vars;
  v_acc : access_vars;
  v_root : root_vars }.

Definition new_vars : vars := mkVars "" "" 0 0 new_definition new_relationship new_selector new_access new_root.

Definition set_flag (f : cflag) (v : vars) : vars :=
  let '(mkVars id app st fo d r l a n) := v in
  match f with
  | FId s => mkVars s app st fo d r l a n
  | FAppData s => mkVars id s st fo d r l a n
  | FStrategy k => mkVars id app k fo d r l a n
  | FFormat k => mkVars id app st k d r l a n
  | FDefinition g => mkVars id app st fo (set_definition g d) r l a n
  | FRelationship g => mkVars id app st fo d (set_relationship_flag g r) l a n
  | FSelector g => mkVars id app st fo d r (set_selector g l) a n
  | FAccess g => mkVars id app st fo d r l (set_access g a) n
  | FRoot g => mkVars id app st fo d r l a (set_root g n)
  end.

(** [req] of a command, after its flags: policy_service.cobra.pb.go:39-41, 99-101, 160, 202, 244, 284-289, 370-375, 455-460,
    540-546, 665-671; relation_graph.cobra.pb.go:33-38, 85-90, 138-140, 208. *)
Definition request_at (m : method) (v : vars) : call :=
  match m with
  | MCreatePolicy => KCreatePolicy (Some (definition_at (v_def v))) (v_app v)
  | MUpdatePolicy => KUpdatePolicy (Some (definition_at (v_def v))) (v_app v) (v_strategy v)
  | MDeletePolicy => KDeletePolicy (v_id v)
  | MGetPolicy => KGetPolicy (v_id v)
  | MListPolicyIds => KListPolicyIds
  | MSetRelationship => KSetRelationship (v_id v) (Some (relationship_at (v_rel v))) (v_app v)
  | MDeleteRelationship => KDeleteRelationship (v_id v) (Some (relationship_at (v_rel v)))
  | MGetRelationship => KGetRelationship (v_id v) (Some (relationship_at (v_rel v)))
  | MFindRelationshipRecords => KFindRelationshipRecords (v_id v) (Some (selector_at (v_sel v)))
  | MDeleteRelationships => KDeleteRelationships (v_id v) (Some (selector_at (v_sel v)))
  | MCheck => KCheck (v_id v) (Some (access_at (v_acc v)))
  | MExplainCheck => KExplainCheck (v_id v) (Some (access_at (v_acc v))) (format_of (v_format v))
  | MExpand => KExpand (v_id v) (Some (root_at (v_root v))) (format_of (v_format v))
  | MDumpRelationships => KDumpRelationships (v_id v) (v_format v)
  end.

(** A command refuses flags that it does not have. *)
Definition flags_request (m : method) (l : list cflag) : option call :=
  if forallb (has_flag m) l then Some (request_at m (fold_left (fun v f => set_flag f v) l new_vars)) else None.

(** ** proto.Merge *)

(** Texts, bytes and enums replace the old value unless they are empty or 0. *)
Definition merge_text (a b : string) : string := match b with EmptyString => a | _ => b end.
Definition merge_enum (a b : N) : N := if b =? 0 then a else b.

(** A sub-message is merged into the old one, or into a new one. *)
Definition merge_sub {A} (f : A -> A -> A) (new : A) (a b : option A) : option A :=
  match b with None => a | Some y => Some (f (or_else a new) y) end.

Definition merge_entity (a b : entity) : entity := mkEntity (merge_text (e_res a) (e_res b)) (merge_text (e_id a) (e_id b)).

(** A member of a oneof is merged into the same member; any other member is replaced. *)
Definition merge_subject (a b : subject) : subject :=
  match b with
  | SEntity e => SEntity (merge_entity (match a with SEntity x => x | _ => no_entity end) e)
  | SEntitySet o r =>
      match a with
      | SEntitySet o' r' => SEntitySet (merge_sub merge_entity no_entity o' o) (merge_text r' r)
      | _ => SEntitySet (merge_sub merge_entity no_entity None o) r
      end
  | SResourceSet r => SResourceSet (merge_text (match a with SResourceSet x => x | _ => "" end) r)
  | SUnset => a
  end.

Definition merge_relationship (a b : relationship) : relationship :=
  mkRel (merge_sub merge_entity no_entity (r_object a) (r_object b)) (merge_text (r_relation a) (r_relation b))
    (merge_sub merge_subject SUnset (r_subject a) (r_subject b)).

(** A text in a oneof replaces the old member even when it is empty. *)
Definition merge_obj_selector (a b : obj_selector) : obj_selector :=
  match b with
  | OSObject e => OSObject (Some (merge_entity (match a with OSObject (Some x) => x | _ => no_entity end) (or_else e no_entity)))
  | OSUnset => a
  | _ => b
  end.
Definition merge_rel_selector (a b : rel_selector) : rel_selector := match b with LSUnset => a | _ => b end.
Definition merge_subj_selector (a b : subj_selector) : subj_selector :=
  match b with
  | USSubject u => USSubject (Some (merge_subject (match a with USSubject (Some x) => x | _ => SUnset end) (or_else u SUnset)))
  | USUnset => a
  | _ => b
  end.
Definition merge_selector (a b : selector) : selector :=
  mkSel (merge_sub merge_obj_selector OSUnset (s_obj a) (s_obj b)) (merge_sub merge_rel_selector LSUnset (s_rel a) (s_rel b))
    (merge_sub merge_subj_selector USUnset (s_subj a) (s_subj b)).

Definition merge_access (a b : access_request) : access_request :=
  mkAccess (merge_sub merge_entity no_entity (a_object a) (a_object b)) (merge_text (a_relation a) (a_relation b))
    (merge_sub merge_entity no_entity (a_subject a) (a_subject b)).

Definition merge_root (a b : rnode) : rnode :=
  match b with
  | NSet o r =>
      match a with
      | NSet o' r' => NSet (merge_sub merge_entity no_entity o' o) (merge_text r' r)
      | _ => NSet (merge_sub merge_entity no_entity None o) r
      end
  | NEntity o => NEntity (merge_sub merge_entity no_entity (match a with NEntity x => x | _ => None end) o)
  | NWild r => NWild (merge_text (match a with NWild x => x | _ => "" end) r)
  | NUnset => a
  end.

(** Lists are appended; entries of a map replace those of the same key. *)
Definition merge_policy (a b : policy) : policy :=
  mkPolicy (merge_text (p_id a) (p_id b)) (merge_text (p_name a) (p_name b)) (merge_text (p_desc a) (p_desc b))
    (p_resources a ++ p_resources b) (set_all (p_attrs b) (p_attrs a)).

Definition merge_sent (a b : sent_def) : sent_def :=
  match b with
  | SentPolicy p => SentPolicy (merge_policy (match a with SentPolicy x => x | _ => no_policy end) p)
  | SentYaml s => SentYaml s
  | SentUnset => a
  end.

(** Messages of two types are never merged. *)
Definition merge_call (a b : call) : call :=
  match a, b with
  | KCreatePolicy d x, KCreatePolicy d' x' => KCreatePolicy (merge_sub merge_sent SentUnset d d') (merge_text x x')
  | KUpdatePolicy d x s, KUpdatePolicy d' x' s' =>
      KUpdatePolicy (merge_sub merge_sent SentUnset d d') (merge_text x x') (merge_enum s s')
  | KDeletePolicy i, KDeletePolicy i' => KDeletePolicy (merge_text i i')
  | KGetPolicy i, KGetPolicy i' => KGetPolicy (merge_text i i')
  | KSetRelationship i r x, KSetRelationship i' r' x' =>
      KSetRelationship (merge_text i i') (merge_sub merge_relationship no_relationship r r') (merge_text x x')
  | KDeleteRelationship i r, KDeleteRelationship i' r' =>
      KDeleteRelationship (merge_text i i') (merge_sub merge_relationship no_relationship r r')
  | KGetRelationship i r, KGetRelationship i' r' =>
      KGetRelationship (merge_text i i') (merge_sub merge_relationship no_relationship r r')
  | KFindRelationshipRecords i s, KFindRelationshipRecords i' s' =>
      KFindRelationshipRecords (merge_text i i') (merge_sub merge_selector (mkSel None None None) s s')
  | KDeleteRelationships i s, KDeleteRelationships i' s' =>
      KDeleteRelationships (merge_text i i') (merge_sub merge_selector (mkSel None None None) s s')
  | KCheck i r, KCheck i' r' => KCheck (merge_text i i') (merge_sub merge_access (mkAccess None "" None) r r')
  | KExplainCheck i r f, KExplainCheck i' r' f' =>
      KExplainCheck (merge_text i i') (merge_sub merge_access (mkAccess None "" None) r r')
        (format_of (merge_enum (format_code f) (format_code f')))
  | KExpand i r f, KExpand i' r' f' =>
      KExpand (merge_text i i') (merge_sub merge_root NUnset r r') (format_of (merge_enum (format_code f) (format_code f')))
  | KDumpRelationships i f, KDumpRelationships i' f' => KDumpRelationships (merge_text i i') (merge_enum f f')
  | _, _ => a
  end.

(** The message that is sent: [input] is the one read from the input, empty without one (policy_service.cobra.pb.go:58-66 and
    the same lines of the other commands). *)
Definition empty_call (m : method) : call :=
  match m with
  | MCreatePolicy => KCreatePolicy None ""
  | MUpdatePolicy => KUpdatePolicy None "" 0
  | MDeletePolicy => KDeletePolicy ""
  | MGetPolicy => KGetPolicy ""
  | MListPolicyIds => KListPolicyIds
  | MSetRelationship => KSetRelationship "" None ""
  | MDeleteRelationship => KDeleteRelationship "" None
  | MGetRelationship => KGetRelationship "" None
  | MFindRelationshipRecords => KFindRelationshipRecords "" None
  | MDeleteRelationships => KDeleteRelationships "" None
  | MCheck => KCheck "" None
  | MExplainCheck => KExplainCheck "" None FSpew
  | MExpand => KExpand "" None FSpew
  | MDumpRelationships => KDumpRelationships "" 0
  end.

Definition command (m : method) (input : call) (l : list cflag) : option call := omap (merge_call input) (flags_request m l).
