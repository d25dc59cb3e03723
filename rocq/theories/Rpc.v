(** Rpc: the messages of the gRPC services (proto/zanzi/zanzi/api/policy_service.proto and relation_graph.proto, with the
    messages of proto/zanzi/zanzi/domain that they contain), and a call from a client to the server and back.

    The rules of the encoding are those of Wire.  The transport (grpc-go, pkg/server/server.go) is taken to deliver the bytes of
    a message unchanged, and its limits on the size of messages are left out. *)
From Verif Require Import Base Domain Lexer Store Search Explain Yaml Service Dump Api Wire.
Local Open Scope N_scope.

(** ** Messages of a client *)

(** PolicyDefinition: the YAML text is sent as it is. *)
Inductive sent_def :=
| SentPolicy (p : policy)
| SentYaml (s : string)
| SentUnset.

(** The request messages.  Numbers are enum values: [strategy] is UpdateStrategy, [f] of KDumpRelationships is DumpFormat. *)
Inductive call :=
| KCreatePolicy (d : option sent_def) (app : string)
| KUpdatePolicy (d : option sent_def) (app : string) (strategy : N)
| KDeletePolicy (id : string)
| KGetPolicy (id : string)
| KListPolicyIds
| KSetRelationship (pid : string) (r : option relationship) (app : string)
| KDeleteRelationship (pid : string) (r : option relationship)
| KGetRelationship (pid : string) (r : option relationship)
| KFindRelationshipRecords (pid : string) (s : option selector)
| KDeleteRelationships (pid : string) (s : option selector)
| KCheck (pid : string) (a : option access_request)
| KExplainCheck (pid : string) (a : option access_request) (f : format)
| KExpand (pid : string) (root : option rnode) (f : format)
| KDumpRelationships (pid : string) (f : N).

(** The methods of the services (policy_service_grpc.pb.go, relation_graph_grpc.pb.go). *)
Inductive method :=
| MCreatePolicy | MUpdatePolicy | MDeletePolicy | MGetPolicy | MListPolicyIds | MSetRelationship | MDeleteRelationship
| MGetRelationship | MFindRelationshipRecords | MDeleteRelationships | MCheck | MExplainCheck | MExpand | MDumpRelationships.

Definition method_of (c : call) : method :=
  match c with
  | KCreatePolicy _ _ => MCreatePolicy
  | KUpdatePolicy _ _ _ => MUpdatePolicy
  | KDeletePolicy _ => MDeletePolicy
  | KGetPolicy _ => MGetPolicy
  | KListPolicyIds => MListPolicyIds
  | KSetRelationship _ _ _ => MSetRelationship
  | KDeleteRelationship _ _ => MDeleteRelationship
  | KGetRelationship _ _ => MGetRelationship
  | KFindRelationshipRecords _ _ => MFindRelationshipRecords
  | KDeleteRelationships _ _ => MDeleteRelationships
  | KCheck _ _ => MCheck
  | KExplainCheck _ _ _ => MExplainCheck
  | KExpand _ _ _ => MExpand
  | KDumpRelationships _ _ => MDumpRelationships
  end.

(** Libraries that make texts, arbitrary here: yaml.v3, the serializers of goal trees (spew, encoding/json, gographviz) and
    the one of dumps (gographviz). *)
Record libs := mkLibs {
  t_yaml : string -> option ydef;
  t_tree : format -> gtree -> string;
  t_dump : list dot_stmt -> string }.

(** What the server does with a message: [now] is its clock, [n] bounds the recursion of a search.  The strategy is never
    looked at (internal/policy/service.go:72-114), and a dump is DOT or an error (relation_graph/service.go:196-208). *)
Definition def_of (L : libs) (d : sent_def) : policy_def :=
  match d with
  | SentPolicy p => DPolicy p
  | SentYaml s => DYaml (t_yaml L s)
  | SentUnset => DUnset
  end.

Definition request_of (L : libs) (now : N) (n : nat) (c : call) : request :=
  match c with
  | KCreatePolicy d app => QCreatePolicy now (omap (def_of L) d) app
  | KUpdatePolicy d app _ => QUpdatePolicy (omap (def_of L) d) app
  | KDeletePolicy id => QDeletePolicy id
  | KGetPolicy id => QGetPolicy id
  | KListPolicyIds => QListPolicyIds
  | KSetRelationship pid r app => QSetRelationship now pid r app
  | KDeleteRelationship pid r => QDeleteRelationship pid r
  | KGetRelationship pid r => QGetRelationship pid r
  | KFindRelationshipRecords pid s => QFindRelationshipRecords pid s
  | KDeleteRelationships pid s => QDeleteRelationships pid s
  | KCheck pid a => QCheck n pid a
  | KExplainCheck pid a f => QExplainCheck n pid a f
  | KExpand pid root f => QExpand n pid root f
  | KDumpRelationships pid f => QDumpRelationships n pid (f =? 0)
  end.

(** ** Response messages *)

(** The responses as a client holds them.  Counts are uint64; texts are those of [libs]. *)
Inductive reply :=
| PCreated (r : option policy_record)
| PUpdated
| PDeletedPolicy (found : bool) (count : N)
| PPolicy (r : option policy_record)
| PPolicyIds (l : list string)
| PSet (overwritten : bool)
| PDeleted (found : bool)
| PRecord (r : option rel_record)
| PRecords (l : option (list (option rel_record)))
| PCount (n : N)
| PDecision (b : option bool)
| PExplained (text : string) (b : bool) (f : format)
| PExpanded (text : string) (f : format)
| PDumped (text : option string).

(** The message that a method returns.  ExplainCheck leaves its format at SPEW (relation_graph/service.go:133-136). *)
Definition reply_of (L : libs) (c : call) (a : response) : reply :=
  match a with
  | ACreated r => PCreated (Some r)
  | AUpdated => PUpdated
  | ADeletedPolicy found count => PDeletedPolicy found (N.of_nat count)
  | APolicy r => PPolicy r
  | APolicyIds l => PPolicyIds l
  | ASet b => PSet b
  | ADeleted b => PDeleted b
  | ARecord r => PRecord r
  | ARecords l => PRecords (Some l)
  | ACount n => PCount (N.of_nat n)
  | ADecision b => PDecision (Some b)
  | AExplained b t => PExplained (t_tree L (match c with KExplainCheck _ _ f => f | _ => FSpew end) t) b FSpew
  | AExpanded t => let f := match c with KExpand _ _ f => f | _ => FSpew end in PExpanded (t_tree L f t) f
  | ADumped l => PDumped (Some (t_dump L l))
  end.

(** ** Encoding and decoding of the parts *)

(** Enums are int32; negative values are written with 64 bits (compare [op_wire]). *)
Definition enum_wire (v : N) : N := if v <? 2147483648 then v else v + (18446744073709551616 - 4294967296).
Definition enum_of (v : N) : N := v mod 4294967296.

(** enum ExplainFormat *)
Definition format_code (f : format) : N := match f with FSpew => 0 | FJson => 1 | FDot => 2 | FOther n => n end.
Definition format_of (v : N) : format := match v with 0 => FSpew | 1 => FJson | 2 => FDot | n => FOther n end.

Definition f_bool (n : N) (b : bool) : list field := f_int n (if b then 1 else 0).
Definition bool_of (v : N) : bool := negb (v =? 0).

(** relationship.proto *)
Definition fs_entity (e : entity) : list field := f_str 1 (e_res e) ++ f_str 2 (e_id e).
Definition fs_entity_set (o : option entity) (rel : string) : list field := f_opt 1 fs_entity o ++ f_str 2 rel.
Definition fs_subject (x : subject) : list field :=
  match x with
  | SEntity e => f_msg 1 (fs_entity e)
  | SEntitySet o rel => f_msg 2 (fs_entity_set o rel)
  | SResourceSet rs => f_msg 3 (f_str 1 rs)
  | SUnset => []
  end.
Definition fs_relationship (r : relationship) : list field :=
  f_opt 1 fs_entity (r_object r) ++ f_str 2 (r_relation r) ++ f_opt 3 fs_subject (r_subject r).

Definition no_entity : entity := mkEntity "" "".
Definition no_relationship : relationship := mkRel None "" None.

(** RelationshipRecord.  The model's records always have a relationship and a time, as those that are written do; a record
    without them is read as one with empty ones. *)
Definition fs_rel_record (r : rel_record) : list field :=
  f_str 1 (rr_policy r) ++ f_msg 2 (fs_relationship (rr_rel r)) ++ f_msg 3 (fs_time (rr_created r)) ++ f_str 4 (rr_app r).
Definition no_record : rel_record := mkRRec "" no_relationship 0 "".
Definition step_rel_record (d : nat) (r : rel_record) (f : field) : option rel_record :=
  match f with
  | (1, WLen s) => text s (fun s => mkRRec s (rr_rel r) (rr_created r) (rr_app r))
  | (2, WLen b) => omap (fun x => mkRRec (rr_policy r) x (rr_created r) (rr_app r)) (message step_relationship d (rr_rel r) b)
  | (3, WLen b) => omap (fun t => mkRRec (rr_policy r) (rr_rel r) t (rr_app r)) (dec_time d (rr_created r) b)
  | (4, WLen s) => Some (mkRRec (rr_policy r) (rr_rel r) (rr_created r) s)
  | _ => Some r
  end.

(** selector.proto.  A nil member of a oneof is written as an empty message. *)
Definition fs_member {A} (fs : A -> list field) (o : option A) : list field := match o with Some x => fs x | None => [] end.
Definition fs_obj_selector (x : obj_selector) : list field :=
  match x with
  | OSObject e => f_msg 1 (fs_member fs_entity e)
  | OSWild => f_msg 2 []
  | OSResource rs => [(3, WLen rs)]
  | OSUnset => []
  end.
Definition fs_rel_selector (x : rel_selector) : list field :=
  match x with
  | LSName rel => [(1, WLen rel)]
  | LSWild => f_msg 2 []
  | LSUnset => []
  end.
Definition fs_subj_selector (x : subj_selector) : list field :=
  match x with
  | USSubject u => f_msg 1 (fs_member fs_subject u)
  | USWild => f_msg 2 []
  | USResource rs => [(3, WLen rs)]
  | USUnset => []
  end.
Definition fs_selector (x : selector) : list field :=
  f_opt 1 fs_obj_selector (s_obj x) ++ f_opt 2 fs_rel_selector (s_rel x) ++ f_opt 3 fs_subj_selector (s_subj x).

Definition step_obj_selector (d : nat) (x : obj_selector) (f : field) : option obj_selector :=
  match f with
  | (1, WLen b) =>
      omap (fun e => OSObject (Some e)) (message step_entity d (match x with OSObject (Some e) => e | _ => no_entity end) b)
  | (2, WLen b) => omap (fun _ => OSWild) (message step_empty d tt b)
  | (3, WLen s) => text s OSResource
  | _ => Some x
  end.
Definition step_rel_selector (d : nat) (x : rel_selector) (f : field) : option rel_selector :=
  match f with
  | (1, WLen s) => text s LSName
  | (2, WLen b) => omap (fun _ => LSWild) (message step_empty d tt b)
  | _ => Some x
  end.
Definition step_subj_selector (d : nat) (x : subj_selector) (f : field) : option subj_selector :=
  match f with
  | (1, WLen b) =>
      omap (fun u => USSubject (Some u)) (message step_subject d (match x with USSubject (Some u) => u | _ => SUnset end) b)
  | (2, WLen b) => omap (fun _ => USWild) (message step_empty d tt b)
  | (3, WLen s) => text s USResource
  | _ => Some x
  end.
Definition step_selector (d : nat) (x : selector) (f : field) : option selector :=
  match f with
  | (1, WLen b) => omap (fun y => mkSel (Some y) (s_rel x) (s_subj x)) (message step_obj_selector d (or_else (s_obj x) OSUnset) b)
  | (2, WLen b) => omap (fun y => mkSel (s_obj x) (Some y) (s_subj x)) (message step_rel_selector d (or_else (s_rel x) LSUnset) b)
  | (3, WLen b) => omap (fun y => mkSel (s_obj x) (s_rel x) (Some y)) (message step_subj_selector d (or_else (s_subj x) USUnset) b)
  | _ => Some x
  end.

(** domain/relation_graph.proto AccessRequest *)
Definition fs_access (a : access_request) : list field :=
  f_opt 1 fs_entity (a_object a) ++ f_str 2 (a_relation a) ++ f_opt 3 fs_entity (a_subject a).
Definition step_access (d : nat) (a : access_request) (f : field) : option access_request :=
  match f with
  | (1, WLen b) =>
      omap (fun e => mkAccess (Some e) (a_relation a) (a_subject a)) (message step_entity d (or_else (a_object a) no_entity) b)
  | (2, WLen s) => text s (fun s => mkAccess (a_object a) s (a_subject a))
  | (3, WLen b) =>
      omap (fun e => mkAccess (a_object a) (a_relation a) (Some e)) (message step_entity d (or_else (a_subject a) no_entity) b)
  | _ => Some a
  end.

(** RelationNode, with EntitySetNode (fields as EntitySet), EntityNode and WildcardNode *)
Definition fs_rnode (n : rnode) : list field :=
  match n with
  | NSet o rel => f_msg 1 (fs_entity_set o rel)
  | NEntity o => f_msg 2 (f_opt 1 fs_entity o)
  | NWild rs => f_msg 3 (f_str 1 rs)
  | NUnset => []
  end.
Definition step_entity_node (d : nat) (o : option entity) (f : field) : option (option entity) :=
  match f with
  | (1, WLen b) => omap Some (message step_entity d (or_else o no_entity) b)
  | _ => Some o
  end.
Definition step_rnode (d : nat) (n : rnode) (f : field) : option rnode :=
  match f with
  | (1, WLen b) =>
      omap (fun y => NSet (fst y) (snd y)) (message step_entity_set d (match n with NSet o rel => (o, rel) | _ => (None, "") end) b)
  | (2, WLen b) => omap NEntity (message step_entity_node d (match n with NEntity o => o | _ => None end) b)
  | (3, WLen b) => omap NWild (message step_cu d (match n with NWild rs => rs | _ => "" end) b)
  | _ => Some n
  end.

(** ** Requests *)

(** PolicyDefinition (compare [step_definition], which also decodes the YAML text) *)
Definition fs_sent (ord : list (string * string) -> list (string * string)) (d : sent_def) : list field :=
  match d with
  | SentPolicy p => f_msg 1 (fs_policy p (ord (p_attrs p)))
  | SentYaml s => [(2, WLen s)]
  | SentUnset => []
  end.
Definition step_sent (d : nat) (x : sent_def) (f : field) : option sent_def :=
  match f with
  | (1, WLen b) => omap SentPolicy (message step_policy d (match x with SentPolicy p => p | _ => no_policy end) b)
  | (2, WLen s) => text s SentYaml
  | _ => Some x
  end.

(** CreatePolicyRequest: definition and application data. *)
Definition step_create (d : nat) (x : option sent_def * string) (f : field) : option (option sent_def * string) :=
  match f with
  | (1, WLen b) => omap (fun y => (Some y, snd x)) (message step_sent d (or_else (fst x) SentUnset) b)
  | (2, WLen s) => Some (fst x, s)
  | _ => Some x
  end.

(** A message with one more enum in field [k]. *)
Definition step_enum {X} (k : N) (step : nat -> X -> field -> option X) (d : nat) (x : X * N) (f : field) : option (X * N) :=
  match f with
  | (j, WVarint v) => if j =? k then Some (fst x, enum_of v) else omap (fun y => (y, snd x)) (step d (fst x) f)
  | _ => omap (fun y => (y, snd x)) (step d (fst x) f)
  end.

(** A policy id in field 1 and a message in field 2. *)
Definition fs_about {X} (fs : X -> list field) (pid : string) (o : option X) : list field := f_str 1 pid ++ f_opt 2 fs o.
Definition step_about {X} (step : nat -> X -> field -> option X) (new : X) (d : nat) (x : string * option X) (f : field)
    : option (string * option X) :=
  match f with
  | (1, WLen s) => text s (fun s => (s, snd x))
  | (2, WLen b) => omap (fun y => (fst x, Some y)) (message step d (or_else (snd x) new) b)
  | _ => Some x
  end.

Definition fs_call (ord : list (string * string) -> list (string * string)) (c : call) : list field :=
  match c with
  | KCreatePolicy d app => f_opt 1 (fs_sent ord) d ++ f_str 2 app
  | KUpdatePolicy d app s => f_opt 1 (fs_sent ord) d ++ f_str 2 app ++ f_int 3 (enum_wire s)
  | KDeletePolicy id | KGetPolicy id => f_str 1 id
  | KListPolicyIds => []
  | KSetRelationship pid r app => fs_about fs_relationship pid r ++ f_str 3 app
  | KDeleteRelationship pid r | KGetRelationship pid r => fs_about fs_relationship pid r
  | KFindRelationshipRecords pid s | KDeleteRelationships pid s => fs_about fs_selector pid s
  | KCheck pid a => fs_about fs_access pid a
  | KExplainCheck pid a f => fs_about fs_access pid a ++ f_int 3 (enum_wire (format_code f))
  | KExpand pid root f => fs_about fs_rnode pid root ++ f_int 3 (enum_wire (format_code f))
  | KDumpRelationships pid f => f_str 1 pid ++ f_int 2 (enum_wire f)
  end.

(** The server reads the message of a method. *)
Definition unmarshal_call (m : method) (lim : nat) (b : string) : option call :=
  let about {X} (step : nat -> X -> field -> option X) (new : X) := message (step_about step new) lim ("", None) b in
  let formatted {X} (step : nat -> X -> field -> option X) (new : X) := message (step_enum 3 (step_about step new)) lim ("", None, 0) b in
  match m with
  | MCreatePolicy => omap (fun x => KCreatePolicy (fst x) (snd x)) (message step_create lim (None, "") b)
  | MUpdatePolicy => omap (fun x => KUpdatePolicy (fst (fst x)) (snd (fst x)) (snd x)) (message (step_enum 3 step_create) lim (None, "", 0) b)
  | MDeletePolicy => omap KDeletePolicy (message step_cu lim "" b)
  | MGetPolicy => omap KGetPolicy (message step_cu lim "" b)
  | MListPolicyIds => omap (fun _ => KListPolicyIds) (message step_empty lim tt b)
  | MSetRelationship => omap (fun x => KSetRelationship (fst (fst x)) (snd (fst x)) (snd x)) (unmarshal_set_request lim b)
  | MDeleteRelationship => omap (fun x => KDeleteRelationship (fst x) (snd x)) (about step_relationship no_relationship)
  | MGetRelationship => omap (fun x => KGetRelationship (fst x) (snd x)) (about step_relationship no_relationship)
  | MFindRelationshipRecords => omap (fun x => KFindRelationshipRecords (fst x) (snd x)) (about step_selector (mkSel None None None))
  | MDeleteRelationships => omap (fun x => KDeleteRelationships (fst x) (snd x)) (about step_selector (mkSel None None None))
  | MCheck => omap (fun x => KCheck (fst x) (snd x)) (about step_access (mkAccess None "" None))
  | MExplainCheck =>
      omap (fun x => KExplainCheck (fst (fst x)) (snd (fst x)) (format_of (snd x))) (formatted step_access (mkAccess None "" None))
  | MExpand => omap (fun x => KExpand (fst (fst x)) (snd (fst x)) (format_of (snd x))) (formatted step_rnode NUnset)
  | MDumpRelationships => omap (fun x => KDumpRelationships (fst x) (snd x)) (message (step_enum 2 step_cu) lim ("", 0) b)
  end.

(** The strings of the messages. *)
Definition selector_texts (x : selector) : list string :=
  opt_texts (fun y => match y with OSObject e => opt_texts entity_texts e | OSResource rs => [rs] | _ => [] end) (s_obj x) ++
  opt_texts (fun y => match y with LSName rel => [rel] | _ => [] end) (s_rel x) ++
  opt_texts (fun y => match y with USSubject u => opt_texts subject_texts u | USResource rs => [rs] | _ => [] end) (s_subj x).
Definition access_texts (a : access_request) : list string :=
  a_relation a :: opt_texts entity_texts (a_object a) ++ opt_texts entity_texts (a_subject a).
Definition rnode_texts (n : rnode) : list string :=
  match n with
  | NSet o rel => rel :: opt_texts entity_texts o
  | NEntity o => opt_texts entity_texts o
  | NWild rs => [rs]
  | NUnset => []
  end.
Definition sent_texts (d : sent_def) : list string :=
  match d with SentPolicy p => policy_texts p | SentYaml s => [s] | SentUnset => [] end.
Definition call_texts (c : call) : list string :=
  match c with
  | KCreatePolicy d _ | KUpdatePolicy d _ _ => opt_texts sent_texts d
  | KDeletePolicy id | KGetPolicy id => [id]
  | KListPolicyIds => []
  | KSetRelationship pid r _ | KDeleteRelationship pid r | KGetRelationship pid r => pid :: opt_texts relationship_texts r
  | KFindRelationshipRecords pid s | KDeleteRelationships pid s => pid :: opt_texts selector_texts s
  | KCheck pid a | KExplainCheck pid a _ => pid :: opt_texts access_texts a
  | KExpand pid root _ => pid :: opt_texts rnode_texts root
  | KDumpRelationships pid _ => [pid]
  end.

(** The client writes a request; [ord] is the order in which it walks a map. *)
Definition marshal_call (ord : list (string * string) -> list (string * string)) (c : call) : option string :=
  if forallb utf8_valid (call_texts c) then Some (put_fields (fs_call ord c)) else None.

(** ** Responses *)

(** A nil element of a repeated field is written as an empty message. *)
Definition fs_records (l : list (option rel_record)) : list field := flat_map (fun o => f_msg 1 (fs_member fs_rel_record o)) l.

Definition fs_reply (ord : list (string * string) -> list (string * string)) (r : reply) : list field :=
  let record r := fs_policy_record r (ord (p_attrs (pr_policy r))) in
  match r with
  | PCreated r | PPolicy r => f_opt 1 record r
  | PUpdated => []
  | PDeletedPolicy found count => f_bool 1 found ++ f_int 2 count
  | PPolicyIds l => flat_map (fun id => f_msg 1 (f_str 1 id)) l
  | PSet b | PDeleted b => f_bool 1 b
  | PRecord r => f_opt 1 fs_rel_record r
  | PRecords l => f_opt 1 fs_records l
  | PCount n => f_int 1 n
  | PDecision b => f_opt 1 (f_bool 1) b
  | PExplained t b f => f_str 1 t ++ f_bool 2 b ++ f_int 3 (enum_wire (format_code f))
  | PExpanded t f => f_str 1 t ++ f_int 2 (enum_wire (format_code f))
  | PDumped t => match t with Some s => [(2, WLen s)] | None => [] end
  end.

(** One message in field 1. *)
Definition step_one {X} (step : nat -> X -> field -> option X) (new : X) (d : nat) (x : option X) (f : field) : option (option X) :=
  match f with
  | (1, WLen b) => omap Some (message step d (or_else x new) b)
  | _ => Some x
  end.

(** Messages in field 1. *)
Definition step_many {X} (step : nat -> X -> field -> option X) (new : X) (d : nat) (l : list X) (f : field) : option (list X) :=
  match f with
  | (1, WLen b) => omap (fun x => l ++ [x]) (message step d new b)
  | _ => Some l
  end.

Definition step_bool (d : nat) (x : bool) (f : field) : option bool :=
  match f with
  | (1, WVarint v) => Some (bool_of v)
  | _ => Some x
  end.

(** A number in field 1. *)
Definition step_count (d : nat) (x : N) (f : field) : option N :=
  match f with
  | (1, WVarint v) => Some v
  | _ => Some x
  end.

Definition step_deleted (d : nat) (x : bool * N) (f : field) : option (bool * N) :=
  match f with
  | (1, WVarint v) => Some (bool_of v, snd x)
  | (2, WVarint v) => Some (fst x, v)
  | _ => Some x
  end.

Definition step_explained (d : nat) (x : string * bool) (f : field) : option (string * bool) :=
  match f with
  | (1, WLen s) => text s (fun s => (s, snd x))
  | (2, WVarint v) => Some (fst x, bool_of v)
  | _ => Some x
  end.

(** DumpRelationshipResponse; the server never sets its tree, which is left out. *)
Definition step_dumped (d : nat) (x : option string) (f : field) : option (option string) :=
  match f with
  | (2, WLen s) => text s Some
  | _ => Some x
  end.

(** The client reads the response of a method. *)
Definition unmarshal_reply (m : method) (lim : nat) (b : string) : option reply :=
  let record := message (step_one step_policy_record (mkPRec no_policy "" 0)) lim None b in
  match m with
  | MCreatePolicy => omap PCreated record
  | MUpdatePolicy => omap (fun _ => PUpdated) (message step_empty lim tt b)
  | MDeletePolicy => omap (fun x => PDeletedPolicy (fst x) (snd x)) (message step_deleted lim (false, 0) b)
  | MGetPolicy => omap PPolicy record
  | MListPolicyIds => omap PPolicyIds (message (step_many step_cu "") lim [] b)
  | MSetRelationship => omap PSet (message step_bool lim false b)
  | MDeleteRelationship => omap PDeleted (message step_bool lim false b)
  | MGetRelationship => omap PRecord (message (step_one step_rel_record no_record) lim None b)
  | MFindRelationshipRecords =>
      omap (fun o => PRecords (omap (map Some) o)) (message (step_one (step_many step_rel_record no_record) []) lim None b)
  | MDeleteRelationships => omap PCount (message step_count lim 0 b)
  | MCheck => omap PDecision (message (step_one step_bool false) lim None b)
  | MExplainCheck =>
      omap (fun x => PExplained (fst (fst x)) (snd (fst x)) (format_of (snd x))) (message (step_enum 3 step_explained) lim ("", false, 0) b)
  | MExpand => omap (fun x => PExpanded (fst x) (format_of (snd x))) (message (step_enum 2 step_cu) lim ("", 0) b)
  | MDumpRelationships => omap PDumped (message step_dumped lim None b)
  end.

Definition record_texts (r : rel_record) : list string := rr_policy r :: relationship_texts (rr_rel r).
Definition reply_texts (r : reply) : list string :=
  match r with
  | PCreated r | PPolicy r => opt_texts (fun r => policy_texts (pr_policy r)) r
  | PPolicyIds l => l
  | PRecord r => opt_texts record_texts r
  | PRecords l => opt_texts (flat_map (opt_texts record_texts)) l
  | PExplained t _ _ | PExpanded t _ => [t]
  | PDumped t => opt_texts (fun s => [s]) t
  | PUpdated | PDeletedPolicy _ _ | PSet _ | PDeleted _ | PCount _ | PDecision _ => []
  end.

Definition marshal_reply (ord : list (string * string) -> list (string * string)) (r : reply) : option string :=
  if forallb utf8_valid (reply_texts r) then Some (put_fields (fs_reply ord r)) else None.

(** ** A call *)

(** What a client gets: a response, an error that the server returned, a broken connection (a panic ends the server), an
    error of the encoding, or nothing as long as the search of the server runs.  Of an error a remote client gets the text, in a
    status of code Unknown (grpc-go); what it is known by here is its kind. *)
Inductive outcome :=
| Got (r : reply)
| Told (e : err)
| Broken
| Garbled
| Waiting.

(** A client in the same process. *)
Definition local_outcome (L : libs) (c : call) (x : res response) : outcome :=
  match x with
  | Ok a => Got (reply_of L c a)
  | Err e => Told e
  | Panic => Broken
  | Fuel => Waiting
  end.

(** A client of the gRPC server: the response is written by the server and read by the client. *)
Definition deliver (L : libs) (lim : nat) (ord : list (string * string) -> list (string * string)) (c : call) (x : res response) : outcome :=
  match x with
  | Ok a =>
      match marshal_reply ord (reply_of L c a) with
      | None => Garbled
      | Some b => match unmarshal_reply (method_of c) lim b with Some r => Got r | None => Garbled end
      end
  | Err e => Told e
  | Panic => Broken
  | Fuel => Waiting
  end.

(** A whole call to a server that serves nothing else meanwhile.  [ord] is the order in which maps are walked. *)
Definition remote (E : env) (L : libs) (lim : nat) (ord : list (string * string) -> list (string * string)) (now : N) (n : nat)
    (c : call) (b : bstore) : outcome * bstore :=
  match marshal_call ord c with
  | None => (Garbled, b)
  | Some m =>
      match unmarshal_call (method_of c) lim m with
      | None => (Garbled, b)
      | Some c' =>
          let x := byte_run lim ord (serve E (request_of L now n c')) b in
          (deliver L lim ord c' (fst x), snd x)
      end
  end.

Definition local (E : env) (L : libs) (now : N) (n : nat) (c : call) (s : store) : outcome * store :=
  let x := run (serve E (request_of L now n c)) s in
  (local_outcome L c (fst x), snd x).
