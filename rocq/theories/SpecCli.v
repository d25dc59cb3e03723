(** Specification of what the flags of a command mean, and of the requests that flags can describe. *)
From Coq Require Import Sorted.
From Verif Require Import Base Domain Lexer Store Search Explain Yaml Service Dump Api Wire Rpc Cli SpecWire.
Local Open Scope N_scope.

(** ** Flags *)

(** What the last flag says that says anything about a subject. *)
Fixpoint last_said {F A} (says : F -> option A) (l : list F) : option A :=
  match l with
  | [] => None
  | f :: rest => match last_said says rest with Some x => Some x | None => says f end
  end.

Definition said {F A} (new : A) (says : F -> option A) (l : list F) : A := or_else (last_said says l) new.

(** The flags about a part of the message. *)
Definition part {F G} (about : F -> option G) (l : list F) : list G :=
  flat_map (fun f => match about f with Some g => [g] | None => [] end) l.

Definition meant_entity (l : list entity_flag) : entity :=
  mkEntity (said "" (fun f => match f with EfResource s => Some s | _ => None end) l)
    (said "" (fun f => match f with EfId s => Some s | _ => None end) l).

(** The last flag decides the member; a member has all that was ever said about it. *)
Definition meant_subject (l : list subject_flag) : subject :=
  match last_said Some l with
  | None => SUnset
  | Some (UfEntity _ | UfEntityPart _) => SEntity (meant_entity (part (fun f => match f with UfEntityPart g => Some g | _ => None end) l))
  | Some (UfEntitySet _ | UfEntitySetEntity _ | UfEntitySetRelation _) =>
      SEntitySet (Some (meant_entity (part (fun f => match f with UfEntitySetEntity g => Some g | _ => None end) l)))
        (said "" (fun f => match f with UfEntitySetRelation s => Some s | _ => None end) l)
  | Some (UfResourceSet _ | UfResourceName _) => SResourceSet (said "" (fun f => match f with UfResourceName s => Some s | _ => None end) l)
  end.

Definition meant_relationship (l : list relationship_flag) : relationship :=
  mkRel (Some (meant_entity (part (fun f => match f with TfObject g => Some g | _ => None end) l)))
    (said "" (fun f => match f with TfRelation s => Some s | _ => None end) l)
    (Some (meant_subject (part (fun f => match f with TfSubject g => Some g | _ => None end) l))).

Definition meant_selector (l : list selector_flag) : selector :=
  mkSel
    (Some (match last_said (fun f => match f with LfObject _ | LfObjectPart _ | LfObjectResource _ => Some f | _ => None end) l with
           | Some (LfObject _ | LfObjectPart _) =>
               OSObject (Some (meant_entity (part (fun f => match f with LfObjectPart g => Some g | _ => None end) l)))
           | Some (LfObjectResource s) => OSResource s
           | _ => OSUnset
           end))
    (Some (match last_said (fun f => match f with LfRelation s => Some s | _ => None end) l with
           | Some s => LSName s
           | None => LSUnset
           end))
    (Some (match last_said (fun f => match f with LfSubject _ | LfSubjectPart _ | LfSubjectResource _ => Some f | _ => None end) l with
           | Some (LfSubject _ | LfSubjectPart _) =>
               USSubject (Some (meant_subject (part (fun f => match f with LfSubjectPart g => Some g | _ => None end) l)))
           | Some (LfSubjectResource s) => USResource s
           | _ => USUnset
           end)).

Definition meant_access (l : list access_flag) : access_request :=
  mkAccess (Some (meant_entity (part (fun f => match f with AfObject g => Some g | _ => None end) l)))
    (said "" (fun f => match f with AfRelation s => Some s | _ => None end) l)
    (Some (meant_entity (part (fun f => match f with AfSubject g => Some g | _ => None end) l))).

Definition meant_root (l : list root_flag) : rnode :=
  match last_said Some l with
  | None => NUnset
  | Some (RfEntitySet _ | RfEntitySetObject _ | RfEntitySetRelation _) =>
      NSet (Some (meant_entity (part (fun f => match f with RfEntitySetObject g => Some g | _ => None end) l)))
        (said "" (fun f => match f with RfEntitySetRelation s => Some s | _ => None end) l)
  | Some (RfEntity _ | RfEntityObject _) =>
      NEntity (Some (meant_entity (part (fun f => match f with RfEntityObject g => Some g | _ => None end) l)))
  | Some (RfWildcard _ | RfWildcardResource _) => NWild (said "" (fun f => match f with RfWildcardResource s => Some s | _ => None end) l)
  end.

(** Resources add up; of the entries with a key the last one counts. *)
Definition attribute_said (k : string) (l : list definition_flag) : option string :=
  last_said (fun x => if String.eqb (fst x) k then Some (snd x) else None)
    (flat_map (fun f => match f with DfAttributes a => a | _ => [] end) l).

Definition means_policy (l : list definition_flag) (p : policy) : Prop :=
  p_id p = said "" (fun f => match f with DfId s => Some s | _ => None end) l /\
  p_name p = said "" (fun f => match f with DfName s => Some s | _ => None end) l /\
  p_desc p = said "" (fun f => match f with DfDescription s => Some s | _ => None end) l /\
  p_resources p = flat_map (fun f => match f with DfResources r => r | _ => [] end) l /\
  forall k, kv_get scmp k (p_attrs p) = attribute_said k l.

Definition means_definition (l : list definition_flag) (d : sent_def) : Prop :=
  match last_said Some l with
  | None => d = SentUnset
  | Some (DfYaml s) => d = SentYaml s
  | Some _ => exists p, d = SentPolicy p /\ means_policy l p
  end.

(** The request that the flags of a command mean. *)
Definition means (m : method) (l : list cflag) (c : call) : Prop :=
  let id := said "" (fun f => match f with FId s => Some s | _ => None end) l in
  let data := said "" (fun f => match f with FAppData s => Some s | _ => None end) l in
  let strategy := said 0 (fun f => match f with FStrategy n => Some n | _ => None end) l in
  let fmt := said 0 (fun f => match f with FFormat n => Some n | _ => None end) l in
  let definition := means_definition (part (fun f => match f with FDefinition g => Some g | _ => None end) l) in
  let relationship := meant_relationship (part (fun f => match f with FRelationship g => Some g | _ => None end) l) in
  let selector := meant_selector (part (fun f => match f with FSelector g => Some g | _ => None end) l) in
  let access := meant_access (part (fun f => match f with FAccess g => Some g | _ => None end) l) in
  let root := meant_root (part (fun f => match f with FRoot g => Some g | _ => None end) l) in
  match m with
  | MCreatePolicy => exists d, definition d /\ c = KCreatePolicy (Some d) data
  | MUpdatePolicy => exists d, definition d /\ c = KUpdatePolicy (Some d) data strategy
  | MDeletePolicy => c = KDeletePolicy id
  | MGetPolicy => c = KGetPolicy id
  | MListPolicyIds => c = KListPolicyIds
  | MSetRelationship => c = KSetRelationship id (Some relationship) data
  | MDeleteRelationship => c = KDeleteRelationship id (Some relationship)
  | MGetRelationship => c = KGetRelationship id (Some relationship)
  | MFindRelationshipRecords => c = KFindRelationshipRecords id (Some selector)
  | MDeleteRelationships => c = KDeleteRelationships id (Some selector)
  | MCheck => c = KCheck id (Some access)
  | MExplainCheck => c = KExplainCheck id (Some access) (format_of fmt)
  | MExpand => c = KExpand id (Some root) (format_of fmt)
  | MDumpRelationships => c = KDumpRelationships id fmt
  end.

(** ** Requests that flags can describe *)

(** Sub-messages are there, and no selector has a wildcard. *)
Definition whole_subject (x : subject) : Prop := forall rel, x <> SEntitySet None rel.
Definition whole_relationship (r : relationship) : Prop :=
  (exists o, r_object r = Some o) /\ exists u, r_subject r = Some u /\ whole_subject u.
Definition flag_selector (x : selector) : Prop :=
  (exists o, s_obj x = Some o /\ o <> OSWild /\ o <> OSObject None) /\
  (exists n, s_rel x = Some n /\ n <> LSWild) /\
  (exists u, s_subj x = Some u /\ u <> USWild /\ u <> USSubject None /\ forall y, u = USSubject (Some y) -> whole_subject y).
Definition whole_request (a : access_request) : Prop := (exists o, a_object a = Some o) /\ exists u, a_subject a = Some u.
Definition whole_root (n : rnode) : Prop := match n with NSet None _ | NEntity None => False | _ => True end.

(** Every format has one number, and the attributes of a policy are a map. *)
Definition one_number (f : format) : Prop := forall n, f = FOther n -> 2 < n.
Definition map_definition (d : sent_def) : Prop :=
  forall p, d = SentPolicy p -> StronglySorted (fun x y => scmp (fst x) (fst y) = Lt) (p_attrs p).

Definition describable (c : call) : Prop :=
  match c with
  | KCreatePolicy d _ | KUpdatePolicy d _ _ => exists x, d = Some x /\ map_definition x
  | KDeletePolicy _ | KGetPolicy _ | KListPolicyIds | KDumpRelationships _ _ => True
  | KSetRelationship _ r _ | KDeleteRelationship _ r | KGetRelationship _ r => exists x, r = Some x /\ whole_relationship x
  | KFindRelationshipRecords _ s | KDeleteRelationships _ s => exists x, s = Some x /\ flag_selector x
  | KCheck _ a => exists x, a = Some x /\ whole_request x
  | KExplainCheck _ a f => (exists x, a = Some x /\ whole_request x) /\ one_number f
  | KExpand _ n f => (exists x, n = Some x /\ whole_root x) /\ one_number f
  end.

(** ** Input *)

(** The message with its missing parts put in, empty.  The members of oneofs are left as they are. *)
Definition filled_relationship (r : relationship) : relationship :=
  mkRel (Some (or_else (r_object r) no_entity)) (r_relation r) (Some (or_else (r_subject r) SUnset)).
Definition filled_selector (x : selector) : selector :=
  mkSel (Some (or_else (s_obj x) OSUnset)) (Some (or_else (s_rel x) LSUnset)) (Some (or_else (s_subj x) USUnset)).
Definition filled_access (a : access_request) : access_request :=
  mkAccess (Some (or_else (a_object a) no_entity)) (a_relation a) (Some (or_else (a_subject a) no_entity)).

Definition filled (c : call) : call :=
  match c with
  | KCreatePolicy d x => KCreatePolicy (Some (or_else d SentUnset)) x
  | KUpdatePolicy d x s => KUpdatePolicy (Some (or_else d SentUnset)) x s
  | KSetRelationship id r x => KSetRelationship id (Some (filled_relationship (or_else r no_relationship))) x
  | KDeleteRelationship id r => KDeleteRelationship id (Some (filled_relationship (or_else r no_relationship)))
  | KGetRelationship id r => KGetRelationship id (Some (filled_relationship (or_else r no_relationship)))
  | KFindRelationshipRecords id s => KFindRelationshipRecords id (Some (filled_selector (or_else s (mkSel None None None))))
  | KDeleteRelationships id s => KDeleteRelationships id (Some (filled_selector (or_else s (mkSel None None None))))
  | KCheck id a => KCheck id (Some (filled_access (or_else a (mkAccess None "" None))))
  | KExplainCheck id a f => KExplainCheck id (Some (filled_access (or_else a (mkAccess None "" None)))) f
  | KExpand id n f => KExpand id (Some (or_else n NUnset)) f
  | KDeletePolicy _ | KGetPolicy _ | KListPolicyIds | KDumpRelationships _ _ => c
  end.

(** The policy that a request is about, and its application data. *)
Definition about_policy (c : call) : string :=
  match c with
  | KDeletePolicy id | KGetPolicy id | KSetRelationship id _ _ | KDeleteRelationship id _ | KGetRelationship id _
  | KFindRelationshipRecords id _ | KDeleteRelationships id _ | KCheck id _ | KExplainCheck id _ _ | KExpand id _ _
  | KDumpRelationships id _ => id
  | _ => ""
  end.

(** The formats of a message that was decoded have one number. *)
Definition decoded (c : call) : Prop :=
  match c with KExplainCheck _ _ f | KExpand _ _ f => one_number f | _ => True end.

(** The members of oneofs have their parts. *)
Definition whole_members (c : call) : Prop :=
  match c with
  | KDeleteRelationship _ (Some r) | KGetRelationship _ (Some r) => forall rel, r_subject r <> Some (SEntitySet None rel)
  | KFindRelationshipRecords _ (Some x) | KDeleteRelationships _ (Some x) => s_obj x <> Some (OSObject None) /\ s_subj x <> Some (USSubject None)
  | KExpand _ (Some n) _ => whole_root n
  | _ => True
  end.

(** Methods that write policies or relationships. *)
Definition writes (m : method) : Prop := m = MCreatePolicy \/ m = MUpdatePolicy \/ m = MSetRelationship.

(** Nothing in the request is empty: no text, no oneof, no enum.  Policies are left out: their lists and maps add up. *)
Definition full_entity (e : entity) : Prop := e_res e <> ""%string /\ e_id e <> ""%string.
Definition full_subject (x : subject) : Prop :=
  match x with
  | SEntity e => full_entity e
  | SEntitySet o rel => (exists e, o = Some e /\ full_entity e) /\ rel <> ""%string
  | SResourceSet rs => rs <> ""%string
  | SUnset => False
  end.
Definition full_relationship (r : relationship) : Prop :=
  (exists o, r_object r = Some o /\ full_entity o) /\ r_relation r <> ""%string /\ exists u, r_subject r = Some u /\ full_subject u.
Definition full_selector (x : selector) : Prop :=
  (exists o, s_obj x = Some o /\ o <> OSUnset /\ forall e, o = OSObject e -> exists y, e = Some y /\ full_entity y) /\
  (exists n, s_rel x = Some n /\ n <> LSUnset) /\
  (exists u, s_subj x = Some u /\ u <> USUnset /\ forall e, u = USSubject e -> exists y, e = Some y /\ full_subject y).
Definition full_access (a : access_request) : Prop :=
  (exists o, a_object a = Some o /\ full_entity o) /\ a_relation a <> ""%string /\ exists u, a_subject a = Some u /\ full_entity u.
Definition full_root (n : rnode) : Prop :=
  match n with
  | NSet o rel => (exists e, o = Some e /\ full_entity e) /\ rel <> ""%string
  | NEntity o => exists e, o = Some e /\ full_entity e
  | NWild rs => rs <> ""%string
  | NUnset => False
  end.
Definition full_definition (d : sent_def) : Prop := exists s, d = SentYaml s.

Definition full (c : call) : Prop :=
  match c with
  | KCreatePolicy d x => (exists y, d = Some y /\ full_definition y) /\ x <> ""%string
  | KUpdatePolicy d x s => (exists y, d = Some y /\ full_definition y) /\ x <> ""%string /\ s <> 0
  | KDeletePolicy id | KGetPolicy id => id <> ""%string
  | KListPolicyIds => True
  | KSetRelationship id r x => id <> ""%string /\ (exists y, r = Some y /\ full_relationship y) /\ x <> ""%string
  | KDeleteRelationship id r | KGetRelationship id r => id <> ""%string /\ exists y, r = Some y /\ full_relationship y
  | KFindRelationshipRecords id s | KDeleteRelationships id s => id <> ""%string /\ exists y, s = Some y /\ full_selector y
  | KCheck id a => id <> ""%string /\ exists y, a = Some y /\ full_access y
  | KExplainCheck id a f => id <> ""%string /\ (exists y, a = Some y /\ full_access y) /\ f <> FSpew
  | KExpand id n f => id <> ""%string /\ (exists y, n = Some y /\ full_root y) /\ f <> FSpew
  | KDumpRelationships id f => id <> ""%string /\ f <> 0
  end.
