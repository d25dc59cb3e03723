(** The bookkeeping of protobuf's Go messages, which reflect.DeepEqual compares. *)
From Verif Require Import Base Domain Lexer Validate Store Service Api Wire Rpc.
Local Open Scope N_scope.

(** pkg/domain/relationship.pb.go:28-31, 87-89, ...: every generated message struct begins with [state], [sizeCache] and
    [unknownFields].  [state] holds nil until the message is looked at by reflection (printed, cloned, compared, or encoded
    as a whole; the ProtoReflect method, :54-64) and the address of the type's description from then on; [sizeCache] is 0 until the message is encoded inside
    another one; [unknownFields] is nil until fields that the schema does not know are decoded. *)
Record book := mkBook {
  b_info : bool;
  b_size : N;
  b_unknown : option string }.

(** A message written as a literal, or allocated by the decoder. *)
Definition fresh : book := mkBook false 0 None.

(** relationship.pb.go Entity, EntitySet, ResourceSet and Subject with their bookkeeping.  The wrappers of a oneof's members
    have none. *)
Record m_entity := mkME { me_book : book; me_res : string; me_id : string }.
Inductive m_variant :=
| MVEntity (e : m_entity)
| MVSet (b : book) (e : option m_entity) (rel : string)
| MVRes (b : book) (rs : string)
| MVUnset.
Record m_subject := mkMS { ms_book : book; ms_is : m_variant }.
Record m_relationship := mkMR { mr_object : m_entity; mr_relation : string; mr_subject : m_subject }.

(** selector.pb.go.  The bookkeeping of the selectors themselves is not compared with anything, and left out. *)
Inductive m_obj_selector :=
| MOObject (e : option m_entity)
| MOResource (rs : string)
| MOWild
| MOUnset.
Inductive m_subj_selector :=
| MUSubject (u : option m_subject)
| MUResource (rs : string)
| MUWild
| MUUnset.
Record m_selector := mkMSel { m_obj : option m_obj_selector; m_rel : option rel_selector; m_subj : option m_subj_selector }.

(** What the messages say. *)
Definition e_plain (e : m_entity) : entity := mkEntity (me_res e) (me_id e).
Definition u_plain (u : m_subject) : subject :=
  match ms_is u with
  | MVEntity e => SEntity (e_plain e)
  | MVSet _ e rel => SEntitySet (omap e_plain e) rel
  | MVRes _ rs => SResourceSet rs
  | MVUnset => SUnset
  end.
Definition o_plain (x : m_obj_selector) : obj_selector :=
  match x with
  | MOObject e => OSObject (omap e_plain e)
  | MOResource rs => OSResource rs
  | MOWild => OSWild
  | MOUnset => OSUnset
  end.
Definition us_plain (x : m_subj_selector) : subj_selector :=
  match x with
  | MUSubject u => USSubject (omap u_plain u)
  | MUResource rs => USResource rs
  | MUWild => USWild
  | MUUnset => USUnset
  end.
Definition plain_selector (x : m_selector) : selector := mkSel (omap o_plain (m_obj x)) (m_rel x) (omap us_plain (m_subj x)).

(** ** reflect.DeepEqual: struct by struct, field by field; a nil slice differs from one that is not nil. *)

Definition deep_book (a b : book) : bool :=
  Bool.eqb (b_info a) (b_info b) && (b_size a =? b_size b) && opt_eqb String.eqb (b_unknown a) (b_unknown b).
Definition deep_entity (a b : m_entity) : bool :=
  deep_book (me_book a) (me_book b) && String.eqb (me_res a) (me_res b) && String.eqb (me_id a) (me_id b).
Definition deep_variant (a b : m_variant) : bool :=
  match a, b with
  | MVEntity x, MVEntity y => deep_entity x y
  | MVSet c x r, MVSet d y r' => deep_book c d && opt_eqb deep_entity x y && String.eqb r r'
  | MVRes c x, MVRes d y => deep_book c d && String.eqb x y
  | MVUnset, MVUnset => true
  | _, _ => false
  end.
Definition deep_subject (a b : m_subject) : bool := deep_book (ms_book a) (ms_book b) && deep_variant (ms_is a) (ms_is b).

(** ** The server *)

(** mapper.go:46-83 FromInternal: literals *)
Definition m_from_internal (e : edge) : m_relationship :=
  let s := ed_src e in
  let d := ed_dst e in
  mkMR (mkME fresh (i_res s) (i_id s)) (i_rel s)
    (mkMS fresh match i_type d with
                | TyObject => MVEntity (mkME fresh (i_res d) (i_id d))
                | TyObjectSet => MVSet fresh (Some (mkME fresh (i_res d) (i_id d))) (i_rel d)
                | TyResourceSet => MVRes fresh (i_res d)
                | TyUnknown => MVUnset
                end).
Definition r_plain (r : m_relationship) : relationship :=
  mkRel (Some (e_plain (mr_object r))) (mr_relation r) (Some (u_plain (mr_subject r))).

(** selector_spec.go:19-54 NewSelectorSpec *)
Definition m_selector_spec (s : option m_selector) : res (m_obj_selector * rel_selector * m_subj_selector) :=
  match s with
  | None => Panic
  | Some s =>
      let* o := match m_obj s with None => Panic | Some MOUnset => Err EInvalidVariant | Some o => Ok o end in
      let* l := match m_rel s with None => Panic | Some LSUnset => Err EInvalidVariant | Some l => Ok l end in
      let* u := match m_subj s with None => Panic | Some MUUnset => Err EInvalidVariant | Some u => Ok u end in
      Ok (o, l, u)
  end.

(** selector_spec.go:60-77; :60-64 is the comparison of the whole message *)
Definition m_object_predicate (o : m_obj_selector) (r : m_relationship) : bool :=
  match o with
  | MOObject (Some e) => deep_entity e (mr_object r)
  | MOObject None => false
  | MOResource rs => String.eqb (me_res (mr_object r)) rs
  | MOWild => true
  | MOUnset => false
  end.

(** selector_spec.go:78-88 *)
Definition m_relation_predicate (l : rel_selector) (r : m_relationship) : bool :=
  match l with
  | LSName n => String.eqb (mr_relation r) n
  | LSWild => true
  | LSUnset => false
  end.

(** selector_spec.go:90-115; :90-94 is the comparison of the whole message *)
Definition m_subject_predicate (u : m_subj_selector) (r : m_relationship) : bool :=
  match u with
  | MUSubject (Some x) => deep_subject (mr_subject r) x
  | MUSubject None => false
  | MUResource rs =>
      match ms_is (mr_subject r) with
      | MVEntity e => String.eqb (me_res e) rs
      | MVSet _ (Some e) _ => String.eqb (me_res e) rs
      | MVRes _ x => String.eqb x rs
      | _ => false
      end
  | MUWild => true
  | MUUnset => false
  end.

(** selector_spec.go:56-58 Satisfies *)
Definition m_satisfies (s : m_obj_selector * rel_selector * m_subj_selector) (r : m_relationship) : bool :=
  let '(o, l, u) := s in m_object_predicate o r && m_relation_predicate l r && m_subject_predicate u r.

(** policy_repository.go:150-169 FindRelationships; what is done with the relationships found does not look at their
    bookkeeping (mapper.go:11-44). *)
Definition m_find_relationships (pid : string) (s : option m_selector) : prog (res (list relationship)) :=
  EdgeList pid (fun es =>
    lift (let* sp := m_selector_spec s in
          Ok (map r_plain (filter (m_satisfies sp) (map (fun x => m_from_internal (snd x)) es))))).

(** service.go:227-256 FindRelationshipRecords and policy_repository.go:187-201; ValidSelectorSpec (spec.go:340-425) compares
    names only. *)
Definition m_find_relationship_records (E : env) (pid : string) (s : option m_selector) : prog (res (list (option rel_record))) :=
  pbind (repo_get_policy pid) (fun record =>
    match record with
    | None => Ret (Err EPolicyNotFound)
    | Some rec =>
        rbind (lift (valid_selector (pr_policy rec) (omap plain_selector s))) (fun _ =>
          rbind (m_find_relationships pid s) (fun rs => map_prog (fun r => repo_get_relationship E pid (Some r)) rs))
    end).

(** service.go:258-271 and policy_repository.go:203-218 DeleteRelationships *)
Definition m_delete_relationships (E : env) (pid : string) (s : option m_selector) : prog (res nat) :=
  rbind (m_find_relationships pid s) (fun rs =>
    rbind (map_prog (fun r => repo_delete_relationship E pid (Some r)) rs) (fun founds => Ret (Ok (length founds)))).

(** The requests with a selector, as messages, and all others, whose messages are not compared. *)
Inductive m_request :=
| MFind (pid : string) (s : option m_selector)
| MDelete (pid : string) (s : option m_selector)
| MOther (q : request).

Definition m_serve (E : env) (q : m_request) : prog (res response) :=
  match q with
  | MFind pid s => respond (m_find_relationship_records E pid s) ARecords
  | MDelete pid s => respond (m_delete_relationships E pid s) ACount
  | MOther q => serve E q
  end.

Definition plain_request (q : m_request) : request :=
  match q with
  | MFind pid s => QFindRelationshipRecords pid (omap plain_selector s)
  | MDelete pid s => QDeleteRelationships pid (omap plain_selector s)
  | MOther q => q
  end.

(** ** What clients do with messages *)

(** Printing a message (String, or %v) looks at it and at the messages in it by reflection. *)
Definition looked_at (b : book) : book := mkBook true (b_size b) (b_unknown b).
Definition print_entity (e : m_entity) : m_entity := mkME (looked_at (me_book e)) (me_res e) (me_id e).
Definition print_subject (u : m_subject) : m_subject :=
  mkMS (looked_at (ms_book u))
    match ms_is u with
    | MVEntity e => MVEntity (print_entity e)
    | MVSet b e rel => MVSet (looked_at b) (omap print_entity e) rel
    | MVRes b rs => MVRes (looked_at b) rs
    | MVUnset => MVUnset
    end.

(** Encoding a message stores the size of every message in it. *)
Definition size_of (b : book) (fs : list field) : N := slen (put_fields fs) + slen (or_else (b_unknown b) "").
Definition sized (b : book) (fs : list field) : book := mkBook (b_info b) (size_of b fs) (b_unknown b).
Definition encode_entity (e : m_entity) : m_entity := mkME (sized (me_book e) (fs_entity (e_plain e))) (me_res e) (me_id e).

(** ** The decoder, which keeps what it does not know *)

(** Fields of another number or type are appended to [unknownFields] (here in their canonical encoding). *)
Definition keep (f : field) (b : book) : book := mkBook (b_info b) (b_size b) (Some (or_else (b_unknown b) "" +++ put_fields [f])).

Definition m_step_entity (d : nat) (e : m_entity) (f : field) : option m_entity :=
  match f with
  | (1, WLen s) => text s (fun s => mkME (me_book e) s (me_id e))
  | (2, WLen s) => text s (fun s => mkME (me_book e) (me_res e) s)
  | _ => Some (mkME (keep f (me_book e)) (me_res e) (me_id e))
  end.
Definition new_entity : m_entity := mkME fresh "" "".

Definition m_step_entity_set (d : nat) (x : book * option m_entity * string) (f : field) : option (book * option m_entity * string) :=
  match f with
  | (1, WLen b) => omap (fun e => (fst (fst x), Some e, snd x)) (message m_step_entity d (or_else (snd (fst x)) new_entity) b)
  | (2, WLen s) => text s (fun s => (fst x, s))
  | _ => Some (keep f (fst (fst x)), snd (fst x), snd x)
  end.

Definition m_step_name (d : nat) (x : book * string) (f : field) : option (book * string) :=
  match f with
  | (1, WLen s) => text s (fun s => (fst x, s))
  | _ => Some (keep f (fst x), snd x)
  end.

Definition m_step_subject (d : nat) (u : m_subject) (f : field) : option m_subject :=
  match f with
  | (1, WLen b) =>
      omap (fun e => mkMS (ms_book u) (MVEntity e)) (message m_step_entity d (match ms_is u with MVEntity e => e | _ => new_entity end) b)
  | (2, WLen b) =>
      omap (fun y => mkMS (ms_book u) (MVSet (fst (fst y)) (snd (fst y)) (snd y)))
        (message m_step_entity_set d (match ms_is u with MVSet c e r => (c, e, r) | _ => (fresh, None, "") end) b)
  | (3, WLen b) =>
      omap (fun y => mkMS (ms_book u) (MVRes (fst y) (snd y)))
        (message m_step_name d (match ms_is u with MVRes c r => (c, r) | _ => (fresh, "") end) b)
  | _ => Some (mkMS (keep f (ms_book u)) (ms_is u))
  end.

Definition m_step_obj_selector (d : nat) (x : m_obj_selector) (f : field) : option m_obj_selector :=
  match f with
  | (1, WLen b) =>
      omap (fun e => MOObject (Some e)) (message m_step_entity d (match x with MOObject (Some e) => e | _ => new_entity end) b)
  | (2, WLen b) => omap (fun _ => MOWild) (message step_empty d tt b)
  | (3, WLen s) => text s MOResource
  | _ => Some x
  end.
Definition m_step_subj_selector (d : nat) (x : m_subj_selector) (f : field) : option m_subj_selector :=
  match f with
  | (1, WLen b) =>
      omap (fun u => MUSubject (Some u))
        (message m_step_subject d (match x with MUSubject (Some u) => u | _ => mkMS fresh MVUnset end) b)
  | (2, WLen b) => omap (fun _ => MUWild) (message step_empty d tt b)
  | (3, WLen s) => text s MUResource
  | _ => Some x
  end.
Definition m_step_selector (d : nat) (x : m_selector) (f : field) : option m_selector :=
  match f with
  | (1, WLen b) => omap (fun y => mkMSel (Some y) (m_rel x) (m_subj x)) (message m_step_obj_selector d (or_else (m_obj x) MOUnset) b)
  | (2, WLen b) => omap (fun y => mkMSel (m_obj x) (Some y) (m_subj x)) (message step_rel_selector d (or_else (m_rel x) LSUnset) b)
  | (3, WLen b) => omap (fun y => mkMSel (m_obj x) (m_rel x) (Some y)) (message m_step_subj_selector d (or_else (m_subj x) MUUnset) b)
  | _ => Some x
  end.
Definition m_decode_selector (lim : nat) (b : string) : option m_selector := message m_step_selector lim (mkMSel None None None) b.
