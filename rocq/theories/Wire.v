(** Wire: the protobuf encoding of requests and stored records.

    internal/store/kv_store/kv_store.go:21-65 stores every record with rcdb.ProtoMarshaler, that is with proto.Marshal and
    proto.Unmarshal of google.golang.org/protobuf v1.31.0, and a gRPC server decodes requests with the same library.
    The library is not part of /repo: its rules (the wire format, proto3 presence, merging, UTF-8 checks and the recursion
    limit) are written down here from its documentation.  Field numbers and types are those of
    proto/internal/kv_store/relationship_record.proto and proto/zanzi/zanzi/{domain,api}. *)
From Verif Require Import Base Domain Lexer Store Yaml Service Api.
Local Open Scope N_scope.

(** ** Bytes *)

Definition slen (s : string) : N := N.of_nat (String.length s).

(** protowire.AppendVarint: seven bits per byte, low bits first.  [k] bounds the number of bytes. *)
Fixpoint put_varint_n (k : nat) (n : N) : string :=
  match k with
  | O => ""
  | S k' => if n <? 128 then one (ascii_of_N n)
            else String (ascii_of_N (n mod 128 + 128)) (put_varint_n k' (n / 128))
  end.
Definition put_varint (n : N) : string := put_varint_n 10 n.

(** protowire.ConsumeVarint: at most ten bytes, and the tenth is 0 or 1. *)
Fixpoint get_varint_n (k : nat) (s : string) : option (N * string) :=
  match k, s with
  | S k', String c s' =>
      let b := byte c in
      if b <? 128 then if Nat.eqb k' 0 && (1 <? b) then None else Some (b, s')
      else match get_varint_n k' s' with
           | Some (n, r) => Some (b - 128 + 128 * n, r)
           | None => None
           end
  | _, _ => None
  end.
Definition get_varint (s : string) : option (N * string) := get_varint_n 10 s.

(** The first [n] bytes and the rest. *)
Fixpoint cut (s : string) (n : N) : option (string * string) :=
  if n =? 0 then Some ("", s)
  else match s with
       | EmptyString => None
       | String c s' => match cut s' (n - 1) with
                        | Some (a, b) => Some (String c a, b)
                        | None => None
                        end
       end.

(** ** Fields *)

(** The payload of a field.  Groups are left out: no message here has one, and no encoder writes one. *)
Inductive wval := WVarint (n : N) | WLen (s : string) | WFixed (s : string).

Definition field := (N * wval)%type.

(** A field that is written: its tag and its payload.  A payload of eight bytes is a fixed64, any other a fixed32. *)
Definition put_field (f : field) : string :=
  match snd f with
  | WVarint n => put_varint (fst f * 8) +++ put_varint n
  | WLen s => put_varint (fst f * 8 + 2) +++ put_varint (slen s) +++ s
  | WFixed s => put_varint (fst f * 8 + if slen s =? 8 then 1 else 5) +++ s
  end.

Fixpoint put_fields (fs : list field) : string :=
  match fs with
  | [] => ""
  | f :: fs' => put_field f +++ put_fields fs'
  end.

(** protowire.ConsumeField: field numbers are 1 to 2^29 - 1. *)
Definition get_field (s : string) : option (field * string) :=
  match get_varint s with
  | None => None
  | Some (t, s1) =>
      let num := t / 8 in
      if (num =? 0) || (536870911 <? num) then None
      else
        match t mod 8 with
        | 0 => match get_varint s1 with Some (n, r) => Some ((num, WVarint n), r) | None => None end
        | 1 => match cut s1 8 with Some (a, r) => Some ((num, WFixed a), r) | None => None end
        | 2 => match get_varint s1 with
               | Some (n, s2) => match cut s2 n with Some (a, r) => Some ((num, WLen a), r) | None => None end
               | None => None
               end
        | 5 => match cut s1 4 with Some (a, r) => Some ((num, WFixed a), r) | None => None end
        | _ => None
        end
  end.

(** The fields of a message.  Every field takes at least one byte, so the length bounds their number. *)
Fixpoint get_fields_n (k : nat) (s : string) : option (list field) :=
  match s, k with
  | EmptyString, _ => Some []
  | _, O => None
  | _, S k' =>
      match get_field s with
      | None => None
      | Some (f, r) => match get_fields_n k' r with Some fs => Some (f :: fs) | None => None end
      end
  end.
Definition get_fields (s : string) : option (list field) := get_fields_n (String.length s) s.

(** ** Messages *)

(** Decoding goes through the fields in the order in which they come and updates the message. *)
Fixpoint fold_opt {A B} (f : A -> B -> option A) (l : list B) (a : A) : option A :=
  match l with
  | [] => Some a
  | x :: l' => match f a x with Some a' => fold_opt f l' a' | None => None end
  end.

(** Decoding of a message into [a].  [d] is the number of levels that may still be entered: proto.Unmarshal fails when it
    has to go deeper (protowire.DefaultRecursionLimit is 10000). *)
Definition message {A} (step : nat -> A -> field -> option A) (d : nat) (a : A) (b : string) : option A :=
  match d with
  | O => None
  | S d' => match get_fields b with Some fs => fold_opt (step d') fs a | None => None end
  end.

Definition recursion_limit : nat := N.to_nat 10000.

Definition omap {A B} (f : A -> B) (o : option A) : option B :=
  match o with Some a => Some (f a) | None => None end.

(** utf8.Valid, which proto3 requires of every string field when it is written and when it is read. *)
Fixpoint utf8_valid (s : string) : bool :=
  match s with
  | EmptyString => true
  | String a s1 =>
      if byte a <? 128 then utf8_valid s1
      else
        match utf8_lead (byte a), s1 with
        | Some (n, lo, hi), String a1 s2 =>
            between lo hi (byte a1) &&
            (if Nat.eqb n 2 then utf8_valid s2
             else match s2 with
                  | String a2 s3 =>
                      is_cont a2 &&
                      (if Nat.eqb n 3 then utf8_valid s3
                       else match s3 with
                            | String a3 s4 => is_cont a3 && utf8_valid s4
                            | EmptyString => false
                            end)
                  | EmptyString => false
                  end)
        | _, _ => false
        end
  end.

(** A string field that is read. *)
Definition text {A} (s : string) (f : string -> A) : option A := if utf8_valid s then Some (f s) else None.

(** Fields that are written: proto3 leaves out empty strings and zeros; messages and members of a oneof are always
    written. *)
Definition f_str (n : N) (s : string) : list field := match s with EmptyString => [] | _ => [(n, WLen s)] end.
Definition f_int (n v : N) : list field := if v =? 0 then [] else [(n, WVarint v)].
Definition f_msg (n : N) (fs : list field) : list field := [(n, WLen (put_fields fs))].

(** *** google.protobuf.Timestamp

    The model's times are nanoseconds since 1970; seconds are an int64 and nanos an int32.  Times before 1970 are left out. *)
Definition nanos : N := 1000000000.

Definition fs_time (t : N) : list field := f_int 1 (t / nanos) ++ f_int 2 (t mod nanos).

Definition step_time (d : nat) (t : N * N) (f : field) : option (N * N) :=
  match f with
  | (1, WVarint v) => Some (v, snd t)
  | (2, WVarint v) => Some (fst t, v mod 4294967296)
  | _ => Some t
  end.

Definition dec_time (d : nat) (t : N) (b : string) : option N :=
  omap (fun x => fst x * nanos + snd x) (message step_time d (t / nanos, t mod nanos) b).

(** *** relation_expression_tree.proto *)

(** enum Operator: an int32, negative values are written with 64 bits.  [OpOther n] is the value as an unsigned number. *)
Definition op_code (o : operator) : N :=
  match o with OpUnion => 0 | OpInter => 1 | OpDiff => 2 | OpOther n => n end.
Definition op_of (v : N) : operator :=
  match v mod 4294967296 with 0 => OpUnion | 1 => OpInter | 2 => OpDiff | n => OpOther n end.
Definition op_wire (o : operator) : N :=
  if op_code o <? 2147483648 then op_code o else op_code o + (18446744073709551616 - 4294967296).

Definition fs_rule (r : rule) : list field :=
  match r with
  | RThis => f_msg 1 []
  | RCu t => f_msg 2 (f_str 1 t)
  | RTtu ts c => f_msg 3 (f_str 1 ts ++ f_str 2 c)
  | RUnset => []
  end.

(** This, UniversalSet: no fields. *)
Definition step_empty (d : nat) (u : unit) (f : field) : option unit := Some u.

Definition step_cu (d : nat) (t : string) (f : field) : option string :=
  match f with
  | (1, WLen s) => text s (fun s => s)
  | _ => Some t
  end.

Definition step_ttu (d : nat) (x : string * string) (f : field) : option (string * string) :=
  match f with
  | (1, WLen s) => text s (fun s => (s, snd x))
  | (2, WLen s) => text s (fun s => (fst x, s))
  | _ => Some x
  end.

(** A member of a oneof that is already set is merged with what comes; another member replaces it. *)
Definition step_rule (d : nat) (r : rule) (f : field) : option rule :=
  match f with
  | (1, WLen b) => omap (fun _ => RThis) (message step_empty d tt b)
  | (2, WLen b) => omap RCu (message step_cu d (match r with RCu t => t | _ => "" end) b)
  | (3, WLen b) =>
      omap (fun x => RTtu (fst x) (snd x))
        (message step_ttu d (match r with RTtu ts c => (ts, c) | _ => ("", "") end) b)
  | _ => Some r
  end.

Fixpoint fs_tree (t : tree) : list field :=
  match t with
  | TNil => []
  | TUnset => []
  | TRule r => f_msg 2 (fs_rule r)
  | TOp l o r =>
      f_msg 1 (match l with TNil => [] | _ => f_msg 1 (fs_tree l) end ++
               f_int 2 (op_wire o) ++
               match r with TNil => [] | _ => f_msg 3 (fs_tree r) end)
  end.

(** A nil tree becomes an empty message before it is filled. *)
Definition fresh (t : tree) : tree := match t with TNil => TUnset | _ => t end.

Fixpoint dec_tree (d : nat) (t : tree) (b : string) {struct d} : option tree :=
  match d with
  | O => None
  | S d1 =>
      match get_fields b with
      | None => None
      | Some fs =>
          fold_opt (fun t f =>
            match f with
            | (1, WLen b1) =>
                match d1 with
                | O => None
                | S d2 =>
                    match get_fields b1 with
                    | None => None
                    | Some gs =>
                        omap (fun x => TOp (fst (fst x)) (snd (fst x)) (snd x))
                          (fold_opt (fun x g =>
                             match g with
                             | (1, WLen b2) => omap (fun l => (l, snd (fst x), snd x)) (dec_tree d2 (fresh (fst (fst x))) b2)
                             | (2, WVarint v) => Some (fst (fst x), op_of v, snd x)
                             | (3, WLen b2) => omap (fun r => (fst x, r)) (dec_tree d2 (fresh (snd x)) b2)
                             | _ => Some x
                             end) gs
                             (match t with TOp l o r => (l, o, r) | _ => (TNil, OpUnion, TNil) end))
                    end
                end
            | (2, WLen b1) => omap TRule (message step_rule d1 (match t with TRule r => r | _ => RUnset end) b1)
            | _ => Some t
            end) fs t
      end
  end.

(** *** policy.proto *)

Definition fs_relexpr (x : relexpr) : list field :=
  match x with
  | XExpr s => [(1, WLen s)]
  | XTree t => f_msg 2 (fs_tree t)
  | XUnset => []
  end.

Definition step_relexpr (d : nat) (x : relexpr) (f : field) : option relexpr :=
  match f with
  | (1, WLen s) => text s XExpr
  | (2, WLen b) => omap XTree (dec_tree d (match x with XTree t => fresh t | _ => TUnset end) b)
  | _ => Some x
  end.

Definition fs_restriction (r : restriction) : list field :=
  match r with
  | REntity rs => f_msg 1 (f_str 1 rs)
  | REntitySet rs rl => f_msg 2 (f_str 1 rs ++ f_str 2 rl)
  | RRUnset => []
  end.

Definition step_restriction (d : nat) (r : restriction) (f : field) : option restriction :=
  match f with
  | (1, WLen b) => omap REntity (message step_cu d (match r with REntity x => x | _ => "" end) b)
  | (2, WLen b) =>
      omap (fun x => REntitySet (fst x) (snd x))
        (message step_ttu d (match r with REntitySet x y => (x, y) | _ => ("", "") end) b)
  | _ => Some r
  end.

(** SubjectRestrictionSet *)
Definition step_restrictions (d : nat) (l : list restriction) (f : field) : option (list restriction) :=
  match f with
  | (1, WLen b) => omap (fun r => l ++ [r]) (message step_restriction d RRUnset b)
  | _ => Some l
  end.

Definition fs_subj_restriction (r : subj_restriction) : list field :=
  match r with
  | SRSet l => f_msg 1 (flat_map (fun r => f_msg 1 (fs_restriction r)) l)
  | SRUniversal => f_msg 2 []
  | SRUnset => []
  end.

Definition step_subj_restriction (d : nat) (r : subj_restriction) (f : field) : option subj_restriction :=
  match f with
  | (1, WLen b) => omap SRSet (message step_restrictions d (match r with SRSet l => l | _ => [] end) b)
  | (2, WLen b) => omap (fun _ => SRUniversal) (message step_empty d tt b)
  | _ => Some r
  end.

Definition or_else {A} (o : option A) (a : A) : A := match o with Some x => x | None => a end.
Definition f_opt {A} (n : N) (fs : A -> list field) (o : option A) : list field :=
  match o with Some x => f_msg n (fs x) | None => [] end.

Definition fs_relation (r : relation) : list field :=
  f_str 1 (rl_name r) ++ f_str 2 (rl_desc r) ++ f_opt 3 fs_relexpr (rl_expr r) ++ f_opt 4 fs_subj_restriction (rl_restr r).

Definition step_relation (d : nat) (r : relation) (f : field) : option relation :=
  match f with
  | (1, WLen s) => text s (fun s => mkRelation s (rl_desc r) (rl_expr r) (rl_restr r))
  | (2, WLen s) => text s (fun s => mkRelation (rl_name r) s (rl_expr r) (rl_restr r))
  | (3, WLen b) =>
      omap (fun x => mkRelation (rl_name r) (rl_desc r) (Some x) (rl_restr r))
        (message step_relexpr d (or_else (rl_expr r) XUnset) b)
  | (4, WLen b) =>
      omap (fun x => mkRelation (rl_name r) (rl_desc r) (rl_expr r) (Some x))
        (message step_subj_restriction d (or_else (rl_restr r) SRUnset) b)
  | _ => Some r
  end.

Definition fs_resource (r : resource) : list field :=
  f_str 1 (rs_name r) ++ f_str 2 (rs_desc r) ++ flat_map (fun l => f_msg 3 (fs_relation l)) (rs_relations r).

Definition step_resource (d : nat) (r : resource) (f : field) : option resource :=
  match f with
  | (1, WLen s) => text s (fun s => mkResource s (rs_desc r) (rs_relations r))
  | (2, WLen s) => text s (fun s => mkResource (rs_name r) s (rs_relations r))
  | (3, WLen b) =>
      omap (fun l => mkResource (rs_name r) (rs_desc r) (rs_relations r ++ [l]))
        (message step_relation d (mkRelation "" "" None None) b)
  | _ => Some r
  end.

(** An entry of the attributes: both fields are always written. *)
Definition f_entry (x : string * string) : list field := f_msg 5 [(1, WLen (fst x)); (2, WLen (snd x))].

(** Map entries do not count as a level. *)
Definition dec_entry (b : string) : option (string * string) := message step_ttu 1 ("", "") b.

(** The attributes are written in the order [attrs] in which Go walks the map. *)
Definition fs_policy (p : policy) (attrs : list (string * string)) : list field :=
  f_str 1 (p_id p) ++ f_str 2 (p_name p) ++ f_str 3 (p_desc p) ++
  flat_map (fun r => f_msg 4 (fs_resource r)) (p_resources p) ++ flat_map f_entry attrs.

(** A later entry with the same key replaces an earlier one; the model's map is in key order. *)
Definition step_policy (d : nat) (p : policy) (f : field) : option policy :=
  match f with
  | (1, WLen s) => text s (fun s => mkPolicy s (p_name p) (p_desc p) (p_resources p) (p_attrs p))
  | (2, WLen s) => text s (fun s => mkPolicy (p_id p) s (p_desc p) (p_resources p) (p_attrs p))
  | (3, WLen s) => text s (fun s => mkPolicy (p_id p) (p_name p) s (p_resources p) (p_attrs p))
  | (4, WLen b) =>
      omap (fun r => mkPolicy (p_id p) (p_name p) (p_desc p) (p_resources p ++ [r]) (p_attrs p))
        (message step_resource d (mkResource "" "" []) b)
  | (5, WLen b) =>
      omap (fun x => mkPolicy (p_id p) (p_name p) (p_desc p) (p_resources p) (kv_set scmp (fst x) (snd x) (p_attrs p)))
        (dec_entry b)
  | _ => Some p
  end.

Definition no_policy : policy := mkPolicy "" "" "" [] [].

Definition fs_policy_record (r : policy_record) (attrs : list (string * string)) : list field :=
  f_msg 1 (fs_policy (pr_policy r) attrs) ++ f_str 2 (pr_app r) ++ f_msg 3 (fs_time (pr_created r)).

(** The application data are bytes, not text.  A record without policy or time is read as one with empty ones: the
    model's records always have both, as the records that are written do. *)
Definition step_policy_record (d : nat) (r : policy_record) (f : field) : option policy_record :=
  match f with
  | (1, WLen b) => omap (fun p => mkPRec p (pr_app r) (pr_created r)) (message step_policy d (pr_policy r) b)
  | (2, WLen s) => Some (mkPRec (pr_policy r) s (pr_created r))
  | (3, WLen b) => omap (fun t => mkPRec (pr_policy r) (pr_app r) t) (dec_time d (pr_created r) b)
  | _ => Some r
  end.

(** *** relationship_record.proto *)

Definition type_code (t : rtype) : N :=
  match t with TyUnknown => 0 | TyObject => 1 | TyObjectSet => 2 | TyResourceSet => 3 end.
(** Other numbers are never written; the mapper treats them as UNKNOWN. *)
Definition type_of (v : N) : rtype :=
  match v mod 4294967296 with 1 => TyObject | 2 => TyObjectSet | 3 => TyResourceSet | _ => TyUnknown end.

Definition fs_inode (n : inode) : list field :=
  f_str 1 (i_res n) ++ f_str 2 (i_id n) ++ f_str 3 (i_rel n) ++ f_int 4 (type_code (i_type n)).

Definition step_inode (d : nat) (n : inode) (f : field) : option inode :=
  match f with
  | (1, WLen s) => text s (fun s => mkINode s (i_id n) (i_rel n) (i_type n))
  | (2, WLen s) => text s (fun s => mkINode (i_res n) s (i_rel n) (i_type n))
  | (3, WLen s) => text s (fun s => mkINode (i_res n) (i_id n) s (i_type n))
  | (4, WVarint v) => Some (mkINode (i_res n) (i_id n) (i_rel n) (type_of v))
  | _ => Some n
  end.

Definition no_inode : inode := mkINode "" "" "" TyUnknown.

Definition fs_edge (e : edge) : list field := f_msg 1 (fs_inode (ed_src e)) ++ f_msg 2 (fs_inode (ed_dst e)).

Definition step_edge (d : nat) (e : edge) (f : field) : option edge :=
  match f with
  | (1, WLen b) => omap (fun n => mkEdge n (ed_dst e)) (message step_inode d (ed_src e) b)
  | (2, WLen b) => omap (fun n => mkEdge (ed_src e) n) (message step_inode d (ed_dst e) b)
  | _ => Some e
  end.

(** RelationshipData: the id is the key; it is never read. *)
Definition fs_data (k : string * string) (x : rdata) : list field :=
  f_str 1 (fst k +++ snd k) ++ f_msg 2 (fs_time (d_created x)) ++ f_str 3 (d_app x).

Definition step_data (d : nat) (x : rdata) (f : field) : option rdata :=
  match f with
  | (2, WLen b) => omap (fun t => mkData (d_app x) t) (dec_time d (d_created x) b)
  | (3, WLen s) => Some (mkData s (d_created x))
  | _ => Some x
  end.

(** ** Marshal and Unmarshal *)

(** The strings of a message, all of which must be UTF-8. *)
Definition rule_texts (r : rule) : list string :=
  match r with RCu t => [t] | RTtu ts c => [ts; c] | RThis | RUnset => [] end.
Fixpoint tree_texts (t : tree) : list string :=
  match t with
  | TNil | TUnset => []
  | TRule r => rule_texts r
  | TOp l _ r => tree_texts l ++ tree_texts r
  end.
Definition relexpr_texts (x : relexpr) : list string :=
  match x with XExpr s => [s] | XTree t => tree_texts t | XUnset => [] end.
Definition restriction_texts (r : restriction) : list string :=
  match r with REntity x => [x] | REntitySet x y => [x; y] | RRUnset => [] end.
Definition subj_restriction_texts (r : subj_restriction) : list string :=
  match r with SRSet l => flat_map restriction_texts l | SRUniversal | SRUnset => [] end.
Definition opt_texts {A} (f : A -> list string) (o : option A) : list string :=
  match o with Some x => f x | None => [] end.
Definition relation_texts (r : relation) : list string :=
  rl_name r :: rl_desc r :: opt_texts relexpr_texts (rl_expr r) ++ opt_texts subj_restriction_texts (rl_restr r).
Definition resource_texts (r : resource) : list string :=
  rs_name r :: rs_desc r :: flat_map relation_texts (rs_relations r).
Definition policy_texts (p : policy) : list string :=
  p_id p :: p_name p :: p_desc p :: flat_map resource_texts (p_resources p) ++
  flat_map (fun x => [fst x; snd x]) (p_attrs p).
Definition edge_texts (e : edge) : list string :=
  [i_res (ed_src e); i_id (ed_src e); i_rel (ed_src e); i_res (ed_dst e); i_id (ed_dst e); i_rel (ed_dst e)].

Definition entity_texts (e : entity) : list string := [e_res e; e_id e].
Definition subject_texts (x : subject) : list string :=
  match x with
  | SEntity e => entity_texts e
  | SEntitySet e rel => rel :: opt_texts entity_texts e
  | SResourceSet rs => [rs]
  | SUnset => []
  end.
Definition relationship_texts (r : relationship) : list string :=
  r_relation r :: opt_texts entity_texts (r_object r) ++ opt_texts subject_texts (r_subject r).

(** proto.Marshal fails if a string is not UTF-8.  It writes fields in the order of their numbers. *)
Definition marshal_policy (r : policy_record) (attrs : list (string * string)) : option string :=
  if forallb utf8_valid (policy_texts (pr_policy r)) then Some (put_fields (fs_policy_record r attrs)) else None.
Definition marshal_edge (e : edge) : option string :=
  if forallb utf8_valid (edge_texts e) then Some (put_fields (fs_edge e)) else None.
Definition marshal_data (k : string * string) (d : rdata) : string := put_fields (fs_data k d).

(** proto.Unmarshal into a new message. *)
Definition unmarshal_policy (lim : nat) (b : string) : option policy_record :=
  message step_policy_record lim (mkPRec no_policy "" 0) b.
Definition unmarshal_edge (lim : nat) (b : string) : option edge :=
  message step_edge lim (mkEdge no_inode no_inode) b.
Definition unmarshal_data (lim : nat) (b : string) : option rdata :=
  message step_data lim (mkData "" 0) b.

(** ** Requests as they arrive (proto/zanzi/zanzi/api/policy_service.proto, domain/relationship.proto) *)

(** PolicyDefinition.  [yaml] is what becomes of a YAML text. *)
Definition step_definition (yaml : string -> option ydef) (d : nat) (x : policy_def) (f : field) : option policy_def :=
  match f with
  | (1, WLen b) => omap DPolicy (message step_policy d (match x with DPolicy p => p | _ => no_policy end) b)
  | (2, WLen s) => text s (fun s => DYaml (yaml s))
  | _ => Some x
  end.

(** CreatePolicyRequest and UpdatePolicyRequest (whose strategy is ignored): the definition and the application data. *)
Definition step_policy_request (yaml : string -> option ydef) (d : nat) (x : option policy_def * string) (f : field)
    : option (option policy_def * string) :=
  match f with
  | (1, WLen b) => omap (fun y => (Some y, snd x)) (message (step_definition yaml) d (or_else (fst x) DUnset) b)
  | (2, WLen s) => Some (fst x, s)
  | _ => Some x
  end.

Definition unmarshal_policy_request (yaml : string -> option ydef) (lim : nat) (b : string) : option (option policy_def * string) :=
  message (step_policy_request yaml) lim (None, "") b.

Definition step_entity (d : nat) (e : entity) (f : field) : option entity :=
  match f with
  | (1, WLen s) => text s (fun s => mkEntity s (e_id e))
  | (2, WLen s) => text s (fun s => mkEntity (e_res e) s)
  | _ => Some e
  end.

(** EntitySet *)
Definition step_entity_set (d : nat) (x : option entity * string) (f : field) : option (option entity * string) :=
  match f with
  | (1, WLen b) => omap (fun e => (Some e, snd x)) (message step_entity d (or_else (fst x) (mkEntity "" "")) b)
  | (2, WLen s) => text s (fun s => (fst x, s))
  | _ => Some x
  end.

Definition step_subject (d : nat) (x : subject) (f : field) : option subject :=
  match f with
  | (1, WLen b) => omap SEntity (message step_entity d (match x with SEntity e => e | _ => mkEntity "" "" end) b)
  | (2, WLen b) =>
      omap (fun y => SEntitySet (fst y) (snd y))
        (message step_entity_set d (match x with SEntitySet e r => (e, r) | _ => (None, "") end) b)
  | (3, WLen b) => omap SResourceSet (message step_cu d (match x with SResourceSet r => r | _ => "" end) b)
  | _ => Some x
  end.

Definition step_relationship (d : nat) (r : relationship) (f : field) : option relationship :=
  match f with
  | (1, WLen b) =>
      omap (fun e => mkRel (Some e) (r_relation r) (r_subject r))
        (message step_entity d (or_else (r_object r) (mkEntity "" "")) b)
  | (2, WLen s) => text s (fun s => mkRel (r_object r) s (r_subject r))
  | (3, WLen b) =>
      omap (fun x => mkRel (r_object r) (r_relation r) (Some x)) (message step_subject d (or_else (r_subject r) SUnset) b)
  | _ => Some r
  end.

(** SetRelationshipRequest: policy id, relationship, application data. *)
Definition step_set_request (d : nat) (x : string * option relationship * string) (f : field)
    : option (string * option relationship * string) :=
  match f with
  | (1, WLen s) => text s (fun s => (s, snd (fst x), snd x))
  | (2, WLen b) =>
      omap (fun r => (fst (fst x), Some r, snd x))
        (message step_relationship d (or_else (snd (fst x)) (mkRel None "" None)) b)
  | (3, WLen s) => Some (fst x, s)
  | _ => Some x
  end.

Definition unmarshal_set_request (lim : nat) (b : string) : option (string * option relationship * string) :=
  message step_set_request lim ("", None, "") b.

(** ** The store of bytes (kv_store.go:14-65) *)

Record bstore := mkBytes {
  b_pol : list (string * string);
  b_edges : list ((string * (string * string)) * string);
  b_data : list ((string * string) * string) }.

Definition empty_bytes : bstore := mkBytes [] [] [].

(** The relationships of one policy; the first one that cannot be decoded is an error. *)
Definition stored_edges (pid : string) (b : bstore) : list ((string * string) * string) :=
  map (fun x => (snd (fst x), snd x)) (filter (fun x => String.eqb (fst (fst x)) pid) (b_edges b)).

Fixpoint decode_all (lim : nat) (l : list ((string * string) * string)) : option (list ((string * string) * edge)) :=
  match l with
  | [] => Some []
  | (k, v) :: l' =>
      match unmarshal_edge lim v, decode_all lim l' with
      | Some e, Some es => Some ((k, e) :: es)
      | _, _ => None
      end
  end.

(** A read that finds a record: it is decoded. *)
Definition read {A} (f : string -> option A) (o : option string) : option (option A) :=
  match o with
  | None => Some None
  | Some v => omap Some (f v)
  end.

(** One storage operation (compare [step1]).  A record that cannot be encoded or decoded is an error of the operation,
    which ends the request (see Fault).  [ord] is the order in which a map is walked; HasById, ListIds and the
    deletions do not decode. *)
Definition byte_step (lim : nat) (ord : list (string * string) -> list (string * string)) {A} (p : prog (res A)) (b : bstore)
    : option (prog (res A) * bstore) :=
  let failed := Some (Ret (Err EStorage), b) in
  match p with
  | Ret _ => None
  | PolGet id k =>
      match read (unmarshal_policy lim) (kv_get scmp id (b_pol b)) with Some x => Some (k x, b) | None => failed end
  | PolHas id k => Some (k (is_some (kv_get scmp id (b_pol b))), b)
  | PolSet id r k =>
      match marshal_policy r (ord (p_attrs (pr_policy r))) with
      | Some v => Some (k, mkBytes (kv_set scmp id v (b_pol b)) (b_edges b) (b_data b))
      | None => failed
      end
  | PolDel id k => Some (k, mkBytes (kv_del scmp id (b_pol b)) (b_edges b) (b_data b))
  | PolIds k => Some (k (map fst (b_pol b)), b)
  | EdgeGet pid key k =>
      match read (unmarshal_edge lim) (kv_get ecmp (pid, key) (b_edges b)) with Some x => Some (k x, b) | None => failed end
  | EdgeSet pid key e k =>
      match marshal_edge e with
      | Some v => Some (k, mkBytes (b_pol b) (kv_set ecmp (pid, key) v (b_edges b)) (b_data b))
      | None => failed
      end
  | EdgeDel pid key k => Some (k, mkBytes (b_pol b) (kv_del ecmp (pid, key) (b_edges b)) (b_data b))
  | EdgeList pid k =>
      match decode_all lim (stored_edges pid b) with Some x => Some (k x, b) | None => failed end
  | DataGet key k =>
      match read (unmarshal_data lim) (kv_get pcmp key (b_data b)) with Some x => Some (k x, b) | None => failed end
  | DataSet key d k =>
      Some (k, mkBytes (b_pol b) (b_edges b) (kv_set pcmp key (marshal_data key d) (b_data b)))
  | DataDel key k => Some (k, mkBytes (b_pol b) (b_edges b) (kv_del pcmp key (b_data b)))
  end.

(** Requests served at the same time on the store of bytes (compare [advance], [interleave]).  Each step comes with
    the order in which a map is walked. *)
Definition byte_config := (list (prog (res response)) * bstore)%type.
Definition byte_event := (nat * (list (string * string) -> list (string * string)))%type.

Definition byte_advance (lim : nat) (c : byte_config) (e : byte_event) : byte_config :=
  match nth_error (fst c) (fst e) with
  | None => c
  | Some p =>
      match byte_step lim (snd e) p (snd c) with
      | None => c
      | Some (p', b') => (replace (fst e) p' (fst c), b')
      end
  end.

Definition byte_interleave (lim : nat) (es : list byte_event) (c : byte_config) : byte_config :=
  fold_left (byte_advance lim) es c.

Definition byte_answered (c : byte_config) (i : nat) : option (res response) :=
  match nth_error (fst c) i with
  | Some (Ret a) => Some a
  | _ => None
  end.

(** One request alone.  Maps are walked in the order [ord]. *)
Fixpoint byte_run (lim : nat) (ord : list (string * string) -> list (string * string)) {A} (p : prog (res A)) (b : bstore)
    : res A * bstore :=
  let failed := (Err EStorage, b) in
  match p with
  | Ret a => (a, b)
  | PolGet id k =>
      match read (unmarshal_policy lim) (kv_get scmp id (b_pol b)) with Some x => byte_run lim ord (k x) b | None => failed end
  | PolHas id k => byte_run lim ord (k (is_some (kv_get scmp id (b_pol b)))) b
  | PolSet id r k =>
      match marshal_policy r (ord (p_attrs (pr_policy r))) with
      | Some v => byte_run lim ord k (mkBytes (kv_set scmp id v (b_pol b)) (b_edges b) (b_data b))
      | None => failed
      end
  | PolDel id k => byte_run lim ord k (mkBytes (kv_del scmp id (b_pol b)) (b_edges b) (b_data b))
  | PolIds k => byte_run lim ord (k (map fst (b_pol b))) b
  | EdgeGet pid key k =>
      match read (unmarshal_edge lim) (kv_get ecmp (pid, key) (b_edges b)) with
      | Some x => byte_run lim ord (k x) b
      | None => failed
      end
  | EdgeSet pid key e k =>
      match marshal_edge e with
      | Some v => byte_run lim ord k (mkBytes (b_pol b) (kv_set ecmp (pid, key) v (b_edges b)) (b_data b))
      | None => failed
      end
  | EdgeDel pid key k => byte_run lim ord k (mkBytes (b_pol b) (kv_del ecmp (pid, key) (b_edges b)) (b_data b))
  | EdgeList pid k =>
      match decode_all lim (stored_edges pid b) with Some x => byte_run lim ord (k x) b | None => failed end
  | DataGet key k =>
      match read (unmarshal_data lim) (kv_get pcmp key (b_data b)) with Some x => byte_run lim ord (k x) b | None => failed end
  | DataSet key d k =>
      byte_run lim ord k (mkBytes (b_pol b) (b_edges b) (kv_set pcmp key (marshal_data key d) (b_data b)))
  | DataDel key k => byte_run lim ord k (mkBytes (b_pol b) (b_edges b) (kv_del pcmp key (b_data b)))
  end.
