(** Specification of records that survive their encoding. *)
From Coq Require Import Sorted Permutation.
From Verif Require Import Base Domain Lexer Store Explain Yaml Service Api Wire.
Local Open Scope N_scope.

(** ** How many messages are nested in each other, the outermost included *)

Definition nest_rule (r : rule) : nat := match r with RUnset => 1 | _ => 2 end.
Fixpoint nest_tree (t : tree) : nat :=
  match t with
  | TNil => 0
  | TUnset => 1
  | TRule r => 1 + nest_rule r
  | TOp l _ r => 2 + Nat.max (nest_tree l) (nest_tree r)
  end.
Definition nest_relexpr (x : relexpr) : nat := match x with XTree t => 1 + nest_tree t | _ => 1 end.
Definition nest_restriction (r : restriction) : nat := match r with RRUnset => 1 | _ => 2 end.
Definition nest_subj_restriction (r : subj_restriction) : nat :=
  match r with
  | SRUnset => 1
  | SRUniversal => 2
  | SRSet l => 2 + list_max (map nest_restriction l)
  end.
Definition nest_opt {A} (f : A -> nat) (o : option A) : nat := match o with Some x => f x | None => 0 end.
Definition nest_relation (r : relation) : nat :=
  1 + Nat.max (nest_opt nest_relexpr (rl_expr r)) (nest_opt nest_subj_restriction (rl_restr r)).
Definition nest_resource (r : resource) : nat := 1 + list_max (map nest_relation (rs_relations r)).
Definition nest_policy (p : policy) : nat := 1 + list_max (map nest_resource (p_resources p)).

(** ** Values that a Go message can have *)

(** An operator without name is a number of 32 bits other than the three that have one. *)
Definition op_ok (o : operator) : Prop := match o with OpOther n => 2 < n < 4294967296 | _ => True end.
Fixpoint tree_ok (t : tree) : Prop :=
  match t with
  | TOp l o r => tree_ok l /\ op_ok o /\ tree_ok r
  | _ => True
  end.
(** A tree that is the member of a oneof is not nil. *)
Definition relexpr_ok (x : relexpr) : Prop := match x with XTree t => t <> TNil /\ tree_ok t | _ => True end.
Definition relation_ok (r : relation) : Prop := match rl_expr r with Some x => relexpr_ok x | None => True end.
(** The attributes are a map: one value for each key, listed in key order. *)
Definition policy_ok (p : policy) : Prop :=
  (forall r l, In r (p_resources p) -> In l (rs_relations r) -> relation_ok l) /\
  StronglySorted (fun x y => scmp (fst x) (fst y) = Lt) (p_attrs p).

Definition all_utf8 (l : list string) : Prop := forall s, In s l -> utf8_valid s = true.

(** Seconds are an int64. *)
Definition time_ok (t : N) : Prop := t / nanos < 9223372036854775808.

(** A policy that comes back from its encoding if [lim] levels can be read. *)
Definition keeps (lim : nat) (p : policy) : Prop :=
  all_utf8 (policy_texts p) /\ policy_ok p /\ (nest_policy p <= lim)%nat.

(** Go cannot have a slice of 2^63 bytes or more. *)
Definition short (s : string) : Prop := slen s < 9223372036854775808.

(** ** Requests whose records survive *)

Definition fits_policy (lim : nat) (p : policy) (app : string) : Prop :=
  keeps (pred lim) p /\
  forall t attrs, time_ok t -> Permutation attrs (p_attrs p) ->
    short (put_fields (fs_policy_record (mkPRec p app t) attrs)).

(** The clock is in range, texts are UTF-8, trees are not too deep and nothing is 2^63 bytes long. *)
Definition fits_request (E : env) (lim : nat) (q : request) : Prop :=
  match q with
  | QCreatePolicy now d app => time_ok now /\ forall p, get_policy_from_definition d = Ok p -> fits_policy lim p app
  | QUpdatePolicy d app => forall p, get_policy_from_definition d = Ok p -> fits_policy lim p app
  | QSetRelationship now pid r app =>
      time_ok now /\
      forall e, to_internal r = Ok e -> all_utf8 (edge_texts e) /\ short (put_fields (fs_edge e)) /\
        short (put_fields (fs_data (edge_key E e) (mkData app now)))
  | _ => True
  end.

(** The store of bytes stands for the typed store: the same keys, and each value reads as the record. *)
Definition stands_for (lim : nat) (b : bstore) (s : store) : Prop :=
  Forall2 (fun x y => fst x = fst y /\ unmarshal_policy lim (snd x) = Some (snd y) /\ time_ok (pr_created (snd y))) (b_pol b) (st_pol s) /\
  Forall2 (fun x y => fst x = fst y /\ unmarshal_edge lim (snd x) = Some (snd y)) (b_edges b) (st_edges s) /\
  Forall2 (fun x y => fst x = fst y /\ unmarshal_data lim (snd x) = Some (snd y)) (b_data b) (st_data s).

(** Every order in which a map is walked visits each entry once. *)
Definition walks (es : list byte_event) : Prop :=
  forall e, In e es -> forall l, Permutation (snd e l) l.

(** ** Requests that arrive as bytes *)

(** The strings of a YAML document. *)
Definition yrel_texts (r : yrel) : list string := yl_doc r :: yl_expr r :: yl_types r.
Definition yres_texts (r : yres) : list string :=
  yr_doc r :: flat_map (fun x => fst x :: opt_texts yrel_texts (snd x)) (yr_relations r).
Definition ydef_texts (y : ydef) : list string :=
  y_id y :: y_name y :: y_doc y :: flat_map (fun x => fst x :: opt_texts yres_texts (snd x)) (y_resources y) ++
  flat_map (fun x => [fst x; snd x]) (y_attrs y).

(** What yaml.v3 makes of a text has UTF-8 strings, and its attributes are a map. *)
Definition yaml_ok (yaml : string -> option ydef) : Prop :=
  forall s y, yaml s = Some y ->
    all_utf8 (ydef_texts y) /\ StronglySorted (fun x y => scmp (fst x) (fst y) = Lt) (y_attrs y).

(** A request that was decoded from bytes; requests that store nothing may be any. *)
Definition arrives (yaml : string -> option ydef) (lim : nat) (q : request) : Prop :=
  match q with
  | QCreatePolicy _ d app | QUpdatePolicy d app => exists b, unmarshal_policy_request yaml lim b = Some (d, app)
  | QSetRelationship _ pid r app => exists b, unmarshal_set_request lim b = Some (pid, r, app)
  | _ => True
  end.

(** The clock is in range and no record is 2^63 bytes long. *)
Definition in_range (E : env) (q : request) : Prop :=
  match q with
  | QCreatePolicy now d app =>
      time_ok now /\ forall p t attrs, get_policy_from_definition d = Ok p -> time_ok t -> Permutation attrs (p_attrs p) ->
        short (put_fields (fs_policy_record (mkPRec p app t) attrs))
  | QUpdatePolicy d app =>
      forall p t attrs, get_policy_from_definition d = Ok p -> time_ok t -> Permutation attrs (p_attrs p) ->
        short (put_fields (fs_policy_record (mkPRec p app t) attrs))
  | QSetRelationship now pid r app =>
      time_ok now /\
      forall e, to_internal r = Ok e ->
        short (put_fields (fs_edge e)) /\ short (put_fields (fs_data (edge_key E e) (mkData app now)))
  | _ => True
  end.

(** ** States that the store of bytes can be in *)

Inductive byte_reachable (E : env) (lim : nat) : bstore -> Prop :=
| br_empty : byte_reachable E lim empty_bytes
| br_serve b qs es : byte_reachable E lim b -> Forall (fits_request E lim) qs -> walks es ->
    byte_reachable E lim (snd (byte_interleave lim es (map (serve E) qs, b))).

(** ** Any request of a client in the same process *)

(** The policy is one that a Go message can have. *)
Definition possible (q : request) : Prop :=
  match q with
  | QCreatePolicy _ d _ | QUpdatePolicy d _ => forall p, get_policy_from_definition d = Ok p -> policy_ok p
  | _ => True
  end.

(** As [stands_for], but a policy record may be unreadable. *)
Definition partly_stands_for (lim : nat) (b : bstore) (s : store) : Prop :=
  Forall2 (fun x y => fst x = fst y /\ (unmarshal_policy lim (snd x) = Some (snd y) \/ unmarshal_policy lim (snd x) = None) /\ time_ok (pr_created (snd y))) (b_pol b) (st_pol s) /\
  Forall2 (fun x y => fst x = fst y /\ unmarshal_edge lim (snd x) = Some (snd y)) (b_edges b) (st_edges s) /\
  Forall2 (fun x y => fst x = fst y /\ unmarshal_data lim (snd x) = Some (snd y)) (b_data b) (st_data s).

Inductive byte_embedded (E : env) (lim : nat) : bstore -> Prop :=
| be_empty : byte_embedded E lim empty_bytes
| be_serve b qs es : byte_embedded E lim b -> Forall (in_range E) qs -> Forall possible qs -> walks es ->
    byte_embedded E lim (snd (byte_interleave lim es (map (serve E) qs, b))).

(** Requests that begin by reading the policy [id]. *)
Definition needs_policy (q : request) (id : string) : Prop :=
  match q with
  | QCreatePolicy _ d _ | QUpdatePolicy d _ => exists p, get_policy_from_definition d = Ok p /\ p_id p = id
  | QGetPolicy pid | QSetRelationship _ pid _ _ | QFindRelationshipRecords pid _ | QCheck _ pid _
  | QDumpRelationships _ pid _ => pid = id
  | QExplainCheck _ pid _ f | QExpand _ pid _ f => pid = id /\ serializer_factory f = Ok tt
  | _ => False
  end.

(** Requests that read no policy record. *)
Definition needs_no_policy (q : request) : Prop :=
  match q with
  | QDeletePolicy _ | QListPolicyIds | QDeleteRelationship _ _ | QGetRelationship _ _ | QDeleteRelationships _ _ => True
  | _ => False
  end.

(** Requests with a text that is not UTF-8. *)
Definition bad_text (q : request) : Prop :=
  match q with
  | QCreatePolicy _ d _ | QUpdatePolicy d _ =>
      exists p t, get_policy_from_definition d = Ok p /\ In t (policy_texts p) /\ utf8_valid t = false
  | QSetRelationship _ _ r _ => exists x t, r = Some x /\ In t (relationship_texts x) /\ utf8_valid t = false
  | _ => False
  end.
