(** Specification of calls over gRPC. *)
From Coq Require Import Sorted Permutation.
From Verif Require Import Base Domain Lexer Store Search Explain Yaml Service Dump Api Wire SpecWire Rpc.
Local Open Scope N_scope.

(** ** Calls that arrive *)

(** Enums are 32 bits wide. *)
Definition enum_ok (v : N) : Prop := v < 4294967296.
Definition format_ok (f : format) : Prop := match f with FOther n => 2 < n < 4294967296 | _ => True end.

(** No member of a oneof is nil. *)
Definition selector_ok (x : selector) : Prop := s_obj x <> Some (OSObject None) /\ s_subj x <> Some (USSubject None).

(** The policy is two levels below the message. *)
Definition sent_ok (lim : nat) (d : sent_def) : Prop :=
  match d with SentPolicy p => policy_ok p /\ (nest_policy p <= pred (pred lim))%nat | _ => True end.

Definition when {A} (P : A -> Prop) (o : option A) : Prop := match o with Some x => P x | None => True end.

Definition proper (lim : nat) (c : call) : Prop :=
  all_utf8 (call_texts c) /\
  match c with
  | KCreatePolicy d _ => when (sent_ok lim) d
  | KUpdatePolicy d _ s => when (sent_ok lim) d /\ enum_ok s
  | KFindRelationshipRecords _ x | KDeleteRelationships _ x => when selector_ok x
  | KExplainCheck _ _ f | KExpand _ _ f => format_ok f
  | KDumpRelationships _ f => enum_ok f
  | _ => True
  end.

(** ** Texts *)

Fixpoint gtree_texts (t : gtree) : list string :=
  match t with
  | GOr _ ps | GAnd _ ps => flat_map gtree_texts ps
  | GDiff _ l r => gtree_texts l ++ gtree_texts r
  | GPath _ n p reason => reason :: rnode_texts n ++ match p with Some t => gtree_texts t | None => [] end
  end.

(** The ids of nodes are base64. *)
Definition dump_texts (l : list dot_stmt) : list string :=
  flat_map (fun x => match x with DotNode _ n => opt_texts rnode_texts n | DotEdge _ _ => [] end) l.

(** The libraries make UTF-8 from UTF-8. *)
Definition texts_ok (L : libs) : Prop :=
  yaml_ok (t_yaml L) /\
  (forall f t, all_utf8 (gtree_texts t) -> utf8_valid (t_tree L f t) = true) /\
  (forall l, all_utf8 (dump_texts l) -> utf8_valid (t_dump L l) = true).

(** ** Servers *)

(** A call with the server's clock and the bound of its search. *)
Definition served := (N * nat * call)%type.
Definition as_request (L : libs) (x : served) : request := request_of L (fst (fst x)) (snd (fst x)) (snd x).

Definition acceptable (E : env) (L : libs) (lim : nat) (x : served) : Prop := proper lim (snd x) /\ in_range E (as_request L x).

(** States of a server that only remote clients use: any calls at the same time, and stops at any point. *)
Inductive remote_reachable (E : env) (L : libs) (lim : nat) : bstore -> Prop :=
| rr_empty : remote_reachable E L lim empty_bytes
| rr_serve b xs es : remote_reachable E L lim b -> Forall (acceptable E L lim) xs -> walks es ->
    remote_reachable E L lim (snd (byte_interleave lim es (map (fun x => serve E (as_request L x)) xs, b))).

(** ** What a remote client sees *)

(** In place of a missing record of a list there is an empty one. *)
Definition as_received (r : reply) : reply :=
  match r with
  | PRecords (Some l) => PRecords (Some (map (fun o => Some (or_else o no_record)) l))
  | r => r
  end.

Definition seen (o : outcome) : outcome := match o with Got r => Got (as_received r) | o => o end.

(** No record of a list is missing. *)
Definition complete (o : outcome) : Prop := forall l, o = Got (PRecords (Some l)) -> ~ In None l.

(** Nothing is 2^63 bytes long, and numbers are 64 bits wide. *)
Definition reply_fits (ord : list (string * string) -> list (string * string)) (r : reply) : Prop :=
  short (put_fields (fs_reply ord r)) /\
  match r with PDeletedPolicy _ n | PCount n => n < 18446744073709551616 | _ => True end.
Definition outcome_fits (ord : list (string * string) -> list (string * string)) (o : outcome) : Prop :=
  match o with Got r => reply_fits ord r | _ => True end.

(** ** Histories of one client *)

Fixpoint local_all (E : env) (L : libs) (xs : list served) (s : store) : list outcome * store :=
  match xs with
  | [] => ([], s)
  | (now, n, c) :: xs' =>
      let (o, s1) := local E L now n c s in
      let (os, s2) := local_all E L xs' s1 in (o :: os, s2)
  end.

Fixpoint remote_all (E : env) (L : libs) (lim : nat) (ord : list (string * string) -> list (string * string)) (xs : list served) (b : bstore)
    : list outcome * bstore :=
  match xs with
  | [] => ([], b)
  | (now, n, c) :: xs' =>
      let (o, b1) := remote E L lim ord now n c b in
      let (os, b2) := remote_all E L lim ord xs' b1 in (o :: os, b2)
  end.

Definition call_fits (ord : list (string * string) -> list (string * string)) (x : served) : Prop := short (put_fields (fs_call ord (snd x))).
