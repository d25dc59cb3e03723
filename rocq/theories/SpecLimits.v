(** Specification of calls with limits on the length of messages. *)
From Verif Require Import Base Domain Lexer Store Search Explain Yaml Service Dump Api Wire SpecWire Rpc SpecRpc Limits.
Local Open Scope N_scope.

Fixpoint remote_max_all (E : env) (L : libs) (lim : nat) (smax cmax : N) (ord : list (string * string) -> list (string * string)) (xs : list served)
    (b : bstore) : list outcome * bstore :=
  match xs with
  | [] => ([], b)
  | (now, n, c) :: xs' =>
      let (o, b1) := remote_max E L lim smax cmax ord now n c b in
      let (os, b2) := remote_max_all E L lim smax cmax ord xs' b1 in (o :: os, b2)
  end.

(** Lengths of a call and of a response in bytes. *)
Definition call_length (ord : list (string * string) -> list (string * string)) (c : call) : N := slen (put_fields (fs_call ord c)).
Definition reply_length (ord : list (string * string) -> list (string * string)) (r : reply) : N := slen (put_fields (fs_reply ord r)).

(** What a remote client sees: an error in place of a response that is too long. *)
Definition seen_max (ord : list (string * string) -> list (string * string)) (cmax : N) (o : outcome) : outcome :=
  match o with
  | Got r => if cmax <? reply_length ord r then Garbled else Got (as_received r)
  | o => o
  end.

(** Numbers are 64 bits wide. *)
Definition counts_ok (o : outcome) : Prop :=
  match o with Got (PDeletedPolicy _ n) | Got (PCount n) => n < 18446744073709551616 | _ => True end.

(** The methods whose responses have a fixed size. *)
Definition brief (c : call) : Prop :=
  match c with
  | KUpdatePolicy _ _ _ | KDeletePolicy _ | KSetRelationship _ _ _ | KDeleteRelationship _ _ | KDeleteRelationships _ _ | KCheck _ _ => True
  | _ => False
  end.
