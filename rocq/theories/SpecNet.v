(** Specification of remote clients at the same time. *)
From Verif Require Import Base Domain Lexer Store Search Explain Yaml Service Dump Api Wire SpecWire Rpc SpecRpc Limits SpecLimits Net
  SpecPolicy SpecStore SpecConc SpecSessions SpecRefine.
Local Open Scope N_scope.

(** Maps in the order they are given. *)
Definition in_order (l : list (string * string)) : list (string * string) := l.

(** What client [i] has been told so far, and whether it has been told everything. *)
Definition told_to (c : net) (i : nat) : list outcome := match nth_error (desks c) i with Some d => told d | None => [] end.
Definition finished (c : net) (i : nat) : Prop := exists l, nth_error (desks c) i = Some (mkDesk l None []).

(** A call that a server with the limit [smax] accepts. *)
Definition sendable (E : env) (L : libs) (lim : nat) (smax : N) (x : served) : Prop :=
  acceptable E L lim x /\ call_length in_order (snd x) <= smax.

(** The response, or an error in its place when it is too long. *)
Definition received (cmax : N) (o : outcome) : outcome :=
  match o with
  | Got r => if cmax <? reply_length in_order r then Garbled else Got r
  | o => o
  end.

(** The call with the bound [n] of the model. *)
Definition bounded (n : nat) (x : served) : served := (fst (fst x), n, snd x).

(** The outcomes of calls, from the answers to them. *)
Fixpoint outcomes (L : libs) (xs : list served) (as_ : list (res response)) : list outcome :=
  match xs, as_ with
  | x :: xs', a :: as' => local_outcome L (snd x) a :: outcomes L xs' as'
  | _, _ => []
  end.
