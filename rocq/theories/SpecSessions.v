(** Specification of clients that send their requests one after the other, beside other clients. *)
From Verif Require Import Base Domain Lexer Store Search Explain Yaml Service Dump Api SpecPolicy SpecStore SpecConc SpecRefine.

(** A client sends a request when the one before is answered; its result are the answers. *)
Fixpoint client (E : env) (qs : list request) : prog (list (res response)) :=
  match qs with
  | [] => Ret []
  | q :: qs' => pbind (serve E q) (fun x => pbind (client E qs') (fun xs => Ret (x :: xs)))
  end.

(** Clients at work and the shared store.  A schedule names the client whose request performs the next storage
    operation. *)
Definition sessions := (list (prog (list (res response))) * store)%type.

Definition turn (c : sessions) (i : nat) : sessions :=
  match nth_error (fst c) i with
  | None => c
  | Some p => match step1 p (snd c) with None => c | Some (p', s') => (replace i p' (fst c), s') end
  end.

Definition play (sched : list nat) (c : sessions) : sessions := fold_left turn sched c.

Definition open (E : env) (cs : list (list request)) (s : store) : sessions := (map (client E) cs, s).

(** The answers of client [i], once all its requests are answered. *)
Definition heard (c : sessions) (i : nat) : option (list (res response)) :=
  match nth_error (fst c) i with
  | Some (Ret xs) => Some xs
  | _ => None
  end.

(** [q] is about a policy of client [i]. *)
Definition own_policy (owner : string -> nat) (i : nat) (q : request) : Prop :=
  match q with
  | QListPolicyIds => False
  | _ => forall id, concerns q = Some id -> owner id = i
  end.

(** Relationships that are stored in [s] or named by the clients. *)
Definition named (cs : list (list request)) (s : store) (pid : string) (r : relationship) : Prop :=
  In r (relationships s pid) \/ exists qs q, In qs cs /\ In q qs /\ mentions q pid r.

(** Relationships named in policies of different clients do not share a storage key. *)
Definition keys_apart (E : env) (owner : string -> nat) (U : string -> relationship -> Prop) : Prop :=
  forall pid pid' r r', U pid r -> U pid' r' -> complete_relationship r -> complete_relationship r' -> same_key E r r' ->
    owner pid = owner pid'.
