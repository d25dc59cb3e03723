(** Limits: how long gRPC messages may be.

    pkg/server/server.go:48-56 makes the server without options, and pkg/api's clients are made without any.  grpc-go (not on this
    machine) then refuses to receive a message of more than 4 MiB, with an error of code ResourceExhausted, before it is decoded;
    what is sent is not limited (up to 2^31 - 1 bytes, which is left out).  A server that refuses a request does not call
    the service.  A client that refuses a response gets the error in its place; the service has done its work. *)
From Verif Require Import Base Domain Lexer Store Search Explain Yaml Service Dump Api Wire Rpc.
Local Open Scope N_scope.

Definition default_max : N := 4194304.

(** As [deliver]; [max] is the limit of the client.  [Garbled] also stands for its error. *)
Definition deliver_max (L : libs) (lim : nat) (max : N) (ord : list (string * string) -> list (string * string)) (c : call) (x : res response)
    : outcome :=
  match x with
  | Ok a =>
      match marshal_reply ord (reply_of L c a) with
      | None => Garbled
      | Some b =>
          if max <? slen b then Garbled
          else match unmarshal_reply (method_of c) lim b with Some r => Got r | None => Garbled end
      end
  | Err e => Told e
  | Panic => Broken
  | Fuel => Waiting
  end.

(** As [remote]; [smax] is the limit of the server and [cmax] that of the client. *)
Definition remote_max (E : env) (L : libs) (lim : nat) (smax cmax : N) (ord : list (string * string) -> list (string * string)) (now : N) (n : nat)
    (c : call) (b : bstore) : outcome * bstore :=
  match marshal_call ord c with
  | None => (Garbled, b)
  | Some m =>
      if smax <? slen m then (Garbled, b)
      else
        match unmarshal_call (method_of c) lim m with
        | None => (Garbled, b)
        | Some c' =>
            let x := byte_run lim ord (serve E (request_of L now n c')) b in
            (deliver_max L lim cmax ord c' (fst x), snd x)
        end
  end.
