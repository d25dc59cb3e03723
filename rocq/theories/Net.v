(** Net: remote clients at the same time.

    pkg/server/server.go:47-54 and 69-71: grpc.Server handles each request in a goroutine of its own.  A client sends a call
    when the one before is answered; a client with several calls under way is several clients.  One step of the network is
    the arrival of a call, one storage operation of the handler of a call, or the delivery of a response.  A handler that
    panics ends the process (Daemon.v): its client sees the connection break, and nothing happens any more. *)
From Verif Require Import Base Domain Lexer Store Search Explain Yaml Service Dump Api Wire Rpc Limits.
Local Open Scope N_scope.

(** A client: what it has been told so far, the call that is being served with the rest of its handler, and the calls it has
    not sent yet, each with the clock of the server at its arrival and the bound of its search. *)
Record desk := mkDesk {
  told : list outcome;
  serving : option (call * prog (res response));
  to_send : list (N * nat * call) }.

Record net := mkNet { up : bool; desks : list desk; disk : bstore }.

(** What a server with the limit [max] receives. *)
Definition receive (lim : nat) (max : N) (ord : list (string * string) -> list (string * string)) (c : call) : option call :=
  match marshal_call ord c with
  | None => None
  | Some m => if max <? slen m then None else unmarshal_call (method_of c) lim m
  end.

(** The step of the client that the event names; [ord] is the order in which maps are walked in it.  A search that never
    ends ([Fuel]) is never answered. *)
Definition net_turn (E : env) (L : libs) (lim : nat) (smax cmax : N) (c : net) (e : byte_event) : net :=
  if up c then
    match nth_error (desks c) (fst e) with
    | None => c
    | Some d =>
        let put alive d' b := mkNet alive (replace (fst e) d' (desks c)) b in
        match serving d with
        | None =>
            match to_send d with
            | [] => c
            | (now, n, k) :: rest =>
                match receive lim smax (snd e) k with
                | None => put true (mkDesk (told d ++ [Garbled]) None rest) (disk c)
                | Some k' => put true (mkDesk (told d) (Some (k', serve E (request_of L now n k'))) rest) (disk c)
                end
            end
        | Some (k, p) =>
            match byte_step lim (snd e) p (disk c) with
            | Some (p', b') => put true (mkDesk (told d) (Some (k, p')) (to_send d)) b'
            | None =>
                match p with
                | Ret Fuel => c
                | Ret Panic => put false (mkDesk (told d ++ [Broken]) None (to_send d)) (disk c)
                | Ret a => put true (mkDesk (told d ++ [deliver_max L lim cmax (snd e) k a]) None (to_send d)) (disk c)
                | _ => c
                end
            end
        end
    end
  else c.

Definition net_play (E : env) (L : libs) (lim : nat) (smax cmax : N) (es : list byte_event) (c : net) : net :=
  fold_left (net_turn E L lim smax cmax) es c.

(** All clients are about to send their first calls. *)
Definition net_open (cs : list (list (N * nat * call))) (b : bstore) : net := mkNet true (map (mkDesk [] None) cs) b.
