(** The zanzid process: cmd/zanzid/main.go and pkg/server/server.go. *)
From Verif Require Import Base Domain Lexer Store Search Explain Yaml Service Dump Api.

(** The process with the requests it has accepted since it was started, the rest of each, and its database directory.
    main.go:19-40: the instance is made with WithDefaultKVStore, so the store is a directory that lasts (Config.v, C79).
    Flags, logging and the listening socket are left out. *)
Record daemon := mkDaemon { dm_up : bool; dm_work : list (request * prog (res response)); dm_store : store }.

Definition is_panic (p : prog (res response)) : bool := match p with Ret Panic => true | _ => false end.

(** server.go:47-55: grpc.NewServer gets no options, so no interceptor recovers panics, and grpc-go (not on this machine)
    does not either: a handler that panics ends the process, with all other handlers where they are. *)
Definition settle (work : list (request * prog (res response))) (s : store) : daemon :=
  if existsb (fun x => is_panic (snd x)) work then mkDaemon false [] s else mkDaemon true work s.

(** A request arrives (server.go:20-29: both services are registered), request [i] performs its next storage operation,
    the process is killed, the process is started. *)
Inductive event := Arrive (q : request) | Progress (i : nat) | Kill | Boot.

Definition occur (E : env) (d : daemon) (e : event) : daemon :=
  match e with
  | Arrive q => if dm_up d then settle (dm_work d ++ [(q, serve E q)]) (dm_store d) else d
  | Progress i =>
      if dm_up d then
        match nth_error (dm_work d) i with
        | None => d
        | Some (q, p) =>
            match step1 p (dm_store d) with
            | None => d
            | Some (p', s') => settle (replace i (q, p') (dm_work d)) s'
            end
        end
      else d
  | Kill => mkDaemon false [] (dm_store d)
  | Boot => if dm_up d then d else mkDaemon true [] (dm_store d)
  end.

Definition live (E : env) (es : list event) (d : daemon) : daemon := fold_left (occur E) es d.

(** Never started, with an empty directory. *)
Definition switched_off : daemon := mkDaemon false [] empty_store.
