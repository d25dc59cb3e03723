(** A run of zanzi-cli from its command line to its output: cmd/zanzi-cli/main.go, the commands of pkg/api/policy_service.cobra.pb.go and
    pkg/api/relation_graph.cobra.pb.go. *)
From Verif Require Import Base Domain Lexer Store Search Explain Yaml Service Dump Api Wire Rpc Cli Json JsonReply.
Local Open Scope N_scope.

(** What the user typed: the method of the subcommand, the input and the flags; with the time on the clock of the server and the bound on its recursion. *)
Record typed := mkTyped { ty_now : N; ty_bound : nat; ty_method : method; ty_input : option json; ty_flags : list cflag }.

(** What the user gets: the response, an error, or nothing because the command still waits. *)
Inductive cli_out := Printed (j : json) | Failed | Hangs.

(** main.go:25-33: an error of the command is logged and ends the program with status 1. *)
Definition exit_status (o : cli_out) : option nat :=
  match o with Printed _ => Some 0%nat | Failed => Some 1%nat | Hangs => None end.

(** policy_service.cobra.pb.go:54-74 and its likes: the input is decoded, the flags are merged into it, the call is made over
    gRPC, and the response is written (the format of input and output is taken to be JSON, with unknown members [discard]ed or not,
    written in the style [st]).  Without a connection the command fails; this is left out. *)
Definition cli_run (discard : bool) (E : env) (L : libs) (lim : nat) (ord : list (string * string) -> list (string * string)) (st : style)
    (t : typed) (b : bstore) : cli_out * bstore :=
  match command_json discard (ty_method t) (ty_input t) (ty_flags t) with
  | None => (Failed, b)
  | Some c =>
      let (o, b') := remote E L lim ord (ty_now t) (ty_bound t) c b in
      (match o with
       | Got r => match json_reply st r with Some j => Printed j | None => Failed end
       | Told _ | Broken | Garbled => Failed
       | Waiting => Hangs
       end, b')
  end.

(** Commands one after the other. *)
Fixpoint cli_all (discard : bool) (E : env) (L : libs) (lim : nat) (ord : list (string * string) -> list (string * string)) (st : style)
    (ts : list typed) (b : bstore) : list cli_out * bstore :=
  match ts with
  | [] => ([], b)
  | t :: ts' =>
      let (o, b1) := cli_run discard E L lim ord st t b in
      let (os, b2) := cli_all discard E L lim ord st ts' b1 in (o :: os, b2)
  end.
