(** The program zanzid: cmd/zanzid/main.go, pkg/server/server.go.

    Any number of zanzid processes on one machine, each started, asked and stopped.  They share the database directories of [world]
    (Config.v), whose [w_open] are now the directories that some running process has open: LevelDB's lock holds between processes. *)
From Verif Require Import Base Domain Lexer Parser Validate Store Search Explain Yaml Service Dump Api Config.

(** The words of the command line as pflag reads them: a flag with its value (--name value or --name=value), --help or -h, or another
    word.  A flag without a value is left out (pflag refuses it, like an unknown one). *)
Inductive arg := AFlag (name value : string) | AHelp | AWord (w : string).

(** main.go:42-45: the flags and their defaults, address first.  A flag given again replaces the value.  [None]: cobra prints its help
    or an error and does not call Run; the command has no Args check and no subcommands, so that other words are ignored. *)
Fixpoint set_flags (args : list arg) (address data_dir : string) : option (string * string) :=
  match args with
  | [] => Some (address, data_dir)
  | AFlag name value :: args' =>
      if String.eqb name "address" then set_flags args' value data_dir
      else if String.eqb name "data_dir" then set_flags args' address value
      else None
  | AHelp :: _ => None
  | AWord _ :: args' => set_flags args' address data_dir
  end.

Definition flags (args : list arg) : option (string * string) := set_flags args "localhost:8080" "~/.zanzi".

(** A running zanzid: the directories it has open, its socket, and the instance that it registered (server.go:21-30). *)
Record process := mkProcess { p_dirs : list string; p_socket : string; p_zanzi : instance }.

(** Running processes by process id. *)
Record machine := mkMachine { m_world : world; m_up : list (nat * process) }.

Fixpoint find_up {A} (pid : nat) (l : list (nat * A)) : option A :=
  match l with
  | [] => None
  | (n, p) :: l' => if Nat.eqb n pid then Some p else find_up pid l'
  end.

Fixpoint remove_up {A} (pid : nat) (l : list (nat * A)) : list (nat * A) :=
  match l with
  | [] => []
  | (n, p) :: l' => if Nat.eqb n pid then l' else (n, p) :: remove_up pid l'
  end.

(** What can be observed: zanzid serves; it ended with its status; the answer to a request; it was stopped; it was killed, with the
    answers that were given before; or nothing, because
    there is no such process (or, for a start, because there is one already). *)
Inductive seen := Serving | Ended (status : nat) | Answer (a : res response) | Stopped | Killed (answers : list (option (res response))) | Nothing.

Definition is_in (d : string) (l : list string) : bool := existsb (String.eqb d) l.

(** A process ends: the system closes the directories [dirs]. *)
Definition close (dirs : list string) (w : world) : world :=
  mkWorld (w_stores w) (w_dirs w) (filter (fun d => negb (is_in d dirs)) (w_open w)).

(** The directories opened between [w] and [w1]. *)
Definition opened (w w1 : world) : list string := filter (fun d => negb (is_in d (w_open w))) (w_open w1).

(** main.go:22-38: Run.  [bind] is net.ResolveTCPAddr with net.ListenTCP (server.go:32-45): the socket for an address, [None] if there is none
    or another program uses it; port 0, for which the system picks a free one, is left out.  log.Fatalf ends the process with status 1; main
    ignores the error of Execute (main.go:13-15), so that a command line which cobra refuses ends it with status 0.  A Serve that
    fails later (server.go:69-71) is left out. *)
Definition start (H : host) (bind : string -> option string) (pid : nat) (args : list arg) (m : machine) : machine * seen :=
  match find_up pid (m_up m) with
  | Some _ => (m, Nothing)
  | None =>
      match flags args with
      | None => (m, Ended 0)
      | Some (address, data_dir) =>
          let (w1, z) := new H [WithDefaultLogger; WithDefaultKV data_dir] (m_world m) in
          let dirs := opened (m_world m) w1 in
          match z with
          | None => (mkMachine (close dirs w1) (m_up m), Ended 1)
          | Some i =>
              match bind address with
              | Some socket =>
                  if existsb (fun x => String.eqb (p_socket (snd x)) socket) (m_up m) then (mkMachine (close dirs w1) (m_up m), Ended 1)
                  else (mkMachine w1 ((pid, mkProcess dirs socket i) :: m_up m), Serving)
              | None => (mkMachine (close dirs w1) (m_up m), Ended 1)
              end
          end
      end
  end.

(** [Kill]: the requests [qs] arrive, their storage operations happen in the order [sched], and then the process is killed. *)
Inductive event :=
| Start (pid : nat) (args : list arg)
| Request (pid : nat) (q : request)
| Stop (pid : nat)
| Kill (pid : nat) (qs : list request) (sched : list nat).

(** As [call], for requests that are cut short. *)
Definition call_cut (E : env) (i : instance) (qs : list request) (sched : list nat) (w : world) : world * list (option (res response)) :=
  match nth_error (w_stores w) (i_store i) with
  | Some s =>
      let c := interleave sched (Api.start E qs s) in
      (mkWorld (replace (i_store i) (snd c) (w_stores w)) (w_dirs w) (w_open w), map (answered c) (seq 0 (length qs)))
  | None => (w, [])
  end.

(** Between starts and kills, requests are served one after the other here; requests beside others are in Daemon.v and Net.v. *)
Definition happen (H : host) (bind : string -> option string) (E : env) (e : event) (m : machine) : machine * seen :=
  match e with
  | Start pid args => start H bind pid args m
  | Request pid q =>
      match find_up pid (m_up m) with
      | Some p =>
          match call E (p_zanzi p) q (m_world m) with
          | (w1, Some a) => (mkMachine w1 (m_up m), Answer a)
          | (w1, None) => (mkMachine w1 (m_up m), Nothing)
          end
      | None => (m, Nothing)
      end
  | Stop pid =>
      match find_up pid (m_up m) with
      | Some p => (mkMachine (close (p_dirs p) (m_world m)) (remove_up pid (m_up m)), Stopped)
      | None => (m, Nothing)
      end
  | Kill pid qs sched =>
      match find_up pid (m_up m) with
      | Some p =>
          let (w1, l) := call_cut E (p_zanzi p) qs sched (m_world m) in
          (mkMachine (close (p_dirs p) w1) (remove_up pid (m_up m)), Killed l)
      | None => (m, Nothing)
      end
  end.

Fixpoint observe (H : host) (bind : string -> option string) (E : env) (es : list event) (m : machine) : list seen :=
  match es with
  | [] => []
  | e :: es' => let (m1, o) := happen H bind E e m in o :: observe H bind E es' m1
  end.

Definition off : machine := mkMachine no_world [].
