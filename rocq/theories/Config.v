(** Building instances: zanzi.go. *)
From Verif Require Import Base Domain Lexer Parser Validate Store Search Explain Yaml Service Dump Api.

(** What a host process sees: the key-value stores by number (a store is the value behind an rcdb.KVStore),
    the number of the store in every database directory, and the directories that are open.  raccoondb is not
    on this machine: a LevelDB directory holds one store, which lasts longer than the process, and can be open
    once at a time (LevelDB locks it); zanzi never closes one. *)
Record world := mkWorld { w_stores : list store; w_dirs : list (string * nat); w_open : list string }.

(** What New finds outside: the home directory (os/user.Current, [None] if it fails), the directories in which
    rcdb.NewLevelDB can work, and whether zap.NewDevelopment succeeds. *)
Record host := mkHost { h_home : option string; h_usable : string -> bool; h_zap : bool }.

Inductive logger := LGiven (n : nat) | LDefault | LDevelopment | LNoop.

(** zanzi.go:25 option: the values that the With... functions return.  [WithKV] holds a store that exists;
    [WithLogger None] is WithLogger(nil). *)
Inductive opt :=
| WithKV (k : nat)
| WithDevelopmentConfig
| WithDefaultKV (path : string)
| WithLogger (l : option logger)
| WithDefaultLogger
| WithDevelopmentLogger
| WithoutLogger.

(** The fields store and logger of zanzi.go:142-149, before and after setDefaults. *)
Record draft := mkDraft { d_store : option nat; d_logger : option logger }.
Record instance := mkInstance { i_store : nat; i_logger : logger }.

(** rcdb.NewMemKV. *)
Definition new_mem (w : world) : nat * world :=
  (length (w_stores w), mkWorld (w_stores w ++ [empty_store]) (w_dirs w) (w_open w)).

(** zanzi.go:135-138 WithMemKVStore: the store is made when the option is made, not when it is applied. *)
Definition with_mem_kv (w : world) : opt * world :=
  let (k, w1) := new_mem w in (WithKV k, w1).

(** zanzi.go:67-75: the first ~ of a path that begins with it is replaced.  The closure assigns to the path it
    captured, so an option that is applied twice expands the expanded path; this is the same path as long as the
    home directory does not begin with ~, and left out. *)
Definition expand_home (H : host) (path : string) : option string :=
  match path with
  | String "~" rest => match h_home H with Some home => Some (home ++ rest)%string | None => None end
  | _ => Some path
  end.

Fixpoint dir_store (dir : string) (l : list (string * nat)) : option nat :=
  match l with
  | [] => None
  | (d, k) :: l' => if String.eqb d dir then Some k else dir_store dir l'
  end.

(** rcdb.NewLevelDB. *)
Definition open_dir (H : host) (dir : string) (w : world) : option (nat * world) :=
  if negb (h_usable H dir) then None
  else if existsb (String.eqb dir) (w_open w) then None
  else match dir_store dir (w_dirs w) with
       | Some k => Some (k, mkWorld (w_stores w) (w_dirs w) (dir :: w_open w))
       | None => let (k, w1) := new_mem w in Some (k, mkWorld (w_stores w1) ((dir, k) :: w_dirs w1) (dir :: w_open w1))
       end.

(** zanzi.go:54-138: applying an option; [None] is an error. What an option did to the world stays. *)
Definition apply_opt (H : host) (o : opt) (d : draft) (w : world) : world * option draft :=
  match o with
  | WithKV k => (w, Some (mkDraft (Some k) (d_logger d)))
  | WithDevelopmentConfig =>
      let (k, w1) := new_mem w in
      (w1, if h_zap H then Some (mkDraft (Some k) (Some LDevelopment)) else None)
  | WithDefaultKV path =>
      match expand_home H path with
      | None => (w, None)
      | Some dir =>
          match open_dir H dir w with
          | None => (w, None)
          | Some (k, w1) => (w1, Some (mkDraft (Some k) (d_logger d)))
          end
      end
  | WithLogger l => (w, Some (mkDraft (d_store d) l))
  | WithDefaultLogger => (w, Some (mkDraft (d_store d) (Some LDefault)))
  | WithDevelopmentLogger => (w, if h_zap H then Some (mkDraft (d_store d) (Some LDevelopment)) else None)
  | WithoutLogger => (w, Some (mkDraft (d_store d) (Some LNoop)))
  end.

(** zanzi.go:33-38. *)
Fixpoint apply_opts (H : host) (os : list opt) (d : draft) (w : world) : world * option draft :=
  match os with
  | [] => (w, Some d)
  | o :: os' =>
      match apply_opt H o d w with
      | (w1, Some d1) => apply_opts H os' d1 w1
      | (w1, None) => (w1, None)
      end
  end.

(** zanzi.go:45-52 setDefaults. *)
Definition set_defaults (d : draft) (w : world) : world * instance :=
  let l := match d_logger d with Some l => l | None => LDefault end in
  match d_store d with
  | Some k => (w, mkInstance k l)
  | None => let (k, w1) := new_mem w in (w1, mkInstance k l)
  end.

(** zanzi.go:31-42 New. *)
Definition new (H : host) (os : list opt) (w : world) : world * option instance :=
  match apply_opts H os (mkDraft None None) w with
  | (w1, Some d) => let (w2, i) := set_defaults d w1 in (w2, Some i)
  | (w1, None) => (w1, None)
  end.

(** zanzi.go:151-171: both services of an instance work on its store. *)
Definition call (E : env) (i : instance) (q : request) (w : world) : world * option (res response) :=
  match nth_error (w_stores w) (i_store i) with
  | Some s => (mkWorld (replace (i_store i) (after E q s) (w_stores w)) (w_dirs w) (w_open w), Some (answer E q s))
  | None => (w, None)
  end.

Fixpoint calls (E : env) (cs : list (instance * request)) (w : world) : world * list (option (res response)) :=
  match cs with
  | [] => (w, [])
  | (i, q) :: cs' =>
      let (w1, a) := call E i q w in
      let (w2, l) := calls E cs' w1 in
      (w2, a :: l)
  end.

(** The process ends and another begins: directories are closed, stores in memory are lost. *)
Fixpoint keep_dirs (dirs : list (string * nat)) (n : nat) (l : list store) : list store :=
  match l with
  | [] => []
  | s :: l' => (if existsb (fun d => Nat.eqb (snd d) n) dirs then s else empty_store) :: keep_dirs dirs (S n) l'
  end.

Definition restart (w : world) : world := mkWorld (keep_dirs (w_dirs w) 0 (w_stores w)) (w_dirs w) [].

Definition no_world : world := mkWorld [] [] [].
