(** Specification of instances, their stores and what New needs. *)
From Verif Require Import Base Domain Lexer Parser Validate Store Search Explain Yaml Service Dump Api Config.

(** What a service with a store of its own replies to requests, one after the other. *)
Fixpoint replies (E : env) (qs : list request) (s : store) : list (res response) :=
  match qs with
  | [] => []
  | q :: qs' => answer E q s :: replies E qs' (after E q s)
  end.

(** Options that choose a store. *)
Inductive chooses : opt -> Prop :=
| ch_kv k : chooses (WithKV k)
| ch_dev : chooses WithDevelopmentConfig
| ch_default path : chooses (WithDefaultKV path).

(** The last option of a list that chooses a store. *)
Definition last_choice (os : list opt) (o : opt) : Prop :=
  exists before later, os = before ++ o :: later /\ chooses o /\ forall o', In o' later -> ~ chooses o'.

(** The path of an option for a database directory: a leading ~ stands for the home directory. *)
Inductive names_dir (H : host) : string -> string -> Prop :=
| nd_home home rest : h_home H = Some home -> names_dir H (String "~" rest) (home ++ rest)%string
| nd_plain path : (forall rest, path <> String "~" rest) -> names_dir H path path.

(** The directories that a list of options opens, in order. *)
Inductive opens (H : host) : list opt -> list string -> Prop :=
| op_nil : opens H [] []
| op_dir path dir os dirs : names_dir H path dir -> opens H os dirs -> opens H (WithDefaultKV path :: os) (dir :: dirs)
| op_skip o os dirs : (forall path, o <> WithDefaultKV path) -> opens H os dirs -> opens H (o :: os) dirs.

(** What a host process can do. *)
Inductive step (H : host) (E : env) : world -> world -> Prop :=
| st_mem w : step H E w (snd (with_mem_kv w))
| st_new os w : step H E w (fst (new H os w))
| st_call i q w : step H E w (fst (call E i q w)).

Inductive steps (H : host) (E : env) : world -> world -> Prop :=
| ss_refl w : steps H E w w
| ss_step w1 w2 w3 : steps H E w1 w2 -> step H E w2 w3 -> steps H E w1 w3.

(** The worlds that processes, one after the other, can come to. *)
Inductive possible (H : host) (E : env) : world -> Prop :=
| po_start : possible H E no_world
| po_steps w w' : possible H E w -> steps H E w w' -> possible H E w'
| po_restart w : possible H E w -> possible H E (restart w).
