(** Specification of zanzid: a directory is the list of what was served on it. *)
From Verif Require Import Base Domain Lexer Parser Validate Store Search Explain Yaml Service Dump Api Config Zanzid.

(** A request that was answered, or requests that were cut short. *)
Inductive work := Whole (q : request) | Cut (qs : list request) (sched : list nat).

(** The running daemons (process id, directory, socket), and everything served so far with its directory, oldest first. *)
Record books := mkBooks { b_up : list (nat * (string * string)); b_served : list (string * work) }.

Definition redo (E : env) (s : store) (x : work) : store :=
  match x with Whole q => after E q s | Cut qs sched => snd (interleave sched (Api.start E qs s)) end.

(** The store that a list of requests leaves, starting from nothing. *)
Definition replay (E : env) (l : list work) : store := fold_left (redo E) l empty_store.

Definition served_on (dir : string) (l : list (string * work)) : list work :=
  map snd (filter (fun x => String.eqb (fst x) dir) l).

(** The value of a flag: the last one given. *)
Definition value_of (name default : string) (args : list arg) : string :=
  fold_left (fun v a => match a with AFlag n v' => if String.eqb n name then v' else v | _ => v end) args default.

Definition known (a : arg) : bool :=
  match a with AFlag n _ => String.eqb n "address" || String.eqb n "data_dir" | AHelp => false | AWord _ => true end.

(** Where the data goes: a leading ~ is the home directory. *)
Definition home_path (H : host) (path : string) : option string :=
  if String.prefix "~" path then option_map (fun home => home ++ substring 1 (String.length path) path)%string (h_home H) else Some path.

Definition ideal_start (H : host) (bind : string -> option string) (pid : nat) (args : list arg) (b : books) : books * seen :=
  if existsb (fun x => Nat.eqb (fst x) pid) (b_up b) then (b, Nothing)
  else if negb (forallb known args) then (b, Ended 0)
  else match home_path H (value_of "data_dir" "~/.zanzi" args), bind (value_of "address" "localhost:8080" args) with
       | Some dir, Some socket =>
           if h_usable H dir && negb (existsb (fun x => String.eqb (fst (snd x)) dir) (b_up b)) && negb (existsb (fun x => String.eqb (snd (snd x)) socket) (b_up b))
           then (mkBooks ((pid, (dir, socket)) :: b_up b) (b_served b), Serving)
           else (b, Ended 1)
       | _, _ => (b, Ended 1)
       end.

Definition ideal_happen (H : host) (bind : string -> option string) (E : env) (e : event) (b : books) : books * seen :=
  match e with
  | Start pid args => ideal_start H bind pid args b
  | Request pid q =>
      match find (fun x => Nat.eqb (fst x) pid) (b_up b) with
      | Some (_, (dir, _)) => (mkBooks (b_up b) (b_served b ++ [(dir, Whole q)]), Answer (answer E q (replay E (served_on dir (b_served b)))))
      | None => (b, Nothing)
      end
  | Stop pid =>
      match find (fun x => Nat.eqb (fst x) pid) (b_up b) with
      | Some _ => (mkBooks (filter (fun x => negb (Nat.eqb (fst x) pid)) (b_up b)) (b_served b), Stopped)
      | None => (b, Nothing)
      end
  | Kill pid qs sched =>
      match find (fun x => Nat.eqb (fst x) pid) (b_up b) with
      | Some (_, (dir, _)) =>
          (mkBooks (filter (fun x => negb (Nat.eqb (fst x) pid)) (b_up b)) (b_served b ++ [(dir, Cut qs sched)]),
           Killed (map (answered (interleave sched (Api.start E qs (replay E (served_on dir (b_served b)))))) (seq 0 (length qs))))
      | None => (b, Nothing)
      end
  end.

Fixpoint ideal (H : host) (bind : string -> option string) (E : env) (es : list event) (b : books) : list seen :=
  match es with
  | [] => []
  | e :: es' => let (b1, o) := ideal_happen H bind E e b in o :: ideal H bind E es' b1
  end.

(** The machine after events. *)
Definition then_ (H : host) (bind : string -> option string) (E : env) (es : list event) : machine :=
  fold_left (fun m e => fst (happen H bind E e m)) es off.
