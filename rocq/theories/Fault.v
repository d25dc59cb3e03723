(** Fault: storage operations that fail.

    Every error of a storage operation is returned at once by the repositories (internal/store/kv_store/
    policy_repository.go:37, 42, 52, 66, 74, 83, 101, 106, 116, 133, 138, 143, 154, 177, 189, 196, 205, 212 and
    node_repository.go:36, 50), passed on by utils.MapSliceErr (utils.go:14-26), by the rule evaluator, the goal tree
    builder and the searcher (rule_evaluator.go:44, 57, 95; goal_tree.go:45, 78, 105, 136, 141; searcher.go:49, 75, 91,
    125, 153, 158, 207, 212), by the walker (walker.go:26), and by the two services (internal/policy/service.go:45, 57,
    78, 94, 108, 120, 136, 151, 172, 188, 203, 218, 233, 247, 264; internal/relation_graph/service.go:34, 64, 89, 119,
    148, 163, 182, 191), so it ends the request with an error.

    A request handler performs no storage operation after a failed one.  The failed operation may nevertheless have
    changed the store ([applied]), for example when the error arose after the write. *)
From Verif Require Import Base Domain Lexer Parser Validate Store Search Explain Yaml Service Dump Api.

Inductive event :=
| Works (i : nat)
| Fails (i : nat) (applied : bool).

(** Request [i] performs its next operation, which works or fails. *)
Definition occur (c : config) (e : event) : config :=
  match e with
  | Works i => advance c i
  | Fails i applied =>
      match nth_error (fst c) i with
      | None => c
      | Some p =>
          match step1 p (snd c) with
          | None => c
          | Some (_, s') => (replace i (Ret (Err EStorage)) (fst c), if applied then s' else snd c)
          end
      end
  end.

Definition happen (es : list event) (c : config) : config := fold_left occur es c.

(** One request alone whose operation number [n] (from 0) fails. *)
Definition hit (n : nat) (applied : bool) : list event := repeat (Works 0) n ++ [Fails 0 applied].
