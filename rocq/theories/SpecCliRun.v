(** Specification of sessions with zanzi-cli. *)
From Verif Require Import Base Domain Lexer Store Search Explain Yaml Service Dump Api Wire SpecWire Rpc SpecRpc Cli Json SpecJson JsonReply SpecReply CliRun.

(** The calls that the commands stand for; commands whose input or flags are refused stand for none. *)
Definition meant (discard : bool) (ts : list typed) : list served :=
  flat_map (fun t => match command_json discard (ty_method t) (ty_input t) (ty_flags t) with Some c => [(ty_now t, ty_bound t, c)] | None => [] end) ts.

(** The output tells the outcome [o] of a call of method [m]: a program that reads the output as JSON finds the response. *)
Definition tells (m : method) (o : outcome) (out : cli_out) : Prop :=
  match o with
  | Got r => exists j, out = Printed j /\ forall discard, read_reply discard m j = Some (as_received r)
  | Told _ | Broken | Garbled => out = Failed
  | Waiting => out = Hangs
  end.

(** The outputs of commands tell the outcomes of their calls. *)
Inductive tells_all (discard : bool) : list typed -> list outcome -> list cli_out -> Prop :=
| ta_nil : tells_all discard [] [] []
| ta_refused t ts os outs : command_json discard (ty_method t) (ty_input t) (ty_flags t) = None ->
    tells_all discard ts os outs -> tells_all discard (t :: ts) os (Failed :: outs)
| ta_sent t c ts o os out outs : command_json discard (ty_method t) (ty_input t) (ty_flags t) = Some c ->
    tells (method_of c) o out -> tells_all discard ts os outs -> tells_all discard (t :: ts) (o :: os) (out :: outs).
