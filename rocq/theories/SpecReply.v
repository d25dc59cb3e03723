(** Specification of responses as JSON. *)
From Verif Require Import Base Domain Lexer Store Search Explain Yaml Service Dump Api Wire SpecWire Rpc SpecRpc Cli Json SpecJson JsonReply.
Local Open Scope N_scope.

(** ** The calendar, day by day *)

Definition is_leap (y : N) : Prop := (exists k, y = 4 * k) /\ ((exists k, y = 400 * k) \/ ~ exists k, y = 100 * k).

(** The number of days of the months. *)
Inductive month_long (y : N) : N -> N -> Prop :=
| ml_31 m : In m [1; 3; 5; 7; 8; 10; 12] -> month_long y m 31
| ml_30 m : In m [4; 6; 9; 11] -> month_long y m 30
| ml_29 : is_leap y -> month_long y 2 29
| ml_28 : ~ is_leap y -> month_long y 2 28.

(** The day after. *)
Inductive next_day : N * (N * N) -> N * (N * N) -> Prop :=
| nd_day y m d k : month_long y m k -> d < k -> next_day (y, (m, d)) (y, (m, d + 1))
| nd_month y m k : month_long y m k -> m < 12 -> next_day (y, (m, k)) (y, (m + 1, 1))
| nd_year y : next_day (y, (12, 31)) (y + 1, (1, 1)).

(** ** Responses that have a document *)

(** 9999-12-31T23:59:59 is 253402300799 seconds after 1970. *)
Definition timely (r : reply) : Prop := forall t, In t (reply_times r) -> t / nanos <= 253402300799.
Definition counts_fit (r : reply) : Prop := match r with PDeletedPolicy _ n | PCount n => n < 18446744073709551616 | _ => True end.
(** Policies are those that can be stored, formats are enum values. *)
Definition shaped (r : reply) : Prop :=
  match r with
  | PCreated r | PPolicy r => when (fun r => policy_ok (pr_policy r)) r
  | PExplained _ _ f | PExpanded _ f => format_ok f
  | _ => True
  end.
Definition outcome_timely (o : outcome) : Prop := match o with Got r => timely r /\ counts_fit r | _ => True end.

(** ** The document of a response, written out from the .proto files, with all fields that have a value when they are not set *)

Definition doc_count (n : N) : json := JStr (count_text n).
Definition doc_policy_record (r : policy_record) : json :=
  JObj [("policy", doc_policy (pr_policy r)); ("appData", JStr (base64 (pr_app r))); ("createdAt", JStr (time_text (pr_created r)))].
Definition doc_rel_record (r : rel_record) : json :=
  JObj [("policyId", JStr (rr_policy r)); ("relationship", doc_relationship (rr_rel r)); ("createdAt", JStr (time_text (rr_created r)));
        ("appData", JStr (base64 (rr_app r)))].
Definition doc_no_record : json := JObj [("policyId", JStr ""); ("relationship", JNull); ("createdAt", JNull); ("appData", JStr "")].

Definition doc_reply (r : reply) : json :=
  match r with
  | PCreated r => JObj [("record", maybe doc_policy_record r)]
  | PUpdated => JObj []
  | PDeletedPolicy found count => JObj [("found", JBool found); ("relationshipsRemoved", doc_count count)]
  | PPolicy r => JObj (match r with Some r => [("record", doc_policy_record r)] | None => [] end)
  | PPolicyIds l => JObj [("records", JArr (map (fun id => JObj [("id", JStr id)]) l))]
  | PSet b => JObj [("recordOverwritten", JBool b)]
  | PDeleted b => JObj [("found", JBool b)]
  | PRecord r => JObj (match r with Some r => [("record", doc_rel_record r)] | None => [] end)
  | PRecords l =>
      JObj [("result", maybe (fun l => JObj [("records", JArr (map (fun o => match o with Some r => doc_rel_record r | None => doc_no_record end) l))]) l)]
  | PCount n => JObj [("recordsAffected", doc_count n)]
  | PDecision b => JObj [("result", maybe (fun b => JObj [("authorized", JBool b)]) b)]
  | PExplained t b f => JObj [("goalTree", JStr t); ("authorized", JBool b); ("format", doc_format f)]
  | PExpanded t f => JObj [("goalTree", JStr t); ("format", doc_format f)]
  | PDumped t => JObj (match t with Some s => [("dot", JStr s)] | None => [] end)
  end.

(** ** A client of the REST gateway that is alone *)
Fixpoint rest_all (discard : bool) (E : env) (L : libs) (ct st : style) (xs : list served) (s : store) : list outcome * store :=
  match xs with
  | [] => ([], s)
  | (now, n, c) :: xs' =>
      let (o, s1) := rest_call discard E L ct st now n c s in
      let (os, s2) := rest_all discard E L ct st xs' s1 in (o :: os, s2)
  end.
