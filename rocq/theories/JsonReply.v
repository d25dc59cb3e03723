(** JsonReply: responses as JSON (protojson), the form in which the REST gateway answers (policy_service.pb.gw.go,
    relation_graph.pb.gw.go: forward_PolicyService_CreatePolicy_0 and its likes are runtime.ForwardResponseMessage), and a client
    that reads them.

    As in Json a document is a tree.  protojson, package time and grpc-gateway are not part of the repository; what is written down
    here are their rules. *)
From Coq Require Import ZArith DecimalString.
From Verif Require Import Base Domain Lexer Store Search Explain Yaml Service Dump Api Wire Rpc Cli Json.
Local Open Scope N_scope.

(** ** Numbers *)

(** An uint64 is written as a text.  It may be read from a number as well; fractions and exponents are left out. *)
Definition count_text (n : N) : string := NilEmpty.string_of_uint (N.to_uint n).
Definition count_limit : N := 18446744073709551616.
Definition read_count (j : json) : option N :=
  match j with
  | JNum z => if ((0 <=? z) && (z <? Z.of_N count_limit))%Z then Some (Z.to_N z) else None
  | JStr s =>
      match NilEmpty.uint_of_string s with
      | Some u => let n := N.of_uint u in if (n <? count_limit) && String.eqb (count_text n) s then Some n else None
      | None => None
      end
  | _ => None
  end.

Definition read_bool (j : json) : option bool := match j with JBool b => Some b | _ => None end.

(** ** Times *)

(** [k] decimal digits, zeros in front. *)
Definition decimal (n : N) : ascii := ascii_of_N (48 + n).
Fixpoint digits (k : nat) (n : N) : string :=
  match k with
  | O => ""
  | S k' => String (decimal (n / 10 ^ N.of_nat k' mod 10)) (digits k' n)
  end.

Definition leap (y : N) : bool := (y mod 4 =? 0) && (negb (y mod 100 =? 0) || (y mod 400 =? 0)).

(** Time.date (package time, absDate): the year, month and day of a day, counted from the first of January of the year 1.  Whole
    cycles of 400, 100, 4 years and of one year are taken off; the fourth century and the fourth year have the extra day. *)
Definition days_before : list N := [0; 31; 59; 90; 120; 151; 181; 212; 243; 273; 304; 334; 365].
Definition month_of (y yday : N) : N * N :=
  if leap y && (yday =? 59) then (2, 29)
  else
    let d := if leap y && (59 <? yday) then yday - 1 else yday in
    let m := N.to_nat (d / 31) in
    let below := nth m days_before 0 in
    let end_ := nth (S m) days_before 0 in
    if end_ <=? d then (N.of_nat m + 2, d - end_ + 1) else (N.of_nat m + 1, d - below + 1).
Definition date_of (day : N) : N * (N * N) :=
  let n400 := day / 146097 in
  let d := day mod 146097 in
  let n100 := let n := d / 36524 in n - n / 4 in
  let d := d - 36524 * n100 in
  let n4 := d / 1461 in
  let d := d - 1461 * n4 in
  let n1 := let n := d / 365 in n - n / 4 in
  let y := 400 * n400 + (100 * n100 + 4 * n4 + n1) + 1 in
  (y, month_of y (d - 365 * n1)).

(** The day of 1970-01-01, and the seconds after the year 9999. *)
Definition epoch : N := 719162.
Definition last_second : N := 253402300799.

(** protojson marshalTimestamp: the time must be in the years 1 to 9999; nanoseconds have 9, 6, 3 or no digits. *)
Definition fraction (ns : N) : string :=
  if ns =? 0 then ""
  else if ns mod 1000000 =? 0 then "." +++ digits 3 (ns / 1000000)
  else if ns mod 1000 =? 0 then "." +++ digits 6 (ns / 1000)
  else "." +++ digits 9 ns.
Definition clock_text (s : N) : string := digits 2 (s / 3600) +++ ":" +++ digits 2 (s / 60 mod 60) +++ ":" +++ digits 2 (s mod 60).
Definition date_text (day : N) : string :=
  let '(y, (m, d)) := date_of (epoch + day) in digits 4 y +++ "-" +++ digits 2 m +++ "-" +++ digits 2 d.
Definition time_text (t : N) : string :=
  let s := t / nanos in
  date_text (s / 86400) +++ "T" +++ clock_text (s mod 86400) +++ fraction (t mod nanos) +++ "Z".
Definition writable_time (t : N) : bool := t / nanos <=? last_second.

(** Reading (time.Parse with RFC3339Nano).  Other numbers of digits after the point, and time zones, are left out: protojson writes neither. *)
Definition digit_value (c : ascii) : option N := let n := N_of_ascii c in if (48 <=? n) && (n <=? 57) then Some (n - 48) else None.
Fixpoint read_digits (k : nat) (acc : N) (s : string) : option (N * string) :=
  match k with
  | O => Some (acc, s)
  | S k' =>
      match s with
      | String c s' => match digit_value c with Some v => read_digits k' (10 * acc + v) s' | None => None end
      | EmptyString => None
      end
  end.
Definition expect {A} (c : ascii) (s : string) (next : string -> option A) : option A :=
  match s with String c' s' => if Ascii.eqb c c' then next s' else None | EmptyString => None end.
Definition number {A} (k : nat) (s : string) (next : N -> string -> option A) : option A :=
  match read_digits k 0 s with Some (n, s') => next n s' | None => None end.

(** Time.Date: the days before a year, and before a month. *)
Definition month_days (y m : N) : N :=
  match m with
  | 1 | 3 | 5 | 7 | 8 | 10 | 12 => 31
  | 4 | 6 | 9 | 11 => 30
  | 2 => if leap y then 29 else 28
  | _ => 0
  end.
Definition months_before (y m : N) : N := fold_right N.add 0 (map (fun k => month_days y (N.of_nat k)) (seq 1 (N.to_nat m - 1))).
Definition day_of (y m d : N) : N := let p := y - 1 in 365 * p + p / 4 - p / 100 + p / 400 + months_before y m + (d - 1).
Definition date_valid (y m d : N) : bool := (1 <=? y) && (1 <=? m) && (m <=? 12) && (1 <=? d) && (d <=? month_days y m).

(** The digits after the point, if there is one. *)
Definition starts (c : ascii) (s : string) : bool := match s with String c' _ => Ascii.eqb c c' | EmptyString => false end.
Definition read_fraction (s : string) : option (N * string) :=
  if starts "." s
  then expect "." s (fun s => number 3 s (fun a s =>
    if starts "Z" s then Some (a * 1000000, s)
    else number 3 s (fun b s =>
      if starts "Z" s then Some (a * 1000000 + b * 1000, s)
      else number 3 s (fun c s => Some (a * 1000000 + b * 1000 + c, s)))))
  else Some (0, s).

(** Times before 1970 are left out: the model's times are not negative. *)
Definition read_time_text (s : string) : option N :=
  number 4 s (fun y s => expect "-" s (fun s => number 2 s (fun m s => expect "-" s (fun s => number 2 s (fun d s => expect "T" s (fun s =>
  number 2 s (fun h s => expect ":" s (fun s => number 2 s (fun mi s => expect ":" s (fun s => number 2 s (fun sec s =>
  match read_fraction s with
  | Some (ns, s) => expect "Z" s (fun s =>
      if date_valid y m d && (h <? 24) && (mi <? 60) && (sec <? 60) && (epoch <=? day_of y m d) && String.eqb s ""
      then Some (((day_of y m d - epoch) * 86400 + h * 3600 + mi * 60 + sec) * nanos + ns)
      else None)
  | None => None
  end))))))))))).
Definition read_time (j : json) : option N := match j with JStr s => read_time_text s | _ => None end.

(** ** The fields of the responses (pkg/api/policy_service.pb.go, relation_graph.pb.go; pkg/domain/policy.pb.go, relationship.pb.go) *)

Definition t_record : list fdesc := [fd 1 "record" "record"].
Definition t_policy_record : list fdesc := [fd 1 "policy" "policy"; fd 2 "appData" "app_data"; fd 3 "createdAt" "created_at"].
Definition t_rel_record : list fdesc :=
  [fd 1 "policyId" "policy_id"; fd 2 "relationship" "relationship"; fd 3 "createdAt" "created_at"; fd 4 "appData" "app_data"].
Definition t_deleted_policy : list fdesc := [fd 1 "found" "found"; fd 2 "relationshipsRemoved" "relationships_removed"].
Definition t_records : list fdesc := [fd 1 "records" "records"].
Definition t_overwritten : list fdesc := [fd 1 "recordOverwritten" "record_overwritten"].
Definition t_found : list fdesc := [fd 1 "found" "found"].
Definition t_result : list fdesc := [fd 1 "result" "result"].
Definition t_affected : list fdesc := [fd 1 "recordsAffected" "records_affected"].
Definition t_authorized : list fdesc := [fd 1 "authorized" "authorized"].
Definition t_explained : list fdesc := [fd 1 "goalTree" "goal_tree"; fd 2 "authorized" "authorized"; fd 3 "format" "format"].
Definition t_expanded : list fdesc := [fd 1 "goalTree" "goal_tree"; fd 2 "format" "format"].
(** The other member of this oneof, a tree, is never set by the server (relation_graph/service.go:196-208) and is left out. *)
Definition t_dumped : list fdesc := [fd_one 2 "dot" "dot"].

(** ** Writing *)

Section Write.
  Variable st : style.

  Definition w_bool (f : fdesc) (b : bool) : list (fdesc * json) := if b then [(f, JBool true)] else unset st f (JBool false).
  Definition w_count (f : fdesc) (n : N) : list (fdesc * json) :=
    if n =? 0 then unset st f (JStr (count_text 0)) else [(f, JStr (count_text n))].
  (** The server always sets the times of records. *)
  Definition w_time (f : fdesc) (t : N) : list (fdesc * json) := [(f, JStr (time_text t))].

  (** A field that is marked optional: protojson does not write it when it is not set, EmitUnpopulated or not. *)
  Definition w_present {A} (w : A -> json) (f : fdesc) (o : option A) : list (fdesc * json) := match o with Some x => [(f, w x)] | None => [] end.

  Definition json_policy_record (r : policy_record) : json :=
    object st ([(field_of t_policy_record 1, json_policy st (pr_policy r))] ++ w_bytes st (field_of t_policy_record 2) (pr_app r) ++
      w_time (field_of t_policy_record 3) (pr_created r)).
  Definition json_rel_record (r : rel_record) : json :=
    object st (w_text st (field_of t_rel_record 1) (rr_policy r) ++ [(field_of t_rel_record 2, json_relationship st (rr_rel r))] ++
      w_time (field_of t_rel_record 3) (rr_created r) ++ w_bytes st (field_of t_rel_record 4) (rr_app r)).
  (** A nil record of a list is written as a message in which nothing is set. *)
  Definition json_listed (o : option rel_record) : json :=
    match o with
    | Some r => json_rel_record r
    | None =>
        object st (unset st (field_of t_rel_record 1) (JStr "") ++ unset st (field_of t_rel_record 2) JNull ++
          unset st (field_of t_rel_record 3) JNull ++ unset st (field_of t_rel_record 4) (JStr ""))
    end.

  Definition reply_doc (r : reply) : json :=
    match r with
    | PCreated r => object st (w_opt st json_policy_record (field_of t_record 1) r)
    | PPolicy r => object st (w_present json_policy_record (field_of t_record 1) r)
    | PUpdated => no_members st
    | PDeletedPolicy found count => object st (w_bool (field_of t_deleted_policy 1) found ++ w_count (field_of t_deleted_policy 2) count)
    | PPolicyIds l => object st (w_list st (one_text st t_id) (field_of t_records 1) l)
    | PSet b => object st (w_bool (field_of t_overwritten 1) b)
    | PDeleted b => object st (w_bool (field_of t_found 1) b)
    | PRecord r => object st (w_present json_rel_record (field_of t_record 1) r)
    | PRecords l => object st (w_opt st (fun l => object st (w_list st json_listed (field_of t_records 1) l)) (field_of t_result 1) l)
    | PCount n => object st (w_count (field_of t_affected 1) n)
    | PDecision b => object st (w_opt st (fun b => object st (w_bool (field_of t_authorized 1) b)) (field_of t_result 1) b)
    | PExplained t b f =>
        object st (w_text st (field_of t_explained 1) t ++ w_bool (field_of t_explained 2) b ++
          w_enum st format_names (field_of t_explained 3) (format_code f))
    | PExpanded t f => object st (w_text st (field_of t_expanded 1) t ++ w_enum st format_names (field_of t_expanded 2) (format_code f))
    | PDumped t => match t with Some s => member st t_dumped 2 (JStr s) | None => no_members st end
    end.
End Write.

Definition reply_times (r : reply) : list N :=
  let times {A} (f : A -> N) (o : option A) := match o with Some x => [f x] | None => [] end in
  match r with
  | PCreated r | PPolicy r => times pr_created r
  | PRecord r => times rr_created r
  | PRecords (Some l) => flat_map (times rr_created) l
  | _ => []
  end.

(** protojson.Marshal: texts must be UTF-8 and times in the calendar. *)
Definition json_reply (st : style) (r : reply) : option json :=
  if forallb utf8_valid (reply_texts r) && forallb writable_time (reply_times r) then Some (reply_doc st r) else None.

(** ** Reading *)

Section Read.
  Variable discard : bool.

  Definition set_policy_record (n : N) (v : json) (r : policy_record) : option policy_record :=
    match n with
    | 1 => omap (fun p => mkPRec p (pr_app r) (pr_created r)) (read_policy discard v)
    | 2 => omap (fun s => mkPRec (pr_policy r) s (pr_created r)) (read_bytes v)
    | _ => omap (fun t => mkPRec (pr_policy r) (pr_app r) t) (read_time v)
    end.
  Definition read_policy_record (j : json) : option policy_record :=
    read_message discard t_policy_record set_policy_record (mkPRec no_policy "" 0) j.
  Definition set_rel_record (n : N) (v : json) (r : rel_record) : option rel_record :=
    match n with
    | 1 => omap (fun s => mkRRec s (rr_rel r) (rr_created r) (rr_app r)) (read_text v)
    | 2 => omap (fun x => mkRRec (rr_policy r) x (rr_created r) (rr_app r)) (read_relationship discard v)
    | 3 => omap (fun t => mkRRec (rr_policy r) (rr_rel r) t (rr_app r)) (read_time v)
    | _ => omap (fun s => mkRRec (rr_policy r) (rr_rel r) (rr_created r) s) (read_bytes v)
    end.
  Definition read_rel_record (j : json) : option rel_record := read_message discard t_rel_record set_rel_record no_record j.

  (** A message with one field that is a message, a list, a flag or a number. *)
  Definition set_sub {X} (read : json -> option X) (n : N) (v : json) (a : option X) : option (option X) := omap Some (read v).
  Definition set_only {X} (read : json -> option X) (n : N) (v : json) (a : X) : option X := read v.
  Definition set_deleted (n : N) (v : json) (a : bool * N) : option (bool * N) :=
    match n with
    | 1 => omap (fun b => (b, snd a)) (read_bool v)
    | _ => omap (fun k => (fst a, k)) (read_count v)
    end.
  Definition set_explained (n : N) (v : json) (a : string * bool * N) : option (string * bool * N) :=
    match n with
    | 1 => omap (fun s => (s, snd (fst a), snd a)) (read_text v)
    | 2 => omap (fun b => (fst (fst a), b, snd a)) (read_bool v)
    | _ => omap (fun k => (fst a, k)) (read_enum format_names v)
    end.
  Definition set_expanded (n : N) (v : json) (a : string * N) : option (string * N) :=
    match n with
    | 1 => omap (fun s => (s, snd a)) (read_text v)
    | _ => omap (fun k => (fst a, k)) (read_enum format_names v)
    end.

  Definition read_ids (j : json) : option (list string) :=
    read_message discard t_records (set_only (read_list (read_message discard t_id set_one_text ""))) [] j.
  Definition read_records (j : json) : option (list rel_record) :=
    read_message discard t_records (set_only (read_list read_rel_record)) [] j.
  Definition read_flag (t : list fdesc) (j : json) : option bool := read_message discard t (set_only read_bool) false j.

  Definition read_reply (m : method) (j : json) : option reply :=
    match m with
    | MCreatePolicy => omap PCreated (read_message discard t_record (set_sub read_policy_record) None j)
    | MUpdatePolicy => omap (fun _ => PUpdated) (read_empty discard j)
    | MDeletePolicy => omap (fun x => PDeletedPolicy (fst x) (snd x)) (read_message discard t_deleted_policy set_deleted (false, 0) j)
    | MGetPolicy => omap PPolicy (read_message discard t_record (set_sub read_policy_record) None j)
    | MListPolicyIds => omap PPolicyIds (read_ids j)
    | MSetRelationship => omap PSet (read_flag t_overwritten j)
    | MDeleteRelationship => omap PDeleted (read_flag t_found j)
    | MGetRelationship => omap PRecord (read_message discard t_record (set_sub read_rel_record) None j)
    | MFindRelationshipRecords =>
        omap (fun o => PRecords (omap (map Some) o)) (read_message discard t_result (set_sub read_records) None j)
    | MDeleteRelationships => omap PCount (read_message discard t_affected (set_only read_count) 0 j)
    | MCheck => omap PDecision (read_message discard t_result (set_sub (read_flag t_authorized)) None j)
    | MExplainCheck =>
        omap (fun x => PExplained (fst (fst x)) (snd (fst x)) (format_of (snd x)))
          (read_message discard t_explained set_explained ("", false, 0) j)
    | MExpand => omap (fun x => PExpanded (fst x) (format_of (snd x))) (read_message discard t_expanded set_expanded ("", 0) j)
    | MDumpRelationships => omap PDumped (read_message discard t_dumped (set_sub read_text) None j)
    end.
End Read.

(** ** A client of the REST gateway *)

(** The answer of the gateway: a document, an error of the server (its status and text), a broken connection, nothing yet, or a
    reply that could not be written (ForwardResponseMessage: an error of the marshaler is answered with HTTPError, 500). *)
Inductive http := HttpNotFound | HttpBadRequest | HttpOk (j : json) | HttpFailed (e : err) | HttpBroken | HttpWaiting | HttpUnwritable.
Definition http_of (st : style) (h : http_reply) : http :=
  match h with
  | HNotFound => HttpNotFound
  | HBadRequest => HttpBadRequest
  | HAnswer (Got r) => match json_reply st r with Some j => HttpOk j | None => HttpUnwritable end
  | HAnswer (Told e) => HttpFailed e
  | HAnswer Broken => HttpBroken
  | HAnswer Garbled => HttpUnwritable
  | HAnswer Waiting => HttpWaiting
  end.
Definition rest (E : env) (L : libs) (st : style) (now : N) (n : nat) (path : string) (body : option json) (s : store) : http * store :=
  let (h, s') := handle E L now n path body s in (http_of st h, s').

(** What a client that called method [m] makes of it. *)
Definition client_view (discard : bool) (m : method) (h : http) : outcome :=
  match h with
  | HttpOk j => match read_reply discard m j with Some r => Got r | None => Garbled end
  | HttpFailed e => Told e
  | HttpBroken => Broken
  | HttpWaiting => Waiting
  | HttpNotFound | HttpBadRequest | HttpUnwritable => Garbled
  end.

(** The client posts the document of its call, written in the style [ct], to the path of the method; the gateway writes in the style [st]. *)
Definition rest_call (discard : bool) (E : env) (L : libs) (ct st : style) (now : N) (n : nat) (c : call) (s : store) : outcome * store :=
  let (h, s') := rest E L st now n (path_of (method_of c)) (Some (json_call ct c)) s in (client_view discard (method_of c) h, s').
