(** Json: requests as JSON (google.golang.org/protobuf/encoding/protojson), the form in which zanzi-cli reads its input
    (policy_service.cobra.pb.go:56-64, relation_graph.cobra.pb.go:53-61: [in(v)] before the flags are merged) and the REST gateway
    its bodies (policy_service.pb.gw.go, relation_graph.pb.gw.go).

    A document is taken as already parsed: [json] is its tree, and the syntax of JSON texts is left out.  protojson is not part of
    the repository; what is written down here are the rules of version 1.31: there is no limit on how deep messages are nested, and
    names of enum values that are not known are refused.  Names in brackets (extensions) are unknown fields. *)
From Coq Require Import ZArith.
From Verif Require Import Base Domain Lexer Store Search Explain Yaml Service Dump Api Wire Rpc Cli.
Local Open Scope N_scope.

(** ** Documents *)

(** [JNum] is a number with an integer value, [JFloat] any other number.  Objects keep the order of their members and may repeat them. *)
Inductive json :=
| JNull
| JBool (b : bool)
| JNum (z : Z)
| JFloat
| JStr (s : string)
| JArr (l : list json)
| JObj (l : list (string * json)).

(** ** Bytes: base64 *)

Definition sextet := (bool * bool * bool * bool * bool * bool)%type.

(** Most significant bit first. *)
Definition sextet_value (x : sextet) : N :=
  let '(a, b, c, d, e, f) := x in
  let v (b : bool) (n : N) := if b then n else 0 in
  v a 32 + v b 16 + v c 8 + v d 4 + v e 2 + v f 1.

Definition sextet_of (n : N) : sextet :=
  (N.testbit n 5, N.testbit n 4, N.testbit n 3, N.testbit n 2, N.testbit n 1, N.testbit n 0).

(** RFC 4648: the standard alphabet, and the one for URLs. *)
Definition digit (x : sextet) : ascii :=
  let n := sextet_value x in
  if n <? 26 then ascii_of_N (65 + n) else if n <? 52 then ascii_of_N (97 + (n - 26)) else if n <? 62 then ascii_of_N (48 + (n - 52))
  else if n =? 62 then "+"%char else "/"%char.

Definition undigit (url : bool) (c : ascii) : option sextet :=
  let n := N_of_ascii c in
  if (65 <=? n) && (n <=? 90) then Some (sextet_of (n - 65))
  else if (97 <=? n) && (n <=? 122) then Some (sextet_of (n - 97 + 26))
  else if (48 <=? n) && (n <=? 57) then Some (sextet_of (n - 48 + 52))
  else if Ascii.eqb c (if url then "-"%char else "+"%char) then Some (sextet_of 62)
  else if Ascii.eqb c (if url then "_"%char else "/"%char) then Some (sextet_of 63)
  else None.

(** base64.StdEncoding.EncodeToString.  The arguments of [Ascii] start with the least significant bit. *)
Fixpoint base64 (s : string) : string :=
  match s with
  | EmptyString => ""
  | String (Ascii a0 a1 a2 a3 a4 a5 a6 a7) EmptyString =>
      String (digit (a7, a6, a5, a4, a3, a2)) (String (digit (a1, a0, false, false, false, false)) "==")
  | String (Ascii a0 a1 a2 a3 a4 a5 a6 a7) (String (Ascii b0 b1 b2 b3 b4 b5 b6 b7) EmptyString) =>
      String (digit (a7, a6, a5, a4, a3, a2)) (String (digit (a1, a0, b7, b6, b5, b4))
        (String (digit (b3, b2, b1, b0, false, false)) "="))
  | String (Ascii a0 a1 a2 a3 a4 a5 a6 a7) (String (Ascii b0 b1 b2 b3 b4 b5 b6 b7) (String (Ascii c0 c1 c2 c3 c4 c5 c6 c7) s')) =>
      String (digit (a7, a6, a5, a4, a3, a2)) (String (digit (a1, a0, b7, b6, b5, b4))
        (String (digit (b3, b2, b1, b0, c7, c6)) (String (digit (c5, c4, c3, c2, c1, c0)) (base64 s'))))
  end.

Definition byte1 (x y : sextet) : ascii :=
  let '(a7, a6, a5, a4, a3, a2) := x in let '(a1, a0, _, _, _, _) := y in Ascii a0 a1 a2 a3 a4 a5 a6 a7.
Definition byte2 (y z : sextet) : ascii :=
  let '(_, _, b7, b6, b5, b4) := y in let '(b3, b2, b1, b0, _, _) := z in Ascii b0 b1 b2 b3 b4 b5 b6 b7.
Definition byte3 (z w : sextet) : ascii :=
  let '(_, _, _, _, c7, c6) := z in let '(c5, c4, c3, c2, c1, c0) := w in Ascii c0 c1 c2 c3 c4 c5 c6 c7.

(** Encoding.DecodeString without the line breaks: groups of four digits, the last one padded or, without padding, shorter.
    Bits that are left over may be set. *)
Fixpoint unbase64 (url padded : bool) (s : string) : option string :=
  match s with
  | EmptyString => Some ""
  | String a (String b EmptyString) =>
      if padded then None
      else match undigit url a, undigit url b with Some x, Some y => Some (String (byte1 x y) "") | _, _ => None end
  | String a (String b (String c EmptyString)) =>
      if padded then None
      else match undigit url a, undigit url b, undigit url c with
           | Some x, Some y, Some z => Some (String (byte1 x y) (String (byte2 y z) ""))
           | _, _, _ => None
           end
  | String a (String b (String c (String d s'))) =>
      match undigit url a, undigit url b, undigit url c, undigit url d with
      | Some x, Some y, Some z, Some w =>
          omap (fun t => String (byte1 x y) (String (byte2 y z) (String (byte3 z w) t))) (unbase64 url padded s')
      | Some x, Some y, Some z, None =>
          if padded && Ascii.eqb d "=" && String.eqb s' "" then Some (String (byte1 x y) (String (byte2 y z) "")) else None
      | Some x, Some y, None, None =>
          if padded && Ascii.eqb c "=" && Ascii.eqb d "=" && String.eqb s' "" then Some (String (byte1 x y) "") else None
      | _, _, _, _ => None
      end
  | String _ EmptyString => None
  end.

Fixpoint without_breaks (s : string) : string :=
  match s with
  | EmptyString => ""
  | String c s' => if (N_of_ascii c =? 10) || (N_of_ascii c =? 13) then without_breaks s' else String c (without_breaks s')
  end.

Fixpoint for_urls (s : string) : bool :=
  match s with
  | EmptyString => false
  | String c s' => Ascii.eqb c "-" || Ascii.eqb c "_" || for_urls s'
  end.

(** protojson unmarshalBytes: URL digits if there is one of them, padding if the length is a multiple of four. *)
Definition read_bytes (j : json) : option string :=
  match j with
  | JStr s => unbase64 (for_urls s) (Nat.eqb (Nat.modulo (String.length s) 4) 0) (without_breaks s)
  | _ => None
  end.

(** ** Scalars *)

Definition read_text (j : json) : option string := match j with JStr s => text s (fun s => s) | _ => None end.

(** Enums: a name, or a number of 32 bits.  The model's numbers are not negative (as in Wire and Rpc). *)
Definition enum_names := list (string * N).
Definition by_name (t : enum_names) (s : string) : option N := omap snd (find (fun x => String.eqb (fst x) s) t).
Definition by_number (t : enum_names) (n : N) : option string := omap fst (find (fun x => snd x =? n) t).

Definition read_enum (t : enum_names) (j : json) : option N :=
  match j with
  | JStr s => by_name t s
  | JNum z => if ((-2147483648 <=? z) && (z <? 2147483648))%Z then Some (Z.to_N (z mod 4294967296)) else None
  | _ => None
  end.

Definition enum_json (t : enum_names) (n : N) : json :=
  match by_number t n with
  | Some s => JStr s
  | None => JNum (if n <? 2147483648 then Z.of_N n else Z.of_N n - 4294967296)
  end.

(** ** Messages *)

(** A field: its number, its JSON name and its name in the .proto file, and whether it is a member of a oneof. *)
Record fdesc := mkF { f_num : N; f_json : string; f_proto : string; f_one : bool }.
Definition fd (n : N) (j p : string) : fdesc := mkF n j p false.
Definition fd_one (n : N) (j p : string) : fdesc := mkF n j p true.

(** The JSON name is looked up first. *)
Definition find_field (t : list fdesc) (k : string) : option fdesc :=
  match find (fun f => String.eqb (f_json f) k) t with
  | Some f => Some f
  | None => find (fun f => String.eqb (f_proto f) k) t
  end.

(** unmarshalMessage, with [discard] for DiscardUnknown: a field may come once, null leaves it unset, and one member of a oneof
    may be set.  [set] reads the value of a field. *)
Definition read_fields {A} (discard : bool) (t : list fdesc) (set : N -> json -> A -> option A) :=
  fix loop (l : list (string * json)) (seen : list N) (one : bool) (a : A) : option A :=
    match l with
    | [] => Some a
    | (k, v) :: l' =>
        match find_field t k with
        | None => if discard then loop l' seen one a else None
        | Some f =>
            if existsb (N.eqb (f_num f)) seen then None
            else match v with
                 | JNull => loop l' (f_num f :: seen) one a
                 | _ =>
                     if f_one f && one then None
                     else match set (f_num f) v a with
                          | None => None
                          | Some a' => loop l' (f_num f :: seen) (f_one f || one) a'
                          end
                 end
        end
    end.

Definition read_message {A} (discard : bool) (t : list fdesc) (set : N -> json -> A -> option A) (new : A) (j : json) : option A :=
  match j with JObj l => read_fields discard t set l [] false new | _ => None end.

(** unmarshalList *)
Fixpoint read_all {A} (read : json -> option A) (l : list json) : option (list A) :=
  match l with
  | [] => Some []
  | j :: l' => match read j with None => None | Some x => omap (cons x) (read_all read l') end
  end.
Definition read_list {A} (read : json -> option A) (j : json) : option (list A) := match j with JArr l => read_all read l | _ => None end.

(** unmarshalMap: a key may come once. *)
Fixpoint read_entries (l : list (string * json)) (m : list (string * string)) : option (list (string * string)) :=
  match l with
  | [] => Some m
  | (k, v) :: l' =>
      match kv_get scmp k m, read_text (JStr k), read_text v with
      | None, Some k', Some v' => read_entries l' (kv_set scmp k' v' m)
      | _, _, _ => None
      end
  end.
Definition read_map (j : json) : option (list (string * string)) := match j with JObj l => read_entries l [] | _ => None end.

(** How a writer chooses the names of fields, and whether it writes fields that are not set (EmitUnpopulated). *)
Record style := mkStyle { st_name : fdesc -> string; st_emit : fdesc -> bool }.

Definition field_of (t : list fdesc) (n : N) : fdesc := or_else (find (fun f => f_num f =? n) t) (fd 0 "" "").

Definition unset (st : style) (f : fdesc) (j : json) : list (fdesc * json) := if st_emit st f then [(f, j)] else [].
Definition w_text (st : style) (f : fdesc) (s : string) : list (fdesc * json) :=
  match s with EmptyString => unset st f (JStr "") | _ => [(f, JStr s)] end.
Definition w_bytes (st : style) (f : fdesc) (s : string) : list (fdesc * json) := w_text st f (base64 s).
Definition w_enum (st : style) (t : enum_names) (f : fdesc) (n : N) : list (fdesc * json) :=
  if n =? 0 then unset st f (enum_json t 0) else [(f, enum_json t n)].
Definition w_opt {A} (st : style) (w : A -> json) (f : fdesc) (o : option A) : list (fdesc * json) :=
  match o with Some x => [(f, w x)] | None => unset st f JNull end.
Definition w_list {A} (st : style) (w : A -> json) (f : fdesc) (l : list A) : list (fdesc * json) :=
  match l with [] => unset st f (JArr []) | _ => [(f, JArr (map w l))] end.
Definition w_map (st : style) (f : fdesc) (l : list (string * string)) : list (fdesc * json) :=
  match l with [] => unset st f (JObj []) | _ => [(f, JObj (map (fun x => (fst x, JStr (snd x))) l))] end.
Definition object (st : style) (l : list (fdesc * json)) : json := JObj (map (fun x => (st_name st (fst x), snd x)) l).

(** ** The fields of the messages (the json tags of the fields in the .pb.go files; without a tag the JSON name is the name) *)

(** relationship.pb.go *)
Definition t_entity : list fdesc := [fd 1 "resource" "resource"; fd 2 "id" "id"].
Definition t_entity_set : list fdesc := [fd 1 "entity" "entity"; fd 2 "relation" "relation"].
Definition t_resource_set : list fdesc := [fd 1 "resourceName" "resource_name"].
Definition t_subject : list fdesc :=
  [fd_one 1 "entity" "entity"; fd_one 2 "entitySet" "entity_set"; fd_one 3 "resourceSet" "resource_set"].
Definition t_relationship : list fdesc := [fd 1 "object" "object"; fd 2 "relation" "relation"; fd 3 "subject" "subject"].

(** selector.pb.go *)
Definition t_obj_selector : list fdesc :=
  [fd_one 1 "objectSpec" "object_spec"; fd_one 2 "wildcard" "wildcard"; fd_one 3 "resourceSpec" "resource_spec"].
Definition t_rel_selector : list fdesc := [fd_one 1 "relationName" "relation_name"; fd_one 2 "wildcard" "wildcard"].
Definition t_subj_selector : list fdesc :=
  [fd_one 1 "subjectSpec" "subject_spec"; fd_one 2 "wildcard" "wildcard"; fd_one 3 "resourceSpec" "resource_spec"].
Definition t_selector : list fdesc :=
  [fd 1 "objectSelector" "object_selector"; fd 2 "relationSelector" "relation_selector"; fd 3 "subjectSelector" "subject_selector"].

(** relation_graph.pb.go *)
Definition t_access : list fdesc := [fd 1 "object" "object"; fd 2 "relation" "relation"; fd 3 "subject" "subject"].
Definition t_set_node : list fdesc := [fd 1 "object" "object"; fd 2 "relation" "relation"].
Definition t_entity_node : list fdesc := [fd 1 "object" "object"].
Definition t_wild_node : list fdesc := [fd 1 "resource" "resource"].
Definition t_rnode : list fdesc := [fd_one 1 "entitySet" "entity_set"; fd_one 2 "entity" "entity"; fd_one 3 "wildcard" "wildcard"].

(** relation_expression_tree.pb.go *)
Definition t_cu : list fdesc := [fd 1 "targetRelation" "target_relation"].
Definition t_ttu : list fdesc :=
  [fd 1 "tuplesetRelation" "tupleset_relation"; fd 2 "computedUsersetRelation" "computed_userset_relation"].
Definition t_rule : list fdesc := [fd_one 1 "this" "this"; fd_one 2 "cu" "cu"; fd_one 3 "ttu" "ttu"].
Definition t_op_node : list fdesc := [fd 1 "left" "left"; fd 2 "operator" "operator"; fd 3 "right" "right"].
Definition t_node : list fdesc := [fd_one 1 "opNode" "op_node"; fd_one 2 "rule" "rule"].
Definition operator_names : enum_names := [("UNION", 0); ("INTERSECTION", 1); ("DIFFERENCE", 2)].

(** policy.pb.go *)
Definition t_relexpr : list fdesc := [fd_one 1 "expr" "expr"; fd_one 2 "tree" "tree"].
Definition t_entity_restriction : list fdesc := [fd 1 "resourceName" "resource_name"].
Definition t_set_restriction : list fdesc := [fd 1 "resourceName" "resource_name"; fd 2 "relationName" "relation_name"].
Definition t_restriction : list fdesc := [fd_one 1 "entity" "entity"; fd_one 2 "entitySet" "entity_set"].
Definition t_restrictions : list fdesc := [fd 1 "restrictions" "restrictions"].
Definition t_subj_restriction : list fdesc :=
  [fd_one 1 "restrictionSet" "restriction_set"; fd_one 2 "universalSet" "universal_set"].
Definition t_relation : list fdesc :=
  [fd 1 "name" "name"; fd 2 "description" "description"; fd 3 "relationExpression" "relation_expression";
   fd 4 "subjectRestriction" "subject_restriction"].
Definition t_resource : list fdesc := [fd 1 "name" "name"; fd 2 "description" "description"; fd 3 "relations" "relations"].
Definition t_policy : list fdesc :=
  [fd 1 "id" "id"; fd 2 "name" "name"; fd 3 "description" "description"; fd 4 "resources" "resources"; fd 5 "attributes" "attributes"].

(** policy_service.pb.go, relation_graph.pb.go (pkg/api) *)
Definition t_definition : list fdesc := [fd_one 1 "policy" "policy"; fd_one 2 "policyYaml" "policy_yaml"].
Definition t_create : list fdesc := [fd 1 "policyDefinition" "policy_definition"; fd 2 "appData" "app_data"].
Definition t_update : list fdesc :=
  [fd 1 "policyDefinition" "policy_definition"; fd 2 "appData" "app_data"; fd 3 "strategy" "strategy"].
Definition t_id : list fdesc := [fd 1 "id" "id"].
Definition t_set_rel : list fdesc := [fd 1 "policyId" "policy_id"; fd 2 "relationship" "relationship"; fd 3 "appData" "app_data"].
Definition t_rel : list fdesc := [fd 1 "policyId" "policy_id"; fd 2 "relationship" "relationship"].
Definition t_sel : list fdesc := [fd 1 "policyId" "policy_id"; fd 2 "selector" "selector"].
Definition t_check : list fdesc := [fd 1 "policyId" "policy_id"; fd 2 "accessRequest" "access_request"].
Definition t_explain : list fdesc := [fd 1 "policyId" "policy_id"; fd 2 "accessRequest" "access_request"; fd 3 "format" "format"].
Definition t_expand : list fdesc := [fd 1 "policyId" "policy_id"; fd 2 "root" "root"; fd 3 "format" "format"].
Definition t_dump : list fdesc := [fd 1 "policyId" "policy_id"; fd 2 "format" "format"].
Definition strategy_names : enum_names := [("IGNORE_ORPHANS", 0)].
Definition format_names : enum_names := [("SPEW", 0); ("JSON", 1); ("DOT", 2)].
Definition dump_names : enum_names := [("DOT", 0)].

(** ** Reading *)

Section Read.
  Variable discard : bool.

  Definition read_empty (j : json) : option unit := read_message discard [] (fun _ _ u => Some u) tt j.

  (** A message with one text field, and one with two. *)
  Definition set_one_text (n : N) (v : json) (a : string) : option string := read_text v.
  Definition set_two_texts (n : N) (v : json) (a : string * string) : option (string * string) :=
    match n with
    | 1 => omap (fun s => (s, snd a)) (read_text v)
    | _ => omap (fun s => (fst a, s)) (read_text v)
    end.

  Definition read_entity (j : json) : option entity :=
    omap (fun x => mkEntity (fst x) (snd x)) (read_message discard t_entity set_two_texts ("", "") j).

  (** EntitySet and EntitySetNode: an entity and a relation. *)
  Definition set_entity_set (n : N) (v : json) (a : option entity * string) : option (option entity * string) :=
    match n with
    | 1 => omap (fun e => (Some e, snd a)) (read_entity v)
    | _ => omap (fun s => (fst a, s)) (read_text v)
    end.

  Definition set_subject_member (n : N) (v : json) (a : subject) : option subject :=
    match n with
    | 1 => omap SEntity (read_entity v)
    | 2 => omap (fun x => SEntitySet (fst x) (snd x)) (read_message discard t_entity_set set_entity_set (None, "") v)
    | _ => omap SResourceSet (read_message discard t_resource_set set_one_text "" v)
    end.
  Definition read_subject (j : json) : option subject := read_message discard t_subject set_subject_member SUnset j.

  Definition set_relationship_part (n : N) (v : json) (r : relationship) : option relationship :=
    match n with
    | 1 => omap (fun e => mkRel (Some e) (r_relation r) (r_subject r)) (read_entity v)
    | 2 => omap (fun s => mkRel (r_object r) s (r_subject r)) (read_text v)
    | _ => omap (fun u => mkRel (r_object r) (r_relation r) (Some u)) (read_subject v)
    end.
  Definition read_relationship (j : json) : option relationship :=
    read_message discard t_relationship set_relationship_part no_relationship j.

  Definition set_obj_selector (n : N) (v : json) (a : obj_selector) : option obj_selector :=
    match n with
    | 1 => omap (fun e => OSObject (Some e)) (read_entity v)
    | 2 => omap (fun _ => OSWild) (read_empty v)
    | _ => omap OSResource (read_text v)
    end.
  Definition set_rel_selector (n : N) (v : json) (a : rel_selector) : option rel_selector :=
    match n with
    | 1 => omap LSName (read_text v)
    | _ => omap (fun _ => LSWild) (read_empty v)
    end.
  Definition set_subj_selector (n : N) (v : json) (a : subj_selector) : option subj_selector :=
    match n with
    | 1 => omap (fun u => USSubject (Some u)) (read_subject v)
    | 2 => omap (fun _ => USWild) (read_empty v)
    | _ => omap USResource (read_text v)
    end.
  Definition set_selector_part (n : N) (v : json) (x : selector) : option selector :=
    match n with
    | 1 => omap (fun y => mkSel (Some y) (s_rel x) (s_subj x)) (read_message discard t_obj_selector set_obj_selector OSUnset v)
    | 2 => omap (fun y => mkSel (s_obj x) (Some y) (s_subj x)) (read_message discard t_rel_selector set_rel_selector LSUnset v)
    | _ => omap (fun y => mkSel (s_obj x) (s_rel x) (Some y)) (read_message discard t_subj_selector set_subj_selector USUnset v)
    end.
  Definition read_selector (j : json) : option selector := read_message discard t_selector set_selector_part (mkSel None None None) j.

  Definition set_access_part (n : N) (v : json) (a : access_request) : option access_request :=
    match n with
    | 1 => omap (fun e => mkAccess (Some e) (a_relation a) (a_subject a)) (read_entity v)
    | 2 => omap (fun s => mkAccess (a_object a) s (a_subject a)) (read_text v)
    | _ => omap (fun e => mkAccess (a_object a) (a_relation a) (Some e)) (read_entity v)
    end.
  Definition read_access (j : json) : option access_request := read_message discard t_access set_access_part (mkAccess None "" None) j.

  Definition set_entity_node (n : N) (v : json) (a : option entity) : option (option entity) := omap Some (read_entity v).
  Definition set_rnode (n : N) (v : json) (a : rnode) : option rnode :=
    match n with
    | 1 => omap (fun x => NSet (fst x) (snd x)) (read_message discard t_set_node set_entity_set (None, "") v)
    | 2 => omap NEntity (read_message discard t_entity_node set_entity_node None v)
    | _ => omap NWild (read_message discard t_wild_node set_one_text "" v)
    end.
  Definition read_rnode (j : json) : option rnode := read_message discard t_rnode set_rnode NUnset j.

  Definition set_rule (n : N) (v : json) (a : rule) : option rule :=
    match n with
    | 1 => omap (fun _ => RThis) (read_empty v)
    | 2 => omap RCu (read_message discard t_cu set_one_text "" v)
    | _ => omap (fun x => RTtu (fst x) (snd x)) (read_message discard t_ttu set_two_texts ("", "") v)
    end.
  Definition read_rule (j : json) : option rule := read_message discard t_rule set_rule RUnset j.

  (** The members of an operator node, with [read] for trees. *)
  Definition set_op_node (read : json -> option tree) (n : N) (v : json) (x : tree * operator * tree) : option (tree * operator * tree) :=
    match n with
    | 1 => omap (fun l => (l, snd (fst x), snd x)) (read v)
    | 2 => omap (fun o => (fst (fst x), op_of o, snd x)) (read_enum operator_names v)
    | _ => omap (fun r => (fst x, r)) (read v)
    end.
  Definition set_node (read : json -> option tree) (n : N) (v : json) (a : tree) : option tree :=
    match n with
    | 1 => omap (fun x => TOp (fst (fst x)) (snd (fst x)) (snd x)) (read_message discard t_op_node (set_op_node read) (TNil, OpUnion, TNil) v)
    | _ => omap TRule (read_rule v)
    end.
  Fixpoint read_tree (j : json) {struct j} : option tree := read_message discard t_node (set_node read_tree) TUnset j.

  Definition set_relexpr (n : N) (v : json) (a : relexpr) : option relexpr :=
    match n with
    | 1 => omap XExpr (read_text v)
    | _ => omap XTree (read_tree v)
    end.
  Definition set_restriction (n : N) (v : json) (a : restriction) : option restriction :=
    match n with
    | 1 => omap REntity (read_message discard t_entity_restriction set_one_text "" v)
    | _ => omap (fun x => REntitySet (fst x) (snd x)) (read_message discard t_set_restriction set_two_texts ("", "") v)
    end.
  Definition read_restriction (j : json) : option restriction := read_message discard t_restriction set_restriction RRUnset j.
  Definition set_restrictions (n : N) (v : json) (a : list restriction) : option (list restriction) := read_list read_restriction v.
  Definition set_subj_restriction (n : N) (v : json) (a : subj_restriction) : option subj_restriction :=
    match n with
    | 1 => omap SRSet (read_message discard t_restrictions set_restrictions [] v)
    | _ => omap (fun _ => SRUniversal) (read_empty v)
    end.
  Definition set_relation (n : N) (v : json) (r : relation) : option relation :=
    match n with
    | 1 => omap (fun s => mkRelation s (rl_desc r) (rl_expr r) (rl_restr r)) (read_text v)
    | 2 => omap (fun s => mkRelation (rl_name r) s (rl_expr r) (rl_restr r)) (read_text v)
    | 3 => omap (fun x => mkRelation (rl_name r) (rl_desc r) (Some x) (rl_restr r)) (read_message discard t_relexpr set_relexpr XUnset v)
    | _ =>
        omap (fun x => mkRelation (rl_name r) (rl_desc r) (rl_expr r) (Some x))
          (read_message discard t_subj_restriction set_subj_restriction SRUnset v)
    end.
  Definition read_relation (j : json) : option relation := read_message discard t_relation set_relation (mkRelation "" "" None None) j.
  Definition set_resource (n : N) (v : json) (r : resource) : option resource :=
    match n with
    | 1 => omap (fun s => mkResource s (rs_desc r) (rs_relations r)) (read_text v)
    | 2 => omap (fun s => mkResource (rs_name r) s (rs_relations r)) (read_text v)
    | _ => omap (mkResource (rs_name r) (rs_desc r)) (read_list read_relation v)
    end.
  Definition read_resource (j : json) : option resource := read_message discard t_resource set_resource (mkResource "" "" []) j.
  Definition set_policy (n : N) (v : json) (p : policy) : option policy :=
    match n with
    | 1 => omap (fun s => mkPolicy s (p_name p) (p_desc p) (p_resources p) (p_attrs p)) (read_text v)
    | 2 => omap (fun s => mkPolicy (p_id p) s (p_desc p) (p_resources p) (p_attrs p)) (read_text v)
    | 3 => omap (fun s => mkPolicy (p_id p) (p_name p) s (p_resources p) (p_attrs p)) (read_text v)
    | 4 => omap (fun l => mkPolicy (p_id p) (p_name p) (p_desc p) l (p_attrs p)) (read_list read_resource v)
    | _ => omap (fun m => mkPolicy (p_id p) (p_name p) (p_desc p) (p_resources p) m) (read_map v)
    end.
  Definition read_policy (j : json) : option policy := read_message discard t_policy set_policy no_policy j.
  Definition set_sent (n : N) (v : json) (a : sent_def) : option sent_def :=
    match n with
    | 1 => omap SentPolicy (read_policy v)
    | _ => omap SentYaml (read_text v)
    end.
  Definition read_sent (j : json) : option sent_def := read_message discard t_definition set_sent SentUnset j.

  (** CreatePolicyRequest and UpdatePolicyRequest *)
  Definition set_create (n : N) (v : json) (a : option sent_def * string * N) : option (option sent_def * string * N) :=
    match n with
    | 1 => omap (fun d => (Some d, snd (fst a), snd a)) (read_sent v)
    | 2 => omap (fun s => (fst (fst a), s, snd a)) (read_bytes v)
    | _ => omap (fun k => (fst a, k)) (read_enum strategy_names v)
    end.

  (** The requests that name a policy: its id, a part read by [read], and a third field read by [last]. *)
  Definition set_about {X Y} (read : json -> option X) (last : json -> option Y) (n : N) (v : json) (a : string * option X * Y)
      : option (string * option X * Y) :=
    match n with
    | 1 => omap (fun s => (s, snd (fst a), snd a)) (read_text v)
    | 2 => omap (fun x => (fst (fst a), Some x, snd a)) (read v)
    | _ => omap (fun y => (fst a, y)) (last v)
    end.
  Definition no_field (j : json) : option unit := None.

  Definition set_dump (n : N) (v : json) (a : string * N) : option (string * N) :=
    match n with
    | 1 => omap (fun s => (s, snd a)) (read_text v)
    | _ => omap (fun k => (fst a, k)) (read_enum dump_names v)
    end.

  Definition read_call (m : method) (j : json) : option call :=
    match m with
    | MCreatePolicy =>
        omap (fun x => KCreatePolicy (fst (fst x)) (snd (fst x))) (read_message discard t_create set_create (None, "", 0) j)
    | MUpdatePolicy =>
        omap (fun x => KUpdatePolicy (fst (fst x)) (snd (fst x)) (snd x)) (read_message discard t_update set_create (None, "", 0) j)
    | MDeletePolicy => omap KDeletePolicy (read_message discard t_id set_one_text "" j)
    | MGetPolicy => omap KGetPolicy (read_message discard t_id set_one_text "" j)
    | MListPolicyIds => omap (fun _ => KListPolicyIds) (read_empty j)
    | MSetRelationship =>
        omap (fun x => KSetRelationship (fst (fst x)) (snd (fst x)) (snd x))
          (read_message discard t_set_rel (set_about read_relationship read_bytes) ("", None, "") j)
    | MDeleteRelationship =>
        omap (fun x => KDeleteRelationship (fst (fst x)) (snd (fst x)))
          (read_message discard t_rel (set_about read_relationship no_field) ("", None, tt) j)
    | MGetRelationship =>
        omap (fun x => KGetRelationship (fst (fst x)) (snd (fst x)))
          (read_message discard t_rel (set_about read_relationship no_field) ("", None, tt) j)
    | MFindRelationshipRecords =>
        omap (fun x => KFindRelationshipRecords (fst (fst x)) (snd (fst x)))
          (read_message discard t_sel (set_about read_selector no_field) ("", None, tt) j)
    | MDeleteRelationships =>
        omap (fun x => KDeleteRelationships (fst (fst x)) (snd (fst x)))
          (read_message discard t_sel (set_about read_selector no_field) ("", None, tt) j)
    | MCheck =>
        omap (fun x => KCheck (fst (fst x)) (snd (fst x)))
          (read_message discard t_check (set_about read_access no_field) ("", None, tt) j)
    | MExplainCheck =>
        omap (fun x => KExplainCheck (fst (fst x)) (snd (fst x)) (format_of (snd x)))
          (read_message discard t_explain (set_about read_access (read_enum format_names)) ("", None, 0) j)
    | MExpand =>
        omap (fun x => KExpand (fst (fst x)) (snd (fst x)) (format_of (snd x)))
          (read_message discard t_expand (set_about read_rnode (read_enum format_names)) ("", None, 0) j)
    | MDumpRelationships => omap (fun x => KDumpRelationships (fst x) (snd x)) (read_message discard t_dump set_dump ("", 0) j)
    end.
End Read.

(** ** Writing *)

Section Write.
  Variable st : style.

  Definition two_texts (t : list fdesc) (a b : string) : json := object st (w_text st (field_of t 1) a ++ w_text st (field_of t 2) b).
  Definition one_text (t : list fdesc) (a : string) : json := object st (w_text st (field_of t 1) a).
  (** One member of a oneof. *)
  Definition member (t : list fdesc) (n : N) (j : json) : json := object st [(field_of t n, j)].
  Definition no_members : json := object st [].

  Definition json_entity (e : entity) : json := two_texts t_entity (e_res e) (e_id e).
  Definition json_entity_set (t : list fdesc) (o : option entity) (rel : string) : json :=
    object st (w_opt st json_entity (field_of t 1) o ++ w_text st (field_of t 2) rel).
  Definition json_subject (u : subject) : json :=
    match u with
    | SEntity e => member t_subject 1 (json_entity e)
    | SEntitySet o rel => member t_subject 2 (json_entity_set t_entity_set o rel)
    | SResourceSet rs => member t_subject 3 (one_text t_resource_set rs)
    | SUnset => no_members
    end.
  Definition json_relationship (r : relationship) : json :=
    object st (w_opt st json_entity (field_of t_relationship 1) (r_object r) ++ w_text st (field_of t_relationship 2) (r_relation r) ++
      w_opt st json_subject (field_of t_relationship 3) (r_subject r)).

  (** A nil member of a oneof is written as an empty message. *)
  Definition json_obj_selector (x : obj_selector) : json :=
    match x with
    | OSObject e => member t_obj_selector 1 (match e with Some e => json_entity e | None => no_members end)
    | OSWild => member t_obj_selector 2 no_members
    | OSResource rs => member t_obj_selector 3 (JStr rs)
    | OSUnset => no_members
    end.
  Definition json_rel_selector (x : rel_selector) : json :=
    match x with
    | LSName rel => member t_rel_selector 1 (JStr rel)
    | LSWild => member t_rel_selector 2 no_members
    | LSUnset => no_members
    end.
  Definition json_subj_selector (x : subj_selector) : json :=
    match x with
    | USSubject u => member t_subj_selector 1 (match u with Some u => json_subject u | None => no_members end)
    | USWild => member t_subj_selector 2 no_members
    | USResource rs => member t_subj_selector 3 (JStr rs)
    | USUnset => no_members
    end.
  Definition json_selector (x : selector) : json :=
    object st (w_opt st json_obj_selector (field_of t_selector 1) (s_obj x) ++
      w_opt st json_rel_selector (field_of t_selector 2) (s_rel x) ++ w_opt st json_subj_selector (field_of t_selector 3) (s_subj x)).

  Definition json_access (a : access_request) : json :=
    object st (w_opt st json_entity (field_of t_access 1) (a_object a) ++ w_text st (field_of t_access 2) (a_relation a) ++
      w_opt st json_entity (field_of t_access 3) (a_subject a)).
  Definition json_rnode (n : rnode) : json :=
    match n with
    | NSet o rel => member t_rnode 1 (json_entity_set t_set_node o rel)
    | NEntity o => member t_rnode 2 (object st (w_opt st json_entity (field_of t_entity_node 1) o))
    | NWild rs => member t_rnode 3 (one_text t_wild_node rs)
    | NUnset => no_members
    end.

  Definition json_rule (r : rule) : json :=
    match r with
    | RThis => member t_rule 1 no_members
    | RCu t => member t_rule 2 (one_text t_cu t)
    | RTtu ts cu => member t_rule 3 (two_texts t_ttu ts cu)
    | RUnset => no_members
    end.
  (** A nil tree is an unset field of the node above it. *)
  Fixpoint json_tree (t : tree) : json :=
    match t with
    | TNil | TUnset => no_members
    | TRule r => member t_node 2 (json_rule r)
    | TOp l o r =>
        member t_node 1 (object st
          (w_opt st (fun j => j) (field_of t_op_node 1) (match l with TNil => None | _ => Some (json_tree l) end) ++
           w_enum st operator_names (field_of t_op_node 2) (op_code o) ++
           w_opt st (fun j => j) (field_of t_op_node 3) (match r with TNil => None | _ => Some (json_tree r) end)))
    end.

  Definition json_relexpr (x : relexpr) : json :=
    match x with
    | XExpr s => member t_relexpr 1 (JStr s)
    | XTree t => member t_relexpr 2 (json_tree t)
    | XUnset => no_members
    end.
  Definition json_restriction (r : restriction) : json :=
    match r with
    | REntity rs => member t_restriction 1 (one_text t_entity_restriction rs)
    | REntitySet rs rel => member t_restriction 2 (two_texts t_set_restriction rs rel)
    | RRUnset => no_members
    end.
  Definition json_subj_restriction (r : subj_restriction) : json :=
    match r with
    | SRSet l => member t_subj_restriction 1 (object st (w_list st json_restriction (field_of t_restrictions 1) l))
    | SRUniversal => member t_subj_restriction 2 no_members
    | SRUnset => no_members
    end.
  Definition json_relation (r : relation) : json :=
    object st (w_text st (field_of t_relation 1) (rl_name r) ++ w_text st (field_of t_relation 2) (rl_desc r) ++
      w_opt st json_relexpr (field_of t_relation 3) (rl_expr r) ++ w_opt st json_subj_restriction (field_of t_relation 4) (rl_restr r)).
  Definition json_resource (r : resource) : json :=
    object st (w_text st (field_of t_resource 1) (rs_name r) ++ w_text st (field_of t_resource 2) (rs_desc r) ++
      w_list st json_relation (field_of t_resource 3) (rs_relations r)).
  Definition json_policy (p : policy) : json :=
    object st (w_text st (field_of t_policy 1) (p_id p) ++ w_text st (field_of t_policy 2) (p_name p) ++
      w_text st (field_of t_policy 3) (p_desc p) ++ w_list st json_resource (field_of t_policy 4) (p_resources p) ++
      w_map st (field_of t_policy 5) (p_attrs p)).
  Definition json_sent (d : sent_def) : json :=
    match d with
    | SentPolicy p => member t_definition 1 (json_policy p)
    | SentYaml s => member t_definition 2 (JStr s)
    | SentUnset => no_members
    end.

  Definition json_about {X} (t : list fdesc) (w : X -> json) (pid : string) (x : option X) (last : list (fdesc * json)) : json :=
    object st (w_text st (field_of t 1) pid ++ w_opt st w (field_of t 2) x ++ last).

  Definition json_call (c : call) : json :=
    match c with
    | KCreatePolicy d app => object st (w_opt st json_sent (field_of t_create 1) d ++ w_bytes st (field_of t_create 2) app)
    | KUpdatePolicy d app k =>
        object st (w_opt st json_sent (field_of t_update 1) d ++ w_bytes st (field_of t_update 2) app ++
          w_enum st strategy_names (field_of t_update 3) k)
    | KDeletePolicy id | KGetPolicy id => one_text t_id id
    | KListPolicyIds => no_members
    | KSetRelationship pid r app => json_about t_set_rel json_relationship pid r (w_bytes st (field_of t_set_rel 3) app)
    | KDeleteRelationship pid r | KGetRelationship pid r => json_about t_rel json_relationship pid r []
    | KFindRelationshipRecords pid x | KDeleteRelationships pid x => json_about t_sel json_selector pid x []
    | KCheck pid a => json_about t_check json_access pid a []
    | KExplainCheck pid a f => json_about t_explain json_access pid a (w_enum st format_names (field_of t_explain 3) (format_code f))
    | KExpand pid n f => json_about t_expand json_rnode pid n (w_enum st format_names (field_of t_expand 3) (format_code f))
    | KDumpRelationships pid f => object st (w_text st (field_of t_dump 1) pid ++ w_enum st dump_names (field_of t_dump 2) f)
    end.
End Write.

(** ** The REST gateway *)

(** policy_service.pb.gw.go:894-914, relation_graph.pb.gw.go:408-416: the names of a service and a method are the path. *)
Definition service_name (m : method) : string :=
  match m with
  | MCheck | MExplainCheck | MExpand | MDumpRelationships => "sourcenetwork.zanzi.api.RelationGraph"
  | _ => "sourcenetwork.zanzi.api.PolicyService"
  end.
Definition method_name (m : method) : string :=
  match m with
  | MCreatePolicy => "CreatePolicy"
  | MUpdatePolicy => "UpdatePolicy"
  | MDeletePolicy => "DeletePolicy"
  | MGetPolicy => "GetPolicy"
  | MListPolicyIds => "ListPolicyIds"
  | MSetRelationship => "SetRelationship"
  | MDeleteRelationship => "DeleteRelationship"
  | MGetRelationship => "GetRelationship"
  | MFindRelationshipRecords => "FindRelationshipRecords"
  | MDeleteRelationships => "DeleteRelationships"
  | MCheck => "Check"
  | MExplainCheck => "ExplainCheck"
  | MExpand => "Expand"
  | MDumpRelationships => "DumpRelationships"
  end.
Definition methods : list method :=
  [MCreatePolicy; MUpdatePolicy; MDeletePolicy; MGetPolicy; MListPolicyIds; MSetRelationship; MDeleteRelationship; MGetRelationship;
   MDeleteRelationships; MFindRelationshipRecords; MCheck; MExplainCheck; MExpand; MDumpRelationships].
Definition path_of (m : method) : string := "/" +++ service_name m +++ "/" +++ method_name m.

(** The patterns have no variables, so a path fits at most one of them; all are registered for POST (policy_service.pb.gw.go:378-630,
    669-891, relation_graph.pb.gw.go:174-277, 315-405). *)
Definition route (path : string) : option method := find (fun m => String.eqb (path_of m) path) methods.

(** request_PolicyService_CreatePolicy_0, local_request_PolicyService_CreatePolicy_0 and the others (policy_service.pb.gw.go:34-372,
    relation_graph.pb.gw.go:34-168): no body (io.EOF) is an empty message, and an error of the decoder is the client's (InvalidArgument).
    The decoder is grpc-gateway's default for JSON, which ignores unknown fields. *)
Inductive posted := NotFound | BadRequest | Passed (c : call).
Definition post (path : string) (body : option json) : posted :=
  match route path with
  | None => NotFound
  | Some m =>
      match body with
      | None => Passed (empty_call m)
      | Some j => match read_call true m j with Some c => Passed c | None => BadRequest end
      end
  end.

(** The local variant, which calls the server in the same process (RegisterPolicyServiceHandlerServer).  How the reply is written
    as JSON is in JsonReply. *)
Inductive http_reply := HNotFound | HBadRequest | HAnswer (o : outcome).
Definition handle (E : env) (L : libs) (now : N) (n : nat) (path : string) (body : option json) (s : store) : http_reply * store :=
  match post path body with
  | NotFound => (HNotFound, s)
  | BadRequest => (HBadRequest, s)
  | Passed c => let (o, s') := local E L now n c s in (HAnswer o, s')
  end.

(** ** The input of zanzi-cli *)

(** policy_service.cobra.pb.go:56-64 and its likes: the input is decoded into a new message, then the flags are merged into it.
    The format of the input is taken to be JSON; without input the decoder does nothing. *)
Definition command_json (discard : bool) (m : method) (input : option json) (l : list cflag) : option call :=
  match input with
  | None => command m (empty_call m) l
  | Some j => match read_call discard m j with Some i => command m i l | None => None end
  end.
