(** Specification of requests as JSON. *)
From Coq Require Import ZArith Permutation.
From Verif Require Import Base Domain Lexer Store Search Explain Yaml Service Dump Api Wire Rpc Cli Json.
Local Open Scope N_scope.

(** ** Writers *)

(** Each field has its JSON name or its name in the .proto file. *)
Definition plain (st : style) : Prop := forall f, st_name st f = f_json f \/ st_name st f = f_proto f.

(** ** Documents that say the same *)

(** The members of objects in another order, at any level. *)
Inductive reordered : json -> json -> Prop :=
| ro_same j : reordered j j
| ro_array l l' : Forall2 reordered l l' -> reordered (JArr l) (JArr l')
| ro_object l m l' : Forall2 (fun x y => fst x = fst y /\ reordered (snd x) (snd y)) l m -> Permutation m l' ->
    reordered (JObj l) (JObj l').

(** The members of objects that are null left out, at every level. *)
Definition is_null (j : json) : bool := match j with JNull => true | _ => false end.
Fixpoint without_nulls (j : json) : json :=
  match j with
  | JArr l => JArr (map without_nulls l)
  | JObj l =>
      JObj ((fix loop l := match l with
             | [] => []
             | (k, v) :: l' => if is_null v then loop l' else (k, without_nulls v) :: loop l'
             end) l)
  | j => j
  end.

(** No object has two members with the same name, at any level. *)
Fixpoint no_repeats (j : json) : Prop :=
  match j with
  | JArr l => (fix all l := match l with [] => True | x :: l' => no_repeats x /\ all l' end) l
  | JObj l => NoDup (map fst l) /\ (fix all l := match l with [] => True | x :: l' => no_repeats (snd x) /\ all l' end) l
  | _ => True
  end.

(** ** Names *)

(** The JSON name of a field is made from its name in the .proto file: an underscore makes the next letter a capital. *)
Definition capital (c : ascii) : ascii :=
  let n := N_of_ascii c in if (97 <=? n) && (n <=? 122) then ascii_of_N (n - 32) else c.
Fixpoint camel (s : string) : string :=
  match s with
  | EmptyString => EmptyString
  | String c s' =>
      if Ascii.eqb c "_"
      then match s' with EmptyString => EmptyString | String d s'' => String (capital d) (camel s'') end
      else String c (camel s')
  end.

(** The fields of a request, by their names in policy_service.proto and relation_graph.proto. *)
Definition parts (m : method) : list string :=
  match m with
  | MCreatePolicy => ["policy_definition"; "app_data"]
  | MUpdatePolicy => ["policy_definition"; "app_data"; "strategy"]
  | MDeletePolicy | MGetPolicy => ["id"]
  | MListPolicyIds => []
  | MSetRelationship => ["policy_id"; "relationship"; "app_data"]
  | MDeleteRelationship | MGetRelationship => ["policy_id"; "relationship"]
  | MFindRelationshipRecords | MDeleteRelationships => ["policy_id"; "selector"]
  | MCheck => ["policy_id"; "access_request"]
  | MExplainCheck => ["policy_id"; "access_request"; "format"]
  | MExpand => ["policy_id"; "root"; "format"]
  | MDumpRelationships => ["policy_id"; "format"]
  end.
Definition known (m : method) (k : string) : Prop := exists p, In p (parts m) /\ (k = p \/ k = camel p).

(** A text that is given as the JSON name or as the name of the .proto file. *)
Definition names (p k : string) : Prop := k = p \/ k = camel p.

(** ** Bytes *)

(** The digits for URLs, and the encoding without padding. *)
Fixpoint url_digits (s : string) : string :=
  match s with
  | EmptyString => ""
  | String c s' => String (if Ascii.eqb c "+" then "-"%char else if Ascii.eqb c "/" then "_"%char else c) (url_digits s')
  end.
Fixpoint unpadded (s : string) : string :=
  match s with
  | EmptyString => ""
  | String c s' => if Ascii.eqb c "=" then unpadded s' else String c (unpadded s')
  end.

(** Base64 by arithmetic (RFC 4648, section 4). *)
Definition letters : string := "ABCDEFGHIJKLMNOPQRSTUVWXYZabcdefghijklmnopqrstuvwxyz0123456789+/".
Definition letter (n : N) : ascii := match get (N.to_nat n) letters with Some c => c | None => "="%char end.
Fixpoint base64_text (s : string) : string :=
  match s with
  | EmptyString => ""
  | String a EmptyString => let a := N_of_ascii a in String (letter (a / 4)) (String (letter (a mod 4 * 16)) "==")
  | String a (String b EmptyString) =>
      let a := N_of_ascii a in let b := N_of_ascii b in
      String (letter (a / 4)) (String (letter (a mod 4 * 16 + b / 16)) (String (letter (b mod 16 * 4)) "="))
  | String a (String b (String c s')) =>
      let a := N_of_ascii a in let b := N_of_ascii b in let c := N_of_ascii c in
      String (letter (a / 4)) (String (letter (a mod 4 * 16 + b / 16)) (String (letter (b mod 16 * 4 + c / 64)) (String (letter (c mod 64)) (base64_text s'))))
  end.

(** ** The document of a request, written out from the .proto files *)

Definition maybe {A} (doc : A -> json) (o : option A) : json := match o with Some x => doc x | None => JNull end.
Definition doc_number (n : N) : json := JNum (if n <? 2147483648 then Z.of_N n else Z.of_N n - 4294967296).

(** relationship.proto *)
Definition doc_entity (e : entity) : json := JObj [("resource", JStr (e_res e)); ("id", JStr (e_id e))].
Definition doc_subject (u : subject) : json :=
  match u with
  | SEntity e => JObj [("entity", doc_entity e)]
  | SEntitySet o rel => JObj [("entitySet", JObj [("entity", maybe doc_entity o); ("relation", JStr rel)])]
  | SResourceSet rs => JObj [("resourceSet", JObj [("resourceName", JStr rs)])]
  | SUnset => JObj []
  end.
Definition doc_relationship (r : relationship) : json :=
  JObj [("object", maybe doc_entity (r_object r)); ("relation", JStr (r_relation r)); ("subject", maybe doc_subject (r_subject r))].

(** selector.proto *)
Definition doc_selector (x : selector) : json :=
  JObj [("objectSelector", maybe (fun x => match x with
           | OSObject e => JObj [("objectSpec", match e with Some e => doc_entity e | None => JObj [] end)]
           | OSResource rs => JObj [("resourceSpec", JStr rs)]
           | OSWild => JObj [("wildcard", JObj [])]
           | OSUnset => JObj []
           end) (s_obj x));
        ("relationSelector", maybe (fun x => match x with
           | LSName rel => JObj [("relationName", JStr rel)]
           | LSWild => JObj [("wildcard", JObj [])]
           | LSUnset => JObj []
           end) (s_rel x));
        ("subjectSelector", maybe (fun x => match x with
           | USSubject u => JObj [("subjectSpec", match u with Some u => doc_subject u | None => JObj [] end)]
           | USResource rs => JObj [("resourceSpec", JStr rs)]
           | USWild => JObj [("wildcard", JObj [])]
           | USUnset => JObj []
           end) (s_subj x))].

(** relation_graph.proto of the domain *)
Definition doc_access (a : access_request) : json :=
  JObj [("object", maybe doc_entity (a_object a)); ("relation", JStr (a_relation a)); ("subject", maybe doc_entity (a_subject a))].
Definition doc_rnode (n : rnode) : json :=
  match n with
  | NSet o rel => JObj [("entitySet", JObj [("object", maybe doc_entity o); ("relation", JStr rel)])]
  | NEntity o => JObj [("entity", JObj [("object", maybe doc_entity o)])]
  | NWild rs => JObj [("wildcard", JObj [("resource", JStr rs)])]
  | NUnset => JObj []
  end.

(** relation_expression_tree.proto *)
Definition doc_operator (o : operator) : json :=
  match o with OpUnion => JStr "UNION" | OpInter => JStr "INTERSECTION" | OpDiff => JStr "DIFFERENCE" | OpOther n => doc_number n end.
Definition doc_rule (r : rule) : json :=
  match r with
  | RThis => JObj [("this", JObj [])]
  | RCu t => JObj [("cu", JObj [("targetRelation", JStr t)])]
  | RTtu ts cu => JObj [("ttu", JObj [("tuplesetRelation", JStr ts); ("computedUsersetRelation", JStr cu)])]
  | RUnset => JObj []
  end.
Fixpoint doc_tree (t : tree) : json :=
  let below t := match t with TNil => JNull | _ => doc_tree t end in
  match t with
  | TNil | TUnset => JObj []
  | TRule r => JObj [("rule", doc_rule r)]
  | TOp l o r => JObj [("opNode", JObj [("left", below l); ("operator", doc_operator o); ("right", below r)])]
  end.

(** policy.proto *)
Definition doc_relexpr (x : relexpr) : json :=
  match x with XExpr s => JObj [("expr", JStr s)] | XTree t => JObj [("tree", doc_tree t)] | XUnset => JObj [] end.
Definition doc_restriction (r : restriction) : json :=
  match r with
  | REntity rs => JObj [("entity", JObj [("resourceName", JStr rs)])]
  | REntitySet rs rel => JObj [("entitySet", JObj [("resourceName", JStr rs); ("relationName", JStr rel)])]
  | RRUnset => JObj []
  end.
Definition doc_subj_restriction (r : subj_restriction) : json :=
  match r with
  | SRSet l => JObj [("restrictionSet", JObj [("restrictions", JArr (map doc_restriction l))])]
  | SRUniversal => JObj [("universalSet", JObj [])]
  | SRUnset => JObj []
  end.
Definition doc_relation (r : relation) : json :=
  JObj [("name", JStr (rl_name r)); ("description", JStr (rl_desc r)); ("relationExpression", maybe doc_relexpr (rl_expr r));
        ("subjectRestriction", maybe doc_subj_restriction (rl_restr r))].
Definition doc_resource (r : resource) : json :=
  JObj [("name", JStr (rs_name r)); ("description", JStr (rs_desc r)); ("relations", JArr (map doc_relation (rs_relations r)))].
Definition doc_policy (p : policy) : json :=
  JObj [("id", JStr (p_id p)); ("name", JStr (p_name p)); ("description", JStr (p_desc p)); ("resources", JArr (map doc_resource (p_resources p)));
        ("attributes", JObj (map (fun x => (fst x, JStr (snd x))) (p_attrs p)))].

(** policy_service.proto, relation_graph.proto of the API *)
Definition doc_definition (d : sent_def) : json :=
  match d with SentPolicy p => JObj [("policy", doc_policy p)] | SentYaml s => JObj [("policyYaml", JStr s)] | SentUnset => JObj [] end.
Definition doc_strategy (k : N) : json := if k =? 0 then JStr "IGNORE_ORPHANS" else doc_number k.
Definition doc_format (f : format) : json :=
  match f with FSpew => JStr "SPEW" | FJson => JStr "JSON" | FDot => JStr "DOT" | FOther n => doc_number n end.
Definition doc_dump_format (k : N) : json := if k =? 0 then JStr "DOT" else doc_number k.

Definition doc_call (c : call) : json :=
  match c with
  | KCreatePolicy d app => JObj [("policyDefinition", maybe doc_definition d); ("appData", JStr (base64 app))]
  | KUpdatePolicy d app k => JObj [("policyDefinition", maybe doc_definition d); ("appData", JStr (base64 app)); ("strategy", doc_strategy k)]
  | KDeletePolicy id | KGetPolicy id => JObj [("id", JStr id)]
  | KListPolicyIds => JObj []
  | KSetRelationship pid r app => JObj [("policyId", JStr pid); ("relationship", maybe doc_relationship r); ("appData", JStr (base64 app))]
  | KDeleteRelationship pid r | KGetRelationship pid r => JObj [("policyId", JStr pid); ("relationship", maybe doc_relationship r)]
  | KFindRelationshipRecords pid x | KDeleteRelationships pid x => JObj [("policyId", JStr pid); ("selector", maybe doc_selector x)]
  | KCheck pid a => JObj [("policyId", JStr pid); ("accessRequest", maybe doc_access a)]
  | KExplainCheck pid a f => JObj [("policyId", JStr pid); ("accessRequest", maybe doc_access a); ("format", doc_format f)]
  | KExpand pid n f => JObj [("policyId", JStr pid); ("root", maybe doc_rnode n); ("format", doc_format f)]
  | KDumpRelationships pid k => JObj [("policyId", JStr pid); ("format", doc_dump_format k)]
  end.
