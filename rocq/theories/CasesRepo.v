(** CasesRepo: the tests of /repo, run on the model.

    Every test function of the repository is here, with its inputs and what it requires; only the two tests of the last
    section require what neither the code nor the model does.  The service tests start from an empty store and serve
    their requests one after the other; they pass over the times. *)
From Verif Require Import Base Domain Lexer Parser Validate Store Search Explain Yaml YamlDoc Service Dump Api Client
  MapGraph Fixtures.

(** ** internal/relation_expression_parser/lexer_test.go *)

(** TestTokens *)
Example test_tokens :
  lex E0 "read + write - admin & (res->root)" =
  Ok [KIdent "read"; KUnion; KIdent "write"; KDiff; KIdent "admin"; KInter; KOpen; KIdent "res"; KArrow; KIdent "root";
      KClose; KEof].
Proof. vm_compute. reflexivity. Qed.

(** ** internal/relation_expression_parser/parser_test.go *)

(** pkg/domain/relation_expression_tree.go: ThisNode, CUNode, TTUNode, UnionNode, IntersectionNode, DifferenceNode *)
Definition this_node := TRule RThis.
Definition cu_node r := TRule (RCu r).
Definition ttu_node t c := TRule (RTtu t c).
Definition union_node l r := TOp l OpUnion r.
Definition inter_node l r := TOp l OpInter r.
Definition diff_node l r := TOp l OpDiff r.

(** TestExpressionParserSimple *)
Example test_parser_simple : parse E0 "a + b" = Ok (union_node (cu_node "a") (cu_node "b")).
Proof. vm_compute. reflexivity. Qed.

(** TestExpressionParserNested *)
Example test_parser_nested :
  parse E0 "a + (c - d) + b" =
  Ok (union_node (union_node (cu_node "a") (diff_node (cu_node "c") (cu_node "d"))) (cu_node "b")).
Proof. vm_compute. reflexivity. Qed.

(** TestExpressionParserDoublyNested *)
Example test_parser_doubly_nested :
  parse E0 "a + (_this - (f->g & d)) + b" =
  Ok (union_node (union_node (cu_node "a") (diff_node this_node (inter_node (ttu_node "f" "g") (cu_node "d")))) (cu_node "b")).
Proof. vm_compute. reflexivity. Qed.

(** TestRuleParserTTU, TestRuleParserCU, TestRuleParserThis *)
Example test_rule_parser :
  rule_p [KIdent "from"; KArrow; KIdent "to"; KIdent "tail"] = Ok (ttu_node "from" "to", [KIdent "tail"]) /\
  rule_p [KIdent "relation"; KIdent "to"] = Ok (cu_node "relation", [KIdent "to"]) /\
  rule_p [KThis; KIdent "tail"] = Ok (this_node, [KIdent "tail"]).
Proof. vm_compute. repeat split. Qed.

(** ** internal/relation_expression_parser/primitives_test.go *)

(** TestUnitParserConsumesOneToken, TestUnitParserFailsWithEmptyTokenSlice *)
Example test_unit :
  unit_p [KIdent "first"; KIdent "second"] = Ok (KIdent "first", [KIdent "second"]) /\
  exists e, unit_p [] = Err e.
Proof. vm_compute. split; [ reflexivity | eauto ]. Qed.

(** TestManyGreedilyConsumesTokens, TestManyReturnsNothingOnEmptyTokenStream *)
Example test_many :
  many_p 4 unit_p [KIdent "first"; KIdent "second"; KThis] = Ok ([KIdent "first"; KIdent "second"; KThis], []) /\
  many_p 4 unit_p [] = Ok ([], []).
Proof. vm_compute. split; reflexivity. Qed.

(** TestParseIfAnyTypeReturnsErrorOnNoMatch, TestParseIfAnyTypeExitsOnFirstMatch *)
Example test_parse_if_any_type :
  (exists e, parse_if (fun t => is_open t || is_close t || is_arrow t) [KIdent "first"] = Err e) /\
  ident_p [KIdent "first"] = Ok ("first", []).
Proof. vm_compute. split; [ eauto | reflexivity ]. Qed.

(** ** pkg/domain/relation_expression_tree_test.go *)

(** TestThisToRelationExpression and the five after it *)
Example test_relation_expression :
  map print_tree
    [ this_node; cu_node "relation"; ttu_node "parent" "owner"; union_node (cu_node "left") (cu_node "right");
      inter_node (cu_node "left") (cu_node "right"); diff_node (cu_node "left") (cu_node "right") ]
  = map Ok ["_this"; "relation"; "parent->owner"; "(left + right)"; "(left & right)"; "(left - right)"].
Proof. vm_compute. reflexivity. Qed.

(** ** pkg/types/map_graph_test.go *)

(** TestAddingANodeReturnsIt *)
Example test_map_graph_node : mg_get_node "a" (mg_set_node "a" "node a" mg_new) = Some "node a".
Proof. vm_compute. reflexivity. Qed.

Definition edge (a b : string) (g : option (map_graph string)) : option (map_graph string) :=
  match g with Some g => mg_set_edge a b g | None => None end.

Definition diamond : option (map_graph string) :=
  edge "c" "d" (edge "b" "d" (edge "a" "c" (edge "a" "b"
    (Some (mg_set_node "d" "d" (mg_set_node "c" "c" (mg_set_node "b" "b" (mg_set_node "a" "a" mg_new)))))))).

(** TestGetAncestorsReturnAncestorNodes, TestGetSucessorsReturnDirectChild *)
Example test_map_graph_edges :
  option_map (mg_ancestors "b") diamond = Some [("a", Some "a")] /\
  option_map (mg_successors "a") diamond = Some [("b", Some "b"); ("c", Some "c")].
Proof. vm_compute. split; reflexivity. Qed.

(** ** pkg/policy_definition/unmarshaler_test.go *)

Definition text (s : string) : ynode := YScalar false s.
Definition null : ynode := YScalar true "".

(** TestUnmarshalPolicyDefinitionFailsIfDefinitionHasExtraFields; without the extra field the document is read. *)
Example test_unmarshal_extra_field :
  let rest := [ (text "name", text "Pastebin Policy");
                (text "resources", YMap [(text "snippet", YMap [(text "relations", YMap [(text "author", null)])])]) ] in
  decode_stream [YMap ((text "extra_field", text "askfjaskdfj") :: rest)] = None /\
  decode_stream [YMap rest] =
    Some (mkYDef "" "Pastebin Policy" "" [("snippet", Some (mkYRes "" [("author", None)]))] []).
Proof. vm_compute. split; reflexivity. Qed.

(** ** internal/store/policy_repository_test_suite.go, run by kv_store_test.go *)

Definition this_universal (name desc : string) : relation :=
  mkRelation name desc (Some (XExpr "_this")) (Some SRUniversal).

(** policyDef, the same value as testPolicy of policy_service_test.go and setupPolicy of relation_graph/fixture.go *)
Definition test_policy : policy :=
  mkPolicy "10" "test" "a test policy"
    [ mkResource "file" "file resource"
        [ this_universal "owner" "file owner";
          mkRelation "read" "allowed to read file" (Some (XExpr "owner + directory->owner")) (Some (SRSet []));
          this_universal "directory" "references the directory which contains the file" ];
      mkResource "directory" "directories" [this_universal "owner" "directory owner"];
      mkResource "user" "" [] ]
    [("foo", "bar")].

Definition policy_rec : policy_record := mkPRec test_policy "app_data" 1699574400%N.

(** TestPolicySetGet, TestDeletingASetPolicy, TestDeletingAnUnknownPolicyDoesNotErrorOut *)
Example test_policy_repository :
  let '(found, s) := run (repo_set_policy policy_rec) empty_store in
  found = false /\
  fst (run (repo_get_policy "10") s) = Some policy_rec /\
  fst (run (repo_delete_policy "10") s) = true /\
  fst (run (repo_delete_policy "") empty_store) = false.
Proof. vm_compute. repeat split. Qed.

(** TestListingPolicyIdsReturnAllIds *)
Example test_listing_policy_ids :
  let bare id := mkPRec (mkPolicy id "" "" [] []) "" 0%N in
  let s := snd (run (repo_set_policy (bare "2")) (snd (run (repo_set_policy (bare "1")) empty_store))) in
  fst (run repo_list_policy_ids s) = ["1"; "2"].
Proof. vm_compute. reflexivity. Qed.

(** ** test/integration/policy_service_test.go *)

Definition restricted_policy : policy :=
  mkPolicy "11" "test" "policy with restrictions"
    [ mkResource "a" ""
        [ mkRelation "empty_restriction_set" "" (Some (XExpr "_this")) (Some (SRSet []));
          this_universal "universal" "";
          mkRelation "entity or entity set" "userset restriction" (Some (XExpr "_this"))
            (Some (SRSet [REntity "group"; REntitySet "group" "member"])) ];
      mkResource "group" "" [this_universal "member" ""] ]
    [].

(** The answers to requests that are served one after the other. *)
Fixpoint answers (qs : list request) (s : store) : list (res response) :=
  match qs with
  | [] => []
  | q :: qs' => answer E0 q s :: answers qs' (after E0 q s)
  end.

Definition create_of (p : policy) (app : string) : request := QCreatePolicy 1%N (Some (DPolicy p)) app.

(** setupWithPolicy *)
Definition with_policies (ps : list policy) (qs : list request) : list (res response) :=
  skipn (length ps) (answers (map (fun p => create_of p "app data") ps ++ qs) empty_store).

(** TestCreatePolicy, from Getting Created Policy on *)
Example test_create_policy :
  with_policies [test_policy] [QGetPolicy "10"] = [Ok (APolicy (Some (mkPRec test_policy "app data" 1%N)))].
Proof. vm_compute. reflexivity. Qed.

(** TestCreatePolicyWithIdClashRaisesError *)
Example test_create_policy_id_clash :
  with_policies [test_policy] [create_of test_policy "more data"] = [Err EPolicyExists].
Proof. vm_compute. reflexivity. Qed.

(** TestUpdatePolicyUpdatesPolicy *)
Example test_update_policy :
  let p := mkPolicy "10" "some name" (p_desc test_policy) (p_resources test_policy) (p_attrs test_policy) in
  with_policies [test_policy] [QUpdatePolicy (Some (DPolicy p)) "more data"; QGetPolicy "10"] =
  [Ok AUpdated; Ok (APolicy (Some (mkPRec p "more data" 1%N)))].
Proof. vm_compute. reflexivity. Qed.

(** TestGetNonExistingPolicyReturnsNil *)
Example test_get_non_existing_policy : with_policies [] [QGetPolicy "10"] = [Ok (APolicy None)].
Proof. vm_compute. reflexivity. Qed.

(** TestDeletingPolicyRemovesFromStore, TestDeletingNonExistingPolicyReturnsNotFound *)
Example test_deleting_policy :
  with_policies [test_policy] [QDeletePolicy "10"] = [Ok (ADeletedPolicy true 0)] /\
  with_policies [] [QDeletePolicy "10"] = [Ok (ADeletedPolicy false 0)].
Proof. vm_compute. split; reflexivity. Qed.

Definition set_of (pid : string) (r : relationship) (app : string) : request := QSetRelationship 2%N pid (Some r) app.

(** TestSetRelationshipAllowedBySubjectRestrictionRulesSavesRelationship *)
Example test_set_relationship :
  let r := build_relationship "file" "readme.txt" "owner" "user" "bob" in
  with_policies [test_policy] [set_of "10" r "app data"; QGetRelationship "10" (Some r)] =
  [Ok (ASet false); Ok (ARecord (Some (mkRRec "10" r 2%N "app data")))].
Proof. vm_compute. reflexivity. Qed.

(** TestSetRelationshipNotAllowedByRestrictionGraphErrors, ...WithUnknownObjectResourceErrors,
    ...WithUnknownSubjectResourceErrors, ...WithUnknownRelationErrors *)
Example test_set_relationship_refused :
  with_policies [restricted_policy]
    [ set_of "11" (build_relationship "a" "blah" "empty_restriction_set" "group" "testers") "";
      set_of "11" (build_relationship "unknown" "blah" "empty_restriction_set" "group" "testers") "";
      set_of "11" (build_relationship "a" "blah" "empty_restriction_set" "foo" "testers") "";
      set_of "11" (build_relationship "a" "blah" "no" "group" "testers") "" ]
  = [Err ESubjectNotAllowed; Err EResourceNotFound; Err EResourceNotFound; Err ERelationNotFound].
Proof. vm_compute. reflexivity. Qed.

(** TestListPolicyIdsReturnsAllPolicies *)
Example test_list_policy_ids :
  with_policies [test_policy; restricted_policy] [QListPolicyIds] = [Ok (APolicyIds ["10"; "11"])].
Proof. vm_compute. reflexivity. Qed.

(** TestFindRelationshipRecords_ObjectSelectorReferencingUnknownRelationReturnsErr,
    ..._RelationSpecToNonExistingRelationReturnsError, ..._SubjectSpecReferencingNonExistingResourceReturnsError *)
Example test_find_relationship_records :
  let find xs := QFindRelationshipRecords "10" (Some (built xs)) in
  with_policies [test_policy]
    [ find [BWithObject (ent "unknown-resource" "abc"); BAnyRelation; BAnySubject];
      find [BWithObject (ent "file" "abc"); BWithRelation "a-relation"; BAnySubject];
      find [BWithObject (ent "file" "abc"); BWithRelation "owner"; BWithSubject (SEntity (ent "missing-resource" "abc"))] ]
  = [Err EResourceNotFound; Err ERelationNotFound; Err EResourceNotFound].
Proof. vm_compute. reflexivity. Qed.

(** ** test/integration/relation_graph/relation_graph_test.go *)

(** TestCheckForSimpleObject; and somebody who is not an owner *)
Example test_check_simple :
  let check who := QCheck 20 "10" (Some (mkAccess (Some (ent "file" "readme")) "read" (Some (ent "user" who)))) in
  with_policies [test_policy]
    [set_of "10" (build_relationship "file" "readme" "owner" "user" "bob") ""; check "bob"; check "eve"] =
  [Ok (ASet false); Ok (ADecision true); Ok (ADecision false)].
Proof. vm_compute. reflexivity. Qed.

(** ** example/embedded/main.go *)

Definition declares (name expr : string) (types : list string) : ynode * ynode :=
  (text name, YMap [(text "expr", text expr); (text "types", YSeq (map text types))]).

(** policyYaml; the number 10 is a scalar like the others, and user: has a null value. *)
Definition embedded_yaml : ynode :=
  YMap
    [ (text "id", text "10"); (text "name", text "test"); (text "doc", text "test policy");
      (text "resources", YMap
        [ (text "file", YMap
            [ (text "doc", text "file resource");
              (text "relations", YMap
                [ declares "owner" "_this" ["*"]; declares "parent" "_this" ["directory"];
                  declares "read" "owner + parent->read" [] ]) ]);
          (text "directory", YMap
            [ (text "relations", YMap
                [ declares "owner" "_this" ["user"; "group:member"; "group:owner"];
                  declares "reader" "_this" ["user"; "group:member"];
                  (text "read", YMap [(text "expr", text "owner + reader")]) ]) ]);
          (text "group", YMap
            [ (text "relations", YMap [declares "member" "_this + owner" ["user"]; declares "owner" "_this" ["user"]]) ]);
          (text "user", null) ]);
      (text "attributes", YMap [(text "foo", text "bar")]) ].

Definition embedded_setup : list request :=
  QCreatePolicy 1%N (policy_yaml [embedded_yaml]) "" ::
  map (fun r => set_of "10" r "")
    [ build_relationship "file" "readme" "owner" "user" "charlie";
      build_relationship "file" "readme" "parent" "directory" "proj";
      build_entity_set "directory" "proj" "owner" "group" "eng" "owner";
      build_entity_set "directory" "proj" "reader" "group" "eng" "member";
      build_relationship "group" "eng" "owner" "user" "alice";
      build_relationship "group" "eng" "member" "user" "bob" ].

(** All requests of the example succeed; the program prints a graph, and the check that is commented out authorises bob. *)
Example embedded_runs :
  let s := after_all E0 embedded_setup empty_store in
  let check who := answer E0 (QCheck 40 "10" (Some (mkAccess (Some (ent "file" "readme")) "read" (Some (ent "user" who))))) s in
  Forall (fun a => exists x, a = Ok x) (answers embedded_setup empty_store) /\
  (exists g, answer E0 (QDumpRelationships 40 "10" true) s = Ok (ADumped g)) /\
  map check ["alice"; "bob"; "charlie"; "eve"] =
  [Ok (ADecision true); Ok (ADecision true); Ok (ADecision true); Ok (ADecision false)].
Proof.
  vm_compute. split; [ repeat (constructor; [ eauto | ]); constructor | split; [ eauto | reflexivity ] ].
Qed.

(** ** Tests that require something else

    TestCreatePolicy first requires an empty response; service.go:60-62 returns the record, and so does the model.
    TestSetRelationshipWithEmptyObjectErrorsOut requires ErrInvalidRelationship for an object with an empty id; spec.go:176
    asks relationship.Validate, whose generated code has no rules for the ids and names (pkg/domain/relationship.pb.validate.go),
    and the relationship is stored (C81). *)
Example test_create_policy_response :
  with_policies [] [create_of test_policy "app data"] = [Ok (ACreated (mkPRec test_policy "app data" 1%N))].
Proof. vm_compute. reflexivity. Qed.

Example test_set_relationship_empty_object :
  with_policies [restricted_policy] [set_of "11" (build_relationship "a" "" "universal" "group" "testers") ""] =
  [Ok (ASet false)].
Proof. vm_compute. reflexivity. Qed.
