{
 "claims": [
  {
   "property": "C01",
   "status": "proved",
   "theorems": [
    "C01_print_parse_round_trip",
    "C01_parsed_trees_round_trip",
    "C01_exactly"
   ],
   "note": "Every tree over usable names, and every tree the parser returns."
  },
  {
   "property": "C02",
   "status": "proved",
   "theorems": [
    "C02_parser_accepts_exactly_the_grammar",
    "C02_parser_returns_tree_or_error",
    "C02_grammar_is_unambiguous",
    "C02_character_classes",
    "C02_character_classes_latin1",
    "C02_character_classes_above_latin1"
   ],
   "note": ""
  },
  {
   "property": "C03",
   "status": "proved",
   "theorems": [
    "C03_operators_associate_left"
   ],
   "note": ""
  },
  {
   "property": "C04",
   "status": "proved",
   "theorems": [
    "C04_white_space_between",
    "C04_white_space_left",
    "C04_white_space_right"
   ],
   "note": ""
  },
  {
   "property": "C05",
   "status": "proved",
   "theorems": [
    "C05_tokens_in_order",
    "C05_never_stuck",
    "C05_every_schedule_ends"
   ],
   "note": "The channel of capacity k between lexer and parser; all schedules."
  },
  {
   "property": "C06",
   "status": "partial",
   "theorems": [
    "C06_identifiers_refuted",
    "C06_identifiers_partial"
   ],
   "note": "REFUTED: identifiers starting with _this do not parse as themselves (witness _this_one). Proved for all other identifiers."
  },
  {
   "property": "C07",
   "status": "proved",
   "theorems": [
    "C07_create_accepts_exactly_well_formed",
    "C07_update_accepts_exactly_well_formed"
   ],
   "note": "Any store, any definition (policy message or YAML)."
  },
  {
   "property": "C08",
   "status": "partial",
   "theorems": [
    "C08_decides_partial",
    "C08_decides_restricted",
    "C08_decides_refuted"
   ],
   "note": "REFUTED: a tuple-to-userset that meets an admitted subject without the computed relation makes Check fail with RelationNotFound. Proved for standard expression trees when every subject a tuple-to-userset meets declares the computed relation, and under a policy-level condition that ensures it."
  },
  {
   "property": "C09",
   "status": "partial",
   "theorems": [
    "C09_policy_requests_never_crash_refuted",
    "C09_complete_create_never_crashes_partial",
    "C09_complete_update_never_crashes_partial",
    "C09_other_policy_requests_never_crash"
   ],
   "note": "REFUTED: a relation without expression makes CreatePolicy panic. Proved: complete definitions always get a response or an error."
  },
  {
   "property": "C10",
   "status": "proved",
   "theorems": [
    "C10_accepted_exactly_when_admissible"
   ],
   "note": ""
  },
  {
   "property": "C11",
   "status": "proved",
   "theorems": [
    "C11_failed_request_changes_nothing"
   ],
   "note": ""
  },
  {
   "property": "C12",
   "status": "partial",
   "theorems": [
    "C12_set_relationship_never_crashes_refuted",
    "C12_crashes_only_without_restriction_partial"
   ],
   "note": "REFUTED: CreatePolicy accepts a relation without subject restriction and SetRelationship then panics. Proved: that is the only way it does not return."
  },
  {
   "property": "C13",
   "status": "proved",
   "theorems": [
    "C13_policy_store_is_a_map"
   ],
   "note": ""
  },
  {
   "property": "C14",
   "status": "proved",
   "theorems": [
    "C14_list_is_exact"
   ],
   "note": ""
  },
  {
   "property": "C15",
   "status": "partial",
   "theorems": [
    "C15_record_shared_by_all_policies",
    "C15_relationships_are_a_map_refuted",
    "C15_keys_collide_refuted",
    "C15_relationships_are_a_map_partial"
   ],
   "note": "REFUTED: relationship data is not stored per policy (get in one policy returns what another set) and different relationships can share a key. Proved: over every history without such key sharing all relationship requests answer as a map."
  },
  {
   "property": "C16",
   "status": "partial",
   "theorems": [
    "C16_policies_are_isolated_refuted",
    "C16_policies_are_isolated_partial"
   ],
   "note": "REFUTED for records: deleting a relationship in one policy removes the record of the other. Proved: policies, relationships and every graph answer of other policies are unchanged, and records whose key is not touched."
  },
  {
   "property": "C17",
   "status": "partial",
   "theorems": [
    "C17_set_local_partial",
    "C17_set_local_delimited",
    "C17_set_local_refuted"
   ],
   "note": "REFUTED: keys concatenate resource, id and relation, so a grant on file:s1 is a grant on files:1. Proved: setting a relationship changes no check that does not consult its key; by name when object ids are enclosed in a character that names lack."
  },
  {
   "property": "C18",
   "status": "proved",
   "theorems": [
    "C18_delete_policy_is_complete"
   ],
   "note": "Proved for every reachable store (concurrency and crashes included); that a policy that does not exist has no relationships holds when requests are served one after the other (see C41, C43)."
  },
  {
   "property": "C19",
   "status": "proved",
   "theorems": [
    "C19_find_is_exact",
    "C19_delete_is_exact"
   ],
   "note": ""
  },
  {
   "property": "C20",
   "status": "partial",
   "theorems": [
    "C20_selectors_accepted_refuted",
    "C20_selectors_accepted_partial"
   ],
   "note": "REFUTED: entity-set subjects are rejected because the relation name is looked up as a resource. Proved for all other declared selectors, except a relation name under any object (C21)."
  },
  {
   "property": "C21",
   "status": "partial",
   "theorems": [
    "C21_find_crashes_exactly_refuted",
    "C21_find_never_crashes_partial"
   ],
   "note": "REFUTED: a relation name under any object panics; the theorem gives the exact condition. Proved for all other complete selectors."
  },
  {
   "property": "C22",
   "status": "proved",
   "theorems": [
    "C22_update_keeps_relationships"
   ],
   "note": ""
  },
  {
   "property": "C23",
   "status": "proved",
   "theorems": [
    "C23_reads_back",
    "C23_nodes"
   ],
   "note": ""
  },
  {
   "property": "C24",
   "status": "proved",
   "theorems": [
    "C24_check_terminates",
    "C24_explain_terminates",
    "C24_expand_terminates"
   ],
   "note": ""
  },
  {
   "property": "C25",
   "status": "partial",
   "theorems": [
    "C25_authorised_by_key",
    "C25_authorised_partial",
    "C25_authorised_delimited",
    "C25_authorised_refuted"
   ],
   "note": "REFUTED by the key alias of C17. Proved for the relationships found under the consulted keys (no assumption), for stores without such an alias, and for enclosed object ids."
  },
  {
   "property": "C26",
   "status": "partial",
   "theorems": [
    "C26_decides_by_key",
    "C26_decides_partial",
    "C26_decides_separated",
    "C26_decides_refuted"
   ],
   "note": "REFUTED: the node of an entity with an empty id has the identity of the whole resource and hides it. Proved exactly when the reached nodes have different identities, and for names without separators."
  },
  {
   "property": "C27",
   "status": "partial",
   "theorems": [
    "C27_intersection_partial",
    "C27_intersection_refuses",
    "C27_explained",
    "C27_intersection_refuted"
   ],
   "note": "REFUTED, universally: without resource-wide subjects no intersection ever authorises anybody, because the subject is marked seen in the left operand. Proved when the deciding branches were evaluated."
  },
  {
   "property": "C28",
   "status": "partial",
   "theorems": [
    "C28_difference_partial",
    "C28_difference_refuted"
   ],
   "note": "REFUTED: the right operand skips the subject found in the left one, so nothing is subtracted. Proved when the deciding branches were evaluated."
  },
  {
   "property": "C29",
   "status": "proved",
   "theorems": [
    "C29_certified_by_key",
    "C29_certified_exact"
   ],
   "note": ""
  },
  {
   "property": "C30",
   "status": "partial",
   "theorems": [
    "C30_monotone_partial",
    "C30_monotone_refuted"
   ],
   "note": "REFUTED: adding an owner with an empty id revokes read access of all users. Proved when the reached nodes have different identities."
  },
  {
   "property": "C31",
   "status": "partial",
   "theorems": [
    "C31_explanation_decides",
    "C31_explanation_agrees",
    "C31_failures",
    "C31_dot_partial",
    "C31_dot_refuted",
    "C31_unknown_format"
   ],
   "note": "REFUTED for DOT: a check that succeeds before it looks at a tuple-to-userset over a resource-wide subject makes the DOT serializer dereference a nil object (C31_dot_refuted). Proved: the text format always agrees, failures agree in all formats, and DOT agrees when no tuple-to-userset met from the root has a resource-wide subject."
  },
  {
   "property": "C32",
   "status": "partial",
   "theorems": [
    "C32_json_refuted",
    "C32_cycles",
    "C32_json_partial"
   ],
   "note": "REFUTED, universally: no completed check can be explained as JSON (cyclic parent pointers). Proved: the text format explains every completed check."
  },
  {
   "property": "C33",
   "status": "proved",
   "theorems": [
    "C33_expand_unfolds",
    "C33_expand_once",
    "C33_expand_exact",
    "C33_expand_by_key"
   ],
   "note": ""
  },
  {
   "property": "C34",
   "status": "partial",
   "theorems": [
    "C34_identities_partial",
    "C34_identities_refuted"
   ],
   "note": "REFUTED: empty ids and slashes give different nodes one identity. Proved for nodes without slashes and empty parts, given a collision-free hash."
  },
  {
   "property": "C35",
   "status": "partial",
   "theorems": [
    "C35_no_panic_partial",
    "C35_no_panic_refuted"
   ],
   "note": "REFUTED: a tuple-to-userset over a resource-wide subject panics. Proved for all stores where no tuple-to-userset met from the root has such a subject."
  },
  {
   "property": "C36",
   "status": "proved",
   "theorems": [
    "C36_decisions_depend_on_relationships_only"
   ],
   "note": ""
  },
  {
   "property": "C37",
   "status": "partial",
   "theorems": [
    "C37_acyclic_partial",
    "C37_endless_refuted",
    "C37_incomplete_refuted",
    "C37_shown_exactly",
    "C37_ends_exactly",
    "C37_complete_exactly"
   ],
   "note": "REFUTED: a cycle below a relationship without incoming edges makes the dump endless (C37_endless_refuted), any other cycle is left out (C37_incomplete_refuted). Proved exactly: the dump ends if and only if no cycle is under a top node (C37_ends_exactly); every answered graph shows exactly what is under the top nodes, correctly labelled (C37_shown_exactly); it is complete if and only if there is no cycle (C37_complete_exactly). An edge reachable in several ways is repeated."
  },
  {
   "property": "C38",
   "status": "proved",
   "theorems": [
    "C38_order_irrelevant",
    "C38_contents",
    "C38_documents"
   ],
   "note": ""
  },
  {
   "property": "C39",
   "status": "proved",
   "theorems": [
    "C39_types",
    "C39_unambiguous"
   ],
   "note": ""
  },
  {
   "property": "C40",
   "status": "partial",
   "theorems": [
    "C40_set_refuted",
    "C40_delete_refuted",
    "C40_set_partial",
    "C40_delete_partial"
   ],
   "note": "REFUTED: the edge and the record are two writes; a stop between them leaves an edge without record, or a record without edge. Proved: the state is always one of the three, all other relationships are untouched and repeating the request completes it."
  },
  {
   "property": "C41",
   "status": "partial",
   "theorems": [
    "C41_refuted",
    "C41_resurrection_refuted",
    "C41_partial",
    "C41_cleanup_partial"
   ],
   "note": "REFUTED: the policy is removed first, so a stop leaves relationships without a policy, repeating DeletePolicy does nothing, and creating the id again resurrects them. Proved: what a stop can leave, and that DeleteRelationships with a wildcard selector cleans up."
  },
  {
   "property": "C42",
   "status": "partial",
   "theorems": [
    "C42_refuted",
    "C42_existing_partial"
   ],
   "note": "REFUTED: CreatePolicy reads, then writes; any two acceptable creations of one id can both succeed. Proved: if the policy exists and no request deletes it, no creation succeeds in any interleaving."
  },
  {
   "property": "C43",
   "status": "partial",
   "theorems": [
    "C43_refuted",
    "C43_no_setter_partial"
   ],
   "note": "REFUTED: every acceptable SetRelationship can survive a DeletePolicy that runs between its check and its write. Proved when no concurrent request sets relationships of the policy."
  },
  {
   "property": "C44",
   "status": "partial",
   "theorems": [
    "C44_refuted",
    "C44_no_definition_partial"
   ],
   "note": "REFUTED: every acceptable UpdatePolicy can bring back a policy deleted between its read and its write. Proved when no concurrent request defines the policy."
  },
  {
   "property": "C45",
   "status": "proved",
   "theorems": [
    "C45_independent"
   ],
   "note": "For the policy record, the edges, and the answers of all requests except those that read records, which all policies share (C15, C16)."
  },
  {
   "property": "C46",
   "status": "proved",
   "theorems": [
    "C46_successors_ancestors",
    "C46_values",
    "C46_missing_endpoint"
   ],
   "note": ""
  },
  {
   "property": "C47",
   "status": "partial",
   "theorems": [
    "C47_optional_expression_refuted"
   ],
   "note": "REFUTED for every document: an absent expression is handed to the expression parser as the empty string, which is no expression. Hence the example of docs/policy-definition.md is rejected."
  },
  {
   "property": "C48",
   "status": "proved",
   "theorems": [
    "C48_policies"
   ],
   "note": ""
  },
  {
   "property": "C49",
   "status": "proved",
   "theorems": [
    "C49_relationships"
   ],
   "note": ""
  },
  {
   "property": "C50",
   "status": "proved",
   "theorems": [
    "C50_justified",
    "C50_justified_by_name"
   ],
   "note": "Membership by storage key, and by name when the keys are not shared (unaliased). Policies with difference are excluded, as in C25."
  },
  {
   "property": "C51",
   "status": "proved",
   "theorems": [
    "C51_complete"
   ],
   "note": "Union-only policies, as in C26; distinct ids of the nodes that any of its reads can meet."
  },
  {
   "property": "C52",
   "status": "partial",
   "theorems": [
    "C52_refuted",
    "C52_denied_refuted",
    "C52_quiet_partial"
   ],
   "note": "REFUTED both ways: an authorisation that no moment gives (C52_refuted: the link a->b is deleted, then bob enters b, between two reads), and a denial that no moment gives (C52_denied_refuted: bob enters a, then leaves b). Proved for every reading request when no concurrent request writes about its policy."
  },
  {
   "property": "C53",
   "status": "proved",
   "theorems": [
    "C53_answered",
    "C53_check",
    "C53_explain",
    "C53_expand"
   ],
   "note": "C53_answered covers all requests: with a fixed recursion bound each is answered, possibly with Fuel. C53_check, C53_explain and C53_expand show that Fuel is impossible for a large enough bound; for DumpRelationships it is not (C37)."
  },
  {
   "property": "C54",
   "status": "proved",
   "theorems": [
    "C54_explanation",
    "C54_expansion",
    "C54_decision",
    "C54_determines",
    "C54_determines_names"
   ],
   "note": "All searches and expansions that return a DOT text. The text is gographviz's rendering of the modelled AddNode and AddEdge calls; that rendering is not modelled."
  },
  {
   "property": "C55",
   "status": "partial",
   "theorems": [
    "C55_explanation_partial",
    "C55_dump_partial",
    "C55_refuted"
   ],
   "note": "REFUTED: labels are wrapped in quotes without escaping, so an entity id with a quote breaks the graph (explanations and dumps). Proved for names and reasons without quotes."
  },
  {
   "property": "C56",
   "status": "proved",
   "theorems": [
    "C56_explanation_by_key",
    "C56_explanation",
    "C56_expansion_by_key",
    "C56_expansion"
   ],
   "note": "Full, for relationships found by key; and for relationships by name when no other object shares a consulted key (unaliased)."
  },
  {
   "property": "C57",
   "status": "proved",
   "theorems": [
    "C57_beside_others",
    "C57_alone",
    "C57_sizes"
   ],
   "note": "C57_beside_others counts the operations in any schedule; reach is over what some read can find. C57_sizes needs no assumption about the graph."
  },
  {
   "property": "C58",
   "status": "partial",
   "theorems": [
    "C58_union_partial",
    "C58_refuted"
   ],
   "note": "REFUTED: `(direct + all) & direct` refuses bob while `direct & (direct + all)` authorises them, because a node seen in the left operand fails in the right one. Proved for union policies when the reached nodes have different identities (C26)."
  },
  {
   "property": "C59",
   "status": "partial",
   "theorems": [
    "C59_completed_partial",
    "C59_twice",
    "C59_many_partial",
    "C59_many_refuted"
   ],
   "note": "REFUTED for DeleteRelationships: a stop between the two deletions of a relationship leaves its record, and the repeated request does not find it any more (for every selected relationship); for DeletePolicy see C41. Proved: any completed request may be repeated; every other interrupted request is completed by repeating it; for DeleteRelationships the graph is."
  },
  {
   "property": "C60",
   "status": "proved",
   "theorems": [
    "C60_answers",
    "C60_result",
    "C60_any_order"
   ],
   "note": "Storage keys (C15, C17) say which relationships are different data. DeletePolicy, DeleteRelationships and FindRelationshipRecords count as touching every relationship record."
  },
  {
   "property": "C61",
   "status": "partial",
   "theorems": [
    "C61_record_refuted",
    "C61_answers_refuted",
    "C61_graph_partial"
   ],
   "note": "REFUTED for records and answers: every acceptable SetRelationship racing with its DeleteRelationship can leave a record without relationship, or a relationship without record; two setters can both be told that the relationship is new. Proved: the graph is always that of some order."
  },
  {
   "property": "C62",
   "status": "proved",
   "theorems": [
    "C62_acknowledged",
    "C62_seen"
   ],
   "note": "Proved for policies that use only unions and whose reachable nodes have distinct ids (as C50; with differences a grant may remove access). The acknowledgement itself needs no such hypothesis."
  },
  {
   "property": "C63",
   "status": "proved",
   "theorems": [
    "C63_acknowledged",
    "C63_seen",
    "C63_same_policy"
   ],
   "note": "Proved for every policy without differences; the policy is one the Check read, or the current one when nobody is changing it."
  },
  {
   "property": "C64",
   "status": "partial",
   "theorems": [
    "C64_refuted",
    "C64_access_refuted",
    "C64_back_again_refuted",
    "C64_widening_partial",
    "C64_keeping_partial"
   ],
   "note": "REFUTED: UpdatePolicy does not look at stored relationships: every update that no longer admits a stored relationship leaves it in place; access through it goes on; a removed and re-added relation gives its old access back. Proved: it holds along histories whose updates only widen policies, and keeping declarations and restrictions is enough for that."
  },
  {
   "property": "C65",
   "status": "partial",
   "theorems": [
    "C65_set_undone_partial",
    "C65_delete_undone_partial",
    "C65_same_key_refuted",
    "C65_other_policy_refuted"
   ],
   "note": "REFUTED when another relationship has the same storage key (it is lost) or the same relationship is stored in another policy (its record is lost). Proved in the remaining cases, both ways round, as equality of stores."
  },
  {
   "property": "C66",
   "status": "partial",
   "theorems": [
    "C66_once_partial",
    "C66_find_partial",
    "C66_dump_partial",
    "C66_find_refuted",
    "C66_dump_refuted"
   ],
   "note": "REFUTED for FindRelationshipRecords (a nil record beside DeleteRelationship) and DumpRelationships (a dump of a half-deleted policy). Proved for GetPolicy, ListPolicyIds and GetRelationship; for the two others: which moments the parts of the answer come from."
  },
  {
   "property": "C67",
   "status": "partial",
   "theorems": [
    "C67_size_partial",
    "C67_least_partial",
    "C67_refuted"
   ],
   "note": "REFUTED: for every n a store with at most 4n+1 relationships, without cycles, whose dump makes more than 2*2^n additions. Proved: a dump makes exactly one node and one edge addition per path from a top node (each different path once when different relationships have different ends), besides the root."
  },
  {
   "property": "C68",
   "status": "proved",
   "theorems": [
    "C68_isolated",
    "C68_reachable",
    "C68_decision"
   ],
   "note": "All failures, interleavings and requests; by simulation of the execution with failures by one without."
  },
  {
   "property": "C69",
   "status": "partial",
   "theorems": [
    "C69_states_partial",
    "C69_refuted",
    "C69_set_refuted",
    "C69_delete_refuted",
    "C69_policy_refuted",
    "C69_once_partial",
    "C69_again_partial"
   ],
   "note": "REFUTED: every stop of a request between two operations is also reached by a failure that is answered with an error; so a refused grant can be in force, a refused removal can have removed, and a refused policy removal can have removed the policy but not its relationships. Proved: exactly which stores a failure leaves; requests that write once change nothing unless the failed write did; sending the request again completes it."
  },
  {
   "property": "C70",
   "status": "proved",
   "theorems": [
    "C70_explanation",
    "C70_expansion"
   ],
   "note": "For all interleavings; stated about relationships found by key."
  },
  {
   "property": "C71",
   "status": "proved",
   "theorems": [
    "C71_transcribes",
    "C71_created",
    "C71_updated",
    "C71_written",
    "C71_mapping"
   ],
   "note": "Decoding of the node tree by yaml.v3 is modelled; the text syntax is not."
  },
  {
   "property": "C72",
   "status": "partial",
   "theorems": [
    "C72_known_fields_partial",
    "C72_no_part_ignored_refuted"
   ],
   "note": "REFUTED: for every document, an entry with a null key (~ or empty) and all documents after the first are ignored without an error; null elements of type lists are dropped too. Proved: every key of an accepted document, at every level, occurs once and is null or a known field."
  },
  {
   "property": "C73",
   "status": "partial",
   "theorems": [
    "C73_reference_refuted"
   ],
   "note": "REFUTED: every document with the key version (which the reference requires), description or actors, or with permissions in a resource, is rejected."
  },
  {
   "property": "C74",
   "status": "proved",
   "theorems": [
    "C74_unreached",
    "C74_extended"
   ],
   "note": "For all operators, without assumptions on keys or identities."
  },
  {
   "property": "C75",
   "status": "partial",
   "theorems": [
    "C75_widened_partial",
    "C75_widened_refuted"
   ],
   "note": "REFUTED: direct & all authorises bob, (all + direct) & all refuses them after the update. Proved: true when the new policy has only unions and the reachable nodes have different identities."
  },
  {
   "property": "C76",
   "status": "partial",
   "theorems": [
    "C76_authorised_listed",
    "C76_listed_partial",
    "C76_listed_refuted"
   ],
   "note": "REFUTED: for intersections Expand lists the left operand only, so everybody in it is listed though Check refuses them. Proved: for policies with unions only both agree, and for all operators whoever is authorised is listed (if the reachable nodes have different identities)."
  },
  {
   "property": "C77",
   "status": "proved",
   "theorems": [
    "C77_exact",
    "C77_exact_by_name"
   ],
   "note": "By relationship key, and by name for unaliased names. The counterpart of C27, C28: without shared nodes all three operators mean what the documentation says."
  },
  {
   "property": "C78",
   "status": "partial",
   "theorems": [
    "C78_isolated",
    "C78_own_store",
    "C78_memory_refuted"
   ],
   "note": "REFUTED: WithMemKVStore makes its store when the option is made, so instances built from one option value share it. Proved: instances with different stores are isolated for all histories, and New makes a store of its own whenever its last choice is not a given store or a directory."
  },
  {
   "property": "C79",
   "status": "partial",
   "theorems": [
    "C79_durable_partial",
    "C79_durable_refuted"
   ],
   "note": "REFUTED: New without options keeps everything in memory and loses it, contrary to its comment. Proved: stores in directories last, and a path under ~ and its expansion name the same store."
  },
  {
   "property": "C80",
   "status": "partial",
   "theorems": [
    "C80_succeeds",
    "C80_keeps_partial",
    "C80_retry_refuted"
   ],
   "note": "REFUTED: a database directory opened by an earlier option stays open (locked) when a later option fails, so New fails when called again. Proved: exactly when New succeeds; it never changes data or closes a directory, and opens none without options for directories."
  },
  {
   "property": "C81",
   "status": "partial",
   "theorems": [
    "C81_policy_id_refuted",
    "C81_names_refuted",
    "C81_ids_refuted",
    "C81_policies_partial",
    "C81_relationships_partial"
   ],
   "note": "REFUTED: every accepted policy is accepted without its id, and with a nameless resource and relation added; every accepted relationship is accepted with empty ids. Proved: the oneofs of stored policies are set, and a relationship accepted by a policy without empty names obeys the rules when its ids are not empty."
  },
  {
   "property": "C82",
   "status": "partial",
   "theorems": [
    "C82_missing_call_crashes_refuted",
    "C82_complete_builds_partial",
    "C82_built_relationships_partial",
    "C82_built_parts"
   ],
   "note": "REFUTED: a build without an object, a relation or a subject call since the last Reset makes DeleteRelationships panic for every store and never makes Find succeed. Proved: with all three the deletion is exact, and RelationshipBuilder's relationships have all their parts."
  },
  {
   "property": "C83",
   "status": "partial",
   "theorems": [
    "C83_explain_format_refuted",
    "C83_formats_partial"
   ],
   "note": "REFUTED: ExplainCheck never sets the field, so every success in another format is labelled SPEW. Proved: Expand's label is right, and ExplainCheck's for SPEW."
  },
  {
   "property": "C84",
   "status": "partial",
   "theorems": [
    "C84_unions_partial",
    "C84_single_ways_partial",
    "C84_intersection_refuted",
    "C84_unions_refuted"
   ],
   "note": "REFUTED for intersections whatever the collision-free hash is: exchanging the names of two groups changes the decision, because successors are searched in the order of their hashes. REFUTED for unions by the empty id (C26). Proved for unions, and for all operators when there is one way to every node, given keys and identities that are not shared."
  },
  {
   "property": "C85",
   "status": "partial",
   "theorems": [
    "C85_careful_partial",
    "C85_alone_partial",
    "C85_yaml",
    "C85_narrow",
    "C85_incomplete_refuted"
   ],
   "note": "REFUTED: every message without one of its parts panics, in every store that holds the policy (some in every store). Proved for requests that keep to these rules (all parts set; a restriction on every relation; a relation name only under a named object; no whole resource as subject where a tupleset is looked up), in every interleaving and after every crash history. The budget of a search is not part of the claim; a dump of cyclic relationships does not end (C37)."
  },
  {
   "property": "C86",
   "status": "partial",
   "theorems": [
    "C86_contents",
    "C86_total_partial",
    "C86_received_refuted",
    "C86_dot",
    "C86_names",
    "C86_edge_labels_refuted"
   ],
   "note": "Contents and DOT statements proved for all call sequences, encoding included. REFUTED in two parts: a decoded graph without nodes (without edges) panics on AddNode (AddEdge), since the empty map arrives as nil; labels of edges are not shown in DOT."
  },
  {
   "property": "C87",
   "status": "partial",
   "theorems": [
    "C87_exact",
    "C87_names_partial",
    "C87_refuted"
   ],
   "note": "REFUTED, with the exact condition for names and for labels: ids are escaped only at quotes, so a backslash before a quote or at the end breaks the name; data is not escaped at all."
  },
  {
   "property": "C88",
   "status": "partial",
   "theorems": [
    "C88_logger",
    "C88_store",
    "C88_default_refuted"
   ],
   "note": "Proved for stores and loggers that are asked for and for the default logger (the global zap logger; what it writes is zap's affair). REFUTED for the default store: New without options opens no directory and keeps its data in memory."
  },
  {
   "property": "C89",
   "status": "partial",
   "theorems": [
    "C89_lives",
    "C89_same_answers_partial",
    "C89_apart",
    "C89_seen_refuted",
    "C89_forged_refuted"
   ],
   "note": "Proved (a simulation, every interleaving and restart) when no id in use, followed by the separator, begins another one followed by it; ids of one length, and ids without the separator's first byte, are of this kind. REFUTED otherwise: for every separator, the relationships of a policy p+sep+x are returned by FindRelationshipRecords of p, and a policy named p+sep+(key of a node) adds successors to that node in p, so that a Check in p is granted by another policy. The refutations depend on raccoondb's wrapper concatenating prefix and key; raccoondb is not on this machine."
  },
  {
   "property": "C90",
   "status": "partial",
   "theorems": [
    "C90_unsubtracted_by_key",
    "C90_unsubtracted_partial",
    "C90_unsubtracted_delimited",
    "C90_unsubtracted_refuted",
    "C90_unions_by_key",
    "C90_unions_partial",
    "C90_left_decides"
   ],
   "note": "Proved for all operators when subjects are looked up by storage key (C90_unsubtracted_by_key), and by name when no other object shares a consulted key; REFUTED by name otherwise (same alias as C25). If no relationship names all entities of the subject's resource, every authorisation even comes from unions and left operands alone (C90_unions_*), and a relation l - r over unions is decided by l alone, exactly (C90_left_decides)."
  },
  {
   "property": "C91",
   "status": "partial",
   "theorems": [
    "C91_cause_partial",
    "C91_policy_faults",
    "C91_relationship_faults",
    "C91_refused_policy",
    "C91_refused_update",
    "C91_not_found_exactly",
    "C91_exists_exactly",
    "C91_no_errors",
    "C91_undeclared_relation",
    "C91_cause_refuted",
    "C91_any_object_refuted"
   ],
   "note": "C91_cause_partial covers all requests except FindRelationshipRecords selectors that name an entity set as the subject, or a relation under any object; for those it is REFUTED (C91_cause_refuted, C91_any_object_refuted): the answer is that a resource or relation is missing though every name is declared. The converses (C91_not_found_exactly, C91_exists_exactly, C91_refused_policy, C91_refused_update, C91_undeclared_relation) hold without the exception."
  },
  {
   "property": "C92",
   "status": "proved",
   "theorems": [
    "C92_refines",
    "C92_ideal_determined",
    "C92_rule_on_ids_needed"
   ],
   "note": "C92_refines: for every history within the rules the answers of the server are answers of the ideal service, for all large enough step bounds. C92_ideal_determined: two ideal services answer a history alike (lists up to order, errors up to which fault is named) and end in the same state; drawings are excepted. C92_rule_on_ids_needed: with ids that do not keep to the rule the server gives an answer no ideal service gives. C92_example_tidy and C92_example_answers: a history of 19 requests within the rules."
  },
  {
   "property": "C93",
   "status": "proved",
   "theorems": [
    "C93_alone",
    "C93_no_waiting",
    "C93_ideal",
    "C93_keys_needed"
   ],
   "note": "C93_alone: whatever the schedule, a client with all its answers has those of its requests alone, and its policies and relationships are as after its requests alone. C93_no_waiting: turns of one client bring it to its answers. C93_ideal: within the rules of C92 each client's answers are those of an ideal service of its own. C93_keys_needed: without the condition on keys, for every hash function, two clients with one policy each disturb each other. C93_example_rules and C93_example_heard: two clients of nine requests each, taking turns."
  },
  {
   "property": "C94",
   "status": "partial",
   "theorems": [
    "C94_reachable",
    "C94_told",
    "C94_careful_partial",
    "C94_cut_short_refuted"
   ],
   "note": "REFUTED for the last sentence: no panic is recovered, so one message without its relationship ends the process and stops any other request after any number of its storage operations, unanswered (C94_cut_short_refuted, for every life of the process, request and number). Proved: all stores are reachable ones (C94_reachable), all answers are those of concurrent rounds (C94_told), and if all requests keep to the rules of C85 only a kill ends the process (C94_careful_partial)."
  },
  {
   "property": "C95",
   "status": "partial",
   "theorems": [
    "C95_no_trace_partial",
    "C95_unnoticed",
    "C95_shared_refuted"
   ],
   "note": "REFUTED when another policy holds the same relationship: its record is deleted with the policy, for every hash function (C95_shared_refuted). Proved as equality of stores when the relationships named in the policy have storage keys of their own (C95_no_trace_partial), and for the answers of all requests about other policies at any time (C95_unnoticed; ListPolicyIds excepted, which shows the policy while it exists)."
  },
  {
   "property": "C96",
   "status": "proved",
   "theorems": [
    "C96_delete",
    "C96_delete_policy"
   ],
   "note": "As equality of stores and of answers, for every order. FindRelationshipRecords is treated in C19: its records are those of GetRelationship for each selected relationship."
  },
  {
   "property": "C97",
   "status": "partial",
   "theorems": [
    "C97_same",
    "C97_steps",
    "C97_shown_partial",
    "C97_linear_refuted"
   ],
   "note": "REFUTED for the messages: each failed alternative, also in expressions that are accepted, writes all remaining tokens into a message that is thrown away, so a+a+...+a costs the square of its length (C97_linear_refuted). Proved: the number of tokens looked at and of messages is linear (C97_steps), what they show is at most quadratic (C97_shown_partial), and the counted parser is the parser of the model (C97_same). Missing for the full claim: only the size of the messages. The work of the lexer is not counted."
  },
  {
   "property": "C98",
   "status": "proved",
   "theorems": [
    "C98_policy",
    "C98_relationship",
    "C98_data",
    "C98_texts",
    "C98_received",
    "C98_same_answers",
    "C98_reachable"
   ],
   "note": "The decoding of a YAML text is a parameter: its strings are assumed to be UTF-8 and its attributes a map (yaml_ok). Sizes below 2^63 bytes and clocks whose seconds are an int64 are assumed (in_range), as Go guarantees the former."
  },
  {
   "property": "C99",
   "status": "partial",
   "theorems": [
    "C99_boundary",
    "C99_unreadable",
    "C99_created_policies_can_be_read_refuted",
    "C99_as_failures",
    "C99_reachable",
    "C99_deletable",
    "C99_bad_text"
   ],
   "note": "REFUTED: for every recursion limit there is a valid policy with a deep expression tree that CreatePolicy stores and that no request can read afterwards; only DeletePolicy works (C99_created_policies_can_be_read_refuted). Proved: the exact limit (C99_boundary), what an unreadable policy does to requests (C99_unreadable), texts that are not UTF-8 change nothing (C99_bad_text), all other effects are those of failed storage operations (C99_as_failures, C99_reachable), and unreadable policies can be deleted with their relationships (C99_deletable). Requests received over gRPC cannot cause it (C98_received)."
  },
  {
   "property": "C100",
   "status": "partial",
   "theorems": [
    "C100_request",
    "C100_received",
    "C100_arrives",
    "C100_arrives_only",
    "C100_answers",
    "C100_history",
    "C100_same",
    "C100_same_view_refuted",
    "C100_deep_policy_refuted"
   ],
   "note": "Proved: requests survive (C100_request), decoded requests are well-formed (C100_received), answers survive for any interleaving on any store that remote clients can bring about (C100_answers), whole histories are seen alike up to missing records of lists (C100_history) and exactly if there are none (C100_same). REFUTED in general: a missing record of a list is nil in the same process and an empty record over gRPC (C100_same_view_refuted, with two policies that share a relationship), and a policy that an embedded client stored can be too deep for a remote client to read (C100_deep_policy_refuted). Assumed: the transport delivers bytes, sizes fit, and yaml.v3, spew, encoding/json and gographviz make UTF-8 from UTF-8 (texts_ok)."
  },
  {
   "property": "C101",
   "status": "partial",
   "theorems": [
    "C101_too_long",
    "C101_history",
    "C101_answers",
    "C101_brief",
    "C101_untold_refuted",
    "C101_unread_refuted",
    "C101_untold_exists",
    "C101_list_refuted"
   ],
   "note": "Proved: a call that is too long changes nothing (C101_too_long); exactly what a client sees over histories and interleavings (C101_history, C101_answers): the responses that fit and errors in place of the others; writes other than CreatePolicy, and checks, are always answered (C101_brief). REFUTED: every well-formed policy whose creation request comes within one byte of the limit is stored, while its creator gets an error and no remote client can read it (C101_untold_refuted; for every limit there is one, C101_untold_exists); every relationship whose request comes within three bytes of the limit is in force and its record cannot be read (C101_unread_refuted); for every limit two relationships can be set and read one by one but not listed (C101_list_refuted)."
  },
  {
   "property": "C102",
   "status": "partial",
   "theorems": [
    "C102_alone",
    "C102_ideal",
    "C102_answered",
    "C102_empty_message_refuted"
   ],
   "note": "Proved: C102_alone (each client is told what it would be told alone, at every moment, on every store remote clients can bring about, if relationships of different clients do not share a storage key), C102_ideal (within the rules of C92: what an ideal service tells), C102_answered (without drawings the server stays up and turns of one client alone bring it to its last answer). REFUTED without rules: an empty CreatePolicy message of any client ends the server for all of them (C102_empty_message_refuted)."
  },
  {
   "property": "C103",
   "status": "proved",
   "theorems": [
    "C103_beside",
    "C103_writers",
    "C103_alone",
    "C103_delimited"
   ],
   "note": "Proved: C103_beside (policy and consulted relationships are at its steps those of the start), C103_writers (others keep away from what it consults; bulk deletions by what they select), C103_alone (two stores), C103_delimited (by name, with enclosed object ids and no hash collisions). Example C103_example: a check beside a set, a deletion, a bulk deletion and a policy deletion. That the hypothesis is needed is C52 (refuted beside arbitrary writers)."
  },
  {
   "property": "C104",
   "status": "proved",
   "theorems": [
    "C104_growing",
    "C104_shrinking",
    "C104_adding",
    "C104_removing",
    "C104_stays_granted",
    "C104_stays_refused"
   ],
   "note": "Proved: C104_growing and C104_shrinking (conditions on what is stored at the moments), C104_adding and C104_removing (conditions on the other requests), C104_stays_granted and C104_stays_refused (decisions do not flip back). Examples: the same check granted and refused under two schedules beside two sets, and beside two deletions. That mixing both breaks it is C52."
  },
  {
   "property": "C105",
   "status": "proved",
   "theorems": [
    "C105_lexed",
    "C105_tiles",
    "C105_quotes",
    "C105_between",
    "C105_before",
    "C105_last",
    "C105_end",
    "C105_error",
    "C105_error_iff"
   ],
   "note": "Proved: C105_lexed, C105_tiles (an equivalence), C105_quotes, C105_between, C105_before, C105_last, C105_end, C105_error, C105_error_iff. Examples include a multi-byte name."
  },
  {
   "property": "C106",
   "status": "proved",
   "theorems": [
    "C106_same",
    "C106_answers",
    "C106_messages",
    "C106_before_the_leftovers"
   ],
   "note": "Proved: C106_same, C106_answers, C106_messages (an equivalence with the three messages of SpecSpan.v), C106_before_the_leftovers. Examples of all three messages. That an opened bracket's missing close or a dangling operator is never named in a message follows from the list being complete."
  },
  {
   "property": "C107",
   "status": "partial",
   "theorems": [
    "C107_same_selection_partial",
    "C107_touched",
    "C107_printed",
    "C107_printed_inside",
    "C107_kept",
    "C107_encoded",
    "C107_encoded_empty",
    "C107_sent",
    "C107_decoded",
    "C107_same_selection_refuted",
    "C107_newer_client_refuted"
   ],
   "note": "REFUTED: a selector whose object or subject message was printed or encoded before, or was decoded with a field that the schema does not know, selects nothing: the search is empty and DeleteRelationships answers 0 and deletes nothing (C107_same_selection_refuted, C107_newer_client_refuted, and for all such selectors C107_touched, C107_printed, C107_encoded). Proved: with messages that nobody has looked at, any number of requests at the same time are answered as the typed model says (C107_same_selection_partial), selectors sent by a client of the same schema arrive as such (C107_sent), and the decoder reads the same fields either way (C107_decoded)."
  },
  {
   "property": "C108",
   "status": "proved",
   "theorems": [
    "C108_request",
    "C108_response",
    "C108_stored",
    "C108_order",
    "C108_stored_order",
    "C108_empty",
    "C108_arrives"
   ],
   "note": "Proved of the decoded messages for further fields with numbers above 15 (no message has a higher one), of wire types varint, fixed32, fixed64 and bytes; groups are not modelled. What is read is the same; that selectors nevertheless select something else when an entity in them has such a field is C107_newer_client_refuted. Empty texts of a request, of resources and relations and of attribute entries may be written or left out (C108_empty, ext_empty, ext_left_out)."
  },
  {
   "property": "C109",
   "status": "proved",
   "theorems": [
    "C109_first_way_by_key",
    "C109_first_way_by_name",
    "C109_first_way_separated",
    "C109_unopposed"
   ],
   "note": "Proved by key, by name and for separated names without hash collisions, with a case in which (a & b) + c refuses a member of a and c whom c + (a & b) authorises. Subjects reached both by name and by a grant to their whole resource are excluded; for these C27 and C28 hold."
  },
  {
   "property": "C110",
   "status": "partial",
   "theorems": [
    "C110_policy_partial",
    "C110_policy_refuted",
    "C110_relationship_refuted",
    "C110_record_partial"
   ],
   "note": "Refuted. An update that began before the policy was deleted and created again gives the new policy the creation time of the old one. Setting a stored relationship again gives it a new creation time, though the answer says that it existed. It holds that a policy keeps its creation time while no request deletes it, whatever else is served, and that the time and app data of a relationship's record are always those of one request that set a relationship with the same key."
  },
  {
   "property": "C111",
   "status": "partial",
   "theorems": [
    "C111_same_answers",
    "C111_internal_partial",
    "C111_storage_partial",
    "C111_storage_refuted",
    "C111_invalid_request_partial",
    "C111_invalid_request_always_partial",
    "C111_invalid_request_refuted",
    "C111_variant_partial",
    "C111_variant_refuted",
    "C111_format_refuted"
   ],
   "note": "Refuted. Errors of the policy service carry neither api.ErrInternal nor api.ErrInvalidRequest, nor do failures after the first operation of a search or wrong requests found by the search; FindRelationshipRecords loses domain.ErrInvalidVariant for an unset object selector, where DeleteRelationships keeps it; DumpRelationships does not call an unknown format an invalid request. It holds that an error marked as internal is a storage or serialisation failure and never also an invalid request, that exactly first operations of graph requests are marked, which requests are marked as invalid, and that the variant mark is exact elsewhere."
  },
  {
   "property": "C112",
   "status": "partial",
   "theorems": [
    "C112_meaning",
    "C112_every_request_partial",
    "C112_wildcard_refuted",
    "C112_false_refuted",
    "C112_safe_partial"
   ],
   "note": "REFUTED in two ways. No flag chooses a wildcard, so selectors made of flags are limited to one relation (C112_wildcard_refuted); --root-wildcard=false chooses the wildcard (C112_false_refuted). Proved: the flags of a command are its own and mean the request that is sent, both ways (C112_meaning); exactly the requests with their parts and without wildcard selectors can be given by flags (C112_every_request_partial); commands that write nothing never make a server panic that serves only careful requests (C112_safe_partial; missing: commands that write, see C85)."
  },
  {
   "property": "C113",
   "status": "partial",
   "theorems": [
    "C113_law",
    "C113_no_flags",
    "C113_no_flags_refuted",
    "C113_parts",
    "C113_policy",
    "C113_flags_win_partial",
    "C113_flags_win_refuted",
    "C113_safe_partial",
    "C113_panic_refuted"
   ],
   "note": "REFUTED in three ways. Without flags the missing parts of the input are sent as empty ones (C113_no_flags says exactly what is sent, C113_no_flags_refuted that it makes a difference to the server); empty texts in flags do not override the input and resources are appended to it (C113_flags_win_refuted); an entity set without its entity still panics (C113_panic_refuted). Proved: the law (C113_law), the parts are always there (C113_parts), which policy it is about (C113_policy), whole requests in which nothing is empty override any input (C113_flags_win_partial, missing: requests with something empty, policies), no panic when the oneof members of the input have their parts (C113_safe_partial)."
  },
  {
   "property": "C114",
   "status": "proved",
   "theorems": [
    "C114_written",
    "C114_document",
    "C114_received",
    "C114_same_requests",
    "C114_bytes",
    "C114_base64"
   ],
   "note": "Proved: C114_written (any style), C114_document (the document written out from the .proto files), C114_received, C114_same_requests (the requests of documents are those of bytes; the second case are messages of 2^63 bytes and more), C114_bytes."
  },
  {
   "property": "C115",
   "status": "proved",
   "theorems": [
    "C115_order",
    "C115_nulls",
    "C115_once",
    "C115_twice",
    "C115_two_definitions",
    "C115_unknown",
    "C115_lenient",
    "C115_names"
   ],
   "note": "Proved: C115_order, C115_nulls, C115_once, C115_twice, C115_two_definitions, C115_unknown, C115_lenient; C115_names checks both names of every field."
  },
  {
   "property": "C116",
   "status": "proved",
   "theorems": [
    "C116_every_request",
    "C116_filled",
    "C116_order",
    "C116_no_input"
   ],
   "note": "Proved: C116_every_request (both directions), C116_filled, C116_order, C116_no_input."
  },
  {
   "property": "C117",
   "status": "proved",
   "theorems": [
    "C117_routes",
    "C117_paths",
    "C117_posted",
    "C117_effect",
    "C117_refused",
    "C117_no_body"
   ],
   "note": "Proved for the gateway that calls the server in its process (RegisterXHandlerServer): C117_routes, C117_posted, C117_effect, C117_refused (exactly when which refusal), C117_no_body. The one that calls a client is C117 followed by C100."
  },
  {
   "property": "C118",
   "status": "proved",
   "theorems": [
    "C118_written",
    "C118_unwritable",
    "C118_document"
   ],
   "note": "Proved: C118_written (any style), C118_unwritable (exactly when there is no document), C118_document (the document of a writer that writes all fields is the one written out from the .proto files)."
  },
  {
   "property": "C119",
   "status": "proved",
   "theorems": [
    "C119_days",
    "C119_epoch",
    "C119_text",
    "C119_round",
    "C119_distinct"
   ],
   "note": "Proved: C119_days (day by day, against the calendar as a relation), C119_epoch, C119_text, C119_round, C119_distinct."
  },
  {
   "property": "C120",
   "status": "partial",
   "theorems": [
    "C120_history",
    "C120_late_refuted"
   ],
   "note": "Proved: C120_history, for the gateway that calls the server in its process. C120_late_refuted is the witness that the bound on the clock is needed: after the year 9999 a policy is created and the client gets no response."
  },
  {
   "property": "C121",
   "status": "proved",
   "theorems": [
    "C121_durable",
    "C121_exclusive",
    "C121_reachable",
    "C121_failed_start"
   ],
   "note": "Proved: C121_durable (refinement of a specification in which a directory is the list of the requests served on it), C121_exclusive, C121_reachable (the theorems about reachable stores hold for the data of every daemon), C121_failed_start. Except when killed, a daemon serves its requests one after the other here (beside others: C94, C102); paths that are spelled differently are different directories; port 0 is left out."
  },
  {
   "property": "C122",
   "status": "partial",
   "theorems": [
    "C122_status_partial",
    "C122_status_refuted"
   ],
   "note": "Refuted: C122_status_refuted (a mistyped flag: main ignores the error of Execute and ends with status 0). Proved: C122_status_partial, for command lines whose flags are known."
  },
  {
   "property": "C123",
   "status": "proved",
   "theorems": [
    "C123_session",
    "C123_status"
   ],
   "note": "Proved: C123_session (composition of the models of zanzi-cli, JSON, protobuf and the server), C123_status. As in C100 and C120, missing records of lists come as empty ones, messages must fit in their lengths and the clock must not be after the year 9999; connections that fail are left out."
  }
 ]
}