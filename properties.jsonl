{"id": "C01", "title": "Relation expression print/parse round trip", "statement": "Rendering a relation expression tree as text and parsing that text gives back the same tree, for every tree whose relation names are non-empty identifiers that do not start with the keyword _this.", "quantifier": "every relation expression tree over valid names", "why_tests_cant": "Trees nest without bound; tests only try a few shapes.", "anchors": ["internal/relation_expression_parser/parser.go: Parse", "internal/relation_expression_parser/lexer.go: lexer.scan", "pkg/domain/relation_expression_tree.go: RelationExpressionTree.RelationExpression"]}
{"id": "C02", "title": "The parser accepts exactly the documented grammar", "statement": "Parsing a string always terminates; it succeeds with tree t if and only if the string tokenises and the tokens derive t in the documented grammar (rules, parentheses, binary + & -); otherwise it returns an error and never panics.", "quantifier": "every byte string, including invalid UTF-8", "why_tests_cant": "Soundness and completeness range over all byte strings.", "anchors": ["internal/relation_expression_parser/parser.go: Parse, expressionParser, subexpressionParser, operationTermParser", "internal/relation_expression_parser/primitives.go: many, first, parseIf", "internal/relation_expression_parser/lexer.go: lexer.scan"]}
{"id": "C03", "title": "Operators have equal precedence and associate left to right", "statement": "An expression x1 op1 x2 op2 ... xn parses to (((x1 op1 x2) op2 ...) xn) whatever the operators are, as docs/relation-expression.md states.", "quantifier": "every operator sequence of every length and every operand", "why_tests_cant": "A test fixes the operator sequence and length.", "anchors": ["internal/relation_expression_parser/parser.go: expressionParser", "docs/relation-expression.md"]}
{"id": "C04", "title": "White space never changes the meaning of an expression", "statement": "Replacing one non-empty run of white space by another, or adding or removing white space at either end, does not change the result of parsing (tree or failure).", "quantifier": "every pair of surrounding strings and every pair of white space runs", "why_tests_cant": "Ranges over all contexts.", "anchors": ["internal/relation_expression_parser/lexer.go: lexer.scan, lexer.ignore", "internal/relation_expression_parser/parser.go: Parse"]}
{"id": "C05", "title": "Concurrent lexing delivers every token in order and never deadlocks", "statement": "The lexer goroutine and the parser goroutine share a bounded channel. Under every schedule the parser receives exactly the token sequence of the input, in order, no reachable state is stuck, and every schedule finishes.", "quantifier": "every schedule of the two goroutines, every token sequence, every channel capacity", "why_tests_cant": "Tests observe one schedule and one input size.", "anchors": ["internal/relation_expression_parser/lexer.go: lexer.Lex, lexer.emit", "internal/relation_expression_parser/parser.go: Parse", "internal/utils/utils.go: ConsumeChan"]}
{"id": "C06", "title": "Every identifier can be used as a relation name in an expression", "statement": "For every string made of identifier characters, parsing it as a relation expression yields the computed userset of that relation.", "quantifier": "every identifier", "why_tests_cant": "Needs all identifiers, including those sharing a prefix with a keyword.", "anchors": ["internal/relation_expression_parser/lexer.go: lexer.scan, lexIdentifier"]}
{"id": "C07", "title": "A policy is accepted exactly when it is well formed", "statement": "CreatePolicy and UpdatePolicy (on an existing id) accept a structurally complete policy if and only if resource names are unique, relation names are unique per resource, every subject restriction names an existing resource or relation, every expression parses, and every computed userset and tupleset names a relation of the same resource.", "quantifier": "every policy and every store", "why_tests_cant": "The set of policies is unbounded.", "anchors": ["internal/policy/service.go: CreatePolicy, UpdatePolicy", "internal/policy/spec.go: policySpec, policySpec_UniqueNames, policySpec_SubjectRestrictionsConsistent, policySpec_RelationExpressionWellDefined"]}
{"id": "C08", "title": "Checks on an accepted policy never fail with a malformed-policy error", "statement": "After a policy was accepted and only relationships accepted under it are stored, Check on a declared object resource and relation returns a decision, not an error.", "quantifier": "every accepted policy, every set of accepted relationships, every request", "why_tests_cant": "Combination of all policies with all stores.", "anchors": ["internal/policy/spec.go: policyContainsRelationsInRule", "internal/relation_graph/goal_tree.go: handleEntitySet, buildGoalForOpNode", "internal/relation_graph/rule_evaluator.go: evaluateTTU"]}
{"id": "C09", "title": "Policy requests never crash the server", "statement": "CreatePolicy and UpdatePolicy return a response or an error for every well-typed request; they never panic.", "quantifier": "every policy message with any field unset and every store", "why_tests_cant": "Unset field combinations at every tree depth.", "anchors": ["internal/policy/helpers.go: GetExpressionTree, GetPolicyFromDefinition", "internal/policy/spec.go: policySpec", "pkg/domain/relation_expression_tree.go: GetRules"]}
{"id": "C10", "title": "A relationship is accepted exactly when the policy allows it", "statement": "SetRelationship succeeds if and only if the policy exists, the object resource and relation are declared, the subject's resource or relation are declared, and the relation's subject restriction admits the subject.", "quantifier": "every policy with subject restrictions, every relationship, every store", "why_tests_cant": "Needs all restriction lists and all subjects.", "anchors": ["internal/policy/service.go: SetRelationship", "internal/policy/spec.go: AllowedRelationshipSpec, SubjectRestrictionSpec"]}
{"id": "C11", "title": "A request that fails changes nothing", "statement": "Every API request that ends in an error or in a panic leaves all policies, relationships and relationship data exactly as they were.", "quantifier": "every request of every kind, every store", "why_tests_cant": "All requests over all stores.", "anchors": ["internal/policy/service.go: every method", "internal/store/kv_store/policy_repository.go: every method"]}
{"id": "C12", "title": "SetRelationship never crashes the server", "statement": "SetRelationship returns a response or an error for every relationship with an object and a subject under every policy CreatePolicy accepts.", "quantifier": "every accepted policy and every relationship", "why_tests_cant": "Needs all accepted policies.", "anchors": ["internal/policy/spec.go: SubjectRestrictionSpec.satisfies", "internal/policy/service.go: SetRelationship"]}
{"id": "C13", "title": "The policy store behaves as a map from id to policy", "statement": "Over every history of policy requests, responses are those of an abstract map: create fails iff the id exists, get returns the last definition and app data written and the creation time of the create that introduced it, update replaces definition and app data only, delete removes it, and requests for other ids do not interfere.", "quantifier": "every finite history of API requests from the empty store", "why_tests_cant": "Histories are unbounded.", "anchors": ["internal/policy/service.go: CreatePolicy, UpdatePolicy, DeletePolicy, GetPolicy", "internal/store/kv_store/policy_repository.go: SetPolicy, GetPolicy, DeletePolicy"]}
{"id": "C14", "title": "ListPolicyIds returns every existing policy id exactly once", "statement": "After every history, ListPolicyIds returns a duplicate-free list holding an id if and only if GetPolicy finds it.", "quantifier": "every finite history of API requests", "why_tests_cant": "Histories are unbounded.", "anchors": ["internal/policy/service.go: ListPolicyIds", "internal/store/kv_store/policy_repository.go: ListPolicyIds"]}
{"id": "C15", "title": "Relationships behave as a map per policy", "statement": "A relationship that was set is returned with the app data of its last set, one that was deleted or never set is not returned, and setting or deleting one relationship does not affect another.", "quantifier": "every finite history of API requests", "why_tests_cant": "Histories are unbounded and key collisions depend on rare names.", "anchors": ["internal/store/kv_store/policy_repository.go: SetRelationship, GetRelationship, DeleteRelationship", "internal/store/kv_store/model.go: relationshipDataIDer, RelationNode.Key"]}
{"id": "C16", "title": "Policies are isolated from each other", "statement": "Requests that write relationships of one policy never change the relationships, relationship records or decisions of another policy.", "quantifier": "every store, every pair of policies and every request", "why_tests_cant": "Needs all stores and pairs.", "anchors": ["internal/store/kv_store/kv_store.go: getRelationshipStore, getRelationshipDataStore", "internal/store/kv_store/policy_repository.go"]}
{"id": "C17", "title": "Granting on one object never grants on another", "statement": "Setting a relationship on one object and relation does not make a check on a different object and relation succeed when nothing connects the two.", "quantifier": "every pair of distinct object/relation nodes", "why_tests_cant": "Collisions need specific splits of the concatenated name.", "anchors": ["internal/store/kv_store/model.go: RelationNode.Key", "internal/store/kv_store/node_repository.go: GetSucessors"]}
{"id": "C18", "title": "DeletePolicy removes the policy and all its relationships and reports their number", "statement": "After DeletePolicy on an existing policy, neither the policy nor any relationship of it remains, the reported number is the number of relationships it had, and other policies and their relationships are unchanged.", "quantifier": "every store reachable by API requests", "why_tests_cant": "All reachable stores.", "anchors": ["internal/policy/service.go: DeletePolicy", "internal/store/kv_store/policy_repository.go: DeletePolicy, DeleteRelationships"]}
{"id": "C19", "title": "Selectors select exactly the matching relationships", "statement": "FindRelationshipRecords returns one entry per stored relationship matching the selector and no other; DeleteRelationships removes exactly the matching ones, keeps all others and reports their number.", "quantifier": "every selector and every reachable store", "why_tests_cant": "All selectors over all stores.", "anchors": ["internal/policy/selector_spec.go: SelectorSpec.Satisfies", "internal/store/kv_store/policy_repository.go: FindRelationshipRecords, DeleteRelationships"]}
{"id": "C20", "title": "FindRelationshipRecords accepts every selector over declared names", "statement": "A selector that names only resources and relations declared by the policy is accepted.", "quantifier": "every policy and every selector", "why_tests_cant": "Needs all selectors.", "anchors": ["internal/policy/spec.go: ValidSelectorSpec", "pkg/domain/relationship.go: Subject.GetResourceName"]}
{"id": "C21", "title": "FindRelationshipRecords never crashes the server", "statement": "FindRelationshipRecords returns a response or an error for every complete selector.", "quantifier": "every policy, store and selector", "why_tests_cant": "Needs all selectors.", "anchors": ["internal/policy/spec.go: ValidSelectorSpec", "pkg/domain/relationship.go: Resource.GetRelationByName"]}
{"id": "C22", "title": "UpdatePolicy keeps relationships and the creation time", "statement": "A successful UpdatePolicy replaces the policy and app data, keeps the creation time, and leaves every relationship and record of every policy unchanged.", "quantifier": "every store and every update request", "why_tests_cant": "All stores.", "anchors": ["internal/policy/service.go: UpdatePolicy"]}
{"id": "C23", "title": "Stored relationships read back as written", "statement": "Encoding a relationship for storage and decoding it gives the same object, relation and subject kind, so a stored relationship is returned exactly as it was set.", "quantifier": "every relationship with an object and a set subject", "why_tests_cant": "All strings, including empty ones.", "anchors": ["internal/store/kv_store/mapper.go: RelationshipMapper.ToInternal, FromInternal"]}
{"id": "C24", "title": "Check, ExplainCheck and Expand terminate", "statement": "For every policy, every stored relationship graph (cyclic or not) and every request, the search finishes; and its outcome does not depend on any resource bound.", "quantifier": "every policy, relationship set and request", "why_tests_cant": "Termination over all cyclic graphs is not testable.", "anchors": ["internal/relation_graph/searcher.go: searchPath, search", "internal/relation_graph/goal_tree.go: Build"]}
{"id": "C25", "title": "No unjustified authorisation without difference", "statement": "If a policy uses no difference operator and Check authorises a subject, then the subject is in the object's relation by the rewrite rules, the stored relationships and nothing else.", "quantifier": "every difference-free policy, relationship set and request", "why_tests_cant": "Soundness over all graphs.", "anchors": ["internal/relation_graph/searcher.go: searchOR, searchAND, searchPath", "internal/relation_graph/goal_tree.go", "internal/relation_graph/rule_evaluator.go"]}
{"id": "C26", "title": "Check decides membership exactly for union policies", "statement": "If a policy uses only unions, a completed Check authorises a subject if and only if the subject is in the object's relation, including through cycles, nested groups, tuple-to-userset hops and resource-wide subjects.", "quantifier": "every union policy, relationship set with distinguishable names, and request", "why_tests_cant": "Completeness over all cyclic graphs.", "anchors": ["internal/relation_graph/searcher.go", "internal/relation_graph/goal_tree.go", "internal/relation_graph/rule_evaluator.go"]}
{"id": "C27", "title": "Intersection authorises subjects in both operands", "statement": "A subject that is in both operands of an intersection is authorised.", "quantifier": "every policy with an intersection, relationship set and request", "why_tests_cant": "The failure is universal, tests would only show one case.", "anchors": ["internal/relation_graph/searcher.go: searchPath seenNodes, searchAND"]}
{"id": "C28", "title": "Difference refuses subjects in the subtracted operand", "statement": "A subject that is in the right operand of a difference is refused.", "quantifier": "every policy with a difference, relationship set and request", "why_tests_cant": "Needs all stores.", "anchors": ["internal/relation_graph/searcher.go: searchPath seenNodes, searchDifference"]}
{"id": "C29", "title": "A search tree without skipped nodes is exact for all operators", "statement": "If every branch that decided the result of a search was evaluated rather than skipped as already visited, the decision equals the set semantics of the policy over the relationships found under the consulted storage keys, for union, intersection and difference; these are the relationships of the consulted objects whenever no other object shares a key.", "quantifier": "every policy, relationship set and request", "why_tests_cant": "All graphs and all operator nestings.", "anchors": ["internal/relation_graph/searcher.go", "internal/relation_graph/goal_tree.go"]}
{"id": "C30", "title": "Adding relationships never revokes access under union policies", "statement": "If a policy uses only unions and Check authorises a subject, a completed Check still authorises it after any relationships were added.", "quantifier": "every union policy, every pair of relationship sets one containing the other", "why_tests_cant": "All pairs of stores.", "anchors": ["internal/relation_graph/searcher.go"]}
{"id": "C31", "title": "ExplainCheck agrees with Check", "statement": "For the same request and store, ExplainCheck reports the decision or the search failure that Check reports.", "quantifier": "every request, format and store", "why_tests_cant": "All stores and requests.", "anchors": ["internal/relation_graph/service.go: Check, ExplainCheck"]}
{"id": "C32", "title": "Every completed check can be explained as JSON", "statement": "ExplainCheck with the JSON format returns an explanation whenever Check returns a decision.", "quantifier": "every request and store", "why_tests_cant": "The failure is universal.", "anchors": ["internal/relation_graph/goal_tree_serializer.go: goalTreeJsonSerializer", "internal/relation_graph/types.go: Parent fields"]}
{"id": "C33", "title": "Expand shows every node below the root exactly once", "statement": "A completed Expand never expands a node twice and shows no node that is not reachable from the root through rewrite rules and relationships; if the policy has no intersection and the reachable nodes have different search identities, it expands every reachable node.", "quantifier": "every policy, relationship set and root", "why_tests_cant": "All graphs.", "anchors": ["internal/relation_graph/service.go: Expand", "internal/relation_graph/searcher.go: searchPath"]}
{"id": "C34", "title": "Different nodes are never mistaken for one another during a search", "statement": "Two different relation nodes have different search identities, so visiting one never makes the search skip the other.", "quantifier": "every pair of nodes", "why_tests_cant": "Collisions need specific characters in names.", "anchors": ["pkg/domain/relation_graph.go: RelationNode.Id"]}
{"id": "C35", "title": "Check and Expand never crash the server", "statement": "Check, ExplainCheck and Expand on a complete request return a response or an error for every accepted policy and accepted relationships.", "quantifier": "every policy, relationship set and request", "why_tests_cant": "Needs all stores.", "anchors": ["internal/relation_graph/rule_evaluator.go: buildTupleToUsersetNode", "pkg/domain/relation_graph.go: Id"]}
{"id": "C36", "title": "Decisions depend only on the current relationships", "statement": "Two request histories that leave the same relationships and the same policy give the same answer to every check, whatever the order, repetition and undoing of the requests was.", "quantifier": "every pair of histories", "why_tests_cant": "All pairs of histories.", "anchors": ["internal/relation_graph/service.go: Check", "internal/store/kv_store/node_repository.go: GetSucessors"]}
{"id": "C37", "title": "DumpRelationships shows every relationship", "statement": "DumpRelationships terminates and its graph has an edge for every stored relationship and no other edge.", "quantifier": "every relationship set", "why_tests_cant": "Cyclic graphs of every shape.", "anchors": ["internal/relation_graph/service.go: DumpRelationships", "internal/relation_graph/relation_tree_serializer.go", "pkg/types/graph.go"]}
{"id": "C38", "title": "YAML definitions are independent of key order", "statement": "The policy obtained from a YAML definition does not depend on the order of its resources and relations, keeps every name and expression, and lists resources and relations sorted by name.", "quantifier": "every definition and every ordering of its maps", "why_tests_cant": "Go map order is random; tests see one order at a time.", "anchors": ["pkg/policy_definition/mapper.go: MapPolicyDefinition, mapItemsToSlice", "pkg/policy_definition/unmarshaler.go: setEntityNames"]}
{"id": "C39", "title": "YAML subject types map to the documented restrictions", "statement": "The type list with a star gives the universal restriction; otherwise each entry with a colon gives an entity-set restriction split at the first colon and each other entry an entity restriction, in order.", "quantifier": "every type list", "why_tests_cant": "All strings.", "anchors": ["pkg/policy_definition/mapper.go: mapSubjectRestriction, mapSubjectRestrictionElement"]}
{"id": "C40", "title": "Setting a relationship is atomic under crashes", "statement": "If the server stops at any point during SetRelationship or DeleteRelationship, the relationship is afterwards either fully set or fully unset.", "quantifier": "every store, every crash point", "why_tests_cant": "Crash points are not reachable from tests.", "anchors": ["internal/store/kv_store/policy_repository.go: SetRelationship, DeleteRelationship"]}
{"id": "C41", "title": "Deleting a policy is atomic under crashes", "statement": "If the server stops at any point during DeletePolicy, either nothing was deleted or the policy and all its relationships are gone, and repeating the request completes the work.", "quantifier": "every store, every crash point", "why_tests_cant": "Crash points are not reachable from tests.", "anchors": ["internal/policy/service.go: DeletePolicy"]}
{"id": "C42", "title": "Concurrent creates of one policy id: at most one succeeds", "statement": "Of two concurrent CreatePolicy requests with the same id at most one succeeds.", "quantifier": "every interleaving of storage operations", "why_tests_cant": "All schedules.", "anchors": ["internal/policy/service.go: CreatePolicy", "pkg/server/server.go"]}
{"id": "C43", "title": "No relationship survives the deletion of its policy under concurrency", "statement": "When DeletePolicy and SetRelationship for the same policy run concurrently, no relationship of the deleted policy remains.", "quantifier": "every interleaving of storage operations", "why_tests_cant": "All schedules.", "anchors": ["internal/policy/service.go: SetRelationship, DeletePolicy"]}
{"id": "C44", "title": "A deleted policy stays deleted under concurrency", "statement": "When UpdatePolicy and DeletePolicy for the same id run concurrently and the delete reports success, the policy no longer exists afterwards or the update started later.", "quantifier": "every interleaving of storage operations", "why_tests_cant": "All schedules.", "anchors": ["internal/policy/service.go: UpdatePolicy, DeletePolicy"]}
{"id": "C45", "title": "Requests on different policies do not interfere under concurrency", "statement": "For any number of concurrent policy and relationship requests, the policies and relationship edges of one policy end as if only the requests for that policy had run, in some order of their steps.", "quantifier": "every number of threads and every interleaving", "why_tests_cant": "All schedules.", "anchors": ["internal/policy/service.go", "internal/store/kv_store/policy_repository.go"]}
{"id": "C46", "title": "Graph successor and ancestor queries are inverse", "statement": "In the in-memory graph, after every sequence of node and edge insertions, b is a successor of a iff a is an ancestor of b iff an edge a to b was inserted; inserting an edge fails iff an endpoint is missing and then changes nothing.", "quantifier": "every sequence of insertions", "why_tests_cant": "Sequences are unbounded.", "anchors": ["pkg/types/map_graph.go: MapGraph"]}
{"id": "C47", "title": "A YAML relation may be declared without an expression", "statement": "A YAML policy in which a relation has no expression, as in docs/policy-definition.md, is accepted if everything else in it is valid.", "quantifier": "every YAML document", "why_tests_cant": "Every document and every position of the relation.", "anchors": ["docs/policy-definition.md", "pkg/policy_definition/mapper.go: mapRelation", "pkg/policy_definition/unmarshaler.go"]}
{"id": "C48", "title": "Stored policies come from requests and are well formed, under concurrency and crashes", "statement": "However requests are interleaved and wherever the server stops, every stored policy is well formed, stored under its own id, and is exactly what a create or update request of that id defined; an update keeps the creation time of a version that existed.", "quantifier": "every set of requests, every interleaving, every stopping point", "why_tests_cant": "All schedules and all prefixes.", "anchors": ["internal/policy/service.go: CreatePolicy, UpdatePolicy", "internal/store/kv_store/policy_repository.go: SetPolicy", "pkg/server/server.go"]}
{"id": "C49", "title": "Stored relationships were set by a request that a version of the policy admits", "statement": "However requests are interleaved and wherever the server stops, every stored relationship was already there or was set by a SetRelationship request for that policy, and it is admissible under a version of the policy that existed while the requests were served.", "quantifier": "every set of requests, every interleaving, every stopping point", "why_tests_cant": "All schedules and all prefixes.", "anchors": ["internal/policy/service.go: SetRelationship", "internal/policy/spec.go", "internal/store/kv_store/policy_repository.go: SetRelationship"]}
{"id": "C50", "title": "A Check beside writers authorises only what it could read", "statement": "If a Check is served while any other requests read and write, and it authorises the subject, then the policy record stored at one of its own steps, together with relationships that were each stored at some of its own steps, makes the subject a member (policies without difference). Relationships set before it began and deleted, or set after it ended, cannot be used.", "quantifier": "every reachable store, every set of concurrent requests, every interleaving of their storage operations", "why_tests_cant": "All schedules; a search reads the store once per rule evaluation, in an order that depends on what it has read.", "anchors": ["internal/relation_graph/service.go: Check", "internal/relation_graph/searcher.go: searchPath", "internal/relation_graph/rule_evaluator.go", "internal/store/kv_store/node_repository.go: GetSuccessors", "pkg/server/server.go"]}
{"id": "C51", "title": "A Check beside writers authorises whatever holds during all of its steps", "statement": "If a Check is answered with a decision while other requests are served, and at each of its steps a union-only policy is stored under which relationships that are stored at all of its steps make the subject a member, and the nodes it can meet have distinct ids, then it authorises.", "quantifier": "every reachable store, every set of concurrent requests, every interleaving", "why_tests_cant": "All schedules, and all relationships added or removed while the search runs.", "anchors": ["internal/relation_graph/service.go: Check", "internal/relation_graph/searcher.go: searchPath, searchOR", "internal/store/kv_store/node_repository.go: GetSuccessors"]}
{"id": "C52", "title": "A Check beside writers answers as at one moment", "statement": "The decision of a Check that is served beside other requests is the decision that the store of some single moment of the schedule gives.", "quantifier": "every reachable store, every set of concurrent requests, every interleaving", "why_tests_cant": "Needs a schedule in which writes fall between the reads of one search.", "anchors": ["internal/relation_graph/service.go: Check", "internal/relation_graph/rule_evaluator.go", "internal/store/kv_store/node_repository.go: GetSuccessors"]}
{"id": "C53", "title": "Requests served beside others end", "statement": "Under every schedule that gives a request its turns the request is answered, whatever the other requests do; and the recursion of Check, ExplainCheck and Expand is bounded by a number that depends only on the stored policies and relationships and the requests, even if others close cycles while the search runs.", "quantifier": "every store, every set of concurrent requests, every infinite fair schedule", "why_tests_cant": "Infinite schedules; termination.", "anchors": ["internal/relation_graph/searcher.go: searchPath (seenNodes)", "internal/relation_graph/goal_tree.go", "pkg/server/server.go"]}
{"id": "C54", "title": "The DOT explanation is the search tree", "statement": "The graph that ExplainCheck and Expand draw in DOT has one node per object of the search tree, edges exactly from each object to its parts in order, and labels from which the kind and result of every object (and, for one-line names without colons and commas, the relation node and reason) can be read back; the label below the root says SUCCESS exactly when the decision is positive.", "quantifier": "every store, request and search tree", "why_tests_cant": "All search trees, of any size.", "anchors": ["internal/relation_graph/goal_tree_serializer.go: dotSerializer", "pkg/domain/relation_graph.go: PrettyString"]}
{"id": "C55", "title": "Labels are DOT strings", "statement": "Every node name and label in the DOT output of ExplainCheck, Expand and DumpRelationships is one well-formed DOT string, whatever the names of entities.", "quantifier": "every store, request and entity name", "why_tests_cant": "All entity names.", "anchors": ["internal/relation_graph/goal_tree_serializer.go: sprintf", "internal/relation_graph/relation_tree_serializer.go: wrap"]}
{"id": "C56", "title": "Explanations and expansions are honest", "statement": "Every step of the tree returned by ExplainCheck or Expand is right by itself: the parts below a node are exactly those of the policy's expression for it, one alternative per relationship subject and labelled with the rule that produced it; a result follows from the results of the parts; a leaf succeeds only if it is the subject asked for (or all entities of its resource); and an alternative counts as failed without having failed only if a node with its search identity is shown as evaluated in the same tree.", "quantifier": "every reachable store, request, format, and every step of the returned tree", "why_tests_cant": "Trees of any size and shape, for all policies, cyclic relationships and both requests.", "anchors": ["internal/relation_graph/goal_tree.go: Build, reasonBuilder", "internal/relation_graph/searcher.go: searchOR, searchAND, searchDifference, searchPath", "internal/relation_graph/rule_evaluator.go: Evaluate"]}
{"id": "C57", "title": "The work of a search is bounded by what it can reach", "statement": "A check, an explanation or an expansion performs at most one storage operation plus, for every node it can reach, the number of rules in the node's expression that consult relationships; also while other requests write. Alone it is answered within 1 + (1 + number of relationships of the policy) * L operations, where L bounds the consulting rules of a resource.", "quantifier": "every reachable store, policy, request, and every schedule of concurrent requests", "why_tests_cant": "Cyclic and shared graphs of any size; without the visited set the work is exponential or endless only on particular shapes.", "anchors": ["internal/relation_graph/searcher.go: searchPath, seenNodes", "internal/relation_graph/goal_tree.go: Build", "internal/relation_graph/rule_evaluator.go: Evaluate"]}
{"id": "C58", "title": "Policies that say the same decide alike", "statement": "Two policies whose relations combine the same rules decide every check alike over the same relationships: the order, nesting and repetition of the operands of unions and intersections do not matter.", "quantifier": "every pair of reachable stores and policies, every check", "why_tests_cant": "All pairs of equivalent policies over all relationship graphs.", "anchors": ["internal/relation_graph/searcher.go: searchOR, searchAND, searchPath", "internal/relation_graph/goal_tree.go: Build"]}
{"id": "C59", "title": "Sending a request again does no harm and completes it", "statement": "Repeating a completed request changes nothing that serving it once (at either time) would not do; repeating a request that was cut off at any point leaves the store as if it had been served.", "quantifier": "every reachable store, request, clock value, and every point at which the first attempt stops", "why_tests_cant": "All interruption points and all stores.", "anchors": ["internal/policy/service.go: CreatePolicy, UpdatePolicy, SetRelationship, DeleteRelationship, DeleteRelationships, DeletePolicy", "internal/store/kv_store/policy_repository.go: DeleteRelationships"]}
{"id": "C60", "title": "Requests that touch different data do not interfere", "statement": "If no request writes a policy, relationship or relationship record that another one reads or writes, then in every interleaving each request is answered as if it were the only one, the store is as if they had been served one after the other, and the order does not matter.", "quantifier": "every reachable store, any number of requests, every schedule", "why_tests_cant": "All interleavings of any number of requests.", "anchors": ["internal/policy/service.go", "internal/relation_graph/service.go", "internal/store/kv_store/policy_repository.go"]}
{"id": "C61", "title": "Concurrent writes of one relationship are as if served in some order", "statement": "However requests that set or delete relationships interleave, the relationships, their records and the answers are those of some order in which the requests are served one after the other.", "quantifier": "every reachable store, any number of requests, every schedule", "why_tests_cant": "Races: depends on the interleaving of the storage operations.", "anchors": ["internal/store/kv_store/policy_repository.go: SetRelationship, DeleteRelationship"]}
{"id": "C62", "title": "A Check sees the grants acknowledged before it began", "statement": "A relationship whose SetRelationship was acknowledged, and that no running request can take away, stays stored; a Check that begins after the acknowledgement answers true whenever membership follows from such relationships and nobody is changing the policy (policies that use only unions).", "quantifier": "every reachable store, any number of concurrent requests, every schedule, every moment", "why_tests_cant": "All interleavings of any number of requests.", "anchors": ["internal/policy/service.go: SetRelationship", "internal/relation_graph/service.go: Check", "internal/store/kv_store/policy_repository.go: SetRelationship"]}
{"id": "C63", "title": "A Check does not use what was revoked before it began", "statement": "A relationship whose removal (DeleteRelationship, DeleteRelationships, DeletePolicy) was acknowledged, and that no running request can add, is gone for good; a Check that begins later and answers true is justified by relationships that were still stored or that somebody is setting.", "quantifier": "every reachable store, any number of concurrent requests, every schedule, every moment", "why_tests_cant": "All interleavings of any number of requests.", "anchors": ["internal/policy/service.go: DeleteRelationship, DeleteRelationships, DeletePolicy", "internal/relation_graph/service.go: Check", "internal/store/kv_store/policy_repository.go"]}
{"id": "C64", "title": "Every stored relationship is one its policy admits", "statement": "At every time each stored relationship of a policy is one that SetRelationship would accept under the policy as it is now.", "quantifier": "every history of requests", "why_tests_cant": "Depends on the whole history, in particular on updates of a policy after relationships were stored.", "anchors": ["internal/policy/service.go: UpdatePolicy, SetRelationship", "internal/policy/spec.go"]}
{"id": "C65", "title": "Deleting a relationship undoes setting it", "statement": "Setting a relationship that was not stored and deleting it again leaves the store as it was; so does deleting a stored relationship and setting it again with its record's data.", "quantifier": "every reachable store, policy, relationship and data", "why_tests_cant": "All stores, including ones with other relationships that share a storage key or record.", "anchors": ["internal/store/kv_store/policy_repository.go: SetRelationship, DeleteRelationship", "internal/store/kv_store/kv_store.go:47-65"]}
{"id": "C66", "title": "Every reading request answers as at one moment", "statement": "Each GetPolicy, ListPolicyIds, GetRelationship, FindRelationshipRecords and DumpRelationships served beside other requests is answered as if it had been served alone at one moment between its first and last step.", "quantifier": "every reachable store, any number of concurrent requests, every schedule", "why_tests_cant": "Races: depends on the interleaving of the storage operations.", "anchors": ["internal/policy/service.go: GetPolicy, ListPolicyIds, GetRelationship, FindRelationshipRecords", "internal/relation_graph/service.go: DumpRelationships", "internal/store/kv_store/policy_repository.go"]}
{"id": "C67", "title": "The size of a dump is proportional to the number of relationships", "statement": "DumpRelationships adds a bounded number of nodes and edges to its graph for each stored relationship.", "quantifier": "every reachable store", "why_tests_cant": "The growth of the output over all stores cannot be seen from examples.", "anchors": ["internal/relation_graph/walker.go", "internal/relation_graph/relation_tree_serializer.go: handleNode", "internal/relation_graph/service.go: DumpRelationships"]}
{"id": "C68", "title": "A storage failure ends only the request that it hits", "statement": "When storage operations fail, the failed requests answer with an error, and the store and all other answers are those of some execution without failures in which the failed requests simply stop; no decision to authorise is due to a failure.", "quantifier": "every reachable store, every list of concurrent requests, every interleaving, any number of failures at any operations, each with or without its effect", "why_tests_cant": "Tests use a storage that does not fail; failures can hit any operation of any request in any interleaving.", "anchors": ["internal/store/kv_store/policy_repository.go", "internal/store/kv_store/node_repository.go", "internal/relation_graph/searcher.go", "internal/policy/service.go", "internal/relation_graph/service.go"]}
{"id": "C69", "title": "A request that answers with a storage error has changed nothing", "statement": "If a request answers with an error because a storage operation failed, the store is as before the request.", "quantifier": "every reachable store, every request, a failure at every one of its operations", "why_tests_cant": "The failing operation can be any one of the request, and the effect shows only in the store.", "anchors": ["internal/store/kv_store/policy_repository.go", "internal/store/kv_store/node_repository.go", "internal/policy/service.go"]}
{"id": "C70", "title": "Explanations and expansions are honest while other requests write", "statement": "Every step of an explanation or expansion made beside writers follows from its parts and from the policy of one moment of the request; each rule is drawn with exactly the nodes it led to at one moment of the request; nothing is explained twice.", "quantifier": "every reachable store, every list of concurrent requests and every interleaving", "why_tests_cant": "The tree depends on the interleaving of every read of the search with the writes of others.", "anchors": ["internal/relation_graph/searcher.go", "internal/relation_graph/goal_tree.go", "internal/relation_graph/rule_evaluator.go", "internal/relation_graph/service.go: ExplainCheck, Expand"]}
{"id": "C71", "title": "A policy stored from a YAML document says what the document says", "statement": "When CreatePolicy or UpdatePolicy accepts a YAML text, the stored policy has exactly the id, name, descriptions, resources, relations, expressions, types and attributes that the first document has under the paths of its keys, in the order of names, and it is the only such policy; every definition can be written as a document.", "quantifier": "every YAML node tree, every store", "why_tests_cant": "Documents are trees of any shape with keys in any order, null values, repeated keys and lists in any place.", "anchors": ["pkg/policy_definition/unmarshaler.go", "pkg/policy_definition/types.go", "pkg/policy_definition/mapper.go", "internal/policy/service.go"]}
{"id": "C72", "title": "No part of a YAML policy is ignored", "statement": "A YAML text is accepted only if everything in it is part of the stored policy; anything else is an error.", "quantifier": "every YAML node tree, every store", "why_tests_cant": "The parts that are ignored can be anywhere in the tree, and an ignored part has no effect to observe.", "anchors": ["pkg/policy_definition/unmarshaler.go", "pkg/policy_definition/types.go", "pkg/policy_definition/mapper.go", "internal/policy/service.go"]}
{"id": "C73", "title": "A YAML policy that follows the reference is accepted", "statement": "A document with the fields that docs/policy-definition.md describes (version, description, actors, permissions) is accepted by CreatePolicy.", "quantifier": "every YAML node tree, every store", "why_tests_cant": "That no such document is accepted is a claim about all documents.", "anchors": ["pkg/policy_definition/unmarshaler.go", "pkg/policy_definition/types.go", "pkg/policy_definition/mapper.go", "internal/policy/service.go", "docs/policy-definition.md"]}
{"id": "C74", "title": "A policy update changes only the answers that depend on it", "statement": "After a successful UpdatePolicy, Check, ExplainCheck and Expand answer exactly as before (errors included) when the update leaves the expressions of all relations reachable from the root of the search unchanged; if it leaves the expressions of all existing relations unchanged and only adds relations or resources, every request that was answered is answered the same.", "quantifier": "every reachable state, update, search request and operator", "why_tests_cant": "Relates all pairs of policies and all searches over all relationship graphs.", "anchors": ["internal/relation_graph/searcher.go", "internal/relation_graph/goal_tree.go", "internal/policy/service.go"]}
{"id": "C75", "title": "Widening a rule never revokes access", "statement": "If an UpdatePolicy only adds alternatives to the expressions of a policy without differences, whoever Check authorised before is authorised after.", "quantifier": "every reachable state, every widening update, every request", "why_tests_cant": "Monotonicity over all policies and graphs; the failing cases need a wildcard and shared nodes in one particular order.", "anchors": ["internal/relation_graph/searcher.go", "internal/relation_graph/goal_tree.go", "internal/policy/service.go"]}
{"id": "C76", "title": "Expand lists exactly whom Check authorises", "statement": "For every object and relation, Check authorises a subject if and only if the tree that Expand returns for this object and relation lists the subject or the wildcard of its resource.", "quantifier": "every reachable state, object, relation and subject", "why_tests_cant": "Compares two searches with different goals over all policies and graphs.", "anchors": ["internal/relation_graph/searcher.go", "internal/relation_graph/goal_tree.go", "internal/policy/service.go", "internal/relation_graph/service.go"]}
{"id": "C77", "title": "Check is exact for unions, intersections and differences when no node is reached twice", "statement": "If the positions in the expressions and the subjects of the relationships lead from the object and relation of a Check to every node in at most one way, and different nodes have different identities, then the equations of the policy (union as or, intersection as and, difference as and-not) have a solution below the root, and Check, if it answers, answers true exactly when every such solution contains the root; no matter how the operators are nested.", "quantifier": "every reachable state, policy, request and solution of the equations", "why_tests_cant": "Compares the search with a declarative two-valued semantics over all policies with nested operators and all acyclic relationship graphs without sharing; tests only try single graphs.", "anchors": ["internal/relation_graph/searcher.go", "internal/relation_graph/goal_tree.go", "internal/policy/service.go"]}
{"id": "C78", "title": "Instances in memory are independent", "statement": "Every instance that New builds on a store in memory has a store of its own that is empty at first, and answers all requests as if the other instances did not exist.", "quantifier": "every world of stores, list of options, and interleaved list of calls to any number of instances", "why_tests_cant": "Quantifies over all configurations of instances and all histories of calls to them.", "anchors": ["zanzi.go", "internal/store/kv_store/kv_store.go"]}
{"id": "C79", "title": "What an instance stored is there after a restart", "statement": "After the process is restarted, an instance that New builds with the same options answers every request as the old instance would have; in particular New without options stores its data under DefaultDataDir, as its comment says.", "quantifier": "every possible world, options, history of calls to any instances before the restart", "why_tests_cant": "Quantifies over whole process lifetimes.", "anchors": ["zanzi.go"]}
{"id": "C80", "title": "A New that fails leaves nothing behind", "statement": "If New returns an error, calling New again with other options behaves as if the failed call had not been made.", "quantifier": "every host environment, world and list of options", "why_tests_cant": "Failure atomicity over all option lists and environments.", "anchors": ["zanzi.go"]}
{"id": "C81", "title": "Stored messages obey the field rules of the proto files", "statement": "Every policy and relationship in the store obeys the buf.validate rules that policy.proto and relationship.proto declare: ids and names are not empty and required oneofs are set.", "quantifier": "every reachable store, accepted policy and accepted relationship", "why_tests_cant": "Universal over all accepted messages; the counterexamples are families derived from every accepted message, not single inputs.", "anchors": ["proto/zanzi/zanzi/domain/policy.proto", "proto/zanzi/zanzi/domain/relationship.proto", "internal/policy/service.go", "internal/policy/spec.go"]}
{"id": "C82", "title": "A selector made by SelectorBuilder can be used", "statement": "A selector made by any sequence of SelectorBuilder calls can be given to FindRelationshipRecords and DeleteRelationships, which then select exactly the relationships that the last call of each kind asks for.", "quantifier": "every sequence of builder calls, reachable store and policy id", "why_tests_cant": "Quantifies over all call sequences of the builder, of any length, and all stores.", "anchors": ["pkg/domain/selector.go", "pkg/domain/relationship.go", "internal/store/kv_store/node_repository.go"]}
{"id": "C83", "title": "Responses are labelled with the requested format", "statement": "The field format of an ExplainCheckResponse or ExpandResponse is the format that was requested and in which goal_tree is written.", "quantifier": "every store, policy, request and format", "why_tests_cant": "Universal over requests and stores.", "anchors": ["internal/relation_graph/service.go", "proto/zanzi/zanzi/api/relation_graph.proto"]}
{"id": "C84", "title": "Decisions do not depend on what entities are called", "statement": "Give the entities of every resource other ids, consistently and without merging two of them. Then every Check answers for the renamed object and subject, over the renamed relationships, as it did before.", "quantifier": "every one-to-one renaming, policy, reachable store and request", "why_tests_cant": "Relates two whole stores by an arbitrary renaming; the order in which a search meets nodes is the order of sha256 sums, which tests see only for the ids they happen to use.", "anchors": ["internal/relation_graph/searcher.go", "internal/store/kv_store/node_repository.go", "internal/relation_graph/goal_tree.go"]}
{"id": "C85", "title": "No request makes the server panic", "statement": "Whatever requests arrive, in whatever order their storage operations interleave and however often the server stops and restarts in between, every answer is a response or an error and never a panic. (A panic in a handler ends the process: no recovery interceptor is installed.)", "quantifier": "every store, every set of concurrent requests, every schedule, every crash history", "why_tests_cant": "Quantifies over all interleavings of all requests on all stores that earlier interleavings and crashes can leave; a test fixes a handful of messages and one schedule.", "anchors": ["internal/policy/service.go", "internal/policy/spec.go", "internal/relation_graph/service.go", "internal/relation_graph/searcher.go", "internal/relation_graph/rule_evaluator.go", "internal/store/kv_store/mapper.go", "pkg/server/server.go"]}
{"id": "C86", "title": "A MapDiGraph holds exactly what was added", "statement": "After any sequence of AddNode and AddEdge calls, with encoding and decoding of the graph in between, the graph finds for every id exactly the node added last under it, and for every pair of ids, from either end, exactly the edge added last between them; GraphToDOT shows exactly these nodes and edges; and no call with a message panics.", "quantifier": "every sequence of calls, every id, label and data text", "why_tests_cant": "Quantifies over all call sequences and all pairs of ids, including those never added; a test looks at a few nodes of one graph.", "anchors": ["pkg/types/graph.go", "proto/zanzi/zanzi/types/graph.proto"]}
{"id": "C87", "title": "GraphToDOT writes DOT strings", "statement": "Every name and every label that GraphToDOT writes is one quoted DOT string, whatever the ids and the data of the nodes hold.", "quantifier": "every id and every data text", "why_tests_cant": "Quantifies over all texts; the failing ones (a backslash before a quote or at the end, a quote in the data) are not what a test would try.", "anchors": ["pkg/types/graph.go"]}
{"id": "C88", "title": "New builds what its options ask for", "statement": "Whatever list of options New is given, the store and the logger of the instance are each the one asked for by the last option that asks for one; without such an option they are the documented defaults, an INFO logger and data under the default data directory.", "quantifier": "every list of options, every host, every state of the process", "why_tests_cant": "Quantifies over all lists of options, mixed and repeated; a test tries a few lists.", "anchors": ["zanzi.go"]}
{"id": "C89", "title": "The flat key layout keeps policies apart", "statement": "The server keeps everything in one flat store of byte keys, in which the relationships of a policy lie under a prefix made of the raw policy id. In every life of the server and every schedule of concurrent requests its answers are those of a server with a separate table for each policy, so no request about one policy sees or uses a relationship of another.", "quantifier": "every hash of fixed length, every separator that the storage library may put after the id, every set of policy ids in use, every life of the server (batches of requests, schedules, stops), every further batch and schedule", "why_tests_cant": "Quantifies over all ids, keys and executions; the tests use one policy, or ids that do not continue each other.", "anchors": ["internal/store/kv_store/kv_store.go", "internal/store/kv_store/model.go", "internal/store/kv_store/node_repository.go", "internal/store/kv_store/policy_repository.go"]}
{"id": "C90", "title": "Check never authorises more than the policy without its subtractions", "statement": "Whatever operators a policy uses, a subject that Check authorises is a member of the relation when every x - y in the policy is read as x: no authorisation rests on the subtracted operand of a difference or on no relationships at all.", "quantifier": "every reachable store, every accepted policy with any mixture of unions, intersections and differences, every object, relation, subject and hash", "why_tests_cant": "Quantifies over all policies and relationship graphs, cyclic ones included; the visited set of the search makes the decision depend on the order of the whole search.", "anchors": ["internal/relation_graph/searcher.go", "internal/relation_graph/goal_tree.go", "internal/relation_graph/rule_evaluator.go"]}
{"id": "C91", "title": "Every error tells the truth", "statement": "When a request is answered with an error, the named cause is present in the request, in the policy it names, or in the store: 'policy not found' means that no policy is stored under the id, 'resource not found' or 'relation not found' that a name used by the request (or met by the search) is not declared, 'duplicate definition' that a name is declared twice, and so on. Conversely an absent policy, an existing policy, an ill-formed policy and an undeclared relation are always reported as such.", "quantifier": "every reachable store, every request of the 14, every hash and every error", "why_tests_cant": "Relates every error of every request to all stores and policies; unit tests check chosen error cases and cannot exclude an error given for the wrong reason.", "anchors": ["pkg/domain/errors.go", "internal/policy/errors.go", "internal/policy/service.go", "internal/relation_graph/service.go", "internal/policy/spec.go"]}
{"id": "C92", "title": "Clients that keep to a few rules see an ideal authorisation service", "statement": "The ideal service has no keys, no storage and no search: it is a map of policies and, per policy, a map of relationships; a check is answered true exactly when the subject is in the least set closed under the policy's rules, an expansion lists exactly the members, an explanation accounts for its verdict, and an error names a fault that is present. For every history of requests whose clients keep to the rules (ids begin and end with an agreed character that names do not contain, no slashes, each relationship belongs to one policy, policies use unions, restrict every relation and restrict the relations that expressions follow to objects that declare the computed relation, updates keep the stored relationships admissible, selectors are complete and name no entity set or relation without an object, explanations and expansions are asked for as text or DOT), every answer of the server is the answer of the ideal service. The ideal service is determined by its requests. Without the rule on ids the claim is false.", "quantifier": "all hash functions without collisions, all rules, all histories of requests of any length and any mixture of the 14 methods, all step bounds above some number", "why_tests_cant": "The claim is about every history of every length and every policy the rules allow, and compares whole answers with a declarative semantics given by least fixed points.", "anchors": ["internal/policy/service.go", "internal/policy/spec.go", "internal/relation_graph/service.go", "internal/relation_graph/searcher.go", "internal/relation_graph/rule_evaluator.go", "internal/store/kv_store", "pkg/domain/relationship.go"]}
{"id": "C93", "title": "Clients with policies of their own do not notice each other", "statement": "Several clients each send any number of requests, one after the other, while the server performs the storage operations of all of them in any order. If each client's requests are about policies of its own, none lists the policy ids, and no relationship of one client's policies shares a storage key with a relationship of another's, then every client that has all its answers has exactly the answers it would have got alone, and its policies and relationships are as it would have left them alone. No client waits for another: from every state, turns of one client alone bring it to its answers. Clients that also keep to the rules of C92 each see an ideal service of their own. Without the condition on keys the claim is false: a client loses the record of a relationship to a client of another policy.", "quantifier": "all hash functions, all reachable stores, all numbers of clients, all sequences of requests of each, all interleavings of storage operations", "why_tests_cant": "The number of interleavings of storage operations of sessions of any length is unbounded and the schedule is not under a test's control; the condition on keys is about all relationships a session may come to read.", "anchors": ["internal/policy/service.go", "internal/policy/spec.go", "internal/relation_graph/service.go", "internal/store/kv_store", "pkg/server/server.go"]}
{"id": "C94", "title": "No client's request is cut short by another client's", "statement": "The zanzid process accepts requests as they arrive, serves them at the same time, may be killed and started again on its directory. Whatever arrives and in whatever order, the stores it can leave are exactly of the kind every other property is proved for, and every answer a client gets is one of a round of concurrent requests that were all sent. No request ends the process or stops the work on another request.", "quantifier": "all sequences of arrivals, storage operations, kills and starts; all requests; every number of storage operations after which a request can be cut short", "why_tests_cant": "An open system: requests arrive at any time in any number, and the claim is about every point at which another request may be stopped.", "anchors": ["cmd/zanzid/main.go", "pkg/server/server.go", "zanzi.go", "internal/policy/service.go", "internal/relation_graph/service.go", "internal/store/kv_store/mapper.go"]}
{"id": "C95", "title": "A deleted policy leaves no trace", "statement": "After any history of requests in the course of which a policy was made, used and deleted, the server is in exactly the state it would be in had none of the requests about that policy ever been sent; and already before its deletion every request about another policy is answered as if the policy were not there.", "quantifier": "all histories of requests served one after the other, all policies and relationships, all hash functions", "why_tests_cant": "The claim compares two executions of arbitrary length, one with the requests about a policy and one without them.", "anchors": ["internal/policy/service.go", "internal/store/kv_store/policy_repository.go", "internal/store/kv_store/kv_store.go"]}
{"id": "C96", "title": "Requests about many relationships do what the requests about each of them do", "statement": "DeleteRelationships leaves the store that DeleteRelationship of each selected relationship, in any order, leaves, every one of these finds its relationship, and the reported number is their number. DeletePolicy leaves the store, and reports the number, that deleting all relationships of the policy one by one in any order and then the policy does.", "quantifier": "all reachable stores, all selectors with their parts set, all orders of the selected relationships", "why_tests_cant": "The equation is between a bulk operation and all permutations of single operations, over stores of every size.", "anchors": ["internal/policy/service.go", "internal/store/kv_store/policy_repository.go", "internal/policy/selector_spec.go"]}
{"id": "C97", "title": "The work of parsing an expression is proportional to its length", "statement": "For every text the number of tokens that the parser looks at and of error messages that it builds, and the size of what these messages show, are bounded by a constant times the length of the text: backtracking never makes it read a part again and again.", "quantifier": "all texts, all Unicode tables", "why_tests_cant": "Expressions in tests have a handful of tokens; growth with the length, and the absence of exponential backtracking through nested parentheses, are statements about all lengths.", "anchors": ["internal/relation_expression_parser/parser.go", "internal/relation_expression_parser/primitives.go"]}
{"id": "C98", "title": "What is stored is what is read back", "statement": "Every policy, relationship and record that a request received over gRPC stores is encoded without error, and its bytes decode to the same value, whatever order the attributes are written in. So, for any interleaving, a server that keeps protobuf bytes gives the same answers as one that keeps typed records, and every store of bytes it reaches stands for a store of typed records.", "quantifier": "all policies, relationships and records, all orders of attributes, all request bytes, all interleavings of all requests whose records fit, all recursion limits from 8 on", "why_tests_cant": "Tests store a few hand-written policies. That decoding inverts encoding for every nesting of trees, every enum number, every map order and every byte sequence a client can send is a statement about all of them.", "anchors": ["internal/store/kv_store/kv_store.go", "proto/internal/kv_store/relationship_record.proto", "proto/zanzi/zanzi/domain/policy.proto", "proto/zanzi/zanzi/domain/relation_expression_tree.proto", "proto/zanzi/zanzi/api/policy_service.proto"]}
{"id": "C99", "title": "A policy that was created can be read, also for clients in the same process", "statement": "When CreatePolicy or UpdatePolicy succeeds, the policy can be read back and used. Texts that cannot be stored are refused without any change, and failed encodings behave like failed storage operations.", "quantifier": "all requests of clients in the same process, all recursion limits, all interleavings, all orders of attributes", "why_tests_cant": "The decoder gives up at ten thousand nested messages, the encoder does not: only policies far larger than those of tests show the difference, and that nothing else becomes unreadable is a statement about all of them.", "anchors": ["internal/store/kv_store/kv_store.go", "internal/store/kv_store/policy_repository.go", "internal/policy/service.go", "zanzi.go"]}
{"id": "C100", "title": "A remote client sees what a client in the same process sees", "statement": "A call over gRPC reaches the server as it was made, whatever bytes a server decodes are a well-formed call, and the response that the client decodes is the one the server returned. So a remote client sees, call by call and for any interleaving with others, what a client in the same process would see.", "quantifier": "all methods, all calls whose texts are UTF-8 and whose policies are not too deep, all orders of map entries, all recursion limits from 9 on, all interleavings and all histories of remote clients", "why_tests_cant": "Tests call the services in the same process. That fourteen request and response messages with their nested policies, selectors, trees and records survive the encoding for every value, and that every value a server can answer is one that can be encoded, is a statement about all of them.", "anchors": ["proto/zanzi/zanzi/api/policy_service.proto", "proto/zanzi/zanzi/api/relation_graph.proto", "proto/zanzi/zanzi/domain/selector.proto", "proto/zanzi/zanzi/domain/relationship.proto", "proto/zanzi/zanzi/domain/relation_graph.proto", "pkg/server/server.go", "internal/relation_graph/service.go", "internal/policy/service.go"]}
{"id": "C101", "title": "What remote clients store, remote clients can read", "statement": "Through a server and clients with the default options of gRPC, which refuse to receive messages of more than 4 MiB: a request that is refused changes nothing, a request that is carried out is answered, and a policy or relationship that a remote client stored can be read and listed by remote clients.", "quantifier": "all limits below 2^63 for the server and the client, all calls, policies, relationships and application data, all stores that remote clients can bring about, all interleavings and histories", "why_tests_cant": "The limits are defaults of a library that no test sets or reaches, and what goes wrong does so for requests within three bytes of 4 MiB, and for the sum of records over all requests of the past.", "anchors": ["pkg/server/server.go:48-56", "pkg/api/policy_service_grpc.pb.go", "pkg/api/relation_graph_grpc.pb.go", "internal/policy/service.go", "proto/zanzi/zanzi/api/policy_service.proto"]}
{"id": "C102", "title": "Remote clients at the same time each see a service of their own", "statement": "Several clients of one gRPC server, each sending its calls one after the other while the others do the same, each using policies of its own: at every moment, what a client has been told is what it would have been told had it been alone, call by call, through messages, storage bytes, length limits and the steps of the others' handlers. From an empty store and within the client rules of C92 it is what an ideal authorisation service tells; the server stays up and every call is answered without waiting for another client.", "quantifier": "all numbers of clients, all calls, all schedules of arrivals, storage operations and deliveries, all map orders at each step, all limits below 2^63, all stores that remote clients can bring about", "why_tests_cant": "The claim is about every interleaving of any number of clients through the whole stack, gRPC messages to stored bytes, and about equality with a service that has none of it.", "anchors": ["pkg/server/server.go:47-71", "pkg/api/policy_service_grpc.pb.go", "pkg/api/relation_graph_grpc.pb.go", "internal/policy/service.go", "internal/relation_graph/service.go", "internal/store/kv_store/node_repository.go"]}
{"id": "C103", "title": "A search beside writers that change nothing it consults answers as if alone", "statement": "A Check, ExplainCheck or Expand served beside other requests is answered exactly as if it had been served alone at the start (decision, explanation, expansion and errors alike), whatever the others write, if at each of its steps the policy and the relationships under the keys that nodes reachable from its root look up are those of the start; in particular if the others (sets, deletions and bulk deletions by selector) only write relationships that it does not consult. With enclosed object ids and no hash collisions the same holds by object and relation name. Two histories that agree on the policy and on what the search consults give it the same answer.", "quantifier": "all stores, policies with any operators, requests, numbers of other requests, schedules", "why_tests_cant": "Every storage read of the search may come from another moment; the claim is about all interleavings with all writers, for all operators including difference, where partly read changes usually flip decisions.", "anchors": ["internal/relation_graph/searcher.go:30-221", "internal/relation_graph/goal_tree.go:32-183", "internal/relation_graph/rule_evaluator.go:29-130", "internal/store/kv_store/node_repository.go:26-44", "internal/relation_graph/service.go:30-176"]}
{"id": "C104", "title": "While relationships are only added, or only removed, a Check answers as at one moment of its own", "statement": "For a stored policy that uses only union and stays unchanged, and nodes whose keys are distinct: a Check that decides beside any number of requests of which none removes relationships of the policy (and no two relationships stored or set share a storage key), or of which none sets any, gives the decision that the rewrite rules and the relationships stored at one of its own steps give, and that any Check served alone at that step gives. While relationships are only added, a Check whose steps come after those of an authorising Check of the same question authorises; while they are only removed, one that follows a refusal refuses.", "quantifier": "all stores, union-only policies, questions, numbers and kinds of other requests, schedules", "why_tests_cant": "The decision mixes reads of many moments; that the mixture coincides with one moment is a claim about all interleavings, and it is false beside a set and a deletion together (C52).", "anchors": ["internal/relation_graph/searcher.go:30-221", "internal/relation_graph/goal_tree.go:32-183", "internal/store/kv_store/node_repository.go:26-44", "internal/policy/service.go:166-280", "internal/relation_graph/service.go:30-176"]}
{"id": "C105", "title": "The lexer's tokens cover the expression, at the recorded byte positions", "statement": "Every text is lexed without panic. The tokens lie in order in the text with nothing but white space between them, there is exactly one such sequence of tokens, the bytes between a token's recorded start and end are its lexeme, and the text before a token reads as the tokens before it. The last token, and no other, is the end of the text (at its length) or an error; the error token stands exactly where the text stops being readable: what lies before it reads as tokens, no longer part of the text does, and its text quotes the rest.", "quantifier": "all texts (any bytes), all classifications of non-ASCII characters", "why_tests_cant": "The lexer keeps a start, a position and a step width that are updated in several places (peek, step, ignore, emit); that they stay consistent, also at multi-byte and invalid characters, is an invariant over all texts.", "anchors": ["internal/relation_expression_parser/lexer.go"]}
{"id": "C106", "title": "A refused expression is answered the message that fits it", "statement": "Parse either returns the tree of C01 to C06 or an error whose text is exactly one of three: the unknown token with the rest of the text, if the text does not read as tokens; that a term is needed with all the tokens, if no beginning of the tokens is an expression; or the leftover tokens, which are what follows the longest beginning of the tokens that is an expression, and the text before the first of them is an expression of its own.", "quantifier": "all texts, all classifications of non-ASCII characters", "why_tests_cant": "Which alternative's error survives the parser's combinators, and that the leftovers begin after the longest expression, depends on backtracking over arbitrary nesting.", "anchors": ["internal/relation_expression_parser/parser.go:13-160", "internal/relation_expression_parser/primitives.go"]}
{"id": "C107", "title": "What a selector selects depends only on what it says", "statement": "Two FindRelationshipRecords or DeleteRelationships requests whose selectors have equal fields select the same relationships, whatever was done with the messages before (printing, encoding, decoding).", "quantifier": "all stores, selectors, histories of the messages, schedules", "why_tests_cant": "selector_spec.go compares protobuf messages with reflect.DeepEqual, which also compares the bookkeeping fields of the generated structs; a test that builds its selector from a fresh literal never sees the difference.", "anchors": ["internal/policy/selector_spec.go:60-64", "internal/policy/selector_spec.go:90-94", "pkg/domain/relationship.pb.go:28-64", "internal/store/kv_store/mapper.go:46-83"]}
{"id": "C108", "title": "Programs with a later version of the messages are understood", "statement": "A request with further fields that this version does not know, at any level and of any wire type, and with the fields of any of its messages in any order (that keeps the order of repeated fields and of the members of a oneof), is read as the same request without them; so are responses read by a client and records read by a server of this version from a database that a later version wrote.", "quantifier": "all methods, messages, further fields, places and orders", "why_tests_cant": "The tests encode messages with the definitions they decode them with; fields of a later version, nested anywhere and in any order, never occur.", "anchors": ["proto/zanzi/zanzi/api/policy_service.proto", "proto/zanzi/zanzi/api/relation_graph.proto", "proto/zanzi/zanzi/domain/policy.proto", "proto/zanzi/zanzi/domain/relationship.proto", "proto/internal/kv_store/relationship_record.proto", "internal/store/kv_store/kv_store.go:21-65"]}
{"id": "C109", "title": "The first way to the subject decides", "statement": "For policies with any operators, Check authorises exactly when the first way from the relation to the subject, taking operands and stored relationships in order and meeting no node twice, takes only steps that make the expressions hold, and refuses exactly when that way takes another step or no way exists: whoever comes through the left operand of an intersection or the right operand of a subtraction is refused, whatever the other operands say. In particular whoever some way leads to, while no refusing step leads to them, is authorised.", "quantifier": "all reachable stores, policies, objects, relations and subjects reached by name or by their resource but not both, when no consulted key and no reached node identity is shared and the check completes", "why_tests_cant": "The tests check a few expressions one by one; that the answer depends on the order of operands and relationships in exactly this way for every graph, with cycles and shared nodes, needs an invariant of the visited set.", "anchors": ["internal/relation_graph/searcher.go:56-221", "internal/relation_graph/goal_tree.go:32-183", "internal/relation_graph/rule_evaluator.go:29-130", "internal/store/kv_store/node_repository.go:26-44"]}
{"id": "C110", "title": "Creation times tell when something was created", "statement": "At every time the creation time of a stored policy is the time of the create request that made the policy as it is stored now, and the creation time of a stored relationship is the time of the request since which it has been stored, also while other requests are served and when the server stops.", "quantifier": "all reachable stores, sets of requests, interleavings of their steps and points at which the server stops", "why_tests_cant": "The tests compare creation times of single requests served one after the other; which times are possible depends on how the steps of several requests are interleaved.", "anchors": ["proto/zanzi/zanzi/domain/policy.proto:40-41", "proto/zanzi/zanzi/domain/relationship.proto:71-72", "internal/policy/service.go:30-99", "internal/policy/service.go:166-195", "pkg/domain/policy.go:7-13", "pkg/domain/relationship.go:14-21"]}
{"id": "C111", "title": "The marks of an error say whose fault it is", "statement": "An error answer wraps api.ErrInternal exactly if the server or its storage failed, wraps api.ErrInvalidRequest exactly if the request is wrong for the stored policies, and wraps domain.ErrInvalidVariant exactly if a part of a message has no variant set; for all requests of both services, beside other requests and whichever storage operation fails.", "quantifier": "all requests, stores, numbers of the failing operation, interleavings with other requests", "why_tests_cant": "The tests check only that an error occurs; which of the wrapped errors survive depends on the verb used at each of some sixty places and on the operation that fails.", "anchors": ["pkg/api/errors.go:5-6", "pkg/domain/errors.go:7", "internal/relation_graph/service.go:30-211", "internal/policy/service.go:30-271", "internal/policy/spec.go:266-270", "internal/policy/spec.go:359-424"]}
{"id": "C112", "title": "The flags of a zanzi-cli command say which request it sends", "statement": "Without input, a command of zanzi-cli accepts exactly its own flags and sends the request that they mean: each field has the last value given for it, resources add up, each oneof is the member that the last flag about it belongs to. Every request of the API can be given by flags, a flag with the value false means nothing, and flags alone never make the server panic.", "quantifier": "all commands and lists of flags, all requests; for panics all careful stores and interleavings with other requests", "why_tests_cant": "The commands are generated and have no tests; the flags of a request are arbitrarily long lists whose order matters because hooks of oneof members overwrite each other.", "anchors": ["pkg/api/policy_service.cobra.pb.go:36-870", "pkg/api/relation_graph.cobra.pb.go:36-260", "cmd/zanzi-cli/main.go"]}
{"id": "C113", "title": "A zanzi-cli command sends its input with its flags laid over it", "statement": "A command that reads a request from its input sends what a server would read from the bytes of the input followed by the bytes of the request of the flags. Without flags it sends the input; a whole request given by flags is sent whatever the input says; the policy is the one the flags name, or else the input's; no input makes the server panic unless it writes.", "quantifier": "all inputs and lists of flags of all commands; for panics all careful stores and interleavings", "why_tests_cant": "The commands have no tests, and the law relates two encoders, the decoder and proto.Merge on all pairs of messages.", "anchors": ["pkg/api/policy_service.cobra.pb.go:56-66", "pkg/api/relation_graph.cobra.pb.go:56-66"]}
{"id": "C114", "title": "JSON documents carry exactly the requests of the API", "statement": "Every request that can be sent over gRPC has a JSON document, whichever of both field names a writer uses and whether or not it writes unset fields, and a reader gets that request back from it. Whatever a reader accepts is a request that can be sent over gRPC. Application data may be written in base64 with either alphabet, with or without padding.", "quantifier": "all requests of all fourteen methods (policies of any size with trees of any depth), all documents, all styles of writing, readers that ignore unknown members and readers that do not", "why_tests_cant": "Nothing in the repository tests JSON; documents are unbounded trees, and the claim relates two independent encodings on all requests.", "anchors": ["pkg/api/policy_service.cobra.pb.go:56-64", "pkg/api/relation_graph.cobra.pb.go:53-61", "pkg/api/policy_service.pb.gw.go", "pkg/api/relation_graph.pb.gw.go", "proto/zanzi/zanzi/api", "proto/zanzi/zanzi/domain"]}
{"id": "C115", "title": "What counts in a JSON request, and what is refused", "statement": "The order of members does not count at any level and null members may be left out. A document that gives a part of the request twice, under one of its names or under both, or that gives both members of a policy definition, is refused; a reader that does not ignore unknown members refuses any repetition anywhere. A member that names no part is ignored or refused as the reader was told, and ignoring changes nothing for documents without such members.", "quantifier": "all documents, all reorderings at any depth, all methods, both kinds of readers", "why_tests_cant": "Quantifies over all permutations of all documents of unbounded depth; the binary encoding behaves differently (the last one wins), so no test of it says anything here.", "anchors": ["pkg/api/policy_service.cobra.pb.go:56-64", "pkg/api/policy_service.pb.gw.go:34-330", "proto/zanzi/zanzi/api", "proto/zanzi/zanzi/domain"]}
{"id": "C116", "title": "Every complete request can be given to zanzi-cli as JSON input", "statement": "A zanzi-cli command that gets a JSON document and no flags can be made to send exactly the requests that have their parts, among them the selectors with wildcards that flags cannot give. A document of a request without some parts is sent with empty ones. The order of members does not count with any flags, and no input is the same as an empty document.", "quantifier": "all commands, requests, documents and lists of flags", "why_tests_cant": "The commands have no tests; the claim is an equality of two infinite sets of requests.", "anchors": ["pkg/api/policy_service.cobra.pb.go:36-870", "pkg/api/relation_graph.cobra.pb.go:36-260", "cmd/zanzi-cli/main.go"]}
{"id": "C117", "title": "The REST gateway serves what was posted", "statement": "Each method has one path and each path at most one method. A request whose JSON document is posted to its path is served as if its message had come to the server, with the same answer and the same effect on the store. Whatever is posted anywhere, either nothing happens and the client is told that the path or the body is wrong, or one request is served that could have come over gRPC.", "quantifier": "all paths, bodies, requests, stores and styles of writing", "why_tests_cant": "The gateway is generated, registered by no program of the repository and has no tests; the claim is about all bodies and all stores.", "anchors": ["pkg/api/policy_service.pb.gw.go:34-640", "pkg/api/relation_graph.pb.gw.go:34-470"]}
{"id": "C118", "title": "JSON documents carry every response", "statement": "Every response of the server has a JSON document, whichever of both field names the writer uses and whether or not it writes unset fields, and a client reads that response back from it; a missing record of a list comes back as an empty one, as over gRPC. A response has no document exactly if one of its texts is not UTF-8 or one of its times is after the year 9999.", "quantifier": "all responses of all fourteen methods (policies and lists of any size), all styles of writing, readers that ignore unknown members and readers that do not", "why_tests_cant": "Nothing in the repository tests responses as JSON; the claim is about all responses and all writers.", "anchors": ["pkg/api/policy_service.pb.gw.go", "pkg/api/relation_graph.pb.gw.go", "proto/zanzi/zanzi/api/policy_service.proto:83-179", "proto/zanzi/zanzi/api/relation_graph.proto:57-135", "proto/zanzi/zanzi/domain/policy.proto:33-42", "proto/zanzi/zanzi/domain/relationship.proto:64-76"]}
{"id": "C119", "title": "Creation times are shown as the dates they are", "statement": "The date that is written for a creation time is the one that counting the days by the rules of the calendar gives, month by month and with leap years; the hour, minute, second and nanosecond are those of the time. A time up to the end of the year 9999 is read back from its text to the nanosecond, so records created at different times show different texts.", "quantifier": "all days without bound for the dates, all times up to the end of the year 9999 for the texts", "why_tests_cant": "More than 3.6 million days and 10^9 times per second; tests look at a few instants.", "anchors": ["proto/zanzi/zanzi/domain/policy.proto:40-41", "proto/zanzi/zanzi/domain/relationship.proto:71-72", "internal/policy/service.go:25-70", "pkg/api/policy_service.pb.gw.go"]}
{"id": "C120", "title": "A client of the REST gateway sees what a client in the same process sees", "statement": "A client that posts its calls one after the other to the REST gateway and reads the documents that come back sees, call by call, the responses and errors that it would see in the same process, apart from missing records of lists, and leaves the same store, whatever style it and the gateway write in, as long as the clock is not after the year 9999.", "quantifier": "all sequences of calls of any length that can be sent over gRPC, all styles of writing", "why_tests_cant": "Quantifies over all histories; the gateway has no tests and no program of the repository starts it.", "anchors": ["pkg/api/policy_service.pb.gw.go:34-640", "pkg/api/relation_graph.pb.gw.go:34-470", "pkg/server/server.go"]}
{"id": "C121", "title": "zanzid keeps what it stored", "statement": "However zanzid processes are started, asked, stopped and killed on a machine, every request is answered from exactly the requests that daemons on the same directory served before, in this order; of requests that a kill cut short, exactly the storage operations that were done count. A start leads to a serving daemon exactly when its flags are known, its directory can be found and used and no other daemon has it, and its address can be used and is free; a flag given twice counts as last given. Two daemons never work on the same data at the same time, and a start that does not lead to a daemon changes nothing that can be seen later.", "quantifier": "all sequences of starts, requests, stops and kills of any number of processes, with requests cut short in any order at any point, all command lines, all hosts", "why_tests_cant": "zanzid has no tests; the claim is about all histories of several processes.", "anchors": ["cmd/zanzid/main.go:13-45", "pkg/server/server.go:21-71", "zanzi.go:31-84"]}
{"id": "C122", "title": "A zanzid that does not serve says so by its status", "statement": "A zanzid process that was asked to serve and does not come to serve ends with a status other than 0.", "quantifier": "all command lines without --help, in all states of the machine", "why_tests_cant": "Quantifies over all command lines and states; main has no tests.", "anchors": ["cmd/zanzid/main.go:13-39"]}
{"id": "C123", "title": "A user of zanzi-cli sees what a client in the same process sees", "statement": "In a session of zanzi-cli commands, one after the other, each given by its input document and its flags, a program that reads the output of a command as JSON finds the response that a client in the same process would get for the call that the command stands for; commands that get an error fail, and commands whose input or flags are refused fail and change nothing. The exit status is 0 exactly for the commands that were answered. The data of the server changes as by the calls.", "quantifier": "all sequences of commands of any length, all input documents and flags, all styles of writing", "why_tests_cant": "zanzi-cli has no tests; the claim is about all sessions, through flags, JSON, protobuf and the server.", "anchors": ["cmd/zanzi-cli/main.go:19-33", "pkg/api/policy_service.cobra.pb.go:42-76", "pkg/api/relation_graph.cobra.pb.go:39-73", "pkg/server/server.go"]}
