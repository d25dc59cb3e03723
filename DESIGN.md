# Formal model of zanzi: design

All of the code was read as text from `/repo` (sourcenetwork/zanzi at the pinned commit). Nothing was built or run.
The model is in `rocq/theories/`. It is written in plain Gallina (Coq 8.16.1, standard library only).

## 1. What is modelled

Every definition of a model file cites the Go file and lines it follows, and says where it simplifies.

| theory | /repo code | how |
|---|---|---|
| Base | Go strings, errors, panics, maps | `string` = byte string; `res A` = `Ok / Err / Panic / Fuel`; sorted association lists for ordered key-value stores |
| Domain | pkg/domain | records for policies, relationships, selectors, nodes; unset `oneof`s and nil message pointers are explicit cases |
| Book | internal/policy/selector_spec.go with the bookkeeping fields of the generated message structs (pkg/domain/*.pb.go) | what printing, encoding and decoding do to them is written down from protobuf-go v1.31.0 |
| LexPos, ParserText | the same lexer and parser again, with token positions and error texts (lexer.go, parser.go, primitives.go) | the lexer as the state machine of the source: start, position, step width; proved to give the tokens and trees of Lexer and Parser (C105, C106) |
| Blame | the methods of both services again, with the exported errors (api.ErrInternal, api.ErrInvalidRequest, domain.ErrInvalidVariant) that each error wraps | %w keeps and %v loses; errors of the libraries wrap none of the three; proved to give the answers of Service and Dump, also with failing operations and beside other requests (C111) |
| Lexer, Parser | internal/relation_expression_parser; RelationExpression() of pkg/domain (the printer, in Parser) | UTF-8 decoding, scanner, parser combinators on fuel that is proved sufficient |
| ParserWork | internal/relation_expression_parser/parser.go, primitives.go | the same parsers, with every token looked at and every error message built (buildErr) recorded; the work of the lexer is not counted |
| Chan | lexer goroutine, channel, ConsumeChan | small-step machine: bounded buffer, producer, consumer |
| Validate | internal/policy/spec.go, helpers.go, types.go, selector_spec.go | function by function |
| Yaml | pkg/policy_definition after YAML decoding | maps as association lists in arbitrary order |
| YamlDoc | pkg/policy_definition/unmarshaler.go on YAML node trees | decoding rules of yaml.v3; decoded maps as lists sorted by key |
| Store | internal/store/kv_store | programs (a free monad) over atomic key-value operations |
| Search | internal/relation_graph/searcher.go, goal_tree.go, rule_evaluator.go | a program that reads the store once per rule evaluation; recursion on fuel that is proved sufficient. `Section Graph` is the same search with all reads answered by one list of edges; `SearchRun.run_search` proves that both agree when nobody writes |
| Explain | internal/relation_graph/goal_tree_serializer.go | JSON: the pointer graph that encoding/json walks; DOT: the statements that are added; spew: only that it returns text |
| Service | internal/policy/service.go, internal/relation_graph/service.go | programs over the same operations, in the order of the code |
| Dump | internal/relation_graph/walker.go, relation_tree_serializer.go | graphs as node and edge lists; recursion on fuel; the DOT statements that are added |
| MapGraph | pkg/types/map_graph.go | node map, forward and backward edge maps |
| DiGraph | pkg/types/graph.go | node map, edge maps by source and by destination, nil maps, encoding and decoding; DOT: the statements that are added; no caller in the repository |
| Api | pkg/api services, pkg/server/server.go, zanzi.go | requests, answers, interleavings and crashes |
| Config | zanzi.go (New, the options, setDefaults, init) | a host process with key-value stores by number, LevelDB directories that hold one store and can be open once, and restarts |
| Client | pkg/domain/selector.go, RelationshipBuilder of relationship.go, the response messages of ExplainCheck and Expand | a fold over the builder calls; the texts of the responses are the trees |
| Layout | internal/store/kv_store/kv_store.go (key prefixes) | one flat store of byte keys; the same programs run on it |
| Daemon | cmd/zanzid/main.go, pkg/server/server.go | the process: arrivals over time, storage operations, panics that end it, kills and starts on the same directory |
| Fault | the error returns of the repositories, searches and services | executions in which storage operations fail, with or without effect |
| Wire | proto/ (field numbers), kv_store.go (rcdb.ProtoMarshaler), protobuf-go v1.31.0 | encoding and decoding of records and of the requests that store something: varints, fields, proto3 presence, merging, UTF-8 checks, recursion limit; the same programs run on a store of bytes |
| Rpc | proto/zanzi/zanzi/api, proto/zanzi/zanzi/domain, *_grpc.pb.go, pkg/server | the fourteen request and response messages with encoders and decoders, what a server does with a decoded request, what a remote and a local client get |
| Cli | pkg/api/*.cobra.pb.go, cmd/zanzi-cli/main.go | the flags of the fourteen commands, the variables behind oneofs, proto.Merge of the flags' request into the input; texts of flags are taken as already read |
| Json | pkg/api/*.pb.gw.go, the input of pkg/api/*.cobra.pb.go, protojson 1.31, proto/ (both names of every field) | documents as trees (the syntax of JSON texts is left out): readers and writers of the fourteen requests, names and numbers of enums, base64, oneofs, maps, null, unknown and repeated members; paths of the gateway |
| JsonReply | the same files: responses; protojson 1.31 (uint64, Timestamp), package time (Time.date) | readers and writers of the fourteen responses, dates, a client of the gateway; left out: numbers with exponents, time zones and other numbers of digits after the second, which protojson does not write |
| CliRun | cmd/zanzi-cli/main.go, the commands of pkg/api/*.cobra.pb.go | a command from its input and flags to its output and status, over Json, Cli, Rpc and JsonReply |
| Zanzid | cmd/zanzid/main.go, pkg/server/server.go | flags, start, listening, end and kill of any number of zanzid processes that share database directories; left out: port 0, Serve failing later, flags without a value |
| Limits | pkg/server/server.go (grpc.NewServer without options) | Rpc with limits on the length of received messages |
| Net | pkg/server/server.go (a goroutine per request) | several remote clients: arrivals, storage operations and deliveries in any order, down to Limits, Rpc and Wire |

Executions. `run` executes one request alone, `crash n` stops it after n storage operations, and `interleave sched`
runs any number of requests, one storage operation of the request named by the schedule at a time.
`reachable E s` holds for every store that any number of rounds of concurrent requests can leave, each round cut off
at an arbitrary point (so crashes are included). `sequential E s` is the smaller set of stores that complete requests,
one after the other, leave. `play sched` (SpecSessions.v) interleaves clients that each send their next request only when
the one before is answered. Theorems are stated for `reachable` stores; refutation witnesses are `sequential`.

Fuel. `Fuel` is an extra outcome for "the bound of the model was reached". It is proved impossible for the parser
(C02), and for the searches with a large enough bound (C24, C53). For DumpRelationships it can persist for all bounds:
that is the endless recursion of C37.

### Not modelled

* raccoondb, gRPC framing, limits on the length of sent messages (2 GB), error texts and status codes, protobuf groups and the keeping of unknown fields (skipped: C108; kept only in Book.v), YAML text syntax (with anchors, aliases, merge keys and !!binary), gographviz quoting, spew text, logging, error message texts other than those of the expression parser.
* Context cancellation (only the generated gateway code looks at the context). Storage failures are modelled in Fault.v only: all theorems except
  C68 and C69 are about storage that works, and C68 carries them over to the requests that are not hit.
* pkg/types/option.go, tuple.go; how cmd/zanzi-cli finds its input, connects and chooses formats other than JSON (the example program and the tests are cases in CasesRepo.v).
* The Go memory model within one request: every request builds its own Searcher and builder (service.go:41-43, 96-98,
  155-157), and the only shared state is the store.

## 2. What is trusted

* Coq's kernel, and the axioms that `Print Assumptions` lists for each theorem: every theorem of the manifest is "Closed
  under the global context". (The 7 axioms that a global scan of the build finds, `Coq.ssr.ssrunder.Under_rel.*`, are declared by
  the standard library's module type for ssreflect's `under`; no theorem uses them.)
* raccoondb (not on this machine): a typed key-value store whose Get/Set/Delete/Has/List act as one atomic operation
  each on an ordered map, and whose successor query returns the edges stored under a source key. Setting an edge is one
  operation, although raccoondb may write several keys for it.
* grpc-go (not on this machine): each request is handled in a goroutine of its own and panics of handlers are not recovered
  (Daemon.v, C94); it delivers the bytes of a message unchanged (Rpc.v, C100) and refuses received messages above 4 MiB (Limits.v, C101).
* cobra, pflag and protoc-gen-cobra (not on this machine; Cli.v and CliRun.v, C112, C113 and C123 only): flags are set in their order, those of the environment last; a
  text or enum flag replaces the value, a slice flag appends, a map flag adds; the hook of a flag runs whenever it is set. proto.Merge is as documented,
  and C113_law proves that it agrees with decoding concatenated messages.
* cobra and package net for zanzid (Zanzid.v, C121 and C122 only): the last value of a flag counts, unknown flags are refused before Run, a socket is used by one process at a time; LevelDB's
  lock on a directory holds between processes and ends with the process.
* protojson 1.31 and grpc-gateway (not on this machine; Json.v and JsonReply.v, C114 to C120 and C123 only): the rules that these files write down for names, null, repeated and unknown members, enums, numbers and
  base64; the gateway matches whole paths, ignores unknown members and takes an empty body as an empty message; HTTP below that is not modelled.
* spew, encoding/json and gographviz make UTF-8 texts of trees and dumps whose names are UTF-8 (`texts_ok`, C100 only).
* Relationship edges of different policy ids live in disjoint tables. `Layout.v` models what kv_store.go does instead, one flat
  store in which the raw policy id is a key prefix, and C89 proves that the two servers give the same answers as long as
  the ids in use do not continue each other. What stays trusted is that raccoondb's wrapper puts its prefix before each key
  and iterates over exactly the keys with that prefix. The second index that raccoondb may keep is left out.
* sha256 is an arbitrary function in every theorem. Where distinguishing names matters, the theorem has an explicit
  hypothesis about the names in use, or is stated for a collision-free hash. base64 is left out (it is injective).
* protobuf: a set `oneof` member is not a nil pointer and list elements are not nil (gRPC decoding guarantees it). Unset
  `oneof`s and unset message fields are modelled. `Validate()` as generated has no field rules, so it always succeeds.
  `reflect.DeepEqual` on messages (selector_spec.go) is modelled as equality of fields; it also compares protobuf's
  internal state, which Book.v models: C107 proves that equality of fields is right for fresh messages, and what happens otherwise. A map without entries is decoded as a nil map (C86 rests on it).
* google.golang.org/protobuf v1.31.0 (not on this machine): its wire format, proto3 rules, UTF-8 checks and recursion limit (10000) are written
  down in Wire.v from its documentation; only C98 to C102 rest on them. All other theorems are about typed records, which C98 justifies.
* gopkg.in/yaml.v3 v3.0.1 (not on this machine): its rules for decoding a node tree into strings, string lists, maps and
  structs with KnownFields are written down in YamlDoc.v; C71, C72, C73 and C38_documents rest on them.
* LevelDB (goleveldb, not on this machine): a directory can be open once at a time, and keeps its store after the process ended; C79 and C80 rest on it.
* `FQN.String()` used as a map key is modelled as the pair of names (injective).
* Unicode classes above U+00FF are an arbitrary parameter. Latin-1 is concrete.
* A panic ends the request only: there is no recover interceptor in server.go, so a panic really stops the server, which
  for the store is a crash.

## 3. Properties

"Refuted" means that the faithful model violates the claim: a `_refuted` theorem gives a witness or proves the opposite
for all inputs, and a `_partial` theorem proves the strongest restriction found. Statements use only the API model (`request`,
`answer`, `interleave`, ...) and the specifications in `Spec*.v`, which do not mention the functions of the model that
implement the claim.

| id | status | how it is proved, or refuted |
|---|---|---|
| C01 | proved | induction on trees through the declarative token relation of C02 |
| C02 | proved | scanner = inductive token relation; parser = inductive left-recursive grammar; fuel bound |
| C03 | proved | corollary of C02 on token lists |
| C04 | proved | induction on the prefix; UTF-8 boundary lemma |
| C05 | proved | invariant buffer ++ unsent = unreceived; measure decreases on every step |
| C06 | refuted | `_this_one` lexes as `_this` and `_one`; proved for names that do not begin with `_this` |
| C07 | proved | reflection of each check into a declarative well-formedness predicate |
| C08 | refuted | tuple-to-userset onto an object whose resource lacks the relation; unset tree; unknown operator. Proved under the missing conditions |
| C09 | refuted | a relation without expression panics; proved when the fields are set |
| C10 | proved | reflection into a declarative predicate |
| C11 | proved | every program writes only on paths that return Ok |
| C12 | refuted | a relation without subject restriction is stored, then SetRelationship panics; proved otherwise |
| C13, C14 | proved | refinement to a function-valued map over request histories |
| C15 | refuted | records are stored without the policy id (two policies share them), keys are concatenated names; proved for distinguishable relationships of one policy |
| C16 | refuted for records | proved for policies, relationships and decisions |
| C17 | refuted | a grant on `file:s1` is a grant on `files:1` (same key text); proved for distinguishable names |
| C18, C19 | proved | invariant: every edge is stored under its own key; induction on the list of matches |
| C20, C21 | refuted | GetResourceName of an entity set returns its relation; a relation name under any object panics; exact characterisation of the failing selectors |
| C22, C23 | proved | direct |
| C24 | proved | measure: identities in the finite universe not yet visited |
| C25 | refuted by key alias | induction on the search against an inductive membership relation |
| C26 | refuted by node alias | depth-first search invariant: when the search fails the visited set is closed under rewriting |
| C27, C28 | refuted | terminal nodes are marked seen too, so `a & b` never authorises and `a - b` never subtracts, unless resource-wide subjects are involved |
| C29 | proved | certificate predicate on the returned tree, exact against a two-valued inductive semantics |
| C30 | refuted by node alias | from C25, C26 and monotonicity of the membership relation |
| C31 | refuted for DOT | same search; the DOT serializer dereferences the nil object of a tuple-to-userset over a resource-wide subject that the search never looked at; text agrees always, DOT under the missing condition |
| C32 | refuted for all checks | the goal tree is cyclic (exported Parent fields), so JSON always fails |
| C33 | proved | visited-set invariant with no goal (Expand stops after the left operand of `&`) |
| C34 | refuted | empty ids and slashes; proved for names without '/' that are not empty, under a collision-free hash |
| C35 | refuted | tuple-to-userset over a resource-wide subject dereferences nil; proved under the missing condition |
| C36 | proved | sorted stores with equal contents are equal |
| C37 | refuted | cycle below a top node: endless; other cycles: left out; exact: ends iff no cycle under a top node, shows exactly what is under top nodes, complete iff acyclic (shared edges repeated) |
| C38, C39 | proved | permutation invariance of sorting by distinct names |
| C40, C41 | refuted | enumeration of program prefixes; exact set of crash states |
| C42, C43, C44 | refuted by a schedule | single-writer forms proved by invariants over all interleavings |
| C45 | proved | projection of a schedule to one policy |
| C46 | proved | invariant over insertion sequences |
| C47 | refuted | a YAML relation without `expr` is always rejected, although the documentation allows it |
| C48, C49 | proved | invariant over all interleavings: every change is justified by a request |
| C50 | proved | the reads of a request are performed in the stores of its own steps (`outcome`); soundness of the decision relation for any oracle of rule evaluations |
| C51 | proved | the invariant of C26 with two relations: what every read finds and what some read finds |
| C52 | refuted both ways | writes between two reads of one search; proved when nobody writes about the policy |
| C53 | proved | structural induction on the program along a fair schedule; the measure of C24 over all edges that can ever be stored |
| C54 | proved | structural induction on the search tree: fresh counter values name the objects; reading along the edges is unique; labels end in results of equal length |
| C55 | refuted | no escaping: an id with a quote; proved without quotes |
| C56 | proved | induction on the search: every step of the tree is right by itself (`right_step`), skipped nodes have an identity that the tree evaluates |
| C57 | proved | potential function over the nodes not yet seen, in a weakest-precondition style calculus that counts operations; reachable nodes counted against the relationships |
| C58 | refuted for `&` | exchanging the operands of an intersection changes the decision, for every collision-free hash; proved for unions from C26 |
| C59 | refuted for DeleteRelationships | every stop inside the loop is characterised; proved for the other requests, and for repeating completed ones |
| C60 | proved | footprints (`within`): each request runs in lockstep with its solo execution; stores that agree at all places are equal |
| C61 | refuted for records and answers | two schedules; for the graph: the order of the edge operations is the order of the requests |
| C62 | proved (unions) | key-level effects of every request (`key_changes`), an invariant from the moment of the acknowledgement on (`later_inv`) |
| C63 | proved (no differences) | the same invariant for absence; justification of C50 made relative to the beginning of the Check |
| C64 | refuted for updates that take something away | general theorem and two histories; proved along widening histories |
| C65 | refuted for shared keys and shared records | general theorem and witnesses; store equality otherwise |
| C66 | refuted for FindRelationshipRecords and DumpRelationships | two schedules; proved for the single reads; moments of the parts for the others |
| C67 | refuted: exponential | exact count: the additions of a dump are in bijection with the paths from top nodes; a ladder of groups has 2^n of them |
| C68 | proved | simulation: an execution with failures is one without in which the failed requests stop |
| C69 | refuted: the writes of a request are not undone | a failure leaves exactly the store of a stop before or after the operation; partial for requests that write once and for repeated requests |
| C70 | proved | induction over goal trees for every outcome of the search program whose reads are answered by the stores of its own steps |
| C71 | proved | a field of a decoded struct is determined by the one entry with its key; path-wise uniqueness; writer for the converse |
| C72 | refuted: null keys, null list elements and later documents are dropped | partial: all keys are known fields and unique |
| C73 | refuted | every document with a field that only the reference knows is rejected |
| C74 | proved | successful searches are monotone in the build function; searches depend on reached nodes only |
| C75 | refuted for intersections: widening the left operand makes it visit (and hide) what the right one needs | partial: unions, by membership |
| C76 | refuted for intersections (all & direct lists everybody) | partial: equivalence for unions; authorised implies listed for every policy; C33_expand_unfolds says exactly what Expand evaluates for all operators |
| C77 | proved | without shared nodes the visited set never hides anything, so every goal tree is certified (C29); the equations are solved by recursion on the length of ways |
| C78 | refuted for a reused WithMemKVStore value | partial: projection of call histories to a store; the store of New is fresh |
| C79 | refuted for New without options | partial: invariant that directories keep their stores through all steps and restarts |
| C80 | refuted: directories stay locked | exact characterisation of success by induction on the options |
| C81 | refuted for ids, policy ids and names | partial: oneofs; relationships of policies without empty names |
| C82 | refuted for incomplete builds | partial: fold over the calls equals the last call of each kind, then C19 |
| C83 | refuted for ExplainCheck | partial: ExpandResponse, and SPEW |
| C84 | refuted for intersections and for the empty id | partial: least fixpoint and solutions transported along the renaming, then C26 and C77 |
| C85 | refuted for incomplete messages | partial: the store invariant follows from C48/C49 at every moment, and every program answers without panic when all its reads come from such stores |
| C86 | holds but for nil maps after decoding | partial: snoc induction over the calls; two sorted maps of maps kept in step; refutations for decoded graphs and edge labels |
| C87 | refuted; exact condition given | partial: the escaped text is the inside of a DOT string iff no backslash stands before a quote or at the end |
| C88 | holds but for the default store | partial: the last option that speaks of a field decides; New without options opens no directory |
| C89 | false for ids that continue each other | partial: simulation between the flat and the typed store, one operation at a time, lifted to schedules and lives; refuted: the scanned prefix begins the other policy's keys |
| C90 | refuted by key alias | partial: induction on the search against the least set closed under the expressions without subtractions; without resource-wide subjects also without intersections; exact for `l - r` over unions (failed searches of l are closed under rewriting) |
| C91 | refuted for two kinds of selectors | partial: inductive relation `cause` between stores, requests and errors (SpecErrors.v); every error of every other request has its cause, the causes named for policies and relationships are real faults, and missing/existing policies, ill-formed policies and undeclared relations are always reported |
| C92 | yes, for clients that keep to the rules | refinement of a declarative service (SpecRefine.v: two maps, least fixed point, no keys and no search) by simulation along histories; the declarative service is shown to be determined; refuted when ids do not keep to the rule |
| C93 | yes, for clients with policies of their own and distinct storage keys | simulation: each client runs in step with a copy that has the store for itself; the places of different clients are disjoint because edges listed under a client's policies are always images of relationships it named; refuted without the condition on keys |
| C94 | refuted for the process as a whole | one malformed message ends the process and cuts every other request short at any point; proved: arrivals over time, kills and restarts stay within `reachable`, answers are those of concurrent rounds, and careful requests (C85) never end the process |
| C95 | refuted for relationships that another policy shares | partial: the history with and the history without the policy run side by side (places of C93); records without relationship cannot occur in sequential histories |
| C96 | proved | deleting keys commutes; stores that agree at all places are equal |
| C97 | refuted: the discarded error messages of an accepted expression are quadratic | partial: steps linear (15 per consumed token, a failure ends all groups around it), shown tokens at most quadratic |
| C98 | protobuf bytes decode to what was encoded; servers on bytes and on typed records answer alike | proved, for requests received over gRPC and all others whose records fit |
| C99 | refuted: an embedded client can create a policy that is too deep to be decoded | partial: exact limit, other requests unaffected, deletion works, text that is not UTF-8 changes nothing |
| C100 | calls and responses survive the encoding; remote and local clients see the same, except for missing records of lists and policies at the depth limit | partial: two refutations |
| C101 | with gRPC's limits on message lengths: refused calls change nothing, carried-out calls are answered, what is stored can be read | partial: three refutations |
| C102 | remote clients at the same time: each is told what an ideal service of its own would tell, and every call is answered | partial: refuted for clients outside the rules |
| C103 | a search beside requests that change nothing it consults is answered as if alone | proved |
| C104 | while relationships are only added, or only removed, a check of a union-only policy answers as at one of its own steps, and decisions do not flip back | proved |
| C105 | the tokens cover the text at the recorded byte positions; the error token stands where the text stops being readable | proved |
| C106 | a refused expression is answered one of three messages, and the leftovers follow the longest expression | proved |
| C107 | what a selector selects depends only on what it says | refuted for messages that were printed, encoded, or have unknown fields; proved for fresh ones |
| C108 | later versions of the messages are understood: requests, responses and stored records with further fields, another order of fields and empty texts written or left out, at any level | proved |
| C109 | Check for all operators is decided by the first way to the subject, in the order of operands and listed relationships; whoever no refusing step leads to is authorised | proved |
| C110 | Creation times tell when something was created | refuted for policies deleted and created beside an update and for relationships set again; proved for policies that nobody deletes; records are those of one request |
| C111 | The marks of an error say whose fault it is | refuted for errors without marks (policy service, failures and errors inside searches, unset object selector of Find); the marks that are there are proved right, and exactly when they are there |
| C112 | The flags of a command say which request it sends | refuted: no wildcards, false counts as true; proved: meaning of flags both ways, exactly which requests flags can give, no panic from commands that write nothing |
| C113 | A command sends its input with its flags laid over it | refuted: missing parts are filled in, empty texts do not override, lists add up; proved: the law of concatenated encodings, what is sent without flags, which policy, full requests override, no panic for inputs with whole members |
| C114 | JSON documents carry exactly the requests of the API | proved |
| C115 | What counts in a JSON request, and what is refused | proved; unlike bytes, where the last of two fields counts |
| C116 | Every complete request can be given to zanzi-cli as JSON input | proved; closes what C112 leaves open |
| C117 | The REST gateway serves what was posted | proved |
| C118 | JSON documents carry every response | proved |
| C119 | Creation times are shown as the dates they are | proved |
| C120 | A client of the REST gateway sees what a client in the same process sees | proved; refuted for clocks after the year 9999 |
| C121 | zanzid keeps what it stored | proved |
| C122 | A zanzid that does not serve says so by its status | refuted for unknown flags (finding); proved once the flags are known |
| C123 | A user of zanzi-cli sees what a client in the same process sees | proved |

## 4. Findings about the code

The refutations above are findings. Others met on the way:

* FindRelationshipRecords can return nil records when another policy deleted the shared record.
* A resource-set subject satisfies a restriction that names an entity of the resource (spec.go), so a restriction cannot forbid it.
* After a crash in DeletePolicy the relationships stay, a second DeletePolicy does nothing, and creating the policy again brings them back (C41).
* A completed Check can crash ExplainCheck in DOT format (C31_dot_refuted): nodes the search did not visit are still drawn.
* The DOT serializers do not escape labels (C55), and the goal tree serializer ignores the errors of its handlers.
* A panic in one request stops the whole server (no recover interceptor).
* DeleteRelationships that is cut off can leave relationship records that only deleting the single relationship removes (C59), and so can a race of SetRelationship and DeleteRelationship (C61).
* **C64**: `UpdatePolicy` validates the new policy only (UpdateStrategy has one value, IGNORE_ORPHANS, which no code looks at). Relationships that the new policy does not admit stay stored, can no longer be set, still grant access when the relation is still reachable, and grant it again when a removed relation comes back.
* **C65**: setting and deleting a relationship can destroy another one: node keys are hashes of the concatenated texts, so `team`/`s1` and `teams`/`1` collide for every hash function; and the record of the same relationship in another policy is deleted with it.
* **C66**: `FindRelationshipRecords` beside `DeleteRelationship` can return a nil record in its list; `DumpRelationships` beside `DeletePolicy` can show part of the relationships.
* **C67**: `handleNode` visits a shared node once per path to it, so dumping 4n+1 nested group memberships takes more than 2^n additions to the graph (edges are not deduplicated by the graph library).
* **C69**: no request undoes its writes when a later storage operation fails. SetRelationship that answers with an error can have stored the relationship so that it authorises (and GetRelationship does not show it); DeletePolicy that answers with an error can have removed the policy and left its relationships.
* **C72**: entries with a null key, null elements of `types` and all YAML documents after the first are dropped without an error.
* **C73**: docs/policy-definition.md requires `version` and describes `description`, `actors` and `permissions`; the decoder is strict and has none of these fields, so every document with one of them is rejected (the reference's own example included).
* **C75**: replacing `direct & all` by `(all + direct) & all` revokes the access of a subject that is in both, because the widened left operand visits the shared node first.
* **C76**: Expand of `a & b` evaluates only `a`: without a goal the left operand always fails. Everybody in `a` is listed, whether in `b` or not.
* **C78**: `opt := WithMemKVStore(); New(opt); New(opt)` gives two instances with one store, unlike WithDevelopmentConfig, which makes a store on every application.
* **C79**: the comment of New says that without options data is stored under DefaultDataDir; setDefaults takes a store in memory, and there is no DefaultDataDir.
* **C80**: New does not close the LevelDB directory of an earlier option when a later option fails; there is no way to close a store at all.
* **C81**: policy.proto and relationship.proto declare `min_len = 1` and required oneofs, but the generated `Validate()` methods have no rules, so empty policy ids, resource names, relation names and entity ids are stored.
* **C82**: `SelectorBuilder.Build` leaves selectors that were not given nil; DeleteRelationships dereferences them and panics.
* **C83**: ExplainCheck does not set `format` in its response (relation_graph/service.go:133-136), unlike Expand.
* **C84**: whether `direct & all` authorises bob depends on which of two groups has the smaller sha256 sum: if the group that contains bob is searched first, bob's node is marked seen and the right operand fails; if the group that contains all users is first, bob is authorised.
* **C85**: the rules a client must keep so that the server never panics are: all message parts present (parts of selectors may be unset), a subject restriction on every relation of a policy that is not YAML, no relation name together with `any object` in FindRelationshipRecords, and no whole resource as the subject of a relationship whose object and relation text ends with the name of a tupleset. YAML policies keep the second rule by construction. With these rules no interleaving and no crash leads to a panic; each rule broken alone does (C09, C12, C21, C35, C82).
* **C86**: a MapDiGraph that was sent without nodes or without edges cannot be extended by the receiver: protobuf leaves the empty map nil, and AddNode or AddEdge writes to it. GraphToDOT drops the labels of edges.
* **C87**: `mapId` escapes quotes but not backslashes, and labels are not escaped at all, so ids like `a\` and data with a quote give a DOT file that does not parse.
* **C88**: New's comment promises data under DefaultDataDir when no option is given; the data is kept in memory only. The default logger is `zap.S()`, which writes nothing until the process replaces zap's global logger (zap's documentation; not modelled).
* **C89** (if raccoondb's wrapper concatenates prefix and key, as its name says): kv_store.go uses the raw policy id as a key prefix without length or terminator. A policy whose id continues another id with the library's separator shows its relationships in the other policy's FindRelationshipRecords, DumpRelationships and deletion counts; if it continues with a node key, its relationships grant access in the other policy. Ids are not restricted, so whoever may create policies may choose such an id.
* **C90**: for subjects named one by one, a relation `l - r` over unions is decided by `l` alone: the subtraction never has an effect (C90_left_decides is an equivalence, not only an example).
* **C91**: a FindRelationshipRecords selector with an entity set `group:eng#member` as its subject answers `resource not found` though group and member are declared (same cause as C20: GetResourceName of an entity set returns its relation); a selector for relation `reader` under any object of a policy that declares a resource with the empty name answers `relation not found`. All other errors of all requests have their stated cause.
* **Errors (C91)**: ErrInvalidPolicy and ErrRelationshipNotFound are declared but never produced; ErrInvalidRelationship can only come from the generated Validate, which has no rules and never fails. The model keeps one sentinel per error and drops the wrapping texts and causes. The integration test TestSetRelationshipWithEmptyObjectErrorsOut (test/integration/policy_service_test.go:491-503) expects it for an empty object id; by the model that request is accepted (the buf.validate rules of relationship.proto are not compiled into the generated Validate).
* **C92 (positive, with rules).** The rules under which the server behaves as an ideal service are the collected repairs of the other findings. Delimited ids: C15/C25 (shared keys). No slashes and non-empty ids: C34. One policy per relationship: C15/C16. Unions only: C27/C28. Restricted relations: C12 (panic). Followed relations restricted to objects that declare the computed relation: C08. Updates that keep the stored relationships admissible: C64. Complete and plain selectors: C20/C23. Text or DOT formats: C32. Drawings without cycles: C37. `C92_rule_on_ids_needed` keeps the witness for the first rule next to the theorem; the others are in the files of the properties named.
* **C93 (positive, with a condition).** Isolation of single requests (C60) does not give isolation of sessions, since FindRelationshipRecords, DeleteRelationships and DeletePolicy go from listed edges to record keys that the request itself does not name. The invariant that every listed edge is the image of a named relationship closes that gap. The condition on keys is the shared record table again (C15/C16): `C93_keys_needed` is a schedule in which DeleteRelationship in policy q removes the record of the same relationship in policy p.
* **C94.** `grpc.NewServer` gets no recovering interceptor and grpc-go does not recover panics itself, so every panic of C09, C12, C21, C35 and C85 ends the process for all clients. `C94_cut_short_refuted`: for every life of the process, every request and every n there is a continuation in which another client's GetRelationship without a relationship stops the request after n storage operations; it is not answered and the store is the one of `crash n`, so the half-done states of C40 and C41 can be brought about by any client at will.
* **C95.** Making a policy, setting a relationship that another policy also holds and deleting the policy destroys the other policy's record of it (for every hash function): the graph still authorises through it, GetRelationship does not show it.
* **C97.** buildErr formats all remaining tokens, and every name in an expression is first tried as _this and as a tuple-to-userset: parsing a valid expression of n terms formats about 3n² tokens that nobody sees. (Deeply nested parentheses recurse once per level, on Go's growing stack, which the model does not bound.)
* **C99.** proto.Unmarshal stops at 10000 nested messages, proto.Marshal does not. An embedded client that creates a policy whose expression tree has more than about 5000 levels gets a success; afterwards GetPolicy, UpdatePolicy, CreatePolicy, SetRelationship and Check for that id fail with a storage error until DeletePolicy. Over gRPC the request is nested one level deeper than the stored record, so the server refuses it first. Names that are not UTF-8 (embedded clients only) pass validation and fail in the store.
* **C100.** FindRelationshipRecords can return a list with a nil record (an edge whose data is gone: C15, C16, crashes). Over gRPC the nil becomes an empty record, without policy id, relationship or time, that looks like a real one. And a policy of the greatest depth that can be stored is one level too deep for the response of GetPolicy: embedded clients read it, remote clients get a decoding error.
* **C101.** The server is made without options (server.go:47-50), so grpc-go refuses messages above 4 MiB on both sides. The response to CreatePolicy repeats the whole policy and the application data and adds a time, so it is longer than the request: a policy at the limit is created and its creator gets an error. FindRelationshipRecords has no paging, so two records of 2 MiB, or some tens of thousands of ordinary ones, can no longer be listed by remote clients.
* **C102.** `C102_empty_message_refuted`: from every state of the server and its clients, a CreatePolicy call whose message is empty (zero bytes) panics in its handler; the process ends, its sender sees the connection break and no other client is ever told anything again.
* C106: the parser never says what is wrong inside an expression. A missing closing bracket at the beginning is answered "expression needs: term" with all the tokens; a dangling operator is answered as leftover tokens. The messages of the inner parsers (`opTerm needs: op + term`, `TupleToUserset needs: identifier arrow identifier`) are built and dropped.
* C107: selector_spec.go compares messages with reflect.DeepEqual. An embedded client that logs a record and then uses its object or subject as a selector finds nothing, and DeleteRelationships answers 0 without an error and leaves the relationships in place. A remote client with a newer schema that sends one more field in the entity has the same experience. `proto.Equal` would fix both.
* **The order of operands decides (C109).** A union whose first operand is an intersection refuses everybody that the intersection's left operand leads to, also when the second operand alone would authorise them: `(a & b) + c` refuses a member of `a` and `c`, `c + (a & b)` authorises them. C109 states exactly who is authorised.
* **Creation times (C110).** `created_at` of a relationship is documented as its creation time, but SetRelationship writes a new one each time. A policy that is deleted and created again while an update is under way gets the creation time of the deleted policy.
* **Marks of errors (C111).** api.ErrInternal and api.ErrInvalidRequest are wrapped only by the relation graph service, and there only for the first read, for the format and for writing the tree. A failure of the storage inside a search has no mark. spec.go:374 prints domain.ErrInvalidVariant with %v where all other places use %w.
* **zanzi-cli (C112, C113).** The generated commands have no flag for `any object`, `any relation` or `any subject` (the messages are empty), so find-relationship-records and delete-relationships need JSON or YAML input for them. Boolean flags of oneofs choose their member whatever their value. Flags cannot reset a field of the input to empty, and `resources` of flags are added to those of the input. Because commands always send the parts of a message, they never send those that make the server panic (C85), unless the input has an oneof member without its part.
* **JSON (C114 to C117).** Documents and bytes carry the same requests, but not with the same tolerance: repeated fields, two members of a oneof and unknown names of enum values are accepted in bytes and refused in JSON. A line break after padded base64 makes application data unreadable, because the length with the break decides whether padding is expected (C114_example_breaks). No program of the repository registers the gateway.
* **Responses as JSON (C118 to C120).** Over REST a client sees what it sees over gRPC, with the same exception (a nil record of a list comes as an empty one). There is one way to fail that gRPC does not have: times after the year 9999 cannot be written, so CreatePolicy would store the policy and report an error.
* **C122**: main ignores the error of `rootCmd.Execute()` (cmd/zanzid/main.go:13-15): zanzid with a mistyped flag (`--data-dir` for `--data_dir`) prints an error, serves nothing and ends with status 0, so that a supervisor takes it for a success.

## 5. Tests of the theorems

`seeded/LOG.jsonl` lists wrong programs: one edit of a model definition each, the claim it breaks, and the proofs that
failed in a rebuild.
`CasesBytes.v` compares the encoders and decoders with bytes that a separate program (written from the protobuf
specification, not from the model) produced, also for messages that protobuf-go reads but would not write.
`CasesRepo.v` runs every test function of the repository (lexer, parser, printer, map graph, YAML, repository, policy
service, relation graph service) and the embedded example program on the model. They all give what the tests require,
except two tests that require what the code does not do either: `TestCreatePolicy` requires an empty response where
service.go:60-62 returns the record, and `TestSetRelationshipWithEmptyObjectErrorsOut` requires an error that the
generated validation code, which has no rules for ids, never gives (C81).
