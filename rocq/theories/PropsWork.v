(** Properties of the work of requests: C57. *)
From Verif Require Import Base Domain Lexer Parser Validate Store Search Explain Yaml Service Dump Api
  SpecGrammar SpecPolicy SpecStore SpecSearch SpecConc SpecWork Fixtures BaseFacts ParserFacts ValidateFacts StoreFacts PolicyFacts RelFacts
  SearchFacts SearchSem SearchTerm ReadFacts GraphFacts ConcFacts ConcSearch WorkFacts PropsSearch.

(** ** C57 The work of a search is bounded by what it can reach *)

(** Beside any other requests: one read of the policy, and the lookups of each node that can be reached, once. *)
Theorem C57_beside_others : forall E s qs sched i q pid origin cost nodes, reachable E s ->
  nth_error qs i = Some q -> search_from q = Some (pid, origin) ->
  (forall k rec, acts E qs s sched i k ->
     answer E (QGetPolicy pid) (moment E qs s sched k) = Ok (APolicy (Some rec)) ->
     costs E (pr_policy rec) cost /\
     forall x, reach E (pr_policy rec) (sometimes E qs s sched i pid) origin x -> In x nodes) ->
  operations E qs s sched i <= 1 + total cost nodes.
Proof.
  intros E s qs sched i q pid origin cost nodes H Hq Hf Hall. apply reachable_ok in H.
  apply (search_operations E qs s H sched i q pid origin); [exact Hq | exact Hf |]. intros k rec Hk Hp. apply (Hall k); [exact Hk |].
  rewrite answer_get_policy, Hp. reflexivity.
Qed.

(** Alone: the request is answered after that many operations, whatever its model budget. *)
Theorem C57_alone : forall E s q pid origin cost nodes, reachable E s -> search_from q = Some (pid, origin) ->
  (forall rec, answer E (QGetPolicy pid) s = Ok (APolicy (Some rec)) ->
     costs E (pr_policy rec) cost /\
     forall x, reach E (pr_policy rec) (key_subject E (relationships s pid)) origin x -> In x nodes) ->
  answered_within E q s (1 + total cost nodes).
Proof.
  intros E s q pid origin cost nodes H Hf Hall. apply reachable_ok in H. apply (search_within E s q pid origin); [exact H | exact Hf |].
  intros rec Hp. apply Hall. rewrite answer_get_policy, Hp. reflexivity.
Qed.

(** In terms of sizes: the number of relationships of the policy times the lookups of one of its resources. *)
Theorem C57_sizes : forall E s q pid origin L, reachable E s -> search_from q = Some (pid, origin) ->
  (forall rec r n, answer E (QGetPolicy pid) s = Ok (APolicy (Some rec)) -> In r (p_resources (pr_policy rec)) ->
     resource_lookups E r n -> n <= L) ->
  answered_within E q s (1 + (1 + length (relationships s pid)) * L).
Proof.
  intros E s q pid origin L H Hf HL. apply reachable_ok in H. apply (search_size E s q pid origin); [exact H | exact Hf |].
  intros rec r n Hp. apply (HL rec). rewrite answer_get_policy, Hp. reflexivity.
Qed.

(** The groups contain one another: two nodes with one lookup each and one entity, three operations. *)
Example C57_example : let q := QCheck 20 "p" (asks (ent "group" "a") "member" (ent "user" "eve")) in
  search_from q = Some ("p", NSet (Some (ent "group" "a")) "member") /\
  answered_within E0 q cyclic_store 3 /\ ~ answered_within E0 q cyclic_store 2 /\
  operations E0 [q] cyclic_store [0; 0; 0; 0; 0] 0 = 3 /\
  total (fun x => match x with NSet _ _ => 1 | _ => 0 end)
    [NSet (Some (ent "group" "a")) "member"; NSet (Some (ent "group" "b")) "member"; NEntity (Some (ent "user" "bob"))] = 2.
Proof.
  split; [reflexivity |]. split; [vm_compute; discriminate |]. split; [intros H; apply H; vm_compute; reflexivity |].
  split; vm_compute; reflexivity.
Qed.

(** Reading a file through its owner, its readers and its folder: one resource with five lookups. *)
Example C57_example_sizes : let q := QExpand 20 "p" (Some (NSet (Some (ent "file" "f")) "reader")) FDot in
  length (relationships cyclic_store "p") = 6 /\ answered_within E0 q cyclic_store 7 /\ ~ answered_within E0 q cyclic_store 6.
Proof.
  split; [vm_compute; reflexivity |]. split; [vm_compute; discriminate |]. intros H. apply H. vm_compute. reflexivity.
Qed.

Print Assumptions C57_beside_others.
Print Assumptions C57_alone.
Print Assumptions C57_sizes.
