(** Properties of reading requests beside writers: C66. *)
From Verif Require Import Base Domain Lexer Parser Validate Store Search Explain Yaml Service Dump Api
  SpecGrammar SpecPolicy SpecStore SpecSearch SpecConc Fixtures BaseFacts ParserFacts ValidateFacts StoreFacts PolicyFacts RelFacts
  SearchFacts SearchSem SearchTerm ReadFacts ConcFacts ConcSearch.

(** ** C66 Every reading request answers as at one moment: false of lists and dumps *)

Definition reads_once (q : request) : Prop :=
  match q with
  | QGetPolicy _ | QListPolicyIds | QGetRelationship _ _ => True
  | _ => False
  end.

(** GetPolicy, ListPolicyIds and GetRelationship do: at one of their own steps, unless the message alone decides. *)
Theorem C66_once_partial : forall E s qs sched i q x, reachable E s -> nth_error qs i = Some q -> reads_once q ->
  answered (interleave sched (start E qs s)) i = Some x ->
  (exists k, acts E qs s sched i k /\ x = answer E q (moment E qs s sched k)) \/ (forall s', x = answer E q s').
Proof.
  intros E s qs sched i q x H Hq Hr Ha. pose proof (request_outcome E qs s sched i _ _ Hq Ha) as Ho.
  destruct q; try contradiction; cbn [serve] in Ho; unfold respond, answer in *; cbn [serve].
  - left. unfold get_policy, repo_get_policy, rbind in Ho. cbn [pbind] in Ho. apply outcome_get in Ho as (s' & (k & Hk & ->) & Ho).
    apply outcome_ret in Ho. exists k. split; [exact Hk | symmetry; exact Ho].
  - left. unfold list_policy_ids, repo_list_policy_ids, rbind in Ho. cbn [pbind] in Ho. inversion Ho as [| p s' p' s'' a (k & Hk & ->) Hst Ho']; subst.
    injection Hst as <- <-. apply outcome_ret in Ho'. exists k. split; [exact Hk | symmetry; exact Ho'].
  - unfold get_relationship, repo_get_relationship, rbind, lift in Ho. cbn [pbind] in Ho.
    unfold respond, get_relationship, repo_get_relationship, rbind, lift. cbn [pbind].
    destruct (to_internal r) as [e | e1 | |] eqn:He; cbn [pbind] in Ho |- *; [left | right; intros; symmetry; exact (outcome_ret _ _ _ Ho)..].
    inversion Ho as [| p s' p' s'' a (k & Hk & ->) Hst Ho']; subst.
    injection Hst as <- <-. apply outcome_ret in Ho'. exists k. split; [exact Hk | symmetry; exact Ho'].
Qed.

(** A list of records: the relationships are those of one step, and each record is what GetRelationship answers at
    one step. *)
Theorem C66_find_partial : forall E s qs sched i pid sel l, reachable E s ->
  nth_error qs i = Some (QFindRelationshipRecords pid (Some sel)) ->
  answered (interleave sched (start E qs s)) i = Some (Ok (ARecords l)) ->
  exists k rels, acts E qs s sched i k /\ NoDup rels /\
    (forall r, In r rels <-> In r (relationships (moment E qs s sched k) pid) /\ selects sel r) /\
    Forall2 (fun r x => exists j, acts E qs s sched i j /\
      answer E (QGetRelationship pid (Some r)) (moment E qs s sched j) = Ok (ARecord x)) rels l.
Proof.
  intros E s qs sched i pid sel l H Hq Ha. apply reachable_ok in H. pose proof (request_outcome E qs s sched i _ _ Hq Ha) as Ho.
  cbn [serve] in Ho. unfold respond in Ho. apply outcome_ok in Ho as (l' & Ho & Hl). apply outcome_ret in Hl. injection Hl as ->.
  unfold find_relationship_records, repo_get_policy in Ho. cbn [pbind] in Ho. apply outcome_get in Ho as (s1 & _ & Ho).
  destruct (kv_get scmp pid (st_pol s1)) as [rec |]; [| apply outcome_ret in Ho; discriminate].
  apply outcome_ok in Ho as ([] & _ & Ho). unfold repo_find_relationship_records in Ho. apply outcome_ok in Ho as (rels & Hf & Ho).
  unfold repo_find_relationships in Hf. apply outcome_list in Hf as (s2 & (k & Hk & ->) & Hf). apply outcome_ret in Hf.
  destruct (new_selector_spec (Some sel)) as [sp | | |] eqn:Hsp; cbn [bind] in Hf; try discriminate. injection Hf as <-.
  change (filter (selector_satisfies sp) (map (fun x => from_internal (snd x)) (edges_of pid (moment E qs s sched k))))
    with (matching (moment E qs s sched k) pid sp) in Ho. pose proof (moment_ok E qs s H sched k) as Hok.
  exists k, (matching (moment E qs s sched k) pid sp). split; [exact Hk |]. split; [apply (matching_nodup E), Hok |].
  split; [intros r; apply (matching_in sel sp _ pid r Hsp) |].
  revert l Ha Ho. generalize (matching (moment E qs s sched k) pid sp). intros rels l _. revert l.
  induction rels as [| r rels IH]; intros l Ho; cbn [map_prog] in Ho.
  - apply outcome_ret in Ho. injection Ho as <-. constructor.
  - apply outcome_ok in Ho as (x & Hx & Ho). apply outcome_ok in Ho as (xs & Hxs & Ho). apply outcome_ret in Ho. injection Ho as <-.
    constructor; [| apply IH, Hxs]. unfold repo_get_relationship in Hx. apply outcome_ok in Hx as (e & He & Hx). apply outcome_ret in He.
    inversion Hx as [| p s' p' s'' a (j & Hj & ->) Hst Ho']; subst. injection Hst as <- <-. apply outcome_ret in Ho'. injection Ho' as <-.
    exists j. split; [exact Hj |]. unfold answer. cbn [serve]. rewrite run_respond, run_get_rel, He. cbn [fst].
    destruct (kv_get pcmp (edge_key E e) (st_data (moment E qs s sched j))); reflexivity.
Qed.

(** A dump shows the relationships of one step, and the policy existed at one step. *)
Theorem C66_dump_partial : forall E s qs sched i n pid is_dot l, reachable E s ->
  nth_error qs i = Some (QDumpRelationships n pid is_dot) ->
  answered (interleave sched (start E qs s)) i = Some (Ok (ADumped l)) ->
  exists j k, acts E qs s sched i j /\ acts E qs s sched i k /\ answer E (QGetPolicy pid) (moment E qs s sched j) <> Ok (APolicy None) /\
    forall s', answer E (QGetPolicy pid) s' <> Ok (APolicy None) -> st_edges s' = st_edges (moment E qs s sched k) ->
      answer E (QDumpRelationships n pid is_dot) s' = Ok (ADumped l).
Proof.
  intros E s qs sched i n pid is_dot l H Hq Ha. pose proof (request_outcome E qs s sched i _ _ Hq Ha) as Ho.
  cbn [serve] in Ho. unfold respond in Ho. apply outcome_ok in Ho as (l' & Ho & Hl). apply outcome_ret in Hl. injection Hl as ->.
  unfold dump_relationships, repo_get_policy in Ho. cbn [pbind] in Ho. apply outcome_get in Ho as (s1 & (j & Hj & ->) & Ho).
  destruct (kv_get scmp pid (st_pol (moment E qs s sched j))) as [rec |] eqn:Hp; [| apply outcome_ret in Ho; discriminate].
  apply outcome_list in Ho as (s2 & (k & Hk & ->) & Ho). apply outcome_ret in Ho.
  exists j, k. split; [exact Hj |]. split; [exact Hk |]. split; [rewrite answer_get_policy; unfold policies; rewrite Hp; discriminate |].
  intros s' Hp' He. rewrite answer_get_policy in Hp'. unfold policies in Hp'. unfold answer. cbn [serve]. rewrite run_respond.
  unfold dump_relationships, repo_get_policy. cbn [pbind run]. destruct (kv_get scmp pid (st_pol s')); [| contradiction].
  cbn [run lift fst]. unfold edges_of in Ho |- *. rewrite He, Ho. reflexivity.
Qed.

(** A list with an empty record, although at no moment there is a relationship without a record. *)
Definition owner : relationship := tup "file" "f" "owner" (user "bob").
Definition anything_at_all : selector := mkSel (Some OSWild) (Some LSWild) (Some USWild).
Definition listing : request := QFindRelationshipRecords "p" (Some anything_at_all).

Theorem C66_find_refuted : exists s qs sched, sequential E0 s /\ qs = [listing; QDeleteRelationship "p" (Some owner)] /\
  answered (interleave sched (start E0 qs s)) 0 = Some (Ok (ARecords [None])) /\
  (forall k, answer E0 listing (moment E0 qs s sched k) <> Ok (ARecords [None])).
Proof.
  exists (after_all E0 [create "p"; set "p" owner] empty_store), [listing; QDeleteRelationship "p" (Some owner)], [0; 0; 1; 1; 1; 0].
  split; [eexists; reflexivity |]. split; [reflexivity |]. split; [vm_compute; reflexivity |].
  intros k. do 6 (destruct k as [| k]; [vm_compute; discriminate |]). unfold moment. rewrite firstn_all2 by (cbn; lia). vm_compute. discriminate.
Qed.

(** A dump of half a policy: at no moment the policy existed with these relationships. *)
Definition owner2 : relationship := tup "file" "g" "owner" (user "bob").
Definition dump : request := QDumpRelationships 9 "p" true.

Theorem C66_dump_refuted : exists s qs sched l, sequential E0 s /\ qs = [dump; QDeletePolicy "p"] /\
  answered (interleave sched (start E0 qs s)) 0 = Some (Ok (ADumped l)) /\
  (forall k, answer E0 dump (moment E0 qs s sched k) <> Ok (ADumped l)).
Proof.
  exists (after_all E0 [create "p"; set "p" owner; set "p" owner2] empty_store), [dump; QDeletePolicy "p"], [0; 1; 1; 1; 1; 1; 0].
  eexists. split; [eexists; reflexivity |]. split; [reflexivity |]. split; [vm_compute; reflexivity |].
  intros k. do 7 (destruct k as [| k]; [vm_compute; discriminate |]). unfold moment. rewrite firstn_all2 by (cbn; lia). vm_compute. discriminate.
Qed.

Example C66_example : let qs := [QGetRelationship "p" (Some owner); QDeleteRelationship "p" (Some owner)] in
  let s := after_all E0 [create "p"; set "p" owner] empty_store in
  answered (interleave [1; 1; 0; 1] (start E0 qs s)) 0 = Some (Ok (ARecord (Some (mkRRec "p" owner 2%N "data")))) /\
  answered (interleave [1; 1; 1; 0] (start E0 qs s)) 0 = Some (Ok (ARecord None)).
Proof. vm_compute. auto. Qed.

Print Assumptions C66_once_partial.
Print Assumptions C66_find_partial.
Print Assumptions C66_dump_partial.
Print Assumptions C66_find_refuted.
Print Assumptions C66_dump_refuted.
