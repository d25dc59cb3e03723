(** Properties of the marks of errors: C111. *)
From Verif Require Import Base Domain Lexer Parser Validate Store Search Explain Yaml Service Dump Api Fault Blame
  SpecPolicy SpecStore SpecErrors SpecBlame Fixtures BaseFacts ValidateFacts StoreFacts BlameFacts.

(** ** C111 The marks of an error say whose fault it is: true of the marks there are, false of errors without marks *)

(** The marked methods are those of the model: alone, alone with a failing operation, and beside other requests while any
    operations fail. *)
Theorem C111_same_answers : forall E q,
  (forall s, unmarked (m_answer E q s) = answer E q s /\ snd (m_run (m_serve E q) s) = after E q s) /\
  (forall s n applied, answered (happen (hit n applied) (start E [q] s)) 0 = Some (unmarked (m_hit n (m_serve E q) s))) /\
  (forall qs s es i x, nth_error qs i = Some q -> answered (happen es (start E qs s)) i = Some x ->
     exists y, m_can (m_serve E q) y /\ unmarked y = x).
Proof.
  intros E q. destruct (matches_serve E q) as (H1 & H2 & _). split; [| split].
  - intros s. unfold m_answer, answer, after. rewrite H1. auto.
  - intros s n applied. rewrite H2. apply happen_hit.
  - intros. eapply happen_can; eassumption.
Qed.

Example C111_same_answers_concrete :
  m_answer E0 (QCheck 3 "p" None) empty_store = MErr [MInvalidRequest] EPolicyNotFound /\
  answer E0 (QCheck 3 "p" None) empty_store = Err EPolicyNotFound.
Proof. vm_compute. auto. Qed.

(** An error marked as internal is a failure of the storage or of the writing of a tree, it answers a request to the relation graph
    service, and it is not also marked as an invalid request; beside any other requests and whatever operations fail. *)
Theorem C111_internal_partial : forall E q x, m_can (m_serve E q) x -> has_mark x MInternal ->
  (unmarked x = Err EStorage \/ unmarked x = Err ESerialize) /\ ~ has_mark x MInvalidRequest /\ exists pid, consults q pid.
Proof.
  intros E q [a | ms e | |] Hx Hm; cbn [has_mark unmarked] in *; try contradiction.
  destruct (request_cases q) as [[pid Hq] | [Hu | [Hq Hu]]].
  - apply (every_graph E q pid Hq) in Hx as [Hx _]. destruct (Hx Hm) as [[-> | ->] Hn]; eauto 6.
  - exfalso. rewrite (unknown_shape E q Hu) in Hx. cbn in Hx. injection Hx as -> ->. destruct Hm as [Hm | [Hm | []]]; discriminate.
  - exfalso. apply (every_policy E q Hq Hu) in Hx as (Hx & _). contradiction.
Qed.

(** Which failures of the storage are marked as internal: those of the first operation of a request to the relation graph service. *)
Theorem C111_storage_partial : forall E q s n, n < operations (serve E q) s ->
  (m_hit n (m_serve E q) s = MErr [MInternal] EStorage /\ n = 0 /\ exists pid, consults q pid) \/
  (m_hit n (m_serve E q) s = MErr [] EStorage /\ ~ (n = 0 /\ exists pid, consults q pid)).
Proof.
  intros E q s n Hn. assert (He : unmarked (m_hit n (m_serve E q) s) = Err EStorage).
  { rewrite (proj1 (proj2 (matches_serve E q))). apply Nat.ltb_lt in Hn. rewrite Hn. reflexivity. }
  destruct (m_hit n (m_serve E q) s) as [| ms e | |] eqn:Hh; try discriminate. injection He as ->.
  destruct (request_cases q) as [[pid Hq] | [Hu | [Hq Hu]]].
  - destruct (consult_shape E q pid Hq) as (k & Hk & Hk0 & Hk1). rewrite Hk in Hh. cbn [m_hit repo_get_policy operations run fst snd] in Hh.
    destruct n as [| n]; cbn [Nat.ltb Nat.leb] in Hh.
    + injection Hh as <-. left. eauto.
    + right. destruct (kv_get scmp pid (st_pol s)) as [rec |]; [| rewrite Hk0 in Hh; discriminate].
      destruct (every_hit _ _ _ _ _ _ (Hk1 rec) Hh) as [_ Hms]. rewrite (Hms eq_refl). split; [reflexivity |]. intros [H _]. discriminate.
  - exfalso. rewrite (unknown_shape E q Hu) in Hh. discriminate.
  - right. destruct (every_hit _ _ _ _ _ _ (every_policy E q Hq Hu) Hh) as (_ & _ & Hms). rewrite (Hms eq_refl). split; [reflexivity |].
    intros [_ [pid H]]. contradiction (Hq pid H).
Qed.

(** A failure of the storage is the server's and not marked as internal: the second read of a check, and any of the policy service. *)
Theorem C111_storage_refuted : ~ forall E q s n, reachable E s -> n < operations (serve E q) s -> has_mark (m_hit n (m_serve E q) s) MInternal.
Proof.
  intros H. specialize (H E0 (QGetPolicy "p") empty_store 0 (re_empty E0)). cbn in H. apply H. lia.
Qed.

Definition some_check : request := QCheck 5 "p" (Some (mkAccess (Some (ent "file" "f")) "owner" (Some (ent "user" "bob")))).
Definition some_store : store := snd (interleave [0; 0; 0; 0] (start E0 [create "p"] empty_store)).

Example C111_storage_concrete :
  m_hit 0 (m_serve E0 some_check) some_store = MErr [MInternal] EStorage /\
  m_hit 1 (m_serve E0 some_check) some_store = MErr [] EStorage /\
  m_hit 2 (m_serve E0 some_check) some_store = MOk (ADecision false).
Proof. vm_compute. auto. Qed.

(** Without failures, the requests marked as invalid are those to the relation graph service that name a policy which does not exist
    or ask for an explanation in an unknown format. *)
Theorem C111_invalid_request_partial : forall E s q,
  has_mark (m_answer E q s) MInvalidRequest <-> unknown_format q \/ exists pid, consults q pid /\ absent E s pid.
Proof.
  intros E s q. unfold m_answer. destruct (request_cases q) as [[pid Hq] | [Hu | [Hq Hu]]].
  - destruct (consult_shape E q pid Hq) as (k & Hk & Hk0 & Hk1). rewrite Hk. cbn [m_run repo_get_policy run fst snd].
    assert (Ha : (unknown_format q \/ exists pid0, consults q pid0 /\ absent E s pid0) <-> kv_get scmp pid (st_pol s) = None).
    { rewrite <- (run_absent E). split; [| eauto]. intros [Hu | (pid' & Hq' & H)]; [contradiction (consult_known q pid Hq Hu) |].
      rewrite (consult_one q pid pid' Hq Hq'). exact H. }
    rewrite Ha. destruct (kv_get scmp pid (st_pol s)) as [rec |].
    + split; [| discriminate]. intros Hm. exfalso. destruct (fst (m_run (k (Some rec)) s)) as [| ms e | |] eqn:Hr; try contradiction.
      destruct (every_run _ _ _ _ _ (Hk1 rec) Hr) as [Hms _]. contradiction.
    + rewrite Hk0. cbn. split; auto.
  - rewrite (unknown_shape E q Hu). cbn. split; auto.
  - split; [| intros [H | (pid & H & _)]; [contradiction | contradiction (Hq pid H)]]. intros Hm. exfalso.
    destruct (fst (m_run (m_serve E q) s)) as [| ms e | |] eqn:Hr; try contradiction.
    destruct (every_run _ _ _ _ _ (every_policy E q Hq Hu) Hr) as (_ & Hms & _). contradiction.
Qed.

(** Beside other requests and whatever operations fail, a request marked as invalid is one of these two. *)
Theorem C111_invalid_request_always_partial : forall E q x, m_can (m_serve E q) x -> has_mark x MInvalidRequest ->
  (unknown_format q /\ unmarked x = Err EInvalidVariant) \/ ((exists pid, consults q pid) /\ unmarked x = Err EPolicyNotFound).
Proof.
  intros E q [a | ms e | |] Hx Hm; cbn [has_mark unmarked] in *; try contradiction.
  destruct (request_cases q) as [[pid Hq] | [Hu | [Hq Hu]]].
  - apply (every_graph E q pid Hq) in Hx as [_ Hx]. rewrite (Hx Hm). eauto.
  - rewrite (unknown_shape E q Hu) in Hx. cbn in Hx. injection Hx as -> ->. auto.
  - exfalso. apply (every_policy E q Hq Hu) in Hx as (_ & Hx & _). contradiction.
Qed.

(** An error that is the fault of the request and has no mark at all: a relation that the policy does not declare, asked of Check, and
    a policy that does not exist, named to SetRelationship. *)
Theorem C111_invalid_request_refuted :
  ~ (forall E s q e, reachable E s -> answer E q s = Err e -> has_mark (m_answer E q s) MInvalidRequest \/ has_mark (m_answer E q s) MInternal) /\
  exists s, reachable E0 s /\
    m_answer E0 (QCheck 5 "p" (Some (mkAccess (Some (ent "file" "f")) "nothing" (Some (ent "user" "bob"))))) s = MErr [] ERelationNotFound /\
    m_answer E0 (set "q" (tup "file" "f" "owner" (user "bob"))) s = MErr [] EPolicyNotFound /\
    m_answer E0 (QCheck 5 "q" None) s = MErr [MInvalidRequest] EPolicyNotFound.
Proof.
  split.
  - intros H. specialize (H E0 empty_store (set "q" (tup "file" "f" "owner" (user "bob"))) EPolicyNotFound (re_empty E0) eq_refl).
    vm_compute in H. destruct H as [[] | []].
  - exists some_store. split; [apply re_serve, re_empty |]. vm_compute. auto.
Qed.

(** The mark of the variant is on the errors about it, except of FindRelationshipRecords with an object selector that is not set. *)
Theorem C111_variant_partial : forall E s q, reachable E s -> ~ unset_object q ->
  (has_mark (m_answer E q s) MInvalidVariant <-> answer E q s = Err EInvalidVariant).
Proof.
  intros E s q Hs Hu. apply reachable_ok in Hs. destruct (C111_same_answers E q) as (Ha & _). rewrite <- (proj1 (Ha s)). unfold m_answer.
  assert (Hd : (match q with QSetRelationship _ _ _ _ => False | _ => True end) \/ exists now pid r app, q = QSetRelationship now pid r app)
    by (destruct q; eauto 6).
  assert (Hv : forall ms e, fst (m_run (m_serve E q) s) = MErr ms e -> says_variant ms e).
  { destruct Hd as [Hd | (now & pid & r & app & ->)]; intros ms e He; [exact (every_run _ _ _ _ _ (variant_policies E q Hd Hu) He) |].
    cbn [m_serve] in He. unfold m_set_relationship in He. cbn [told m_run repo_get_policy run fst snd] in He.
    destruct (kv_get scmp pid (st_pol s)) as [rec |] eqn:Hg.
    - refine (every_run says_variant _ s ms e _ He). apply every_told. apply (variant_set E); [apply (so_policy E s Hs pid rec Hg) |].
      intros u. apply every_phase; [vnil |]. intros b. apply every_done. intros ms' e'. apply variant_wrap. intros [].
    - cbn in He. injection He as <- <-. vnil. }
  destruct (fst (m_run (m_serve E q) s)) as [| ms e | |]; cbn [has_mark unmarked]; try (split; [contradiction | discriminate]).
  specialize (Hv ms e eq_refl). unfold says_variant in Hv. rewrite Hv. split; congruence.
Qed.

(** That one differs from DeleteRelationships with the same selector. *)
Theorem C111_variant_refuted :
  let sel := Some (mkSel (Some OSUnset) (Some LSWild) (Some USWild)) in
  reachable E0 some_store /\
  m_answer E0 (QFindRelationshipRecords "p" sel) some_store = MErr [] EInvalidVariant /\
  m_answer E0 (QDeleteRelationships "p" sel) some_store = MErr [MInvalidVariant] EInvalidVariant.
Proof. split; [apply re_serve, re_empty |]. vm_compute. auto. Qed.

(** An unknown format is an invalid request of ExplainCheck and Expand and not of DumpRelationships. *)
Theorem C111_format_refuted :
  m_answer E0 (QExpand 5 "p" None (FOther 7)) some_store = MErr [MInvalidRequest; MInvalidVariant] EInvalidVariant /\
  m_answer E0 (QDumpRelationships 5 "p" false) some_store = MErr [MInvalidVariant] EInvalidVariant.
Proof. vm_compute. auto. Qed.

Print Assumptions C111_same_answers.
Print Assumptions C111_internal_partial.
Print Assumptions C111_storage_partial.
Print Assumptions C111_storage_refuted.
Print Assumptions C111_invalid_request_partial.
Print Assumptions C111_invalid_request_always_partial.
Print Assumptions C111_invalid_request_refuted.
Print Assumptions C111_variant_partial.
Print Assumptions C111_variant_refuted.
Print Assumptions C111_format_refuted.
