(** C81: the field rules of the proto files. *)
From Verif Require Import Base Domain Lexer Parser Validate Store Search Explain Yaml Service Dump Api
  SpecGrammar SpecPolicy SpecStore SpecRules Fixtures BaseFacts ValidateFacts StoreFacts PolicyFacts TouchFacts PropsPolicy PropsStore PropsConc RulesFacts.

(** ** C81 The field rules declared in the proto files hold for everything stored: false, the generated Validate has none *)

(** A policy that is accepted is accepted without its id too, when no policy has the empty id. *)
Theorem C81_policy_id_refuted : forall E s now p app a,
  answer E (QCreatePolicy now (Some (DPolicy p)) app) s = Ok a ->
  answer E (QGetPolicy "") s = Ok (APolicy None) ->
  let q := QCreatePolicy now (Some (DPolicy (without_id p))) app in
  ~ policy_rules (without_id p) /\
  answer E q s = Ok (ACreated (mkPRec (without_id p) app now)) /\
  answer E (QGetPolicy "") (after E q s) = Ok (APolicy (Some (mkPRec (without_id p) app now))).
Proof.
  intros E s now p app a Ha Hn q. apply create_only in Ha as [_ Hw]. split.
  - intros [H _ _]. apply H. reflexivity.
  - apply (create_creates E now (without_id p) app s).
    + rewrite answer_get_policy in Hn. injection Hn as Hn. exact Hn.
    + destruct Hw as [A B C D]. constructor; assumption.
Qed.

(** A resource without a name, with a relation without a name, can be added to every accepted policy that has none yet. *)
Theorem C81_names_refuted : forall E s now p app a,
  answer E (QCreatePolicy now (Some (DPolicy p)) app) s = Ok a -> ~ declares_resource p "" ->
  let q := QCreatePolicy now (Some (DPolicy (with_nameless p))) app in
  ~ policy_rules (with_nameless p) /\
  answer E q s = Ok (ACreated (mkPRec (with_nameless p) app now)) /\
  answer E (QGetPolicy (p_id p)) (after E q s) = Ok (APolicy (Some (mkPRec (with_nameless p) app now))).
Proof.
  intros E s now p app a Ha Hno q. apply create_only in Ha as [Hn Hw]. split.
  - intros [_ [H _] _]. apply (H ""%string); [| reflexivity]. exists nameless. split; [| reflexivity].
    cbn [with_nameless p_resources]. apply in_or_app. right. left. reflexivity.
  - apply (create_creates E now (with_nameless p) app s); [exact Hn |].
    assert (forall rs l, relation_of p rs l -> relation_of (with_nameless p) rs l) as Hrel.
    { intros rs l (r & Hr & Hs & Hl). exists r. cbn [with_nameless p_resources]. split; [apply in_or_app; auto | auto]. }
    assert (forall rs, declares_resource p rs -> declares_resource (with_nameless p) rs) as Hdr.
    { intros rs (r & Hr & Hs). exists r. cbn [with_nameless p_resources]. split; [apply in_or_app; auto | auto]. }
    assert (forall rs l, declares p rs l -> declares (with_nameless p) rs l) as Hd.
    { intros rs l (x & Hx & Hs). exists x. auto. }
    assert (forall rs l, relation_of (with_nameless p) rs l -> relation_of p rs l \/ l = mkRelation "" "" (Some (XTree (TRule RThis))) (Some SRUniversal)) as Hinv.
    { intros rs l (r & Hr & Hs & Hl). cbn [with_nameless p_resources] in Hr. apply in_app_or in Hr as [Hr | [<- | []]].
      - left. exists r. auto.
      - right. destruct Hl as [<- | []]. reflexivity. }
    destruct Hw as [A B C D]. constructor.
    + cbn [with_nameless p_resources]. rewrite map_app. cbn [map]. apply NoDup_app_comm_one; [exact A |].
      intros Hx. apply Hno. apply in_map_iff in Hx as (r & Hr & Hin). exists r. auto.
    + intros r Hr. cbn [with_nameless p_resources] in Hr. apply in_app_or in Hr as [Hr | [<- | []]]; [auto |].
      cbn. constructor; [intros [] | constructor].
    + intros rs l Hl. apply Hinv in Hl as [Hl | ->]; [| exact I]. specialize (C rs l Hl).
      destruct (rl_restr l) as [[| xs |] |]; cbn in *; auto. eapply Forall_impl; [| exact C].
      intros [x | x y |]; cbn; auto.
    + intros rs l Hl. apply Hinv in Hl as [Hl | ->].
      * destruct (D rs l Hl) as (t & Ht & Hru). exists t. split; [exact Ht |]. intros ru Ho. specialize (Hru ru Ho).
        destruct ru; cbn in *; auto.
      * exists (TRule RThis). split; [apply ex_tree; [reflexivity | constructor] |]. intros ru Ho. inversion Ho; subst. exact I.
Qed.

(** A relationship that is accepted is accepted with empty ids too. *)
Theorem C81_ids_refuted : forall E s now pid r app a, reachable E s ->
  answer E (QSetRelationship now pid (Some r) app) s = Ok a ->
  let q := QSetRelationship now pid (Some (drop_ids r)) app in
  ~ relationship_rules (drop_ids r) /\ (exists b, answer E q s = Ok (ASet b)) /\
  In (drop_ids r) (relationships (after E q s) pid).
Proof.
  intros E s now pid r app a H Ha q.
  assert (exists rec, answer E (QGetPolicy pid) s = Ok (APolicy (Some rec)) /\ admissible (pr_policy rec) r) as (rec & Hr & Hadm).
  { apply (proj1 (C10_accepted_exactly_when_admissible E now pid r app s H)). eauto. }
  assert (admissible (pr_policy rec) (drop_ids r)) as Hadm'.
  { destruct Hadm as (o & u & l & Ho & Hu & Hl & Hn & Hd & Had).
    destruct u as [e | [e |] rel | rs |]; cbn in Hd; try contradiction;
      (eexists (drop_id o), _, l; unfold drop_ids; cbn [r_object r_relation r_subject]; rewrite Ho, Hu; cbn [option_map drop_id e_res];
       split; [reflexivity |]; split; [reflexivity |]; split; [exact Hl |]; split; [exact Hn |]; split; assumption). }
  destruct Hadm as (o & u & l & Ho & _).
  destruct (proj2 (C10_accepted_exactly_when_admissible E now pid (drop_ids r) app s H)) as [x Hx]; [eauto |].
  assert (exists b, x = ASet b) as [b ->].
  { revert Hx. unfold answer. cbn [serve]. rewrite answer_respond.
    destruct (fst (run (set_relationship E now pid (Some (drop_ids r)) app) s)); intros [= <-]; eauto. }
  split; [| split].
  - intros [Hrr _ _]. destruct (Hrr (drop_id o)) as [_ Hf]; [cbn; rewrite Ho; reflexivity |]. apply Hf. reflexivity.
  - exists b. exact Hx.
  - apply (C23_reads_back E s now pid (drop_ids r) app b H Hx).
Qed.

(** What is enforced: the oneofs of stored policies are set. *)
Theorem C81_policies_partial : forall E s id rec, reachable E s ->
  answer E (QGetPolicy id) s = Ok (APolicy (Some rec)) ->
  forall rs l, relation_of (pr_policy rec) rs l -> variants_set l.
Proof.
  intros E s id rec H Ha rs l Hl. rewrite answer_get_policy in Ha. injection Ha as Ha.
  apply reachable_ok in H. destruct (so_policy _ _ H id rec Ha) as [_ [_ _ C D]].
  specialize (C rs l Hl). destruct (D rs l Hl) as (t & Ht & _). split; [| split].
  - intros Hx. destruct Ht; congruence.
  - intros Hx. rewrite Hx in C. exact C.
  - intros xs Hx Hin. rewrite Hx in C. cbn in C. rewrite Forall_forall in C. exact (C _ Hin).
Qed.

(** A relationship accepted by a policy without empty names obeys all rules when its ids are not empty. *)
Theorem C81_relationships_partial : forall E s now pid r app a rec, reachable E s ->
  answer E (QGetPolicy pid) s = Ok (APolicy (Some rec)) -> names_filled (pr_policy rec) -> ids_filled r ->
  answer E (QSetRelationship now pid (Some r) app) s = Ok a -> relationship_rules r.
Proof.
  intros E s now pid r app a rec H Hr [Nr Nl] (Io & Ie & Is) Ha.
  destruct (proj1 (C10_accepted_exactly_when_admissible E now pid r app s H)) as (rec' & Hr' & Hadm); [eauto |].
  assert (rec' = rec) as -> by congruence.
  destruct Hadm as (o & u & l & Ho & Hu & (x & Hx & Hs & Hl) & Hn & Hd & _).
  assert (declares_resource (pr_policy rec) (e_res o)) as Hro by (exists x; auto).
  constructor.
  - intros o' Ho'. assert (o' = o) as -> by congruence. split; auto.
  - rewrite <- Hn. apply (Nl (e_res o)). exists l. split; [exists x; auto | reflexivity].
  - intros u' Hu'. assert (u' = u) as -> by congruence. destruct u as [e | [e |] rel | rs |]; cbn in *; try contradiction.
    + split; eauto.
    + split; [| eauto]. intros y [= <-]. split; [| eauto]. destruct Hd as (z & (w & Hw & Hws & _) & _). apply Nr. exists w. auto.
    + auto.
Qed.

Example C81_example : ~ declares_resource (pol "p") "" /\ names_filled (pol "p") /\
  answer E0 (QCreatePolicy 1%N (Some (DPolicy (with_nameless (without_id (pol "p"))))) "app") empty_store
  = Ok (ACreated (mkPRec (with_nameless (without_id (pol "p"))) "app" 1%N)).
Proof.
  split; [| split; [| vm_compute; reflexivity]].
  - intros (r & Hr & Hs). repeat (destruct Hr as [<- | Hr]; [discriminate Hs |]). destruct Hr.
  - split.
    + intros n (r & Hr & <-) Hs. repeat (destruct Hr as [<- | Hr]; [discriminate Hs |]). destruct Hr.
    + intros n m (l & (r & Hr & _ & Hl) & <-) Hs.
      repeat (destruct Hr as [<- | Hr]; [repeat (destruct Hl as [<- | Hl]; [discriminate Hs |]); destruct Hl |]). destruct Hr.
Qed.

(** A grant to the user without id on the file without id. *)
Example C81_example_ids :
  let r := tup "file" "f" "owner" (user "bob") in let s := after_all E0 [create "p"] empty_store in
  drop_ids r = tup "file" "" "owner" (user "") /\ ids_filled r /\
  answer E0 (set "p" (drop_ids r)) s = Ok (ASet false) /\
  relationships (after E0 (set "p" (drop_ids r)) s) "p" = [tup "file" "" "owner" (user "")].
Proof.
  split; [reflexivity |]. split; [| vm_compute; auto].
  split; [| split]; cbn; [intros o [= <-] | intros e [= <-] | intros e rel [=]]; discriminate.
Qed.

Print Assumptions C81_policy_id_refuted.
Print Assumptions C81_names_refuted.
Print Assumptions C81_ids_refuted.
Print Assumptions C81_policies_partial.
Print Assumptions C81_relationships_partial.
