(** C82, C83: builders and response messages. *)
From Verif Require Import Base Domain Lexer Parser Validate Store Search Explain Yaml Service Dump Api Client
  SpecPolicy SpecStore SpecClient Fixtures StoreFacts PolicyFacts PropsStore.
From Verif Require Import ClientFacts.

(** ** C82 A selector made by SelectorBuilder can be used in every request: false, the builder does not say what is missing *)

(** Whatever the store holds, a build without an object, a relation or a subject crashes DeleteRelationships,
    and no FindRelationshipRecords with it succeeds. *)
Theorem C82_missing_call_crashes_refuted : forall E s pid xs,
  (forall x, ~ last_call object_step xs x) \/ (forall x, ~ last_call relation_step xs x) \/ (forall x, ~ last_call subject_step xs x) ->
  answer E (QDeleteRelationships pid (Some (built xs))) s = Panic /\
  forall a, answer E (QFindRelationshipRecords pid (Some (built xs))) s <> Ok a.
Proof.
  intros E s pid xs H.
  assert (forall y, s_obj (built xs) = Some y -> y <> OSUnset) as Ho.
  { intros y Hy. destruct (object_or_none xs) as [(x & Hx) | Hx]; [| congruence].
    rewrite (built_object _ _ Hx) in Hy. injection Hy as <-. destruct x; discriminate. }
  assert (forall y, s_rel (built xs) = Some y -> y <> LSUnset) as Hl.
  { intros y Hy. destruct (relation_or_none xs) as [(x & Hx) | Hx]; [| congruence].
    rewrite (built_relation _ _ Hx) in Hy. injection Hy as <-. destruct x; discriminate. }
  assert (s_obj (built xs) <> Some OSUnset) as Ho' by (intros Q; apply (Ho _ Q); reflexivity).
  assert (s_rel (built xs) <> Some LSUnset) as Hl' by (intros Q; apply (Hl _ Q); reflexivity).
  destruct H as [H | [H | H]].
  - destruct (object_or_none xs) as [(x & Hx) | Hx]; [destruct (H x Hx) |].
    split; [apply delete_panics | intros a; apply find_not_ok]; auto.
  - destruct (relation_or_none xs) as [(x & Hx) | Hx]; [destruct (H x Hx) |].
    split; [apply delete_panics | intros a; apply find_not_ok]; auto.
  - destruct (subject_or_none xs) as [(x & Hx) | Hx]; [destruct (H x Hx) |].
    split; [apply delete_panics | intros a; apply find_not_ok]; auto.
Qed.

(** With all three, the deletion succeeds and removes exactly what the last calls ask for. *)
Theorem C82_complete_builds_partial : forall E s pid xs o l u, reachable E s ->
  last_call object_step xs o -> last_call relation_step xs l -> last_call subject_step xs u ->
  let q := QDeleteRelationships pid (Some (built xs)) in
  complete_selector (built xs) /\
  (exists rels, NoDup rels /\ answer E q s = Ok (ACount (length rels)) /\
     forall r, In r rels <-> In r (relationships s pid) /\ asks_for o r /\ asks_for l r /\ asks_for u r) /\
  (forall r, In r (relationships (after E q s) pid) <->
     In r (relationships s pid) /\ ~ (asks_for o r /\ asks_for l r /\ asks_for u r)).
Proof.
  intros E s pid xs o l u Hs Ho Hl Hu q.
  pose proof (built_object _ _ Ho) as Ho'. pose proof (built_relation _ _ Hl) as Hl'. pose proof (built_subject _ _ Hu) as Hu'.
  assert (exists n, answer E q s = Ok (ACount n)) as (n & Ha).
  { subst q. serve_eq. rewrite run_delete_rels. unfold new_selector_spec. rewrite Ho', Hl', Hu'.
    destruct o, l, u; cbn; eexists; reflexivity. }
  pose proof (C19_delete_is_exact E s pid (built xs) n Hs Ha) as ((rels & Hd & -> & Hr) & Hk & _). fold q in Hk.
  split; [| split].
  - repeat split.
    + eexists. split; [exact Ho' |]. destruct o; split; discriminate.
    + eexists. split; [exact Hl' |]. destruct l; discriminate.
    + eexists. split; [exact Hu' |]. destruct u; split; discriminate.
  - exists rels. split; [exact Hd |]. split; [exact Ha |]. intros r. rewrite Hr, (built_selects xs o l u r Ho Hl Hu). reflexivity.
  - intros r. rewrite Hk, (built_selects xs o l u r Ho Hl Hu). reflexivity.
Qed.

(** The relationships built by RelationshipBuilder have all their parts. *)
Theorem C82_built_relationships_partial : forall rs id rel urs uid urel,
  complete_relationship (build_relationship rs id rel urs uid) /\
  complete_relationship (build_entity_set rs id rel urs uid urel) /\
  complete_relationship (build_wildcard rs id rel urs).
Proof. repeat split; discriminate. Qed.

(** And they are the only relationships that WithObject, WithRelation and WithSubject ask for with the same parts. *)
Theorem C82_built_parts : forall rs id rel urs uid urel r,
  let ask u := asks_for (BWithObject (mkEntity rs id)) r /\ asks_for (BWithRelation rel) r /\ asks_for (BWithSubject u) r in
  (ask (SEntity (mkEntity urs uid)) <-> r = build_relationship rs id rel urs uid) /\
  (ask (SEntitySet (Some (mkEntity urs uid)) urel) <-> r = build_entity_set rs id rel urs uid urel) /\
  (ask (SResourceSet urs) <-> r = build_wildcard rs id rel urs).
Proof.
  intros rs id rel urs uid urel [o l u]. cbn.
  repeat split; try (intros (-> & -> & ->); reflexivity); match goal with H : _ |- _ => unfold build_relationship, build_entity_set, build_wildcard in H; congruence end.
Qed.

Example C82_case :
  let s := after_all E0 [create "p"; set "p" (build_relationship "file" "1" "owner" "user" "bob");
    set "p" (build_relationship "file" "2" "owner" "user" "bob"); set "p" (build_entity_set "group" "g" "member" "group" "h" "member")] empty_store in
  let xs := [BWithObject (ent "file" "1"); BAnyRelation; BAnySubject; BWithRelation "owner"] in
  last_call relation_step xs (BWithRelation "owner") /\
  answer E0 (QDeleteRelationships "p" (Some (built xs))) s = Ok (ACount 1) /\
  answer E0 (QDeleteRelationships "p" (Some (built (xs ++ [BReset; BAnyObject; BAnySubject])))) s = Panic.
Proof.
  cbn zeta. split; [| split; vm_compute; reflexivity].
  exists [BWithObject (ent "file" "1"); BAnyRelation; BAnySubject], []. split; [reflexivity |]. split; [exact I | intros y []].
Qed.

(** ** C83 The format of a response is the format requested: false for ExplainCheck *)

(** Every ExplainCheck that succeeds in a format other than SPEW is labelled SPEW all the same. *)
Theorem C83_explain_format_refuted : forall E n pid a f s b t, f <> FSpew ->
  answer E (QExplainCheck n pid a f) s = Ok (AExplained b t) ->
  exists m, fst (run (explain_message E n pid a f) s) = Ok m /\ x_authorized m = b /\ x_tree m = t /\ x_format m <> f.
Proof.
  intros E n pid a f s b t Hf H. revert H. serve_eq. unfold explain_message. rewrite run_rbind.
  destruct (run (explain_check E n pid a f) s) as [[[b' t'] | | |] s'] eqn:Q; cbn [fst snd run]; try discriminate.
  intros [= <- <-]. eexists. split; [reflexivity |]. cbn. auto.
Qed.

(** In SPEW the label is right, and Expand's label is always right; no failed request has a message. *)
Theorem C83_formats_partial : forall E n pid s,
  (forall a m, fst (run (explain_message E n pid a FSpew) s) = Ok m -> x_format m = FSpew) /\
  (forall a f m, fst (run (explain_message E n pid a f) s) = Ok m ->
     answer E (QExplainCheck n pid a f) s = Ok (AExplained (x_authorized m) (x_tree m))) /\
  (forall root f m, fst (run (expand_message E n pid root f) s) = Ok m ->
     w_format m = f /\ answer E (QExpand n pid root f) s = Ok (AExpanded (w_tree m))).
Proof.
  intros E n pid s. split; [| split].
  - intros a m. unfold explain_message. rewrite run_rbind.
    destruct (run (explain_check E n pid a FSpew) s) as [[[b' t'] | | |] s'] eqn:Q; cbn [fst snd run]; try discriminate.
    intros [= <-]. reflexivity.
  - intros a f m. serve_eq. unfold explain_message. rewrite run_rbind.
    destruct (run (explain_check E n pid a f) s) as [[[b' t'] | | |] s'] eqn:Q; cbn [fst snd run]; try discriminate.
    intros [= <-]. reflexivity.
  - intros root f m. serve_eq. unfold expand_message. rewrite run_rbind.
    destruct (run (expand E n pid root f) s) as [[t | | |] s'] eqn:Q; cbn [fst snd run]; try discriminate.
    intros [= <-]. split; reflexivity.
Qed.

Example C83_case :
  let s := after_all E0 [create "p"; set "p" (tup "group" "g" "member" (user "bob"))] empty_store in
  let a := Some (mkAccess (Some (ent "group" "g")) "member" (Some (ent "user" "bob"))) in
  (exists m, fst (run (explain_message E0 20 "p" a FDot) s) = Ok m /\ x_format m = FSpew) /\
  (exists m, fst (run (expand_message E0 20 "p" (Some (NSet (Some (ent "group" "g")) "member")) FDot) s) = Ok m /\ w_format m = FDot).
Proof. cbn zeta. split; eexists; (split; [vm_compute; reflexivity | reflexivity]). Qed.

Print Assumptions C82_missing_call_crashes_refuted.
Print Assumptions C82_complete_builds_partial.
Print Assumptions C82_built_relationships_partial.
Print Assumptions C82_built_parts.
Print Assumptions C83_explain_format_refuted.
Print Assumptions C83_formats_partial.
