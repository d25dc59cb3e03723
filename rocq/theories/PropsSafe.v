(** C85: a server whose clients keep to the rules never panics. *)
From Verif Require Import Base Domain Lexer Parser Validate Store Search Explain Yaml Service Dump Api
  SpecGrammar SpecPolicy SpecStore SpecSearch SpecSafe Fixtures BaseFacts ValidateFacts StoreFacts PolicyFacts RelFacts NameFacts PropsExplain SafeFacts.

(** ** C85 No request makes the server panic *)

(** Missing: requests that break one of the rules of [careful].  The requests are served at the same time, on any
    store that such requests left behind, however often the server stopped. *)
Theorem C85_careful_partial : forall E T s qs sched i, careful_store E T s -> Forall (careful E T) qs ->
  answered (interleave sched (start E qs s)) i <> Some Panic.
Proof. exact careful_answers. Qed.

(** Served alone. *)
Theorem C85_alone_partial : forall E T s q, careful_store E T s -> careful E T q -> answer E q s <> Panic.
Proof.
  intros E T s q Hs Hq. destruct (complete_one (serve E q) 0 [serve E q] s eq_refl) as [k Hk].
  pose proof (C85_careful_partial E T s [q] (repeat 0 k) 0 Hs (Forall_cons q Hq (Forall_nil _))) as H.
  unfold answered, start in H. cbn [map] in H. rewrite Hk in H. cbn in H. unfold answer. congruence.
Qed.

(** Every YAML text that decodes keeps to the rules, with the tuplesets it uses. *)
Theorem C85_yaml : forall E T y now app,
  careful E T (QCreatePolicy now (Some (DYaml (Some y))) app) <-> forall ts, tupleset E (map_policy_definition y) ts -> T ts.
Proof.
  intros E T y now app. cbn [careful]. split.
  - intros [_ H]. apply (H _ (def_yaml y)).
  - intros H. split; [split; discriminate |]. intros p Hp. inversion Hp; subst. split; [apply yaml_restricted | exact H].
Qed.

(** When sha256 has no collisions, a relationship with a whole resource as subject keeps to the rules exactly when
    the text made of its object and relation ends with no tupleset. *)
Theorem C85_narrow : forall E T r rs, collision_free E -> r_subject r = Some (SResourceSet rs) ->
  (narrow E T r <-> forall x ts, T ts -> object_text r <> x +++ ts).
Proof.
  intros E T r rs Hc Hr. split.
  - intros H x ts Ht Hx. apply (H rs (mkEntity x "") ts Hr Ht). unfold filed_under. cbn. rewrite Hx. reflexivity.
  - intros H rs' o ts _ Ht Hf. apply Hc in Hf. apply (H (e_res o +++ e_id o) ts Ht). rewrite Hf. symmetry. apply append_assoc.
Qed.

(** Without the rules: messages without their parts panic in every store that holds a policy, some in every store. *)
Theorem C85_incomplete_refuted : forall E s pid rec n now app f,
  answer E (QGetPolicy pid) s = Ok (APolicy (Some rec)) ->
  answer E (QCheck n pid None) s = Panic /\
  answer E (QExplainCheck n pid None FDot) s = Panic /\
  answer E (QExpand n pid None FDot) s = Panic /\
  answer E (QCheck (S n) pid (Some (mkAccess None f (Some (ent "user" "u"))))) s = Panic /\
  answer E (QSetRelationship now pid None app) s = Panic /\
  answer E (QFindRelationshipRecords pid None) s = Panic /\
  forall any pid',
    answer E (QCreatePolicy now None app) any = Panic /\
    answer E (QDeleteRelationship pid' None) any = Panic /\
    answer E (QGetRelationship pid' None) any = Panic /\
    answer E (QDeleteRelationships pid' None) any = Panic.
Proof.
  intros E s pid rec n now app f H. rewrite answer_get_policy in H. injection H as H. unfold policies in H.
  unfold answer. cbn [serve respond].
  repeat split; try reflexivity; cbn; rewrite ?H; reflexivity.
Qed.

(** Two clients set up a policy with tuplesets and relationships, one of them with all users as its subject, in a
    relation that is not a tupleset; then two checks, an expansion and a dump run at the same time as an update. *)
Definition example_names (ts : string) : Prop := ts = "parent"%string \/ ts = "any"%string.

Definition example_setup : list request :=
  [QCreatePolicy 1%N (Some (DPolicy ttu_policy)) ""; set "p" (tup "file" "1" "parent" (SEntity (ent "folder" "f")));
   set "p" (tup "folder" "f" "viewer" (SResourceSet "user"))].

Definition example_round : list request :=
  [QCheck 20 "p" (asks (ent "file" "1") "reader" (ent "user" "u"));
   QExplainCheck 20 "p" (asks (ent "file" "1") "other" (ent "user" "u")) FDot;
   QUpdatePolicy (Some (DPolicy ttu_policy)) "x"; QDumpRelationships 20 "p" true].

Lemma example_careful : Forall (careful E0 example_names) (example_setup ++ example_round).
Proof.
  assert (Hp : forall p, defines (Some (DPolicy ttu_policy)) p -> restricted p /\ forall ts, tupleset E0 p ts -> example_names ts).
  { intros p Hd. inversion Hd; subst. split.
    - intros rs l (r & Hr & _ & Hl). cbn in Hr. repeat destruct Hr as [<- | Hr]; try contradiction; cbn in Hl;
        repeat destruct Hl as [<- | Hl]; try contradiction; discriminate.
    - intros ts (rs & l & t & cu & (r & Hr & _ & Hl) & Ht & Ho). apply expression_get in Ht as [Ht _].
      cbn in Hr. repeat destruct Hr as [<- | Hr]; try contradiction; cbn in Hl; repeat destruct Hl as [<- | Hl]; try contradiction;
        cbn in Ht; injection Ht as <-; inversion Ho; subst; [left | right]; reflexivity. }
  assert (Hc : complete_definition (Some (DPolicy ttu_policy))).
  { split; [discriminate |]. intros p [= <-] rs l (r & Hr & _ & Hl). cbn in Hr. repeat destruct Hr as [<- | Hr]; try contradiction; cbn in Hl;
      repeat destruct Hl as [<- | Hl]; try contradiction; (split; [discriminate |]); intros t [= <-]; constructor. }
  assert (Hx : forall a b, whole_access (asks a b (ent "user" "u"))) by (intros a b; do 3 eexists; repeat split).
  cbn [app example_setup example_round].
  apply Forall_cons; [exact (conj Hc Hp) |]. apply Forall_cons; [| apply Forall_cons; [| do 4 (apply Forall_cons; [try exact I; try apply Hx; exact (conj Hc Hp) |]); constructor]].
  - eexists. split; [reflexivity |]. split; [repeat split; discriminate |]. intros rs o ts [=].
  - eexists. split; [reflexivity |]. split; [repeat split; discriminate |]. intros rs o ts _ Hts.
    unfold filed_under. cbn. intros Hf.
    assert (Hs : "folderfviewer"%string = (e_res o +++ e_id o) +++ ts) by (rewrite Hf; symmetry; apply append_assoc).
    clear Hf. generalize dependent (e_res o +++ e_id o). intros x Hs.
    destruct Hts as [-> | ->];
      repeat (destruct x as [| ? x]; cbn in Hs; [discriminate Hs | try discriminate Hs; injection Hs; clear Hs; intros Hs _]).
Qed.

Example C85_example :
  let s := snd (interleave [0; 0; 0; 1; 2; 1; 2; 1; 2; 1; 2] (start E0 example_setup empty_store)) in
  let c := interleave [0; 2; 1; 0; 2; 3; 2; 0; 1; 3; 0; 1; 1; 1] (start E0 example_round s) in
  careful_store E0 example_names s /\ Forall (careful E0 example_names) example_round /\
  answered c 0 = Some (Ok (ADecision true)) /\ answered c 2 = Some (Ok AUpdated) /\
  (exists t, answered c 1 = Some (Ok (AExplained false t))) /\ exists l, answered c 3 = Some (Ok (ADumped l)).
Proof.
  pose proof example_careful as H. apply Forall_app in H as [H1 H2]. cbn zeta. split; [apply ca_serve; [apply ca_empty | exact H1] |].
  split; [exact H2 |]. split; [vm_compute; reflexivity |]. split; [vm_compute; reflexivity |].
  split; eexists; vm_compute; reflexivity.
Qed.

(** A check without a subject panics where it meets an entity or all entities of a resource, and is refused where it meets nothing. *)
Example C85_no_subject : let s := after_all E0 example_setup empty_store in
  map (fun o => answer E0 (QCheck 20 "p" (Some (mkAccess (Some o) "viewer" None))) s) [ent "folder" "f"; ent "folder" "g"] = [Panic; Ok (ADecision false)] /\
  answer E0 (QCheck 20 "p" (Some (mkAccess (Some (ent "file" "1")) "parent" None))) s = Panic.
Proof. vm_compute. auto. Qed.

Print Assumptions C85_careful_partial.
Print Assumptions C85_alone_partial.
Print Assumptions C85_yaml.
Print Assumptions C85_narrow.
Print Assumptions C85_incomplete_refuted.
