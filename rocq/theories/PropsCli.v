(** Properties of the commands of zanzi-cli: C112, C113. *)
From Coq Require Import Sorted Permutation.
From Verif Require Import Base Domain Lexer Parser Validate Store Search Explain Yaml Service Dump Api Wire Rpc Cli
  SpecGrammar SpecPolicy SpecStore SpecSearch SpecSafe SpecWire SpecRpc SpecCli Fixtures
  BaseFacts WireFacts WireServe RpcFacts WireServe RelFacts CliFacts MergeFacts PropsSafe PropsRpc.
Local Open Scope N_scope.

(** ** C112 The flags of a command say which request it sends *)

Lemma merge_new {A} (f : A -> A -> A) new o : (forall y, o = Some y -> f new y = y) -> merge_sub f new None o = o.
Proof. destruct o as [y |]; cbn; intros H; [rewrite (H y eq_refl); reflexivity | reflexivity]. Qed.

Lemma merge_entity_new e : merge_entity no_entity e = e.
Proof. destruct e. unfold merge_entity. cbn. rewrite !merge_text_none. reflexivity. Qed.
Lemma merge_entity_opt o : merge_sub merge_entity no_entity None o = o.
Proof. apply merge_new. intros. apply merge_entity_new. Qed.
Lemma merge_subject_new u : merge_subject SUnset u = u.
Proof. destruct u; cbn; rewrite ?merge_entity_new, ?merge_entity_opt, ?merge_text_none; reflexivity. Qed.
Lemma merge_relationship_new r : merge_relationship no_relationship r = r.
Proof. destruct r. unfold merge_relationship. cbn. rewrite merge_entity_opt, merge_text_none, merge_new by (intros; apply merge_subject_new). reflexivity. Qed.
Lemma merge_selector_new x : flag_selector x -> merge_selector (mkSel None None None) x = x.
Proof.
  intros ((o & Ho & _ & Ho2) & (n & Hn & _) & u & Hu & _ & Hu2 & _). destruct x as [xo xl xu]. cbn in *. subst. unfold merge_selector. cbn [s_obj s_rel s_subj].
  f_equal; apply merge_new; intros y [= <-].
  - destruct o as [[e |] | | |]; cbn; rewrite ?merge_entity_new; congruence.
  - destruct n; reflexivity.
  - destruct u as [[u |] | | |]; cbn; rewrite ?merge_subject_new; congruence.
Qed.
Lemma merge_access_new a : merge_access (mkAccess None "" None) a = a.
Proof. destruct a. unfold merge_access. cbn. rewrite !merge_entity_opt, merge_text_none. reflexivity. Qed.
Lemma merge_root_new n : merge_root NUnset n = n.
Proof. destruct n; cbn; rewrite ?merge_entity_opt, ?merge_text_none; reflexivity. Qed.
Lemma merge_sent_new d : map_definition d -> merge_sent SentUnset d = d.
Proof.
  intros H. destruct d as [p | s |]; cbn; try reflexivity. destruct p as [i n t rs al]. specialize (H _ eq_refl). apply sorted_kv in H. cbn in H. unfold merge_policy. cbn.
  rewrite !merge_text_none, set_all_same by exact H. reflexivity.
Qed.
Lemma merge_enum_none n : merge_enum 0 n = n.
Proof. unfold merge_enum. destruct (N.eqb_spec n 0); congruence. Qed.

Lemma merge_empty c : describable c -> merge_call (empty_call (method_of c)) c = c.
Proof.
  destruct c; cbn [method_of empty_call merge_call describable]; intros H; rewrite ?merge_text_none, ?merge_enum_none; try reflexivity;
    try (destruct H as (x & -> & H)); try (destruct H as ((x & -> & H) & Hf)); cbn [merge_sub or_else format_code];
    rewrite ?merge_enum_none, ?code_of by assumption;
    rewrite ?merge_sent_new, ?merge_relationship_new, ?merge_selector_new, ?merge_access_new, ?merge_root_new by assumption; reflexivity.
Qed.

Lemma command_empty m l : command m (empty_call m) l = flags_request m l.
Proof.
  unfold command. destruct (flags_request m l) as [c |] eqn:H; [| reflexivity]. destruct (flags_describable m l c H) as [Hd Hm].
  cbn [omap]. rewrite <- Hm, merge_empty by exact Hd. reflexivity.
Qed.

Lemma means_one m l c c' : means m l c -> means m l c' -> describable c -> describable c' -> c = c'.
Proof.
  assert (Hd : forall g d d', means_definition g d -> means_definition g d' -> map_definition d -> map_definition d' -> d = d').
  { intros g d d'. unfold means_definition. intros H H' Hs Hs'.
    assert (Hp : forall p p', d = SentPolicy p -> d' = SentPolicy p' -> means_policy g p -> means_policy g p' -> d = d').
    { intros p p' -> -> Mp Mp'. specialize (Hs _ eq_refl). specialize (Hs' _ eq_refl). apply sorted_kv in Hs, Hs'. destruct p, p'. unfold means_policy in *. cbn in *.
      destruct Mp as (-> & -> & -> & -> & H1), Mp' as (-> & -> & -> & -> & H2). do 2 f_equal.
      apply (sorted_ext scmp scmp_ok); [exact Hs | exact Hs' |]. intros k. rewrite H1, H2. reflexivity. }
    destruct (last_said Some g) as [[] |]; try congruence; destruct H as (p & Hp1 & Hp2), H' as (p' & Hp3 & Hp4); eapply Hp; eassumption. }
  destruct m; cbn; try congruence; intros (d & H1 & ->) (d' & H2 & ->) Hc Hc'; cbn in Hc, Hc';
    destruct Hc as (x & [= <-] & Hx), Hc' as (y & [= <-] & Hy); do 2 f_equal; eapply Hd; eassumption.
Qed.

(** Without input, a command sends a request exactly when it has all the flags, and it is the request that they mean. *)
Theorem C112_meaning : forall m l c, command m (empty_call m) l = Some c <->
  Forall (fun f => has_flag m f = true) l /\ means m l c /\ describable c.
Proof.
  intros m l c. rewrite command_empty. split.
  - intros H. pose proof (flags_means _ _ _ H) as Hm. destruct (flags_describable _ _ _ H) as [Hd _]. split; [| split; assumption].
    unfold flags_request in H. destruct (forallb _ l) eqn:Hf; [| discriminate]. apply Forall_forall. apply forallb_forall. exact Hf.
  - intros (Hf & Hm & Hd). assert (Hb : forallb (has_flag m) l = true) by (apply forallb_forall; apply Forall_forall; exact Hf).
    assert (He : exists c', flags_request m l = Some c') by (unfold flags_request; rewrite Hb; eexists; reflexivity). destruct He as (c' & He).
    rewrite He. f_equal. pose proof (flags_means _ _ _ He). destruct (flags_describable _ _ _ He). eapply means_one; eassumption.
Qed.

(** Flags can describe every request with its parts but a selector with a wildcard.  Missing: the other requests. *)
Theorem C112_every_request_partial : forall c,
  (exists l, command (method_of c) (empty_call (method_of c)) l = Some c) <-> describable c.
Proof.
  intros c. split.
  - intros (l & H). rewrite command_empty in H. apply (flags_describable _ _ _ H).
  - intros H. exists (flags_of c). rewrite command_empty. apply describable_flags. exact H.
Qed.

(** So flags cannot ask for all subjects, all relations or all objects: what they select has one relation, and they never
    select every relationship of an object. *)
Theorem C112_wildcard_refuted : forall l m pid sel, m = MFindRelationshipRecords \/ m = MDeleteRelationships ->
  command m (empty_call m) l = Some (KFindRelationshipRecords pid (Some sel)) \/
  command m (empty_call m) l = Some (KDeleteRelationships pid (Some sel)) ->
  s_obj sel <> Some OSWild /\ s_rel sel <> Some LSWild /\ s_subj sel <> Some USWild /\
  forall r r', selects sel r -> selects sel r' -> r_relation r = r_relation r'.
Proof.
  intros l m pid sel _ H.
  assert (Hp : flag_selector sel).
  { destruct H as [H | H]; rewrite command_empty in H; apply flags_describable in H as [(x & [= <-] & Hx) _]; exact Hx. }
  destruct Hp as ((o & Ho & Ho1 & _) & (n & Hn & Hn1) & u & Hu & Hu1 & _). rewrite Ho, Hn, Hu. repeat split; try congruence.
  intros r r' (? & n1 & ? & _ & H1 & _ & _ & H2 & _) (? & n2 & ? & _ & H3 & _ & _ & H4 & _).
  rewrite Hn in H1, H3. injection H1 as <-. injection H3 as <-. destruct n; cbn in *; try congruence; contradiction.
Qed.

(** A boolean flag that is set to false chooses its member as well. *)
Theorem C112_false_refuted : forall pid, exists c c',
  command MExpand (empty_call MExpand) [FId pid] = Some c /\ command MExpand (empty_call MExpand) [FId pid; FRoot (RfWildcard false)] = Some c' /\ c <> c'.
Proof. intros pid. do 2 eexists. split; [reflexivity |]. split; [reflexivity |]. discriminate. Qed.

(** With flags alone no command can make a server panic that has served only careful requests (C85) and such commands, at the
    same time and with stops at any point.  Missing: the commands that write. *)
Lemma flags_careful E T L now n m l c : command m (empty_call m) l = Some c -> ~ writes m -> careful E T (request_of L now n c).
Proof.
  intros H Hw. rewrite command_empty in H. apply flags_describable in H as [H Hm]. subst m. unfold writes in Hw.
  destruct c; cbn [method_of describable request_of careful] in *; try exact I; try (exfalso; apply Hw; auto; fail).
  1-2: destruct H as (x & -> & (o & Ho) & u & Hu & Hx); exists x; (split; [reflexivity |]); unfold complete_relationship; rewrite Ho, Hu;
    (split; [discriminate |]); (split; [discriminate |]); intros rel [= ->]; exact (Hx rel eq_refl).
  1-2: destruct H as (x & -> & (o & Ho & Ho1 & Ho2) & (r & Hr & _) & u & Hu & _ & Hu2 & _); exists x; (split; [reflexivity |]); unfold with_parts; rewrite ?Ho, ?Hr, ?Hu;
    repeat split; congruence.
  1: destruct H as (x & -> & (o & Ho) & u & Hu).
  2: destruct H as ((x & -> & (o & Ho) & u & Hu) & _).
  1-2: exists x, o, u; repeat split; assumption.
  destruct H as ((x & -> & Hx) & _). exists x. split; [reflexivity | exact Hx].
Qed.

Theorem C112_safe_partial : forall E T s qs sched i, careful_store E T s ->
  Forall (fun q => careful E T q \/ exists L now n m l c, command m (empty_call m) l = Some c /\ ~ writes m /\ q = request_of L now n c) qs ->
  answered (interleave sched (start E qs s)) i <> Some Panic.
Proof.
  intros E T s qs sched i Hs Hq. apply (C85_careful_partial E T); [exact Hs |]. eapply Forall_impl; [| exact Hq].
  intros q [H | (L & now & n & m & l & c & Hc & Hw & ->)]; [exact H | eapply flags_careful; eassumption].
Qed.

(** zanzi-cli set-relationship with the flags of one relationship, given in some order and one of them twice. *)
Example C112_example :
  command MSetRelationship (empty_call MSetRelationship)
    [FRelationship (TfSubject (UfEntityPart (EfId "u1"))); FId "p"; FRelationship (TfObject (EfResource "file")); FRelationship (TfRelation "writer");
     FRelationship (TfSubject (UfEntityPart (EfResource "user"))); FRelationship (TfObject (EfId "readme")); FRelationship (TfRelation "owner")] =
  Some (KSetRelationship "p" (Some (tup "file" "readme" "owner" (SEntity (ent "user" "u1")))) "").
Proof. reflexivity. Qed.

(** Flags of two members of a oneof: the last one decides. *)
Example C112_example_member :
  command MExpand (empty_call MExpand) [FId "p"; FRoot (RfEntitySetRelation "owner"); FRoot (RfWildcardResource "user")] = Some (KExpand "p" (Some (NWild "user")) FSpew) /\
  command MExpand (empty_call MExpand) [FId "p"; FRoot (RfWildcardResource "user"); FRoot (RfEntitySetRelation "owner")] =
    Some (KExpand "p" (Some (NSet (Some no_entity) "owner")) FSpew).
Proof. split; reflexivity. Qed.

(** A flag of another command is an error. *)
Example C112_example_other : command MGetPolicy (empty_call MGetPolicy) [FId "p"; FAppData "x"] = None.
Proof. reflexivity. Qed.

(** ** C113 A command sends its input with its flags laid over it *)

(** The message that is sent is the one that a server reads from the bytes of the input followed by those of the flags. *)
Theorem C113_law : forall lim ord m i l r c, (9 <= lim)%nat -> (forall x, Permutation (ord x) x) -> method_of i = m ->
  command m (empty_call m) l = Some r -> command m i l = Some c -> proper lim i -> proper lim r ->
  exists a b, marshal_call ord i = Some a /\ marshal_call ord r = Some b /\ (short (a +++ b) -> unmarshal_call m lim (a +++ b) = Some c).
Proof.
  intros lim ord m i l r c Hl Ho Hm Hr Hc Pi Pr. rewrite command_empty in Hr. pose proof (proj2 (flags_describable _ _ _ Hr)) as Hmr.
  unfold command in Hc. rewrite Hr in Hc. injection Hc as <-.
  exists (put_fields (fs_call ord i)), (put_fields (fs_call ord r)). unfold marshal_call. rewrite !all_utf8_forallb by (apply Pi || apply Pr).
  split; [reflexivity |]. split; [reflexivity |]. rewrite <- put_fields_app. intros Hs. rewrite <- Hmr. apply call_merge; try assumption. congruence.
Qed.

(** Without flags the input is sent, and its missing parts with it. *)
Lemma entity_eta e : merge_entity e no_entity = e.
Proof. destruct e. reflexivity. Qed.
Lemma fill_relationship r : merge_relationship r (relationship_at new_relationship) = filled_relationship r.
Proof. unfold merge_relationship, filled_relationship. cbn -[merge_entity]. change (mkEntity "" "") with no_entity. rewrite entity_eta. reflexivity. Qed.
Lemma fill_selector x : merge_selector x (selector_at new_selector) = filled_selector x.
Proof. reflexivity. Qed.
Lemma fill_access x : merge_access x (access_at new_access) = filled_access x.
Proof. unfold merge_access, filled_access. cbn -[merge_entity]. change (mkEntity "" "") with no_entity. rewrite !entity_eta. reflexivity. Qed.

Theorem C113_no_flags : forall i, decoded i -> command (method_of i) i [] = Some (filled i).
Proof.
  intros i Hd. destruct i; unfold command, flags_request; cbn [forallb fold_left method_of request_at omap filled merge_call merge_sub merge_text merge_enum N.eqb or_else format_code format_of];
    cbn -[relationship_at selector_at access_at merge_relationship merge_selector merge_access format_code format_of];
    rewrite ?fill_relationship, ?fill_selector, ?fill_access; change (merge_enum (format_code ?f) (format_code (format_of 0))) with (format_code f);
    rewrite ?code_of by exact Hd; reflexivity.
Qed.

(** So what is sent is not always the input: a request for a relationship whose parts are missing makes the server panic,
    and the command does not. *)
Theorem C113_no_flags_refuted : forall E L s now n pid, let i := KGetRelationship pid None in exists c, command (method_of i) i [] = Some c /\ c <> i /\
  answer E (request_of L now n i) s = Panic /\ answer E (request_of L now n c) s <> Panic.
Proof.
  intros E L s now n pid i. eexists. split; [apply (C113_no_flags (KGetRelationship pid None) I) |].
  split; [discriminate |]. split; [reflexivity |]. unfold answer. cbn. destruct (kv_get _ _ _); discriminate.
Qed.

(** Whatever the input and the flags, the parts are there. *)
Theorem C113_parts : forall m i l c, command m i l = Some c -> method_of i = m -> filled c = c.
Proof.
  intros m i l c H Hm. unfold command in H. destruct (flags_request m l) as [r |] eqn:Hr; [| discriminate]. injection H as <-.
  apply flags_describable in Hr as [Hd Hr]. rewrite <- Hm in Hr. destruct i, r; try discriminate Hr; cbn [describable merge_call filled] in *; try reflexivity;
    try (destruct Hd as (x & -> & Hd)); try (destruct Hd as ((x & -> & Hd) & Hf)); cbn [merge_sub or_else]; try reflexivity.
  1-3: destruct Hd as ((o & Ho) & u & Hu & _); unfold merge_relationship, filled_relationship; rewrite Ho, Hu; reflexivity.
  1-2: destruct Hd as ((o & Ho & _) & (n & Hn & _) & u & Hu & _); unfold merge_selector, filled_selector; rewrite Ho, Hn, Hu; reflexivity.
  1-2: destruct Hd as ((o & Ho) & u & Hu); unfold merge_access, filled_access; rewrite Ho, Hu; reflexivity.
Qed.

Lemma no_ids m l : (forall s, has_flag m (FId s) = false) -> forallb (has_flag m) l = true -> last_said (fun f => match f with FId s => Some s | _ => None end) l = None.
Proof.
  intros Hm. induction l as [| f l IH]; cbn [last_said forallb]; [reflexivity |]. intros H. apply andb_prop in H as [H1 H2]. rewrite IH by exact H2.
  destruct f; try reflexivity. rewrite Hm in H1. discriminate.
Qed.

(** The request is about the policy that the flags name, or else the one that the input names. *)
Theorem C113_policy : forall m i l c, command m i l = Some c -> method_of i = m ->
  about_policy c = match said "" (fun f => match f with FId s => Some s | _ => None end) l with EmptyString => about_policy i | id => id end.
Proof.
  intros m i l c H Hm. unfold command in H. destruct (flags_request m l) as [r |] eqn:Hr; [| discriminate]. injection H as <-.
  assert (Hb : forallb (has_flag m) l = true) by (unfold flags_request in Hr; destruct (forallb _ l); [reflexivity | discriminate]).
  pose proof (flags_means _ _ _ Hr) as Hs. subst m.
  destruct i; cbn [method_of means] in Hs; try (destruct Hs as (d' & _ & ->)); try subst r; cbn [merge_call about_policy]; try (destruct (said _ _ l); reflexivity);
    pose proof (fun H => no_ids _ l H Hb) as Hn; unfold said; rewrite Hn by reflexivity; reflexivity.
Qed.

Lemma merge_text_full a b : b <> ""%string -> merge_text a b = b.
Proof. destruct b; [congruence | reflexivity]. Qed.
Lemma merge_entity_full a e : full_entity e -> merge_entity a e = e.
Proof. intros [H1 H2]. destruct e. unfold merge_entity. cbn in *. rewrite !merge_text_full by assumption. reflexivity. Qed.
Lemma merge_subject_full a u : full_subject u -> merge_subject a u = u.
Proof.
  destruct u as [e | o rel | rs |]; cbn [full_subject merge_subject]; intros H.
  - rewrite merge_entity_full by exact H. reflexivity.
  - destruct H as ((e & -> & He) & Hr). cbn [merge_sub]. destruct a; rewrite merge_entity_full, ?merge_text_full by assumption; reflexivity.
  - rewrite merge_text_full by exact H. reflexivity.
  - contradiction.
Qed.
Lemma merge_relationship_full a r : full_relationship r -> merge_relationship a r = r.
Proof.
  intros ((o & Ho & H1) & H2 & u & Hu & H3). destruct r as [ro rr ru]. cbn in *. subst. unfold merge_relationship. cbn.
  rewrite merge_entity_full, merge_text_full, merge_subject_full by assumption. reflexivity.
Qed.
Lemma merge_selector_full a x : full_selector x -> merge_selector a x = x.
Proof.
  intros ((o & Ho & H1 & H2) & (n & Hn & H3) & u & Hu & H4 & H5). destruct x as [xo xn xu]. cbn in *. subst. unfold merge_selector. cbn. f_equal; f_equal.
  - destruct o as [e | | |]; cbn; try congruence. destruct (H2 e eq_refl) as (y & -> & Hy). cbn. rewrite merge_entity_full by exact Hy. reflexivity.
  - destruct n; cbn; congruence.
  - destruct u as [e | | |]; cbn; try congruence. destruct (H5 e eq_refl) as (y & -> & Hy). cbn. rewrite merge_subject_full by exact Hy. reflexivity.
Qed.
Lemma merge_access_full a x : full_access x -> merge_access a x = x.
Proof.
  intros ((o & Ho & H1) & H2 & u & Hu & H3). destruct x as [xo xr xu]. cbn in *. subst. unfold merge_access. cbn.
  rewrite !merge_entity_full, merge_text_full by assumption. reflexivity.
Qed.
Lemma merge_root_full a n : full_root n -> merge_root a n = n.
Proof.
  destruct n as [o rel | o | rs |]; cbn [full_root merge_root]; intros H.
  - destruct H as ((e & -> & He) & Hr). cbn [merge_sub]. destruct a; rewrite merge_entity_full, ?merge_text_full by assumption; reflexivity.
  - destruct H as (e & -> & He). cbn [merge_sub]. rewrite merge_entity_full by assumption. reflexivity.
  - rewrite merge_text_full by exact H. reflexivity.
  - contradiction.
Qed.
Lemma merge_enum_full a b : b <> 0 -> merge_enum a b = b.
Proof. intros H. unfold merge_enum. destruct (N.eqb_spec b 0); congruence. Qed.
Lemma full_code f : one_number f -> f <> FSpew -> format_code f <> 0.
Proof. intros H Hf. destruct f; cbn; try congruence. specialize (H _ eq_refl). lia. Qed.

(** Flags that describe a whole request in which nothing is empty send that request, whatever the input says.  Missing: requests
    with something empty in them, and policies. *)
Theorem C113_flags_win_partial : forall m i l r, command m (empty_call m) l = Some r -> full r -> method_of i = m -> command m i l = Some r.
Proof.
  intros m i l r Hr Hf Hi. rewrite command_empty in Hr. pose proof (flags_describable _ _ _ Hr) as [Hd Hm]. unfold command. rewrite Hr. cbn [omap]. f_equal.
  rewrite <- Hm in Hi. destruct r, i; try discriminate Hi; cbn [full describable merge_call] in *;
    repeat match goal with H : _ /\ _ |- _ => destruct H end; repeat match goal with H : exists x, _ = Some x /\ _ |- _ => destruct H as (? & -> & ?) end;
    cbn [merge_sub]; rewrite ?merge_text_full, ?merge_relationship_full, ?merge_selector_full, ?merge_access_full, ?merge_root_full, ?merge_enum_full by (assumption || apply full_code; assumption);
    rewrite ?code_of by assumption; try reflexivity.
  all: match goal with H : full_definition _ |- _ => destruct H as (s & ->) end; reflexivity.
Qed.

(** An empty text does not win over the input, and the resources of a policy are added to those of the input. *)
Theorem C113_flags_win_refuted :
  (exists r, command MCheck (empty_call MCheck) [FId ""] = Some r /\ forall pid a c, command MCheck (KCheck pid a) [FId ""] = Some c -> about_policy c = pid) /\
  (forall rs rs' c, command MCreatePolicy (KCreatePolicy (Some (SentPolicy (mkPolicy "p" "" "" rs []))) "") [FDefinition (DfResources rs')] = Some c ->
     c = KCreatePolicy (Some (SentPolicy (mkPolicy "p" "" "" (rs ++ rs') []))) "").
Proof.
  split.
  - eexists. split; [reflexivity |]. intros pid a c H. apply (C113_policy MCheck (KCheck pid a)) in H; [exact H | reflexivity].
  - intros rs rs' c [= <-]. reflexivity.
Qed.

(** No command that writes nothing makes a server panic that has served only careful requests and such commands, when the members of oneofs
    in the input have their parts and no relation is selected of all objects.  Missing: other inputs. *)
Lemma merged_subject a b rel : (forall rel, a <> Some (SEntitySet None rel)) -> whole_subject b -> merge_subject (or_else a SUnset) b <> SEntitySet None rel.
Proof.
  intros Ha Hb. destruct b as [e | o r | rs |]; cbn; try discriminate.
  - destruct o as [e |]; [| exfalso; apply (Hb r); reflexivity]. destruct (or_else a SUnset); discriminate.
  - destruct a as [x |]; cbn; [| discriminate]. intros ->. apply (Ha rel). reflexivity.
Qed.

Lemma merged_parts o x : match o with Some y => s_obj y <> Some (OSObject None) /\ s_subj y <> Some (USSubject None) | None => True end -> flag_selector x ->
  with_parts (merge_selector (or_else o (mkSel None None None)) x).
Proof.
  intros Hm ((ob & Ho & Ho1 & Ho2) & (q & Hq & Hq1) & u & Hu & Hu1 & Hu2 & Hu3).
  assert (Hy : s_obj (or_else o (mkSel None None None)) <> Some (OSObject None) /\ s_subj (or_else o (mkSel None None None)) <> Some (USSubject None)).
  { destruct o as [y |]; [exact Hm | split; discriminate]. }
  destruct (or_else o (mkSel None None None)) as [ao an au]. cbn [s_obj s_rel s_subj] in Hy. destruct Hy as [H1 H2].
  unfold with_parts, merge_selector. cbn [s_obj s_rel s_subj]. rewrite Ho, Hq, Hu. cbn [merge_sub]. repeat split; try discriminate.
  - destruct ob; cbn; try discriminate. destruct ao; cbn; congruence.
  - destruct u; cbn; try discriminate. destruct au; cbn; congruence.
Qed.

Lemma command_careful E T L now n m i l c : command m i l = Some c -> method_of i = m -> ~ writes m -> whole_members i ->
  (forall pid x, c = KFindRelationshipRecords pid (Some x) -> s_obj x = Some OSWild -> s_rel x = Some LSWild) -> careful E T (request_of L now n c).
Proof.
  intros H Hi Hw Hm Hf. unfold command in H. destruct (flags_request m l) as [r |] eqn:Hr; [| discriminate]. injection H as <-.
  apply flags_describable in Hr as [Hd Hr]. rewrite <- Hr in Hi, Hw. unfold writes in Hw.
  destruct i, r; try discriminate Hi; cbn [describable merge_call request_of careful whole_members method_of] in *; try exact I; try (exfalso; apply Hw; auto; fail);
    try (destruct Hd as (x & -> & Hd)); try (destruct Hd as ((x & -> & Hd) & Hf')); cbn [merge_sub] in *; eexists.
  1-2: split; [reflexivity |]; destruct Hd as ((o & Ho) & u & Hu & Hx); unfold complete_relationship, merge_relationship; cbn [r_object r_subject]; rewrite Ho, Hu; cbn [merge_sub];
    (split; [discriminate |]); (split; [discriminate |]); intros rel [= Hx']; revert Hx'; apply merged_subject; [| exact Hx];
    match goal with H : match ?r with Some _ => _ | None => _ end |- _ => destruct r; cbn; [exact H | discriminate] end.
  1: split; [reflexivity |]; split; [apply merged_parts; assumption | eapply Hf; reflexivity].
  1: split; [reflexivity |]; apply merged_parts; assumption.
  1-2: destruct Hd as ((o & Ho) & u & Hu); do 2 eexists; split; [reflexivity |]; unfold merge_access; cbn [a_object a_subject]; rewrite Ho, Hu; split; reflexivity.
  split; [reflexivity |]. match goal with |- context [or_else ?r NUnset] => destruct r as [[[] | [] | |] |] end;
    destruct x as [[] | [] | |]; cbn in Hd, Hm |- *; auto.
Qed.

Theorem C113_safe_partial : forall E T s qs sched k, careful_store E T s ->
  Forall (fun q => careful E T q \/ exists L now n m i l c, command m i l = Some c /\ method_of i = m /\ ~ writes m /\ whole_members i /\
    (forall pid x, c = KFindRelationshipRecords pid (Some x) -> s_obj x = Some OSWild -> s_rel x = Some LSWild) /\ q = request_of L now n c) qs ->
  answered (interleave sched (start E qs s)) k <> Some Panic.
Proof.
  intros E T s qs sched k Hs Hq. apply (C85_careful_partial E T); [exact Hs |]. eapply Forall_impl; [| exact Hq].
  intros q [H | (L & now & n & m & i & l & c & Hc & Hm & Hw & Hi & Hf & ->)]; [exact H | eapply command_careful; eassumption].
Qed.

(** An entity set without its entity, given as input, makes every server panic, and flags about other things do not help. *)
Theorem C113_panic_refuted : forall E L s now n pid o rel rel', let i := KGetRelationship "" (Some (mkRel o "" (Some (SEntitySet None rel)))) in exists c,
  command (method_of i) i [FId pid; FRelationship (TfRelation rel')] = Some c /\
  answer E (request_of L now n c) s = Panic.
Proof. intros. eexists. split; reflexivity. Qed.

(** A request of a file is sent for another policy and another object. *)
Example C113_example :
  command MCheck (KCheck "p" (Some (mkAccess (Some (ent "file" "readme")) "owner" (Some (ent "user" "u1"))))) [FAccess (AfObject (EfId "license")); FId "q"] =
  Some (KCheck "q" (Some (mkAccess (Some (ent "file" "license")) "owner" (Some (ent "user" "u1"))))).
Proof. reflexivity. Qed.

Example C113_example_law : let i := KCheck "p" (Some (mkAccess (Some (ent "file" "readme")) "owner" (Some (ent "user" "u1")))) in
  let r := KCheck "q" (Some (mkAccess (Some (mkEntity "" "license")) "" (Some no_entity))) in
  exists a b c, marshal_call (fun x => x) i = Some a /\ marshal_call (fun x => x) r = Some b /\ unmarshal_call MCheck 9 (a +++ b) = Some c /\
    c = KCheck "q" (Some (mkAccess (Some (ent "file" "license")) "owner" (Some (ent "user" "u1")))).
Proof. do 3 eexists. split; [vm_compute; reflexivity |]. split; [vm_compute; reflexivity |]. split; [vm_compute; reflexivity |]. reflexivity. Qed.

Print Assumptions C112_meaning.
Print Assumptions C112_every_request_partial.
Print Assumptions C112_wildcard_refuted.
Print Assumptions C112_false_refuted.
Print Assumptions C112_safe_partial.
Print Assumptions C113_law.
Print Assumptions C113_no_flags.
Print Assumptions C113_no_flags_refuted.
Print Assumptions C113_parts.
Print Assumptions C113_policy.
Print Assumptions C113_flags_win_partial.
Print Assumptions C113_flags_win_refuted.
Print Assumptions C113_safe_partial.
Print Assumptions C113_panic_refuted.
