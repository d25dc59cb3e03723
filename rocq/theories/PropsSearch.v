(** Properties of Check, ExplainCheck and Expand: C08, C17, C24 to C35. *)
From Verif Require Import Base Domain Lexer Parser Validate Store Search Explain Yaml Service Dump Api
  SpecGrammar SpecPolicy SpecStore SpecSearch Fixtures BaseFacts ParserFacts ValidateFacts StoreFacts PolicyFacts RelFacts
  SearchFacts SearchSem SearchTerm SearchExplain GraphFacts NameFacts DotFacts PropsStore.

Lemma known_policy E s pid rec : answer E (QGetPolicy pid) s = Ok (APolicy (Some rec)) <-> policies s pid = Some rec.
Proof. rewrite answer_get_policy. split; congruence. Qed.

(** ** C24 Check, ExplainCheck and Expand terminate *)

Theorem C24_check_terminates : forall E s pid a, exists N, forall n, N <= n ->
  answer E (QCheck n pid a) s <> Fuel /\ answer E (QCheck n pid a) s = answer E (QCheck N pid a) s.
Proof.
  intros E s pid [[o rel a] |].
  2:{ exists 0. intros n _. serve_eq. unfold check, check_search. rewrite !run_rbind, !run_pbind. cbn [repo_get_policy run fst snd].
      destruct (kv_get scmp pid (st_pol s)); split; reflexivity || discriminate. }
  destruct (policies s pid) as [rec |] eqn:Hp.
  - exists (search_bound E (pr_policy rec) (edges_of pid s) (NSet o rel)). intros n Hn. rewrite !answer_check. unfold check_tree.
    rewrite Hp. destruct (search_terminates E (pr_policy rec) (edges_of pid s) (NSet o rel) (GoalEntity a) n Hn) as [_ ->].
    split; [| reflexivity]. destruct (search_terminates E (pr_policy rec) (edges_of pid s) (NSet o rel) (GoalEntity a) _ (le_n _)) as [Hf' _].
    destruct (search E (pr_policy rec) (edges_of pid s) _ (NSet o rel) (GoalEntity a)); cbn; congruence.
  - exists 0. intros n _. rewrite !answer_check. unfold check_tree. rewrite Hp. split; [discriminate | reflexivity].
Qed.

Lemma serialize_bound f t n m : 3 <= m -> m <= n -> serialize n f t = serialize m f t /\ serialize n f t <> Fuel.
Proof.
  intros Hm Hn. destruct f; cbn; try (split; [reflexivity | discriminate]).
  2:{ split; [reflexivity |]. pose proof (goal_dot_fuel t). destruct (goal_dot t); cbn; congruence. }
  destruct (json_bound t n) as [-> H]; [lia |]. destruct (json_bound t m) as [-> H']; [lia |]. auto.
Qed.

Theorem C24_explain_terminates : forall E s pid a f, exists N, forall n, N <= n ->
  answer E (QExplainCheck n pid a f) s <> Fuel /\
  answer E (QExplainCheck n pid a f) s = answer E (QExplainCheck N pid a f) s.
Proof.
  intros E s pid [[o rel a] |] f.
  2:{ exists 0. intros n _. unfold answer. cbn.
      destruct f; cbn; try (split; reflexivity || discriminate);
        destruct (kv_get scmp pid (st_pol s)); cbn; split; reflexivity || discriminate. }
  destruct (policies s pid) as [rec |] eqn:Hp.
  - pose (b := search_bound E (pr_policy rec) (edges_of pid s) (NSet o rel)).
    exists (b + 3). intros n Hn. rewrite !answer_explain. unfold check_tree.
    rewrite Hp. destruct (search_terminates E (pr_policy rec) (edges_of pid s) (NSet o rel) (GoalEntity a) n) as [_ ->]; [unfold b in *; lia |].
    destruct (search_terminates E (pr_policy rec) (edges_of pid s) (NSet o rel) (GoalEntity a) (b + 3)) as [_ ->]; [unfold b; lia |].
    destruct (search_terminates E (pr_policy rec) (edges_of pid s) (NSet o rel) (GoalEntity a) _ (le_n _)) as [Hf _].
    destruct (serializer_factory f) eqn:Hsf; try (split; [discriminate | reflexivity]).
    2:{ destruct f; discriminate. }
    cbn [bind]. destruct (search E (pr_policy rec) (edges_of pid s) _ (NSet o rel) (GoalEntity a)) as [t | | |]; cbn [bind];
      try (split; [discriminate | reflexivity]); [| contradiction Hf; reflexivity].
    destruct (serialize_bound f t n (b + 3)) as [-> Hs]; [lia | exact Hn |].
    destruct (serialize_bound f t (b + 3) (b + 3)) as [_ Hs']; [lia | lia |].
    split; [| reflexivity]. destruct (serialize (b + 3) f t); cbn; congruence.
  - exists 0. intros n _. rewrite !answer_explain. unfold check_tree. rewrite Hp.
    destruct (serializer_factory f) eqn:Hsf; cbn; split; try discriminate; try reflexivity. destruct f; discriminate.
Qed.

Theorem C24_expand_terminates : forall E s pid root f, exists N, forall n, N <= n ->
  answer E (QExpand n pid root f) s <> Fuel /\
  answer E (QExpand n pid root f) s = answer E (QExpand N pid root f) s.
Proof.
  intros E s pid [nd |] f.
  2:{ exists 0. intros n _. unfold answer. cbn.
      destruct f; cbn; try (split; reflexivity || discriminate);
        destruct (kv_get scmp pid (st_pol s)); cbn; split; reflexivity || discriminate. }
  destruct (policies s pid) as [rec |] eqn:Hp.
  - pose (b := search_bound E (pr_policy rec) (edges_of pid s) nd).
    exists (b + 3). intros n Hn. rewrite !answer_expand.
    rewrite Hp. destruct (search_terminates E (pr_policy rec) (edges_of pid s) nd GoalNone n) as [_ ->]; [unfold b in *; lia |].
    destruct (search_terminates E (pr_policy rec) (edges_of pid s) nd GoalNone (b + 3)) as [_ ->]; [unfold b; lia |].
    destruct (search_terminates E (pr_policy rec) (edges_of pid s) nd GoalNone _ (le_n _)) as [Hf _].
    destruct (serializer_factory f) eqn:Hsf; try (split; [discriminate | reflexivity]).
    2:{ destruct f; discriminate. }
    cbn [bind]. destruct (search E (pr_policy rec) (edges_of pid s) _ nd GoalNone) as [t | | |]; cbn [bind];
      try (split; [discriminate | reflexivity]); [| contradiction Hf; reflexivity].
    destruct (serialize_bound f t n (b + 3)) as [-> Hs]; [lia | exact Hn |].
    destruct (serialize_bound f t (b + 3) (b + 3)) as [_ Hs']; [lia | lia |].
    split; [| reflexivity]. destruct (serialize (b + 3) f t); cbn; congruence.
  - exists 0. intros n _. rewrite !answer_expand. rewrite Hp.
    destruct (serializer_factory f) eqn:Hsf; cbn; split; try discriminate; try reflexivity. destruct f; discriminate.
Qed.

(** Groups that contain one another. *)
Definition cyclic_store : store :=
  after_all E0 [create "p"; set "p" (tup "group" "a" "member" (members "b"));
                set "p" (tup "group" "b" "member" (members "a")); set "p" (tup "group" "b" "member" (user "bob"));
                set "p" (tup "file" "f" "reader" (members "a"));
                set "p" (tup "file" "f" "parent" (SEntity (ent "folder" "d")));
                set "p" (tup "folder" "d" "viewer" (SResourceSet "user"))] empty_store.

Example C24_example_cycle :
  answer E0 (QCheck 20 "p" (asks (ent "group" "a") "member" (ent "user" "bob"))) cyclic_store = Ok (ADecision true) /\
  answer E0 (QCheck 20 "p" (asks (ent "group" "a") "member" (ent "user" "eve"))) cyclic_store = Ok (ADecision false) /\
  answer E0 (QCheck 2 "p" (asks (ent "group" "a") "member" (ent "user" "eve"))) cyclic_store = Fuel.
Proof. repeat split; reflexivity. Qed.

(** ** C25 No unjustified authorisation without difference *)

(** Everything Check authorises follows from the rewrite rules and the relationships stored under the keys
    of the relations consulted. *)
Theorem C25_authorised_by_key : forall E s pid rec n o rel a, reachable E s ->
  answer E (QGetPolicy pid) s = Ok (APolicy (Some rec)) -> ~ policy_uses E (pr_policy rec) OpDiff ->
  answer E (QCheck n pid (asks o rel a)) s = Ok (ADecision true) ->
  member E (pr_policy rec) (key_subject E (relationships s pid)) a o rel.
Proof.
  intros E s pid rec n o rel a H Hp Hd Hc. apply reachable_ok in H. apply known_policy in Hp.
  apply check_decision in Hc as (t & Ht & Hr). symmetry in Hr. apply is_success_iff in Hr.
  apply check_tree_ok in Ht as (rec' & seen & Hp' & Hs). rewrite Hp in Hp'. injection Hp' as <-.
  intros M HM. exact (proj1 (search_sound E (pr_policy rec) (edges_of pid s) _ (stored_edges E s pid H) a M HM Hd) _ _ _ _ _ Hs Hr).
Qed.

(** Missing: relationships of other objects stored under a key that is consulted. *)
Theorem C25_authorised_partial : forall E s pid rec n o rel a, reachable E s ->
  answer E (QGetPolicy pid) s = Ok (APolicy (Some rec)) -> ~ policy_uses E (pr_policy rec) OpDiff ->
  unaliased E (pr_policy rec) (relationships s pid) (NSet (Some o) rel) ->
  answer E (QCheck n pid (asks o rel a)) s = Ok (ADecision true) ->
  member E (pr_policy rec) (stored_subject (relationships s pid)) a o rel.
Proof.
  intros E s pid rec n o rel a H Hp Hd Hu Hc. apply member_stored; [exact Hd | exact Hu |].
  eapply C25_authorised_by_key; eauto.
Qed.

(** Object ids enclosed in a character that no name contains, and no hash collisions: nothing is missing. *)
Theorem C25_authorised_delimited : forall E c s pid rec n o rel a, reachable E s -> collision_free E ->
  answer E (QGetPolicy pid) s = Ok (APolicy (Some rec)) -> ~ policy_uses E (pr_policy rec) OpDiff ->
  delimited_ids c (pr_policy rec) (relationships s pid) -> delimited c (e_id o) ->
  answer E (QCheck n pid (asks o rel a)) s = Ok (ADecision true) ->
  member E (pr_policy rec) (stored_subject (relationships s pid)) a o rel.
Proof.
  intros E c s pid rec n o rel a H Hc Hp Hd Hi Ho Hx. eapply C25_authorised_partial; eauto.
  apply known_policy in Hp. apply (delimited_unaliased E c); auto. eapply so_policy; [apply reachable_ok; exact H | exact Hp].
Qed.

(** file:s1 and files:1 share the key of their reader relation. *)
Definition alias_store (E : env) : store :=
  after_all E [QCreatePolicy 1%N (Some (DPolicy alias_policy)) "";
               set "p" (tup "file" "s1" "reader" (SEntity (ent "file" "x")))] empty_store.

Lemma alias_rewrites E o rel t : rewrites E alias_policy o rel t -> t = TRule RThis.
Proof.
  intros (l & (r & Hr & _ & Hl) & _ & Hx).
  destruct Hr as [<- | [<- | []]]; destruct Hl as [<- | []]; destruct Hx as [x [=] _ | [= <-] _]; reflexivity.
Qed.

Lemma alias_check E : sha E "files/1/reader" <> sha E "file/x/" ->
  answer E (QCheck 5 "p" (asks (ent "files" "1") "reader" (ent "file" "x"))) (alias_store E) = Ok (ADecision true).
Proof.
  intros H. apply not_eq_sym, String.eqb_neq in H. unfold asks. rewrite answer_check. unfold check_tree.
  assert (policies (alias_store E) "p" = Some (mkPRec alias_policy "" 1%N)) as -> by reflexivity.
  cbn. unfold search. rewrite search_path_S. cbn. unfold handle_entity_set, build_goal_for_rule, get_successors, node_key. cbn. rewrite String.eqb_refl. cbn. rewrite H. reflexivity.
Qed.

Theorem C25_authorised_refuted : forall E, collision_free E -> exists s rec n o rel a, sequential E s /\
  answer E (QGetPolicy "p") s = Ok (APolicy (Some rec)) /\ ~ policy_uses E (pr_policy rec) OpDiff /\
  answer E (QCheck n "p" (asks o rel a)) s = Ok (ADecision true) /\
  ~ member E (pr_policy rec) (stored_subject (relationships s "p")) a o rel.
Proof.
  intros E Hc. exists (alias_store E), (mkPRec alias_policy "" 1%N), 5, (ent "files" "1"), "reader", (ent "file" "x").
  split; [eexists; reflexivity |]. split; [reflexivity |]. split; [| split].
  - intros (rs & l & t & Hl & Hx & Hu).
    assert (t = TRule RThis) as -> by (eapply (alias_rewrites E (mkEntity rs "")); exists l; eauto).
    inversion Hu.
  - apply alias_check. intros H. apply Hc in H. discriminate.
  - intros Hm. cut (ent "files" "1" = ent "file" "s1"); [discriminate |]. apply (Hm (fun o _ => o = ent "file" "s1")).
    intros o rel t Hw He. rewrite (alias_rewrites E o rel t Hw) in He. destruct He as (u & [Hu | []] & _). injection Hu as <- _ _. reflexivity.
Qed.

Definition asked (o : entity) (rel : string) (a : entity) : request := QCheck 20 "p" (asks o rel a).

(** ** C26 Check decides membership exactly for union policies *)

Theorem C26_decides_by_key : forall E s pid rec n o rel a b, reachable E s ->
  answer E (QGetPolicy pid) s = Ok (APolicy (Some rec)) -> union_only E (pr_policy rec) ->
  distinct_ids E (pr_policy rec) (key_subject E (relationships s pid)) (NSet (Some o) rel) ->
  answer E (QCheck n pid (asks o rel a)) s = Ok (ADecision b) ->
  (b = true <-> member E (pr_policy rec) (key_subject E (relationships s pid)) a o rel).
Proof.
  intros E s pid rec n o rel a b H Hp Hu Hd Hc. split.
  - intros ->. eapply C25_authorised_by_key; eauto. intros Hdiff. specialize (Hu _ Hdiff). discriminate.
  - intros Hm. apply reachable_ok in H. apply known_policy in Hp.
    apply check_decision in Hc as (t & Ht & ->). apply check_tree_ok in Ht as (rec' & seen & Hp' & Hs).
    rewrite Hp in Hp'. injection Hp' as <-. destruct (is_success (get_result t)) eqn:Hr; [reflexivity |]. exfalso.
    eapply search_complete_member; [apply stored_edges; exact H | eapply stored_unique; eauto | exact Hu | exact Hd | exact Hs | | exact Hm].
    intros Hx. apply is_success_iff in Hx. congruence.
Qed.

(** Missing: shared keys and shared node identities. *)
Theorem C26_decides_partial : forall E s pid rec n o rel a b, reachable E s ->
  answer E (QGetPolicy pid) s = Ok (APolicy (Some rec)) -> union_only E (pr_policy rec) ->
  unaliased E (pr_policy rec) (relationships s pid) (NSet (Some o) rel) ->
  distinct_ids E (pr_policy rec) (stored_subject (relationships s pid)) (NSet (Some o) rel) ->
  answer E (QCheck n pid (asks o rel a)) s = Ok (ADecision b) ->
  (b = true <-> member E (pr_policy rec) (stored_subject (relationships s pid)) a o rel).
Proof.
  intros E s pid rec n o rel a b H Hp Hu Ha Hd Hc.
  assert (Hdiff : ~ policy_uses E (pr_policy rec) OpDiff) by (intros Hx; specialize (Hu _ Hx); discriminate).
  rewrite (C26_decides_by_key E s pid rec n o rel a b H Hp Hu); [| apply distinct_keyed; assumption | exact Hc].
  split; [apply member_stored; assumption |]. apply member_mono; [exact Hdiff |]. apply stored_keyed.
Qed.

(** Names without separators, and no hash collisions: nothing is missing. *)
Theorem C26_decides_separated : forall E c s pid rec n o rel a b, reachable E s -> collision_free E ->
  answer E (QGetPolicy pid) s = Ok (APolicy (Some rec)) -> union_only E (pr_policy rec) ->
  delimited_ids c (pr_policy rec) (relationships s pid) -> delimited c (e_id o) ->
  (forall x, reach E (pr_policy rec) (stored_subject (relationships s pid)) (NSet (Some o) rel) x -> plain_node x) ->
  answer E (QCheck n pid (asks o rel a)) s = Ok (ADecision b) ->
  (b = true <-> member E (pr_policy rec) (stored_subject (relationships s pid)) a o rel).
Proof.
  intros E c s pid rec n o rel a b H Hc Hp Hu Hi Ho Hpl Hx. eapply C26_decides_partial; eauto.
  - apply known_policy in Hp. apply (delimited_unaliased E c); auto. eapply so_policy; [apply reachable_ok; exact H | exact Hp].
  - apply plain_distinct_ids; auto.
Qed.

(** The owner user with the empty id has the node identity of all users: it hides the grant to all users. *)
Definition hidden_policy : policy :=
  mkPolicy "p" "" "" [rs "user" [];
    rs "file" [rl "owner" (XTree (TRule RThis)) SRUniversal;
               rl "reader" (XTree (TOp (TRule (RCu "owner")) OpUnion (TRule RThis))) SRUniversal]] [].

Definition hidden_before : list request :=
  [QCreatePolicy 1%N (Some (DPolicy hidden_policy)) ""; set "p" (tup "file" "1" "reader" (SResourceSet "user"))].
Definition hiding : request := set "p" (tup "file" "1" "owner" (user "")).

Ltac settle Hn E :=
  repeat (cbn; unfold search, edge_key, node_key;
    match goal with
    | |- context [String.eqb (sha E ?x) (sha E ?y)] =>
        first [rewrite (String.eqb_refl (sha E x)) | rewrite (Hn x y) by discriminate]
    | |- context [search_path _ _ _ _ _ _ _ _] => rewrite search_path_S
    end).

Lemma hidden_check E : collision_free E ->
  answer E (asked (ent "file" "1") "reader" (ent "user" "alice")) (after_all E hidden_before empty_store) = Ok (ADecision true) /\
  answer E (asked (ent "file" "1") "reader" (ent "user" "alice")) (after_all E (hidden_before ++ [hiding]) empty_store) = Ok (ADecision false).
Proof.
  intros Hc. assert (Hn : forall x y, x <> y -> String.eqb (sha E x) (sha E y) = false).
  { intros x y Hxy. apply String.eqb_neq. intros H. apply Hc in H. contradiction. }
  split.
  - unfold asked, asks. rewrite answer_check. unfold check_tree.
    assert (policies (after_all E hidden_before empty_store) "p" = Some (mkPRec hidden_policy "" 1%N)) as -> by reflexivity.
    settle Hn E. reflexivity.
  - unfold asked, asks. rewrite answer_check. unfold check_tree.
    assert (policies (after_all E (hidden_before ++ [hiding]) empty_store) "p" = Some (mkPRec hidden_policy "" 1%N)) as -> by reflexivity.
    cbn. match goal with |- context [match ?c with Eq => _ | Lt => _ | Gt => _ end] => destruct c end; settle Hn E; reflexivity.
Qed.

(** All files, under collision-free hashing, have different keys. *)
Ltac by_order Hc :=
  match goal with
  | |- context [match ?c with Eq => _ | Lt => _ | Gt => _ end] =>
      let H := fresh "Hcmp" in destruct c eqn:H;
      [exfalso; apply (cmp_eq _ pcmp_ok) in H; apply (f_equal fst), Hc in H; discriminate | | ]
  end.

Lemma hidden_subjects E : collision_free E ->
  stored_subject (relationships (after_all E (hidden_before ++ [hiding]) empty_store) "p") (ent "file" "1") "reader" (SResourceSet "user").
Proof.
  intros Hc. unfold stored_subject, relationships, edges_of. cbn. by_order Hc; cbn; auto.
Qed.

Lemma hidden_member E : collision_free E ->
  member E hidden_policy (stored_subject (relationships (after_all E (hidden_before ++ [hiding]) empty_store) "p"))
    (ent "user" "alice") (ent "file" "1") "reader".
Proof.
  intros Hc M HM. apply (HM _ _ (TOp (TRule (RCu "owner")) OpUnion (TRule RThis))).
  - exists (rl "reader" (XTree (TOp (TRule (RCu "owner")) OpUnion (TRule RThis))) SRUniversal). split; [| split; [reflexivity |]].
    + eexists. split; [right; left; reflexivity |]. split; [reflexivity |]. right. left. reflexivity.
    + apply ex_tree; [reflexivity |]. repeat constructor.
  - right. exists (SResourceSet "user"). split; [apply hidden_subjects; exact Hc | reflexivity].
Qed.

Lemma hidden_union E : union_only E hidden_policy.
Proof.
  intros op (rs & l & t & (r & Hr & _ & Hl) & Hx & Hu).
  destruct Hr as [<- | [<- | []]]; [destruct Hl |]. destruct Hl as [<- | [<- | []]]; destruct Hx as [x [=] _ | [= <-] _].
  - inversion Hu.
  - inversion Hu as [l r | l o r Hl | l o r Hl]; subst; [reflexivity | inversion Hl | inversion Hl].
Qed.

Theorem C26_decides_refuted : forall E, collision_free E -> exists s rec n o rel a, sequential E s /\
  answer E (QGetPolicy "p") s = Ok (APolicy (Some rec)) /\ union_only E (pr_policy rec) /\
  member E (pr_policy rec) (stored_subject (relationships s "p")) a o rel /\
  answer E (QCheck n "p" (asks o rel a)) s = Ok (ADecision false).
Proof.
  intros E Hc. exists (after_all E (hidden_before ++ [hiding]) empty_store), (mkPRec hidden_policy "" 1%N), 20, (ent "file" "1"), "reader", (ent "user" "alice").
  split; [eexists; reflexivity |]. split; [reflexivity |]. split; [apply hidden_union |].
  split; [apply hidden_member; exact Hc | apply hidden_check; exact Hc].
Qed.

(** ** C30 Adding relationships never revokes access under union policies *)

Theorem C30_monotone_partial : forall E s s' pid rec rec' n n' o rel a b, reachable E s -> reachable E s' ->
  answer E (QGetPolicy pid) s = Ok (APolicy (Some rec)) -> answer E (QGetPolicy pid) s' = Ok (APolicy (Some rec')) ->
  pr_policy rec' = pr_policy rec -> union_only E (pr_policy rec) ->
  (forall r, In r (relationships s pid) -> In r (relationships s' pid)) ->
  distinct_ids E (pr_policy rec) (key_subject E (relationships s' pid)) (NSet (Some o) rel) ->
  answer E (QCheck n pid (asks o rel a)) s = Ok (ADecision true) ->
  answer E (QCheck n' pid (asks o rel a)) s' = Ok (ADecision b) -> b = true.
Proof.
  intros E s s' pid rec rec' n n' o rel a b H H' Hp Hp' He Hu Hr Hd Hc Hc'.
  assert (Hdiff : ~ policy_uses E (pr_policy rec) OpDiff) by (intros Hx; specialize (Hu _ Hx); discriminate).
  apply (C26_decides_by_key E s' pid rec' n' o rel a b H' Hp'); [rewrite He; exact Hu | rewrite He; exact Hd | exact Hc' |].
  rewrite He. apply (member_mono E (pr_policy rec) (key_subject E (relationships s pid))); [exact Hdiff | |].
  - intros o1 rel1 u (r & Hin & Hx). exists r. auto.
  - eapply C25_authorised_by_key; eauto.
Qed.

(** Adding an owner takes read access away. *)
Theorem C30_monotone_refuted : forall E, collision_free E -> exists s q rec, sequential E s /\
  answer E (QGetPolicy "p") s = Ok (APolicy (Some rec)) /\ union_only E (pr_policy rec) /\
  answer E q s = Ok (ASet false) /\ (exists r, q = set "p" r) /\
  (forall r, In r (relationships s "p") -> In r (relationships (after E q s) "p")) /\
  answer E (asked (ent "file" "1") "reader" (ent "user" "alice")) s = Ok (ADecision true) /\
  answer E (asked (ent "file" "1") "reader" (ent "user" "alice")) (after E q s) = Ok (ADecision false).
Proof.
  intros E Hc. exists (after_all E hidden_before empty_store), hiding, (mkPRec hidden_policy "" 1%N).
  split; [eexists; reflexivity |]. split; [reflexivity |]. split; [apply hidden_union |].
  split; [cbn; by_order Hc; reflexivity |]. split; [eexists; reflexivity |]. split; [| apply hidden_check; exact Hc].
  intros r [<- | []]. exact (hidden_subjects E Hc).
Qed.

(** ** C27 Intersection, C28 difference *)

(** [o]'s relation [rel] is the intersection of two expressions: nobody is authorised. *)
Theorem C27_intersection_refuses : forall E s pid rec n o rel a l r b, reachable E s ->
  answer E (QGetPolicy pid) s = Ok (APolicy (Some rec)) -> rewrites E (pr_policy rec) o rel (TOp l OpInter r) ->
  (forall x, In x (relationships s pid) -> r_subject x <> Some (SResourceSet (e_res a))) ->
  answer E (QCheck n pid (asks o rel a)) s = Ok (ADecision b) -> b = false.
Proof.
  intros E s pid rec n o rel a l r b H Hp Hw Hn Hc. apply reachable_ok in H. apply known_policy in Hp.
  apply check_decision in Hc as (t & Ht & ->). apply check_tree_ok in Ht as (rec' & seen & Hp' & Hs).
  rewrite Hp in Hp'. injection Hp' as <-.
  assert (Hone : ands_fail t).
  { refine (proj1 (proj2 (proj1 (search_once E (pr_policy rec) (edges_of pid s) _ (stored_edges E s pid H) a _) _ _ _ _ _ Hs _))); [| discriminate].
    intros o' rel' (x & Hin & Hx & _). exact (Hn x Hin Hx). }
  apply (rewrites_node E _ _ _ _ (stored_unique _ _ _ _ H Hp)) in Hw.
  inversion Hs as [? ? ? ? ? Hbad | ? ? ? ? _ _ Hg | ? ? ? ? _ _ _ Hg | ? ? ? ? ? t' gt x ? _ _ _ Ht' _ Hst]; subst; try discriminate; [contradiction |].
  destruct Hw as (l1 & Hl1 & Hx1), Ht' as (l2 & Hl2 & Hx2). rewrite Hl1 in Hl2. injection Hl2 as <-.
  rewrite Hx1 in Hx2. injection Hx2 as <-. cbn [get_result].
  destruct (is_success (get_result x)) eqn:Hr; [| reflexivity]. exfalso. apply is_success_iff in Hr.
  inversion Hst; subst; cbn in Hr; try discriminate.
  eapply Hone; [| exact Hr]. apply wi_path. apply wi_here.
Qed.

(** In every explanation an intersection fails and a difference has the result of its left operand, whenever
    no relationship names all entities of the subject's resource. *)
Theorem C27_explained : forall E s pid rec n o rel a f b t, reachable E s ->
  answer E (QGetPolicy pid) s = Ok (APolicy (Some rec)) ->
  (forall x, In x (relationships s pid) -> r_subject x <> Some (SResourceSet (e_res a))) ->
  answer E (QExplainCheck n pid (asks o rel a) f) s = Ok (AExplained b t) ->
  (forall r ps, within (GAnd r ps) t -> r <> RSuccess) /\
  (forall r x y, within (GDiff r x y) t -> (r = RSuccess <-> get_result x = RSuccess)).
Proof.
  intros E s pid rec n o rel a f b t H Hp Hn Hc. apply reachable_ok in H. apply known_policy in Hp.
  unfold asks in Hc. rewrite answer_explain in Hc. apply bind_ok in Hc as (? & _ & Hc). apply bind_ok in Hc as (t' & Ht & Hc).
  apply bind_ok in Hc as (? & _ & Hc). injection Hc as _ <-. apply check_tree_ok in Ht as (rec' & seen & Hp' & Hs).
  rewrite Hp in Hp'. injection Hp' as <-.
  refine (proj2 (proj1 (search_once E (pr_policy rec) (edges_of pid s) _ (stored_edges E s pid H) a _) _ _ _ _ _ Hs _)); [| discriminate].
  intros o' rel' (y0 & Hin & Hx & _). exact (Hn y0 Hin Hx).
Qed.

Definition algebra_policy : policy :=
  mkPolicy "p" "" "" [rs "user" [];
    rs "file" [rl "a" (XTree (TRule RThis)) SRUniversal; rl "b" (XTree (TRule RThis)) SRUniversal;
               rl "both" (XTree (TOp (TRule (RCu "a")) OpInter (TRule (RCu "b")))) SRUniversal;
               rl "only" (XTree (TOp (TRule (RCu "a")) OpDiff (TRule (RCu "b")))) SRUniversal]] [].

Definition algebra_store (E : env) (us : list subject) : store :=
  after_all E (QCreatePolicy 1%N (Some (DPolicy algebra_policy)) "" ::
    flat_map (fun u => [set "p" (tup "file" "1" "a" u); set "p" (tup "file" "1" "b" u)]) us) empty_store.

Theorem C27_intersection_refuted : forall E, collision_free E ->
  let s := algebra_store E [user "u"] in
  let ask rel := answer E (asked (ent "file" "1") rel (ent "user" "u")) s in
  ask "a" = Ok (ADecision true) /\ ask "b" = Ok (ADecision true) /\ ask "both" = Ok (ADecision false).
Proof.
  intros E Hc s ask. subst s ask. assert (Hn : forall x y, x <> y -> String.eqb (sha E x) (sha E y) = false).
  { intros x y Hxy. apply String.eqb_neq. intros H. apply Hc in H. contradiction. }
  unfold asked, asks. cbv beta. rewrite !answer_check. unfold check_tree, algebra_store.
  match goal with |- context [policies ?s "p"] => assert (policies s "p" = Some (mkPRec algebra_policy "" 1%N)) as -> by reflexivity end.
  cbn. by_order Hc; repeat split; settle Hn E; reflexivity.
Qed.

(** Missing: intersections over subjects named one by one.  What is proved: the explanation criterion of C29. *)

Theorem C28_difference_refuted : forall E, collision_free E ->
  let s := algebra_store E [user "u"] in
  let ask rel := answer E (asked (ent "file" "1") rel (ent "user" "u")) s in
  ask "b" = Ok (ADecision true) /\ ask "only" = Ok (ADecision true).
Proof.
  intros E Hc s ask. subst s ask. assert (Hn : forall x y, x <> y -> String.eqb (sha E x) (sha E y) = false).
  { intros x y Hxy. apply String.eqb_neq. intros H. apply Hc in H. contradiction. }
  unfold asked, asks. cbv beta. rewrite !answer_check. unfold check_tree, algebra_store.
  match goal with |- context [policies ?s "p"] => assert (policies s "p" = Some (mkPRec algebra_policy "" 1%N)) as -> by reflexivity end.
  cbn. by_order Hc; repeat split; settle Hn E; reflexivity.
Qed.

Print Assumptions C24_check_terminates.
Print Assumptions C24_explain_terminates.
Print Assumptions C24_expand_terminates.
Print Assumptions C25_authorised_by_key.
Print Assumptions C25_authorised_partial.
Print Assumptions C25_authorised_delimited.
Print Assumptions C25_authorised_refuted.
Print Assumptions C26_decides_by_key.
Print Assumptions C26_decides_partial.
Print Assumptions C26_decides_separated.
Print Assumptions C26_decides_refuted.
Print Assumptions C30_monotone_partial.
Print Assumptions C30_monotone_refuted.
Print Assumptions C27_intersection_refuses.
Print Assumptions C27_explained.
Print Assumptions C27_intersection_refuted.
Print Assumptions C28_difference_refuted.
