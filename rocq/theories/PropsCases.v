(** Concrete cases of theorems that have none beside them: C08, C12, C14, C16, C17, C25, C27, C28, C30, C31, C34, C35 and C80.
    Every hypothesis is shown to hold, and the conclusion is observed. *)
From Verif Require Import Base Domain Lexer Parser Validate Store Search Explain Yaml Service Dump Api Config
  SpecGrammar SpecPolicy SpecStore SpecSearch SpecDot SpecConfig Fixtures BaseFacts ParserFacts ValidateFacts StoreFacts PolicyFacts RelFacts
  SearchFacts SearchSem SearchTerm SearchExplain GraphFacts NameFacts DotFacts PropsPolicy PropsStore PropsSearch PropsExplain PropsConfig.

Definition reader_tree : tree :=
  TOp (TOp (TRule RThis) OpUnion (TRule (RCu "owner"))) OpUnion (TRule (RTtu "parent" "viewer")).

Lemma pol_expressions rs l t : relation_of (pol "p") rs l -> expression E0 l t ->
  t = TRule RThis \/ (rs = "file"%string /\ rl_name l = "reader"%string /\ t = reader_tree).
Proof.
  intros (r & Hr & Hn & Hl) Hx. apply expression_get in Hx as [Hx _].
  destruct Hr as [<- | [<- | [<- | [<- | []]]]]; cbn in Hl, Hn; subst rs;
    repeat (destruct Hl as [<- | Hl]; [vm_compute in Hx; injection Hx as <-; auto |]); contradiction.
Qed.

Lemma pol_rewrites o rel t : rewrites E0 (pol "p") o rel t -> t = TRule RThis \/ (e_res o = "file"%string /\ rel = "reader"%string /\ t = reader_tree).
Proof. intros (l & Hl & Hn & Hx). destruct (pol_expressions _ _ _ Hl Hx) as [H | (H1 & H2 & H3)]; [auto | right; subst; auto]. Qed.

Lemma pol_ttu ts cu : occurs (RTtu ts cu) reader_tree -> ts = "parent"%string /\ cu = "viewer"%string.
Proof.
  unfold reader_tree. intros H.
  repeat match goal with H : occurs _ (TOp _ _ _) |- _ => inversion H; clear H; subst | H : occurs _ (TRule _) |- _ => inversion H; clear H; subst end. auto.
Qed.

Lemma cyclic_sequential : sequential E0 cyclic_store.
Proof. eexists. reflexivity. Qed.

Lemma cyclic_relationships r : In r (relationships cyclic_store "p") -> In r
  [tup "group" "a" "member" (members "b"); tup "group" "b" "member" (members "a"); tup "group" "b" "member" (user "bob");
   tup "file" "f" "reader" (members "a"); tup "file" "f" "parent" (SEntity (ent "folder" "d")); tup "folder" "d" "viewer" (SResourceSet "user")].
Proof. vm_compute. tauto. Qed.

Lemma cyclic_admissible r : In r (relationships cyclic_store "p") -> admissible (pol "p") r.
Proof.
  intros H. apply cyclic_relationships in H.
  assert (Hg : relation_of (pol "p") "group" (rl "member" (XTree (TRule RThis)) (SRSet [REntity "user"; REntitySet "group" "member"]))).
  { eexists. split; [right; left; reflexivity |]. split; [reflexivity | left; reflexivity]. }
  assert (Hv : relation_of (pol "p") "folder" (rl "viewer" (XExpr "_this") SRUniversal)).
  { eexists. split; [right; right; left; reflexivity |]. split; [reflexivity | left; reflexivity]. }
  assert (Hp : relation_of (pol "p") "file" (rl "parent" (XExpr "_this") (SRSet [REntity "folder"]))).
  { eexists. split; [right; right; right; left; reflexivity |]. split; [reflexivity | right; left; reflexivity]. }
  assert (Hr : relation_of (pol "p") "file" (rl "reader" (XExpr "_this + owner + parent->viewer") SRUniversal)).
  { eexists. split; [right; right; right; left; reflexivity |]. split; [reflexivity | right; right; left; reflexivity]. }
  assert (Hu : declares_resource (pol "p") "user") by (eexists; split; [left; reflexivity | reflexivity]).
  assert (Hd : declares_resource (pol "p") "folder") by (eexists; split; [right; right; left; reflexivity | reflexivity]).
  repeat (destruct H as [<- | H]); try contradiction; do 3 eexists; (split; [reflexivity |]); (split; [reflexivity |]).
  - split; [exact Hg |]. split; [reflexivity |]. split; [exists (rl "member" (XTree (TRule RThis)) (SRSet [REntity "user"; REntitySet "group" "member"])); split; [exact Hg | reflexivity] |]. right. left. reflexivity.
  - split; [exact Hg |]. split; [reflexivity |]. split; [exists (rl "member" (XTree (TRule RThis)) (SRSet [REntity "user"; REntitySet "group" "member"])); split; [exact Hg | reflexivity] |]. right. left. reflexivity.
  - split; [exact Hg |]. split; [reflexivity |]. split; [exact Hu |]. left. reflexivity.
  - split; [exact Hr |]. split; [reflexivity |]. split; [exists (rl "member" (XTree (TRule RThis)) (SRSet [REntity "user"; REntitySet "group" "member"])); split; [exact Hg | reflexivity] |]. exact I.
  - split; [exact Hp |]. split; [reflexivity |]. split; [exact Hd |]. left. reflexivity.
  - split; [exact Hv |]. split; [reflexivity |]. split; [exact Hu |]. exact I.
Qed.

Lemma below_reader_all n : reach E0 (pol "p") (key_subject E0 (relationships cyclic_store "p")) (NSet (Some (ent "file" "f")) "reader") n ->
  In n below_reader.
Proof. apply (covers_reach_ok _ _ _ _ _ _ (stored_edges _ _ _ cyclic_ok) (wf_unique _ _ cyclic_wf) below_reader_covers). Qed.

Lemma cyclic_ttu_declared :
  ttu_declared E0 (pol "p") (key_subject E0 (relationships cyclic_store "p")) (NSet (Some (ent "file" "f")) "reader").
Proof.
  intros o rel t ts cu u Hr Hw Ho Hs. apply below_reader_all in Hr. destruct (pol_rewrites _ _ _ Hw) as [-> | (He & -> & ->)]; [inversion Ho |].
  apply pol_ttu in Ho as [-> ->].
  assert (o = ent "file" "f") as ->. { repeat (destruct Hr as [Hr | Hr]; [try discriminate Hr; injection Hr as <-; try reflexivity; discriminate He |]). contradiction. }
  destruct Hs as (r & Hr' & Hu & Hk). apply cyclic_relationships in Hr'.
  repeat (destruct Hr' as [<- | Hr']); try contradiction; try discriminate Hk. injection Hu as <-. eexists. split; [reflexivity |].
  exists (rl "viewer" (XExpr "_this") SRUniversal). split; [| reflexivity]. eexists. split; [right; right; left; reflexivity |]. split; [reflexivity | left; reflexivity].
Qed.

Lemma cyclic_ttu_objects :
  ttu_objects E0 (pol "p") (key_subject E0 (relationships cyclic_store "p")) (NSet (Some (ent "file" "f")) "reader").
Proof. intros o rel t ts cu u Hr Hw Ho Hs. destruct (cyclic_ttu_declared o rel t ts cu u Hr Hw Ho Hs) as (o' & H & _). eauto. Qed.

Lemma pol_standard : standard E0 (pol "p").
Proof. intros rs l t Hl Hx. destruct (pol_expressions _ _ _ Hl Hx) as [-> | (_ & _ & ->)]; cbn; auto. Qed.

(** C08: a check through groups that contain each other and through the parent folder decides, as no search is cut short by
    an undeclared relation. *)
Example C08_case :
  sequential E0 cyclic_store /\ answer E0 (QGetPolicy "p") cyclic_store = Ok (APolicy (Some (mkPRec (pol "p") "app" 1%N))) /\
  (forall r, In r (relationships cyclic_store "p") -> admissible (pol "p") r) /\ standard E0 (pol "p") /\
  declares (pol "p") "file" "reader" /\
  ttu_declared E0 (pol "p") (key_subject E0 (relationships cyclic_store "p")) (NSet (Some (ent "file" "f")) "reader") /\
  answer E0 (QCheck 20 "p" (asks (ent "file" "f") "reader" (ent "user" "eve"))) cyclic_store = Ok (ADecision true) /\
  answer E0 (QCheck 20 "p" (asks (ent "file" "f") "reader" (ent "group" "a"))) cyclic_store = Ok (ADecision false).
Proof.
  split; [exact cyclic_sequential |]. split; [reflexivity |]. split; [exact cyclic_admissible |]. split; [exact pol_standard |].
  split. { exists (rl "reader" (XExpr "_this + owner + parent->viewer") SRUniversal). split; [| reflexivity]. eexists. split; [right; right; right; left; reflexivity |]. split; [reflexivity | right; right; left; reflexivity]. }
  split; [exact cyclic_ttu_declared |]. split; reflexivity.
Qed.

(** C12: a relation with a restriction answers, one without crashes. *)
Example C12_case :
  let q rs := QCreatePolicy 1%N (Some (DPolicy (mkPolicy "p" "" "" [mkResource "user" "" []; mkResource "file" "" [mkRelation "reader" "" (Some (XTree (TRule RThis))) rs]] []))) "" in
  let r := tup "file" "1" "reader" (user "u") in
  answer E0 (QSetRelationship 2%N "p" (Some r) "") (after E0 (q (Some (SRSet [REntity "user"]))) empty_store) = Ok (ASet false) /\
  answer E0 (QSetRelationship 2%N "p" (Some r) "") (after E0 (q (Some (SRSet [REntity "file"]))) empty_store) = Err ESubjectNotAllowed /\
  answer E0 (QSetRelationship 2%N "p" (Some r) "") (after E0 (q None) empty_store) = Panic.
Proof. vm_compute. auto. Qed.

(** C14 *)
Example C14_case :
  let s := after_all E0 [create "q"; create "p"; create "q"; create "r"; QDeletePolicy "p"] empty_store in
  answer E0 QListPolicyIds s = Ok (APolicyIds ["q"; "r"]%string) /\ answer E0 (QGetPolicy "p") s = Ok (APolicy None).
Proof. vm_compute. auto. Qed.

(** C16: writing another relationship to policy q leaves the record and the decisions in policy p. *)
Example C16_case :
  let r := tup "file" "1" "owner" (user "u") in
  let s := after_all E0 [create "p"; create "q"; set "p" r] empty_store in
  let q := set "q" (tup "file" "1" "owner" (user "v")) in
  let ask pid u := QCheck 20 pid (asks (ent "file" "1") "reader" (ent "user" u)) in
  sequential E0 s /\ writes_policy q "q" /\ answer E0 q s = Ok (ASet false) /\
  relationships (after E0 q s) "p" = [r] /\ relationships s "q" = [] /\ relationships (after E0 q s) "q" <> [] /\
  answer E0 (ask "p" "u") (after E0 q s) = Ok (ADecision true) /\ answer E0 (ask "p" "v") (after E0 q s) = Ok (ADecision false) /\
  answer E0 (ask "q" "v") (after E0 q s) = Ok (ADecision true) /\
  answer E0 (QGetRelationship "p" (Some r)) (after E0 q s) = answer E0 (QGetRelationship "p" (Some r)) s.
Proof. split; [eexists; reflexivity |]. split; [reflexivity |]. vm_compute. repeat split; auto; discriminate. Qed.

(** Object ids between bars. *)
Definition barred_store : store :=
  after_all E0 [create "p"; set "p" (tup "file" "|f|" "owner" (user "|u|")); set "p" (tup "file" "|f|" "reader" (members "|g|"));
                set "p" (tup "group" "|g|" "member" (user "|w|"))] empty_store.

Lemma barred_ok : store_ok E0 barred_store.
Proof. apply reachable_ok, sequential_reachable. eexists. reflexivity. Qed.

Definition below_barred : list rnode :=
  [NSet (Some (ent "file" "|f|")) "reader"; NSet (Some (ent "group" "|g|")) "member"; NEntity (Some (ent "user" "|w|"));
   NSet (Some (ent "file" "|f|")) "owner"; NEntity (Some (ent "user" "|u|"))].

Lemma below_barred_covers : covers_reach E0 (pol "p") (edges_of "p" barred_store) (NSet (Some (ent "file" "|f|")) "reader") below_barred.
Proof.
  split; [left; reflexivity |]. unfold below_barred.
  repeat (apply Forall_cons; [first [left; reflexivity | right; eexists; split; [vm_compute; reflexivity | vm_compute; tauto]] |]).
  apply Forall_nil.
Qed.

Lemma barred_relationships r : In r (relationships barred_store "p") -> In r
  [tup "file" "|f|" "owner" (user "|u|"); tup "file" "|f|" "reader" (members "|g|"); tup "group" "|g|" "member" (user "|w|")].
Proof. vm_compute. tauto. Qed.

Lemma E0_collision_free : collision_free E0.
Proof. intros x y H. exact H. Qed.

Definition other_file : relationship := tup "file" "|h|" "reader" (user "|v|").

Lemma one_barred rs0 c : delimited "|" (e_id (ent rs0 (String "|" (String c "|")))).
Proof. right. exists (String c ""). reflexivity. Qed.

Lemma barred_delimited : delimited_ids "|" (pol "p") (other_file :: relationships barred_store "p").
Proof.
  split.
  - intros rs0 (r & Hr & <-). repeat (destruct Hr as [<- | Hr]); try contradiction; cbn; repeat split; discriminate.
  - intros rs0 l0 (l & (r & Hr & _ & Hl) & <-). repeat (destruct Hr as [<- | Hr]); try contradiction;
      cbn in Hl; repeat (destruct Hl as [<- | Hl]); try contradiction; cbn; repeat split; discriminate.
  - intros r o [<- | Hr] Ho; [| apply barred_relationships in Hr; repeat (destruct Hr as [<- | Hr]); try contradiction];
      injection Ho as <-; (split; [cbn; repeat split; discriminate |]); (split; [cbn; repeat split; discriminate |]); apply one_barred.
  - intros r u o [<- | Hr] Hu Ho; [| apply barred_relationships in Hr; repeat (destruct Hr as [<- | Hr]); try contradiction];
      injection Hu as <-; injection Ho as <-; apply one_barred.
Qed.

Lemma pol_no_difference : ~ policy_uses E0 (pol "p") OpDiff.
Proof. intros H. apply C26_example_union in H. discriminate. Qed.

Lemma less_delimited c P r l : delimited_ids c P (r :: l) -> delimited_ids c P l.
Proof. intros [H1 H2 H3 H4]. split; auto; intros; [apply (H3 r0 o) | apply (H4 r0 u o)]; auto; right; assumption. Qed.

(** C25: alice is authorised as a member of the group that reads the file; nobody else is. *)
Example C25_case :
  sequential E0 barred_store /\ collision_free E0 /\
  answer E0 (QGetPolicy "p") barred_store = Ok (APolicy (Some (mkPRec (pol "p") "app" 1%N))) /\ ~ policy_uses E0 (pol "p") OpDiff /\
  delimited_ids "|" (pol "p") (relationships barred_store "p") /\ delimited "|" (e_id (ent "file" "|f|")) /\
  answer E0 (asked (ent "file" "|f|") "reader" (ent "user" "|w|")) barred_store = Ok (ADecision true) /\
  answer E0 (asked (ent "file" "|f|") "reader" (ent "user" "|x|")) barred_store = Ok (ADecision false) /\
  member E0 (pol "p") (stored_subject (relationships barred_store "p")) (ent "user" "|w|") (ent "file" "|f|") "reader".
Proof.
  assert (Hd := less_delimited _ _ _ _ barred_delimited). assert (Hp : answer E0 (QGetPolicy "p") barred_store = Ok (APolicy (Some (mkPRec (pol "p") "app" 1%N)))) by reflexivity.
  assert (Hs : sequential E0 barred_store) by (eexists; reflexivity).
  assert (Hc : answer E0 (asked (ent "file" "|f|") "reader" (ent "user" "|w|")) barred_store = Ok (ADecision true)) by reflexivity.
  repeat (split; [first [assumption | exact E0_collision_free | exact pol_no_difference | apply one_barred | reflexivity] |]).
  exact (C25_authorised_delimited E0 "|" barred_store "p" (mkPRec (pol "p") "app" 1%N) 20 _ _ _ (sequential_reachable _ _ Hs) E0_collision_free Hp
    pol_no_difference Hd (one_barred "file" "f") Hc).
Qed.

(** C17: setting a reader of another file. *)
Example C17_case :
  let ask := asked (ent "file" "|f|") "reader" (ent "user" "|v|") in
  let s' := after E0 (set "p" other_file) barred_store in
  delimited_ids "|" (pol "p") (other_file :: relationships barred_store "p") /\
  (forall o1 rel1 rel2, reach E0 (pol "p") (stored_subject (relationships barred_store "p")) (NSet (Some (ent "file" "|f|")) "reader") (NSet (Some o1) rel1) ->
     looks_up E0 (pol "p") o1 rel1 rel2 -> ~ (r_object other_file = Some o1 /\ r_relation other_file = rel2)) /\
  answer E0 (set "p" other_file) barred_store = Ok (ASet false) /\
  answer E0 ask barred_store = Ok (ADecision false) /\ answer E0 ask s' = Ok (ADecision false) /\
  answer E0 (asked (ent "file" "|h|") "reader" (ent "user" "|v|")) s' = Ok (ADecision true).
Proof.
  split; [exact barred_delimited |]. split; [| vm_compute; auto]. intros o1 rel1 rel2 Hr _ [Ho _]. injection Ho as <-.
  apply (reach_mono E0 (pol "p") _ _ (key_subject E0 (relationships barred_store "p"))) in Hr; [| apply stored_keyed].
  apply (covers_reach_ok _ _ _ _ _ _ (stored_edges _ _ _ barred_ok) (wf_unique _ _ cyclic_wf) below_barred_covers) in Hr.
  repeat (destruct Hr as [Hr | Hr]; [discriminate |]). exact Hr.
Qed.

(** C27 and C28: file:1 has user:u in a and all users in b; the explanations are certified, and the equations have the solution [in_mixed]. *)
Definition in_mixed (o : entity) (rel : string) : Prop := o = ent "file" "1" /\ (rel = "a" \/ rel = "b" \/ rel = "both")%string.

Lemma mixed_sequential : sequential E0 mixed_store.
Proof. eexists. reflexivity. Qed.

Lemma mixed_stored o rel u : stored_subject (relationships mixed_store "p") o rel u ->
  o = ent "file" "1" /\ ((rel = "a" /\ u = user "u") \/ (rel = "b" /\ u = SResourceSet "user"))%string.
Proof.
  intros H. assert (H' : In (mkRel (Some o) rel (Some u)) [tup "file" "1" "a" (user "u"); tup "file" "1" "b" (SResourceSet "user")]) by (revert H; vm_compute; tauto).
  destruct H' as [H' | [H' | []]]; injection H' as <- <- <-; auto.
Qed.

Lemma algebra_expressions o rel t : rewrites E0 algebra_policy o rel t -> e_res o = "file"%string /\
  (((rel = "a" \/ rel = "b") /\ t = TRule RThis) \/ (rel = "both" /\ t = TOp (TRule (RCu "a")) OpInter (TRule (RCu "b"))) \/
   (rel = "only" /\ t = TOp (TRule (RCu "a")) OpDiff (TRule (RCu "b"))))%string.
Proof.
  intros (l & (r & Hr & Hn & Hl) & <- & Hx). apply expression_get in Hx as [Hx _]. rewrite <- Hn.
  destruct Hr as [<- | [<- | []]]; cbn in Hl; repeat (destruct Hl as [<- | Hl]; [vm_compute in Hx; injection Hx as <-; cbn; intuition auto |]); contradiction.
Qed.

Lemma algebra_rewrites o rel t : e_res o = "file"%string -> forall l, In l (rs_relations (nth 1 (p_resources algebra_policy) (rs "" []))) ->
  rl_name l = rel -> get_expression_tree E0 l = Ok t -> whole t -> rewrites E0 algebra_policy o rel t.
Proof.
  intros Ho l Hl Hn Hx Hw. exists l. split; [| split; [exact Hn | apply expression_get; auto]].
  eexists. split; [right; left; reflexivity |]. split; [symmetry; exact Ho | exact Hl].
Qed.

Lemma mixed_solution : solution E0 algebra_policy (stored_subject (relationships mixed_store "p")) (ent "user" "u") in_mixed.
Proof.
  intros o rel. split.
  - intros [-> Hrel]. destruct Hrel as [-> | [-> | ->]].
    + exists (TRule RThis). split; [eapply algebra_rewrites; [reflexivity | left; reflexivity | reflexivity | reflexivity | repeat constructor] |].
      exists (user "u"). split; [vm_compute; tauto | reflexivity].
    + exists (TRule RThis). split; [eapply algebra_rewrites; [reflexivity | right; left; reflexivity | reflexivity | reflexivity | repeat constructor] |].
      exists (SResourceSet "user"). split; [vm_compute; tauto | reflexivity].
    + eexists. split; [eapply algebra_rewrites; [reflexivity | right; right; left; reflexivity | reflexivity | reflexivity | repeat constructor] |].
      cbn. unfold in_mixed. auto.
  - intros (t & Hw & He). apply algebra_expressions in Hw as (Ho & [[Hrel ->] | [[-> ->] | [-> ->]]]).
    + destruct He as (u & Hu & _). apply mixed_stored in Hu as [-> _]. split; [reflexivity | tauto].
    + destruct He as [[-> _] _]. split; auto.
    + destruct He as [[-> _] Hn]. exfalso. apply Hn. split; auto.
Qed.

Lemma mixed_unaliased rel : rel = "both"%string \/ rel = "only"%string ->
  unaliased E0 algebra_policy (relationships mixed_store "p") (NSet (Some (ent "file" "1")) rel).
Proof.
  intros Hrel. assert (Hok : store_ok E0 mixed_store) by (apply reachable_ok, sequential_reachable, mixed_sequential).
  assert (Hw : well_formed E0 algebra_policy) by exact (proj2 (so_policy _ _ Hok "p" (mkPRec algebra_policy "" 1%N) eq_refl)).
  eapply unaliased_list with (L := [NSet (Some (ent "file" "1")) rel; NSet (Some (ent "file" "1")) "a"; NSet (Some (ent "file" "1")) "b"; NEntity (Some (ent "user" "u")); NWild "user"]);
    [apply stored_edges, Hok | exact Hw | |].
  - split; [left; reflexivity |]. destruct Hrel as [-> | ->];
      repeat (apply Forall_cons; [first [left; reflexivity | right; eexists; split; [vm_compute; reflexivity | vm_compute; tauto]] |]); apply Forall_nil.
  - intros o rel1 rel' r Ho Hr' Hr. vm_compute in Hr', Hr.
    assert (o = ent "file" "1") as -> by (repeat (destruct Ho as [Ho | Ho]; [try discriminate Ho; injection Ho as <-; try reflexivity |]); contradiction).
    repeat (destruct Hr' as [<- | Hr']); try contradiction;
      repeat (destruct Hr as [<- | Hr]; [vm_compute; first [intros [=]; fail | auto] |]); contradiction.
Qed.

Lemma mixed_result rel b t : answer E0 (QExplainCheck 20 "p" (asks (ent "file" "1") rel (ent "user" "u")) FDot) mixed_store = Ok (AExplained b t) ->
  rel = "both"%string \/ rel = "only"%string -> certified t.
Proof.
  intros H [-> | ->]; vm_compute in H; injection H as <- <-.
  - apply (ce_path _ (GAnd RSuccess _)). apply ce_and_success. intros p [<- | [<- | []]].
    + eapply ce_or_success; [left; reflexivity | reflexivity |]. apply (ce_path _ (GOr RSuccess _)).
      eapply ce_or_success; [left; reflexivity | reflexivity |]. apply ce_leaf. discriminate.
    + eapply ce_or_success; [left; reflexivity | reflexivity |]. apply (ce_path _ (GOr RSuccess _)).
      eapply ce_or_success; [left; reflexivity | reflexivity |]. apply ce_leaf. discriminate.
  - apply (ce_path _ (GDiff RFailure _ _)). apply ce_diff_right; [reflexivity |].
    eapply ce_or_success; [left; reflexivity | reflexivity |]. apply (ce_path _ (GOr RSuccess _)).
    eapply ce_or_success; [left; reflexivity | reflexivity |]. apply ce_leaf. discriminate.
Qed.

Example C27_case : exists t,
  sequential E0 mixed_store /\ unaliased E0 algebra_policy (relationships mixed_store "p") (NSet (Some (ent "file" "1")) "both") /\
  answer E0 (QExplainCheck 20 "p" (asks (ent "file" "1") "both" (ent "user" "u")) FDot) mixed_store = Ok (AExplained true t) /\ certified t /\
  solution E0 algebra_policy (stored_subject (relationships mixed_store "p")) (ent "user" "u") in_mixed /\
  rewrites E0 algebra_policy (ent "file" "1") "both" (TOp (TRule (RCu "a")) OpInter (TRule (RCu "b"))) /\
  in_mixed (ent "file" "1") "a" /\ in_mixed (ent "file" "1") "b".
Proof.
  eexists. split; [exact mixed_sequential |]. split; [apply mixed_unaliased; auto |]. split; [vm_compute; reflexivity |].
  split; [apply (mixed_result "both" true); [vm_compute; reflexivity | auto] |]. split; [exact mixed_solution |].
  split; [eapply algebra_rewrites; [reflexivity | right; right; left; reflexivity | reflexivity | reflexivity | repeat constructor] |].
  unfold in_mixed. auto.
Qed.

Example C28_case : exists t,
  sequential E0 mixed_store /\ unaliased E0 algebra_policy (relationships mixed_store "p") (NSet (Some (ent "file" "1")) "only") /\
  answer E0 (QExplainCheck 20 "p" (asks (ent "file" "1") "only" (ent "user" "u")) FDot) mixed_store = Ok (AExplained false t) /\ certified t /\
  solution E0 algebra_policy (stored_subject (relationships mixed_store "p")) (ent "user" "u") in_mixed /\
  rewrites E0 algebra_policy (ent "file" "1") "only" (TOp (TRule (RCu "a")) OpDiff (TRule (RCu "b"))) /\
  in_mixed (ent "file" "1") "a" /\ in_mixed (ent "file" "1") "b".
Proof.
  eexists. split; [exact mixed_sequential |]. split; [apply mixed_unaliased; auto |]. split; [vm_compute; reflexivity |].
  split; [apply (mixed_result "only" false); [vm_compute; reflexivity | auto] |]. split; [exact mixed_solution |].
  split; [eapply algebra_rewrites; [reflexivity | right; right; right; left; reflexivity | reflexivity | reflexivity | repeat constructor] |].
  unfold in_mixed. auto.
Qed.

(** C30: a further owner is added to the file; bob stays a reader. *)
Example C30_case :
  let r := tup "file" "f" "owner" (user "eve") in
  let s' := after E0 (set "p" r) cyclic_store in
  sequential E0 s' /\ union_only E0 (pol "p") /\
  (forall x, In x (relationships cyclic_store "p") -> In x (relationships s' "p")) /\ ~ In r (relationships cyclic_store "p") /\
  distinct_ids E0 (pol "p") (key_subject E0 (relationships s' "p")) (NSet (Some (ent "file" "f")) "reader") /\
  answer E0 (asked (ent "file" "f") "reader" (ent "user" "bob")) cyclic_store = Ok (ADecision true) /\
  answer E0 (asked (ent "file" "f") "reader" (ent "user" "bob")) s' = Ok (ADecision true).
Proof.
  cbv zeta. assert (Hs : sequential E0 (after E0 (set "p" (tup "file" "f" "owner" (user "eve"))) cyclic_store)).
  { exists [create "p"; set "p" (tup "group" "a" "member" (members "b"));
            set "p" (tup "group" "b" "member" (members "a")); set "p" (tup "group" "b" "member" (user "bob"));
            set "p" (tup "file" "f" "reader" (members "a")); set "p" (tup "file" "f" "parent" (SEntity (ent "folder" "d")));
            set "p" (tup "folder" "d" "viewer" (SResourceSet "user")); set "p" (tup "file" "f" "owner" (user "eve"))]. reflexivity. }
  split; [exact Hs |]. split; [exact C26_example_union |].
  split; [intros x; vm_compute; tauto |]. split; [intros H; vm_compute in H; repeat (destruct H as [H | H]; [discriminate |]); exact H |].
  split; [| split; reflexivity].
  apply (distinct_list _ _ (edges_of "p" (after E0 (set "p" (tup "file" "f" "owner" (user "eve"))) cyclic_store)) _ _ (NEntity (Some (ent "user" "eve")) :: below_reader)).
  - apply stored_edges, reachable_ok, sequential_reachable, Hs.
  - exact (wf_unique _ _ cyclic_wf).
  - split; [right; left; reflexivity |]. unfold below_reader.
    repeat (apply Forall_cons; [first [left; reflexivity | right; eexists; split; [vm_compute; reflexivity | vm_compute; tauto]] |]). apply Forall_nil.
  - vm_compute. repeat constructor; intros H; repeat (destruct H as [H | H]; [discriminate |]); exact H.
Qed.

(** C31: the same request checked, explained in DOT and explained in a format there is none of; and one that fails. *)
Example C31_case :
  let a := asks (ent "file" "f") "reader" (ent "user" "bob") in
  ttu_objects E0 (pol "p") (key_subject E0 (relationships cyclic_store "p")) (NSet (Some (ent "file" "f")) "reader") /\
  answer E0 (QCheck 20 "p" a) cyclic_store = Ok (ADecision true) /\
  (exists t, answer E0 (QExplainCheck 20 "p" a FDot) cyclic_store = Ok (AExplained true t)) /\
  (exists t, answer E0 (QExplainCheck 20 "p" a FSpew) cyclic_store = Ok (AExplained true t)) /\
  (exists e, answer E0 (QExplainCheck 20 "p" a (FOther 7)) cyclic_store = Err e) /\
  answer E0 (QCheck 20 "p" (asks (ent "file" "f") "none" (ent "user" "bob"))) cyclic_store = Err ERelationNotFound /\
  answer E0 (QExplainCheck 20 "p" (asks (ent "file" "f") "none" (ent "user" "bob")) FDot) cyclic_store = Err ERelationNotFound.
Proof.
  split; [exact cyclic_ttu_objects |]. split; [reflexivity |]. split; [eexists; vm_compute; reflexivity |]. split; [eexists; vm_compute; reflexivity |].
  split; [eexists; vm_compute; reflexivity |]. split; reflexivity.
Qed.

(** C34 *)
Example C34_case :
  let x := NSet (Some (ent "file" "1")) "reader" in let y := NSet (Some (ent "file" "1r")) "eader" in
  collision_free E0 /\ plain_node x /\ plain_node y /\ plain_node (NWild "user") /\ plain_node (NEntity (Some (ent "user" "u"))) /\
  node_id E0 x <> node_id E0 y.
Proof.
  cbv zeta. split; [exact E0_collision_free |]. do 4 (split; [cbn; repeat split; discriminate |]). vm_compute. discriminate.
Qed.

(** C35: every tuple-to-userset met from file:f#reader on meets objects. *)
Example C35_case :
  let root := NSet (Some (ent "file" "f")) "reader" in
  has_object root /\ ttu_objects E0 (pol "p") (key_subject E0 (relationships cyclic_store "p")) root /\
  answer E0 (asked (ent "file" "f") "reader" (ent "user" "bob")) cyclic_store = Ok (ADecision true) /\
  exists t, answer E0 (QExpand 20 "p" (Some root) FSpew) cyclic_store = Ok (AExpanded t).
Proof. split; [exact I |]. split; [exact cyclic_ttu_objects |]. split; [reflexivity |]. eexists. vm_compute. reflexivity. Qed.

(** C80: a directory that is open keeps a second New from succeeding; one with two other directories succeeds. *)
Example C80_case :
  let H := mkHost (Some "/home/u") (fun d => negb (String.eqb d "bad")) true in
  let w := fst (new H [WithDefaultKV "a"] no_world) in
  w_open w = ["a"]%string /\
  snd (new H [WithDefaultKV "a"] w) = None /\ w_open (fst (new H [WithDefaultKV "a"] w)) = ["a"]%string /\
  snd (new H [WithDefaultKV "bad"] w) = None /\
  (exists i, snd (new H [WithDefaultKV "b"; WithDevelopmentLogger; WithDefaultKV "c"] w) = Some i) /\
  opens H [WithDefaultKV "b"; WithDevelopmentLogger; WithDefaultKV "c"] ["b"; "c"]%string.
Proof.
  cbv zeta. do 4 (split; [reflexivity |]). split; [eexists; vm_compute; reflexivity |].
  apply op_dir; [apply nd_plain; discriminate |]. apply op_skip; [discriminate |]. apply op_dir; [apply nd_plain; discriminate |]. apply op_nil.
Qed.
