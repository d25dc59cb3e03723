(** C90: Check never authorises more than the policy without its subtractions does. *)
From Verif Require Import Base Domain Lexer Parser Validate Store Search Explain Yaml Service Dump Api
  SpecGrammar SpecPolicy SpecStore SpecSearch SpecBound Fixtures BaseFacts ParserFacts ValidateFacts StoreFacts PolicyFacts RelFacts
  SearchFacts SearchSem SearchTerm SearchExplain GraphFacts NameFacts BoundFacts PropsStore PropsSearch.

(** ** For all operators *)

(** Subjects are those stored under the key of the object and relation. *)
Theorem C90_unsubtracted_by_key : forall E s pid rec n o rel a, reachable E s ->
  answer E (QGetPolicy pid) s = Ok (APolicy (Some rec)) ->
  answer E (QCheck n pid (asks o rel a)) s = Ok (ADecision true) ->
  member_of unsubtracted E (pr_policy rec) (key_subject E (relationships s pid)) a o rel.
Proof.
  intros E s pid rec n o rel a H Hp Hc. apply reachable_ok in H. apply known_policy in Hp.
  apply check_decision in Hc as (t & Ht & Hr). symmetry in Hr. apply is_success_iff in Hr.
  apply check_tree_ok in Ht as (rec' & seen & Hp' & Hs). rewrite Hp in Hp'. injection Hp' as <-.
  intros M HM. exact (proj1 (loose_sound E (pr_policy rec) (edges_of pid s) _ (stored_edges E s pid H) a M HM) _ _ _ _ _ Hs Hr).
Qed.

(** Missing: relationships of other objects stored under a key that is consulted. *)
Theorem C90_unsubtracted_partial : forall E s pid rec n o rel a, reachable E s ->
  answer E (QGetPolicy pid) s = Ok (APolicy (Some rec)) ->
  unaliased E (pr_policy rec) (relationships s pid) (NSet (Some o) rel) ->
  answer E (QCheck n pid (asks o rel a)) s = Ok (ADecision true) ->
  member_of unsubtracted E (pr_policy rec) (stored_subject (relationships s pid)) a o rel.
Proof.
  intros E s pid rec n o rel a H Hp Hu Hc.
  apply member_of_stored; [apply loose_no_diff | apply loose_occurs | exact Hu |].
  eapply C90_unsubtracted_by_key; eauto.
Qed.

(** Object ids enclosed in a character that no name contains, and no hash collisions: nothing is missing. *)
Theorem C90_unsubtracted_delimited : forall E c s pid rec n o rel a, reachable E s -> collision_free E ->
  answer E (QGetPolicy pid) s = Ok (APolicy (Some rec)) ->
  delimited_ids c (pr_policy rec) (relationships s pid) -> delimited c (e_id o) ->
  answer E (QCheck n pid (asks o rel a)) s = Ok (ADecision true) ->
  member_of unsubtracted E (pr_policy rec) (stored_subject (relationships s pid)) a o rel.
Proof.
  intros E c s pid rec n o rel a H Hc Hp Hi Ho Hx. eapply C90_unsubtracted_partial; eauto.
  apply known_policy in Hp. apply (delimited_unaliased E c); auto. eapply so_policy; [apply reachable_ok; exact H | exact Hp].
Qed.

(** The relationship of file:s1 authorises on files:1. *)
Theorem C90_unsubtracted_refuted : forall E, collision_free E -> exists s rec n o rel a, sequential E s /\
  answer E (QGetPolicy "p") s = Ok (APolicy (Some rec)) /\
  answer E (QCheck n "p" (asks o rel a)) s = Ok (ADecision true) /\
  ~ member_of unsubtracted E (pr_policy rec) (stored_subject (relationships s "p")) a o rel.
Proof.
  intros E Hc. exists (alias_store E), (mkPRec alias_policy "" 1%N), 5, (ent "files" "1"), "reader", (ent "file" "x").
  split; [eexists; reflexivity |]. split; [reflexivity |]. split.
  - apply alias_check. intros H. apply Hc in H. discriminate.
  - intros Hm. cut (ent "files" "1" = ent "file" "s1"); [discriminate |]. apply (Hm (fun o _ => o = ent "file" "s1")).
    intros o rel t Hw He. rewrite (alias_rewrites E o rel t Hw) in He. destruct He as (u & [Hu | []] & _). injection Hu as <- _ _. reflexivity.
Qed.

(** ** Subjects named one by one *)

Lemma key_one_by_one E s pid a : names_one_by_one (relationships s pid) (e_res a) ->
  forall o rel, ~ key_subject E (relationships s pid) o rel (SResourceSet (e_res a)).
Proof. intros Hn o rel (x & Hin & Hx & _). exact (Hn x Hin Hx). Qed.

(** Then every authorisation comes from unions and left operands of subtractions only. *)
Theorem C90_unions_by_key : forall E s pid rec n o rel a, reachable E s ->
  answer E (QGetPolicy pid) s = Ok (APolicy (Some rec)) -> names_one_by_one (relationships s pid) (e_res a) ->
  answer E (QCheck n pid (asks o rel a)) s = Ok (ADecision true) ->
  member_of unions_of E (pr_policy rec) (key_subject E (relationships s pid)) a o rel.
Proof.
  intros E s pid rec n o rel a H Hp Hn Hc. apply reachable_ok in H. apply known_policy in Hp.
  apply check_decision in Hc as (t & Ht & Hr). symmetry in Hr. apply is_success_iff in Hr.
  apply check_tree_ok in Ht as (rec' & seen & Hp' & Hs). rewrite Hp in Hp'. injection Hp' as <-.
  intros M HM.
  refine (proj1 (narrow_sound E (pr_policy rec) (edges_of pid s) _ (stored_edges E s pid H) a M (key_one_by_one E s pid a Hn) HM) _ _ _ _ _ Hs _ Hr).
  discriminate.
Qed.

Theorem C90_unions_partial : forall E s pid rec n o rel a, reachable E s ->
  answer E (QGetPolicy pid) s = Ok (APolicy (Some rec)) -> names_one_by_one (relationships s pid) (e_res a) ->
  unaliased E (pr_policy rec) (relationships s pid) (NSet (Some o) rel) ->
  answer E (QCheck n pid (asks o rel a)) s = Ok (ADecision true) ->
  member_of unions_of E (pr_policy rec) (stored_subject (relationships s pid)) a o rel.
Proof.
  intros E s pid rec n o rel a H Hp Hn Hu Hc.
  apply member_of_stored; [apply narrow_no_diff | apply narrow_occurs | exact Hu |].
  eapply C90_unions_by_key; eauto.
Qed.

(** A relation [l - r] over unions is decided by [l] alone: the subtraction has no effect. *)
Theorem C90_left_decides : forall E s pid rec n o rel a b l r, reachable E s ->
  answer E (QGetPolicy pid) s = Ok (APolicy (Some rec)) -> names_one_by_one (relationships s pid) (e_res a) ->
  unaliased E (pr_policy rec) (relationships s pid) (NSet (Some o) rel) ->
  distinct_ids E (pr_policy rec) (stored_subject (relationships s pid)) (NSet (Some o) rel) ->
  rewrites E (pr_policy rec) o rel (TOp l OpDiff r) -> (forall op, uses op l -> op = OpUnion) ->
  unions_below E (pr_policy rec) (stored_subject (relationships s pid)) o rel ->
  answer E (QCheck n pid (asks o rel a)) s = Ok (ADecision b) ->
  (b = true <-> member_of unions_of E (pr_policy rec) (stored_subject (relationships s pid)) a o rel).
Proof.
  intros E s pid rec n o rel a b l r H Hp Hn Hu Hd Hw Hl Hbelow Hc. split.
  - intros ->. eapply C90_unions_partial; eauto.
  - intros Hm. apply (member_of_stored unions_of E _ _ _ _ _ narrow_no_diff narrow_occurs Hu) in Hm.
    apply reachable_ok in H. apply known_policy in Hp. pose proof (stored_unique _ _ _ _ H Hp) as Hun.
    apply check_decision in Hc as (t & Ht & ->). apply check_tree_ok in Ht as (rec' & seen & Hp' & Hs).
    rewrite Hp in Hp'. injection Hp' as <-. apply is_success_iff.
    pose proof (rewrites_node E _ _ _ _ Hun Hw) as Hnode.
    inversion Hs as [? ? ? ? ? Hbad | ? ? ? ? _ _ Hg | ? ? ? ? _ _ _ Hg | ? ? ? ? nid t' gt x ? Hid _ _ Ht' Hb Hst]; subst; try discriminate; [contradiction |].
    assert (t' = TOp l OpDiff r) as ->.
    { eapply rewrites_unique; [exact Hun | eapply node_rewrites; eauto | exact Hw]. }
    inversion Hst as [| | | | | ? ? ? ? ? x1 seen1 y ? Hs1 Hs2]; subst. cbn [get_result].
    destruct (search_once E (pr_policy rec) (edges_of pid s) _ (stored_edges E s pid H) a (key_one_by_one E s pid a Hn)) as (_ & Ot & _).
    assert (Hx : get_result x1 = RSuccess).
    { destruct (stree_known _ _ _ _ _ _ _ _ _ _ Hs1) as [Hx | Hx]; [exact Hx |]. exfalso.
      eapply (left_complete E (pr_policy rec) (edges_of pid s) _ (stored_edges E s pid H) a o rel l r _ x1 seen1 Hun Hw Hl); eauto.
      - intros o' rel' t op Hr. apply (reach_keyed E _ _ _ Hu) in Hr. apply Hbelow. exact Hr.
      - apply distinct_keyed; assumption.
      - congruence. }
    assert (Hy : get_result y = RFailure).
    { destruct (stree_known _ _ _ _ _ _ _ _ _ _ Hs2) as [Hy | Hy]; [| exact Hy]. exfalso.
      destruct (Ot _ _ _ _ _ _ Hs2) as [H2 _]. apply (H2 Hy). apply (proj1 (Ot _ _ _ _ _ _ Hs1)). exact Hx. }
    rewrite Hx, Hy. reflexivity.
Qed.

(** ** A case: [only = a - b] with ann in [a], bob in [b] and cid in both *)

Definition bound_store : store :=
  after_all E0 [QCreatePolicy 1%N (Some (DPolicy algebra_policy)) "";
    set "p" (tup "file" "1" "a" (user "ann")); set "p" (tup "file" "1" "b" (user "bob"));
    set "p" (tup "file" "1" "a" (user "cid")); set "p" (tup "file" "1" "b" (user "cid"))] empty_store.

Example C90_case :
  let ask u := answer E0 (asked (ent "file" "1") "only" (ent "user" u)) bound_store in
  let inside u := member_of unions_of E0 algebra_policy (stored_subject (relationships bound_store "p")) (ent "user" u) (ent "file" "1") "only" in
  names_one_by_one (relationships bound_store "p") "user" /\
  ask "ann" = Ok (ADecision true) /\ ask "bob" = Ok (ADecision false) /\ ask "cid" = Ok (ADecision true) /\
  inside "cid" /\ ~ inside "bob".
Proof.
  intros ask inside. split; [| split; [vm_compute; reflexivity | split; [vm_compute; reflexivity | split; [vm_compute; reflexivity | split]]]].
  - intros x Hx. vm_compute in Hx. destruct Hx as [<- | [<- | [<- | [<- | []]]]]; discriminate.
  - intros M HM. apply (HM _ _ (TOp (TRule (RCu "a")) OpDiff (TRule (RCu "b")))).
    + eexists. split; [eexists; split; [right; left; reflexivity |]; split; [reflexivity |]; right; right; right; left; reflexivity |].
      split; [reflexivity | apply ex_tree; [reflexivity | repeat constructor]].
    + cbn. apply (HM _ _ (TRule RThis)).
      * eexists. split; [eexists; split; [right; left; reflexivity |]; split; [reflexivity |]; left; reflexivity |].
        split; [reflexivity | apply ex_tree; [reflexivity | repeat constructor]].
      * cbn. exists (user "cid"). split; [| reflexivity]. vm_compute. auto.
  - intros Hm. specialize (Hm (fun _ rel => rel = "b" \/ rel = "both")). cbv beta in Hm. destruct Hm as [Hm | Hm]; [| discriminate | discriminate].
    intros o rel t (l & (r & Hr & _ & Hl) & <- & Hx) He.
    destruct Hr as [<- | [<- | []]]; [destruct Hl |]. destruct Hl as [<- | [<- | [<- | [<- | []]]]]; cbn [rl_name rl]; auto;
      destruct Hx as [x [=] _ | [= <-] _]; cbn in He.
    + destruct He as (u & Hu & Hc). vm_compute in Hu.
      destruct Hu as [Hu | [Hu | [Hu | [Hu | []]]]]; injection Hu; intros; subst; try discriminate; cbn in Hc; congruence.
    + destruct He as [He | He]; discriminate.
Qed.

Print Assumptions C90_unsubtracted_by_key.
Print Assumptions C90_unsubtracted_partial.
Print Assumptions C90_unsubtracted_delimited.
Print Assumptions C90_unsubtracted_refuted.
Print Assumptions C90_unions_by_key.
Print Assumptions C90_unions_partial.
Print Assumptions C90_left_decides.
