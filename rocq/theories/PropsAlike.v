(** Properties of policies that say the same: C58. *)
From Verif Require Import Base Domain Lexer Parser Validate Store Search Explain Yaml Service Dump Api
  SpecGrammar SpecPolicy SpecStore SpecSearch SpecAlike Fixtures BaseFacts ParserFacts ValidateFacts StoreFacts PolicyFacts RelFacts
  SearchFacts SearchSem SearchTerm GraphFacts PropsSearch.

(** ** C58 Policies that say the same decide alike *)

Lemma union_eval succ a M o rel : forall t, (forall op, uses op t -> op = OpUnion) ->
  (eval succ a M o rel t <-> exists ru, occurs ru t /\ eval succ a M o rel (TRule ru)).
Proof.
  intros t. induction t as [| | r | l IHl op r IHr]; intros Hu.
  - split; [intros [] |]. intros (ru & Ho & _). inversion Ho.
  - split; [intros [] |]. intros (ru & Ho & _). inversion Ho.
  - split; [intros H; exists r; split; [constructor | exact H] |]. intros (ru & Ho & H). inversion Ho; subst. exact H.
  - assert (op = OpUnion) as -> by (apply Hu; constructor). cbn [eval].
    rewrite IHl by (intros; apply Hu, us_left; assumption). rewrite IHr by (intros; apply Hu, us_right; assumption). split.
    + intros [(ru & Ho & H) | (ru & Ho & H)]; exists ru; (split; [| exact H]); [apply occ_left | apply occ_right]; exact Ho.
    + intros (ru & Ho & H). inversion Ho; subst; [left | right]; eauto.
Qed.

Lemma union_rewrites E P o rel t : union_only E P -> rewrites E P o rel t -> forall op, uses op t -> op = OpUnion.
Proof. intros Hu (l & Hl & _ & Hx) op Ho. apply Hu. exists (e_res o), l, t. auto. Qed.

Lemma same_rules_closed E P P' succ a M : union_only E P -> union_only E P' -> same_rules E P P' ->
  closed E P succ a M -> closed E P' succ a M.
Proof.
  intros Hu Hu' Hs HM o rel t' Hw He.
  apply (union_eval succ a M o rel t' (union_rewrites E P' o rel t' Hu' Hw)) in He as (ru & Ho & He).
  destruct (proj2 (Hs o rel ru)) as (t & Ht & Hot); [eauto |].
  apply (HM o rel t Ht). apply union_eval; [exact (union_rewrites E P o rel t Hu Ht) | eauto].
Qed.

Lemma same_rules_sym E P P' : same_rules E P P' -> same_rules E P' P.
Proof. intros H o rel ru. symmetry. apply H. Qed.

Lemma same_rules_reach E P P' succ origin x : same_rules E P P' -> reach E P succ origin x -> reach E P' succ origin x.
Proof.
  intros Hs. induction 1 as [| x y _ IH Hl]; [constructor |]. eapply re_step; [exact IH |].
  destruct Hl as [o rel t ru n Hw Ho Hy]. destruct (proj1 (Hs o rel ru)) as (t' & Ht' & Ho'); [eauto |]. econstructor; eauto.
Qed.

(** Union policies: only the rules matter, neither their order nor their nesting nor how often they are repeated.
    Missing: intersections and differences. *)
Theorem C58_union_partial : forall E s s' pid pid' rec rec' n n' o rel a b b', reachable E s -> reachable E s' ->
  answer E (QGetPolicy pid) s = Ok (APolicy (Some rec)) -> answer E (QGetPolicy pid') s' = Ok (APolicy (Some rec')) ->
  union_only E (pr_policy rec) -> union_only E (pr_policy rec') -> same_rules E (pr_policy rec) (pr_policy rec') ->
  (forall r, In r (relationships s pid) <-> In r (relationships s' pid')) ->
  distinct_ids E (pr_policy rec) (key_subject E (relationships s pid)) (NSet (Some o) rel) ->
  answer E (QCheck n pid (asks o rel a)) s = Ok (ADecision b) ->
  answer E (QCheck n' pid' (asks o rel a)) s' = Ok (ADecision b') -> b = b'.
Proof.
  intros E s s' pid pid' rec rec' n n' o rel a b b' H H' Hp Hp' Hu Hu' Hs Hr Hd Hc Hc'.
  assert (Hk : forall o rel u, key_subject E (relationships s pid) o rel u <-> key_subject E (relationships s' pid') o rel u).
  { intros o' rel' u. split; intros (r & Hin & Hx); exists r; (split; [apply Hr; exact Hin | exact Hx]). }
  assert (Hd' : distinct_ids E (pr_policy rec') (key_subject E (relationships s' pid')) (NSet (Some o) rel)).
  { assert (Hre : forall x, reach E (pr_policy rec') (key_subject E (relationships s' pid')) (NSet (Some o) rel) x ->
              reach E (pr_policy rec) (key_subject E (relationships s pid)) (NSet (Some o) rel) x).
    { intros x Hx. apply (same_rules_reach E (pr_policy rec')); [apply same_rules_sym, Hs |].
      eapply reach_mono; [| exact Hx]. intros. apply Hk. assumption. }
    intros x y Hx Hy. apply Hd; auto. }
  assert (Hdiff : ~ policy_uses E (pr_policy rec) OpDiff) by (intros Hx; specialize (Hu _ Hx); discriminate).
  assert (Hdiff' : ~ policy_uses E (pr_policy rec') OpDiff) by (intros Hx; specialize (Hu' _ Hx); discriminate).
  pose proof (C26_decides_by_key E s pid rec n o rel a b H Hp Hu Hd Hc) as H1.
  pose proof (C26_decides_by_key E s' pid' rec' n' o rel a b' H' Hp' Hu' Hd' Hc') as H2.
  assert (Hm : member E (pr_policy rec) (key_subject E (relationships s pid)) a o rel <->
               member E (pr_policy rec') (key_subject E (relationships s' pid')) a o rel).
  { split; intros Hm.
    - apply (member_mono E _ (key_subject E (relationships s pid))); [exact Hdiff' | intros; apply Hk; assumption |].
      intros M HM. apply Hm. eapply (same_rules_closed E (pr_policy rec')); eauto. apply same_rules_sym, Hs.
    - apply (member_mono E _ (key_subject E (relationships s' pid'))); [exact Hdiff | intros; apply Hk; assumption |].
      intros M HM. apply Hm. eapply (same_rules_closed E (pr_policy rec)); eauto. }
  rewrite Hm in H1. destruct b, b'; try reflexivity.
  - exact (eq_sym (proj2 H2 (proj1 H1 eq_refl))).
  - exact (proj2 H1 (proj1 H2 eq_refl)).
Qed.

(** The operands of an intersection in the two orders. *)
Definition direct_or_all : tree := TOp (TRule (RCu "direct")) OpUnion (TRule (RCu "all")).
Definition order_policy (t : tree) : policy :=
  mkPolicy "p" "" "" [rs "user" [];
    rs "file" [rl "direct" (XTree (TRule RThis)) SRUniversal; rl "all" (XTree (TRule RThis)) SRUniversal;
               rl "both" (XTree t) SRUniversal]] [].
Definition order_left : tree := TOp direct_or_all OpInter (TRule (RCu "direct")).
Definition order_right : tree := TOp (TRule (RCu "direct")) OpInter direct_or_all.
Definition order_store (E : env) (t : tree) : store :=
  after_all E [QCreatePolicy 1%N (Some (DPolicy (order_policy t))) "";
               set "p" (tup "file" "1" "direct" (user "bob")); set "p" (tup "file" "1" "all" (SResourceSet "user"))] empty_store.

Lemma order_rewrites E t o rel x : rewrites E (order_policy t) o rel x -> whole t ->
  e_res o = "file" /\ ((rel = "both" /\ x = t) \/ ((rel = "direct" \/ rel = "all") /\ x = TRule RThis)).
Proof.
  intros (l & (r & Hr & Hn & Hl) & Hrel & Hx) _. destruct Hr as [<- | [<- | []]]; [destruct Hl |]. split; [symmetry; exact Hn |].
  destruct Hl as [<- | [<- | [<- | []]]]; destruct Hx as [y [=] _ | [= <-] _]; subst rel; cbn; auto.
Qed.

Lemma order_rewrites_back E t o rel x : whole t -> e_res o = "file" ->
  (rel = "both" /\ x = t) \/ ((rel = "direct" \/ rel = "all") /\ x = TRule RThis) -> rewrites E (order_policy t) o rel x.
Proof.
  intros Hw Ho [[-> ->] | [[-> | ->] ->]].
  - exists (rl "both" (XTree t) SRUniversal). split; [| split; [reflexivity | apply ex_tree; auto]].
    eexists. split; [right; left; reflexivity |]. split; [symmetry; exact Ho | right; right; left; reflexivity].
  - exists (rl "direct" (XTree (TRule RThis)) SRUniversal). split; [| split; [reflexivity | apply ex_tree; [reflexivity | constructor]]].
    eexists. split; [right; left; reflexivity |]. split; [symmetry; exact Ho | left; reflexivity].
  - exists (rl "all" (XTree (TRule RThis)) SRUniversal). split; [| split; [reflexivity | apply ex_tree; [reflexivity | constructor]]].
    eexists. split; [right; left; reflexivity |]. split; [symmetry; exact Ho | right; left; reflexivity].
Qed.

Lemma order_reordered E : reordered_policy E (order_policy order_left) (order_policy order_right).
Proof.
  assert (Hl : whole order_left) by repeat constructor. assert (Hr : whole order_right) by repeat constructor.
  assert (Ht : reordered order_left order_right).
  { apply ro_swap; [auto | |]; [| constructor]. apply ro_keep; constructor. }
  split.
  - intros o rel t Hw. apply order_rewrites in Hw as [Ho [[-> ->] | [Hrel ->]]]; [| | exact Hl].
    + exists order_right. split; [apply order_rewrites_back; auto | exact Ht].
    + exists (TRule RThis). split; [apply order_rewrites_back; auto | constructor].
  - intros o rel t Hw. apply order_rewrites in Hw as [Ho [[-> ->] | [Hrel ->]]]; [| | exact Hr].
    + exists order_left. split; [apply order_rewrites_back; auto | exact Ht].
    + exists (TRule RThis). split; [apply order_rewrites_back; auto | constructor].
Qed.

Lemma order_check E : collision_free E ->
  answer E (asked (ent "file" "1") "both" (ent "user" "bob")) (order_store E order_left) = Ok (ADecision false) /\
  answer E (asked (ent "file" "1") "both" (ent "user" "bob")) (order_store E order_right) = Ok (ADecision true).
Proof.
  intros Hc. assert (Hn : forall x y, x <> y -> String.eqb (sha E x) (sha E y) = false).
  { intros x y Hxy. apply String.eqb_neq. intros H. apply Hc in H. contradiction. }
  split; unfold asked, asks; rewrite answer_check; unfold check_tree.
  - assert (policies (order_store E order_left) "p" = Some (mkPRec (order_policy order_left) "" 1%N)) as -> by reflexivity.
    cbn. by_order Hc; settle Hn E; reflexivity.
  - assert (policies (order_store E order_right) "p" = Some (mkPRec (order_policy order_right) "" 1%N)) as -> by reflexivity.
    cbn. by_order Hc; settle Hn E; reflexivity.
Qed.

(** Exchanging the operands of an intersection revokes access. *)
Theorem C58_refuted : forall E, collision_free E -> exists s s' rec rec' q, sequential E s /\ sequential E s' /\
  answer E (QGetPolicy "p") s = Ok (APolicy (Some rec)) /\ answer E (QGetPolicy "p") s' = Ok (APolicy (Some rec')) /\
  reordered_policy E (pr_policy rec) (pr_policy rec') /\ relationships s "p" = relationships s' "p" /\
  (exists n o rel a, q = QCheck n "p" (asks o rel a)) /\
  answer E q s = Ok (ADecision false) /\ answer E q s' = Ok (ADecision true).
Proof.
  intros E Hc. exists (order_store E order_left), (order_store E order_right), (mkPRec (order_policy order_left) "" 1%N),
    (mkPRec (order_policy order_right) "" 1%N), (asked (ent "file" "1") "both" (ent "user" "bob")).
  split; [eexists; reflexivity |]. split; [eexists; reflexivity |]. split; [reflexivity |]. split; [reflexivity |].
  split; [apply order_reordered |]. split; [reflexivity |]. split; [do 4 eexists; reflexivity | apply order_check; exact Hc].
Qed.

(** A union policy and the same rules in another order, nested otherwise and repeated. *)
Definition order_nested : tree := TOp (TRule (RCu "all")) OpUnion (TOp direct_or_all OpUnion (TRule (RCu "direct"))).

Lemma order_same_rules E t t' : whole t -> whole t' -> (forall ru, occurs ru t <-> occurs ru t') -> same_rules E (order_policy t) (order_policy t').
Proof.
  assert (H : forall t t', whole t -> whole t' -> (forall ru, occurs ru t <-> occurs ru t') -> forall o rel ru,
    (exists x, rewrites E (order_policy t) o rel x /\ occurs ru x) -> exists x, rewrites E (order_policy t') o rel x /\ occurs ru x).
  { intros t1 t2 H1 H2 H o rel ru (x & Hx & Ho). apply order_rewrites in Hx as [Hf [[-> ->] | [Hrel ->]]]; [| | exact H1].
    - exists t2. split; [apply order_rewrites_back; auto | apply H, Ho].
    - exists (TRule RThis). split; [apply order_rewrites_back; auto | exact Ho]. }
  intros H1 H2 He o rel ru. split; apply H; auto. intros ru'. symmetry. apply He.
Qed.

Example C58_example :
  same_rules E0 (order_policy direct_or_all) (order_policy order_nested) /\
  (forall u, In u ["bob"; "eve"] -> forall t, In t [direct_or_all; order_nested] ->
     answer E0 (asked (ent "file" "1") "both" (ent "user" u)) (order_store E0 t) = Ok (ADecision true) /\
     answer E0 (asked (ent "file" "2") "both" (ent "user" u)) (order_store E0 t) = Ok (ADecision false)).
Proof.
  split.
  - apply order_same_rules; [repeat constructor | repeat constructor |]. intros ru. split; intros H.
    + inversion H; subst; repeat match goal with H : occurs _ _ |- _ => inversion H; subst; clear H end;
        [apply occ_right, occ_left, occ_left | apply occ_left]; constructor.
    + inversion H; subst; repeat match goal with H : occurs _ _ |- _ => inversion H; subst; clear H end;
        first [apply occ_right; constructor | apply occ_left; constructor].
  - intros u [<- | [<- | []]] t [<- | [<- | []]]; split; vm_compute; reflexivity.
Qed.

Print Assumptions C58_union_partial.
Print Assumptions C58_refuted.
