(** Facts about the ideal service: it depends on the contents of its maps only, and its answers are determined. *)
From Coq Require Import Permutation.
From Verif Require Import Base Domain Lexer Parser Validate Store Search Explain Yaml Service Dump Api
  SpecGrammar SpecPolicy SpecStore SpecSearch SpecSafe SpecErrors SpecAccount SpecExpand SpecDump
  BaseFacts ParserFacts ValidateFacts StoreFacts PolicyFacts RelFacts AccountFacts SpecRefine RefineFacts.

(** ** Faults *)

Lemma fault_ill_formed E p e : policy_fault E p e -> ~ well_formed E p.
Proof.
  intros H [H1 H2 H3 H4]. destruct e; cbn in H; try contradiction.
  - destruct H as (rs & l & Hl & H). destruct (H4 rs l Hl) as (t & Ht & Hr). destruct H as [H | (t' & H & Ho)].
    + destruct Ht; congruence.
    + destruct Ht as [x Hx _ | Hx _]; [congruence |]. rewrite H in Hx. injection Hx as <-. exact (Hr _ Ho).
  - destruct H as (rs & l & t & ru & Hl & Ht & Ho & _ & H). destruct (H4 rs l Hl) as (t' & Ht' & Hr).
    rewrite (expression_unique _ _ _ _ Ht Ht') in Ho. exact (H (Hr _ Ho)).
  - destruct H as [H | (r & Hr & H)]; [exact (H H1) | exact (H (H2 r Hr))].
  - destruct H as (rs & l & Hl & H). exact (H (H3 rs l Hl)).
  - destruct H as (rs & l & x & Hl & Hx & H). destruct (H4 rs l Hl) as (t & [y Hy Hd | Hy _] & _); [| congruence].
    rewrite Hx in Hy. injection Hy as <-. exact (H t Hd).
Qed.

Lemma fault_inadmissible p r e : unique_decls p -> relationship_fault p r e -> ~ admissible p r.
Proof.
  intros Hu H (o & u & l & Ho & Hs & Hl & Hn & Hd & Ha).
  assert (Hres : declares_resource p (e_res o)) by (destruct Hl as (x & Hx & Hxn & _); exists x; auto).
  destruct e; cbn in H; try contradiction.
  - rewrite H in Hs. injection Hs as <-. exact Hd.
  - destruct H as [(x & Hx & H) | [(x & Hx & H) | (x & Hx & H)]].
    + rewrite Ho in Hx. injection Hx as <-. exact (H Hres).
    + rewrite Hs in Hx. injection Hx as ->. exact (H Hd).
    + rewrite Hs in Hx. injection Hx as ->. exact (H Hd).
  - destruct H as [(x & Hx & _ & H) | (x & rel & Hx & H)].
    + rewrite Ho in Hx. injection Hx as <-. apply H. exists l. auto.
    + rewrite Hs in Hx. injection Hx as ->. exact (H Hd).
  - destruct H as (o' & u' & l' & Ho' & Hs' & Hl' & Hn' & H). rewrite Ho in Ho'. injection Ho' as <-. rewrite Hs in Hs'. injection Hs' as <-.
    apply H. replace l' with l; [exact Ha |]. eapply relation_of_unique; eauto. congruence.
Qed.

(** ** Contents of the maps *)

Lemma lists_perm m pid P l l' : SpecStore.lists m pid P l -> SpecStore.lists m pid P l' -> Permutation l l'.
Proof. intros [H1 H2] [H3 H4]. apply NoDup_Permutation; auto. intros x. rewrite H2, H4. reflexivity. Qed.

Lemma entry_dec (x y : option (string * N)) : {x = y} + {x <> y}.
Proof. repeat decide equality. Qed.

Lemma removed_unique m pid P g g' : removed m pid P g -> removed m pid P g' -> forall pid' r, g pid' r = g' pid' r.
Proof.
  intros [H1 H2] [H3 H4] pid' r. destruct (entry_dec (g pid' r) (g' pid' r)) as [He | He]; [exact He |]. exfalso.
  destruct (string_dec pid' pid) as [-> | Hn].
  - assert (Hnp : ~ P r) by (intros Hp; apply He; rewrite (H1 r Hp), (H3 r Hp); reflexivity).
    apply He. rewrite H2, H4 by auto. reflexivity.
  - apply He. rewrite H2, H4 by auto. reflexivity.
Qed.

Lemma updated_unique m pid r v g g' : updated m pid r v g -> updated m pid r v g' -> forall pid' r', g pid' r' = g' pid' r'.
Proof.
  intros [H1 H2] [H3 H4] pid' r'. destruct (entry_dec (g pid' r') (g' pid' r')) as [He | He]; [exact He |]. exfalso.
  assert (Hn : ~ (pid' = pid /\ r' = r)) by (intros [-> ->]; congruence).
  destruct (string_dec pid' pid) as [-> | Hp]; [| apply He; rewrite H2, H4 by auto; reflexivity].
  apply He. rewrite H2, H4 by (right; intros ->; apply Hn; auto). reflexivity.
Qed.

(** ** One answer *)

Definition sound (E : env) (S : service) : Prop := forall id rec, known S id = Some rec -> well_formed E (pr_policy rec).

Lemma ideal_sound E S q x S' : ideal E S q x S' -> sound E S -> sound E S'.
Proof.
  intros H Hs. inversion H; subst; try exact Hs; intros i rc; cbn [known]; try apply Hs; unfold put;
    destruct (String.eqb _ _); try apply Hs; intros [= <-]; assumption.
Qed.

Lemma bool_iff (b b' : bool) (P : Prop) : (b = true <-> P) -> (b' = true <-> P) -> b = b'.
Proof. destruct b, b'; intuition congruence. Qed.

Theorem ideal_unique E S q x y S1 S2 : sound E S -> ~ draws q -> ideal E S q x S1 -> ideal E S q y S2 -> alike x y /\ same_service S1 S2.
Proof.
  intros Hs Hq H1 H2. assert (Hrefl : forall T, same_service T T) by (split; reflexivity).
  destruct H1; inversion H2; subst; try (contradiction Hq; exact Logic.I);
    repeat match goal with
    | A : defines ?d ?p, B : defines ?d ?q |- _ => assert_fails (constr_eq p q); pose proof (defines_unique _ _ _ A B); subst q; clear B
    | A : known ?T ?i = Some ?p, B : known ?T ?i = Some ?q |- _ => rewrite A in B; injection B as <-
    | A : known ?T ?i = Some ?p, B : known ?T ?i = None |- _ => rewrite A in B; discriminate B
    | A : policy_fault _ ?p _, B : well_formed _ ?p |- _ => contradiction (fault_ill_formed _ _ _ A B)
    | A : ?P, B : ~ ?P |- _ => contradiction (B A)
    end; cbn [alike]; try (split; [solve [reflexivity | exact Logic.I] | apply Hrefl]).
  all: try (match goal with A : relationship_fault (pr_policy ?p) ?r _, B : admissible (pr_policy ?p) ?r |- _ =>
    exfalso; refine (fault_inadmissible _ _ _ _ A B); eapply wf_unique; eapply Hs; eassumption end).
  - split; [f_equal; apply Permutation_length; eapply lists_perm; eassumption |]. split; [reflexivity | eapply removed_unique; eassumption].
  - split; [| apply Hrefl]. apply NoDup_Permutation; auto. intros z.
    match goal with A : forall id, In id l <-> _, B : forall id, In id l0 <-> _ |- _ => rewrite A, B; reflexivity end.
  - split; [reflexivity |]. split; [reflexivity | eapply updated_unique; eassumption].
  - split; [reflexivity |]. split; [reflexivity | eapply updated_unique; eassumption].
  - split; [| apply Hrefl]. apply Permutation_map. eapply lists_perm; eassumption.
  - split; [f_equal; apply Permutation_length; eapply lists_perm; eassumption |]. split; [reflexivity | eapply removed_unique; eassumption].
  - split; [| apply Hrefl]. f_equal. eapply bool_iff; eassumption.
  - split; [| apply Hrefl]. revert H1 H15. apply bool_iff.
  - split; [| apply Hrefl]. intros a.
    match goal with A : forall a, SpecExpand.lists t a <-> _, B : forall a, SpecExpand.lists t0 a <-> _ |- _ => rewrite A, B; reflexivity end.
Qed.

(** ** The same state *)

Lemma lists_same m m' pid P l : (forall pid r, m pid r = m' pid r) -> SpecStore.lists m pid P l -> SpecStore.lists m' pid P l.
Proof. intros H [H1 H2]. split; [exact H1 |]. intros r. rewrite H2, H. reflexivity. Qed.

Lemma removed_same m m' pid P g : (forall pid r, m pid r = m' pid r) -> removed m pid P g -> removed m' pid P g.
Proof. intros H [H1 H2]. split; [exact H1 |]. intros pid' r Hn. rewrite <- H. apply H2, Hn. Qed.

Lemma updated_same m m' pid r v g : (forall pid r, m pid r = m' pid r) -> updated m pid r v g -> updated m' pid r v g.
Proof. intros H [H1 H2]. split; [exact H1 |]. intros pid' r' Hn. rewrite <- H. apply H2, Hn. Qed.

Lemma put_same m m' id v : (forall i, m i = m' i) -> forall i, put m id v i = put m' id v i.
Proof. intros H i. unfold put. rewrite H. reflexivity. Qed.

Lemma record_same m m' pid r : (forall pid r, m pid r = m' pid r) -> record_in m pid r = record_in m' pid r.
Proof. intros H. unfold record_in. rewrite H. reflexivity. Qed.

Theorem ideal_same E S T q x S1 : same_service S T -> ideal E S q x S1 -> exists T1, ideal E T q x T1 /\ same_service S1 T1.
Proof.
  intros HST H. pose proof HST as [Hk Hg].
  assert (Hgr : forall pid o rel u, grants S pid o rel u <-> grants T pid o rel u) by (intros; unfold grants; rewrite Hg; reflexivity).
  assert (Hmay : forall pid P a o rel, may E S pid P a o rel <-> may E T pid P a o rel) by (intros; apply member_same, Hgr).
  assert (Hli : forall pid a b, links E S pid a b <-> links E T pid a b) by (intros; unfold links; setoid_rewrite Hg; reflexivity).
  assert (Hho : forall pid P a n t, honest E P (grants S pid) a n t -> honest E P (grants T pid) a n t)
    by (intros pid P a n t; apply honest_same; intros; apply yields_same, Hgr).
  destruct H; repeat match goal with A : known S _ = _ |- _ => rewrite Hk in A end;
    try (exists T; split; [econstructor; solve [eauto] | exact HST]).
  - eexists. split; [apply id_create; assumption |]. split; [apply put_same, Hk | exact Hg].
  - eexists. split; [eapply id_update with (p := p); eassumption |]. split; [apply put_same, Hk | exact Hg].
  - eexists. split; [eapply id_delete; [eassumption | eapply lists_same; [exact Hg | eassumption] | eapply removed_same; [exact Hg | eassumption]] |].
    split; [apply put_same, Hk | reflexivity].
  - exists T. rewrite Hk. split; [constructor | exact HST].
  - exists T. split; [| exact HST]. constructor; [assumption |]. intros id. rewrite <- Hk. auto.
  - rewrite Hg. eexists. split; [eapply id_set; [eassumption | assumption | eapply updated_same; [exact Hg | eassumption]] |]. split; [exact Hk | reflexivity].
  - rewrite Hg. eexists. split; [eapply id_delete_rel, updated_same; [exact Hg | eassumption] |]. split; [exact Hk | reflexivity].
  - exists T. rewrite (record_same _ _ pid r Hg). split; [constructor | exact HST].
  - exists T. split; [| exact HST]. rewrite (map_ext _ _ (fun r => record_same _ _ pid r Hg)).
    eapply id_find; [eassumption | assumption | eapply lists_same; [exact Hg | eassumption]].
  - eexists. split; [eapply id_delete_many; [eapply lists_same; [exact Hg | eassumption] | eapply removed_same; [exact Hg | eassumption]] |]. split; [exact Hk | reflexivity].
  - exists T. split; [| exact HST]. eapply id_check; eauto. rewrite <- Hmay. assumption.
  - exists T. split; [| exact HST]. eapply id_explain; eauto. rewrite <- Hmay. assumption.
  - exists T. split; [| exact HST]. eapply id_expand; eauto. intros a0. rewrite <- Hmay. auto.
  - exists T. split; [| exact HST]. eapply id_dump; [eassumption |]. intros Ha. 
    match goal with A : acyclic _ -> _ |- _ => destruct A as (l & Hl & Hs) end; [eapply acyclic_same; [| exact Ha]; intros; symmetry; apply Hli |].
    exists l. split; [exact Hl |]. eapply shows_same; [| exact Hs]. apply Hli.
Qed.

(** The answers to a history without drawings are determined. *)
Theorem histories_unique E qs : Forall (fun q => ~ draws q) qs -> forall S T xs ys S' T', sound E S -> same_service S T ->
  ideal_history E S qs xs S' -> ideal_history E T qs ys T' -> Forall2 alike xs ys /\ same_service S' T'.
Proof.
  induction 1 as [| q qs Hq Hqs IH]; intros S T xs ys S' T' Hs Hst H1 H2; inversion H1; inversion H2; subst; [split; [constructor | exact Hst] |].
  match goal with A : ideal E S q _ _, B : ideal E T q _ _ |- _ => rename A into HA; rename B into HB end.
  destruct (ideal_same _ _ _ _ _ _ Hst HA) as (T0 & HT & HST).
  assert (HsT : sound E T) by (intros id rec Hid; apply (Hs id); rewrite (proj1 Hst); exact Hid).
  destruct (ideal_unique _ _ _ _ _ _ _ HsT Hq HT HB) as [Hal Hsm].
  match goal with A : ideal_history E ?U qs _ S', B : ideal_history E ?V qs _ T' |- _ =>
    assert (HUV : same_service U V) by (split; [intros i; rewrite (proj1 HST); apply Hsm | intros p r; rewrite (proj2 HST); apply Hsm]);
    destruct (IH _ _ _ _ _ _ (ideal_sound _ _ _ _ _ HA Hs) HUV A B) end.
  split; [constructor; assumption | assumption].
Qed.
