(** Facts about the selector builder. *)
From Verif Require Import Base Domain Lexer Parser Validate Store Search Explain Yaml Service Dump Api Client
  SpecPolicy SpecStore SpecClient StoreFacts PolicyFacts.

Lemma kept {A} (kind : build_step -> Prop) (part : builder -> option A) later :
  (forall b y, ~ kind y -> y <> BReset -> part (build_with b y) = part b) ->
  (forall y, In y later -> ~ kind y /\ y <> BReset) -> forall b, part (fold_left build_with later b) = part b.
Proof.
  intros Hk. induction later as [| y later IH]; intros Hl b; [reflexivity |]. cbn [fold_left]. rewrite IH.
  - apply Hk; apply Hl; left; reflexivity.
  - intros z Hz. apply Hl. right. exact Hz.
Qed.

Lemma last_sets {A} (kind : build_step -> Prop) (part : builder -> option A) (sel : build_step -> A) xs x :
  (forall b y, ~ kind y -> y <> BReset -> part (build_with b y) = part b) ->
  (forall b y, kind y -> part (build_with b y) = Some (sel y)) ->
  last_call kind xs x -> part (fold_left build_with xs new_builder) = Some (sel x).
Proof.
  intros Hk Hs (before & later & -> & Hx & Hl). rewrite fold_left_app. cbn [fold_left]. rewrite (kept kind part later Hk Hl). apply Hs, Hx.
Qed.

Lemma last_or_none {A} (kind : build_step -> Prop) (part : builder -> option A) xs :
  (forall y, {kind y} + {~ kind y}) ->
  (forall b y, ~ kind y -> y <> BReset -> part (build_with b y) = part b) ->
  part new_builder = None ->
  (exists x, last_call kind xs x) \/ part (fold_left build_with xs new_builder) = None.
Proof.
  intros Hd Hk Hn. induction xs as [| y xs IH] using rev_ind; [right; exact Hn |].
  destruct (Hd y) as [Hy | Hy].
  - left. exists y, xs, []. split; [reflexivity |]. split; [exact Hy | intros z []].
  - assert ({y = BReset} + {y <> BReset}) as [-> | Hr] by (destruct y; (left; reflexivity) || (right; discriminate)).
    + right. rewrite fold_left_app. cbn [fold_left build_with]. exact Hn.
    + destruct IH as [(x & before & later & -> & Hx & Hl) | IH].
      * left. exists x, before, (later ++ [y]). split; [rewrite <- app_assoc; reflexivity |]. split; [exact Hx |].
        intros z Hz. apply in_app_or in Hz as [Hz | [<- | []]]; auto.
      * right. rewrite fold_left_app. cbn [fold_left]. rewrite Hk; auto.
Qed.

Definition object_of (x : build_step) : obj_selector := match x with BWithObject e => OSObject (Some e) | _ => OSWild end.
Definition relation_of_step (x : build_step) : rel_selector := match x with BWithRelation n => LSName n | _ => LSWild end.
Definition subject_of (x : build_step) : subj_selector := match x with BWithSubject u => USSubject (Some u) | _ => USWild end.

Lemma built_object xs x : last_call object_step xs x -> s_obj (built xs) = Some (object_of x).
Proof.
  intros H. apply (last_sets object_step b_obj object_of xs x); [| | exact H].
  - intros b [] Hk Hr; cbn in *; congruence || tauto.
  - intros b [] Hk; cbn in *; tauto.
Qed.
Lemma built_relation xs x : last_call relation_step xs x -> s_rel (built xs) = Some (relation_of_step x).
Proof.
  intros H. apply (last_sets relation_step b_rel relation_of_step xs x); [| | exact H].
  - intros b [] Hk Hr; cbn in *; congruence || tauto.
  - intros b [] Hk; cbn in *; tauto.
Qed.
Lemma built_subject xs x : last_call subject_step xs x -> s_subj (built xs) = Some (subject_of x).
Proof.
  intros H. apply (last_sets subject_step b_subj subject_of xs x); [| | exact H].
  - intros b [] Hk Hr; cbn in *; congruence || tauto.
  - intros b [] Hk; cbn in *; tauto.
Qed.

Lemma object_or_none xs : (exists x, last_call object_step xs x) \/ s_obj (built xs) = None.
Proof.
  apply (last_or_none object_step b_obj); [| | reflexivity].
  - intros []; cbn; auto.
  - intros b [] Hk Hr; cbn in *; congruence || tauto.
Qed.
Lemma relation_or_none xs : (exists x, last_call relation_step xs x) \/ s_rel (built xs) = None.
Proof.
  apply (last_or_none relation_step b_rel); [| | reflexivity].
  - intros []; cbn; auto.
  - intros b [] Hk Hr; cbn in *; congruence || tauto.
Qed.
Lemma subject_or_none xs : (exists x, last_call subject_step xs x) \/ s_subj (built xs) = None.
Proof.
  apply (last_or_none subject_step b_subj); [| | reflexivity].
  - intros []; cbn; auto.
  - intros b [] Hk Hr; cbn in *; congruence || tauto.
Qed.

Lemma built_selects xs o l u r :
  last_call object_step xs o -> last_call relation_step xs l -> last_call subject_step xs u ->
  (selects (built xs) r <-> asks_for o r /\ asks_for l r /\ asks_for u r).
Proof.
  intros Ho Hl Hu. unfold selects. rewrite (built_object _ _ Ho), (built_relation _ _ Hl), (built_subject _ _ Hu).
  destruct Ho as (_ & _ & _ & Ho & _), Hl as (_ & _ & _ & Hl & _), Hu as (_ & _ & _ & Hu & _).
  split.
  - intros (x & y & z & [= <-] & [= <-] & [= <-] & A & B & C).
    destruct o; try destruct Ho; destruct l; try destruct Hl; destruct u; try destruct Hu; cbn in *; auto.
  - intros (A & B & C). exists (object_of o), (relation_of_step l), (subject_of u). repeat (split; [reflexivity |]).
    destruct o; try destruct Ho; destruct l; try destruct Hl; destruct u; try destruct Hu; cbn in *; auto.
Qed.

Lemma delete_panics E pid sel s :
  s_obj sel = None \/ (s_rel sel = None /\ s_obj sel <> Some OSUnset) \/ (s_subj sel = None /\ s_obj sel <> Some OSUnset /\ s_rel sel <> Some LSUnset) ->
  answer E (QDeleteRelationships pid (Some sel)) s = Panic.
Proof.
  intros H. serve_eq. rewrite run_delete_rels. unfold new_selector_spec.
  destruct sel as [o l u]; cbn [s_obj s_rel s_subj] in *.
  destruct o as [[] |], l as [[] |], u as [[] |]; try reflexivity; destruct H as [H | [[H1 H2] | (H1 & H2 & H3)]]; congruence.
Qed.

Lemma find_not_ok E pid sel s a : s_obj sel = None \/ s_rel sel = None \/ s_subj sel = None ->
  answer E (QFindRelationshipRecords pid (Some sel)) s <> Ok a.
Proof.
  intros H. serve_eq. unfold find_relationship_records. rewrite run_pbind. cbn [run repo_get_policy fst snd].
  destruct (kv_get scmp pid (st_pol s)) as [rec |]; [| discriminate]. rewrite run_rbind. cbn [lift run fst snd].
  destruct (valid_selector (pr_policy rec) (Some sel)); try discriminate.
  unfold repo_find_relationship_records. rewrite run_rbind, run_find. cbn [fst snd].
  unfold new_selector_spec.
  destruct sel as [o l u]; cbn [s_obj s_rel s_subj] in *.
  destruct o as [[] |], l as [[] |], u as [[] |]; try discriminate; destruct H as [H | [H | H]]; discriminate.
Qed.
