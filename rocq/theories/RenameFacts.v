(** Membership and the ways of a search under renaming. *)
From Verif Require Import Base Domain Lexer Parser Validate Store Search Explain Yaml Service Dump Api
  SpecGrammar SpecPolicy SpecStore SpecSearch SpecWays SpecRename Fixtures BaseFacts ValidateFacts StoreFacts PolicyFacts RelFacts CrashFacts.

Section Rename.
  Variable f : string -> string -> string.
  Variable f_one : one_to_one f.

  Notation ren := (rename_entity f).

  Lemma ren_inj x y : ren x = ren y -> x = y.
  Proof. destruct x as [r i], y as [r' i']. unfold rename_entity. cbn [e_res e_id]. intros [= <- H]. apply f_one in H. congruence. Qed.

  Lemma ren_opt_inj x y : option_map ren x = option_map ren y -> x = y.
  Proof. destruct x as [x |], y as [y |]; cbn [option_map]; intros H; try discriminate; [| reflexivity].
    f_equal. apply ren_inj. assert (Some (ren x) = Some (ren y)) by exact H. congruence. Qed.

  Lemma ren_subject_inj x y : rename_subject f x = rename_subject f y -> x = y.
  Proof.
    destruct x, y; cbn [rename_subject]; intros H; try discriminate; try congruence.
    - f_equal. apply ren_inj. congruence.
    - assert (option_map ren e = option_map ren e0 /\ rel = rel0) as [He ->] by (split; congruence). apply ren_opt_inj in He as ->. reflexivity.
  Qed.

  Definition rename_node (n : rnode) : rnode :=
    match n with
    | NSet o rel => NSet (option_map ren o) rel
    | NEntity e => NEntity (option_map ren e)
    | NWild rs => NWild rs
    | NUnset => NUnset
    end.

  Lemma rename_node_inj x y : rename_node x = rename_node y -> x = y.
  Proof.
    destruct x, y; cbn [rename_node]; intros H; try discriminate; try congruence.
    - assert (option_map ren o = option_map ren o0 /\ rel = rel0) as [He ->] by (split; congruence). apply ren_opt_inj in He as ->. reflexivity.
    - f_equal. apply ren_opt_inj. congruence.
  Qed.

  Lemma rename_subject_node u : subject_node (rename_subject f u) = rename_node (subject_node u).
  Proof. destruct u; reflexivity. Qed.
  Lemma rename_subject_object u : subject_object (rename_subject f u) = option_map ren (subject_object u).
  Proof. destruct u; reflexivity. Qed.

  Lemma renamed_subject rels rels' o rel u' : renamed f rels rels' ->
    (stored_subject rels' (ren o) rel u' <-> exists u, u' = rename_subject f u /\ stored_subject rels o rel u).
  Proof.
    intros H. unfold stored_subject. rewrite (H _). split.
    - intros ([o' rel' u] & Hin & Heq). unfold rename in Heq. cbn [r_object r_relation r_subject] in Heq.
      destruct o' as [o' |]; [| discriminate]. destruct u as [u |]; [| discriminate]. cbn [option_map] in Heq.
      injection Heq. intros -> -> Ho1 Ho2. exists u. split; [reflexivity |].
      assert (o = o') as -> by (apply ren_inj; unfold rename_entity; congruence). exact Hin.
    - intros (u & -> & Hin). eexists. split; [exact Hin | reflexivity].
  Qed.

  Variables (E : env) (P : policy) (succ succ' : entity -> string -> subject -> Prop).
  Variable alike : forall o rel u', succ' (ren o) rel u' <-> exists u, u' = rename_subject f u /\ succ o rel u.

  Lemma rewrites_ren o rel t : rewrites E P (ren o) rel t <-> rewrites E P o rel t.
  Proof. reflexivity. Qed.

  Lemma eval_ren a M M' o rel t : (forall o rel, M' (ren o) rel <-> M o rel) ->
    (eval succ' (ren a) M' (ren o) rel t <-> eval succ a M o rel t).
  Proof.
    intros HM. induction t as [| | ru | l IHl op r IHr]; try reflexivity; [| destruct op; cbn [eval]; try rewrite IHl, IHr; reflexivity].
    destruct ru as [| c | ts cu |]; cbn [eval]; [| apply HM | | reflexivity].
      + split.
        * intros (u' & Hs & Hc). apply alike in Hs as (u & -> & Hs). exists u. split; [exact Hs |].
          destruct u as [e | [e |] rel' | rs |]; cbn in *; auto. { apply ren_inj. exact Hc. } { apply HM. exact Hc. }
        * intros (u & Hs & Hc). exists (rename_subject f u). split; [apply alike; eauto |].
          destruct u as [e | [e |] rel' | rs |]; cbn in *; auto. { congruence. } { apply HM. exact Hc. }
      + split.
        * intros (u' & o' & Hs & Ho & Hm). apply alike in Hs as (u & -> & Hs). rewrite rename_subject_object in Ho.
          destruct (subject_object u) as [x |] eqn:Hx; [| discriminate]. injection Ho as <-. exists u, x. split; [exact Hs |].
          split; [exact Hx |]. apply HM. exact Hm.
        * intros (u & o' & Hs & Ho & Hm). exists (rename_subject f u), (ren o'). split; [apply alike; eauto |].
          rewrite rename_subject_object, Ho. split; [reflexivity |]. apply HM. exact Hm.
  Qed.

  Lemma member_ren a o rel : member E P succ' (ren a) (ren o) rel <-> member E P succ a o rel.
  Proof.
    split; intros H.
    - intros M HM. specialize (H (fun x l => forall y, x = ren y -> M y l)). cbv beta in H. apply H; [| reflexivity].
      intros x l t Hw He y ->. apply (HM y l t); [exact Hw |].
      apply (eval_ren a M (fun x l => forall y, x = ren y -> M y l)); [| exact He].
      intros z k. split; [auto |]. intros Hz z' Hz'. apply ren_inj in Hz' as <-. exact Hz.
    - intros M HM. specialize (H (fun x l => M (ren x) l)). cbv beta in H. apply H.
      intros x l t Hw He. apply (HM (ren x) l t); [exact Hw |]. apply (eval_ren a (fun x l => M (ren x) l) M); [reflexivity | exact He].
  Qed.

  Definition rename_step (x : list bool * option subject) := (fst x, option_map (rename_subject f) (snd x)).

  Lemma way_ren origin w' n' : way E P succ' (rename_node origin) w' n' ->
    exists w n, w' = map rename_step w /\ n' = rename_node n /\ way E P succ origin w n.
  Proof.
    induction 1 as [| w' o' rel t p ru u' n' Hw (w & n & -> & Hn & Hw0) Hr Hp Hy].
    - exists [], origin. split; [reflexivity |]. split; [reflexivity | constructor].
    - destruct n as [[o |] rel0 | | |]; try discriminate. cbn in Hn. injection Hn as -> ->.
      change (mkEntity (e_res o) (f (e_res o) (e_id o))) with (ren o) in *.
      assert (exists u n, u' = option_map (rename_subject f) u /\ n' = rename_node n /\ yields_by succ ru o rel0 u n) as (u & n & -> & -> & Hy').
      { inversion Hy; subst.
        - apply alike in H as (v & -> & Hs). exists (Some v), (subject_node v).
          split; [reflexivity |]. split; [apply rename_subject_node | constructor; exact Hs].
        - exists None, (NSet (Some o) c). split; [reflexivity |]. split; [reflexivity | constructor].
        - apply alike in H as (v & -> & Hs). exists (Some v), (NSet (subject_object v) cu).
          split; [reflexivity |]. split; [cbn; rewrite rename_subject_object; reflexivity | constructor; exact Hs]. }
      exists (w ++ [(p, u)]), n. split; [rewrite map_app; reflexivity |]. split; [reflexivity |].
      eapply wy_step; [exact Hw0 | exact Hr | exact Hp | exact Hy'].
  Qed.

  Lemma single_ren origin : single_ways E P succ origin -> single_ways E P succ' (rename_node origin).
  Proof.
    intros H w1 w2 n H1 H2. apply way_ren in H1 as (v1 & n1 & -> & -> & H1). apply way_ren in H2 as (v2 & n2 & -> & Hn & H2).
    apply rename_node_inj in Hn as <-. rewrite (H v1 v2 n1 H1 H2). reflexivity.
  Qed.

  Lemma yields_by_of ru o rel n : yields succ' ru o rel n <-> exists u, yields_by succ' ru o rel u n.
  Proof.
    split.
    - intros H. inversion H; subst; eexists; constructor; eassumption.
    - intros (u & H). inversion H; subst; constructor; assumption.
  Qed.

  Lemma reach_ren origin n' : reach E P succ' (rename_node origin) n' -> exists n, n' = rename_node n /\ reach E P succ origin n.
  Proof.
    induction 1 as [| x y Hx (n & Hn & Hr) Hl]; [exists origin; split; [reflexivity | constructor] |].
    inversion Hl as [o' rel t ru m Hw Hoc Hy]; subst. destruct n as [[o |] rel0 | | |]; try discriminate. cbn in H. injection H as -> ->.
    change (mkEntity (e_res o) (f (e_res o) (e_id o))) with (ren o) in *.
    assert (exists n, y = rename_node n /\ yields succ ru o rel0 n) as (n & -> & Hy').
    { inversion Hy; subst.
      - apply alike in H as (v & -> & Hs). exists (subject_node v). split; [apply rename_subject_node | constructor; exact Hs].
      - exists (NSet (Some o) c). split; [reflexivity | constructor].
      - apply alike in H as (v & -> & Hs). exists (NSet (subject_object v) cu).
        split; [cbn; rewrite rename_subject_object; reflexivity | constructor; exact Hs]. }
    exists n. split; [reflexivity |]. eapply re_step; [exact Hr |]. econstructor; [exact Hw | exact Hoc | exact Hy'].
  Qed.

  Lemma solution_ren a o rel M : solution_below E P succ a (NSet (Some o) rel) M ->
    solution_below E P succ' (ren a) (NSet (Some (ren o)) rel) (fun x l => exists y, x = ren y /\ M y l).
  Proof.
    intros H x l Hx. apply (reach_ren (NSet (Some o) rel)) in Hx as ([[y |] l' | | |] & Hn & Hr); try discriminate. cbn in Hn. injection Hn as -> ->.
    change (mkEntity (e_res y) (f (e_res y) (e_id y))) with (ren y).
    assert (HM : forall z k, (exists y, ren z = ren y /\ M y k) <-> M z k).
    { intros z k. split; [| eauto]. intros (z' & Hz & Hm). apply ren_inj in Hz as <-. exact Hm. }
    rewrite HM, (H y l' Hr). split; intros (t & Hw & He); exists t; (split; [exact Hw |]).
    - apply (eval_ren a M _ y l' t HM). exact He.
    - apply (eval_ren a M _ y l' t HM) in He. exact He.
  Qed.
End Rename.

(** ** Stores made by a list of SetRelationship requests *)

Lemma sets_stored E pid : forall rs s rec, store_ok E s -> policies s pid = Some rec ->
  (forall r, In r rs -> allowed_relationship (pr_policy rec) (Some r) = Ok tt) ->
  (forall r r', In r rs \/ In r (relationships s pid) -> In r' rs \/ In r' (relationships s pid) -> rel_key E r = rel_key E r' -> r = r') ->
  let s' := after_all E (map (set pid) rs) s in
  (forall r, In r (relationships s' pid) <-> In r rs \/ In r (relationships s pid)) /\ policies s' pid = Some rec.
Proof.
  induction rs as [| r0 rs IH]; intros s rec H Hp Hal Hk; [cbn; split; [tauto | exact Hp] |]. cbn [map after_all fold_left].
  assert (Hal0 : allowed_relationship (pr_policy rec) (Some r0) = Ok tt) by (apply Hal; left; reflexivity).
  assert (exists e, to_internal (Some r0) = Ok e) as (e & He).
  { apply to_internal_complete. destruct (so_policy _ _ H pid rec Hp) as [_ Hw]. apply wf_unique in Hw. apply (allowed_ok _ _ Hw) in Hal0.
    destruct Hal0 as (o & u & l & Ho & Hu & _ & _ & Hd & _). split; [congruence |]. split; [congruence |].
    intros rel Q. rewrite Q in Hu. injection Hu as <-. exact Hd. }
  pose proof (after_set E 2%N pid (Some r0) "data" s rec e Hp Hal0 He) as Hs.
  assert (Hi : edge_image e) by (exists r0; exact He). pose proof (from_to_internal _ _ He) as Hfe.
  assert (Hin : forall r, In r (relationships (after E (set pid r0) s) pid) <-> r = r0 \/ In r (relationships s pid)).
  { intros r. unfold set. rewrite Hs, (relationships_put E pid pid e _ s r H Hi), Hfe. split.
    - intros [[_ ->] | [Hr _]]; auto.
    - intros [-> | Hr]; [auto |]. destruct (relationship_dec r r0) as [-> | Hn]; [auto |]. right. split; [exact Hr |].
      intros [_ Hq]. apply Hn, Hk; [auto | left; left; reflexivity |]. rewrite Hq. unfold rel_key. rewrite He. reflexivity. }
  destruct (IH (after E (set pid r0) s) rec) as [IH1 IH2].
  - apply after_ok, H.
  - unfold set. rewrite Hs. exact Hp.
  - intros r Hr. apply Hal. right. exact Hr.
  - intros r r' Hr Hr'. apply Hk; [rewrite Hin in Hr; cbn; intuition (subst; auto) | rewrite Hin in Hr'; cbn; intuition (subst; auto)].
  - split; [| exact IH2]. intros r. rewrite IH1, Hin. cbn [In]. split; [intros [? | [-> | ?]] | intros [[<- | ?] | ?]]; auto.
Qed.

Lemma one_element {A} (ns : list A) x : NoDup ns -> (forall y, In y ns <-> y = x) -> ns = [x].
Proof.
  intros Hd H. destruct ns as [| a ns]; [destruct (proj2 (H x) eq_refl) |]. assert (a = x) as -> by (apply H; left; reflexivity).
  f_equal. destruct ns as [| b ns]; [reflexivity |]. assert (b = x) as -> by (apply H; right; left; reflexivity).
  inversion Hd as [| ? ? Hni _]. destruct Hni. left. reflexivity.
Qed.

Lemma two_elements {A} (ns : list A) x y : x <> y -> NoDup ns -> (forall z, In z ns <-> z = x \/ z = y) -> ns = [x; y] \/ ns = [y; x].
Proof.
  intros Hxy Hd H. destruct ns as [| a ns]; [destruct (proj2 (H x) (or_introl eq_refl)) |]. inversion Hd as [| ? ? Hni Hd']; subst.
  destruct (proj1 (H a) (or_introl eq_refl)) as [-> | ->]; [left | right]; f_equal; apply one_element; auto; intros z; split.
  - intros Hz. destruct (proj1 (H z) (or_intror Hz)) as [-> | ->]; [contradiction | reflexivity].
  - intros ->. destruct (proj2 (H y) (or_intror eq_refl)) as [-> | Hz]; [contradiction | exact Hz].
  - intros Hz. destruct (proj1 (H z) (or_intror Hz)) as [-> | ->]; [reflexivity | contradiction].
  - intros ->. destruct (proj2 (H x) (or_introl eq_refl)) as [-> | Hz]; [contradiction | exact Hz].
Qed.

Lemma filter_sorted {K V} (cmp : K -> K -> comparison) (P : K * V -> bool) m : kv_sorted cmp m -> kv_sorted cmp (filter P m).
Proof.
  induction m as [| [k v] m IH]; cbn; [auto |]. intros [Hlt Hs]. destruct (P (k, v)); cbn; [| auto]. split; [| auto].
  intros k' v' Hin. apply filter_In in Hin as [Hin _]. eapply Hlt. exact Hin.
Qed.
