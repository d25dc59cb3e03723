(** Facts about requests that were read from JSON: they are as if they had come over gRPC. *)
From Coq Require Import ZArith Permutation Sorted.
From Verif Require Import Base BaseFacts Domain Lexer Store Search Explain Yaml Service Dump Api Wire SpecWire WireFacts Rpc SpecRpc RpcFacts Cli Json SpecJson JsonFacts JsonReads.
Local Open Scope N_scope.

Lemma fields_inv {A} (P : A -> Prop) d t (set : N -> json -> A -> option A) l :
  (forall f v a b, In f t -> P a -> set (f_num f) v a = Some b -> P b) ->
  forall seen one a b, P a -> read_fields d t set l seen one a = Some b -> P b.
Proof.
  intros H. induction l as [| [k v] l IH]; intros seen one a b Ha Hr; [injection Hr as <-; exact Ha |].
  destruct (find_field t k) as [f |] eqn:E; [| rewrite unknown_step in Hr by exact E; destruct d; [eauto | discriminate]].
  rewrite (read_put d t set k v l seen one a f E) in Hr. destruct (existsb _ seen); [discriminate |]. unfold put in Hr.
  destruct (is_null v); [eauto |]. destruct (f_one f && one); [discriminate |]. destruct (set (f_num f) v a) as [a' |] eqn:Ea; [| discriminate].
  eapply IH; [| exact Hr]. exact (H f v a a' (found_in _ _ _ E) Ha Ea).
Qed.

Lemma message_inv {A} (P : A -> Prop) d t (set : N -> json -> A -> option A) new j b :
  (forall f v a b, In f t -> P a -> set (f_num f) v a = Some b -> P b) -> P new -> read_message d t set new j = Some b -> P b.
Proof. intros H Hn. destruct j as [| | | | | | l]; try discriminate. cbn [read_message]. apply fields_inv; assumption. Qed.

Lemma list_inv {A} (P : A -> Prop) (read : json -> option A) : (forall j x, read j = Some x -> P x) ->
  forall j l, read_list read j = Some l -> forall x, In x l -> P x.
Proof.
  intros H j l. destruct j as [| | | | | js |]; try discriminate. cbn [read_list]. revert l.
  induction js as [| j js IH]; intros l Hl x Hx; [injection Hl as <-; destruct Hx |]. cbn [read_all] in Hl.
  destruct (read j) as [y |] eqn:E; [| discriminate]. destruct (read_all read js) as [ys |]; [| discriminate]. injection Hl as <-.
  destruct Hx as [<- | Hx]; eauto.
Qed.

Lemma text_inv j s : read_text j = Some s -> utf8_valid s = true.
Proof. destruct j; try discriminate. cbn [read_text]. unfold text. destruct (utf8_valid s0) eqn:E; [intros [= <-]; exact E | discriminate]. Qed.

Lemma enum_inv t j n : (forall s n, by_name t s = Some n -> n < 4294967296) -> read_enum t j = Some n -> n < 4294967296.
Proof.
  intros Ht. destruct j; try discriminate; cbn [read_enum].
  - destruct (_ && _)%bool; [| discriminate]. intros [= <-]. pose proof (Z.mod_pos_bound z 4294967296 eq_refl). lia.
  - apply Ht.
Qed.

Ltac small_tac := intros s n; unfold by_name; cbn [find fst snd];
  repeat match goal with |- context [String.eqb ?a ?b] => destruct (String.eqb a b); [intros [= <-]; lia |] end; discriminate.
Lemma operators_small s n : by_name operator_names s = Some n -> n < 4294967296.
Proof. revert s n. unfold operator_names. small_tac. Qed.
Lemma formats_small s n : by_name format_names s = Some n -> n < 4294967296.
Proof. revert s n. unfold format_names. small_tac. Qed.
Lemma strategies_small s n : by_name strategy_names s = Some n -> n < 4294967296.
Proof. revert s n. unfold strategy_names. small_tac. Qed.
Lemma dumps_small s n : by_name dump_names s = Some n -> n < 4294967296.
Proof. revert s n. unfold dump_names. small_tac. Qed.

Lemma entries_inv l : forall m b, read_entries l m = Some b -> kv_sorted scmp m -> (forall k v, In (k, v) m -> utf8_valid k = true /\ utf8_valid v = true) ->
  kv_sorted scmp b /\ forall k v, In (k, v) b -> utf8_valid k = true /\ utf8_valid v = true.
Proof.
  induction l as [| [k v] l IH]; intros m b H Hm Hu; [injection H as <-; auto |]. cbn [read_entries] in H. destruct (kv_get scmp k m); [discriminate |].
  destruct (read_text (JStr k)) as [k' |] eqn:E; [| discriminate]. destruct (read_text v) as [v' |] eqn:Ev; [| discriminate].
  apply (IH _ _ H); [apply sorted_set; [apply scmp_ok | exact Hm] |]. intros k0 v0 Hin. apply text_inv in E. apply text_inv in Ev.
  assert (In (k0, v0) m \/ (k0, v0) = (k', v')) as [Hin' | [= -> ->]]; [| auto | auto].
  clear - Hin. induction m as [| [k1 v1] m IH]; cbn [kv_set] in Hin; [destruct Hin as [<- | []]; auto |].
  destruct (scmp k' k1); destruct Hin as [Hin | Hin]; [right; congruence | left; right; exact Hin | right; congruence | left; exact Hin | left; left; exact Hin |].
  destruct (IH Hin) as [H | H]; [left; right; exact H | right; exact H].
Qed.

Ltac split_omap H := match type of H with omap _ ?x = Some _ => let y := fresh "y" in let E := fresh "E" in destruct x as [y |] eqn:E; [injection H as <- | discriminate H] end.
Ltac in_table Hf := cbn in Hf; repeat match type of Hf with _ \/ _ => destruct Hf as [<- | Hf] end; try (destruct Hf; fail); cbn [f_num fd fd_one].

Section Recv.
  Variable d : bool.

  Lemma two_inv t j x : (exists j1 p1 j2 p2, t = [fd 1 j1 p1; fd 2 j2 p2]) -> read_message d t set_two_texts (""%string, ""%string) j = Some x ->
    utf8_valid (fst x) = true /\ utf8_valid (snd x) = true.
  Proof using Type.
    intros (j1 & p1 & j2 & p2 & ->). apply (message_inv (fun x => utf8_valid (fst x) = true /\ utf8_valid (snd x) = true)); [| auto].
    intros f v a b Hf [H1 H2]. in_table Hf; cbn [set_two_texts]; intros H; split_omap H; apply text_inv in E; auto.
  Qed.
  Lemma one_inv t j x : read_message d t set_one_text ""%string j = Some x -> utf8_valid x = true.
  Proof using Type. apply (message_inv (fun x => utf8_valid x = true)); [| reflexivity]. intros f v a b _ _. unfold set_one_text. apply text_inv. Qed.

  Lemma entity_inv j e : read_entity d j = Some e -> all_utf8 (entity_texts e).
  Proof using Type.
    unfold read_entity. intros H. split_omap H. apply two_inv in E as [E1 E2]; [| unfold t_entity; eauto]. unfold entity_texts. cbn [e_res e_id].
    apply utf8_cons. split; [exact E1 |]. apply utf8_cons. split; [exact E2 | intros s []].
  Qed.
  Lemma utf8_nil : all_utf8 [].
  Proof using Type. intros s []. Qed.
  Lemma utf8_sing s : utf8_valid s = true -> all_utf8 [s].
  Proof using Type. intros H. apply utf8_cons. split; [exact H | apply utf8_nil]. Qed.

  Lemma entity_set_inv t j x : (exists j1 p1 j2 p2, t = [fd 1 j1 p1; fd 2 j2 p2]) -> read_message d t (set_entity_set d) (None, ""%string) j = Some x ->
    all_utf8 (opt_texts entity_texts (fst x)) /\ utf8_valid (snd x) = true.
  Proof using Type.
    intros (j1 & p1 & j2 & p2 & ->). apply (message_inv (fun x => all_utf8 (opt_texts entity_texts (fst x)) /\ utf8_valid (snd x) = true)); [| split; [apply utf8_nil | reflexivity]].
    intros f v a b Hf [H1 H2]. in_table Hf; cbn [set_entity_set]; intros H; split_omap H; cbn [fst snd opt_texts]; [apply entity_inv in E | apply text_inv in E]; auto.
  Qed.

  Lemma subject_inv j u : read_subject d j = Some u -> all_utf8 (subject_texts u).
  Proof using Type.
    apply (message_inv (fun u => all_utf8 (subject_texts u))); [| apply utf8_nil].
    intros f v a b Hf _. in_table Hf; cbn [set_subject_member]; intros H; split_omap H; cbn [subject_texts].
    - exact (entity_inv _ _ E).
    - apply entity_set_inv in E as [E1 E2]; [| unfold t_entity_set; eauto]. apply utf8_cons. auto.
    - apply one_inv in E. apply utf8_sing, E.
  Qed.

  Lemma relationship_inv j r : read_relationship d j = Some r -> all_utf8 (relationship_texts r).
  Proof using Type.
    apply (message_inv (fun r => all_utf8 (relationship_texts r))); [| apply utf8_sing; reflexivity]. unfold relationship_texts.
    intros f v a b Hf Ha. apply utf8_cons in Ha as [Ha1 Ha]. apply utf8_app in Ha as [Ha2 Ha3].
    in_table Hf; cbn [set_relationship_part]; intros H; split_omap H; cbn [r_object r_relation r_subject opt_texts]; apply utf8_cons; rewrite utf8_app;
      [apply entity_inv in E | apply text_inv in E | apply subject_inv in E]; auto.
  Qed.

  Lemma selector_inv j x : read_selector d j = Some x -> all_utf8 (selector_texts x) /\ selector_ok x.
  Proof using Type.
    apply (message_inv (fun x => all_utf8 (selector_texts x) /\ selector_ok x)); [| split; [apply utf8_nil | split; discriminate]]. unfold selector_texts, selector_ok.
    intros f v a b Hf [Ha [Hn1 Hn2]]. apply utf8_app in Ha as [Ha1 Ha]. apply utf8_app in Ha as [Ha2 Ha3].
    in_table Hf; cbn [set_selector_part]; intros H; split_omap H; cbn [s_obj s_rel s_subj opt_texts]; rewrite !utf8_app.
    - match goal with |- (?P /\ _ /\ _) /\ ?Q /\ _ => assert (P /\ Q) as [K1 K2]; [| auto] end.
      revert E. apply (message_inv (fun y => all_utf8 match y with OSObject e => opt_texts entity_texts e | OSResource rs => [rs] | _ => [] end /\ Some y <> Some (OSObject None)));
        [| split; [apply utf8_nil | discriminate]].
      intros f v0 a0 b Hf _. in_table Hf; cbn [set_obj_selector]; intros H; split_omap H; (split; [| discriminate]); cbn [opt_texts];
        [exact (entity_inv _ _ E) | apply utf8_nil | apply utf8_sing; exact (text_inv _ _ E)].
    - match goal with |- (_ /\ ?P /\ _) /\ _ => assert P as K1; [| auto] end.
      revert E. apply (message_inv (fun y => all_utf8 match y with LSName rel => [rel] | _ => [] end)); [| apply utf8_nil].
      intros f v0 a0 b Hf _. in_table Hf; cbn [set_rel_selector]; intros H; split_omap H; [apply utf8_sing; exact (text_inv _ _ E) | apply utf8_nil].
    - match goal with |- (_ /\ _ /\ ?P) /\ _ /\ ?Q => assert (P /\ Q) as [K1 K2]; [| auto] end.
      revert E. apply (message_inv (fun y => all_utf8 match y with USSubject u => opt_texts subject_texts u | USResource rs => [rs] | _ => [] end /\ Some y <> Some (USSubject None)));
        [| split; [apply utf8_nil | discriminate]].
      intros f v0 a0 b Hf _. in_table Hf; cbn [set_subj_selector]; intros H; split_omap H; (split; [| discriminate]); cbn [opt_texts];
        [exact (subject_inv _ _ E) | apply utf8_nil | apply utf8_sing; exact (text_inv _ _ E)].
  Qed.

  Lemma access_inv j a : read_access d j = Some a -> all_utf8 (access_texts a).
  Proof using Type.
    apply (message_inv (fun r => all_utf8 (access_texts r))); [| apply utf8_sing; reflexivity]. unfold access_texts.
    intros f v x b Hf Ha. apply utf8_cons in Ha as [Ha1 Ha]. apply utf8_app in Ha as [Ha2 Ha3].
    in_table Hf; cbn [set_access_part]; intros H; split_omap H; cbn [a_object a_relation a_subject opt_texts]; apply utf8_cons; rewrite utf8_app;
      [apply entity_inv in E | apply text_inv in E | apply entity_inv in E]; auto.
  Qed.

  Lemma rnode_inv j n : read_rnode d j = Some n -> all_utf8 (rnode_texts n).
  Proof using Type.
    apply (message_inv (fun u => all_utf8 (rnode_texts u))); [| apply utf8_nil].
    intros f v a b Hf _. in_table Hf; cbn [set_rnode]; intros H; split_omap H; cbn [rnode_texts].
    - apply entity_set_inv in E as [E1 E2]; [| unfold t_set_node; eauto]. apply utf8_cons. auto.
    - revert E. apply (message_inv (fun o => all_utf8 (opt_texts entity_texts o))); [| apply utf8_nil].
      intros f w a0 b Hf _. unfold set_entity_node. intros H. split_omap H. exact (entity_inv _ _ E).
    - apply one_inv in E. apply utf8_sing, E.
  Qed.

  Lemma rule_inv j r : read_rule d j = Some r -> all_utf8 (rule_texts r).
  Proof using Type.
    apply (message_inv (fun u => all_utf8 (rule_texts u))); [| apply utf8_nil].
    intros f v a b Hf _. in_table Hf; cbn [set_rule]; intros H; split_omap H; cbn [rule_texts].
    - apply utf8_nil.
    - apply utf8_sing. exact (one_inv _ _ _ E).
    - apply two_inv in E as [E1 E2]; [| unfold t_ttu; eauto]. apply utf8_cons. split; [exact E1 | apply utf8_sing, E2].
  Qed.

  Lemma op_of_ok n : n < 4294967296 -> op_ok (op_of n).
  Proof using Type.
    intros H. unfold op_of. rewrite N.mod_small by exact H. destruct n as [| [p | [p | p |] |]]; cbn [op_ok]; try exact I; lia.
  Qed.

  Lemma message_inv' {A} (P : A -> Prop) t (set : N -> json -> A -> option A) new l b :
    (forall f x a b, In f t -> In x l -> P a -> set (f_num f) (snd x) a = Some b -> P b) -> P new -> read_message d t set new (JObj l) = Some b -> P b.
  Proof using Type.
    intros H. cbn [read_message]. generalize (@nil N) false. revert new. induction l as [| [k v] l IH]; intros a seen one Ha Hr; [injection Hr as <-; exact Ha |].
    assert (IH' := IH (fun f x a b Hf Hx => H f x a b Hf (or_intror Hx))). clear IH.
    destruct (find_field t k) as [f |] eqn:E; [| rewrite unknown_step in Hr by exact E; destruct d; [eauto | discriminate]].
    rewrite (read_put d t set k v l seen one a f E) in Hr. destruct (existsb _ seen); [discriminate |]. unfold put in Hr.
    destruct (is_null v); [eauto |]. destruct (f_one f && one); [discriminate |]. destruct (set (f_num f) v a) as [a' |] eqn:Ea; [| discriminate].
    eapply IH'; [| exact Hr]. exact (H f (k, v) a a' (found_in _ _ _ E) (or_introl eq_refl) Ha Ea).
  Qed.

  Lemma tree_inv n : forall j t, (depth j <= n)%nat -> read_tree d j = Some t -> t <> TNil /\ tree_ok t /\ all_utf8 (tree_texts t).
  Proof using Type.
    induction n as [n IH] using lt_wf_ind. intros j t Hj. rewrite tree_unfold. destruct j as [| | | | | | l]; try discriminate.
    apply (message_inv' (fun t => t <> TNil /\ tree_ok t /\ all_utf8 (tree_texts t))); [| repeat split; [discriminate | apply utf8_nil]].
    intros f x a b Hf Hx _. pose proof (depth_member x l Hx) as Hd. in_table Hf; cbn [set_node]; intros H; split_omap H.
    - destruct (snd x) as [| | | | | | m]; try discriminate.
      assert (K : tree_ok (fst (fst y)) /\ op_ok (snd (fst y)) /\ tree_ok (snd y) /\ all_utf8 (tree_texts (fst (fst y)) ++ tree_texts (snd y))).
      { revert E. apply (message_inv' (fun y => tree_ok (fst (fst y)) /\ op_ok (snd (fst y)) /\ tree_ok (snd y) /\ all_utf8 (tree_texts (fst (fst y)) ++ tree_texts (snd y))));
          [| repeat split; apply utf8_nil].
        intros f z a0 b Hf Hz (K1 & K2 & K3 & K4). apply utf8_app in K4 as [K4 K5]. pose proof (depth_member z m Hz) as Hd'.
        in_table Hf; cbn [set_op_node]; intros H; split_omap H; cbn [fst snd]; rewrite utf8_app.
        - apply (IH (depth (snd z))) in E as (_ & E1 & E2); [auto | lia | lia].
        - apply (enum_inv _ _ _ operators_small) in E. repeat split; auto. apply op_of_ok, E.
        - apply (IH (depth (snd z))) in E as (_ & E1 & E2); [auto | lia | lia]. }
      destruct K as (K1 & K2 & K3 & K4). cbn [tree_ok tree_texts]. repeat split; [discriminate | auto..].
    - apply rule_inv in E. cbn [tree_ok tree_texts]. repeat split; [discriminate | exact E].
  Qed.

  Lemma restriction_inv j r : read_restriction d j = Some r -> all_utf8 (restriction_texts r).
  Proof using Type.
    apply (message_inv (fun u => all_utf8 (restriction_texts u))); [| apply utf8_nil].
    intros f v a b Hf _. in_table Hf; cbn [set_restriction]; intros H; split_omap H; cbn [restriction_texts].
    - apply utf8_sing. exact (one_inv _ _ _ E).
    - apply two_inv in E as [E1 E2]; [| unfold t_set_restriction; eauto]. apply utf8_cons. split; [exact E1 | apply utf8_sing, E2].
  Qed.

  Lemma relation_inv j r : read_relation d j = Some r -> relation_ok r /\ all_utf8 (relation_texts r).
  Proof using Type.
    apply (message_inv (fun r => relation_ok r /\ all_utf8 (relation_texts r))); [| split; [exact I | apply utf8_cons; split; [reflexivity | apply utf8_sing; reflexivity]]].
    unfold relation_ok, relation_texts. intros f v a b Hf [Hok Ha]. apply utf8_cons in Ha as [Ha1 Ha]. apply utf8_cons in Ha as [Ha2 Ha]. apply utf8_app in Ha as [Ha3 Ha4].
    in_table Hf; cbn [set_relation]; intros H; split_omap H; cbn [rl_name rl_desc rl_expr rl_restr opt_texts]; rewrite !utf8_cons, !utf8_app.
    - apply text_inv in E. auto.
    - apply text_inv in E. auto.
    - assert (K : relexpr_ok y /\ all_utf8 (relexpr_texts y)); [| tauto].
      revert E. apply (message_inv (fun y => relexpr_ok y /\ all_utf8 (relexpr_texts y))); [| split; [exact I | apply utf8_nil]].
      intros f w a0 b Hf _. in_table Hf; cbn [set_relexpr]; intros H; split_omap H; cbn [relexpr_ok relexpr_texts].
      + split; [exact I | apply utf8_sing; exact (text_inv _ _ E)].
      + apply (tree_inv (depth w)) in E as (E1 & E2 & E3); [auto | lia].
    - assert (K : all_utf8 (subj_restriction_texts y)); [| tauto].
      revert E. apply (message_inv (fun y => all_utf8 (subj_restriction_texts y))); [| apply utf8_nil].
      intros f w a0 b Hf _. in_table Hf; cbn [set_subj_restriction]; intros H; split_omap H; cbn [subj_restriction_texts]; [| apply utf8_nil].
      apply utf8_flat. revert E. apply (message_inv (fun l => forall x, In x l -> all_utf8 (restriction_texts x))); [| intros x []].
      intros f u a1 b Hf _. unfold set_restrictions. apply list_inv. apply restriction_inv.
  Qed.

  Lemma resource_inv j r : read_resource d j = Some r -> (forall l, In l (rs_relations r) -> relation_ok l) /\ all_utf8 (resource_texts r).
  Proof using Type.
    apply (message_inv (fun r => (forall l, In l (rs_relations r) -> relation_ok l) /\ all_utf8 (resource_texts r)));
      [| split; [intros l [] | apply utf8_cons; split; [reflexivity | apply utf8_sing; reflexivity]]].
    unfold resource_texts. intros f v a b Hf [Hok Ha]. apply utf8_cons in Ha as [Ha1 Ha]. apply utf8_cons in Ha as [Ha2 Ha].
    in_table Hf; cbn [set_resource]; intros H; split_omap H; cbn [rs_name rs_desc rs_relations]; rewrite !utf8_cons.
    - apply text_inv in E. auto.
    - apply text_inv in E. auto.
    - pose proof (list_inv _ _ relation_inv _ _ E) as K. split; [intros l Hl; apply K; exact Hl |]. repeat split; auto. apply utf8_flat. intros x Hx. apply K. exact Hx.
  Qed.

  Lemma policy_inv j p : read_policy d j = Some p -> policy_ok p /\ all_utf8 (policy_texts p).
  Proof using Type.
    apply (message_inv (fun p => policy_ok p /\ all_utf8 (policy_texts p))); [| split; [split; [intros r l [] | constructor] | intros s Hs; cbn in Hs; repeat destruct Hs as [<- | Hs]; try reflexivity; destruct Hs]].
    unfold policy_ok, policy_texts. intros f v a b Hf [[Hok Hs] Ha]. apply utf8_cons in Ha as [Ha1 Ha]. apply utf8_cons in Ha as [Ha2 Ha]. apply utf8_cons in Ha as [Ha3 Ha]. apply utf8_app in Ha as [Ha4 Ha5].
    in_table Hf; cbn [set_policy]; intros H; split_omap H; cbn [p_id p_name p_desc p_resources p_attrs]; rewrite !utf8_cons, !utf8_app.
    1-3: apply text_inv in E; tauto.
    - pose proof (list_inv _ _ resource_inv _ _ E) as K. split; [split; [intros r l Hr; apply K; exact Hr | exact Hs] |]. repeat split; auto.
      apply utf8_flat. intros x Hx. apply K. exact Hx.
    - destruct v as [| | | | | | l]; try discriminate. cbn [read_map] in E. apply entries_inv in E as [E1 E2]; [| exact I | intros k v []].
      split; [split; [exact Hok | apply kv_sorted_strong, E1] |]. repeat split; auto. apply utf8_flat. intros [k w] Hx. destruct (E2 k w Hx) as [K1 K2].
      apply utf8_cons. split; [exact K1 | apply utf8_sing, K2].
  Qed.

  Lemma sent_inv j x : read_sent d j = Some x -> (exists lim, sent_ok lim x) /\ all_utf8 (sent_texts x).
  Proof using Type.
    apply (message_inv (fun x => (exists lim, sent_ok lim x) /\ all_utf8 (sent_texts x))); [| split; [exists 0%nat; exact I | apply utf8_nil]].
    intros f v a b Hf _. in_table Hf; cbn [set_sent]; intros H; split_omap H; cbn [sent_ok sent_texts].
    - apply policy_inv in E as [E1 E2]. split; [| exact E2]. exists (S (S (nest_policy y))). split; [exact E1 | cbn; lia].
    - split; [exists 0%nat; exact I | apply utf8_sing; exact (text_inv _ _ E)].
  Qed.

  Lemma about_inv {X Y} (P : X -> Prop) (Q : Y -> Prop) t (read : json -> option X) (lst : json -> option Y) y0 j x :
    (forall v z, read v = Some z -> P z) -> (forall v z, lst v = Some z -> Q z) -> Q y0 ->
    read_message d t (set_about read lst) (""%string, None, y0) j = Some x ->
    utf8_valid (fst (fst x)) = true /\ when P (snd (fst x)) /\ Q (snd x).
  Proof using Type.
    intros HP HQ Hy. apply (message_inv (fun x => utf8_valid (fst (fst x)) = true /\ when P (snd (fst x)) /\ Q (snd x))); [| split; [reflexivity | split; [exact I | exact Hy]]].
    intros f v a b _ (H1 & H2 & H3). unfold set_about. destruct (f_num f) as [| [[] | [] |]]; intros H; split_omap H; cbn [fst snd when]; try (apply text_inv in E); eauto.
  Qed.

  Lemma format_of_ok n : n < 4294967296 -> format_ok (format_of n).
  Proof using Type. intros H. unfold format_of. destruct n as [| [p | [p | p |] |]]; cbn [format_ok]; try exact I; lia. Qed.

  Lemma call_inv m j c : read_call d m j = Some c -> method_of c = m /\ exists lim, proper lim c.
  Proof using Type.
    destruct m; cbn [read_call]; intros H; split_omap H; (split; [reflexivity |]); unfold proper; cbn [call_texts].
    - assert (K : when (fun x => (exists lim, sent_ok lim x) /\ all_utf8 (sent_texts x)) (fst (fst y))).
      { revert E. apply (message_inv (fun y => when (fun x => (exists lim, sent_ok lim x) /\ all_utf8 (sent_texts x)) (fst (fst y)))); [| exact I].
        intros f v a b Hf Ha. in_table Hf; cbn [set_create]; intros H; split_omap H; cbn [fst snd when]; [exact (sent_inv _ _ E) | exact Ha]. }
      destruct (fst (fst y)) as [x |]; cbn [when opt_texts] in *; [destruct K as [[lim K1] K2]; exists lim; auto | exists 0%nat; split; [apply utf8_nil | exact I]].
    - assert (K : when (fun x => (exists lim, sent_ok lim x) /\ all_utf8 (sent_texts x)) (fst (fst y)) /\ enum_ok (snd y)).
      { revert E. apply (message_inv (fun y => when (fun x => (exists lim, sent_ok lim x) /\ all_utf8 (sent_texts x)) (fst (fst y)) /\ enum_ok (snd y))); [| split; [exact I | unfold enum_ok; cbn; lia]].
        intros f v a b Hf [Ha1 Ha2]. in_table Hf; cbn [set_create]; intros H; split_omap H; cbn [fst snd when]; [split; [exact (sent_inv _ _ E) | exact Ha2] | auto |].
        split; [exact Ha1 |]. apply (enum_inv _ _ _ strategies_small) in E. exact E. }
      destruct K as [K Ke]. destruct (fst (fst y)) as [x |]; cbn [when opt_texts] in *; [destruct K as [[lim K1] K2]; exists lim; auto | exists 0%nat; split; [apply utf8_nil | auto]].
    - exists 0%nat. split; [apply utf8_sing; exact (one_inv _ _ _ E) | exact I].
    - exists 0%nat. split; [apply utf8_sing; exact (one_inv _ _ _ E) | exact I].
    - exists 0%nat. split; [apply utf8_nil | exact I].
    - apply (about_inv (fun r => all_utf8 (relationship_texts r)) (fun _ => True)) in E as (E1 & E2 & _); [| apply relationship_inv | auto | exact I].
      exists 0%nat. split; [apply utf8_cons; split; [exact E1 | destruct (snd (fst y)); [exact E2 | apply utf8_nil]] | exact I].
    - apply (about_inv (fun r => all_utf8 (relationship_texts r)) (fun _ => True)) in E as (E1 & E2 & _); [| apply relationship_inv | auto | exact I].
      exists 0%nat. split; [apply utf8_cons; split; [exact E1 | destruct (snd (fst y)); [exact E2 | apply utf8_nil]] | exact I].
    - apply (about_inv (fun r => all_utf8 (relationship_texts r)) (fun _ => True)) in E as (E1 & E2 & _); [| apply relationship_inv | auto | exact I].
      exists 0%nat. split; [apply utf8_cons; split; [exact E1 | destruct (snd (fst y)); [exact E2 | apply utf8_nil]] | exact I].
    - apply (about_inv (fun r => all_utf8 (selector_texts r) /\ selector_ok r) (fun _ => True)) in E as (E1 & E2 & _); [| apply selector_inv | auto | exact I].
      exists 0%nat. split; [apply utf8_cons; split; [exact E1 | destruct (snd (fst y)); [apply E2 | apply utf8_nil]] | destruct (snd (fst y)); [apply E2 | exact I]].
    - apply (about_inv (fun r => all_utf8 (selector_texts r) /\ selector_ok r) (fun _ => True)) in E as (E1 & E2 & _); [| apply selector_inv | auto | exact I].
      exists 0%nat. split; [apply utf8_cons; split; [exact E1 | destruct (snd (fst y)); [apply E2 | apply utf8_nil]] | destruct (snd (fst y)); [apply E2 | exact I]].
    - apply (about_inv (fun r => all_utf8 (access_texts r)) (fun _ => True)) in E as (E1 & E2 & _); [| apply access_inv | auto | exact I].
      exists 0%nat. split; [apply utf8_cons; split; [exact E1 | destruct (snd (fst y)); [exact E2 | apply utf8_nil]] | exact I].
    - apply (about_inv (fun r => all_utf8 (access_texts r)) (fun n => n < 4294967296)) in E as (E1 & E2 & E3);
        [| apply access_inv | intros v z; apply enum_inv; exact formats_small | lia].
      exists 0%nat. split; [apply utf8_cons; split; [exact E1 | destruct (snd (fst y)); [exact E2 | apply utf8_nil]] | apply format_of_ok, E3].
    - apply (about_inv (fun r => all_utf8 (rnode_texts r)) (fun n => n < 4294967296)) in E as (E1 & E2 & E3);
        [| apply rnode_inv | intros v z; apply enum_inv; exact formats_small | lia].
      exists 0%nat. split; [apply utf8_cons; split; [exact E1 | destruct (snd (fst y)); [exact E2 | apply utf8_nil]] | apply format_of_ok, E3].
    - assert (K : utf8_valid (fst y) = true /\ enum_ok (snd y)).
      { revert E. apply (message_inv (fun y => utf8_valid (fst y) = true /\ enum_ok (snd y))); [| split; [reflexivity | unfold enum_ok; cbn; lia]].
        intros f v a b Hf [Ha1 Ha2]. in_table Hf; cbn [set_dump]; intros H; split_omap H; cbn [fst snd]; [split; [exact (text_inv _ _ E) | exact Ha2] |].
        split; [exact Ha1 |]. apply (enum_inv _ _ _ dumps_small) in E. exact E. }
      exists 0%nat. split; [apply utf8_sing, K | apply K].
  Qed.
End Recv.
