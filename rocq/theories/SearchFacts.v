(** The search as a relation, its termination, and what it depends on. *)
From Verif Require Import Base Domain Lexer Parser Validate Store Search BaseFacts SpecGrammar SpecPolicy SpecStore SpecSearch ValidateFacts.

Lemma existsb_in id seen : existsb (String.eqb id) seen = true <-> In id seen.
Proof.
  rewrite existsb_exists. split.
  - intros (x & Hin & Hx). apply String.eqb_eq in Hx as ->. exact Hin.
  - intros H. exists id. split; [exact H | apply String.eqb_refl].
Qed.

Lemma existsb_not_in id seen : existsb (String.eqb id) seen = false <-> ~ In id seen.
Proof. rewrite <- existsb_in. destruct (existsb (String.eqb id) seen); split; congruence. Qed.

Lemma node_id_text E n id : node_id E n = Ok id -> id = sha E (id_text n).
Proof. destruct n as [[o |] rel | [o |] | rs |]; cbn; congruence. Qed.

Lemma conditional_success b : conditional b = RSuccess <-> b = true.
Proof. destruct b; cbn; split; congruence. Qed.

Lemma conditional_known b : conditional b <> RUnknown.
Proof. destruct b; cbn; congruence. Qed.

Lemma is_success_iff r : is_success r = true <-> r = RSuccess.
Proof. destruct r; cbn; split; congruence. Qed.

Lemma is_failure_iff r : is_failure r = true <-> r = RFailure.
Proof. destruct r; cbn; split; congruence. Qed.

Section Graph.
  Variable E : env.
  Variable P : policy.
  Variable es : list ((string * string) * edge).
  Variable g : goal.

  Definition rule_paths (r : rule) (ns : list rnode) : list gtree :=
    map (fun n => GPath RUnknown n None (reason_builder r)) ns.

  (** The tree of a node. *)
  Definition node_tree (e : entity) (rel : string) (t : tree) : Prop :=
    exists l, lut_get_relation P (e_res e) rel = Some l /\ get_expression_tree E l = Ok t.

  Inductive spath : rnode -> string -> list string -> gtree -> list string -> Prop :=
  | sp_seen nd why seen id : node_id E nd = Ok id -> In id seen ->
      spath nd why seen (GPath RUnknown nd None why) seen
  | sp_found nd why seen id : node_id E nd = Ok id -> ~ In id seen -> goal_found nd g = Ok true ->
      spath nd why seen (GPath RSuccess nd None why) (id :: seen)
  | sp_terminal nd why seen id : node_id E nd = Ok id -> ~ In id seen -> goal_found nd g = Ok false ->
      is_terminal nd = true -> spath nd why seen (GPath RFailure nd None why) (id :: seen)
  | sp_expand e rel why seen id t gt x seen' : node_id E (NSet (Some e) rel) = Ok id -> ~ In id seen ->
      goal_found (NSet (Some e) rel) g = Ok false -> node_tree e rel t ->
      build_goal_tree E es t (Some e) rel = Ok gt ->
      stree t e rel (id :: seen) x seen' ->
      spath (NSet (Some e) rel) why seen (GPath (get_result x) (NSet (Some e) rel) (Some x) why) seen'
  with stree : tree -> entity -> string -> list string -> gtree -> list string -> Prop :=
  | st_rule r e rel ns seen b ps seen' : evaluate E es r (Some e) rel = Ok ns ->
      sor (reason_builder r) ns seen b ps seen' ->
      stree (TRule r) e rel seen (GOr (conditional b) ps) seen'
  | st_union_left l r e rel seen x seen' y : stree l e rel seen x seen' -> get_result x = RSuccess ->
      build_goal_tree E es r (Some e) rel = Ok y ->
      stree (TOp l OpUnion r) e rel seen (GOr RSuccess [x; y]) seen'
  | st_union_right l r e rel seen x seen1 y seen2 : stree l e rel seen x seen1 -> get_result x = RFailure ->
      stree r e rel seen1 y seen2 ->
      stree (TOp l OpUnion r) e rel seen (GOr (get_result y) [x; y]) seen2
  | st_inter_left l r e rel seen x seen' y : stree l e rel seen x seen' -> get_result x = RFailure ->
      build_goal_tree E es r (Some e) rel = Ok y ->
      stree (TOp l OpInter r) e rel seen (GAnd RFailure [x; y]) seen'
  | st_inter_right l r e rel seen x seen1 y seen2 : stree l e rel seen x seen1 -> get_result x = RSuccess ->
      stree r e rel seen1 y seen2 ->
      stree (TOp l OpInter r) e rel seen (GAnd (get_result y) [x; y]) seen2
  | st_diff l r e rel seen x seen1 y seen2 : stree l e rel seen x seen1 -> stree r e rel seen1 y seen2 ->
      stree (TOp l OpDiff r) e rel seen
        (GDiff (conditional (is_success (get_result x) && is_failure (get_result y))) x y) seen2
  with sor : string -> list rnode -> list string -> bool -> list gtree -> list string -> Prop :=
  | so_nil why seen : sor why [] seen false [] seen
  | so_hit why n ns seen x seen' : spath n why seen x seen' -> get_result x = RSuccess ->
      sor why (n :: ns) seen true (x :: map (fun n => GPath RUnknown n None why) ns) seen'
  | so_miss why n ns seen x seen1 b ps seen2 : spath n why seen x seen1 -> get_result x <> RSuccess ->
      sor why ns seen1 b ps seen2 ->
      sor why (n :: ns) seen b (x :: ps) seen2.

  Scheme spath_ind2 := Induction for spath Sort Prop
  with stree_ind2 := Induction for stree Sort Prop
  with sor_ind2 := Induction for sor Sort Prop.
  Combined Scheme search_ind from spath_ind2, stree_ind2, sor_ind2.

  (** Trees never have an unknown result. *)
  Lemma stree_known t e rel seen x seen' : stree t e rel seen x seen' ->
    get_result x = RSuccess \/ get_result x = RFailure.
  Proof.
    induction 1; cbn [get_result]; auto.
    - destruct b; cbn; auto.
    - destruct (is_success (get_result x) && is_failure (get_result y)); cbn; auto.
  Qed.

  Lemma or_loop_paths sp why : forall ns seen b ps seen',
    or_loop (search_tree sp) (map (fun n => GPath RUnknown n None why) ns) seen = Ok (b, ps, seen') ->
    (forall nd why' seen0 x seen1, sp nd why' seen0 = Ok (x, seen1) -> spath nd why' seen0 x seen1) ->
    sor why ns seen b ps seen'.
  Proof.
    intros ns. induction ns as [| n ns IH]; intros seen b ps seen' H Hsp; cbn in H.
    - injection H as <- <- <-. constructor.
    - destruct (sp n why seen) as [[x seen1] | | |] eqn:Hx; try discriminate. cbn in H.
      apply Hsp in Hx as Hx'. destruct (is_success (get_result x)) eqn:Hr.
      + injection H as <- <- <-. apply so_hit; [exact Hx' | apply is_success_iff; exact Hr].
      + fold (or_loop (search_tree sp)) in H.
        destruct (or_loop (search_tree sp) (map (fun n => GPath RUnknown n None why) ns) seen1)
          as [[[b' qs] seen2] | | |] eqn:Hl; try discriminate.
        cbn in H. injection H as <- <- <-. eapply so_miss; eauto.
        intros Hs. apply is_success_iff in Hs. congruence.
  Qed.

  Lemma search_tree_sound sp : (forall nd why seen x seen', sp nd why seen = Ok (x, seen') -> spath nd why seen x seen') ->
    forall t e rel gt seen x seen', build_goal_tree E es t (Some e) rel = Ok gt ->
      search_tree sp gt seen = Ok (x, seen') -> stree t e rel seen x seen'.
  Proof.
    intros Hsp t. induction t as [| | r | l IHl op r IHr]; intros e rel gt seen x seen' Hb Hs; try discriminate.
    - cbn [build_goal_tree] in Hb. unfold build_goal_for_rule in Hb.
      destruct (evaluate E es r (Some e) rel) as [ns | | |] eqn:He; try discriminate. injection Hb as <-.
      cbn [search_tree] in Hs.
      destruct (or_loop (search_tree sp) (map (fun n => GPath RUnknown n None (reason_builder r)) ns) seen)
        as [[[b ps] seen1] | | |] eqn:Hl; try discriminate.
      injection Hs as <- <-. eapply st_rule; [exact He |]. apply or_loop_paths in Hl; auto.
    - cbn [build_goal_tree] in Hb.
      destruct (build_goal_tree E es l (Some e) rel) as [a | | |] eqn:Ha; try discriminate.
      destruct (build_goal_tree E es r (Some e) rel) as [b | | |] eqn:Hbr; try discriminate.
      cbn [bind] in Hb. destruct op; try discriminate; injection Hb as <-.
      + cbn [search_tree or_loop] in Hs. destruct (search_tree sp a seen) as [[y seen1] | | |] eqn:Hy; try discriminate.
        cbn [bind fst snd] in Hs. eapply IHl in Hy; [| eassumption].
        destruct (stree_known _ _ _ _ _ _ Hy) as [Hr | Hr]; rewrite Hr in Hs; cbn [is_success bind] in Hs.
        * injection Hs as <- <-. cbn [conditional]. eapply st_union_left; eauto.
        * destruct (search_tree sp b seen1) as [[z seen2] | | |] eqn:Hz; try discriminate.
          cbn [bind fst snd] in Hs. eapply IHr in Hz; [| eassumption].
          destruct (stree_known _ _ _ _ _ _ Hz) as [Hq | Hq]; rewrite Hq in Hs; cbn [is_success bind] in Hs;
            injection Hs as <- <-; cbn [conditional]; rewrite <- Hq; eapply st_union_right; eauto.
      + cbn [search_tree and_loop] in Hs. destruct (search_tree sp a seen) as [[y seen1] | | |] eqn:Hy; try discriminate.
        cbn [bind fst snd] in Hs. eapply IHl in Hy; [| eassumption].
        destruct (stree_known _ _ _ _ _ _ Hy) as [Hr | Hr]; rewrite Hr in Hs; cbn [is_failure bind] in Hs.
        * destruct (search_tree sp b seen1) as [[z seen2] | | |] eqn:Hz; try discriminate.
          cbn [bind fst snd] in Hs. eapply IHr in Hz; [| eassumption].
          destruct (stree_known _ _ _ _ _ _ Hz) as [Hq | Hq]; rewrite Hq in Hs; cbn [is_failure bind] in Hs;
            injection Hs as <- <-; cbn [conditional]; rewrite <- Hq; eapply st_inter_right; eauto.
        * injection Hs as <- <-. cbn [conditional]. eapply st_inter_left; eauto.
      + cbn [search_tree] in Hs. destruct (search_tree sp a seen) as [[y seen1] | | |] eqn:Hy; try discriminate.
        cbn [bind fst snd] in Hs.
        destruct (search_tree sp b seen1) as [[z seen2] | | |] eqn:Hz; try discriminate.
        cbn [bind fst snd] in Hs. injection Hs as <- <-.
        eapply st_diff; [eapply IHl | eapply IHr]; eauto.
  Qed.

  Lemma search_path_sound : forall n nd why seen x seen',
    search_path E P es g n nd why seen = Ok (x, seen') -> spath nd why seen x seen'.
  Proof.
    intros n. induction n as [| n IH]; intros nd why seen x seen' H; [discriminate |]. cbn [search_path] in H.
    destruct (node_id E nd) as [id | | |] eqn:Hid; try discriminate. cbn [bind] in H.
    destruct (existsb (String.eqb id) seen) eqn:Hs.
    - injection H as <- <-. apply existsb_in in Hs. econstructor; eauto.
    - apply existsb_not_in in Hs. destruct (goal_found nd g) as [found | | |] eqn:Hf; try discriminate. cbn [bind] in H.
      destruct found; [injection H as <- <-; eapply sp_found; eauto |]. cbn [orb] in H.
      destruct (is_terminal nd) eqn:Ht; [injection H as <- <-; eapply sp_terminal; eauto |].
      destruct nd as [[e |] rel | | |]; try discriminate.
      destruct (build E P es (NSet (Some e) rel)) as [gt | | |] eqn:Hb; try discriminate. cbn [bind] in H.
      destruct (search_tree (search_path E P es g n) gt (id :: seen)) as [[y seen1] | | |] eqn:Hy; try discriminate.
      cbn [bind fst snd] in H. injection H as <- <-.
      cbn [build handle_entity_set] in Hb. destruct (lut_get_relation P (e_res e) rel) as [l |] eqn:Hl; try discriminate.
      destruct (get_expression_tree E l) as [t | | |] eqn:Hx; try discriminate. cbn [bind] in Hb.
      eapply sp_expand; eauto; [exists l; eauto |]. eapply search_tree_sound; eauto.
  Qed.
End Graph.
