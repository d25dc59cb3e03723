(** When keys and identities are distinct: names without separators, and a decision procedure for concrete stores. *)
From Verif Require Import Base Domain Lexer Parser Validate Store Search Explain Yaml Service Dump Api
  SpecGrammar SpecPolicy SpecStore SpecSearch BaseFacts ParserFacts ValidateFacts StoreFacts PolicyFacts RelFacts
  SearchFacts SearchSem SearchTerm SearchExplain GraphFacts.

(** ** Strings without a character *)

Lemma append_cut c s1 s2 t1 t2 : lacks c s1 -> lacks c s2 ->
  s1 +++ String c t1 = s2 +++ String c t2 -> s1 = s2 /\ t1 = t2.
Proof.
  revert s2. induction s1 as [| d s1 IH]; intros [| d2 s2] H1 H2 H; cbn in *.
  - injection H as <-. auto.
  - injection H as <- _. tauto.
  - injection H as -> _. tauto.
  - injection H as <- H. destruct H1, H2. destruct (IH s2) as [-> ->]; auto.
Qed.

Lemma append_inj s t1 t2 : s +++ t1 = s +++ t2 -> t1 = t2.
Proof. induction s as [| c s IH]; cbn; [auto |]. intros [= H]. auto. Qed.

Lemma append_assoc a b c : (a +++ b) +++ c = a +++ (b +++ c).
Proof. induction a as [| x a IH]; cbn; [reflexivity |]. f_equal. exact IH. Qed.

(** ** Identities *)

Lemma three a b c a' b' c' : lacks "/" a -> lacks "/" b -> lacks "/" a' -> lacks "/" b' ->
  a +++ "/" +++ b +++ "/" +++ c = a' +++ "/" +++ b' +++ "/" +++ c' -> a = a' /\ b = b' /\ c = c'.
Proof.
  intros Ha Hb Ha' Hb' H. change (a +++ String "/" (b +++ String "/" c) = a' +++ String "/" (b' +++ String "/" c')) in H.
  apply append_cut in H as [-> H]; auto. apply append_cut in H as [-> H]; auto.
Qed.

Definition fields (n : rnode) : string * string * string :=
  match n with
  | NSet (Some o) rel => (e_res o, e_id o, rel)
  | NEntity (Some o) => (e_res o, e_id o, "")
  | NWild rs => (rs, "", "")
  | _ => ("", "", "")
  end.

Lemma plain_fields n : plain_node n ->
  id_text n = fst (fst (fields n)) +++ "/" +++ snd (fst (fields n)) +++ "/" +++ snd (fields n) /\
  lacks "/" (fst (fst (fields n))) /\ lacks "/" (snd (fst (fields n))).
Proof. destruct n as [[o |] rel | [o |] | rs |]; cbn; tauto. Qed.

Theorem plain_distinct x y : plain_node x -> plain_node y -> id_text x = id_text y -> x = y.
Proof.
  intros Hx Hy H. destruct (plain_fields x Hx) as (Ex & X1 & X2), (plain_fields y Hy) as (Ey & Y1 & Y2).
  rewrite Ex, Ey in H. apply three in H as (H1 & H2 & H3); auto.
  destruct x as [[[xr xi] |] xl | [[xr xi] |] | xs |], y as [[[yr yi] |] yl | [[yr yi] |] | ys |];
    cbn in Hx, Hy, H1, H2, H3; try contradiction; try congruence; exfalso; intuition congruence.
Qed.

Corollary plain_distinct_ids E P succ origin : collision_free E ->
  (forall n, reach E P succ origin n -> plain_node n) -> distinct_ids E P succ origin.
Proof. intros Hc Hp x y Hx Hy H. apply plain_distinct; auto. Qed.

(** ** Keys *)

Lemma lacks_append c s t : lacks c (s +++ t) <-> lacks c s /\ lacks c t.
Proof. induction s as [| d s IH]; cbn; tauto. Qed.

Lemma ends_cut c : forall t1 t2 r1 r2, (t1 = "" \/ exists m, t1 = m +++ String c "") ->
  (t2 = "" \/ exists m, t2 = m +++ String c "") -> lacks c r1 -> lacks c r2 ->
  t1 +++ r1 = t2 +++ r2 -> t1 = t2 /\ r1 = r2.
Proof.
  assert (Hend : forall t, t = "" \/ (exists m, t = m +++ String c "") -> lacks c t -> t = "").
  { intros t [-> | [m ->]] Hl; [reflexivity |]. apply lacks_append in Hl as [_ [Hl _]]. contradiction Hl. reflexivity. }
  assert (Htl : forall d t, String d t = "" \/ (exists m, String d t = m +++ String c "") -> t = "" \/ exists m, t = m +++ String c "").
  { intros d t [H | [m H]]; [discriminate |]. destruct m as [| d' m]; cbn in H; injection H as _ ->; eauto. }
  intros t1. induction t1 as [| d t1 IH]; intros t2 r1 r2 E1 E2 L1 L2 H.
  - cbn in H. subst r1. apply lacks_append in L1 as [L1 _]. rewrite (Hend t2 E2 L1). auto.
  - destruct t2 as [| d2 t2].
    + cbn in H. subst r2. change (String d (t1 +++ r1)) with (String d t1 +++ r1) in L2.
      apply lacks_append in L2 as [L2 _]. rewrite (Hend _ E1 L2) at 1. specialize (Hend _ E1 L2). discriminate.
    + cbn in H. injection H as <- H. apply Htl in E1, E2. destruct (IH t2 r1 r2) as [-> ->]; auto.
Qed.

Lemma delimited_text c res id rel res' id' rel' : lacks c res -> lacks c res' -> lacks c rel -> lacks c rel' ->
  delimited c id -> delimited c id' -> res +++ id +++ rel = res' +++ id' +++ rel' -> res = res' /\ id = id' /\ rel = rel'.
Proof.
  assert (Hd : forall x, delimited c x -> exists t, x = String c t /\ (t = "" \/ exists m, t = m +++ String c "")).
  { intros x [-> | [m ->]]; eexists; split; eauto. }
  intros H1 H2 H3 H4 D1 D2 H. destruct (Hd id D1) as (t & -> & Ht), (Hd id' D2) as (t' & -> & Ht').
  cbn in H. apply append_cut in H as [-> H]; auto. apply (ends_cut c) in H as [-> ->]; auto.
Qed.

Lemma rewrites_declares E P o rel t : rewrites E P o rel t -> declares P (e_res o) rel /\ declares_resource P (e_res o).
Proof.
  intros (l & Hl & Hn & _). split; [exists l; auto |]. destruct Hl as (r & Hr & Hnr & _).
  unfold declares_resource. exists r. auto.
Qed.

Lemma reach_delimited E c P rels o rel n : delimited_ids c P rels -> delimited c (e_id o) ->
  reach E P (stored_subject rels) (NSet (Some o) rel) n ->
  match n with NSet (Some x) _ => delimited c (e_id x) | _ => True end.
Proof.
  intros Hd Ho Hn. induction Hn as [| x y _ IH Hle]; [exact Ho |]. inversion Hle as [x0 xr t' ru n _ _ Hy Hq1 Hq2]; subst x n.
  inversion Hy as [x1 xr1 u Hu Hq1 Hq2 Hq3 Hq | x1 xr1 cu Hq1 Hq2 Hq3 Hq | x1 xr1 ts cu u Hu Hq1 Hq2 Hq3 Hq]; subst; [| exact IH |].
  - destruct u as [x2 | [x2 |] xr2 | rs2 |]; cbn; auto. eapply (di_subjects _ _ _ Hd); [exact Hu | reflexivity | reflexivity].
  - destruct (subject_object u) as [x' |] eqn:Hx; [| exact I].
    eapply (di_subjects _ _ _ Hd); [exact Hu | reflexivity | exact Hx].
Qed.

(** A relationship under the key of a consulted relation is one of that relation. *)
Lemma delimited_look E c P rels o1 rel1 rel2 r : collision_free E -> well_formed E P -> delimited_ids c P rels ->
  delimited c (e_id o1) -> looks_up E P o1 rel1 rel2 -> In r rels ->
  sha E (object_text r) = sha E (e_res o1 +++ e_id o1 +++ rel2) -> r_object r = Some o1 /\ r_relation r = rel2.
Proof.
  intros Hc Hw Hd Hid (t & Hrw & Hl) Hin Hk. destruct (rewrites_declares _ _ _ _ _ Hrw) as [H1 H2].
  assert (H3 : declares P (e_res o1) rel2).
  { destruct Hl as [[_ ->] | [cu Hcu]]; [exact H1 |]. destruct Hrw as (l & Hlr & _ & Hx).
    destruct (wf_expressions _ _ Hw _ _ Hlr) as (t' & Hx' & Hru). rewrite (expression_unique _ _ _ _ Hx Hx') in Hcu.
    exact (Hru _ Hcu). }
  apply Hc in Hk. unfold object_text in Hk. destruct (r_object r) as [x |] eqn:Hox.
  - destruct (di_objects _ _ _ Hd r x Hin Hox) as (L1 & L2 & L3).
    apply (delimited_text c) in Hk as (K1 & K2 & K3); auto.
    + split; [| exact K3]. destruct x, o1; cbn in *. congruence.
    + eapply di_resources; eauto.
    + eapply di_relations; eauto.
  - exfalso. destruct Hid as [Hi | [m Hi]]; rewrite Hi in Hk; destruct (e_res o1); discriminate.
Qed.

Theorem delimited_unaliased E c P rels o rel : collision_free E -> well_formed E P -> delimited_ids c P rels ->
  delimited c (e_id o) -> unaliased E P rels (NSet (Some o) rel).
Proof.
  intros Hc Hw Hd Ho o1 rel1 rel2 r Hr Hl Hin Hk.
  eapply (delimited_look E c P rels); eauto. exact (reach_delimited E c P rels o rel _ Hd Ho Hr).
Qed.

(** ** Deciding the hypotheses for a concrete store *)

Lemma build_rules E es (Q : rnode -> Prop) o rel : forall t gt, build_goal_tree E es t o rel = Ok gt -> paths_in Q gt ->
  forall ru, occurs ru t -> exists ns, evaluate E es ru o rel = Ok ns /\ Forall Q ns.
Proof.
  intros t. induction t as [| | r | l IHl op r IHr]; intros gt H Hp ru Ho; inversion Ho; subst.
  - cbn in H. unfold build_goal_for_rule in H. destruct (evaluate E es r o rel) as [ns | | |]; try discriminate.
    injection H as <-. exists ns. split; [reflexivity |]. cbn in Hp. apply paths_in_all in Hp.
    apply Forall_forall. intros n Hn. rewrite Forall_forall in Hp.
    specialize (Hp (GPath RUnknown n None (reason_builder r))). cbn in Hp. apply Hp. apply in_map_iff. eauto.
  - cbn in H. destruct (build_goal_tree E es l o rel) as [a | | |]; try discriminate.
    destruct (build_goal_tree E es r o rel) as [b | | |]; try discriminate. cbn in H.
    eapply IHl; eauto. destruct op; try discriminate; injection H as <-; cbn in Hp; tauto.
  - cbn in H. destruct (build_goal_tree E es l o rel) as [a | | |]; try discriminate.
    destruct (build_goal_tree E es r o rel) as [b | | |]; try discriminate. cbn in H.
    eapply IHr; eauto. destruct op; try discriminate; injection H as <-; cbn in Hp; tauto.
Qed.

(** [L] contains the origin and everything that its nodes are built from. *)
Definition covers_reach (E : env) (P : policy) (es : list ((string * string) * edge)) (origin : rnode) (L : list rnode) : Prop :=
  In origin L /\
  Forall (fun n => is_terminal n = true \/ exists t, build E P es n = Ok t /\ paths_in (fun m => In m L) t) L.

Lemma covers_reach_ok E P es succ origin L : edge_subjects E es succ -> unique_decls P -> covers_reach E P es origin L ->
  forall n, reach E P succ origin n -> In n L.
Proof.
  intros Hsucc Hu [Ho HL] n Hr. induction Hr as [| x y _ IH Hl]; [exact Ho |].
  rewrite Forall_forall in HL. inversion Hl as [o rel t ru m Hw Hoc Hy Hq1 Hq2]; subst x m.
  destruct (HL _ IH) as [Ht | (gt & Hb & Hp)]; [discriminate |].
  cbn [build handle_entity_set] in Hb. apply (rewrites_node E P _ _ _ Hu) in Hw. destruct Hw as (l & Hlr & Hx).
  rewrite Hlr in Hb. rewrite Hx in Hb. cbn [bind] in Hb.
  destruct (build_rules E es _ _ _ _ _ Hb Hp ru Hoc) as (ns & He & Hns). rewrite Forall_forall in Hns.
  apply Hns. eapply evaluate_yields; eauto.
Qed.

Lemma distinct_list E P es succ origin L : edge_subjects E es succ -> unique_decls P -> covers_reach E P es origin L ->
  NoDup (map (fun n => sha E (id_text n)) L) -> distinct_ids E P succ origin.
Proof.
  intros Hsucc Hu HL Hnd x y Hx Hy H. apply (covers_reach_ok E P es succ origin L Hsucc Hu HL) in Hx, Hy.
  clear HL. induction L as [| n L IH]; [contradiction |]. cbn in Hnd. inversion Hnd as [| ? ? Hn Hnd']; subst.
  destruct Hx as [<- | Hx], Hy as [<- | Hy]; auto.
  - exfalso. apply Hn. rewrite H. apply in_map_iff. eauto.
  - exfalso. apply Hn. rewrite <- H. apply in_map_iff. eauto.
Qed.

Lemma unaliased_list E P es rels origin L : edge_subjects E es (key_subject E rels) -> well_formed E P -> covers_reach E P es origin L ->
  (forall o rel rel' r, In (NSet (Some o) rel) L -> In rel' (map (fun x => snd (fst x)) (lut_relations P)) -> In r rels ->
     sha E (object_text r) = sha E (e_res o +++ e_id o +++ rel') -> r_object r = Some o /\ r_relation r = rel') ->
  unaliased E P rels origin.
Proof.
  intros Hsucc Hw HL H o rel rel' r Hr (t & Hrw & Hl) Hin Hk.
  apply (H o rel rel' r); auto.
  - apply (covers_reach_ok E P es _ origin L Hsucc (wf_unique _ _ Hw) HL).
    apply (reach_mono E P origin (stored_subject rels)); [apply stored_keyed | exact Hr].
  - assert (H3 : declares P (e_res o) rel').
    { destruct (rewrites_declares _ _ _ _ _ Hrw) as [H1 _].
      destruct Hl as [[_ ->] | [cu Hcu]]; [exact H1 |]. destruct Hrw as (l & Hlr & _ & Hx).
      destruct (wf_expressions _ _ Hw _ _ Hlr) as (t' & Hx' & Hru). rewrite (expression_unique _ _ _ _ Hx Hx') in Hcu.
      exact (Hru _ Hcu). }
    destruct H3 as (l & Hl1 & Hl2). apply in_map_iff. exists ((e_res o, rel'), l). split; [reflexivity |].
    apply lut_relations_in. auto.
Qed.
