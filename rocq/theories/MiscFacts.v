(** Proofs about YAML definitions and the in-memory graph. *)
From Coq Require Import Permutation Sorted.
From Verif Require Import Base Domain Lexer Yaml MapGraph SpecMisc BaseFacts.

(** ** Sorting by name *)

Lemma insert_perm {A} (x : string * A) l : Permutation (insert_by_name x l) (x :: l).
Proof.
  induction l as [| y l IH]; cbn; [reflexivity |]. destruct (scmp (fst x) (fst y)); try reflexivity.
  rewrite IH. apply perm_swap.
Qed.

Lemma sort_perm {A} (l : list (string * A)) : Permutation (sort_by_name l) l.
Proof. induction l as [| x l IH]; cbn; [reflexivity |]. rewrite insert_perm, IH. reflexivity. Qed.

Definition lt_name {A} (x y : string * A) : Prop := scmp (fst x) (fst y) = Lt.

Lemma insert_sorted {A} (x : string * A) l : ~ In (fst x) (map fst l) -> StronglySorted lt_name l ->
  StronglySorted lt_name (insert_by_name x l).
Proof.
  intros Hn Hs. induction Hs as [| y l Hs IH Hy]; cbn; [repeat constructor |].
  cbn in Hn. destruct (scmp (fst x) (fst y)) eqn:Hc.
  - apply scmp_eq in Hc. exfalso. apply Hn. left. congruence.
  - constructor; [constructor; assumption |]. constructor; [exact Hc |].
    rewrite Forall_forall in *. intros z Hz. unfold lt_name in *. eapply scmp_trans; [exact Hc | apply Hy, Hz].
  - constructor; [apply IH; tauto |]. rewrite Forall_forall in *. intros z Hz.
    apply (Permutation_in _ (insert_perm x l)) in Hz as [<- | Hz]; [| apply Hy, Hz].
    unfold lt_name. apply (cmp_gt_lt _ scmp_ok). exact Hc.
Qed.

Lemma sort_sorted {A} (l : list (string * A)) : NoDup (map fst l) -> StronglySorted lt_name (sort_by_name l).
Proof.
  induction l as [| x l IH]; cbn; intros H; [constructor |]. inversion H as [| ? ? H1 H2]; subst.
  apply insert_sorted; [| auto]. intros Hin. apply H1. apply (Permutation_in _ (Permutation_map fst (sort_perm l))). exact Hin.
Qed.

Lemma sorted_unique {A} : forall l l' : list (string * A), Permutation l l' -> StronglySorted lt_name l ->
  StronglySorted lt_name l' -> l = l'.
Proof.
  induction l as [| x l IH]; intros [| y l'] Hp Hs Hs'.
  - reflexivity.
  - apply Permutation_nil in Hp. discriminate.
  - symmetry in Hp. apply Permutation_nil in Hp. discriminate.
  - inversion Hs as [| ? ? Hs1 Hx]; subst. inversion Hs' as [| ? ? Hs1' Hy]; subst. rewrite Forall_forall in Hx, Hy.
    assert (x = y) as <-.
    { assert (Hin : In x (y :: l')) by (apply (Permutation_in _ Hp); left; reflexivity).
      assert (Hin' : In y (x :: l)) by (apply (Permutation_in _ (Permutation_sym Hp)); left; reflexivity).
      destruct Hin as [-> | Hin]; [reflexivity |]. destruct Hin' as [-> | Hin']; [reflexivity |].
      specialize (Hx y Hin'). specialize (Hy x Hin). unfold lt_name in *.
      rewrite (scmp_opp (fst x) (fst y)), Hx in Hy. discriminate. }
    f_equal. apply IH; [apply Permutation_cons_inv with x; exact Hp | assumption | assumption].
Qed.

Lemma sort_invariant {A} (l l' : list (string * A)) : NoDup (map fst l) -> Permutation l l' -> sort_by_name l = sort_by_name l'.
Proof.
  intros Hn Hp. apply sorted_unique.
  - rewrite !sort_perm. exact Hp.
  - apply sort_sorted, Hn.
  - apply sort_sorted. eapply Permutation_NoDup; [apply Permutation_map, Hp | exact Hn].
Qed.

Lemma sorted_increasing {A} (l : list (string * A)) : StronglySorted lt_name l -> increasing (map fst l).
Proof.
  induction 1 as [| x l Hs IH Hx]; [exact I |]. destruct l as [| y l]; [exact I |]. cbn in *. split; [| exact IH].
  rewrite Forall_forall in Hx. apply Hx. left. reflexivity.
Qed.

(** ** Order of keys *)

Lemma insert_map {A B} (R : string * A -> string * B -> Prop) x y l l' : (forall a b, R a b -> fst a = fst b) ->
  R x y -> Forall2 R l l' -> Forall2 R (insert_by_name x l) (insert_by_name y l').
Proof.
  intros Hk Hxy H. induction H as [| a b l l' Hab H IH]; cbn; [auto |].
  rewrite (Hk _ _ Hxy), (Hk _ _ Hab). destruct (scmp (fst y) (fst b)); auto.
Qed.

Lemma sort_map {A B} (R : string * A -> string * B -> Prop) l l' : (forall a b, R a b -> fst a = fst b) ->
  Forall2 R l l' -> Forall2 R (sort_by_name l) (sort_by_name l').
Proof.
  intros Hk H. induction H as [| a b l l' Hab H IH]; [constructor |].
  change (Forall2 R (insert_by_name a (sort_by_name l)) (insert_by_name b (sort_by_name l'))). apply insert_map; auto.
Qed.

Theorem order_irrelevant d d' : proper d -> same_document d d' -> map_policy_definition d = map_policy_definition d'.
Proof.
  intros [Hn Hr] (H1 & H2 & H3 & H4 & m & Hp & Hm). unfold map_policy_definition. rewrite H1, H2, H3, H4. f_equal.
  rewrite (sort_invariant _ m Hn Hp).
  assert (Hs : Forall2 same_resource (sort_by_name m) (sort_by_name (y_resources d'))).
  { apply sort_map; [| exact Hm]. intros a b []; reflexivity. }
  assert (Hin : forall x, In x (sort_by_name m) -> In x (y_resources d)).
  { intros x Hx. apply (Permutation_in _ (sort_perm m)) in Hx. apply (Permutation_in _ (Permutation_sym Hp)). exact Hx. }
  induction Hs as [| x y l l' Hxy Hs IH]; [reflexivity |]. cbn [map]. f_equal.
  - destruct Hxy as [k | k dd r r' Hperm]; [reflexivity |]. unfold map_resource; cbn [default_res fst snd yr_doc yr_relations].
    rewrite (sort_invariant r r'); [reflexivity | | exact Hperm]. apply (Hr k (mkYRes dd r)). apply Hin. left. reflexivity.
  - apply IH. intros z Hz. apply Hin. right. exact Hz.
Qed.

(** ** Type lists *)

Lemma cut_spec s : match cut_colon s with
  | (_, None) => without ":" s /\ cut_colon s = (s, None)
  | (rs, Some rl) => without ":" rs /\ s = rs +++ ":" +++ rl
  end.
Proof.
  induction s as [| c s IH]; cbn; [auto |]. destruct (Ascii.eqb_spec c ":") as [-> | Hne].
  - split; [exact I | reflexivity].
  - destruct (cut_colon s) as [a [b |]]; cbn.
    + destruct IH as [H1 H2]. split; [auto |]. rewrite H2. reflexivity.
    + destruct IH as [H1 H2]. injection H2 as ->. split; [auto | reflexivity].
Qed.

Lemma entry_ok s : entry_means s (map_restriction_elem s).
Proof.
  unfold map_restriction_elem. pose proof (cut_spec s) as H. destruct (cut_colon s) as [a [b |]].
  - destruct H as [H ->]. constructor. exact H.
  - destruct H as [H H2]. injection H2 as ->. constructor. exact H.
Qed.

Lemma without_cut c : forall a a' b b', without c a -> without c a' -> a +++ String c b = a' +++ String c b' -> a = a' /\ b = b'.
Proof.
  induction a as [| d a IH]; intros [| d' a'] b b' H1 H2 H; cbn in *.
  - injection H as <-. auto.
  - injection H as <- _. tauto.
  - injection H as -> _. tauto.
  - injection H as <- H. destruct (IH a' b b') as [-> ->]; tauto.
Qed.

Lemma without_app c a b : without c (a +++ b) -> without c b.
Proof. induction a as [| d a IH]; cbn; tauto. Qed.

Lemma entry_unique s x y : entry_means s x -> entry_means s y -> x = y.
Proof.
  intros H1 H2. destruct H1 as [s H1 | rs rl H1]; inversion H2 as [s' H3 Hq | rs' rl' H3 Hq]; subst.
  - reflexivity.
  - apply without_app in H1. destruct H1 as [H1 _]. contradiction H1. reflexivity.
  - apply without_app in H3. destruct H3 as [H3 _]. contradiction H3. reflexivity.
  - destruct (without_cut ":" rs' rs rl' rl H3 H1 Hq) as [-> ->]. reflexivity.
Qed.

Theorem types_ok l x : types_mean l x <-> x = map_subject_restriction l.
Proof.
  assert (Hst : existsb (String.eqb "*") l = true <-> In "*" l).
  { rewrite existsb_exists. split; [intros (s & Hs & He); apply String.eqb_eq in He; congruence | intros H; exists "*"; auto]. }
  unfold map_subject_restriction. split.
  - intros Hm. inversion Hm as [l' H | l' xs Hn H]; subst; clear Hm.
    + apply Hst in H. rewrite H. reflexivity.
    + destruct (existsb (String.eqb "*") l); [exfalso; apply Hn, Hst; reflexivity |]. f_equal. clear Hst Hn.
      induction H as [| s x l xs Hs H IH]; [reflexivity |]. cbn. f_equal; [| exact IH]. eapply entry_unique; [exact Hs | apply entry_ok].
  - intros ->. destruct (existsb (String.eqb "*") l).
    + constructor. apply Hst. reflexivity.
    + constructor; [intros H; apply Hst in H; discriminate |]. clear. induction l as [| s l IH]; cbn; constructor; [apply entry_ok | exact IH].
Qed.

(** ** Contents *)

Lemma keyed {A} (l : list (string * A)) k x y : NoDup (map fst l) -> In (k, x) l -> In (k, y) l -> x = y.
Proof.
  induction l as [| [k' z] l IH]; cbn; [tauto |]. intros Hn Hx Hy. inversion Hn as [| ? ? H1 H2]; subst.
  destruct Hx as [Hx | Hx], Hy as [Hy | Hy]; auto.
  - congruence.
  - injection Hx as -> ->. contradict H1. apply in_map_iff. exists (k, y). auto.
  - injection Hy as -> ->. contradict H1. apply in_map_iff. exists (k, x). auto.
Qed.

Lemma sort_in {A} (x : string * A) l : In x (sort_by_name l) <-> In x l.
Proof. split; apply Permutation_in; [apply sort_perm | symmetry; apply sort_perm]. Qed.

Lemma sort_keys {A} k (l : list (string * A)) : In k (map fst (sort_by_name l)) <-> In k (map fst l).
Proof. split; apply Permutation_in; [| symmetry]; apply Permutation_map, sort_perm. Qed.

Lemma res_names (l : list (string * option yres)) : map rs_name (map map_resource l) = map fst l.
Proof. rewrite map_map. reflexivity. Qed.

Lemma rel_names (l : list (string * option yrel)) : map rl_name (map map_relation l) = map fst l.
Proof. rewrite map_map. reflexivity. Qed.

Lemma resource_in d r : In r (p_resources (map_policy_definition d)) <-> exists y, In (rs_name r, y) (y_resources d) /\ r = map_resource (rs_name r, y).
Proof.
  unfold map_policy_definition. cbn [p_resources]. rewrite in_map_iff. split.
  - intros ([k y] & <- & Hin). apply (proj1 (sort_in _ _)) in Hin. exists y. split; [exact Hin | reflexivity].
  - intros (y & Hin & He). exists (rs_name r, y). split; [congruence | apply (proj2 (sort_in _ _)), Hin].
Qed.

Lemma default_relations_nodup d k y : proper d -> In (k, y) (y_resources d) -> NoDup (map fst (yr_relations (default_res y))).
Proof. intros [_ Hp] Hin. destruct y as [y |]; [exact (Hp k y Hin) | constructor]. Qed.

Lemma declared_default d k y n x : proper d -> In (k, y) (y_resources d) ->
  (declared_in d k n x <-> In (n, x) (yr_relations (default_res y))).
Proof.
  intros [Hp _] Hin. split.
  - intros (z & Hz & Hx). rewrite (keyed _ k y (Some z) Hp Hin Hz). exact Hx.
  - destruct y as [y |]; cbn; [| tauto]. intros Hx. exists y. auto.
Qed.

Theorem yaml_describes d : proper d -> describes d (map_policy_definition d).
Proof.
  intros Hp. split; try reflexivity.
  - unfold map_policy_definition. cbn [p_resources]. rewrite res_names. apply sorted_increasing, sort_sorted, Hp.
  - intros n. unfold map_policy_definition. cbn [p_resources]. rewrite res_names. apply sort_keys.
  - intros r Hr. apply resource_in in Hr as (y & Hin & ->). cbn [rs_name map_resource] in *. unfold map_resource. cbn [fst snd rs_relations rs_desc].
    rewrite rel_names. split; [| split].
    + apply sorted_increasing, sort_sorted. eapply default_relations_nodup; eassumption.
    + intros y' Hin'. cbn in Hin. rewrite (keyed _ _ y' y (proj1 Hp) Hin' Hin). destruct y; reflexivity.
    + intros n. rewrite sort_keys. cbn in Hin. cbn [rs_name fst]. split.
      * intros Hn. apply in_map_iff in Hn as ([n' x] & Hq & Hn). cbn in Hq. subst n'. exists x. eapply declared_default; eassumption.
      * intros (x & Hx). apply (declared_default d _ y n x Hp Hin) in Hx. apply in_map_iff. exists (n, x). auto.
  - intros r l y Hr Hl Hd. apply resource_in in Hr as (z & Hin & He). rewrite He in Hl. unfold map_resource in Hl. cbn [rs_relations fst snd] in Hl.
    apply in_map_iff in Hl as ([k x] & <- & Hx). apply (proj1 (sort_in _ _)) in Hx. apply (declared_default d _ z _ _ Hp Hin) in Hd. cbn in Hd.
    rewrite (keyed _ k y x (default_relations_nodup d _ z Hp Hin) Hd Hx). destruct x; split; reflexivity.
Qed.

Theorem yaml_types d r l y : proper d -> In r (p_resources (map_policy_definition d)) -> In l (rs_relations r) ->
  declared_in d (rs_name r) (rl_name l) y -> exists x, rl_restr l = Some x /\ types_mean (says_types y) x.
Proof.
  intros Hp Hr Hl Hd. apply resource_in in Hr as (z & Hin & He). rewrite He in Hl. unfold map_resource in Hl. cbn [rs_relations fst snd] in Hl.
  apply in_map_iff in Hl as ([k x] & <- & Hx). apply (proj1 (sort_in _ _)) in Hx. apply (declared_default d _ z _ _ Hp Hin) in Hd. cbn in Hd.
  rewrite (keyed _ k y x (default_relations_nodup d _ z Hp Hin) Hd Hx).
  exists (map_subject_restriction (yl_types (default_rel x))). split; [reflexivity |]. apply types_ok. destruct x; reflexivity.
Qed.

(** ** The in-memory graph *)

Section Graph.
  Context {T : Type}.

  Lemma node_after (g : map_graph T) id x id' : mg_get_node id' (mg_set_node id x g) =
    if String.eqb id' id then Some x else mg_get_node id' g.
  Proof.
    unfold mg_get_node, mg_set_node. cbn [mg_nodes]. rewrite (get_set scmp scmp_ok).
    destruct (String.eqb_spec id' id) as [-> | Hn].
    - rewrite (cmp_refl scmp scmp_ok). reflexivity.
    - destruct (scmp id' id) eqn:Hc; try reflexivity. apply scmp_eq in Hc. contradiction.
  Qed.

  Lemma set_edge_some a b (g : map_graph T) : (exists g', mg_set_edge a b g = Some g') <->
    mg_get_node a g <> None /\ mg_get_node b g <> None.
  Proof.
    unfold mg_set_edge. destruct (mg_get_node a g), (mg_get_node b g); split;
      try (intros _; split; discriminate); try (intros [g' H]; discriminate H); try (intros [H1 H2]; congruence); eauto.
  Qed.

  Lemma set_edge_fwd a b (g g' : map_graph T) : mg_set_edge a b g = Some g' -> forall x y,
    (kv_get pcmp (x, y) (mg_fwd g') <> None <-> kv_get pcmp (x, y) (mg_fwd g) <> None \/ (x = a /\ y = b)) /\
    (kv_get pcmp (y, x) (mg_bwd g') <> None <-> kv_get pcmp (y, x) (mg_bwd g) <> None \/ (x = a /\ y = b)).
  Proof.
    unfold mg_set_edge. destruct (mg_get_node a g), (mg_get_node b g); try discriminate. intros [= <-] x y. cbn.
    rewrite !(get_set pcmp pcmp_ok). split.
    - destruct (pcmp (x, y) (a, b)) eqn:Hc.
      + apply (cmp_eq _ pcmp_ok) in Hc. injection Hc as -> ->. split; [auto | discriminate].
      + split; [tauto |]. intros [H | [-> ->]]; [exact H |]. rewrite (cmp_refl pcmp pcmp_ok) in Hc. discriminate.
      + split; [tauto |]. intros [H | [-> ->]]; [exact H |]. rewrite (cmp_refl pcmp pcmp_ok) in Hc. discriminate.
    - destruct (pcmp (y, x) (b, a)) eqn:Hc.
      + apply (cmp_eq _ pcmp_ok) in Hc. injection Hc as -> ->. split; [auto | discriminate].
      + split; [tauto |]. intros [H | [-> ->]]; [exact H |]. rewrite (cmp_refl pcmp pcmp_ok) in Hc. discriminate.
      + split; [tauto |]. intros [H | [-> ->]]; [exact H |]. rewrite (cmp_refl pcmp pcmp_ok) in Hc. discriminate.
  Qed.

  (** The graph after a history. *)
  Record graph_means (ops : list (graph_op T)) (g : map_graph T) : Prop := {
    gm_sorted : kv_sorted scmp (mg_nodes g) /\ kv_sorted pcmp (mg_fwd g) /\ kv_sorted pcmp (mg_bwd g);
    gm_nodes : forall id, mg_get_node id g = node_value ops id;
    gm_fwd : forall a b, kv_get pcmp (a, b) (mg_fwd g) <> None <-> edge_inserted ops a b;
    gm_bwd : forall a b, kv_get pcmp (b, a) (mg_bwd g) <> None <-> edge_inserted ops a b }.

  Lemma value_app (ops : list (graph_op T)) o id : node_value (ops ++ [o]) id =
    match o with
    | ONode id' x => if String.eqb id id' then Some x else node_value ops id
    | OEdge _ _ => node_value ops id
    end.
  Proof.
    induction ops as [| [id1 x1 | a b] ops IH]; cbn.
    - destruct o; reflexivity.
    - rewrite IH. destruct o as [id' x |]; [| reflexivity]. destruct (String.eqb id id'); [| reflexivity].
      reflexivity.
    - exact IH.
  Qed.

  Lemma inserted_app (ops : list (graph_op T)) o a b : edge_inserted (ops ++ [o]) a b <->
    edge_inserted ops a b \/ (o = OEdge a b /\ node_value ops a <> None /\ node_value ops b <> None).
  Proof.
    split.
    - intros (pre & post & He & H1 & H2). destruct post as [| p post] using rev_ind.
      + apply app_inj_tail in He as [<- <-]. right. auto.
      + clear IHpost. rewrite app_comm_cons, app_assoc in He. apply app_inj_tail in He as [-> _]. left. exists pre, post. auto.
    - intros [(pre & post & -> & H) | (-> & H)].
      + exists pre, (post ++ [o]). split; [rewrite <- app_assoc; reflexivity | exact H].
      + exists ops, []. auto.
  Qed.

  Theorem graph_after_means ops : graph_means ops (graph_after ops).
  Proof.
    unfold graph_after. induction ops as [| o ops IH] using rev_ind.
    - split; cbn; auto; intros a b; (split; [contradiction |]); intros (pre & post & H & _); destruct pre; discriminate.
    - rewrite fold_left_app. cbn [fold_left]. destruct IH as [(S1 & S2 & S3) Hn Hf Hb]. set (g := fold_left graph_step ops mg_new) in *.
      destruct o as [id x | a b].
      + cbn [graph_step]. split.
        * cbn. split; [apply sorted_set; [exact scmp_ok | exact S1] | auto].
        * intros id'. rewrite node_after, value_app, Hn. reflexivity.
        * intros a b. cbn. rewrite Hf, inserted_app. split; [auto | intros [H | [[=] _]]; exact H].
        * intros a b. cbn. rewrite Hb, inserted_app. split; [auto | intros [H | [[=] _]]; exact H].
      + cbn [graph_step]. destruct (mg_set_edge a b g) as [g' |] eqn:He.
        * assert (Hex : mg_get_node a g <> None /\ mg_get_node b g <> None) by (apply set_edge_some; eauto).
          rewrite !Hn in Hex. pose proof (set_edge_fwd _ _ _ _ He) as Hfb.
          assert (Hsame : mg_nodes g' = mg_nodes g /\ mg_fwd g' = kv_set pcmp (a, b) tt (mg_fwd g) /\ mg_bwd g' = kv_set pcmp (b, a) tt (mg_bwd g)).
          { unfold mg_set_edge in He. destruct (mg_get_node a g), (mg_get_node b g); try discriminate. injection He as <-. auto. }
          destruct Hsame as (E1 & E2 & E3). split.
          -- rewrite E1, E2, E3. split; [exact S1 |]. split; apply sorted_set; auto using pcmp_ok.
          -- intros id'. unfold mg_get_node in *. rewrite E1, value_app. apply Hn.
          -- intros x y. rewrite (proj1 (Hfb x y)), Hf, inserted_app. split.
             ++ intros [H | [-> ->]]; [auto | right; tauto].
             ++ intros [H | ([= -> ->] & _)]; auto.
          -- intros x y. rewrite (proj2 (Hfb x y)), Hb, inserted_app. split.
             ++ intros [H | [-> ->]]; [auto | right; tauto].
             ++ intros [H | ([= -> ->] & _)]; auto.
        * assert (Hno : ~ (mg_get_node a g <> None /\ mg_get_node b g <> None)).
          { intros H. apply set_edge_some in H as [g' H]. congruence. }
          rewrite !Hn in Hno. split; auto.
          -- intros id'. rewrite value_app. apply Hn.
          -- intros x y. rewrite Hf, inserted_app. split; [auto |]. intros [H | ([= -> ->] & H)]; [exact H | contradiction].
          -- intros x y. rewrite Hb, inserted_app. split; [auto |]. intros [H | ([= -> ->] & H)]; [exact H | contradiction].
  Qed.

  Lemma get_nodes_in (g : map_graph T) id es b v : kv_sorted pcmp es ->
    (In (b, v) (mg_get_nodes g id es) <-> kv_get pcmp (id, b) es <> None /\ v = mg_get_node b g).
  Proof.
    intros Hs. unfold mg_get_nodes. rewrite in_map_iff. split.
    - intros ([[x y] []] & [= <- <-] & Hin). apply filter_In in Hin as [Hin He]. cbn in He. apply String.eqb_eq in He. subst x.
      rewrite (in_get pcmp pcmp_ok _ _ _ Hs Hin). split; [discriminate | reflexivity].
    - intros [Hg ->]. destruct (kv_get pcmp (id, b) es) as [[] |] eqn:He; [| contradiction].
      exists ((id, b), tt). split; [reflexivity |]. apply filter_In. split; [apply (get_in pcmp pcmp_ok); exact He |]. apply String.eqb_refl.
  Qed.

  Lemma get_nodes_nodup (g : map_graph T) id es : kv_sorted pcmp es -> NoDup (map fst (mg_get_nodes g id es)).
  Proof.
    intros Hs. unfold mg_get_nodes. rewrite map_map. cbn. apply (sorted_nodup pcmp pcmp_ok) in Hs.
    induction es as [| [[x y] []] es IH]; cbn; [constructor |]. inversion Hs as [| ? ? H1 H2]; subst.
    destruct (String.eqb_spec x id) as [-> | Hn]; cbn; [| auto]. constructor; [| auto].
    intros Hin. apply H1. apply in_map_iff in Hin as ([[x' y'] []] & Hy & Hin). cbn in Hy. subst y'.
    apply filter_In in Hin as [Hin He]. cbn in He. apply String.eqb_eq in He. subst x'. apply in_map_iff. exists ((id, y), tt). auto.
  Qed.
End Graph.
