(** Proofs about DumpRelationships. *)
From Verif Require Import Base Domain Lexer Validate Store Search Service Dump Api SpecPolicy SpecStore SpecDump
  BaseFacts StoreFacts.

(** ** The forest *)

Section Forest.
  Context (E : env).

  (** The ids of the ends of the edges. *)
  Definition ids_of (es : list (rnode * rnode)) (L : list (string * string)) : Prop :=
    Forall2 (fun e i => node_id E (fst e) = Ok (fst i) /\ node_id E (snd e) = Ok (snd i)) es L.

  Definition kids (L : list (string * string)) (a : string) : list string :=
    map snd (filter (fun i => String.eqb (fst i) a) L).

  Definition ends (L : list (string * string)) (a : string) : Prop := exists i, In i L /\ (fst i = a \/ snd i = a).

  Definition end_node (es : list (rnode * rnode)) (x : rnode) : Prop := exists e, In e es /\ (x = fst e \/ x = snd e).

  (** The forest of the edges [es] with ids [L]. *)
  Definition forest_of (es : list (rnode * rnode)) (L : list (string * string)) (f : forest) : Prop :=
    forall a, match kv_get scmp a f with
              | Some (nd, cs) => ends L a /\ cs = kids L a /\ end_node es nd /\ node_id E nd = Ok a
              | None => ~ ends L a
              end.

  Lemma sget_set {V} (k : string) (v : V) m k0 : kv_get scmp k0 (kv_set scmp k v m) = if String.eqb k0 k then Some v else kv_get scmp k0 m.
  Proof.
    rewrite (get_set scmp scmp_ok). destruct (String.eqb_spec k0 k) as [-> | Hn].
    - rewrite (cmp_refl scmp scmp_ok). reflexivity.
    - destruct (scmp k0 k) eqn:Hc; try reflexivity. apply scmp_eq in Hc. contradiction.
  Qed.

  Lemma sget_del {V} (k : string) (m : list (string * V)) k0 : kv_get scmp k0 (kv_del scmp k m) = if String.eqb k0 k then None else kv_get scmp k0 m.
  Proof.
    rewrite (get_del scmp scmp_ok). destruct (String.eqb_spec k0 k) as [-> | Hn].
    - rewrite (cmp_refl scmp scmp_ok). reflexivity.
    - destruct (scmp k0 k) eqn:Hc; try reflexivity. apply scmp_eq in Hc. contradiction.
  Qed.

  Lemma kids_app L L' a : kids (L ++ L') a = kids L a ++ kids L' a.
  Proof. unfold kids. rewrite filter_app, map_app. reflexivity. Qed.

  Lemma kids_in L a b : In b (kids L a) <-> In (a, b) L.
  Proof.
    unfold kids. rewrite in_map_iff. split.
    - intros ([x y] & <- & Hin). apply filter_In in Hin as [Hin He]. cbn in He. apply String.eqb_eq in He as ->. exact Hin.
    - intros Hin. exists (a, b). split; [reflexivity |]. apply filter_In. split; [exact Hin |]. apply String.eqb_refl.
  Qed.

  Lemma ends_app L L' a : ends (L ++ L') a <-> ends L a \/ ends L' a.
  Proof.
    unfold ends. split.
    - intros (i & Hin & H). apply in_app_iff in Hin as [Hin | Hin]; eauto.
    - intros [(i & Hin & H) | (i & Hin & H)]; exists i; rewrite in_app_iff; auto.
  Qed.

  Lemma kids_none L a : ~ ends L a -> kids L a = [].
  Proof.
    intros H. destruct (kids L a) as [| b l] eqn:Hk; [reflexivity |]. exfalso. apply H.
    exists (a, b). split; [apply kids_in; rewrite Hk; left; reflexivity | left; reflexivity].
  Qed.

  Lemma walk_step es L f a b ia ib : forest_of es L f -> node_id E a = Ok ia -> node_id E b = Ok ib ->
    forest_of (es ++ [(a, b)]) (L ++ [(ia, ib)]) (append_child ia ib (get_tree ib b (get_tree ia a f))).
  Proof.
    intros Hf Ha Hb. set (f1 := get_tree ib b (get_tree ia a f)).
    assert (H1 : forall x, match kv_get scmp x f1 with
              | Some (nd, cs) => ends (L ++ [(ia, ib)]) x /\ cs = kids L x /\ end_node (es ++ [(a, b)]) nd /\ node_id E nd = Ok x
              | None => ~ ends (L ++ [(ia, ib)]) x
              end).
    { assert (Hend : forall x, ends [(ia, ib)] x <-> x = ia \/ x = ib).
      { intros x. split; [intros (i & [<- | []] & [<- | <-]); auto |]. intros [-> | ->]; exists (ia, ib); cbn; auto. }
      assert (Hnew : forall x nd, x = ia /\ nd = a \/ x = ib /\ nd = b -> end_node (es ++ [(a, b)]) nd /\ node_id E nd = Ok x).
      { intros x nd [[-> ->] | [-> ->]]; (split; [exists (a, b); rewrite in_app_iff; cbn; auto | assumption]). }
      assert (Hold : forall nd, end_node es nd -> end_node (es ++ [(a, b)]) nd).
      { intros nd (e & Hin & H). exists e. rewrite in_app_iff. auto. }
      assert (H2 : forall x, match kv_get scmp x (get_tree ia a f) with
              | Some (nd, cs) => (ends L x \/ x = ia) /\ cs = kids L x /\ end_node (es ++ [(a, b)]) nd /\ node_id E nd = Ok x
              | None => ~ (ends L x \/ x = ia)
              end).
      { intros x. unfold get_tree. pose proof (Hf x) as Hx. pose proof (Hf ia) as Hia. destruct (kv_get scmp ia f) as [[nd0 cs0] |] eqn:Hg.
        - destruct (kv_get scmp x f) as [[nd cs] |].
          + destruct Hx as (? & ? & ? & ?). auto.
          + intros [Hc | ->]; [contradiction |]. apply Hx, Hia.
        - rewrite sget_set. destruct (String.eqb_spec x ia) as [-> | Hn].
          + split; [auto |]. split; [symmetry; apply kids_none; exact Hia | apply Hnew; auto].
          + destruct (kv_get scmp x f) as [[nd cs] |]; [destruct Hx as (? & ? & ? & ?); auto | tauto]. }
      intros x. assert (He : ends (L ++ [(ia, ib)]) x <-> ends L x \/ x = ia \/ x = ib) by (rewrite ends_app, Hend; reflexivity).
      subst f1. unfold get_tree at 1. pose proof (H2 x) as Hx. pose proof (H2 ib) as Hib.
      destruct (kv_get scmp ib (get_tree ia a f)) as [[nd0 cs0] |] eqn:Hg.
      - destruct (kv_get scmp x (get_tree ia a f)) as [[nd cs] |].
        + destruct Hx as (Hx & ? & ? & ?). split; [apply He; tauto | auto].
        + intros Hc. apply He in Hc as [Hc | [-> | ->]]; [apply Hx; auto | apply Hx; auto |]. apply Hx, Hib.
      - rewrite sget_set. destruct (String.eqb_spec x ib) as [-> | Hn].
        + split; [apply He; auto |]. split; [symmetry; apply kids_none; intros H; apply Hib; auto | apply Hnew; auto].
        + destruct (kv_get scmp x (get_tree ia a f)) as [[nd cs] |]; [destruct Hx as (Hx & ? & ? & ?); split; [apply He; tauto | auto] | tauto]. }
    intros x. unfold append_child. pose proof (H1 ia) as Hia. destruct (kv_get scmp ia f1) as [[nd cs] |].
    - rewrite sget_set. destruct (String.eqb_spec x ia) as [-> | Hn].
      + destruct Hia as (He & -> & Hnd & Hid). split; [exact He |]. split; [| auto]. rewrite kids_app. unfold kids at 3. cbn. rewrite String.eqb_refl. reflexivity.
      + specialize (H1 x). destruct (kv_get scmp x f1) as [[nd' cs'] |]; [| exact H1]. destruct H1 as (He & -> & Hnd & Hid).
        split; [exact He |]. split; [| auto]. rewrite kids_app. unfold kids at 3. cbn.
        destruct (String.eqb_spec ia x) as [Hq | _]; [congruence |]. rewrite app_nil_r. reflexivity.
    - exfalso. apply Hia. apply ends_app. right. exists (ia, ib). cbn. auto.
  Qed.

  Lemma walk_edges_ok : forall es L, ids_of es L -> forall es0 L0 f o, forest_of es0 L0 f ->
    exists f' o', walk_edges E es f o = Ok (f', o') /\ forest_of (es0 ++ es) (L0 ++ L) f' /\
      forall x, kv_get scmp x o' = if existsb (fun i => String.eqb (snd i) x) L then None else kv_get scmp x o.
  Proof.
    induction 1 as [| [a b] [ia ib] es L [Ha Hb] H IH]; intros es0 L0 f o Hf.
    - exists f, o. rewrite !app_nil_r. auto.
    - cbn in Ha, Hb. cbn [walk_edges]. rewrite Ha, Hb. cbn [bind].
      destruct (IH _ _ _ (kv_del scmp ib o) (walk_step es0 L0 f a b ia ib Hf Ha Hb)) as (f' & o' & He & Hf' & Ho).
      exists f', o'. rewrite <- !app_assoc in Hf'. split; [exact He | split; [exact Hf' |]].
      intros x. rewrite Ho. cbn [existsb snd]. rewrite sget_del, (String.eqb_sym ib x).
      destruct (existsb (fun i => String.eqb (snd i) x) L), (String.eqb x ib); reflexivity.
  Qed.

  Lemma candidates_ok : forall es L, ids_of es L -> forall o, exists o', orphan_candidates E es o = Ok o' /\
    forall x, kv_get scmp x o' = if existsb (fun i => String.eqb (fst i) x) L then Some tt else kv_get scmp x o.
  Proof.
    induction 1 as [| [a b] [ia ib] es L [Ha Hb] H IH]; intros o.
    - exists o. auto.
    - cbn in Ha. cbn [orphan_candidates]. rewrite Ha. cbn [bind]. destruct (IH (kv_set scmp ia tt o)) as (o' & He & Ho).
      exists o'. split; [exact He |]. intros x. rewrite Ho. cbn [existsb fst]. rewrite sget_set, (String.eqb_sym ia x).
      destruct (existsb (fun i => String.eqb (fst i) x) L), (String.eqb x ia); reflexivity.
  Qed.

  Definition edge_in (L : list (string * string)) (a b : string) : Prop := In (a, b) L.

  Lemma src_in L x : existsb (fun i => String.eqb (fst i) x) L = true <-> exists y, edge_in L x y.
  Proof.
    rewrite existsb_exists. split.
    - intros ([a b] & Hin & He). cbn in He. apply String.eqb_eq in He as ->. exists b. exact Hin.
    - intros (y & H). exists (x, y). split; [exact H |]. apply String.eqb_refl.
  Qed.

  Lemma dst_in L x : existsb (fun i => String.eqb (snd i) x) L = true <-> exists y, edge_in L y x.
  Proof.
    rewrite existsb_exists. split.
    - intros ([a b] & Hin & He). cbn in He. apply String.eqb_eq in He as ->. exists a. exact Hin.
    - intros (y & H). exists (y, x). split; [exact H |]. apply String.eqb_refl.
  Qed.

  Lemma candidates_sorted es : forall o0 o, kv_sorted scmp o0 -> orphan_candidates E es o0 = Ok o -> kv_sorted scmp o.
  Proof.
    induction es as [| [a b] es IH]; intros o0 o Hs; cbn; [intros [= <-]; exact Hs |].
    destruct (node_id E a); cbn; try discriminate. apply IH. apply sorted_set; [exact scmp_ok | exact Hs].
  Qed.

  Lemma edges_sorted es : forall f0 o f o', kv_sorted scmp o -> walk_edges E es f0 o = Ok (f, o') -> kv_sorted scmp o'.
  Proof.
    induction es as [| [a b] es IH]; intros f0 o f o' Hs; cbn; [intros [= _ <-]; exact Hs |].
    destruct (node_id E a); cbn; try discriminate. destruct (node_id E b); cbn; try discriminate. apply IH. apply sorted_del; [exact scmp_ok | exact Hs].
  Qed.

  Lemma walk_ok es L : ids_of es L -> exists f roots, walk E es = Ok (f, roots) /\ forest_of es L f /\
    forall x, In x roots <-> top (edge_in L) x.
  Proof.
    intros H. destruct (candidates_ok es L H []) as (o & Ho & Hco).
    assert (H0 : forest_of [] [] []) by (intros a; cbn; intros (i & [] & _)).
    destruct (walk_edges_ok es L H [] [] [] o H0) as (f & o' & He & Hf & Ho').
    exists f, (map fst o'). unfold walk. rewrite Ho. cbn [bind]. rewrite He. cbn [bind fst snd]. split; [reflexivity |]. split; [exact Hf |].
    assert (Hin : forall x, In x (map fst o') <-> kv_get scmp x o' <> None).
    { assert (Hs : kv_sorted scmp o').
      { eapply edges_sorted; [exact (candidates_sorted es [] o I Ho) | exact He]. }
      intros x. split.
      - intros Hx. apply in_map_iff in Hx as ([k []] & Hq & Hx). cbn in Hq. subst k. rewrite (in_get scmp scmp_ok _ _ _ Hs Hx). discriminate.
      - intros Hx. destruct (kv_get scmp x o') as [[] |] eqn:Hg; [| contradiction]. apply in_map_iff. exists (x, tt). split; [reflexivity |]. apply (get_in scmp scmp_ok). exact Hg. }
    intros x. rewrite Hin, Ho', Hco. unfold top. rewrite <- src_in.
    destruct (existsb (fun i => String.eqb (snd i) x) L) eqn:Hd.
    - split; [contradiction |]. intros [_ Hn]. apply dst_in in Hd as (y & Hy). exfalso. exact (Hn y Hy).
    - assert (Hn : forall y, ~ edge_in L y x).
      { intros y Hy. assert (Ht : existsb (fun i => String.eqb (snd i) x) L = true) by (apply dst_in; eauto). congruence. }
      cbn. destruct (existsb (fun i => String.eqb (fst i) x) L); [split; [auto | discriminate] |]. split; [contradiction | intros [[=] _]].
  Qed.

  (** ** Depth of the traversal *)

  (** Chains of edges from [a] with [k] steps. *)
  Inductive chain (L : list (string * string)) : string -> nat -> Prop :=
  | ch_nil a : chain L a 0
  | ch_cons a b k : edge_in L a b -> chain L b k -> chain L a (S k).

  Definition below (L : list (string * string)) (a b : string) : Prop := a = b \/ leads (edge_in L) a b.

  Record subtree (L : list (string * string)) (es : list (rnode * rnode)) (p : option string) (id : string) (l : list dot_stmt) : Prop := {
    sb_edge : forall x y, In (DotEdge x y) l <-> (x = p /\ y = Some id) \/ exists a b, x = Some a /\ y = Some b /\ edge_in L a b /\ below L id a;
    sb_node : forall x, (exists nd, In (DotNode x nd) l) <-> exists a, x = Some a /\ below L id a;
    sb_label : forall x nd, In (DotNode x nd) l -> exists n i, nd = Some n /\ x = Some i /\ end_node es n /\ node_id E n = Ok i }.

  Lemma map_res_forall2 {A B} (f : A -> res B) (P : A -> B -> Prop) l : (forall a, In a l -> exists b, f a = Ok b /\ P a b) ->
    exists bs, map_res f l = Ok bs /\ Forall2 P l bs.
  Proof.
    induction l as [| a l IH]; intros H; [exists []; auto |]. destruct (H a) as (b & Hb & Pb); [left; reflexivity |].
    destruct IH as (bs & Hbs & Pbs); [intros x Hx; apply H; right; exact Hx |]. exists (b :: bs). cbn. rewrite Hb. cbn. rewrite Hbs. cbn. auto.
  Qed.

  Lemma concat_in {A B} (P : A -> list B -> Prop) l ls x : Forall2 P l ls ->
    (In x (concat ls) -> exists a bs, In a l /\ P a bs /\ In x bs) /\
    (forall a, In a l -> exists bs, P a bs /\ (In x bs -> In x (concat ls))).
  Proof.
    induction 1 as [| a bs l ls Hp H IH]; cbn; [split; [tauto | tauto] |]. destruct IH as [IH1 IH2]. split.
    - intros Hin. apply in_app_iff in Hin as [Hin | Hin]; [exists a, bs; auto |]. destruct (IH1 Hin) as (a' & bs' & H1 & H2 & H3). exists a', bs'. auto.
    - intros a' [<- | Hin]; [exists bs; rewrite in_app_iff; auto |]. destruct (IH2 a' Hin) as (bs' & H1 & H2). exists bs'. rewrite in_app_iff. auto.
  Qed.

  Lemma below_cons L id a : below L id a <-> id = a \/ exists c, edge_in L id c /\ below L c a.
  Proof.
    unfold below. split.
    - intros [H | H]; [auto |]. right. destruct H as [x y H | x y z H H']; eauto.
    - intros [H | (c & H & [-> | H'])]; [auto | right; constructor; exact H | right; econstructor; eassumption].
  Qed.

  Lemma handle_ok es L f : forest_of es L f -> forall n p id, ends L id -> (forall k, chain L id k -> k < n) ->
    exists l, handle_node n f p id = Ok l /\ subtree L es p id l.
  Proof.
    intros Hf. induction n as [| n IH]; intros p id He Hn; [exfalso; specialize (Hn 0 (ch_nil L id)); inversion Hn |].
    cbn [handle_node]. specialize (Hf id). destruct (kv_get scmp id f) as [[nd cs] |]; [| contradiction].
    destruct Hf as (_ & -> & Hnd & Hid).
    destruct (map_res_forall2 (handle_node n f (Some id)) (subtree L es (Some id)) (kids L id)) as (bs & Hbs & Pbs).
    { intros c Hc. apply kids_in in Hc. apply IH; [exists (id, c); auto |]. intros k Hk. specialize (Hn (S k) (ch_cons L id c k Hc Hk)). apply PeanoNat.Nat.succ_lt_mono. exact Hn. }
    rewrite Hbs. cbn [bind]. eexists. split; [reflexivity |]. split.
    - intros x y. cbn [In]. split.
      + intros [Hd | [[= <- <-] | Hin]]; [discriminate | auto |]. right.
        apply (proj1 (concat_in _ _ _ _ Pbs)) in Hin as (c & b & Hc & Hb & Hin). apply kids_in in Hc.
        apply (sb_edge _ _ _ _ _ Hb) in Hin as [[-> ->] | (u & v & -> & -> & Huv & Hbl)].
        * exists id, c. repeat split; auto. left. reflexivity.
        * exists u, v. repeat split; auto. apply below_cons. right. exists c. auto.
      + intros [[-> ->] | (u & v & -> & -> & Huv & Hbl)]; [auto |]. right. right. apply below_cons in Hbl as [-> | (c & Hc & Hbl)].
        * destruct (proj2 (concat_in _ _ _ (DotEdge (Some u) (Some v)) Pbs) v) as (b & Hb & Hin); [apply kids_in; exact Huv |].
          apply Hin, (sb_edge _ _ _ _ _ Hb). auto.
        * destruct (proj2 (concat_in _ _ _ (DotEdge (Some u) (Some v)) Pbs) c) as (b & Hb & Hin); [apply kids_in; exact Hc |].
          apply Hin, (sb_edge _ _ _ _ _ Hb). right. exists u, v. auto.
    - intros x. cbn [In]. split.
      + intros (nd' & [[= <- <-] | [Hd | Hin]]); [exists id; split; [reflexivity | left; reflexivity] | discriminate |].
        apply (proj1 (concat_in _ _ _ _ Pbs)) in Hin as (c & b & Hc & Hb & Hin). apply kids_in in Hc.
        assert (Hx : exists nd, In (DotNode x nd) b) by eauto. apply (sb_node _ _ _ _ _ Hb) in Hx as (a & -> & Ha).
        exists a. split; [reflexivity |]. apply below_cons. eauto.
      + intros (a & -> & Ha). apply below_cons in Ha as [<- | (c & Hc & Ha)]; [exists (Some nd); auto |].
        apply kids_in in Hc. 
        assert (Hex : exists b nd', subtree L es (Some id) c b /\ In (DotNode (Some a) nd') b /\ In (DotNode (Some a) nd') (concat bs)).
        { clear - Pbs Hc Ha. induction Pbs as [| c0 b0 l ls Hp H IHP]; [contradiction |]. destruct Hc as [<- | Hc].
          - destruct (proj2 (sb_node _ _ _ _ _ Hp (Some a))) as (nd' & Hin); [eauto |]. exists b0, nd'. cbn. rewrite in_app_iff. auto.
          - destruct (IHP Hc) as (b & nd' & H1 & H2 & H3). exists b, nd'. cbn. rewrite in_app_iff. auto. }
        destruct Hex as (b & nd' & _ & _ & H3). exists nd'. auto.
    - intros x nd'. cbn [In]. intros [[= <- <-] | [Hd | Hin]]; [exists nd, id; auto | discriminate |].
      apply (proj1 (concat_in _ _ _ _ Pbs)) in Hin as (c & b & Hc & Hb & Hin). exact (sb_label _ _ _ _ _ Hb _ _ Hin).
  Qed.

  Lemma map_res_in {A B} (f : A -> res B) l bs a : map_res f l = Ok bs -> In a l -> exists b, f a = Ok b.
  Proof.
    revert bs. induction l as [| x l IH]; intros bs H Hin; [contradiction |]. cbn in H. destruct (f x) as [b | | |] eqn:Hx; try discriminate. cbn in H.
    destruct (map_res f l) as [bs' | | |] eqn:Hl; try discriminate. destruct Hin as [<- | Hin]; eauto.
  Qed.

  (** A finished traversal was deeper than every chain. *)
  Lemma handle_deep es L f : forest_of es L f -> forall k id, chain L id k -> forall n p l, handle_node n f p id = Ok l -> k < n.
  Proof.
    intros Hf. induction 1 as [a | a b k Hab Hc IH]; intros n p l H; (destruct n as [| n]; [discriminate |]); [apply PeanoNat.Nat.lt_0_succ |].
    cbn [handle_node] in H. specialize (Hf a). destruct (kv_get scmp a f) as [[nd cs] |]; [| discriminate]. destruct Hf as (_ & -> & _).
    destruct (map_res (handle_node n f (Some a)) (kids L a)) as [bs | | |] eqn:Hm; try discriminate.
    destruct (map_res_in _ _ _ b Hm) as (l' & Hl); [apply kids_in; exact Hab |]. apply (proj1 (PeanoNat.Nat.succ_lt_mono k n)). eapply IH. exact Hl.
  Qed.

  (** ** Acyclic relations *)

  Inductive trail (L : list (string * string)) : string -> list (string * string) -> string -> Prop :=
  | tr_nil a : trail L a [] a
  | tr_cons a b p c : edge_in L a b -> trail L b p c -> trail L a ((a, b) :: p) c.

  Lemma chain_trail L a k : chain L a k -> exists p b, trail L a p b /\ length p = k.
  Proof.
    induction 1 as [a | a b k H Hc (p & c & Ht & Hl)]; [exists [], a; split; [constructor | reflexivity] |].
    exists ((a, b) :: p), c. split; [constructor; assumption | cbn; congruence].
  Qed.

  Lemma trail_leads L a p b x y : trail L a p b -> In (x, y) p -> a = x \/ leads (edge_in L) a x.
  Proof.
    intros Ht. induction Ht as [a | a b p c H Ht IH]; [contradiction |]. intros [[= -> ->] | Hin]; [auto |]. right.
    destruct (IH Hin) as [-> | Hl]; [constructor; exact H | econstructor; eassumption].
  Qed.

  Lemma trail_nodup L a p b : acyclic (edge_in L) -> trail L a p b -> NoDup p /\ incl p L.
  Proof.
    intros Ha. induction 1 as [a | a b p c H Ht [IH1 IH2]]; [split; [constructor | intros x []] |]. split.
    - constructor; [| exact IH1]. intros Hin. apply (trail_leads L b p c a b Ht) in Hin as [-> | Hl].
      + apply (Ha a). constructor. exact H.
      + apply (Ha a). econstructor; eassumption.
    - intros x [<- | Hx]; [exact H | apply IH2, Hx].
  Qed.

  Lemma acyclic_bound L a k : acyclic (edge_in L) -> chain L a k -> k <= length L.
  Proof.
    intros Ha Hc. apply chain_trail in Hc as (p & b & Ht & <-). apply (trail_nodup L a p b Ha) in Ht as [Hn Hi]. apply NoDup_incl_length; assumption.
  Qed.

  Lemma below_snoc L a b c : below L a b -> edge_in L b c -> below L a c.
  Proof.
    intros [-> | H] Hb; right; [constructor; exact Hb |]. induction H as [a b H | a b c' H _ IH]; [apply (le_step _ a b c H); constructor; exact Hb | apply (le_step _ a b c H), IH, Hb].
  Qed.

  Lemma acyclic_top L a b : acyclic (edge_in L) -> edge_in L a b -> exists t, top (edge_in L) t /\ below L t a.
  Proof.
    intros Ha Hab.
    assert (G : forall m x k, below L x a -> (exists y, edge_in L x y) -> chain L x k -> k + m = S (length L) -> exists t, top (edge_in L) t /\ below L t a).
    { induction m as [| m IH]; intros x k Hx Hy Hk Hm.
      - apply (acyclic_bound L x k Ha) in Hk. rewrite <- plus_n_O in Hm. subst k. exfalso. exact (PeanoNat.Nat.nle_succ_diag_l _ Hk).
      - destruct (existsb (fun i => String.eqb (snd i) x) L) eqn:Hd.
        + apply dst_in in Hd as (y & Hyx). apply (IH y (S k)); [| eauto | econstructor; eassumption | rewrite <- Hm; cbn; apply plus_n_Sm].
          destruct Hx as [-> | Hx]; right; [constructor; exact Hyx | econstructor; eassumption].
        + exists x. split; [| exact Hx]. split; [exact Hy |]. intros y Hyx.
          assert (Ht : existsb (fun i => String.eqb (snd i) x) L = true) by (apply dst_in; eauto). congruence. }
    apply (G (S (length L)) a 0); [left; reflexivity | eauto | constructor | reflexivity].
  Qed.

  (** ** The dump *)

  Lemma dump_acyclic es L n : ids_of es L -> acyclic (edge_in L) -> length L < n ->
    exists x l, walk E es = Ok x /\ dump_dot n x = Ok l /\ shows (edge_in L) l /\
      forall a nd, In (DotNode a nd) l -> (a = None /\ nd = None) \/
        exists x i, nd = Some x /\ a = Some i /\ end_node es x /\ node_id E x = Ok i.
  Proof.
    intros Hi Ha Hn. destruct (walk_ok es L Hi) as (f & roots & Hw & Hf & Hr). exists (f, roots).
    unfold dump_dot. cbn [fst snd].
    destruct (map_res_forall2 (handle_node n f None) (subtree L es None) roots) as (bs & Hbs & Pbs).
    { intros r Hin. apply Hr in Hin as [(y & Hy) _]. apply (handle_ok es L f Hf); [exists (r, y); auto |].
      intros k Hk. apply (acyclic_bound L r k Ha) in Hk. eapply PeanoNat.Nat.le_lt_trans; eassumption. }
    rewrite Hbs. cbn [bind]. eexists. split; [exact Hw |]. split; [reflexivity |].
    assert (Hnode : forall a, (exists t, In t roots /\ below L t a) -> exists nd, In (DotNode (Some a) nd) (concat bs)).
    { intros a (t & Ht & Hta). clear - Pbs Ht Hta. induction Pbs as [| c0 b0 l ls Hp H IHP]; [contradiction |]. destruct Ht as [<- | Ht].
      - destruct (proj2 (sb_node _ _ _ _ _ Hp (Some a))) as (nd' & Hin); [eauto |]. exists nd'. cbn. rewrite in_app_iff. auto.
      - destruct (IHP Ht) as (nd' & Hin). exists nd'. cbn. rewrite in_app_iff. auto. }
    split.
    - split.
      + intros a b. cbn [In]. split.
        * intros [Hd | Hin]; [discriminate |]. apply (proj1 (concat_in _ _ _ _ Pbs)) in Hin as (r & l & Hin & Hl & Hin').
          apply (sb_edge _ _ _ _ _ Hl) in Hin' as [[Hd _] | (u & v & [= <-] & [= <-] & Huv & _)]; [discriminate | exact Huv].
        * intros Hab. right. destruct (acyclic_top L a b Ha Hab) as (t & Ht & Hta).
          destruct (proj2 (concat_in _ _ _ (DotEdge (Some a) (Some b)) Pbs) t) as (l & Hl & Hin); [apply Hr, Ht |].
          apply Hin, (sb_edge _ _ _ _ _ Hl). right. exists a, b. auto.
      + intros b. cbn [In]. split.
        * intros [Hd | Hin]; [discriminate |]. apply (proj1 (concat_in _ _ _ _ Pbs)) in Hin as (r & l & Hin & Hl & Hin').
          apply (sb_edge _ _ _ _ _ Hl) in Hin' as [[_ [= ->]] | (u & v & Hd & _)]; [apply Hr, Hin | discriminate].
        * intros Ht. right. destruct (proj2 (concat_in _ _ _ (DotEdge None (Some b)) Pbs) b) as (l & Hl & Hin); [apply Hr, Ht |].
          apply Hin, (sb_edge _ _ _ _ _ Hl). auto.
      + intros x. cbn [In]. intros [Hd | Hin]; [discriminate |]. apply (proj1 (concat_in _ _ _ _ Pbs)) in Hin as (r & l & Hin & Hl & Hin').
        apply (sb_edge _ _ _ _ _ Hl) in Hin' as [[_ Hd] | (u & v & _ & Hd & _)]; discriminate.
      + intros a. cbn [In]. split.
        * intros (nd & [Hd | Hin]); [discriminate |]. apply (proj1 (concat_in _ _ _ _ Pbs)) in Hin as (r & l & Hin & Hl & Hin').
          assert (Hx : exists nd, In (DotNode (Some a) nd) l) by eauto. apply (sb_node _ _ _ _ _ Hl) in Hx as (a' & [= <-] & Hb).
          apply Hr in Hin as [(y & Hy) _]. destruct Hb as [-> | Hb]; [eauto |].
          clear - Hb. induction Hb as [u v H | u v w H _ IH]; [exists u; auto | exact IH].
        * assert (Hup : forall x y, edge_in L x y -> exists t, In t roots /\ below L t x).
          { intros x y Hxy. destruct (acyclic_top L x y Ha Hxy) as (t & Ht & Htx). exists t. split; [apply Hr, Ht | exact Htx]. }
          intros (b & [Hab | Hba]).
          -- destruct (Hnode a (Hup a b Hab)) as (nd & Hin). eauto.
          -- destruct (Hup b a Hba) as (t & Ht & Htb). destruct (Hnode a) as (nd & Hin); [| eauto]. exists t. split; [exact Ht | eapply below_snoc; eassumption].
    - intros a nd. cbn [In]. intros [[= <- <-] | Hin]; [auto |]. right.
      apply (proj1 (concat_in _ _ _ _ Pbs)) in Hin as (r & l & Hin & Hl & Hin'). exact (sb_label _ _ _ _ _ Hl _ _ Hin').
  Qed.

  Lemma chain_le L a k : chain L a k -> forall j, j <= k -> chain L a j.
  Proof.
    induction 1 as [a | a b k H Hc IH]; intros j Hj.
    - apply PeanoNat.Nat.le_0_r in Hj. subst j. constructor.
    - destruct j as [| j]; [constructor |]. econstructor; [exact H |]. apply IH. apply le_S_n. exact Hj.
  Qed.

  Lemma chain_leads L a b k : leads (edge_in L) a b -> chain L b k -> chain L a (S k).
  Proof.
    intros Hl. revert k. induction Hl as [x y H | x y z H _ IH]; intros k Hc; [econstructor; eassumption |].
    econstructor; [exact H |]. apply (chain_le L y (S k)); [apply IH; exact Hc |]. apply le_S, le_n.
  Qed.

  Lemma cycle_chain L a : leads (edge_in L) a a -> forall k, chain L a k.
  Proof. intros H. induction k as [| k IH]; [constructor |]. eapply chain_leads; eassumption. Qed.

  Lemma leads_trans (R : string -> string -> Prop) a b c : leads R a b -> leads R b c -> leads R a c.
  Proof. intros H. revert c. induction H as [a b H | a b d H _ IH]; intros c Hc; [exact (le_step _ a b c H Hc) | exact (le_step _ a b c H (IH c Hc))]. Qed.

  (** A finished dump shows nothing of a cycle. *)
  Lemma dump_cycle es L n x l c : ids_of es L -> walk E es = Ok x -> dump_dot n x = Ok l -> leads (edge_in L) c c ->
    forall b, ~ In (DotEdge (Some c) (Some b)) l.
  Proof.
    intros Hi Hw Hd Hc b Hin. destruct (walk_ok es L Hi) as (f & roots & Hw' & Hf & Hr). rewrite Hw in Hw'. injection Hw' as ->.
    unfold dump_dot in Hd. cbn [fst snd] in Hd. destruct (map_res (handle_node n f None) roots) as [bs | | |] eqn:Hm; try discriminate.
    cbn in Hd. injection Hd as <-. destruct Hin as [Hin | Hin]; [discriminate |].
    assert (Hall : forall r l0, In r roots -> handle_node n f None r = Ok l0 -> ~ (r = c \/ leads (edge_in L) r c)).
    { intros r l0 _ Hl0 Hrc.
      assert (Hch : chain L r n) by (destruct Hrc as [-> | Hrc]; [apply cycle_chain; exact Hc | apply (chain_le L r (S n)); [eapply chain_leads; [exact Hrc | apply cycle_chain; exact Hc] | apply le_S, le_n]]).
      pose proof (handle_deep es L f Hf _ _ Hch _ _ _ Hl0) as Hlt. exact (PeanoNat.Nat.lt_irrefl _ Hlt). }
    assert (Hsub : exists r l0, In r roots /\ handle_node n f None r = Ok l0 /\ In (DotEdge (Some c) (Some b)) l0).
    { clear - Hm Hin. revert bs Hm Hin. induction roots as [| r roots IH]; intros bs Hm Hin; cbn in Hm; [injection Hm as <-; contradiction |].
      destruct (handle_node n f None r) as [l0 | | |] eqn:Hl; try discriminate. cbn in Hm. destruct (map_res (handle_node n f None) roots) as [bs' | | |]; try discriminate.
      cbn in Hm. injection Hm as <-. cbn in Hin. apply in_app_iff in Hin as [Hin | Hin]; [exists r, l0; cbn; auto |].
      destruct (IH bs' eq_refl Hin) as (r' & l' & H1 & H2 & H3). exists r', l'. cbn. auto. }
    destruct Hsub as (r & l0 & Hir & Hl0 & Hin0). apply (Hall r l0 Hir Hl0).
    assert (Hb : forall n p id l0, handle_node n f p id = Ok l0 -> In (DotEdge (Some c) (Some b)) l0 -> (p = Some c /\ id = b) \/ id = c \/ leads (edge_in L) id c).
    { clear - Hf. induction n as [| n IH]; intros p id l0 H Hin; [discriminate |]. cbn [handle_node] in H. specialize (Hf id).
      destruct (kv_get scmp id f) as [[nd cs] |]; [| discriminate]. destruct Hf as (_ & -> & _).
      destruct (map_res (handle_node n f (Some id)) (kids L id)) as [bs | | |] eqn:Hm; try discriminate. cbn in H. injection H as <-.
      destruct Hin as [Hin | [[= -> ->] | Hin]]; [discriminate | auto |]. right.
      assert (Hs : forall ks bs, map_res (handle_node n f (Some id)) ks = Ok bs -> In (DotEdge (Some c) (Some b)) (concat bs) -> (forall k, In k ks -> edge_in L id k) -> id = c \/ leads (edge_in L) id c).
      { clear Hm Hin bs. induction ks as [| k ks IHk]; intros bs Hm Hin Hks; cbn in Hm; [injection Hm as <-; contradiction |].
        destruct (handle_node n f (Some id) k) as [l1 | | |] eqn:Hl; try discriminate. cbn in Hm.
        destruct (map_res (handle_node n f (Some id)) ks) as [bs' | | |]; try discriminate. cbn in Hm. injection Hm as <-. cbn in Hin.
        apply in_app_iff in Hin as [Hin | Hin]; [| apply (IHk bs' eq_refl Hin); intros k' Hk'; apply Hks; right; exact Hk'].
        assert (Hik : edge_in L id k) by (apply Hks; left; reflexivity).
        destruct (IH _ _ _ Hl Hin) as [[[= ->] _] | [-> | Hlc]]; [auto | right; constructor; exact Hik | right; econstructor; eassumption]. }
      eapply Hs; [exact Hm | exact Hin |]. intros k Hk. apply kids_in, Hk. }
    destruct (Hb _ _ _ _ Hl0 Hin0) as [[Hd _] | H]; [discriminate | exact H].
  Qed.

  (** A cycle below a top node is never left. *)
  Lemma dump_diverges es L n x t c : ids_of es L -> walk E es = Ok x -> top (edge_in L) t -> leads (edge_in L) t c -> leads (edge_in L) c c ->
    forall l, dump_dot n x <> Ok l.
  Proof.
    intros Hi Hw Ht Htc Hc l Hd. destruct (walk_ok es L Hi) as (f & roots & Hw' & Hf & Hr). rewrite Hw in Hw'. injection Hw' as ->.
    unfold dump_dot in Hd. cbn [fst snd] in Hd. destruct (map_res (handle_node n f None) roots) as [bs | | |] eqn:Hm; try discriminate.
    destruct (map_res_in _ _ _ t Hm) as (l0 & Hl0); [apply Hr, Ht |].
    assert (Hch : chain L t n) by (apply (chain_le L t (S n)); [eapply chain_leads; [exact Htc | apply cycle_chain; exact Hc] | apply le_S, le_n]).
    pose proof (handle_deep es L f Hf _ _ Hch _ _ _ Hl0) as Hlt. exact (PeanoNat.Nat.lt_irrefl _ Hlt).
  Qed.

  (** Labels belong to the nodes, with and without cycles. *)
  Lemma handle_labels es L f : forest_of es L f -> forall n p id l, handle_node n f p id = Ok l ->
    forall a nd, In (DotNode a nd) l -> exists x i, nd = Some x /\ a = Some i /\ end_node es x /\ node_id E x = Ok i.
  Proof.
    intros Hf. induction n as [| n IH]; intros p id l H a nd Hin; [discriminate |]. cbn [handle_node] in H. pose proof (Hf id) as Hid.
    destruct (kv_get scmp id f) as [[y cs] |]; [| discriminate]. destruct Hid as (_ & _ & He & Hid).
    destruct (map_res (handle_node n f (Some id)) cs) as [bs | | |] eqn:Hm; try discriminate. cbn in H. injection H as <-.
    destruct Hin as [[= <- <-] | [Hin | Hin]]; [exists y, id; auto | discriminate |].
    clear He Hid. revert bs Hm Hin. induction cs as [| k ks IHk]; intros bs Hm Hin; cbn in Hm; [injection Hm as <-; contradiction |].
    destruct (handle_node n f (Some id) k) as [l1 | | |] eqn:Hl; try discriminate. cbn in Hm.
    destruct (map_res (handle_node n f (Some id)) ks) as [bs' | | |]; try discriminate. cbn in Hm. injection Hm as <-. cbn in Hin.
    apply in_app_iff in Hin as [Hin | Hin]; [eapply IH; eauto | eapply IHk; eauto].
  Qed.

  Lemma dump_labels es L n x l : ids_of es L -> walk E es = Ok x -> dump_dot n x = Ok l ->
    forall a nd, In (DotNode a nd) l -> (a = None /\ nd = None) \/
      exists y i, nd = Some y /\ a = Some i /\ end_node es y /\ node_id E y = Ok i.
  Proof.
    intros Hi Hw Hd a nd Hin. destruct (walk_ok es L Hi) as (f & roots & Hw' & Hf & _). rewrite Hw in Hw'. injection Hw' as ->.
    unfold dump_dot in Hd. cbn [fst snd] in Hd. destruct (map_res (handle_node n f None) roots) as [bs | | |] eqn:Hm; try discriminate.
    cbn in Hd. injection Hd as <-. destruct Hin as [[= <- <-] | Hin]; [auto |]. right. clear Hw.
    revert bs Hm Hin. induction roots as [| k ks IHk]; intros bs Hm Hin; cbn in Hm; [injection Hm as <-; contradiction |].
    destruct (handle_node n f None k) as [l1 | | |] eqn:Hl; try discriminate. cbn in Hm.
    destruct (map_res (handle_node n f None) ks) as [bs' | | |]; try discriminate. cbn in Hm. injection Hm as <-. cbn in Hin.
    apply in_app_iff in Hin as [Hin | Hin]; [eapply handle_labels; eauto | eapply IHk; eauto].
  Qed.

  Lemma handle_no_panic es L f : forest_of es L f -> forall n p id, ends L id -> (exists l, handle_node n f p id = Ok l) \/ handle_node n f p id = Fuel.
  Proof.
    intros Hf. induction n as [| n IH]; intros p id He; [right; reflexivity |]. cbn [handle_node]. specialize (Hf id).
    destruct (kv_get scmp id f) as [[nd cs] |]; [| contradiction]. destruct Hf as (_ & -> & _).
    assert (Hm : (exists bs, map_res (handle_node n f (Some id)) (kids L id) = Ok bs) \/ map_res (handle_node n f (Some id)) (kids L id) = Fuel).
    { assert (Hk : forall k, In k (kids L id) -> ends L k) by (intros k Hk; apply kids_in in Hk; exists (id, k); auto).
      induction (kids L id) as [| k ks IHk]; [left; exists []; reflexivity |]. cbn.
      destruct (IH (Some id) k) as [[l ->] | ->]; [apply Hk; left; reflexivity | | right; reflexivity]. cbn.
      destruct IHk as [[bs ->] | ->]; [intros k' Hk'; apply Hk; right; exact Hk' | left; eexists; reflexivity | right; reflexivity]. }
    destruct Hm as [[bs ->] | ->]; [left; eexists; reflexivity | right; reflexivity].
  Qed.

  Lemma dump_no_panic es L n x : ids_of es L -> walk E es = Ok x -> (exists l, dump_dot n x = Ok l) \/ dump_dot n x = Fuel.
  Proof.
    intros Hi Hw. destruct (walk_ok es L Hi) as (f & roots & Hw' & Hf & Hr). rewrite Hw in Hw'. injection Hw' as ->.
    unfold dump_dot. cbn [fst snd].
    assert (He : forall r, In r roots -> ends L r) by (intros r Hin; apply Hr in Hin as [(y & Hy) _]; exists (r, y); auto).
    assert (Hm : (exists bs, map_res (handle_node n f None) roots = Ok bs) \/ map_res (handle_node n f None) roots = Fuel).
    { clear - Hf He. induction roots as [| k ks IHk]; [left; exists []; reflexivity |]. cbn.
      destruct (handle_no_panic es L f Hf n None k) as [[l ->] | ->]; [apply He; left; reflexivity | | right; reflexivity]. cbn.
      destruct IHk as [[bs ->] | ->]; [intros k' Hk'; apply He; right; exact Hk' | left; eexists; reflexivity | right; reflexivity]. }
    destruct Hm as [[bs ->] | ->]; [left; eexists; reflexivity | right; reflexivity].
  Qed.
  (** ** Every finished dump *)

  Lemma map_res_all {A B} (f : A -> res B) l bs : map_res f l = Ok bs -> Forall2 (fun a b => f a = Ok b) l bs.
  Proof.
    revert bs. induction l as [| a l IH]; intros bs H; cbn in H; [injection H as <-; constructor |].
    destruct (f a) as [b | | |] eqn:Hb; try discriminate. cbn in H. destruct (map_res f l) as [bs' | | |]; try discriminate.
    cbn in H. injection H as <-. constructor; [exact Hb | apply IH; reflexivity].
  Qed.

  (** A finished traversal shows the whole subtree. *)
  Lemma handle_subtree es L f n p id l : forest_of es L f -> ends L id -> handle_node n f p id = Ok l -> subtree L es p id l.
  Proof.
    intros Hf He H. destruct (handle_ok es L f Hf n p id He) as (l' & Hl & Hs).
    - intros k Hk. exact (handle_deep es L f Hf k id Hk n p l H).
    - rewrite H in Hl. injection Hl as <-. exact Hs.
  Qed.

  Lemma dump_shows es L n x l : ids_of es L -> walk E es = Ok x -> dump_dot n x = Ok l -> shows_tops (edge_in L) l.
  Proof.
    intros Hi Hw Hd. destruct (walk_ok es L Hi) as (f & roots & Hw' & Hf & Hr). rewrite Hw in Hw'. injection Hw' as ->.
    unfold dump_dot in Hd. cbn [fst snd] in Hd. destruct (map_res (handle_node n f None) roots) as [bs | | |] eqn:Hm; try discriminate.
    cbn in Hd. injection Hd as <-.
    assert (Pbs : Forall2 (subtree L es None) roots bs).
    { apply map_res_all in Hm. assert (He : forall r, In r roots -> ends L r) by (intros r Hin; apply Hr in Hin as [(y & Hy) _]; exists (r, y); auto).
      clear - Hf Hm He. induction Hm as [| r b rs bs Hb _ IH]; [constructor |]. constructor.
      - apply (handle_subtree es L f n None r b Hf); [apply He; left; reflexivity | exact Hb].
      - apply IH. intros r' Hr'. apply He. right. exact Hr'. }
    assert (Hnode : forall a, (exists t, In t roots /\ below L t a) -> exists nd, In (DotNode (Some a) nd) (concat bs)).
    { intros a (t & Ht & Hta). clear - Pbs Ht Hta. induction Pbs as [| c0 b0 l ls Hp H IHP]; [contradiction |]. destruct Ht as [<- | Ht].
      - destruct (proj2 (sb_node _ _ _ _ _ Hp (Some a))) as (nd' & Hin); [eauto |]. exists nd'. cbn. rewrite in_app_iff. auto.
      - destruct (IHP Ht) as (nd' & Hin). exists nd'. cbn. rewrite in_app_iff. auto. }
    split.
    - intros a b. cbn [In]. split.
      + intros [Hd | Hin]; [discriminate |]. apply (proj1 (concat_in _ _ _ _ Pbs)) in Hin as (r & l & Hin & Hl & Hin').
        apply (sb_edge _ _ _ _ _ Hl) in Hin' as [[Hd _] | (u & v & [= <-] & [= <-] & Huv & Hb)]; [discriminate |].
        split; [exact Huv |]. exists r. split; [apply Hr, Hin | exact Hb].
      + intros [Hab (t & Ht & Hta)]. right.
        destruct (proj2 (concat_in _ _ _ (DotEdge (Some a) (Some b)) Pbs) t) as (l & Hl & Hin); [apply Hr, Ht |].
        apply Hin, (sb_edge _ _ _ _ _ Hl). right. exists a, b. auto.
    - intros b. cbn [In]. split.
      + intros [Hd | Hin]; [discriminate |]. apply (proj1 (concat_in _ _ _ _ Pbs)) in Hin as (r & l & Hin & Hl & Hin').
        apply (sb_edge _ _ _ _ _ Hl) in Hin' as [[_ [= ->]] | (u & v & Hd & _)]; [apply Hr, Hin | discriminate].
      + intros Ht. right. destruct (proj2 (concat_in _ _ _ (DotEdge None (Some b)) Pbs) b) as (l & Hl & Hin); [apply Hr, Ht |].
        apply Hin, (sb_edge _ _ _ _ _ Hl). auto.
    - intros x. cbn [In]. intros [Hd | Hin]; [discriminate |]. apply (proj1 (concat_in _ _ _ _ Pbs)) in Hin as (r & l & Hin & Hl & Hin').
      apply (sb_edge _ _ _ _ _ Hl) in Hin' as [[_ Hd] | (u & v & _ & Hd & _)]; discriminate.
    - intros a. cbn [In]. split.
      + intros (nd & [Hd | Hin]); [discriminate |]. apply (proj1 (concat_in _ _ _ _ Pbs)) in Hin as (r & l & Hin & Hl & Hin').
        assert (Hx : exists nd, In (DotNode (Some a) nd) l) by eauto. apply (sb_node _ _ _ _ _ Hl) in Hx as (a' & [= <-] & Hb).
        exists r. split; [apply Hr, Hin | exact Hb].
      + intros (t & Ht & Hta). destruct (Hnode a) as (nd & Hin); [exists t; split; [apply Hr, Ht | exact Hta] | eauto].
  Qed.

  (** Trails from a node without a cycle below it. *)
  Lemma trail_below L a p b : (forall c, below L a c -> ~ leads (edge_in L) c c) -> trail L a p b -> NoDup p /\ incl p L.
  Proof.
    intros Ha Ht. revert Ha. induction Ht as [a | a b p c H Ht IH]; intros Ha; [split; [constructor | intros x []] |].
    assert (Hb : forall c, below L b c -> ~ leads (edge_in L) c c) by (intros d Hd; apply Ha, below_cons; eauto).
    destruct (IH Hb) as [IH1 IH2]. split.
    - constructor; [| exact IH1]. intros Hin. apply (Ha a); [left; reflexivity |].
      apply (trail_leads L b p c a b Ht) in Hin as [-> | Hl]; [constructor; exact H | econstructor; eassumption].
    - intros x [<- | Hx]; [exact H | apply IH2, Hx].
  Qed.

  Lemma dump_ends es L n x : ids_of es L -> walk E es = Ok x -> length L < n ->
    (forall c, under_top (edge_in L) c -> ~ leads (edge_in L) c c) -> exists l, dump_dot n x = Ok l.
  Proof.
    intros Hi Hw Hn Ha. destruct (walk_ok es L Hi) as (f & roots & Hw' & Hf & Hr). rewrite Hw in Hw'. injection Hw' as ->.
    unfold dump_dot. cbn [fst snd].
    destruct (map_res_forall2 (handle_node n f None) (subtree L es None) roots) as (bs & Hbs & _).
    { intros r Hin. pose proof (proj1 (Hr r) Hin) as Ht. pose proof Ht as [(y & Hy) _]. apply (handle_ok es L f Hf); [exists (r, y); auto |].
      intros k Hk. apply chain_trail in Hk as (p & b & Hp & <-).
      apply (trail_below L r p b) in Hp as [Hnd Hinc]; [eapply PeanoNat.Nat.le_lt_trans; [apply NoDup_incl_length; eassumption | exact Hn] |].
      intros c Hc. apply Ha. exists r. split; [exact Ht | exact Hc]. }
    rewrite Hbs. cbn [bind]. eexists. reflexivity.
  Qed.
End Forest.

(** ** Stored relationships *)

Definition rel_ends (r : relationship) : rnode * rnode := (source_node r, target_node r).

Lemma stored_edges E s pid : store_ok E s -> list_edges (edges_of pid s) = map rel_ends (relationships s pid).
Proof.
  intros H. unfold list_edges, relationships. rewrite map_map. apply map_ext_in. intros [k e] Hin.
  destruct (edges_of_edge E s pid k e H Hin) as [(r & He) _]. cbn [snd]. unfold rel_ends.
  destruct r as [o rel u]. cbn in He.
  destruct u as [[x | [x |] rl | rs |] |]; try discriminate; cbn in He; destruct o as [o |]; try discriminate; injection He as <-; destruct o; try destruct x; reflexivity.
Qed.

Lemma stored_ids E s pid : store_ok E s -> exists L, ids_of E (map rel_ends (relationships s pid)) L /\
  (forall a b, edge_in L a b <-> points E s pid a b) /\ length L = length (relationships s pid).
Proof.
  intros H. unfold points.
  assert (Hok : forall r, In r (relationships s pid) -> (exists a, node_id E (source_node r) = Ok a) /\ exists b, node_id E (target_node r) = Ok b).
  { intros r Hin. apply (relationships_in E s pid r H) in Hin as (e & He & _). destruct r as [o rel u]. unfold source_node, target_node. cbn in *.
    destruct u as [[x | [x |] rl | rs |] |]; try discriminate; cbn in He; destruct o as [o |]; try discriminate; split; eexists; reflexivity. }
  induction (relationships s pid) as [| r l IH].
  - exists []. split; [constructor |]. split; [| reflexivity]. intros a b. split; [intros [] | intros (r & [] & _)].
  - destruct IH as (L & HL & Hin & Hlen); [intros r' Hr'; apply Hok; right; exact Hr' |].
    destruct (Hok r) as [(a & Ha) (b & Hb)]; [left; reflexivity |]. exists ((a, b) :: L). split; [constructor; [split; assumption | exact HL] |].
    split; [| cbn; congruence]. intros x y. unfold edge_in in *. cbn [In]. rewrite Hin. split.
    + intros [[= <- <-] | (r' & H1 & H2)]; [exists r; auto | exists r'; auto].
    + intros (r' & [<- | H1] & H2 & H3); [left; congruence | right; exists r'; auto].
Qed.

Lemma run_dump E n pid d s : run (dump_relationships E n pid d) s =
  (match kv_get scmp pid (st_pol s) with
   | None => Err EPolicyNotFound
   | Some _ => let* x := walk E (list_edges (edges_of pid s)) in if d then dump_dot n x else Err EInvalidVariant
   end, s).
Proof. unfold dump_relationships. cbn. destruct (kv_get scmp pid (st_pol s)); reflexivity. Qed.
