(** Facts about requests as JSON. *)
From Coq Require Import ZArith Permutation Sorted.
From Verif Require Import Base BaseFacts Domain Lexer Store Search Explain Yaml Service Dump Api Wire SpecWire WireFacts Rpc SpecRpc RpcFacts Cli Json SpecJson.
Local Open Scope N_scope.

(** ** Bytes *)

Lemma digit_round x : undigit false (digit x) = Some x.
Proof. destruct x as [[[[[[] []] []] []] []] []]; vm_compute; reflexivity. Qed.

Lemma digit_plain x : Ascii.eqb (digit x) "-" = false /\ Ascii.eqb (digit x) "_" = false /\
  (N_of_ascii (digit x) =? 10) || (N_of_ascii (digit x) =? 13) = false.
Proof. destruct x as [[[[[[] []] []] []] []] []]; vm_compute; auto. Qed.

Lemma string3 (P : string -> Prop) : P "" -> (forall a, P (String a "")) -> (forall a b, P (String a (String b ""))) ->
  (forall a b c s, P s -> P (String a (String b (String c s)))) -> forall s, P s.
Proof.
  intros H0 H1 H2 H3. fix IH 1. intros [| a [| b [| c s]]]; [exact H0 | apply H1 | apply H2 |]. apply H3. apply IH.
Qed.

Lemma base64_round s : unbase64 false true (base64 s) = Some s.
Proof.
  induction s as [| a | a b | a b c s IH] using string3; [reflexivity | | |];
    repeat match goal with a : ascii |- _ => destruct a end; cbn [base64 unbase64]; rewrite !digit_round; [reflexivity | reflexivity |].
  rewrite IH. reflexivity.
Qed.

Lemma base64_clean s : for_urls (base64 s) = false /\ without_breaks (base64 s) = base64 s /\
  exists n, String.length (base64 s) = (n * 4)%nat.
Proof.
  induction s as [| a | a b | a b c s IH] using string3; [repeat split; exists 0%nat; reflexivity | | |];
    repeat match goal with a : ascii |- _ => destruct a end; cbn [base64 for_urls without_breaks String.length];
    repeat match goal with |- context [digit ?x] => let H := fresh in pose proof (digit_plain x) as (H & -> & ->); rewrite H; clear H;
      generalize (digit x); intros ? end.
  - repeat split. exists 1%nat. reflexivity.
  - repeat split. exists 1%nat. reflexivity.
  - destruct IH as (-> & -> & n & ->). repeat split. exists (S n). reflexivity.
Qed.

Lemma bytes_round s : read_bytes (JStr (base64 s)) = Some s.
Proof.
  unfold read_bytes. destruct (base64_clean s) as (-> & -> & n & ->). rewrite Nat.mod_mul by discriminate. apply base64_round.
Qed.

(** ** Enums *)

Definition names_ok (t : enum_names) : Prop := forall n s, by_number t n = Some s -> by_name t s = Some n.

Lemma enum_round t n : names_ok t -> n < 4294967296 -> read_enum t (enum_json t n) = Some n.
Proof.
  intros Ht Hn. unfold enum_json. destruct (by_number t n) as [s |] eqn:E; [apply Ht; exact E |]. cbn [read_enum].
  destruct (N.ltb_spec n 2147483648) as [H | H].
  - replace ((-2147483648 <=? Z.of_N n) && (Z.of_N n <? 2147483648))%Z with true
      by (symmetry; apply andb_true_intro; split; [apply Z.leb_le; lia | apply Z.ltb_lt; lia]).
    rewrite Z.mod_small by lia. rewrite N2Z.id. reflexivity.
  - replace ((-2147483648 <=? Z.of_N n - 4294967296) && (Z.of_N n - 4294967296 <? 2147483648))%Z with true
      by (symmetry; apply andb_true_intro; split; [apply Z.leb_le; lia | apply Z.ltb_lt; lia]).
    replace ((Z.of_N n - 4294967296) mod 4294967296)%Z with (Z.of_N n); [rewrite N2Z.id; reflexivity |].
    apply (Z.mod_unique _ _ (-1)%Z); lia.
Qed.

Lemma operators_ok : names_ok operator_names.
Proof.
  intros n s. unfold by_number, operator_names. cbn [find fst snd].
  destruct (N.eqb_spec 0 n) as [<- | _]; [intros [= <-]; reflexivity |].
  destruct (N.eqb_spec 1 n) as [<- | _]; [intros [= <-]; reflexivity |].
  destruct (N.eqb_spec 2 n) as [<- | _]; [intros [= <-]; reflexivity | discriminate].
Qed.
Lemma formats_ok : names_ok format_names.
Proof.
  intros n s. unfold by_number, format_names. cbn [find fst snd].
  destruct (N.eqb_spec 0 n) as [<- | _]; [intros [= <-]; reflexivity |].
  destruct (N.eqb_spec 1 n) as [<- | _]; [intros [= <-]; reflexivity |].
  destruct (N.eqb_spec 2 n) as [<- | _]; [intros [= <-]; reflexivity | discriminate].
Qed.
Lemma strategies_ok : names_ok strategy_names.
Proof.
  intros n s. unfold by_number, strategy_names. cbn [find fst snd].
  destruct (N.eqb_spec 0 n) as [<- | _]; [intros [= <-]; reflexivity | discriminate].
Qed.
Lemma dumps_ok : names_ok dump_names.
Proof.
  intros n s. unfold by_number, dump_names. cbn [find fst snd].
  destruct (N.eqb_spec 0 n) as [<- | _]; [intros [= <-]; reflexivity | discriminate].
Qed.

(** ** Fields, one after the other *)

Definition table_ok (t : list fdesc) : Prop := forall f, In f t -> find_field t (f_json f) = Some f /\ find_field t (f_proto f) = Some f.

Section Round.
  Variables (d : bool) (st : style).
  Hypothesis Hst : plain st.

  Definition named (x : fdesc * json) : string * json := (st_name st (fst x), snd x).

  Lemma find_named t f : table_ok t -> In f t -> find_field t (st_name st f) = Some f.
  Proof using Hst. intros Ht Hf. destruct (Ht f Hf) as [H1 H2]. destruct (Hst f) as [-> | ->]; assumption. Qed.

  (** One field, written or left out. *)
  Definition adds {A} (set : N -> json -> A -> option A) (f : fdesc) (ps : list (fdesc * json)) (a b : A) : Prop :=
    (ps = [] /\ a = b) \/ exists j, ps = [(f, j)] /\ ((j = JNull /\ a = b) \/ (j <> JNull /\ set (f_num f) j a = Some b)).

  Definition below (k : N) (seen : list N) : Prop := forall n, In n seen -> n < k.
  Definition reads {A} (t : list fdesc) (set : N -> json -> A -> option A) (k : N) (ps : list (fdesc * json)) (a b : A) : Prop :=
    forall seen, below k seen -> read_fields d t set (map named ps) seen false a = Some b.

  Lemma fresh k seen n : below k seen -> k <= n -> existsb (N.eqb n) seen = false.
  Proof using Type.
    intros H Hn. apply not_true_is_false. intros E. apply existsb_exists in E as (m & Hm & E). apply N.eqb_eq in E. subst m.
    specialize (H n Hm). lia.
  Qed.

  Lemma reads_nil {A} t set k (a : A) : reads t set k [] a a.
  Proof using Type. intros seen _. reflexivity. Qed.

  Lemma reads_cons {A} t set k f ps qs (a b c : A) : table_ok t -> In f t -> f_one f = false -> k <= f_num f ->
    adds set f ps a b -> reads t set (f_num f + 1) qs b c -> reads t set k (ps ++ qs) a c.
  Proof using Hst.
    intros Ht Hf Ho Hk [[-> ->] | (j & -> & H)] Hq seen Hs.
    - apply Hq. intros n Hn. specialize (Hs n Hn). lia.
    - cbn [app map named fst snd read_fields]. rewrite (find_named t f Ht Hf), (fresh k seen (f_num f) Hs Hk), Ho. cbn [andb orb].
      assert (Hb : below (f_num f + 1) (f_num f :: seen)) by (intros n [<- | Hn]; [lia | specialize (Hs n Hn); lia]).
      destruct H as [[-> ->] | [Hj H]]; [exact (Hq _ Hb) |]. rewrite H. destruct j; try (exact (Hq _ Hb)). congruence.
  Qed.

  Lemma reads_one {A} t set k f ps (a b : A) : table_ok t -> In f t -> f_one f = false -> k <= f_num f ->
    adds set f ps a b -> reads t set k ps a b.
  Proof using Hst. intros. rewrite <- (app_nil_r ps). eapply reads_cons; eauto. apply reads_nil. Qed.

  Lemma reads_object {A} t set ps (a b : A) : reads t set 0 ps a b -> read_message d t set a (object st ps) = Some b.
  Proof using Type. intros H. apply H. intros n []. Qed.

  Lemma member_round {A} t set n j (a : A) : table_ok t -> In (field_of t n) t -> f_num (field_of t n) = n -> j <> JNull ->
    read_message d t set a (member st t n j) = set n j a.
  Proof using Hst.
    intros Ht Hf Hn Hj. unfold member, object. cbn [map fst snd read_message read_fields]. rewrite (find_named _ _ Ht Hf). cbn [existsb].
    rewrite andb_false_r, Hn. destruct j; try congruence; destruct (set n _ a); reflexivity.
  Qed.

  (** What a writer adds. *)
  Lemma adds_text {A} set f s (a : A) g : utf8_valid s = true -> (forall j, set (f_num f) j a = omap g (read_text j)) -> g ""%string = a ->
    adds set f (w_text st f s) a (g s).
  Proof using Type.
    intros Hs H Hg. unfold w_text, unset.
    assert (Hset : set (f_num f) (JStr s) a = Some (g s)) by (rewrite H; cbn [read_text]; unfold text; rewrite Hs; reflexivity).
    destruct s as [| c s].
    - destruct (st_emit st f).
      + right. exists (JStr ""). split; [reflexivity |]. right. split; [discriminate | exact Hset].
      + left. auto.
    - right. exists (JStr (String c s)). split; [reflexivity |]. right. split; [discriminate | exact Hset].
  Qed.

  Lemma base64_nil s : base64 s = ""%string -> s = ""%string.
  Proof using Type. destruct s as [| [] [| [] [| [] s]]]; [reflexivity | discriminate..]. Qed.

  Lemma adds_bytes {A} set f s (a : A) g : (forall j, set (f_num f) j a = omap g (read_bytes j)) -> g ""%string = a ->
    adds set f (w_bytes st f s) a (g s).
  Proof using Type.
    intros H Hg. unfold w_bytes, w_text, unset. pose proof (bytes_round s) as Hr. destruct (base64 s) as [| c b] eqn:E.
    - apply base64_nil in E. subst s. destruct (st_emit st f).
      + right. exists (JStr ""). split; [reflexivity |]. right. split; [discriminate |]. rewrite H, Hr. reflexivity.
      + left. auto.
    - right. exists (JStr (String c b)). split; [reflexivity |]. right. split; [discriminate |]. rewrite H, Hr. reflexivity.
  Qed.

  Lemma enum_json_not_null t n : enum_json t n <> JNull.
  Proof using Type. unfold enum_json. destruct (by_number t n); discriminate. Qed.

  Lemma adds_enum {A} set t f n (a : A) g : names_ok t -> n < 4294967296 -> (forall j, set (f_num f) j a = omap g (read_enum t j)) ->
    g 0 = a -> adds set f (w_enum st t f n) a (g n).
  Proof using Type.
    intros Ht Hn H Hg. unfold w_enum, unset.
    assert (Hset : set (f_num f) (enum_json t n) a = Some (g n)) by (rewrite H, enum_round by assumption; reflexivity).
    destruct (N.eqb_spec n 0) as [-> | _].
    - destruct (st_emit st f); [| left; auto]. right. exists (enum_json t 0). split; [reflexivity |]. right.
      split; [apply enum_json_not_null | exact Hset].
    - right. exists (enum_json t n). split; [reflexivity |]. right. split; [apply enum_json_not_null | exact Hset].
  Qed.

  Lemma adds_opt {A X} set f (w : X -> json) (o : option X) (a b : A) :
    (o = None -> b = a) -> (forall x, o = Some x -> w x <> JNull /\ set (f_num f) (w x) a = Some b) -> adds set f (w_opt st w f o) a b.
  Proof using Type.
    intros Hn Hs. unfold w_opt, unset. destruct o as [x |].
    - right. exists (w x). split; [reflexivity |]. right. apply Hs. reflexivity.
    - rewrite (Hn eq_refl). destruct (st_emit st f); [| left; auto]. right. exists JNull. auto.
  Qed.

  Lemma read_all_round {X} (read : json -> option X) w l : (forall x, In x l -> read (w x) = Some x) -> read_all read (map w l) = Some l.
  Proof using Type.
    induction l as [| x l IH]; intros H; [reflexivity |]. cbn [map read_all]. rewrite (H x) by (left; reflexivity).
    rewrite IH by (intros; apply H; right; assumption). reflexivity.
  Qed.

  Lemma adds_list {A X} set f (read : json -> option X) (w : X -> json) l (a : A) g :
    (forall x, In x l -> read (w x) = Some x) -> (forall j, set (f_num f) j a = omap g (read_list read j)) -> g [] = a ->
    adds set f (w_list st w f l) a (g l).
  Proof using Type.
    intros Hr H Hg. unfold w_list, unset.
    assert (Hset : set (f_num f) (JArr (map w l)) a = Some (g l)) by (rewrite H; cbn [read_list]; rewrite read_all_round by exact Hr; reflexivity).
    destruct l as [| x l].
    - destruct (st_emit st f); [| left; auto]. right. exists (JArr []). split; [reflexivity |]. right. split; [discriminate | exact Hset].
    - right. exists (JArr (map w (x :: l))). split; [reflexivity |]. right. split; [discriminate | exact Hset].
  Qed.

  (** Entries in key order. *)
  Lemma entries_round l : forall m, kv_sorted scmp m -> NoDup (map fst l) -> (forall k v, In (k, v) l -> utf8_valid k = true /\ utf8_valid v = true) ->
    (forall k v, In (k, v) l -> kv_get scmp k m = None) ->
    read_entries (map (fun x => (fst x, JStr (snd x))) l) m = Some (fold_left (fun m x => kv_set scmp (fst x) (snd x) m) l m).
  Proof using Type.
    induction l as [| [k v] l IH]; intros m Hm Hn Hu Hg; [reflexivity |]. cbn [map fst snd read_entries fold_left].
    inversion Hn as [| ? ? Hk Hl]; subst. destruct (Hu k v (or_introl eq_refl)) as [Hk1 Hv1]. rewrite (Hg k v (or_introl eq_refl)).
    cbn [read_text]. unfold text. rewrite Hk1, Hv1. apply IH; [apply sorted_set; [apply scmp_ok | exact Hm] | exact Hl | intros; apply Hu; right; assumption |].
    intros k' v' H. rewrite (get_set scmp scmp_ok). destruct (scmp k' k) eqn:E; try (apply (Hg k' v'); right; exact H).
    apply scmp_eq in E. subst k'. destruct Hk. apply in_map_iff. exists (k, v'). auto.
  Qed.

  Lemma adds_map {A} set f l (a : A) g : kv_sorted scmp l -> (forall k v, In (k, v) l -> utf8_valid k = true /\ utf8_valid v = true) ->
    (forall j, set (f_num f) j a = omap g (read_map j)) -> g [] = a -> adds set f (w_map st f l) a (g l).
  Proof using Type.
    intros Hl Hu H Hg. unfold w_map, unset.
    assert (Hset : set (f_num f) (JObj (map (fun x => (fst x, JStr (snd x))) l)) a = Some (g l)).
    { rewrite H. cbn [read_map]. rewrite entries_round; [| exact I | apply (sorted_nodup scmp scmp_ok); exact Hl | exact Hu | reflexivity].
      rewrite (attrs_round l l Hl (Permutation_refl _)). reflexivity. }
    destruct l as [| x l].
    - destruct (st_emit st f); [| left; auto]. right. exists (JObj []). split; [reflexivity |]. right. split; [discriminate | exact Hset].
    - right. eexists. split; [reflexivity |]. right. split; [discriminate | exact Hset].
  Qed.

  (** *** Messages *)

  Ltac table_tac := let f := fresh in let Hf := fresh in intros f Hf; cbn in Hf; repeat (destruct Hf as [<- | Hf]; [split; reflexivity |]); destruct Hf.
  Ltac side := first [assumption | match goal with |- table_ok _ => table_tac end | (cbn; tauto) | reflexivity | (cbn; lia)].
  Ltac one_of := rewrite member_round; [| table_tac | cbn; tauto | reflexivity | try discriminate].

  Lemma utf8_app l l' : all_utf8 (l ++ l') <-> all_utf8 l /\ all_utf8 l'.
  Proof using Type.
    unfold all_utf8. split; [intros H; split; intros s Hs; apply H, in_or_app; auto |]. intros [H1 H2] s Hs. apply in_app_or in Hs as [Hs | Hs]; auto.
  Qed.
  Lemma utf8_cons s l : all_utf8 (s :: l) <-> utf8_valid s = true /\ all_utf8 l.
  Proof using Type.
    unfold all_utf8. split; [intros H; split; [apply H; left; reflexivity | intros; apply H; right; assumption] |]. intros [H1 H2] x [<- | Hx]; auto.
  Qed.
  Lemma utf8_flat {A} (f : A -> list string) l : all_utf8 (flat_map f l) <-> forall x, In x l -> all_utf8 (f x).
  Proof using Type.
    unfold all_utf8. split; [intros H x Hx s Hs; apply H, in_flat_map; eauto |]. intros H s Hs. apply in_flat_map in Hs as (x & Hx & Hs). eauto.
  Qed.

  Lemma two_texts_round t a b : table_ok t -> In (field_of t 1) t -> In (field_of t 2) t -> f_num (field_of t 1) = 1 -> f_num (field_of t 2) = 2 ->
    f_one (field_of t 1) = false -> f_one (field_of t 2) = false -> utf8_valid a = true -> utf8_valid b = true ->
    read_message d t set_two_texts (""%string, ""%string) (two_texts st t a b) = Some (a, b).
  Proof using Hst.
    intros Ht H1 H2 N1 N2 O1 O2 Ha Hb. apply reads_object.
    apply (reads_cons t set_two_texts 0 (field_of t 1) _ _ _ (a, ""%string)); [exact Ht | exact H1 | exact O1 | rewrite N1; lia | |].
    - apply (adds_text set_two_texts _ a (""%string, ""%string) (fun s => (s, ""%string))); [exact Ha | intros j; rewrite N1; reflexivity | reflexivity].
    - apply (reads_one t set_two_texts _ (field_of t 2)); [exact Ht | exact H2 | exact O2 | rewrite N1, N2; lia |].
      apply (adds_text set_two_texts _ b (a, ""%string) (fun s => (a, s))); [exact Hb | intros j; rewrite N2; reflexivity | reflexivity].
  Qed.

  Lemma one_text_round t a : table_ok t -> In (field_of t 1) t -> f_one (field_of t 1) = false -> utf8_valid a = true ->
    read_message d t set_one_text ""%string (one_text st t a) = Some a.
  Proof using Hst.
    intros Ht H1 O1 Ha. apply reads_object. apply (reads_one t set_one_text _ (field_of t 1)); [exact Ht | exact H1 | exact O1 | lia |].
    apply (adds_text set_one_text _ a ""%string (fun s => s)); [exact Ha | intros j; unfold set_one_text; destruct (read_text j); reflexivity | reflexivity].
  Qed.

  Lemma empty_round {A} t set (a : A) : read_message d t set a (no_members st) = Some a.
  Proof using Type. reflexivity. Qed.

  Lemma entity_round e : all_utf8 (entity_texts e) -> read_entity d (json_entity st e) = Some e.
  Proof using Hst.
    intros H. apply utf8_cons in H as [H1 H]. apply utf8_cons in H as [H2 _]. unfold read_entity, json_entity.
    rewrite two_texts_round by side. destruct e; reflexivity.
  Qed.
  Lemma entity_object e : json_entity st e <> JNull.
  Proof using Type. discriminate. Qed.

  Lemma entity_set_round t o rel : table_ok t -> In (field_of t 1) t -> In (field_of t 2) t -> f_num (field_of t 1) = 1 -> f_num (field_of t 2) = 2 ->
    f_one (field_of t 1) = false -> f_one (field_of t 2) = false -> all_utf8 (opt_texts entity_texts o) -> utf8_valid rel = true ->
    read_message d t (set_entity_set d) (None, ""%string) (json_entity_set st t o rel) = Some (o, rel).
  Proof using Hst.
    intros Ht H1 H2 N1 N2 O1 O2 Ho Hr. apply reads_object.
    apply (reads_cons t _ 0 (field_of t 1) _ _ _ (o, ""%string)); [exact Ht | exact H1 | exact O1 | rewrite N1; lia | |].
    - apply adds_opt; [intros ->; reflexivity |]. intros e ->. split; [discriminate |]. rewrite N1. cbn [set_entity_set]. rewrite entity_round by exact Ho. reflexivity.
    - apply (reads_one t _ _ (field_of t 2)); [exact Ht | exact H2 | exact O2 | rewrite N1, N2; lia |].
      apply (adds_text _ _ rel (o, ""%string) (fun s => (o, s))); [exact Hr | intros j; rewrite N2; reflexivity | reflexivity].
  Qed.

  Lemma subject_round u : all_utf8 (subject_texts u) -> read_subject d (json_subject st u) = Some u.
  Proof using Hst.
    intros H. unfold read_subject. destruct u as [e | o rel | rs |]; cbn [json_subject subject_texts] in *.
    - one_of. cbn [set_subject_member]. rewrite entity_round by exact H. reflexivity.
    - apply utf8_cons in H as [H1 H2]. one_of. cbn [set_subject_member]. rewrite entity_set_round by side. reflexivity.
    - apply utf8_cons in H as [H1 _]. one_of. cbn [set_subject_member]. rewrite one_text_round by side. reflexivity.
    - reflexivity.
  Qed.
  Lemma subject_object u : json_subject st u <> JNull.
  Proof using Type. destruct u; discriminate. Qed.

  Ltac next f := eapply (reads_cons _ _ _ f); [table_tac | cbn; tauto | reflexivity | cbn; lia | |].
  Ltac last f := eapply (reads_one _ _ _ f); [table_tac | cbn; tauto | reflexivity | cbn; lia |].

  Lemma relationship_round r : all_utf8 (relationship_texts r) -> read_relationship d (json_relationship st r) = Some r.
  Proof using Hst.
    intros H. apply utf8_cons in H as [H1 H]. apply utf8_app in H as [H2 H3]. destruct r as [o rel u]; cbn [r_relation r_object r_subject] in *.
    apply reads_object. cbn [r_object r_relation r_subject]. apply (reads_cons _ _ _ (field_of t_relationship 1) _ _ _ (mkRel o "" None)); try side.
    { apply adds_opt; [intros ->; reflexivity |]. intros e ->. split; [discriminate |]. cbn. rewrite entity_round by exact H2. reflexivity. }
    apply (reads_cons _ _ _ (field_of t_relationship 2) _ _ _ (mkRel o rel None)); try side.
    { apply (adds_text _ _ rel (mkRel o "" None) (fun s => mkRel o s None)); try side. }
    apply (reads_one _ _ _ (field_of t_relationship 3)); try side.
    apply adds_opt; [intros ->; reflexivity |]. intros x ->. split; [apply subject_object |]. cbn. rewrite subject_round by exact H3. reflexivity.
  Qed.

  Lemma selector_round x : all_utf8 (selector_texts x) -> selector_ok x -> read_selector d (json_selector st x) = Some x.
  Proof using Hst.
    intros H [N1 N2]. apply utf8_app in H as [H1 H]. apply utf8_app in H as [H2 H3]. destruct x as [o r u]; cbn [s_obj s_rel s_subj] in *.
    apply reads_object. cbn [s_obj s_rel s_subj]. apply (reads_cons _ _ _ (field_of t_selector 1) _ _ _ (mkSel o None None)); try side.
    { apply adds_opt; [intros ->; reflexivity |]. intros y ->. split; [destruct y; discriminate |]. cbn.
      assert (E : read_message d t_obj_selector (set_obj_selector d) OSUnset (json_obj_selector st y) = Some y); [| rewrite E; reflexivity].
      destruct y as [[e |] | rs | |]; cbn [json_obj_selector opt_texts] in *; try congruence; try reflexivity; one_of; cbn [set_obj_selector].
      - rewrite entity_round by exact H1. reflexivity.
      - cbn [read_text]. apply utf8_cons in H1 as [H1 _]. unfold text. rewrite H1. reflexivity.
      - reflexivity. }
    apply (reads_cons _ _ _ (field_of t_selector 2) _ _ _ (mkSel o r None)); try side.
    { apply adds_opt; [intros ->; reflexivity |]. intros y ->. split; [destruct y; discriminate |]. cbn.
      assert (E : read_message d t_rel_selector (set_rel_selector d) LSUnset (json_rel_selector st y) = Some y); [| rewrite E; reflexivity].
      destruct y as [s | |]; cbn [json_rel_selector opt_texts] in *; try reflexivity; one_of; cbn [set_rel_selector]; [| reflexivity].
      cbn [read_text]. apply utf8_cons in H2 as [H2 _]. unfold text. rewrite H2. reflexivity. }
    apply (reads_one _ _ _ (field_of t_selector 3)); try side.
    apply adds_opt; [intros ->; reflexivity |]. intros y ->. split; [destruct y; discriminate |]. cbn.
    assert (E : read_message d t_subj_selector (set_subj_selector d) USUnset (json_subj_selector st y) = Some y); [| rewrite E; reflexivity].
    destruct y as [[e |] | rs | |]; cbn [json_subj_selector opt_texts] in *; try congruence; try reflexivity.
    - rewrite member_round; [| table_tac | cbn; tauto | reflexivity | apply subject_object]. cbn [set_subj_selector]. rewrite subject_round by exact H3. reflexivity.
    - one_of. cbn [set_subj_selector read_text]. apply utf8_cons in H3 as [H3 _]. unfold text. rewrite H3. reflexivity.
    - one_of. reflexivity.
  Qed.

  Lemma access_round a : all_utf8 (access_texts a) -> read_access d (json_access st a) = Some a.
  Proof using Hst.
    intros H. apply utf8_cons in H as [H1 H]. apply utf8_app in H as [H2 H3]. destruct a as [o rel u]; cbn [a_relation a_object a_subject] in *.
    apply reads_object. cbn [a_object a_relation a_subject]. apply (reads_cons _ _ _ (field_of t_access 1) _ _ _ (mkAccess o "" None)); try side.
    { apply adds_opt; [intros ->; reflexivity |]. intros e ->. split; [discriminate |]. cbn. rewrite entity_round by exact H2. reflexivity. }
    apply (reads_cons _ _ _ (field_of t_access 2) _ _ _ (mkAccess o rel None)); try side.
    { apply (adds_text _ _ rel (mkAccess o "" None) (fun s => mkAccess o s None)); try side. }
    apply (reads_one _ _ _ (field_of t_access 3)); try side.
    apply adds_opt; [intros ->; reflexivity |]. intros x ->. split; [discriminate |]. cbn. rewrite entity_round by exact H3. reflexivity.
  Qed.

  Lemma rnode_round n : all_utf8 (rnode_texts n) -> read_rnode d (json_rnode st n) = Some n.
  Proof using Hst.
    intros H. unfold read_rnode. destruct n as [o rel | o | rs |]; cbn [json_rnode rnode_texts] in *.
    - apply utf8_cons in H as [H1 H2]. one_of. cbn [set_rnode]. rewrite entity_set_round by side. reflexivity.
    - one_of. cbn [set_rnode].
      assert (E : read_message d t_entity_node (set_entity_node d) None (object st (w_opt st (json_entity st) (field_of t_entity_node 1) o)) = Some o);
        [| rewrite E; reflexivity].
      apply reads_object. apply (reads_one _ _ _ (field_of t_entity_node 1)); try side. apply adds_opt; [intros ->; reflexivity |].
      intros e ->. split; [discriminate |]. cbn. unfold set_entity_node. rewrite entity_round by exact H. reflexivity.
    - apply utf8_cons in H as [H1 _]. one_of. cbn [set_rnode]. rewrite one_text_round by side. reflexivity.
    - reflexivity.
  Qed.
  Lemma rnode_object n : json_rnode st n <> JNull.
  Proof using Type. destruct n; discriminate. Qed.

  Lemma rule_round r : all_utf8 (rule_texts r) -> read_rule d (json_rule st r) = Some r.
  Proof using Hst.
    intros H. unfold read_rule. destruct r as [| t | a b |]; cbn [json_rule rule_texts] in *; try reflexivity; one_of; cbn [set_rule].
    - reflexivity.
    - apply utf8_cons in H as [H _]. rewrite one_text_round by side. reflexivity.
    - apply utf8_cons in H as [H1 H]. apply utf8_cons in H as [H2 _]. rewrite two_texts_round by side. reflexivity.
  Qed.

  Lemma op_code_round o : op_ok o -> op_of (op_code o) = o.
  Proof using Type. destruct o; try reflexivity. intros H. cbn [op_code]. apply op_of_small. exact H. Qed.
  Lemma op_code_small o : op_ok o -> op_code o < 4294967296.
  Proof using Type. destruct o; cbn [op_code op_ok]; lia. Qed.

  Lemma tree_unfold j : read_tree d j = read_message d t_node (set_node d (read_tree d)) TUnset j.
  Proof using Type. destruct j; reflexivity. Qed.
  Lemma tree_object t : json_tree st t <> JNull.
  Proof using Type. destruct t; discriminate. Qed.

  Lemma tree_round t : t <> TNil -> tree_ok t -> all_utf8 (tree_texts t) -> read_tree d (json_tree st t) = Some t.
  Proof using Hst.
    induction t as [| | r | l IHl o r IHr]; intros Hn Hok H; rewrite tree_unfold; cbn [json_tree].
    - congruence.
    - reflexivity.
    - rewrite member_round; [| table_tac | cbn; tauto | reflexivity | destruct r; discriminate]. cbn [set_node]. rewrite rule_round by exact H. reflexivity.
    - cbn [tree_texts tree_ok] in *. apply utf8_app in H as [H1 H2]. destruct Hok as (K1 & K2 & K3). one_of. cbn [set_node].
      match goal with |- omap _ (?x) = _ => assert (E : x = Some (l, o, r)) end; [| rewrite E; reflexivity].
      apply reads_object. apply (reads_cons _ _ _ (field_of t_op_node 1) _ _ _ (l, OpUnion, TNil)); try side.
      { apply adds_opt; [destruct l; try discriminate; reflexivity |]. intros j Hj.
        assert (l <> TNil /\ j = json_tree st l) as [Hl ->] by (destruct l; try discriminate; split; congruence).
        split; [apply tree_object |]. cbn [field_of t_op_node fd find f_num N.eqb Pos.eqb or_else set_op_node]. rewrite IHl by assumption. reflexivity. }
      apply (reads_cons _ _ _ (field_of t_op_node 2) _ _ _ (l, o, TNil)); try side.
      { rewrite <- (op_code_round o K2) at 2. apply (adds_enum _ operator_names _ (op_code o) (l, OpUnion, TNil) (fun n => (l, op_of n, TNil)));
          [apply operators_ok | apply op_code_small; exact K2 | intros j; reflexivity | reflexivity]. }
      apply (reads_one _ _ _ (field_of t_op_node 3)); try side.
      apply adds_opt; [destruct r; try discriminate; reflexivity |]. intros j Hj.
      assert (r <> TNil /\ j = json_tree st r) as [Hl ->] by (destruct r; try discriminate; split; congruence).
      split; [apply tree_object |]. cbn [field_of t_op_node fd find f_num N.eqb Pos.eqb or_else set_op_node]. rewrite IHr by assumption. reflexivity.
  Qed.

  Lemma relexpr_round x : relexpr_ok x -> all_utf8 (relexpr_texts x) -> read_message d t_relexpr (set_relexpr d) XUnset (json_relexpr st x) = Some x.
  Proof using Hst.
    intros Hok H. destruct x as [s | t |]; cbn [json_relexpr relexpr_texts relexpr_ok] in *; try reflexivity.
    - one_of. cbn [set_relexpr read_text]. apply utf8_cons in H as [H _]. unfold text. rewrite H. reflexivity.
    - rewrite member_round; [| table_tac | cbn; tauto | reflexivity | apply tree_object]. cbn [set_relexpr]. destruct Hok. rewrite tree_round by assumption. reflexivity.
  Qed.

  Lemma restriction_round r : all_utf8 (restriction_texts r) -> read_restriction d (json_restriction st r) = Some r.
  Proof using Hst.
    intros H. unfold read_restriction. destruct r as [rs | rs rel |]; cbn [json_restriction restriction_texts] in *; try reflexivity; one_of; cbn [set_restriction].
    - apply utf8_cons in H as [H _]. rewrite one_text_round by side. reflexivity.
    - apply utf8_cons in H as [H1 H]. apply utf8_cons in H as [H2 _]. rewrite two_texts_round by side. reflexivity.
  Qed.

  Lemma subj_restriction_round r : all_utf8 (subj_restriction_texts r) ->
    read_message d t_subj_restriction (set_subj_restriction d) SRUnset (json_subj_restriction st r) = Some r.
  Proof using Hst.
    intros H. destruct r as [| l |]; cbn [json_subj_restriction subj_restriction_texts] in *; try reflexivity; one_of; cbn [set_subj_restriction].
    - reflexivity.
    - match goal with |- omap _ (?x) = _ => assert (E : x = Some l) end; [| rewrite E; reflexivity]. rewrite utf8_flat in H.
      apply reads_object. apply (reads_one _ _ _ (field_of t_restrictions 1)); try side.
      apply (adds_list _ _ (read_restriction d) (json_restriction st) l [] (fun l => l)); [intros x Hx; apply restriction_round, H, Hx | | reflexivity].
      intros j. unfold set_restrictions. destruct (read_list (read_restriction d) j); reflexivity.
  Qed.

  Lemma relation_round r : relation_ok r -> all_utf8 (relation_texts r) -> read_relation d (json_relation st r) = Some r.
  Proof using Hst.
    intros Hok H. apply utf8_cons in H as [H1 H]. apply utf8_cons in H as [H2 H]. apply utf8_app in H as [H3 H4].
    destruct r as [nm ds x sr]; cbn [rl_name rl_desc rl_expr rl_restr] in *. unfold relation_ok in Hok. cbn [rl_expr] in Hok.
    apply reads_object. cbn [rl_name rl_desc rl_expr rl_restr]. apply (reads_cons _ _ _ (field_of t_relation 1) _ _ _ (mkRelation nm "" None None)); try side.
    { apply (adds_text _ _ nm (mkRelation "" "" None None) (fun s => mkRelation s "" None None)); try side. }
    apply (reads_cons _ _ _ (field_of t_relation 2) _ _ _ (mkRelation nm ds None None)); try side.
    { apply (adds_text _ _ ds (mkRelation nm "" None None) (fun s => mkRelation nm s None None)); try side. }
    apply (reads_cons _ _ _ (field_of t_relation 3) _ _ _ (mkRelation nm ds x None)); try side.
    { apply adds_opt; [intros ->; reflexivity |]. intros y ->. split; [destruct y; discriminate |]. cbn. rewrite relexpr_round by assumption. reflexivity. }
    apply (reads_one _ _ _ (field_of t_relation 4)); try side.
    apply adds_opt; [intros ->; reflexivity |]. intros y ->. split; [destruct y; discriminate |]. cbn. rewrite subj_restriction_round by assumption. reflexivity.
  Qed.

  Lemma resource_round r : (forall l, In l (rs_relations r) -> relation_ok l) -> all_utf8 (resource_texts r) -> read_resource d (json_resource st r) = Some r.
  Proof using Hst.
    intros Hok H. apply utf8_cons in H as [H1 H]. apply utf8_cons in H as [H2 H]. rewrite utf8_flat in H.
    destruct r as [nm ds rl]; cbn [rs_name rs_desc rs_relations] in *.
    apply reads_object. cbn [rs_name rs_desc rs_relations]. apply (reads_cons _ _ _ (field_of t_resource 1) _ _ _ (mkResource nm "" [])); try side.
    { apply (adds_text _ _ nm (mkResource "" "" []) (fun s => mkResource s "" [])); try side. }
    apply (reads_cons _ _ _ (field_of t_resource 2) _ _ _ (mkResource nm ds [])); try side.
    { apply (adds_text _ _ ds (mkResource nm "" []) (fun s => mkResource nm s [])); try side. }
    apply (reads_one _ _ _ (field_of t_resource 3)); try side.
    apply (adds_list _ _ (read_relation d) (json_relation st) rl (mkResource nm ds []) (mkResource nm ds)); [| reflexivity | reflexivity].
    intros x Hx. apply relation_round; auto.
  Qed.

  Lemma policy_round p : policy_ok p -> all_utf8 (policy_texts p) -> read_policy d (json_policy st p) = Some p.
  Proof using Hst.
    intros [Hok Hs] H. apply utf8_cons in H as [H1 H]. apply utf8_cons in H as [H2 H]. apply utf8_cons in H as [H3 H]. apply utf8_app in H as [H4 H5].
    pose proof (proj1 (utf8_flat _ _) H4) as H4x; clear H4; rename H4x into H4. pose proof (proj1 (utf8_flat _ _) H5) as H5x; clear H5; rename H5x into H5. destruct p as [i nm ds rs at_]; cbn [p_id p_name p_desc p_resources p_attrs] in *.
    apply reads_object. cbn [p_id p_name p_desc p_resources p_attrs]. apply (reads_cons _ _ _ (field_of t_policy 1) _ _ _ (mkPolicy i "" "" [] [])); try side.
    { apply (adds_text _ _ i no_policy (fun s => mkPolicy s "" "" [] [])); try side. }
    apply (reads_cons _ _ _ (field_of t_policy 2) _ _ _ (mkPolicy i nm "" [] [])); try side.
    { apply (adds_text _ _ nm (mkPolicy i "" "" [] []) (fun s => mkPolicy i s "" [] [])); try side. }
    apply (reads_cons _ _ _ (field_of t_policy 3) _ _ _ (mkPolicy i nm ds [] [])); try side.
    { apply (adds_text _ _ ds (mkPolicy i nm "" [] []) (fun s => mkPolicy i nm s [] [])); try side. }
    apply (reads_cons _ _ _ (field_of t_policy 4) _ _ _ (mkPolicy i nm ds rs [])); try side.
    { apply (adds_list _ _ (read_resource d) (json_resource st) rs (mkPolicy i nm ds [] []) (fun l => mkPolicy i nm ds l [])); [| reflexivity | reflexivity].
      intros x Hx. apply resource_round; [intros l; apply Hok; exact Hx | apply H4; exact Hx]. }
    apply (reads_one _ _ _ (field_of t_policy 5)); try side.
    apply (adds_map _ _ at_ (mkPolicy i nm ds rs []) (fun m => mkPolicy i nm ds rs m)); [| | reflexivity | reflexivity].
    - apply sorted_kv. exact Hs.
    - intros k v Hin. specialize (H5 (k, v) Hin). cbn in H5. apply utf8_cons in H5 as [K1 K]. apply utf8_cons in K as [K2 _]. auto.
  Qed.
  Lemma policy_object p : json_policy st p <> JNull.
  Proof using Type. discriminate. Qed.

  Lemma sent_round lim x : sent_ok lim x -> all_utf8 (sent_texts x) -> read_sent d (json_sent st x) = Some x.
  Proof using Hst.
    intros Hok H. unfold read_sent. destruct x as [p | s |]; cbn [json_sent sent_texts sent_ok] in *; try reflexivity; one_of; cbn [set_sent].
    - rewrite policy_round by tauto. reflexivity.
    - cbn [read_text]. apply utf8_cons in H as [H _]. unfold text. rewrite H. reflexivity.
  Qed.

  (** *** Requests *)

  Lemma about_two {X} t (read : json -> option X) w pid o : table_ok t -> In (field_of t 1) t -> In (field_of t 2) t ->
    f_num (field_of t 1) = 1 -> f_num (field_of t 2) = 2 -> f_one (field_of t 1) = false -> f_one (field_of t 2) = false -> utf8_valid pid = true ->
    (forall x, o = Some x -> w x <> JNull /\ read (w x) = Some x) ->
    read_message d t (set_about read no_field) (""%string, None, tt) (json_about st t w pid o []) = Some (pid, o, tt).
  Proof using Hst.
    intros Ht H1 H2 N1 N2 O1 O2 Hp Ho. apply reads_object.
    apply (reads_cons t _ 0 (field_of t 1) _ _ _ (pid, None, tt)); [exact Ht | exact H1 | exact O1 | rewrite N1; lia | |].
    - apply (adds_text _ _ pid (""%string, None, tt) (fun s => (s, None, tt))); [exact Hp | intros j; rewrite N1; reflexivity | reflexivity].
    - rewrite app_nil_r. apply (reads_one t _ _ (field_of t 2)); [exact Ht | exact H2 | exact O2 | rewrite N1, N2; lia |].
      apply adds_opt; [intros ->; reflexivity |]. intros x Hx. destruct (Ho x Hx) as [K1 K2]. split; [exact K1 |].
      rewrite N2. cbn [set_about]. rewrite K2, Hx. reflexivity.
  Qed.

  Lemma about_three {X Y} t (read : json -> option X) (lst : json -> option Y) w pid o y0 y ps : table_ok t ->
    In (field_of t 1) t -> In (field_of t 2) t -> In (field_of t 3) t ->
    f_num (field_of t 1) = 1 -> f_num (field_of t 2) = 2 -> f_num (field_of t 3) = 3 ->
    f_one (field_of t 1) = false -> f_one (field_of t 2) = false -> f_one (field_of t 3) = false -> utf8_valid pid = true ->
    (forall x, o = Some x -> w x <> JNull /\ read (w x) = Some x) ->
    adds (set_about read lst) (field_of t 3) ps (pid, o, y0) (pid, o, y) ->
    read_message d t (set_about read lst) (""%string, None, y0) (json_about st t w pid o ps) = Some (pid, o, y).
  Proof using Hst.
    intros Ht H1 H2 H3 N1 N2 N3 O1 O2 O3 Hp Ho Hl. apply reads_object.
    apply (reads_cons t _ 0 (field_of t 1) _ _ _ (pid, None, y0)); [exact Ht | exact H1 | exact O1 | rewrite N1; lia | |].
    { apply (adds_text _ _ pid (""%string, None, y0) (fun s => (s, None, y0))); [exact Hp | intros j; rewrite N1; reflexivity | reflexivity]. }
    apply (reads_cons t _ _ (field_of t 2) _ _ _ (pid, o, y0)); [exact Ht | exact H2 | exact O2 | rewrite N1, N2; lia | |].
    { apply adds_opt; [intros ->; reflexivity |]. intros x Hx. destruct (Ho x Hx) as [K1 K2]. split; [exact K1 |].
      rewrite N2. cbn [set_about]. rewrite K2, Hx. reflexivity. }
    apply (reads_one t _ _ (field_of t 3)); [exact Ht | exact H3 | exact O3 | rewrite N2, N3; lia | exact Hl].
  Qed.

  Lemma format_code_small f : format_ok f -> format_code f < 4294967296.
  Proof using Type. destruct f; cbn [format_code format_ok]; lia. Qed.

  Lemma call_json lim c : proper lim c -> read_call d (method_of c) (json_call st c) = Some c.
  Proof using Hst.
    intros [H Hc]. destruct c as [df ap | df ap k | i | i | | pid r ap | pid r | pid r | pid x | pid x | pid a | pid a f | pid n f | pid f];
      cbn [method_of json_call read_call call_texts] in *.
    - match goal with |- omap _ (?x) = _ => assert (E : x = Some (df, ap, 0)) end; [| rewrite E; reflexivity].
      apply reads_object. apply (reads_cons _ _ _ (field_of t_create 1) _ _ _ (df, ""%string, 0)); try side.
      { apply adds_opt; [intros ->; reflexivity |]. intros y ->. split; [destruct y; discriminate |]. cbn.
        rewrite (sent_round lim) by assumption. reflexivity. }
      apply (reads_one _ _ _ (field_of t_create 2)); try side.
      apply (adds_bytes _ _ ap (df, ""%string, 0) (fun s => (df, s, 0))); reflexivity.
    - destruct Hc as [Hd Hk]. match goal with |- omap _ (?x) = _ => assert (E : x = Some (df, ap, k)) end; [| rewrite E; reflexivity].
      apply reads_object. apply (reads_cons _ _ _ (field_of t_update 1) _ _ _ (df, ""%string, 0)); try side.
      { apply adds_opt; [intros ->; reflexivity |]. intros y ->. split; [destruct y; discriminate |]. cbn.
        rewrite (sent_round lim) by assumption. reflexivity. }
      apply (reads_cons _ _ _ (field_of t_update 2) _ _ _ (df, ap, 0)); try side.
      { apply (adds_bytes _ _ ap (df, ""%string, 0) (fun s => (df, s, 0))); reflexivity. }
      apply (reads_one _ _ _ (field_of t_update 3)); try side.
      apply (adds_enum _ strategy_names _ k (df, ap, 0) (fun n => (df, ap, n))); [apply strategies_ok | exact Hk | reflexivity | reflexivity].
    - apply utf8_cons in H as [H _]. rewrite one_text_round by side. reflexivity.
    - apply utf8_cons in H as [H _]. rewrite one_text_round by side. reflexivity.
    - reflexivity.
    - apply utf8_cons in H as [H1 H]. rewrite (about_three t_set_rel (read_relationship d) read_bytes (json_relationship st) pid r ""%string ap); try side.
      + intros x ->. split; [discriminate | apply relationship_round, H].
      + apply (adds_bytes _ _ ap (pid, r, ""%string) (fun s => (pid, r, s))); reflexivity.
    - apply utf8_cons in H as [H1 H]. rewrite about_two; try side. intros x ->. split; [discriminate | apply relationship_round, H].
    - apply utf8_cons in H as [H1 H]. rewrite about_two; try side. intros x ->. split; [discriminate | apply relationship_round, H].
    - apply utf8_cons in H as [H1 H]. rewrite about_two; try side. intros y ->. split; [discriminate | apply selector_round; [exact H | exact Hc]].
    - apply utf8_cons in H as [H1 H]. rewrite about_two; try side. intros y ->. split; [discriminate | apply selector_round; [exact H | exact Hc]].
    - apply utf8_cons in H as [H1 H]. rewrite about_two; try side. intros y ->. split; [discriminate | apply access_round, H].
    - apply utf8_cons in H as [H1 H]. rewrite (about_three t_explain (read_access d) (read_enum format_names) (json_access st) pid a 0 (format_code f)); try side.
      + cbn [omap fst snd]. rewrite format_round by exact Hc. reflexivity.
      + intros x ->. split; [discriminate | apply access_round, H].
      + apply (adds_enum _ format_names _ (format_code f) (pid, a, 0) (fun n => (pid, a, n))); [apply formats_ok | apply format_code_small; exact Hc | reflexivity | reflexivity].
    - apply utf8_cons in H as [H1 H]. rewrite (about_three t_expand (read_rnode d) (read_enum format_names) (json_rnode st) pid n 0 (format_code f)); try side.
      + cbn [omap fst snd]. rewrite format_round by exact Hc. reflexivity.
      + intros x ->. split; [apply rnode_object | apply rnode_round, H].
      + apply (adds_enum _ format_names _ (format_code f) (pid, n, 0) (fun k => (pid, n, k))); [apply formats_ok | apply format_code_small; exact Hc | reflexivity | reflexivity].
    - apply utf8_cons in H as [H1 _]. match goal with |- omap _ (?x) = _ => assert (E : x = Some (pid, f)) end; [| rewrite E; reflexivity].
      apply reads_object. apply (reads_cons _ _ _ (field_of t_dump 1) _ _ _ (pid, 0)); try side.
      { apply (adds_text _ _ pid (""%string, 0) (fun s => (s, 0))); try side. }
      apply (reads_one _ _ _ (field_of t_dump 2)); try side.
      apply (adds_enum _ dump_names _ f (pid, 0) (fun n => (pid, n))); [apply dumps_ok | exact Hc | reflexivity | reflexivity].
  Qed.
End Round.
