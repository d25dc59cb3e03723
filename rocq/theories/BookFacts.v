(** Facts about the bookkeeping of messages. *)
From Verif Require Import Base Domain Lexer Validate Store Service Api Wire SpecWire Rpc SpecRpc Book SpecBook BaseFacts WireFacts WireServe RpcFacts.
Local Open Scope N_scope.

(** ** Comparing with a literal *)

Lemma deep_book_iff a b : deep_book a b = true <-> a = b.
Proof.
  destruct a as [i n u], b as [i' n' u']. unfold deep_book. cbn [b_info b_size b_unknown]. rewrite !Bool.andb_true_iff, Bool.eqb_true_iff, N.eqb_eq. split.
  - intros [[-> ->] H]. destruct u as [x |], u' as [y |]; cbn [opt_eqb] in H; try discriminate; [apply String.eqb_eq in H; congruence | reflexivity].
  - intros [= -> -> ->]. split; [auto |]. destruct u'; cbn [opt_eqb]; [apply String.eqb_refl | reflexivity].
Qed.

Lemma deep_entity_iff a b : deep_entity a b = true <-> a = b.
Proof.
  destruct a, b. unfold deep_entity. cbn. rewrite !Bool.andb_true_iff, deep_book_iff, !String.eqb_eq. split; [intros [[-> ->] ->]; reflexivity | intros [= -> -> ->]; auto].
Qed.

Lemma opt_deep_iff a b : opt_eqb deep_entity a b = true <-> a = b.
Proof.
  destruct a as [x |], b as [y |]; cbn [opt_eqb]; try (split; congruence). rewrite deep_entity_iff. split; congruence.
Qed.

Lemma deep_subject_iff a b : deep_subject a b = true <-> a = b.
Proof.
  destruct a as [b1 v1], b as [b2 v2]. unfold deep_subject. cbn [ms_book ms_is]. rewrite Bool.andb_true_iff, deep_book_iff.
  assert (Hv : deep_variant v1 v2 = true <-> v1 = v2).
  { destruct v1, v2; cbn [deep_variant]; try (split; congruence).
    - rewrite deep_entity_iff. split; congruence.
    - rewrite !Bool.andb_true_iff, deep_book_iff, opt_deep_iff, String.eqb_eq. split; [intros [[-> ->] ->]; reflexivity | intros [= -> -> ->]; auto].
    - rewrite !Bool.andb_true_iff, deep_book_iff, String.eqb_eq. split; [intros [-> ->]; reflexivity | intros [= -> ->]; auto]. }
  rewrite Hv. split; [intros [-> ->]; reflexivity | intros [= -> ->]; auto].
Qed.

Lemma entity_eqb_iff a b : entity_eqb a b = true <-> a = b.
Proof. destruct a, b. unfold entity_eqb. cbn. rewrite Bool.andb_true_iff, !String.eqb_eq. split; [intros [-> ->]; reflexivity | intros [= -> ->]; auto]. Qed.

Lemma subject_eqb_iff a b : subject_eqb a b = true <-> a = b.
Proof.
  destruct a as [x | x r | x |], b as [y | y r' | y |]; cbn [subject_eqb]; try (split; congruence).
  - rewrite entity_eqb_iff. split; congruence.
  - rewrite Bool.andb_true_iff, String.eqb_eq. destruct x as [x |], y as [y |]; cbn [opt_eqb]; try (split; [intros [? ?]; congruence | intros [= ]; congruence]).
    + rewrite entity_eqb_iff. split; [intros [-> ->]; reflexivity | intros [= -> ->]; auto].
    + split; [intros [_ ->]; reflexivity | intros [= ->]; auto].
  - rewrite String.eqb_eq. split; congruence.
Qed.

Lemma bool_iff (a b : bool) : (a = true <-> b = true) -> a = b.
Proof. destruct a, b; intros [H1 H2]; try reflexivity; [specialize (H1 eq_refl) | specialize (H2 eq_refl)]; congruence. Qed.

Lemma plain_internal e : r_plain (m_from_internal e) = from_internal e.
Proof. unfold r_plain, m_from_internal, from_internal, u_plain, e_plain. cbn. destruct (i_type (ed_dst e)); reflexivity. Qed.

Lemma entity_fresh x rs i : clean_entity x -> deep_entity x (mkME fresh rs i) = entity_eqb (e_plain x) (mkEntity rs i).
Proof.
  intros H. apply bool_iff. rewrite deep_entity_iff, entity_eqb_iff. destruct x as [b r j]. unfold clean_entity, e_plain in *. cbn in *. subst b. split; congruence.
Qed.

Lemma internal_clean e : clean_subject (mr_subject (m_from_internal e)).
Proof. split; [reflexivity |]. cbn. destruct (i_type (ed_dst e)); cbn; try reflexivity; try exact I. split; [reflexivity |]. intros x [= <-]. reflexivity. Qed.

Lemma clean_subject_plain a b : clean_subject a -> clean_subject b -> u_plain a = u_plain b -> a = b.
Proof.
  destruct a as [ba va], b as [bb vb]. unfold clean_subject, u_plain, clean_entity. cbn [ms_book ms_is]. intros [-> Ha] [-> Hb] H. f_equal.
  unfold e_plain in H. destruct va as [[b x y] | c e r | c x |], vb as [[b' x' y'] | c' e' r' | c' x' |]; cbn in *; try discriminate; [congruence | | congruence | reflexivity].
  destruct Ha as [-> Ha], Hb as [-> Hb]. injection H as He ->. f_equal.
  destruct e as [[b x y] |], e' as [[b' x' y'] |]; cbn in *; try discriminate; [| reflexivity]. specialize (Ha _ eq_refl). specialize (Hb _ eq_refl). cbn in *. congruence.
Qed.

Lemma satisfies_clean o l u e : (forall x, o = MOObject (Some x) -> clean_entity x) -> (forall x, u = MUSubject (Some x) -> clean_subject x) ->
  m_satisfies (o, l, u) (m_from_internal e) = selector_satisfies (o_plain o, l, us_plain u) (from_internal e).
Proof.
  intros Ho Hu. unfold m_satisfies, selector_satisfies. f_equal; [f_equal |].
  - destruct o as [[x |] | rs | |]; try reflexivity. cbn. apply entity_fresh. auto.
  - destruct u as [[x |] | rs | |]; try reflexivity.
    + specialize (Hu x eq_refl). cbn [m_subject_predicate us_plain omap subject_predicate]. rewrite <- plain_internal. cbn [r_plain r_subject opt_eqb].
      apply bool_iff. rewrite deep_subject_iff, subject_eqb_iff. split; [congruence |]. apply clean_subject_plain; [apply internal_clean | exact Hu].
    + cbn. destruct (i_type (ed_dst e)); reflexivity.
Qed.

Lemma satisfies_touched o l u e : (exists x, o = MOObject (Some x) /\ ~ clean_entity x) \/ (exists x, u = MUSubject (Some x) /\ ~ clean_subject x) ->
  m_satisfies (o, l, u) (m_from_internal e) = false.
Proof.
  intros H. destruct (m_satisfies (o, l, u) (m_from_internal e)) eqn:Hs; [| reflexivity]. exfalso. unfold m_satisfies in Hs.
  rewrite !Bool.andb_true_iff in Hs. destruct Hs as [[H1 _] H3]. destruct H as [(x & -> & Hx) | (x & -> & Hx)].
  - apply Hx. cbn in H1. apply deep_entity_iff in H1. subst x. reflexivity.
  - apply Hx. cbn [m_subject_predicate] in H3. apply deep_subject_iff in H3. rewrite <- H3. apply internal_clean.
Qed.

(** ** The programs *)

Lemma spec_plain s : new_selector_spec (omap plain_selector s) = let* x := m_selector_spec s in Ok (o_plain (fst (fst x)), snd (fst x), us_plain (snd x)).
Proof.
  destruct s as [[o l u] |]; [| reflexivity]. cbn [omap new_selector_spec m_selector_spec plain_selector s_obj s_rel s_subj m_obj m_rel m_subj].
  destruct o as [[] |]; cbn; try reflexivity; destruct l as [[] |]; cbn; try reflexivity; destruct u as [[] |]; reflexivity.
Qed.

Lemma spec_parts s o l u : m_selector_spec (Some s) = Ok (o, l, u) -> m_obj s = Some o /\ m_rel s = Some l /\ m_subj s = Some u.
Proof.
  destruct s as [o' l' u']. cbn [m_selector_spec m_obj m_rel m_subj]. destruct o' as [[] |]; cbn; try discriminate; destruct l' as [[] |]; cbn; try discriminate;
    destruct u' as [[] |]; cbn; try discriminate; intros [= <- <- <-]; auto.
Qed.

Definition found_m (s : option m_selector) (es : list ((string * string) * edge)) : res (list relationship) :=
  let* sp := m_selector_spec s in Ok (map r_plain (filter (m_satisfies sp) (map (fun x => m_from_internal (snd x)) es))).

Lemma found_clean s es : (forall x, s = Some x -> clean_selector x) ->
  found_m s es = (let* sp := new_selector_spec (omap plain_selector s) in Ok (filter (selector_satisfies sp) (map (fun x => from_internal (snd x)) es))).
Proof.
  intros Hc. unfold found_m. rewrite spec_plain. destruct (m_selector_spec s) as [[[o l] u] | | |] eqn:Hs; try reflexivity. cbn [bind fst snd]. f_equal.
  destruct s as [s |]; [| discriminate]. destruct (Hc s eq_refl) as [Ho Hu]. apply spec_parts in Hs as (Hso & _ & Hsu).
  induction es as [| [k e] es IH]; [reflexivity |]. cbn [map filter snd].
  rewrite satisfies_clean; [| intros x ->; auto | intros x ->; auto].
  destruct (selector_satisfies _ _); cbn [map]; rewrite IH; [rewrite plain_internal |]; reflexivity.
Qed.

Lemma found_touched s es : ~ clean_selector s -> found_m (Some s) es = let* sp := new_selector_spec (Some (plain_selector s)) in Ok [].
Proof.
  intros Hc. unfold found_m. pose proof (spec_plain (Some s)) as Hp. cbn [omap] in Hp. rewrite Hp. destruct (m_selector_spec (Some s)) as [[[o l] u] | | |] eqn:Hs; try reflexivity. cbn [bind fst snd]. f_equal.
  apply spec_parts in Hs as (Hso & _ & Hsu).
  assert (Ht : (exists x, o = MOObject (Some x) /\ ~ clean_entity x) \/ (exists x, u = MUSubject (Some x) /\ ~ clean_subject x)).
  { assert (Hde : forall x, clean_entity x \/ ~ clean_entity x).
    { intros x. unfold clean_entity. destruct (deep_book (me_book x) fresh) eqn:H; [left; apply deep_book_iff, H |]. right. intros Hx. apply deep_book_iff in Hx. congruence. }
    assert (Hdb : forall b, b = fresh \/ b <> fresh).
    { intros b. destruct (deep_book b fresh) eqn:H; [left; apply deep_book_iff, H |]. right. intros Hx. apply deep_book_iff in Hx. congruence. }
    assert (Hdu : forall x, clean_subject x \/ ~ clean_subject x).
    { intros [b v]. unfold clean_subject. cbn [ms_book ms_is]. destruct (Hdb b); [| tauto]. destruct v as [e | c e r | c r |]; [destruct (Hde e); tauto | | destruct (Hdb c); tauto | tauto].
      destruct (Hdb c); [| tauto]. destruct e as [e |]; [| left; split; [assumption |]; split; [assumption | discriminate]].
      destruct (Hde e) as [He | He]; [left; split; [assumption |]; split; [assumption |]; intros x [= <-]; exact He | right; intros (_ & _ & Hx); auto]. }
    assert (Ho : (exists x, o = MOObject (Some x) /\ ~ clean_entity x) \/ forall x, o = MOObject (Some x) -> clean_entity x).
    { destruct o as [[x |] | | |]; try (right; discriminate). destruct (Hde x); [right; intros y [= <-]; assumption | left; eauto]. }
    assert (Hu : (exists x, u = MUSubject (Some x) /\ ~ clean_subject x) \/ forall x, u = MUSubject (Some x) -> clean_subject x).
    { destruct u as [[x |] | | |]; try (right; discriminate). destruct (Hdu x); [right; intros y [= <-]; assumption | left; eauto]. }
    destruct Ho as [Ho | Ho]; [left; exact Ho |]. destruct Hu as [Hu | Hu]; [right; exact Hu |]. exfalso. apply Hc.
    split; [intros e He | intros x Hx]; [apply Ho | apply Hu]; congruence. }
  induction es as [| [k e] es IH]; [reflexivity |]. cbn [map filter snd]. rewrite (satisfies_touched _ _ _ _ Ht). exact IH.
Qed.

(** Programs that do the same. *)
Inductive same {A} : prog A -> prog A -> Prop :=
| sa_ret a : same (Ret a) (Ret a)
| sa_pol_get id k k' : (forall x, same (k x) (k' x)) -> same (PolGet id k) (PolGet id k')
| sa_pol_has id k k' : (forall x, same (k x) (k' x)) -> same (PolHas id k) (PolHas id k')
| sa_pol_set id r k k' : same k k' -> same (PolSet id r k) (PolSet id r k')
| sa_pol_del id k k' : same k k' -> same (PolDel id k) (PolDel id k')
| sa_pol_ids k k' : (forall x, same (k x) (k' x)) -> same (PolIds k) (PolIds k')
| sa_edge_get pid key k k' : (forall x, same (k x) (k' x)) -> same (EdgeGet pid key k) (EdgeGet pid key k')
| sa_edge_set pid key e k k' : same k k' -> same (EdgeSet pid key e k) (EdgeSet pid key e k')
| sa_edge_del pid key k k' : same k k' -> same (EdgeDel pid key k) (EdgeDel pid key k')
| sa_edge_list pid k k' : (forall x, same (k x) (k' x)) -> same (EdgeList pid k) (EdgeList pid k')
| sa_data_get key k k' : (forall x, same (k x) (k' x)) -> same (DataGet key k) (DataGet key k')
| sa_data_set key d k k' : same k k' -> same (DataSet key d k) (DataSet key d k')
| sa_data_del key k k' : same k k' -> same (DataDel key k) (DataDel key k').

Lemma same_refl {A} (p : prog A) : same p p.
Proof. induction p; constructor; auto. Qed.

Lemma same_pbind {A B} (p q : prog A) (f g : A -> prog B) : same p q -> (forall a, same (f a) (g a)) -> same (pbind p f) (pbind q g).
Proof. intros H Hf. induction H; cbn [pbind]; [apply Hf | ..]; constructor; auto. Qed.

Lemma same_rbind {A B} (p q : prog (res A)) (f g : A -> prog (res B)) : same p q -> (forall a, same (f a) (g a)) -> same (rbind p f) (rbind q g).
Proof. intros H Hf. apply same_pbind; [exact H |]. intros []; [apply Hf | apply same_refl ..]. Qed.

Lemma same_step {A} (p q : prog A) s : same p q ->
  match step1 p s, step1 q s with
  | None, None => p = q
  | Some (p', s1), Some (q', s2) => same p' q' /\ s1 = s2
  | _, _ => False
  end.
Proof. intros H. destruct H; cbn; auto. Qed.

Definition same_config (c d : config) : Prop := Forall2 same (fst c) (fst d) /\ snd c = snd d.

Lemma same_replace (l l' : list (prog (res response))) : Forall2 same l l' -> forall i p q, same p q -> Forall2 same (replace i p l) (replace i q l').
Proof. induction 1; intros [| i] p q Hpq; cbn [replace]; constructor; auto. Qed.

Lemma same_nth (l l' : list (prog (res response))) : Forall2 same l l' -> forall i,
  match nth_error l i, nth_error l' i with Some p, Some q => same p q | None, None => True | _, _ => False end.
Proof. induction 1; intros [| i]; cbn [nth_error]; auto. apply IHForall2. Qed.

Lemma same_advance c d i : same_config c d -> same_config (advance c i) (advance d i).
Proof.
  intros [H1 H2]. unfold advance. pose proof (same_nth _ _ H1 i) as Hn. destruct (nth_error (fst c) i) as [p |], (nth_error (fst d) i) as [q |]; try contradiction; [| split; assumption].
  rewrite <- H2. pose proof (same_step p q (snd c) Hn) as Hs. destruct (step1 p (snd c)) as [[p' s1] |], (step1 q (snd c)) as [[q' s2] |]; try contradiction; [| split; assumption].
  destruct Hs as [Hs ->]. split; [apply same_replace; assumption | reflexivity].
Qed.

Lemma same_interleave sched : forall c d, same_config c d -> same_config (interleave sched c) (interleave sched d).
Proof. induction sched as [| i sched IH]; intros c d H; [exact H |]. apply IH, same_advance, H. Qed.

Lemma same_answered c d i : same_config c d -> answered c i = answered d i.
Proof.
  intros [H _]. unfold answered. pose proof (same_nth _ _ H i) as Hn. destruct (nth_error (fst c) i) as [p |], (nth_error (fst d) i) as [q |]; try contradiction; [| reflexivity].
  destruct Hn; reflexivity.
Qed.

Lemma find_same pid s : (forall x, s = Some x -> clean_selector x) -> same (m_find_relationships pid s) (repo_find_relationships pid (omap plain_selector s)).
Proof. intros H. constructor. intros es. fold (found_m s es). rewrite (found_clean _ _ H). apply same_refl. Qed.

Lemma serve_same E q : clean_request q -> same (m_serve E q) (serve E (plain_request q)).
Proof.
  destruct q as [pid s | pid s | q]; intros Hc; [| | apply same_refl]; cbn [m_serve plain_request serve].
  - apply same_rbind; [| intros; apply same_refl]. unfold m_find_relationship_records, find_relationship_records. apply same_pbind; [apply same_refl |].
    intros [rec |]; [| apply same_refl]. apply same_rbind; [apply same_refl |]. intros _. unfold repo_find_relationship_records.
    apply same_rbind; [| intros; apply same_refl]. apply find_same. intros x ->. exact Hc.
  - apply same_rbind; [| intros; apply same_refl]. unfold m_delete_relationships, delete_relationships, repo_delete_relationships.
    apply same_rbind; [| intros; apply same_refl]. apply find_same. intros x ->. exact Hc.
Qed.

(** ** Encoding and decoding *)

Definition new_of (e : entity) : m_entity := mkME fresh (e_res e) (e_id e).
Definition new_subject (x : subject) : m_subject :=
  mkMS fresh match x with
             | SEntity e => MVEntity (new_of e)
             | SEntitySet o rel => MVSet fresh (omap new_of o) rel
             | SResourceSet rs => MVRes fresh rs
             | SUnset => MVUnset
             end.
Definition new_obj (x : obj_selector) : m_obj_selector :=
  match x with OSObject e => MOObject (omap new_of e) | OSResource rs => MOResource rs | OSWild => MOWild | OSUnset => MOUnset end.
Definition new_subj (x : subj_selector) : m_subj_selector :=
  match x with USSubject u => MUSubject (omap new_subject u) | USResource rs => MUResource rs | USWild => MUWild | USUnset => MUUnset end.
Definition new_selector (x : selector) : m_selector := mkMSel (omap new_obj (s_obj x)) (s_rel x) (omap new_subj (s_subj x)).

Lemma new_selector_clean x : clean_selector (new_selector x) /\ plain_selector (new_selector x) = x.
Proof.
  destruct x as [o l u]. unfold new_selector, plain_selector, clean_selector. cbn [s_obj s_rel s_subj m_obj m_rel m_subj]. split; [split |].
  - intros e. destruct o as [[[x |] | | |] |]; cbn; try discriminate. intros [= <-]. reflexivity.
  - intros y. destruct u as [[[x |] | | |] |]; cbn; try discriminate. intros [= <-]. split; [reflexivity |]. cbn. destruct x as [e | [e |] r | r |]; cbn; try reflexivity; try exact I; (split; [reflexivity |]); [intros z [= <-]; reflexivity | discriminate].
  - f_equal.
    + destruct o as [[[[a b] |] | | |] |]; reflexivity.
    + destruct u as [[[[[a b] | [[a b] |] r | r |] |] | | |] |]; reflexivity.
Qed.

Lemma m_entity_round d e : all_utf8 (entity_texts e) -> short (put_fields (fs_entity e)) -> message m_step_entity (S d) new_entity (put_fields (fs_entity e)) = Some (new_of e).
Proof.
  intros Ht Hs. apply utf8_pair in Ht as [H1 H2]. rewrite message_put; [| apply simple_entity | exact Hs]. destruct e as [rs i]. unfold fs_entity. cbn [e_res e_id] in *.
  rewrite fold_opt_app, (fold_str _ _ _ (fun s => mkME fresh s "")) by auto.
  rewrite (fold_str _ _ _ (fun s => mkME fresh rs s)) by auto. reflexivity.
Qed.

Lemma m_entity_set_round d o rel : utf8_valid rel = true -> all_utf8 (opt_texts entity_texts o) -> short (put_fields (fs_entity_set o rel)) ->
  message m_step_entity_set (S (S d)) (fresh, None, ""%string) (put_fields (fs_entity_set o rel)) = Some (fresh, omap new_of o, rel).
Proof.
  intros Hr Ht Hs. rewrite message_put; [| apply simple_entity_set | exact Hs]. unfold fs_entity_set in *.
  rewrite fold_opt_app, (fold_sub _ _ _ _ (fun o => (fresh, omap new_of o, EmptyString))); [| reflexivity |].
  - rewrite (fold_str _ _ _ (fun s => (fresh, omap new_of o, s))) by auto. reflexivity.
  - intros x ->. cbn [m_step_entity_set fst snd or_else]. rewrite m_entity_round; [reflexivity | exact Ht |]. eapply short_opt; [exact Hs | reflexivity].
Qed.

Lemma m_name_round d t : utf8_valid t = true -> short (put_fields (f_str 1 t)) -> message m_step_name (S d) (fresh, ""%string) (put_fields (f_str 1 t)) = Some (fresh, t).
Proof.
  intros Ht Hs. rewrite message_put; [| simple_tac | exact Hs]. rewrite (fold_str _ _ _ (fun s => (fresh, s))) by auto. reflexivity.
Qed.

Lemma m_subject_round d x : all_utf8 (subject_texts x) -> short (put_fields (fs_subject x)) ->
  message m_step_subject (S (S (S d))) (mkMS fresh MVUnset) (put_fields (fs_subject x)) = Some (new_subject x).
Proof.
  intros Ht Hs. rewrite message_put; [| apply simple_subject | exact Hs].
  destruct x as [e | o rel | rs |]; cbn [fs_subject f_msg fold_opt m_step_subject subject_texts ms_is ms_book] in *; [| | | reflexivity].
  - rewrite m_entity_round; [reflexivity | exact Ht |]. inner Hs. left. reflexivity.
  - apply utf8_cons in Ht as [H1 H2]. rewrite m_entity_set_round; [reflexivity | exact H1 | exact H2 |]. inner Hs. left. reflexivity.
  - apply utf8_one in Ht. rewrite m_name_round; [reflexivity | exact Ht |]. inner Hs. left. reflexivity.
Qed.

Lemma m_obj_selector_round d x : x <> OSObject None -> all_utf8 (match x with OSObject e => opt_texts entity_texts e | OSResource rs => [rs] | _ => [] end) ->
  short (put_fields (fs_obj_selector x)) -> message m_step_obj_selector (S (S d)) MOUnset (put_fields (fs_obj_selector x)) = Some (new_obj x).
Proof.
  intros Hn Ht Hs. rewrite message_put; [| apply simple_obj_selector | exact Hs].
  destruct x as [[e |] | rs | |]; cbn [fs_obj_selector f_msg fold_opt m_step_obj_selector fs_member opt_texts] in *; [| congruence | | reflexivity | reflexivity].
  - rewrite m_entity_round; [reflexivity | exact Ht |]. inner Hs. left. reflexivity.
  - apply utf8_one in Ht. rewrite text_ok by exact Ht. reflexivity.
Qed.

Lemma m_subj_selector_round d x : x <> USSubject None -> all_utf8 (match x with USSubject u => opt_texts subject_texts u | USResource rs => [rs] | _ => [] end) ->
  short (put_fields (fs_subj_selector x)) -> message m_step_subj_selector (S (S (S (S d)))) MUUnset (put_fields (fs_subj_selector x)) = Some (new_subj x).
Proof.
  intros Hn Ht Hs. rewrite message_put; [| apply simple_subj_selector | exact Hs].
  destruct x as [[u |] | rs | |]; cbn [fs_subj_selector f_msg fold_opt m_step_subj_selector fs_member opt_texts] in *; [| congruence | | reflexivity | reflexivity].
  - rewrite m_subject_round; [reflexivity | exact Ht |]. inner Hs. left. reflexivity.
  - apply utf8_one in Ht. rewrite text_ok by exact Ht. reflexivity.
Qed.

Lemma m_selector_round d x : selector_ok x -> all_utf8 (selector_texts x) -> short (put_fields (fs_selector x)) ->
  m_decode_selector (S (S (S (S (S d))))) (put_fields (fs_selector x)) = Some (new_selector x).
Proof.
  intros [Hn1 Hn2] Ht Hs. unfold m_decode_selector. rewrite message_put; [| apply simple_selector | exact Hs]. destruct x as [o l u]. unfold fs_selector, selector_texts in *. cbn [s_obj s_rel s_subj] in *.
  apply utf8_app in Ht as [H1 Ht]. apply utf8_app in Ht as [H2 H3].
  rewrite fold_opt_app, (fold_sub _ _ _ _ (fun o => mkMSel (omap new_obj o) None None)); [| reflexivity |].
  - rewrite fold_opt_app, (fold_sub _ _ _ _ (fun l => mkMSel (omap new_obj o) l None)); [| reflexivity |].
    + rewrite (fold_sub _ _ _ _ (fun u => mkMSel (omap new_obj o) l (omap new_subj u))); [reflexivity | reflexivity |].
      intros x ->. cbn [m_step_selector m_obj m_rel m_subj or_else]. rewrite m_subj_selector_round; [reflexivity | congruence | exact H3 |]. inside Hs.
    + intros x ->. cbn [m_step_selector m_obj m_rel m_subj or_else]. rewrite rel_selector_round; [reflexivity | exact H2 |]. inside Hs.
  - intros x ->. cbn [m_step_selector m_obj m_rel m_subj or_else]. rewrite m_obj_selector_round; [reflexivity | congruence | exact H1 |]. inside Hs.
Qed.
