(** Facts about the messages of the gRPC services. *)
From Coq Require Import Sorted Permutation.
From Verif Require Import Base Domain Lexer Store Search Explain Yaml Service Dump Api Wire SpecWire Rpc SpecRpc BaseFacts WireFacts WireServe.
Local Open Scope N_scope.

(** ** Messages that are written are read *)

Lemma fold_sub {A X} (step : A -> field -> option A) n (fs : X -> list field) o (f : option X -> A) a :
  f None = a -> (forall x, o = Some x -> step a (n, WLen (put_fields (fs x))) = Some (f (Some x))) -> fold_opt step (f_opt n fs o) a = Some (f o).
Proof. intros Ha Hx. destruct o as [x |]; cbn [f_opt f_msg fold_opt]; [rewrite (Hx x eq_refl); reflexivity | rewrite Ha; reflexivity]. Qed.

Lemma fold_num {A} (step : A -> field -> option A) n v (f : N -> A) a :
  f 0 = a -> step a (n, WVarint v) = Some (f v) -> fold_opt step (f_int n v) a = Some (f v).
Proof. intros Ha Hv. unfold f_int. destruct (N.eqb_spec v 0) as [-> | H]; cbn [fold_opt]; [rewrite Ha; reflexivity | rewrite Hv; reflexivity]. Qed.

Lemma short_opt {X} n (fs : X -> list field) o x rest : short (put_fields (f_opt n fs o ++ rest)) -> o = Some x -> short (put_fields (fs x)).
Proof. intros H ->. eapply short_in; [exact H | left; reflexivity]. Qed.

Lemma utf8_one s : all_utf8 [s] <-> utf8_valid s = true.
Proof. split; [intros H; apply H; left; reflexivity |]. intros H x [<- | []]. exact H. Qed.
Lemma utf8_pair a b : all_utf8 [a; b] -> utf8_valid a = true /\ utf8_valid b = true.
Proof. intros H. split; apply H; cbn; auto. Qed.
Lemma utf8_some {X} (f : X -> list string) o x : all_utf8 (opt_texts f o) -> o = Some x -> all_utf8 (f x).
Proof. intros H ->. exact H. Qed.

Lemma simple_entity e : Forall simple (fs_entity e).
Proof. unfold fs_entity. simple_tac. Qed.
Lemma simple_entity_set o rel : Forall simple (fs_entity_set o rel).
Proof. unfold fs_entity_set. simple_tac. Qed.
Lemma simple_subject x : Forall simple (fs_subject x).
Proof. destruct x; cbn [fs_subject]; simple_tac. Qed.
Lemma simple_relationship r : Forall simple (fs_relationship r).
Proof. unfold fs_relationship. simple_tac. Qed.

Lemma entity_round d e : all_utf8 (entity_texts e) -> short (put_fields (fs_entity e)) -> message step_entity (S d) (mkEntity "" "") (put_fields (fs_entity e)) = Some e.
Proof.
  intros Ht Hs. apply utf8_pair in Ht as [H1 H2]. rewrite message_put; [| apply simple_entity | exact Hs]. destruct e as [rs i]. unfold fs_entity. cbn [e_res e_id] in *.
  rewrite fold_opt_app, (fold_str _ _ _ (fun s => mkEntity s "")) by auto.
  rewrite (fold_str _ _ _ (fun s => mkEntity rs s)) by auto. reflexivity.
Qed.

Lemma entity_set_round d o rel : utf8_valid rel = true -> all_utf8 (opt_texts entity_texts o) -> short (put_fields (fs_entity_set o rel)) ->
  message step_entity_set (S (S d)) (None, ""%string) (put_fields (fs_entity_set o rel)) = Some (o, rel).
Proof.
  intros Hr Ht Hs. rewrite message_put; [| apply simple_entity_set | exact Hs]. unfold fs_entity_set in *.
  rewrite fold_opt_app, (fold_sub _ _ _ _ (fun o => (o, EmptyString))); [| reflexivity |].
  - rewrite (fold_str _ _ _ (fun s => (o, s))) by auto. reflexivity.
  - intros x ->. cbn [step_entity_set fst snd or_else]. rewrite entity_round; [reflexivity | exact Ht |]. eapply short_opt; [exact Hs | reflexivity].
Qed.

Lemma subject_round d x : all_utf8 (subject_texts x) -> short (put_fields (fs_subject x)) -> message step_subject (S (S (S d))) SUnset (put_fields (fs_subject x)) = Some x.
Proof.
  intros Ht Hs. rewrite message_put; [| apply simple_subject | exact Hs].
  destruct x as [e | o rel | rs |]; cbn [fs_subject f_msg fold_opt step_subject subject_texts] in *; [| | | reflexivity].
  - rewrite entity_round; [reflexivity | exact Ht |]. inner Hs. left. reflexivity.
  - apply utf8_cons in Ht as [H1 H2]. rewrite entity_set_round; [reflexivity | exact H1 | exact H2 |]. inner Hs. left. reflexivity.
  - apply utf8_one in Ht. rewrite cu_round; [reflexivity | exact Ht |]. inner Hs. left. reflexivity.
Qed.

Ltac inside Hs := inner Hs; repeat (apply in_or_app; first [left; left; reflexivity | right]); left; reflexivity.

Lemma relationship_round d r : all_utf8 (relationship_texts r) -> short (put_fields (fs_relationship r)) ->
  message step_relationship (S (S (S (S d)))) (mkRel None "" None) (put_fields (fs_relationship r)) = Some r.
Proof.
  intros Ht Hs. rewrite message_put; [| apply simple_relationship | exact Hs]. destruct r as [o rel u]. unfold fs_relationship, relationship_texts in *. cbn [r_object r_relation r_subject] in *.
  apply utf8_cons in Ht as [H1 Ht]. apply utf8_app in Ht as [H2 H3].
  rewrite fold_opt_app, (fold_sub _ _ _ _ (fun o => mkRel o "" None)); [| reflexivity |].
  - rewrite fold_opt_app, (fold_str _ _ _ (fun s => mkRel o s None)) by auto.
    rewrite (fold_sub _ _ _ _ (fun u => mkRel o rel u)); [reflexivity | reflexivity |].
    intros x ->. cbn [step_relationship r_object r_relation r_subject or_else]. rewrite subject_round; [reflexivity | exact H3 |]. inside Hs.
  - intros x ->. cbn [step_relationship r_object r_relation r_subject or_else]. rewrite entity_round; [reflexivity | exact H2 |]. inside Hs.
Qed.

Lemma simple_rel_record r : Forall simple (fs_rel_record r).
Proof. unfold fs_rel_record. simple_tac. Qed.

Lemma rel_record_round d r : all_utf8 (record_texts r) -> time_ok (rr_created r) -> short (put_fields (fs_rel_record r)) ->
  message step_rel_record (S (S (S (S (S d))))) no_record (put_fields (fs_rel_record r)) = Some r.
Proof.
  intros Ht Hc Hs. rewrite message_put; [| apply simple_rel_record | exact Hs]. destruct r as [pid r t ap]. unfold fs_rel_record, record_texts in *. cbn [rr_policy rr_rel rr_created rr_app] in *.
  apply utf8_cons in Ht as [H1 H2]. unfold no_record.
  rewrite fold_opt_app, (fold_str _ _ _ (fun s => mkRRec s no_relationship 0 "")) by auto.
  rewrite fold_opt_app. cbn [f_msg fold_opt step_rel_record rr_policy rr_rel rr_created rr_app]. unfold no_relationship at 1. rewrite relationship_round; [| exact H2 | inside Hs].
  cbn [omap]. rewrite fold_opt_app. cbn [f_msg fold_opt step_rel_record rr_policy rr_rel rr_created rr_app]. rewrite (time_round _ 0 t eq_refl Hc). cbn [omap].
  rewrite (fold_bytes _ _ _ (fun s => mkRRec pid r t s)) by reflexivity. reflexivity.
Qed.

Lemma simple_obj_selector x : Forall simple (fs_obj_selector x).
Proof. destruct x; cbn [fs_obj_selector]; try (constructor; [num | constructor]); simple_tac. Qed.
Lemma simple_rel_selector x : Forall simple (fs_rel_selector x).
Proof. destruct x; cbn [fs_rel_selector]; try (constructor; [num | constructor]); simple_tac. Qed.
Lemma simple_subj_selector x : Forall simple (fs_subj_selector x).
Proof. destruct x; cbn [fs_subj_selector]; try (constructor; [num | constructor]); simple_tac. Qed.
Lemma simple_selector x : Forall simple (fs_selector x).
Proof. unfold fs_selector. simple_tac. Qed.
Lemma simple_access a : Forall simple (fs_access a).
Proof. unfold fs_access. simple_tac. Qed.
Lemma simple_rnode n : Forall simple (fs_rnode n).
Proof. destruct n; cbn [fs_rnode]; simple_tac. Qed.

Lemma obj_selector_round d x : x <> OSObject None -> all_utf8 (match x with OSObject e => opt_texts entity_texts e | OSResource rs => [rs] | _ => [] end) ->
  short (put_fields (fs_obj_selector x)) -> message step_obj_selector (S (S d)) OSUnset (put_fields (fs_obj_selector x)) = Some x.
Proof.
  intros Hn Ht Hs. rewrite message_put; [| apply simple_obj_selector | exact Hs].
  destruct x as [[e |] | rs | |]; cbn [fs_obj_selector f_msg fold_opt step_obj_selector fs_member opt_texts] in *; [| congruence | | reflexivity | reflexivity].
  - unfold no_entity. rewrite entity_round; [reflexivity | exact Ht |]. inner Hs. left. reflexivity.
  - apply utf8_one in Ht. rewrite text_ok by exact Ht. reflexivity.
Qed.

Lemma rel_selector_round d x : all_utf8 (match x with LSName rel => [rel] | _ => [] end) ->
  short (put_fields (fs_rel_selector x)) -> message step_rel_selector (S (S d)) LSUnset (put_fields (fs_rel_selector x)) = Some x.
Proof.
  intros Ht Hs. rewrite message_put; [| apply simple_rel_selector | exact Hs].
  destruct x as [rel | |]; cbn [fs_rel_selector f_msg fold_opt step_rel_selector] in *; [| reflexivity | reflexivity].
  apply utf8_one in Ht. rewrite text_ok by exact Ht. reflexivity.
Qed.

Lemma subj_selector_round d x : x <> USSubject None -> all_utf8 (match x with USSubject u => opt_texts subject_texts u | USResource rs => [rs] | _ => [] end) ->
  short (put_fields (fs_subj_selector x)) -> message step_subj_selector (S (S (S (S d)))) USUnset (put_fields (fs_subj_selector x)) = Some x.
Proof.
  intros Hn Ht Hs. rewrite message_put; [| apply simple_subj_selector | exact Hs].
  destruct x as [[u |] | rs | |]; cbn [fs_subj_selector f_msg fold_opt step_subj_selector fs_member opt_texts] in *; [| congruence | | reflexivity | reflexivity].
  - rewrite subject_round; [reflexivity | exact Ht |]. inner Hs. left. reflexivity.
  - apply utf8_one in Ht. rewrite text_ok by exact Ht. reflexivity.
Qed.

Lemma selector_round d x : selector_ok x -> all_utf8 (selector_texts x) -> short (put_fields (fs_selector x)) ->
  message step_selector (S (S (S (S (S d))))) (mkSel None None None) (put_fields (fs_selector x)) = Some x.
Proof.
  intros [Hn1 Hn2] Ht Hs. rewrite message_put; [| apply simple_selector | exact Hs]. destruct x as [o l u]. unfold fs_selector, selector_texts in *. cbn [s_obj s_rel s_subj] in *.
  apply utf8_app in Ht as [H1 Ht]. apply utf8_app in Ht as [H2 H3].
  rewrite fold_opt_app, (fold_sub _ _ _ _ (fun o => mkSel o None None)); [| reflexivity |].
  - rewrite fold_opt_app, (fold_sub _ _ _ _ (fun l => mkSel o l None)); [| reflexivity |].
    + rewrite (fold_sub _ _ _ _ (fun u => mkSel o l u)); [reflexivity | reflexivity |].
      intros x ->. cbn [step_selector s_obj s_rel s_subj or_else]. rewrite subj_selector_round; [reflexivity | congruence | exact H3 |]. inside Hs.
    + intros x ->. cbn [step_selector s_obj s_rel s_subj or_else]. rewrite rel_selector_round; [reflexivity | exact H2 |]. inside Hs.
  - intros x ->. cbn [step_selector s_obj s_rel s_subj or_else]. rewrite obj_selector_round; [reflexivity | congruence | exact H1 |]. inside Hs.
Qed.

Lemma access_round d a : all_utf8 (access_texts a) -> short (put_fields (fs_access a)) ->
  message step_access (S (S d)) (mkAccess None "" None) (put_fields (fs_access a)) = Some a.
Proof.
  intros Ht Hs. rewrite message_put; [| apply simple_access | exact Hs]. destruct a as [o rel u]. unfold fs_access, access_texts in *. cbn [a_object a_relation a_subject] in *.
  apply utf8_cons in Ht as [H1 Ht]. apply utf8_app in Ht as [H2 H3].
  rewrite fold_opt_app, (fold_sub _ _ _ _ (fun o => mkAccess o "" None)); [| reflexivity |].
  - rewrite fold_opt_app, (fold_str _ _ _ (fun s => mkAccess o s None)) by auto.
    rewrite (fold_sub _ _ _ _ (fun u => mkAccess o rel u)); [reflexivity | reflexivity |].
    intros x ->. cbn [step_access a_object a_relation a_subject or_else]. unfold no_entity. rewrite entity_round; [reflexivity | exact H3 |]. inside Hs.
  - intros x ->. cbn [step_access a_object a_relation a_subject or_else]. unfold no_entity. rewrite entity_round; [reflexivity | exact H2 |]. inside Hs.
Qed.

Lemma rnode_round d n : all_utf8 (rnode_texts n) -> short (put_fields (fs_rnode n)) ->
  message step_rnode (S (S (S d))) NUnset (put_fields (fs_rnode n)) = Some n.
Proof.
  intros Ht Hs. rewrite message_put; [| apply simple_rnode | exact Hs].
  destruct n as [o rel | o | rs |]; cbn [fs_rnode f_msg fold_opt step_rnode rnode_texts] in *; [| | | reflexivity].
  - apply utf8_cons in Ht as [H1 H2]. rewrite entity_set_round; [reflexivity | exact H1 | exact H2 |]. inner Hs. left. reflexivity.
  - assert (Hi : short (put_fields (f_opt 1 fs_entity o))) by (inner Hs; left; reflexivity). rewrite message_put; [| simple_tac | exact Hi].
    rewrite (fold_sub _ _ _ _ (fun o => o)); [reflexivity | reflexivity |]. intros x ->. cbn [step_entity_node or_else]. unfold no_entity. rewrite entity_round; [reflexivity | exact Ht |].
    inner Hi. left. reflexivity.
  - apply utf8_one in Ht. rewrite cu_round; [reflexivity | exact Ht |]. inner Hs. left. reflexivity.
Qed.

(** ** Requests *)

Lemma enum_small v : enum_ok v -> enum_wire v < 18446744073709551616.
Proof. unfold enum_ok, enum_wire. intros H. destruct (N.ltb_spec v 2147483648); lia. Qed.
Lemma enum_round v : enum_ok v -> enum_of (enum_wire v) = v.
Proof.
  unfold enum_ok, enum_wire, enum_of. intros H. destruct (N.ltb_spec v 2147483648); [apply N.mod_small; lia |].
  replace (v + (18446744073709551616 - 4294967296)) with (v + 4294967295 * 4294967296) by reflexivity. rewrite N.mod_add by lia. apply N.mod_small. exact H.
Qed.
Lemma enum_zero v : enum_ok v -> enum_wire v = 0 -> v = 0.
Proof. intros H Hz. rewrite <- (enum_round v H), Hz. reflexivity. Qed.
Lemma format_code_ok f : format_ok f -> enum_ok (format_code f).
Proof. unfold enum_ok. destruct f; cbn; intros H; lia. Qed.
Lemma format_round f : format_ok f -> format_of (format_code f) = f.
Proof. destruct f as [| | | n]; cbn; intros H; try reflexivity. destruct n as [| [[] | [] |]]; try lia; reflexivity. Qed.

(** Fields that a step does not know, or that are not the enum. *)
Lemma fold_enum {X} k (step : nat -> X -> field -> option X) d fs v : (forall f, In f fs -> match f with (j, WVarint _) => j <> k | _ => True end) ->
  forall x, fold_opt (step_enum k step d) fs (x, v) = omap (fun y => (y, v)) (fold_opt (step d) fs x).
Proof.
  induction fs as [| f fs IH]; intros Hf x; [reflexivity |]. cbn [fold_opt].
  assert (He : step_enum k step d (x, v) f = omap (fun y => (y, v)) (step d x f)).
  { pose proof (Hf f (or_introl eq_refl)) as H. destruct f as [j []]; cbn [step_enum fst snd]; try reflexivity. destruct (N.eqb_spec j k); [contradiction | reflexivity]. }
  rewrite He. destruct (step d x f) as [y |]; cbn [omap]; [| reflexivity]. apply IH. intros g Hg. apply Hf. right. exact Hg.
Qed.

Lemma enum_field {X} k (step : nat -> X -> field -> option X) d x v : enum_ok v -> fold_opt (step_enum k step d) (f_int k (enum_wire v)) (x, 0) = Some (x, v).
Proof.
  intros Hv. unfold f_int. destruct (N.eqb_spec (enum_wire v) 0) as [H | H]; cbn [fold_opt step_enum fst].
  - rewrite (enum_zero v Hv H). reflexivity.
  - rewrite N.eqb_refl, enum_round by exact Hv. reflexivity.
Qed.

Lemma str_no_enum n s k f : In f (f_str n s) -> match f with (j, WVarint _) => j <> k | _ => True end.
Proof. destruct s; cbn [f_str]; [intros [] |]. intros [<- | []]. exact I. Qed.
Lemma opt_no_enum {X} n (fs : X -> list field) o k f : In f (f_opt n fs o) -> match f with (j, WVarint _) => j <> k | _ => True end.
Proof. destruct o; cbn [f_opt]; [| intros []]. intros [<- | []]. exact I. Qed.

Lemma simple_about {X} (fs : X -> list field) pid o : Forall simple (fs_about fs pid o).
Proof. unfold fs_about. simple_tac. Qed.

Lemma about_round {X} (step : nat -> X -> field -> option X) new (fs : X -> list field) d pid o : utf8_valid pid = true ->
  (forall x, o = Some x -> message step d new (put_fields (fs x)) = Some x) -> fold_opt (step_about step new d) (fs_about fs pid o) ("", None) = Some (pid, o).
Proof.
  intros Hp Ho. unfold fs_about. rewrite fold_opt_app, (fold_str _ _ _ (fun s => (s, None))) by auto.
  rewrite (fold_sub _ _ _ _ (fun o => (pid, o))); [reflexivity | reflexivity |]. intros x ->. cbn [step_about fst snd or_else]. rewrite (Ho x eq_refl). reflexivity.
Qed.

Lemma short_about {X} (fs : X -> list field) pid x rest : short (put_fields (fs_about fs pid (Some x) ++ rest)) -> short (put_fields (fs x)).
Proof. intros Hs. unfold fs_about in Hs. inner Hs. apply in_or_app. left. apply in_or_app. right. left. reflexivity. Qed.

Lemma about_no_enum {X} (fs : X -> list field) pid o k f : In f (fs_about fs pid o) -> match f with (j, WVarint _) => j <> k | _ => True end.
Proof. unfold fs_about. intros H. apply in_app_or in H as [H | H]; [eapply str_no_enum; exact H | eapply opt_no_enum; exact H]. Qed.

Lemma simple_sent ord d : Forall simple (fs_sent ord d).
Proof. destruct d; cbn [fs_sent]; [simple_tac | constructor; [num | constructor] | constructor]. Qed.

Lemma sent_round lim ord d : (3 <= lim)%nat -> (forall l, Permutation (ord l) l) -> sent_ok lim d -> all_utf8 (sent_texts d) -> short (put_fields (fs_sent ord d)) ->
  message step_sent (pred lim) SentUnset (put_fields (fs_sent ord d)) = Some d.
Proof.
  intros Hl Ho Hd Ht Hs. destruct lim as [| [| l]]; [lia | lia |]. cbn [pred] in *. rewrite message_put; [| apply simple_sent | exact Hs].
  destruct d as [p | s |]; cbn [fs_sent f_msg fold_opt step_sent sent_texts sent_ok pred] in *; [| | reflexivity].
  - rewrite policy_round; [reflexivity | | apply Ho | inner Hs; left; reflexivity]. split; [exact Ht |]. exact Hd.
  - apply utf8_one in Ht. rewrite text_ok by exact Ht. reflexivity.
Qed.

Lemma create_round lim ord d ap : (3 <= lim)%nat -> (forall l, Permutation (ord l) l) -> when (sent_ok lim) d -> all_utf8 (opt_texts sent_texts d) ->
  (forall x, d = Some x -> short (put_fields (fs_sent ord x))) -> fold_opt (step_create (pred lim)) (f_opt 1 (fs_sent ord) d ++ f_str 2 ap) (None, "") = Some (d, ap).
Proof.
  intros Hl Ho Hd Ht Hs. rewrite fold_opt_app, (fold_sub _ _ _ _ (fun d => (d, EmptyString))); [| reflexivity |].
  - rewrite (fold_bytes _ _ _ (fun s => (d, s))) by reflexivity. reflexivity.
  - intros x ->. cbn [step_create fst snd or_else]. rewrite sent_round; auto.
Qed.

Lemma fold_set_about d fs x ap : (forall f, In f fs -> match f with (3, _) => False | _ => True end) ->
  fold_opt (step_set_request d) fs (x, ap) = omap (fun y => (y, ap)) (fold_opt (step_about step_relationship no_relationship d) fs x).
Proof.
  revert x. induction fs as [| f fs IH]; intros x Hf; [reflexivity |]. cbn [fold_opt].
  assert (He : step_set_request d (x, ap) f = omap (fun y => (y, ap)) (step_about step_relationship no_relationship d x f)).
  { pose proof (Hf f (or_introl eq_refl)) as H. destruct x as [pid o]. fields f; cbn [step_set_request step_about fst snd] in *; try reflexivity; try contradiction.
    - unfold no_relationship. destruct (message step_relationship d _ s); reflexivity.
    - unfold text. destruct (utf8_valid s); reflexivity. }
  rewrite He. destruct (step_about step_relationship no_relationship d x f) as [y |]; cbn [omap]; [| reflexivity]. apply IH. intros g Hg. apply Hf. right. exact Hg.
Qed.

Lemma simple_call ord c lim : proper lim c -> Forall simple (fs_call ord c).
Proof.
  intros [_ H]. destruct c; cbn [fs_call]; repeat (apply Forall_app; split); try apply simple_about; try (apply simple_str; lia); try (apply simple_opt; lia); try constructor;
    (apply simple_int; [lia |]); apply enum_small; try apply format_code_ok; tauto.
Qed.

Lemma call_round lim ord c : (9 <= lim)%nat -> (forall l, Permutation (ord l) l) -> proper lim c -> short (put_fields (fs_call ord c)) ->
  unmarshal_call (method_of c) lim (put_fields (fs_call ord c)) = Some c.
Proof.
  intros Hl Ho Hc Hs. pose proof (simple_call ord c lim Hc) as Hsim. destruct Hc as [Ht Hc].
  assert (Hlim : exists k, lim = S (S (S (S (S (S (S k))))))) by (exists (lim - 7)%nat; lia). destruct Hlim as (k & Hk).
  assert (Hm : forall A (step : nat -> A -> field -> option A) a, message step lim a (put_fields (fs_call ord c)) = fold_opt (step (pred lim)) (fs_call ord c) a).
  { intros A step a. rewrite Hk at 1. rewrite message_put by assumption. rewrite Hk. reflexivity. }
  destruct c as [d ap | d ap st | id | id | | pid r ap | pid r | pid r | pid x | pid x | pid a | pid a f | pid root f | pid f];
    cbn [method_of unmarshal_call]; unfold unmarshal_set_request; rewrite Hm; clear Hm; cbn [fs_call call_texts] in *.
  - rewrite create_round; [reflexivity | lia | exact Ho | exact Hc | exact Ht |]. intros x ->. inner Hs. left. reflexivity.
  - rewrite app_assoc, fold_opt_app, fold_enum.
    + rewrite create_round; [cbn [omap]; rewrite enum_field by tauto; reflexivity | lia | exact Ho | tauto | exact Ht |]. intros x ->. inner Hs. left. reflexivity.
    + intros g Hg. apply in_app_or in Hg as [Hg | Hg]; [eapply opt_no_enum; exact Hg | eapply str_no_enum; exact Hg].
  - apply utf8_one in Ht. rewrite (fold_str _ _ _ (fun s => s)) by auto. reflexivity.
  - apply utf8_one in Ht. rewrite (fold_str _ _ _ (fun s => s)) by auto. reflexivity.
  - reflexivity.
  - apply utf8_cons in Ht as [H1 H2]. rewrite fold_opt_app, fold_set_about.
    + rewrite about_round; [| exact H1 |].
      * cbn [omap]. rewrite (fold_bytes _ _ _ (fun s => (pid, r, s))) by reflexivity. reflexivity.
      * intros x ->. rewrite Hk. cbn [pred]. apply relationship_round; [exact H2 |]. eapply short_about. exact Hs.
    + intros g Hg. unfold fs_about in Hg. apply in_app_or in Hg as [Hg | Hg].
      * destruct pid; [destruct Hg |]. destruct Hg as [<- | []]. exact I.
      * destruct r; [| destruct Hg]. destruct Hg as [<- | []]. exact I.
  - apply utf8_cons in Ht as [H1 H2]. rewrite about_round; [reflexivity | exact H1 |]. intros x ->. rewrite Hk. cbn [pred]. apply relationship_round; [exact H2 |].
    rewrite <- (app_nil_r (fs_about _ _ _)) in Hs. eapply short_about. exact Hs.
  - apply utf8_cons in Ht as [H1 H2]. rewrite about_round; [reflexivity | exact H1 |]. intros x ->. rewrite Hk. cbn [pred]. apply relationship_round; [exact H2 |].
    rewrite <- (app_nil_r (fs_about _ _ _)) in Hs. eapply short_about. exact Hs.
  - apply utf8_cons in Ht as [H1 H2]. rewrite about_round; [reflexivity | exact H1 |]. intros y ->. rewrite Hk. cbn [pred]. apply selector_round; [exact Hc | exact H2 |].
    rewrite <- (app_nil_r (fs_about _ _ _)) in Hs. eapply short_about. exact Hs.
  - apply utf8_cons in Ht as [H1 H2]. rewrite about_round; [reflexivity | exact H1 |]. intros y ->. rewrite Hk. cbn [pred]. apply selector_round; [exact Hc | exact H2 |].
    rewrite <- (app_nil_r (fs_about _ _ _)) in Hs. eapply short_about. exact Hs.
  - apply utf8_cons in Ht as [H1 H2]. rewrite about_round; [reflexivity | exact H1 |]. intros y ->. rewrite Hk. cbn [pred]. apply access_round; [exact H2 |].
    rewrite <- (app_nil_r (fs_about _ _ _)) in Hs. eapply short_about. exact Hs.
  - apply utf8_cons in Ht as [H1 H2]. rewrite fold_opt_app, fold_enum by (intros g Hg; eapply about_no_enum; exact Hg). rewrite about_round; [| exact H1 |].
    + cbn [omap]. rewrite enum_field by (apply format_code_ok, Hc). cbn [omap fst snd]. rewrite format_round by exact Hc. reflexivity.
    + intros y ->. rewrite Hk. cbn [pred]. apply access_round; [exact H2 |]. eapply short_about. exact Hs.
  - apply utf8_cons in Ht as [H1 H2]. rewrite fold_opt_app, fold_enum by (intros g Hg; eapply about_no_enum; exact Hg). rewrite about_round; [| exact H1 |].
    + cbn [omap]. rewrite enum_field by (apply format_code_ok, Hc). cbn [omap fst snd]. rewrite format_round by exact Hc. reflexivity.
    + intros y ->. rewrite Hk. cbn [pred]. apply rnode_round; [exact H2 |]. eapply short_about. exact Hs.
  - apply utf8_one in Ht. rewrite fold_opt_app, fold_enum by (intros g Hg; eapply str_no_enum; exact Hg).
    rewrite (fold_str _ _ _ (fun s => s)) by auto. cbn [omap]. rewrite enum_field by exact Hc. reflexivity.
Qed.

(** ** Responses *)

(** The method that answers with a message. *)
Definition answers (r : reply) : method :=
  match r with
  | PCreated _ => MCreatePolicy
  | PUpdated => MUpdatePolicy
  | PDeletedPolicy _ _ => MDeletePolicy
  | PPolicy _ => MGetPolicy
  | PPolicyIds _ => MListPolicyIds
  | PSet _ => MSetRelationship
  | PDeleted _ => MDeleteRelationship
  | PRecord _ => MGetRelationship
  | PRecords _ => MFindRelationshipRecords
  | PCount _ => MDeleteRelationships
  | PDecision _ => MCheck
  | PExplained _ _ _ => MExplainCheck
  | PExpanded _ _ => MExpand
  | PDumped _ => MDumpRelationships
  end.

Definition good_record (lim : nat) (r : policy_record) : Prop := keeps (pred (pred lim)) (pr_policy r) /\ time_ok (pr_created r).
Definition good_rel (r : rel_record) : Prop := all_utf8 (record_texts r) /\ time_ok (rr_created r).

Definition good_reply (lim : nat) (r : reply) : Prop :=
  match r with
  | PCreated r | PPolicy r => when (good_record lim) r
  | PPolicyIds l => all_utf8 l
  | PRecord r => when good_rel r
  | PRecords l => when (fun l => forall o, In o l -> when good_rel o) l
  | PExplained t _ f | PExpanded t f => utf8_valid t = true /\ format_ok f
  | PDumped t => when (fun t => utf8_valid t = true) t
  | _ => True
  end.

Lemma good_reply_texts lim r : good_reply lim r -> all_utf8 (reply_texts r).
Proof.
  destruct r as [r | | | r | l | | | r | l | | | t b f | t f | t]; cbn [good_reply reply_texts]; intros H; try apply utf8_nil.
  - destruct r; cbn [opt_texts when] in *; [apply H | apply utf8_nil].
  - destruct r; cbn [opt_texts when] in *; [apply H | apply utf8_nil].
  - exact H.
  - destruct r; cbn [opt_texts when] in *; [apply H | apply utf8_nil].
  - destruct l as [l |]; cbn [opt_texts when] in *; [| apply utf8_nil]. apply all_flat. intros o Ho. specialize (H o Ho). destruct o; cbn [opt_texts when] in *; [apply H | apply utf8_nil].
  - apply utf8_one. tauto.
  - apply utf8_one. tauto.
  - destruct t; cbn [opt_texts when] in *; [apply utf8_one; exact H | apply utf8_nil].
Qed.

Lemma bool_small (b : bool) : (if b then 1 else 0) < 18446744073709551616.
Proof. destruct b; lia. Qed.

Lemma simple_bool n b : 0 < n < 16 -> Forall simple (f_bool n b).
Proof. intros H. apply simple_int; [lia |]. apply bool_small. Qed.

Lemma bool_field {A} (step : A -> field -> option A) n b (f : bool -> A) a : f false = a -> step a (n, WVarint 1) = Some (f true) -> fold_opt step (f_bool n b) a = Some (f b).
Proof. intros H1 H2. destruct b; cbn [f_bool f_int N.eqb fold_opt]; [rewrite H2 | rewrite H1]; reflexivity. Qed.

Lemma simple_records l : Forall simple (fs_records l).
Proof. apply simple_list. lia. Qed.

Lemma records_round d l : (forall o, In o l -> when good_rel o) -> short (put_fields (fs_records l)) ->
  message (step_many step_rel_record no_record) (S (S (S (S (S (S d)))))) [] (put_fields (fs_records l)) = Some (map (fun o => or_else o no_record) l).
Proof.
  intros Hl Hs. rewrite message_put; [| apply simple_records | exact Hs]. unfold fs_records.
  rewrite (fold_opt_list _ 1 (fs_member fs_rel_record) (fun l o => l ++ [or_else o no_record]) (fun _ => True)); [| | exact I].
  - f_equal. assert (H : forall l0, fold_left (fun l o => l ++ [or_else o no_record]) l l0 = l0 ++ map (fun o => or_else o no_record) l); [| apply (H [])].
    clear. induction l as [| o l IH]; intros l0; cbn [fold_left map]; [rewrite app_nil_r; reflexivity |]. rewrite IH, <- app_assoc. reflexivity.
  - intros a o Ho _. split; [| exact I]. cbn [step_many]. specialize (Hl o Ho). destruct o as [r |]; cbn [fs_member when or_else] in *; [| reflexivity].
    destruct Hl as [H1 H2]. rewrite rel_record_round; [reflexivity | exact H1 | exact H2 |]. inner Hs. apply in_flat_map. exists (Some r). split; [exact Ho | left; reflexivity].
Qed.

Lemma simple_reply ord r lim : good_reply lim r -> reply_fits ord r -> Forall simple (fs_reply ord r).
Proof.
  intros Hg [_ H]. destruct r as [r | | | r | l | | | r | l | | | t b f | t f | t]; cbn [fs_reply]; repeat (apply Forall_app; split);
    try (apply simple_opt; lia); try (apply simple_bool; lia); try (apply simple_str; lia); try (apply simple_list; lia); try constructor;
    try (apply simple_int; [lia |]; first [exact H | apply enum_small, format_code_ok, Hg]).
  destruct t; [constructor; [num | constructor] | constructor].
Qed.

Lemma one_round {X} (step : nat -> X -> field -> option X) new (fs : X -> list field) d o :
  (forall x, o = Some x -> message step d new (put_fields (fs x)) = Some x) -> fold_opt (step_one step new d) (f_opt 1 fs o) None = Some o.
Proof. intros H. rewrite (fold_sub _ _ _ _ (fun o => o)); [reflexivity | reflexivity |]. intros x ->. cbn [step_one or_else]. rewrite (H x eq_refl). reflexivity. Qed.

Lemma reply_round lim ord r : (9 <= lim)%nat -> (forall l, Permutation (ord l) l) -> good_reply lim r -> reply_fits ord r ->
  unmarshal_reply (answers r) lim (put_fields (fs_reply ord r)) = Some (as_received r).
Proof.
  intros Hl Ho Hg Hf. pose proof (simple_reply ord r lim Hg Hf) as Hsim. destruct Hf as [Hs Hn].
  assert (Hlim : exists k, lim = S (S (S (S (S (S (S (S k)))))))) by (exists (lim - 8)%nat; lia). destruct Hlim as (k & Hk).
  assert (Hm : forall A (step : nat -> A -> field -> option A) a, message step lim a (put_fields (fs_reply ord r)) = fold_opt (step (pred lim)) (fs_reply ord r) a).
  { intros A step a. rewrite Hk at 1. rewrite message_put by assumption. rewrite Hk. reflexivity. }
  destruct r as [r | | fd n | r | l | b | b | r | l | n | b | t b f | t f | t]; cbn [answers unmarshal_reply]; rewrite Hm; clear Hm; cbn [fs_reply good_reply as_received] in *.
  - rewrite one_round; [reflexivity |]. intros x ->. destruct Hg as [H1 H2]. apply (record_round (pred lim)); [exact H1 | exact H2 | apply Ho |]. inner Hs. left. reflexivity.
  - reflexivity.
  - rewrite fold_opt_app, (bool_field _ _ _ (fun b => (b, 0))) by reflexivity.
    rewrite (fold_num _ _ _ (fun n => (fd, n))) by reflexivity. reflexivity.
  - rewrite one_round; [reflexivity |]. intros x ->. destruct Hg as [H1 H2]. apply (record_round (pred lim)); [exact H1 | exact H2 | apply Ho |]. inner Hs. left. reflexivity.
  - rewrite (fold_opt_list _ 1 (f_str 1) (fun l s => l ++ [s]) (fun _ => True)); [rewrite push_list; reflexivity | | exact I].
    intros a s Hi. split; [| exact I]. cbn [step_many]. rewrite Hk. cbn [pred]. rewrite cu_round; [reflexivity | apply Hg, Hi |]. inner Hs. apply in_flat_map. exists s. split; [exact Hi | left; reflexivity].
  - rewrite (bool_field _ _ _ (fun b => b)) by reflexivity. reflexivity.
  - rewrite (bool_field _ _ _ (fun b => b)) by reflexivity. reflexivity.
  - rewrite one_round; [reflexivity |]. intros x ->. destruct Hg as [H1 H2]. rewrite Hk. apply rel_record_round; [exact H1 | exact H2 |]. inner Hs. left. reflexivity.
  - destruct l as [l |]; [| reflexivity]. cbn [f_opt f_msg fold_opt step_one or_else]. rewrite Hk. cbn [pred]. rewrite records_round; [cbn [omap]; rewrite map_map; reflexivity | exact Hg |].
    inner Hs. left. reflexivity.
  - rewrite (fold_num _ _ _ (fun n => n)) by reflexivity. reflexivity.
  - rewrite one_round; [reflexivity |]. intros x ->. rewrite Hk. cbn [pred].
    rewrite message_put; [| apply simple_bool; lia | inner Hs; left; reflexivity]. rewrite (bool_field _ _ _ (fun b => b)) by reflexivity. reflexivity.
  - destruct Hg as [H1 H2]. rewrite app_assoc, fold_opt_app, fold_enum.
    + rewrite fold_opt_app, (fold_str _ _ _ (fun s => (s, false))) by auto. rewrite (bool_field _ _ _ (fun b => (t, b))) by reflexivity.
      cbn [omap]. rewrite enum_field by (apply format_code_ok, H2). cbn [omap fst snd]. rewrite format_round by exact H2. reflexivity.
    + intros g Hi. apply in_app_or in Hi as [Hi | Hi]; [eapply str_no_enum; exact Hi |]. destruct b; [| destruct Hi]. destruct Hi as [<- | []]. discriminate.
  - destruct Hg as [H1 H2]. rewrite fold_opt_app, fold_enum by (intros g Hi; eapply str_no_enum; exact Hi).
    rewrite (fold_str _ _ _ (fun s => s)) by auto. cbn [omap]. rewrite enum_field by (apply format_code_ok, H2). cbn [omap fst snd]. rewrite format_round by exact H2. reflexivity.
  - destruct t as [t |]; [| reflexivity]. cbn [fold_opt step_dumped when] in *. rewrite text_ok by exact Hg. reflexivity.
Qed.

(** ** What a server receives *)

Lemma enum_of_ok v : enum_ok (enum_of v).
Proof. unfold enum_ok, enum_of. apply N.mod_lt. discriminate. Qed.

Lemma format_of_ok v : enum_ok v -> format_ok (format_of v).
Proof. unfold enum_ok. intros H. destruct v as [| [[p | p |] | [p | p |] |]]; cbn [format_of format_ok]; try exact I; lia. Qed.

Ltac stays H := try (injection H as <-; assumption).

Lemma obj_selector_recv d x0 b x : x0 <> OSObject None /\ all_utf8 (match x0 with OSObject e => opt_texts entity_texts e | OSResource rs => [rs] | _ => [] end) ->
  message step_obj_selector d x0 b = Some x -> x <> OSObject None /\ all_utf8 (match x with OSObject e => opt_texts entity_texts e | OSResource rs => [rs] | _ => [] end).
Proof.
  apply (message_inv (fun x => x <> OSObject None /\ all_utf8 (match x with OSObject e => opt_texts entity_texts e | OSResource rs => [rs] | _ => [] end))).
  intros d' a f a' _ Ha H. fields f; cbn [step_obj_selector] in H; stays H.
  - apply text_some in H as [H ->]. split; [discriminate | apply utf8_one; exact H].
  - apply omap_some in H as (y & Hy & ->). split; [discriminate | apply utf8_nil].
  - apply omap_some in H as (y & Hy & ->). split; [discriminate |]. apply entity_recv in Hy; [exact Hy |]. destruct a as [[e |] | | |]; try apply entity_none. apply Ha.
Qed.

Lemma rel_selector_recv d x0 b x : all_utf8 (match x0 with LSName rel => [rel] | _ => [] end) ->
  message step_rel_selector d x0 b = Some x -> all_utf8 (match x with LSName rel => [rel] | _ => [] end).
Proof.
  apply (message_inv (fun x => all_utf8 (match x with LSName rel => [rel] | _ => [] end))). intros d' a f a' _ Ha H. fields f; cbn [step_rel_selector] in H; stays H.
  - apply omap_some in H as (y & Hy & ->). apply utf8_nil.
  - apply text_some in H as [H ->]. apply utf8_one. exact H.
Qed.

Lemma subj_selector_recv d x0 b x : x0 <> USSubject None /\ all_utf8 (match x0 with USSubject u => opt_texts subject_texts u | USResource rs => [rs] | _ => [] end) ->
  message step_subj_selector d x0 b = Some x -> x <> USSubject None /\ all_utf8 (match x with USSubject u => opt_texts subject_texts u | USResource rs => [rs] | _ => [] end).
Proof.
  apply (message_inv (fun x => x <> USSubject None /\ all_utf8 (match x with USSubject u => opt_texts subject_texts u | USResource rs => [rs] | _ => [] end))).
  intros d' a f a' _ Ha H. fields f; cbn [step_subj_selector] in H; stays H.
  - apply text_some in H as [H ->]. split; [discriminate | apply utf8_one; exact H].
  - apply omap_some in H as (y & Hy & ->). split; [discriminate | apply utf8_nil].
  - apply omap_some in H as (y & Hy & ->). split; [discriminate |]. apply subject_recv in Hy; [exact Hy |]. destruct a as [[e |] | | |]; try apply utf8_nil. apply Ha.
Qed.

Lemma selector_recv d x0 b x : selector_ok x0 /\ all_utf8 (selector_texts x0) -> message step_selector d x0 b = Some x -> selector_ok x /\ all_utf8 (selector_texts x).
Proof.
  apply (message_inv (fun x => selector_ok x /\ all_utf8 (selector_texts x))). intros d' a f a' _ Ha H.
  assert (Hk : Some a = Some a' -> selector_ok a' /\ all_utf8 (selector_texts a')) by (intros [= <-]; exact Ha). destruct Ha as [[Hn1 Hn2] Ht].
  unfold selector_ok, selector_texts in *. apply utf8_app in Ht as [H1 Ht]. apply utf8_app in Ht as [H2 H3].
  fields f; cbn [step_selector] in H; try (exact (Hk H)); apply omap_some in H as (y & Hy & ->); cbn [s_obj s_rel s_subj opt_texts].
  - apply subj_selector_recv in Hy.
    + destruct Hy as [Hy1 Hy2]. split; [split; [exact Hn1 | congruence] |]. apply utf8_app. split; [exact H1 |]. apply utf8_app. split; [exact H2 | exact Hy2].
    + destruct (s_subj a); cbn [or_else opt_texts] in *; [split; [congruence | exact H3] | split; [discriminate | apply utf8_nil]].
  - apply rel_selector_recv in Hy.
    + split; [split; [exact Hn1 | exact Hn2] |]. apply utf8_app. split; [exact H1 |]. apply utf8_app. split; [exact Hy | exact H3].
    + destruct (s_rel a); cbn [or_else opt_texts] in *; [exact H2 | apply utf8_nil].
  - apply obj_selector_recv in Hy.
    + destruct Hy as [Hy1 Hy2]. split; [split; [congruence | exact Hn2] |]. apply utf8_app. split; [exact Hy2 |]. apply utf8_app. split; [exact H2 | exact H3].
    + destruct (s_obj a); cbn [or_else opt_texts] in *; [split; [congruence | exact H1] | split; [discriminate | apply utf8_nil]].
Qed.

Lemma access_recv d x0 b x : all_utf8 (access_texts x0) -> message step_access d x0 b = Some x -> all_utf8 (access_texts x).
Proof.
  apply (message_inv (fun x => all_utf8 (access_texts x))). intros d' a f a' _ Ha H.
  assert (Hk : Some a = Some a' -> all_utf8 (access_texts a')) by (intros [= <-]; exact Ha).
  unfold access_texts in *. apply utf8_cons in Ha as [H1 Ha]. apply utf8_app in Ha as [H2 H3].
  fields f; cbn [step_access] in H; try (exact (Hk H)).
  - apply omap_some in H as (y & Hy & ->). cbn [a_object a_relation a_subject opt_texts]. apply all_cons; [exact H1 |]. apply utf8_app. split; [exact H2 |].
    apply entity_recv in Hy; [exact Hy |]. destruct (a_subject a); cbn [or_else opt_texts] in *; [exact H3 | apply entity_none].
  - apply text_some in H as [H ->]. cbn [a_object a_relation a_subject opt_texts]. apply all_cons; [exact H |]. apply utf8_app. auto.
  - apply omap_some in H as (y & Hy & ->). cbn [a_object a_relation a_subject opt_texts]. apply all_cons; [exact H1 |]. apply utf8_app. split; [| exact H3].
    apply entity_recv in Hy; [exact Hy |]. destruct (a_object a); cbn [or_else opt_texts] in *; [exact H2 | apply entity_none].
Qed.

Lemma rnode_recv d x0 b x : all_utf8 (rnode_texts x0) -> message step_rnode d x0 b = Some x -> all_utf8 (rnode_texts x).
Proof.
  apply (message_inv (fun x => all_utf8 (rnode_texts x))). intros d' a f a' _ Ha H.
  fields f; cbn [step_rnode] in H; stays H; apply omap_some in H as (y & Hy & ->); cbn [rnode_texts].
  - apply cu_recv in Hy; [apply utf8_one; exact Hy |]. destruct a; try reflexivity. apply utf8_one. exact Ha.
  - revert Hy. apply (message_inv (fun o => all_utf8 (opt_texts entity_texts o))).
    + intros d2 o g o' _ Ho Hg. fields g; cbn [step_entity_node] in Hg; stays Hg. apply omap_some in Hg as (e & He & ->). cbn [opt_texts].
      apply entity_recv in He; [exact He |]. destruct o; cbn [or_else opt_texts] in *; [exact Ho | apply entity_none].
    + destruct a; try apply utf8_nil. exact Ha.
  - apply entity_set_recv in Hy; [exact Hy |]. destruct a; cbn [fst snd opt_texts]; try (apply all_cons; [reflexivity | apply utf8_nil]). exact Ha.
Qed.

Lemma about_recv {X} (P : X -> Prop) (step : nat -> X -> field -> option X) new d x0 b x :
  (forall d y b z, P y -> message step d y b = Some z -> P z) -> P new -> utf8_valid (fst x0) = true /\ when P (snd x0) ->
  message (step_about step new) d x0 b = Some x -> utf8_valid (fst x) = true /\ when P (snd x).
Proof.
  intros Hs Hn. apply (message_inv (fun x : string * option X => utf8_valid (fst x) = true /\ when P (snd x))). intros d' a f a' _ Ha H.
  fields f; cbn [step_about] in H; stays H.
  - apply omap_some in H as (y & Hy & ->). cbn [fst snd when]. split; [apply Ha |]. apply Hs in Hy; [exact Hy |]. destruct a as [s0 [z |]]; cbn [snd or_else when] in *; [apply Ha | exact Hn].
  - apply text_some in H as [H ->]. cbn [fst snd]. split; [exact H | apply Ha].
Qed.

(** With an enum. *)
Lemma enum_recv {X} (P : X -> Prop) k (step : nat -> X -> field -> option X) d x0 b x :
  (forall d' a f a', d = S d' -> P a -> step d' a f = Some a' -> P a') -> P (fst x0) /\ enum_ok (snd x0) ->
  message (step_enum k step) d x0 b = Some x -> P (fst x) /\ enum_ok (snd x).
Proof.
  intros Hs. apply (message_inv (fun x : X * N => P (fst x) /\ enum_ok (snd x))). intros d' a f a' Hd Ha H.
  assert (Hk : omap (fun y => (y, snd a)) (step d' (fst a) f) = Some a' -> P (fst a') /\ enum_ok (snd a')).
  { intros Hy. apply omap_some in Hy as (y & Hy & ->). cbn [fst snd]. split; [| apply Ha]. eapply Hs; [exact Hd | apply Ha | exact Hy]. }
  destruct f as [j []]; cbn [step_enum] in H; try (exact (Hk H)). destruct (j =? k); [| exact (Hk H)]. injection H as <-. cbn [fst snd]. split; [apply Ha | apply enum_of_ok].
Qed.

Definition good_sent (d : nat) (x : sent_def) : Prop :=
  match x with SentPolicy p => (0 < d)%nat /\ good_policy d p | SentYaml s => utf8_valid s = true | SentUnset => True end.

Lemma sent_recv d x0 b x : good_sent (pred d) x0 -> message step_sent d x0 b = Some x -> good_sent (pred d) x.
Proof.
  apply (message_inv (good_sent (pred d))). intros d' a f a' -> Ha H. cbn [pred] in *.
  fields f; cbn [step_sent] in H; stays H.
  - apply text_some in H as [H ->]. exact H.
  - apply omap_some in H as (y & Hy & ->). split; [exact (message_pos _ _ _ _ _ Hy) |]. apply policy_recv in Hy; [exact Hy |].
    destruct a as [p |  |]; try apply good_no_policy. apply Ha.
Qed.

Lemma create_recv d d' a f a' : d = S d' -> when (good_sent (pred (pred d))) (fst a) -> step_create d' a f = Some a' -> when (good_sent (pred (pred d))) (fst a').
Proof.
  intros -> Ha H. cbn [pred] in *. fields f; cbn [step_create] in H; stays H.
  - apply omap_some in H as (y & Hy & ->). cbn [fst when]. apply sent_recv in Hy; [exact Hy |]. destruct a as [[z |] s0]; cbn [fst or_else when] in *; [exact Ha | exact I].
Qed.

Lemma good_sent_ok lim d : good_sent (pred (pred lim)) d -> sent_ok lim d /\ all_utf8 (sent_texts d).
Proof.
  destruct d as [p | s |]; cbn [good_sent sent_ok sent_texts]; [| intros H; split; [exact I | apply utf8_one; exact H] | intros _; split; [exact I | apply utf8_nil]].
  intros [H0 H]. apply (good_keeps _ _ H0) in H as (H1 & H2 & H3). auto.
Qed.

Lemma when_sent lim d : when (good_sent (pred (pred lim))) d -> when (sent_ok lim) d /\ all_utf8 (opt_texts sent_texts d).
Proof. destruct d as [d |]; cbn [when opt_texts]; [apply good_sent_ok | intros _; split; [exact I | apply utf8_nil]]. Qed.

Lemma when_texts {X} (P : X -> Prop) (f : X -> list string) o : (forall x, P x -> all_utf8 (f x)) -> when P o -> all_utf8 (opt_texts f o).
Proof. intros H. destruct o; cbn [when opt_texts]; [apply H | intros _; apply utf8_nil]. Qed.

Lemma selector_none : selector_ok (mkSel None None None) /\ all_utf8 (selector_texts (mkSel None None None)).
Proof. split; [split; discriminate | apply utf8_nil]. Qed.
Lemma relationship_none : all_utf8 (relationship_texts no_relationship).
Proof. apply all_cons; [reflexivity | apply utf8_nil]. Qed.
Lemma access_none : all_utf8 (access_texts (mkAccess None "" None)).
Proof. apply all_cons; [reflexivity | apply utf8_nil]. Qed.

Lemma about_step {X} (P : X -> Prop) (step : nat -> X -> field -> option X) new d' a f a' :
  (forall d y b z, P y -> message step d y b = Some z -> P z) -> P new ->
  utf8_valid (fst a) = true /\ when P (snd a) -> step_about step new d' a f = Some a' -> utf8_valid (fst a') = true /\ when P (snd a').
Proof.
  intros Hs Hn Ha H. fields f; cbn [step_about] in H; stays H.
  - apply omap_some in H as (y & Hy & ->). cbn [fst snd when]. split; [apply Ha |]. apply Hs in Hy; [exact Hy |]. destruct a as [s0 [z |]]; cbn [snd or_else when] in *; [apply Ha | exact Hn].
  - apply text_some in H as [H ->]. cbn [fst snd]. split; [exact H | apply Ha].
Qed.

Lemma set_recv d x0 b x : utf8_valid (fst (fst x0)) = true /\ when (fun r => all_utf8 (relationship_texts r)) (snd (fst x0)) ->
  message step_set_request d x0 b = Some x -> utf8_valid (fst (fst x)) = true /\ when (fun r => all_utf8 (relationship_texts r)) (snd (fst x)).
Proof.
  apply (message_inv (fun x : string * option relationship * string => utf8_valid (fst (fst x)) = true /\ when (fun r => all_utf8 (relationship_texts r)) (snd (fst x)))).
  intros d' a f a' -> Ha H. fields f; cbn [step_set_request] in H; stays H.
  - apply omap_some in H as (y & Hy & ->). cbn [fst snd when]. split; [apply Ha |]. apply relationship_recv in Hy; [exact Hy |].
    destruct a as [[pid [r |]] ap]; cbn [fst snd when or_else] in *; [apply Ha | apply relationship_none].
  - apply text_some in H as [H ->]. cbn [fst snd]. split; [exact H | apply Ha].
Qed.

Lemma call_recv m lim b c : unmarshal_call m lim b = Some c -> method_of c = m /\ proper lim c.
Proof.
  destruct m; cbn [unmarshal_call]; intros H; apply omap_some in H as (x & Hx & ->); (split; [reflexivity |]); unfold proper; cbn [call_texts].
  - pose proof (message_inv (fun x : option sent_def * string => when (good_sent (pred (pred lim))) (fst x)) step_create lim (None, EmptyString) b x (create_recv lim) I Hx) as H. apply when_sent in H. tauto.
  - apply (enum_recv (fun x : option sent_def * string => when (good_sent (pred (pred lim))) (fst x))) in Hx; [| apply create_recv | split; [exact I | reflexivity]].
    destruct Hx as [H1 H2]. apply when_sent in H1. tauto.
  - apply cu_recv in Hx; [| reflexivity]. split; [apply utf8_one; exact Hx | exact I].
  - apply cu_recv in Hx; [| reflexivity]. split; [apply utf8_one; exact Hx | exact I].
  - split; [apply utf8_nil | exact I].
  - apply set_recv in Hx; [| split; [reflexivity | exact I]]. destruct Hx as [H1 H2]. split; [| exact I]. apply all_cons; [exact H1 |]. apply when_texts with (2 := H2). auto.
  - apply (about_recv (fun r => all_utf8 (relationship_texts r))) in Hx; [| intros ? ? ? ?; apply relationship_recv | apply relationship_none | split; [reflexivity | exact I]].
    destruct Hx as [H1 H2]. split; [| exact I]. apply all_cons; [exact H1 |]. apply when_texts with (2 := H2). auto.
  - apply (about_recv (fun r => all_utf8 (relationship_texts r))) in Hx; [| intros ? ? ? ?; apply relationship_recv | apply relationship_none | split; [reflexivity | exact I]].
    destruct Hx as [H1 H2]. split; [| exact I]. apply all_cons; [exact H1 |]. apply when_texts with (2 := H2). auto.
  - apply (about_recv (fun r => selector_ok r /\ all_utf8 (selector_texts r))) in Hx; [| intros ? ? ? ?; apply selector_recv | apply selector_none | split; [reflexivity | exact I]].
    destruct Hx as [H1 H2]. split; [apply all_cons; [exact H1 |]; apply when_texts with (2 := H2); tauto |]. destruct (snd x); cbn [when] in *; tauto.
  - apply (about_recv (fun r => selector_ok r /\ all_utf8 (selector_texts r))) in Hx; [| intros ? ? ? ?; apply selector_recv | apply selector_none | split; [reflexivity | exact I]].
    destruct Hx as [H1 H2]. split; [apply all_cons; [exact H1 |]; apply when_texts with (2 := H2); tauto |]. destruct (snd x); cbn [when] in *; tauto.
  - apply (about_recv (fun r => all_utf8 (access_texts r))) in Hx; [| intros ? ? ? ?; apply access_recv | apply access_none | split; [reflexivity | exact I]].
    destruct Hx as [H1 H2]. split; [| exact I]. apply all_cons; [exact H1 |]. apply when_texts with (2 := H2). auto.
  - apply (enum_recv (fun x : string * option access_request => utf8_valid (fst x) = true /\ when (fun r => all_utf8 (access_texts r)) (snd x))) in Hx;
      [| intros d' a f a' _; apply (about_step (fun r => all_utf8 (access_texts r))); [intros ? ? ? ?; apply access_recv | apply access_none] | repeat split].
    destruct Hx as [[H1 H2] H3]. split; [| apply format_of_ok, H3]. apply all_cons; [exact H1 |]. apply when_texts with (2 := H2). auto.
  - apply (enum_recv (fun x : string * option rnode => utf8_valid (fst x) = true /\ when (fun r => all_utf8 (rnode_texts r)) (snd x))) in Hx;
      [| intros d' a f a' _; apply (about_step (fun r => all_utf8 (rnode_texts r))); [intros ? ? ? ?; apply rnode_recv | apply utf8_nil] | repeat split].
    destruct Hx as [[H1 H2] H3]. split; [| apply format_of_ok, H3]. apply all_cons; [exact H1 |]. apply when_texts with (2 := H2). auto.
  - apply (enum_recv (fun s => utf8_valid s = true)) in Hx; [| | split; reflexivity].
    + destruct Hx as [H1 H2]. split; [apply utf8_one; exact H1 | exact H2].
    + intros d' a f a' _ Ha H. fields f; cbn [step_cu] in H; stays H. apply text_some in H as [H ->]. exact H.
Qed.
