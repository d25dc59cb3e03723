(** Lemmas about merging: decoding two messages one after the other. *)
From Coq Require Import Sorted Permutation.
From Verif Require Import Base Domain Lexer Store Search Explain Yaml Service Dump Api Wire Rpc Cli
  SpecWire SpecRpc SpecCli BaseFacts WireFacts WireServe RpcFacts CliFacts.
Local Open Scope N_scope.

Lemma merge_text_none s : merge_text "" s = s.
Proof. destruct s; reflexivity. Qed.
Lemma merge_text_same s : merge_text s "" = s.
Proof. reflexivity. Qed.

Lemma fold_text {A} (step : A -> field -> option A) n s (f : string -> A) a old :
  utf8_valid s = true -> (forall s, step a (n, WLen s) = text s f) -> f old = a -> fold_opt step (f_str n s) a = Some (f (merge_text old s)).
Proof. intros Hs Hf He. destruct s as [| c s]; cbn [f_str fold_opt merge_text]; [rewrite He; reflexivity |]. rewrite Hf, text_ok by exact Hs. reflexivity. Qed.

Lemma fold_raw {A} (step : A -> field -> option A) n s (f : string -> A) a old :
  (forall s, step a (n, WLen s) = Some (f s)) -> f old = a -> fold_opt step (f_str n s) a = Some (f (merge_text old s)).
Proof. intros Hf He. destruct s as [| c s]; cbn [f_str fold_opt merge_text]; [rewrite He; reflexivity |]. rewrite Hf. reflexivity. Qed.

Lemma fold_over {A X} (step : A -> field -> option A) n (fs : X -> list field) o (f : option X -> A) a (mg : X -> X -> X) new old :
  f old = a -> (forall x, o = Some x -> step a (n, WLen (put_fields (fs x))) = Some (f (Some (mg (or_else old new) x)))) ->
  fold_opt step (f_opt n fs o) a = Some (f (merge_sub mg new old o)).
Proof. intros Ha Hx. destruct o as [x |]; cbn [f_opt f_msg fold_opt merge_sub]; [rewrite (Hx x eq_refl); reflexivity | rewrite Ha; reflexivity]. Qed.

Lemma entity_merge d a e : all_utf8 (entity_texts e) -> short (put_fields (fs_entity e)) ->
  message step_entity (S d) a (put_fields (fs_entity e)) = Some (merge_entity a e).
Proof.
  intros Ht Hs. apply utf8_pair in Ht as [H1 H2]. rewrite message_put; [| apply simple_entity | exact Hs]. destruct a as [ar ai]. unfold fs_entity.
  rewrite fold_opt_app, (fold_text _ _ _ (fun s => mkEntity s ai) _ ar) by auto.
  rewrite (fold_text _ _ _ (fun s => mkEntity (merge_text ar (e_res e)) s) _ ai) by auto. reflexivity.
Qed.

Lemma entity_set_merge d o' rel' o rel : utf8_valid rel = true -> all_utf8 (opt_texts entity_texts o) -> short (put_fields (fs_entity_set o rel)) ->
  message step_entity_set (S (S d)) (o', rel') (put_fields (fs_entity_set o rel)) = Some (merge_sub merge_entity no_entity o' o, merge_text rel' rel).
Proof.
  intros Hr Ht Hs. rewrite message_put; [| apply simple_entity_set | exact Hs]. unfold fs_entity_set in *.
  rewrite fold_opt_app, (fold_over _ _ _ _ (fun o => (o, rel')) _ merge_entity no_entity o'); [| reflexivity |].
  - rewrite (fold_text _ _ _ (fun s => (merge_sub merge_entity no_entity o' o, s)) _ rel') by auto. reflexivity.
  - intros x ->. cbn [step_entity_set fst snd]. unfold no_entity. rewrite entity_merge; [reflexivity | exact Ht |]. eapply short_opt; [exact Hs | reflexivity].
Qed.

Lemma cu_merge d t0 t : utf8_valid t = true -> short (put_fields (f_str 1 t)) -> message step_cu (S d) t0 (put_fields (f_str 1 t)) = Some (merge_text t0 t).
Proof. intros Ht Hs. rewrite message_put; [| simple_tac | exact Hs]. rewrite (fold_text _ _ _ (fun s => s) _ t0) by auto. reflexivity. Qed.

Lemma subject_merge d a x : all_utf8 (subject_texts x) -> short (put_fields (fs_subject x)) ->
  message step_subject (S (S (S d))) a (put_fields (fs_subject x)) = Some (merge_subject a x).
Proof.
  intros Ht Hs. rewrite message_put; [| apply simple_subject | exact Hs].
  destruct x as [e | o rel | rs |]; cbn [fs_subject f_msg fold_opt step_subject subject_texts merge_subject] in *; [| | | reflexivity].
  - rewrite entity_merge; [reflexivity | exact Ht |]. inner Hs. left. reflexivity.
  - apply utf8_cons in Ht as [H1 H2]. assert (Hi : short (put_fields (fs_entity_set o rel))) by (inner Hs; left; reflexivity).
    destruct a; rewrite entity_set_merge by assumption; cbn [omap fst snd]; rewrite ?merge_text_none; reflexivity.
  - apply utf8_one in Ht. rewrite cu_merge; [reflexivity | exact Ht |]. inner Hs. left. reflexivity.
Qed.

Lemma relationship_merge d a r : all_utf8 (relationship_texts r) -> short (put_fields (fs_relationship r)) ->
  message step_relationship (S (S (S (S d)))) a (put_fields (fs_relationship r)) = Some (merge_relationship a r).
Proof.
  intros Ht Hs. rewrite message_put; [| apply simple_relationship | exact Hs]. destruct r as [o rel u], a as [o' rel' u']. unfold fs_relationship, relationship_texts, merge_relationship in *. cbn [r_object r_relation r_subject] in *.
  apply utf8_cons in Ht as [H1 Ht]. apply utf8_app in Ht as [H2 H3].
  rewrite fold_opt_app, (fold_over _ _ _ _ (fun o => mkRel o rel' u') _ merge_entity no_entity o'); [| reflexivity |].
  - rewrite fold_opt_app, (fold_text _ _ _ (fun s => mkRel (merge_sub merge_entity no_entity o' o) s u') _ rel') by auto.
    rewrite (fold_over _ _ _ _ (fun u => mkRel (merge_sub merge_entity no_entity o' o) (merge_text rel' rel) u) _ merge_subject SUnset u'); [reflexivity | reflexivity |].
    intros x ->. cbn [step_relationship r_object r_relation r_subject]. rewrite subject_merge; [reflexivity | exact H3 |]. inside Hs.
  - intros x ->. cbn [step_relationship r_object r_relation r_subject]. unfold no_entity. rewrite entity_merge; [reflexivity | exact H2 |]. inside Hs.
Qed.

Lemma obj_selector_merge d a x : x <> OSObject None -> all_utf8 (match x with OSObject e => opt_texts entity_texts e | OSResource rs => [rs] | _ => [] end) ->
  short (put_fields (fs_obj_selector x)) -> message step_obj_selector (S (S d)) a (put_fields (fs_obj_selector x)) = Some (merge_obj_selector a x).
Proof.
  intros Hn Ht Hs. rewrite message_put; [| apply simple_obj_selector | exact Hs].
  destruct x as [[e |] | rs | |]; cbn [fs_obj_selector f_msg fold_opt step_obj_selector fs_member opt_texts merge_obj_selector or_else] in *; [| congruence | | reflexivity | reflexivity].
  - rewrite entity_merge; [reflexivity | exact Ht |]. inner Hs. left. reflexivity.
  - apply utf8_one in Ht. rewrite text_ok by exact Ht. reflexivity.
Qed.

Lemma rel_selector_merge d a x : all_utf8 (match x with LSName rel => [rel] | _ => [] end) ->
  short (put_fields (fs_rel_selector x)) -> message step_rel_selector (S (S d)) a (put_fields (fs_rel_selector x)) = Some (merge_rel_selector a x).
Proof.
  intros Ht Hs. rewrite message_put; [| apply simple_rel_selector | exact Hs].
  destruct x as [rel | |]; cbn [fs_rel_selector f_msg fold_opt step_rel_selector merge_rel_selector] in *; [| reflexivity | reflexivity].
  apply utf8_one in Ht. rewrite text_ok by exact Ht. reflexivity.
Qed.

Lemma subj_selector_merge d a x : x <> USSubject None -> all_utf8 (match x with USSubject u => opt_texts subject_texts u | USResource rs => [rs] | _ => [] end) ->
  short (put_fields (fs_subj_selector x)) -> message step_subj_selector (S (S (S (S d)))) a (put_fields (fs_subj_selector x)) = Some (merge_subj_selector a x).
Proof.
  intros Hn Ht Hs. rewrite message_put; [| apply simple_subj_selector | exact Hs].
  destruct x as [[u |] | rs | |]; cbn [fs_subj_selector f_msg fold_opt step_subj_selector fs_member opt_texts merge_subj_selector or_else] in *; [| congruence | | reflexivity | reflexivity].
  - rewrite subject_merge; [reflexivity | exact Ht |]. inner Hs. left. reflexivity.
  - apply utf8_one in Ht. rewrite text_ok by exact Ht. reflexivity.
Qed.

Lemma selector_merge d a x : selector_ok x -> all_utf8 (selector_texts x) -> short (put_fields (fs_selector x)) ->
  message step_selector (S (S (S (S (S d))))) a (put_fields (fs_selector x)) = Some (merge_selector a x).
Proof.
  intros [Hn1 Hn2] Ht Hs. rewrite message_put; [| apply simple_selector | exact Hs]. destruct x as [o l u], a as [o' l' u']. unfold fs_selector, selector_texts, merge_selector in *. cbn [s_obj s_rel s_subj] in *.
  apply utf8_app in Ht as [H1 Ht]. apply utf8_app in Ht as [H2 H3].
  rewrite fold_opt_app, (fold_over _ _ _ _ (fun o => mkSel o l' u') _ merge_obj_selector OSUnset o'); [| reflexivity |].
  - rewrite fold_opt_app, (fold_over _ _ _ _ (fun l => mkSel (merge_sub merge_obj_selector OSUnset o' o) l u') _ merge_rel_selector LSUnset l'); [| reflexivity |].
    + rewrite (fold_over _ _ _ _ (fun u => mkSel (merge_sub merge_obj_selector OSUnset o' o) (merge_sub merge_rel_selector LSUnset l' l) u) _ merge_subj_selector USUnset u'); [reflexivity | reflexivity |].
      intros x ->. cbn [step_selector s_obj s_rel s_subj]. rewrite subj_selector_merge; [reflexivity | congruence | exact H3 |]. inside Hs.
    + intros x ->. cbn [step_selector s_obj s_rel s_subj]. rewrite rel_selector_merge; [reflexivity | exact H2 |]. inside Hs.
  - intros x ->. cbn [step_selector s_obj s_rel s_subj]. rewrite obj_selector_merge; [reflexivity | congruence | exact H1 |]. inside Hs.
Qed.

Lemma access_merge d a0 a : all_utf8 (access_texts a) -> short (put_fields (fs_access a)) ->
  message step_access (S (S d)) a0 (put_fields (fs_access a)) = Some (merge_access a0 a).
Proof.
  intros Ht Hs. rewrite message_put; [| apply simple_access | exact Hs]. destruct a as [o rel u], a0 as [o' rel' u']. unfold fs_access, access_texts, merge_access in *. cbn [a_object a_relation a_subject] in *.
  apply utf8_cons in Ht as [H1 Ht]. apply utf8_app in Ht as [H2 H3].
  rewrite fold_opt_app, (fold_over _ _ _ _ (fun o => mkAccess o rel' u') _ merge_entity no_entity o'); [| reflexivity |].
  - rewrite fold_opt_app, (fold_text _ _ _ (fun s => mkAccess (merge_sub merge_entity no_entity o' o) s u') _ rel') by auto.
    rewrite (fold_over _ _ _ _ (fun u => mkAccess (merge_sub merge_entity no_entity o' o) (merge_text rel' rel) u) _ merge_entity no_entity u'); [reflexivity | reflexivity |].
    intros x ->. cbn [step_access a_object a_relation a_subject]. rewrite entity_merge; [reflexivity | exact H3 |]. inside Hs.
  - intros x ->. cbn [step_access a_object a_relation a_subject]. rewrite entity_merge; [reflexivity | exact H2 |]. inside Hs.
Qed.

Lemma root_merge d a n : all_utf8 (rnode_texts n) -> short (put_fields (fs_rnode n)) ->
  message step_rnode (S (S (S d))) a (put_fields (fs_rnode n)) = Some (merge_root a n).
Proof.
  intros Ht Hs. rewrite message_put; [| apply simple_rnode | exact Hs].
  destruct n as [o rel | o | rs |]; cbn [fs_rnode f_msg fold_opt step_rnode rnode_texts merge_root] in *; [| | | reflexivity].
  - apply utf8_cons in Ht as [H1 H2]. assert (Hi : short (put_fields (fs_entity_set o rel))) by (inner Hs; left; reflexivity).
    destruct a; rewrite entity_set_merge by assumption; cbn [omap fst snd]; rewrite ?merge_text_none; reflexivity.
  - assert (Hi : short (put_fields (f_opt 1 fs_entity o))) by (inner Hs; left; reflexivity). rewrite message_put; [| simple_tac | exact Hi].
    rewrite (fold_over _ _ _ _ (fun o => o) _ merge_entity no_entity (match a with NEntity o => o | _ => None end)); [reflexivity | reflexivity |].
    intros x ->. cbn [step_entity_node]. rewrite entity_merge; [reflexivity | exact Ht |]. inner Hi. left. reflexivity.
  - apply utf8_one in Ht. rewrite cu_merge; [reflexivity | exact Ht |]. inner Hs. left. reflexivity.
Qed.

(** Entries in any order. *)
Lemma set_all_order attrs l m : kv_sorted scmp l -> kv_sorted scmp m -> Permutation attrs l -> set_all attrs m = set_all l m.
Proof.
  intros Hl Hm Hp. apply (sorted_ext scmp scmp_ok); try (apply sorted_set_all; exact Hm). intros k.
  assert (Hn : NoDup (map fst attrs)).
  { eapply Permutation_NoDup; [apply Permutation_map, Permutation_sym, Hp |]. apply (sorted_nodup scmp scmp_ok). exact Hl. }
  unfold set_all. rewrite (set_all_get attrs) by exact Hn. rewrite (set_all_get l) by (apply (sorted_nodup scmp scmp_ok); exact Hl).
  replace (kv_get scmp k attrs) with (kv_get scmp k l); [reflexivity |].
  rewrite <- (attrs_round attrs l Hl Hp). rewrite set_all_get by exact Hn. destruct (kv_get scmp k attrs); reflexivity.
Qed.

Lemma policy_merge d a p attrs : keeps d p -> kv_sorted scmp (p_attrs a) -> Permutation attrs (p_attrs p) -> short (put_fields (fs_policy p attrs)) ->
  message step_policy d a (put_fields (fs_policy p attrs)) = Some (merge_policy a p).
Proof.
  intros (Ht & [Ho Ha] & Hd) Hm Hp Hs. unfold nest_policy in Hd. destruct d as [| d]; [lia |].
  rewrite message_put; [| apply simple_policy | exact Hs].
  destruct p as [id name desc rs al], a as [id' name' desc' rs' al']. unfold fs_policy, policy_texts, merge_policy in *. cbn [p_id p_name p_desc p_resources p_attrs] in *.
  apply utf8_cons in Ht as [H1 Ht]. apply utf8_cons in Ht as [H2 Ht]. apply utf8_cons in Ht as [H3 Ht]. apply utf8_app in Ht as [H4 H5].
  rewrite fold_opt_app, (fold_text _ _ _ (fun s => mkPolicy s name' desc' rs' al') _ id') by auto.
  rewrite fold_opt_app, (fold_text _ _ _ (fun s => mkPolicy (merge_text id' id) s desc' rs' al') _ name') by auto.
  rewrite fold_opt_app, (fold_text _ _ _ (fun s => mkPolicy (merge_text id' id) (merge_text name' name) s rs' al') _ desc') by auto.
  rewrite fold_opt_app. generalize (merge_text id' id) (merge_text name' name) (merge_text desc' desc). intros i n t.
  rewrite (fold_opt_list _ 4 fs_resource (fun p r => mkPolicy (p_id p) (p_name p) (p_desc p) (p_resources p ++ [r]) (p_attrs p)) (fun _ => True)); [| | exact I].
  - assert (H : forall rs l0, fold_left (fun p r => mkPolicy (p_id p) (p_name p) (p_desc p) (p_resources p ++ [r]) (p_attrs p)) rs (mkPolicy i n t l0 al') = mkPolicy i n t (l0 ++ rs) al').
    { clear. induction rs as [| l rs IH]; intros l0; cbn [fold_left p_id p_name p_desc p_resources p_attrs]; [rewrite app_nil_r; reflexivity |]. rewrite IH, <- app_assoc. reflexivity. }
    rewrite H. clear H.
    assert (H : forall attrs m, (forall x, In x attrs -> utf8_valid (fst x) = true /\ utf8_valid (snd x) = true /\ short (put_fields [(1, WLen (fst x)); (2, WLen (snd x))])) ->
      fold_opt (step_policy d) (flat_map f_entry attrs) (mkPolicy i n t (rs' ++ rs) m) = Some (mkPolicy i n t (rs' ++ rs) (set_all attrs m))).
    { clear. induction attrs as [| x attrs IH]; intros m H; [reflexivity |]. cbn [flat_map f_entry f_msg app fold_opt step_policy].
      destruct (H x (or_introl eq_refl)) as (Hx1 & Hx2 & Hx3). rewrite entry_round by assumption. cbn [omap p_id p_name p_desc p_resources p_attrs].
      apply IH. intros y Hy. apply H. right. exact Hy. }
    rewrite H; [rewrite (set_all_order attrs al); [reflexivity | apply sorted_kv; exact Ha | exact Hm | exact Hp] |].
    intros x Hx. pose proof (Permutation_in _ Hp Hx) as Hx'. pose proof (utf8_flat (fun x => [fst x; snd x]) al x H5 Hx') as Hu.
    apply utf8_cons in Hu as [Hu1 Hu2]. apply utf8_cons in Hu2 as [Hu2 _]. split; [exact Hu1 |]. split; [exact Hu2 |].
    inner Hs. do 4 (apply in_or_app; right). apply in_flat_map. exists x. split; [exact Hx | left; reflexivity].
  - intros a x Hx _. split; [| exact I]. cbn [step_policy]. pose proof (max_in nest_resource rs x Hx).
    rewrite resource_round; [reflexivity | intros l Hl; eapply Ho; eassumption | eapply utf8_flat; eassumption | lia |].
    inner Hs. do 3 (apply in_or_app; right). apply in_or_app. left. apply in_f_msg_list. exact Hx.
Qed.

Definition mapped (d : sent_def) : Prop := match d with SentPolicy p => kv_sorted scmp (p_attrs p) | _ => True end.

Lemma sent_merge lim ord a d : (3 <= lim)%nat -> (forall l, Permutation (ord l) l) -> mapped a -> sent_ok lim d -> all_utf8 (sent_texts d) ->
  short (put_fields (fs_sent ord d)) -> message step_sent (pred lim) a (put_fields (fs_sent ord d)) = Some (merge_sent a d).
Proof.
  intros Hl Ho Ha Hd Ht Hs. destruct lim as [| [| l]]; [lia | lia |]. cbn [pred] in *. rewrite message_put; [| apply simple_sent | exact Hs].
  destruct d as [p | s |]; cbn [fs_sent f_msg fold_opt step_sent sent_texts sent_ok pred merge_sent] in *; [| | reflexivity].
  - rewrite policy_merge; [reflexivity | | | apply Ho | inner Hs; left; reflexivity]; [split; [exact Ht | exact Hd] |]. destruct a; [exact Ha | exact I | exact I].
  - apply utf8_one in Ht. rewrite text_ok by exact Ht. reflexivity.
Qed.

Lemma create_merge lim ord d0 ap0 d ap : (3 <= lim)%nat -> (forall l, Permutation (ord l) l) -> when mapped d0 -> when (sent_ok lim) d -> all_utf8 (opt_texts sent_texts d) ->
  (forall x, d = Some x -> short (put_fields (fs_sent ord x))) ->
  fold_opt (step_create (pred lim)) (f_opt 1 (fs_sent ord) d ++ f_str 2 ap) (d0, ap0) = Some (merge_sub merge_sent SentUnset d0 d, merge_text ap0 ap).
Proof.
  intros Hl Ho H0 Hd Ht Hs. rewrite fold_opt_app, (fold_over _ _ _ _ (fun d => (d, ap0)) _ merge_sent SentUnset d0); [| reflexivity |].
  - rewrite (fold_raw _ _ _ (fun s => (merge_sub merge_sent SentUnset d0 d, s)) _ ap0) by reflexivity. reflexivity.
  - intros x ->. cbn [step_create fst snd]. rewrite sent_merge; auto. destruct d0; [exact H0 | exact I].
Qed.

Lemma about_merge {X} (step : nat -> X -> field -> option X) new (fs : X -> list field) (mg : X -> X -> X) d pid0 o0 pid o : utf8_valid pid = true ->
  (forall x, o = Some x -> message step d (or_else o0 new) (put_fields (fs x)) = Some (mg (or_else o0 new) x)) ->
  fold_opt (step_about step new d) (fs_about fs pid o) (pid0, o0) = Some (merge_text pid0 pid, merge_sub mg new o0 o).
Proof.
  intros Hp Ho. unfold fs_about. rewrite fold_opt_app, (fold_text _ _ _ (fun s => (s, o0)) _ pid0) by auto.
  rewrite (fold_over _ _ _ _ (fun o => (merge_text pid0 pid, o)) _ mg new o0); [reflexivity | reflexivity |].
  intros x ->. cbn [step_about fst snd]. rewrite (Ho x eq_refl). reflexivity.
Qed.

Lemma enum_merge {X} k (step : nat -> X -> field -> option X) d x v0 v : enum_ok v ->
  fold_opt (step_enum k step d) (f_int k (enum_wire v)) (x, v0) = Some (x, merge_enum v0 v).
Proof.
  intros Hv. unfold f_int, merge_enum. destruct (N.eqb_spec (enum_wire v) 0) as [H | H]; cbn [fold_opt step_enum fst].
  - rewrite (enum_zero v Hv H). reflexivity.
  - rewrite N.eqb_refl, enum_round by exact Hv. destruct (N.eqb_spec v 0) as [-> | _]; [destruct H; reflexivity | reflexivity].
Qed.

Lemma of_code n : format_code (format_of n) = n.
Proof. unfold format_of. destruct n as [| [q | q |]]; try reflexivity. destruct q; reflexivity. Qed.

Lemma short_app a b : short (a +++ b) -> short a /\ short b.
Proof. unfold short. rewrite slen_app. lia. Qed.

Lemma omap_some {A B} (f : A -> B) o y : omap f o = Some y -> exists x, o = Some x /\ f x = y.
Proof. destruct o; cbn; [intros [= <-]; eexists; split; reflexivity | discriminate]. Qed.

(** The fields of the first message, then those of the second. *)
Lemma message_both {A B} (K : A -> B) (step : nat -> A -> field -> option A) lim init fs1 fs2 a : Forall simple fs1 -> Forall simple fs2 ->
  short (put_fields (fs1 ++ fs2)) -> omap K (message step lim init (put_fields fs1)) = Some a ->
  exists x, K x = a /\ message step lim init (put_fields (fs1 ++ fs2)) = fold_opt (step (pred lim)) fs2 x.
Proof.
  intros H1 H2 Hs Ha. apply omap_some in Ha as (x & Hx & Hk). destruct lim as [| d]; [discriminate |].
  assert (Hs1 : short (put_fields fs1)) by (rewrite put_fields_app in Hs; apply short_app in Hs as [Hs _]; exact Hs).
  rewrite message_put in Hx by assumption. exists x. split; [exact Hk |]. rewrite message_put; [| apply Forall_app; split; assumption | exact Hs].
  rewrite fold_opt_app, Hx. reflexivity.
Qed.

Lemma mapped_ok lim d : when (sent_ok lim) d -> when mapped d.
Proof. destruct d as [[p | |] |]; cbn; auto. intros [[_ H] _]. apply sorted_kv. exact H. Qed.

Lemma call_merge lim ord a b : (9 <= lim)%nat -> (forall l, Permutation (ord l) l) -> method_of a = method_of b -> proper lim a -> proper lim b ->
  short (put_fields (fs_call ord a ++ fs_call ord b)) -> unmarshal_call (method_of b) lim (put_fields (fs_call ord a ++ fs_call ord b)) = Some (merge_call a b).
Proof.
  intros Hl Ho Hm Pa Pb Hs. pose proof (simple_call ord a lim Pa) as Sa. pose proof (simple_call ord b lim Pb) as Sb.
  assert (Hsa : short (put_fields (fs_call ord a)) /\ short (put_fields (fs_call ord b))) by (rewrite put_fields_app in Hs; apply short_app in Hs; exact Hs).
  destruct Hsa as [Hsa Hsb]. pose proof (call_round lim ord a Hl Ho Pa Hsa) as Ra. rewrite Hm in Ra. clear Hsa. destruct Pb as [Ht Hc].
  assert (Hlim : exists k, lim = S (S (S (S (S (S (S k))))))) by (exists (lim - 7)%nat; lia). destruct Hlim as (k & Hk).
  destruct b as [d ap | d ap st | id | id | | pid r ap | pid r | pid r | pid x | pid x | pid c | pid c f | pid root f | pid f];
    cbn [method_of unmarshal_call] in *; unfold unmarshal_set_request in *;
    destruct (message_both _ _ _ _ _ _ _ Sa Sb Hs Ra) as (y & Hy & ->); clear Ra; cbn [fs_call call_texts] in *; subst a; cbn [merge_call].
  - destruct y as [d0 ap0]. cbn [fst snd]. rewrite create_merge; [reflexivity | lia | exact Ho | eapply mapped_ok; apply Pa | exact Hc | exact Ht |].
    intros x ->. inner Hsb. left. reflexivity.
  - destruct y as [[d0 ap0] st0]. cbn [fst snd]. rewrite app_assoc, fold_opt_app, fold_enum.
    + rewrite create_merge; [cbn [omap]; rewrite enum_merge by tauto; reflexivity | lia | exact Ho | | tauto | exact Ht |].
      * eapply mapped_ok. apply Pa.
      * intros x ->. inner Hsb. left. reflexivity.
    + intros g Hg. apply in_app_or in Hg as [Hg | Hg]; [eapply opt_no_enum; exact Hg | eapply str_no_enum; exact Hg].
  - apply utf8_one in Ht. rewrite (fold_text _ _ _ (fun s => s) _ y) by auto. reflexivity.
  - apply utf8_one in Ht. rewrite (fold_text _ _ _ (fun s => s) _ y) by auto. reflexivity.
  - reflexivity.
  - destruct y as [[pid0 r0] ap0]. cbn [fst snd]. apply utf8_cons in Ht as [H1 H2]. rewrite fold_opt_app, fold_set_about.
    + rewrite (about_merge _ _ _ merge_relationship); [| exact H1 |].
      * cbn [omap]. rewrite (fold_raw _ _ _ (fun s => (merge_text pid0 pid, merge_sub merge_relationship no_relationship r0 r, s)) _ ap0) by reflexivity. reflexivity.
      * intros x ->. rewrite Hk. cbn [pred]. apply relationship_merge; [exact H2 |]. eapply short_about. exact Hsb.
    + intros g Hg. unfold fs_about in Hg. apply in_app_or in Hg as [Hg | Hg].
      * destruct pid; [destruct Hg |]. destruct Hg as [<- | []]. exact I.
      * destruct r; [| destruct Hg]. destruct Hg as [<- | []]. exact I.
  - destruct y as [pid0 r0]. cbn [fst snd]. apply utf8_cons in Ht as [H1 H2]. rewrite (about_merge _ _ _ merge_relationship); [reflexivity | exact H1 |]. intros x ->. rewrite Hk. cbn [pred]. apply relationship_merge; [exact H2 |].
    rewrite <- (app_nil_r (fs_about _ _ _)) in Hsb. eapply short_about. exact Hsb.
  - destruct y as [pid0 r0]. cbn [fst snd]. apply utf8_cons in Ht as [H1 H2]. rewrite (about_merge _ _ _ merge_relationship); [reflexivity | exact H1 |]. intros x ->. rewrite Hk. cbn [pred]. apply relationship_merge; [exact H2 |].
    rewrite <- (app_nil_r (fs_about _ _ _)) in Hsb. eapply short_about. exact Hsb.
  - destruct y as [pid0 r0]. cbn [fst snd]. apply utf8_cons in Ht as [H1 H2]. rewrite (about_merge _ _ _ merge_selector); [reflexivity | exact H1 |]. intros y ->. rewrite Hk. cbn [pred]. apply selector_merge; [exact Hc | exact H2 |].
    rewrite <- (app_nil_r (fs_about _ _ _)) in Hsb. eapply short_about. exact Hsb.
  - destruct y as [pid0 r0]. cbn [fst snd]. apply utf8_cons in Ht as [H1 H2]. rewrite (about_merge _ _ _ merge_selector); [reflexivity | exact H1 |]. intros y ->. rewrite Hk. cbn [pred]. apply selector_merge; [exact Hc | exact H2 |].
    rewrite <- (app_nil_r (fs_about _ _ _)) in Hsb. eapply short_about. exact Hsb.
  - destruct y as [pid0 r0]. cbn [fst snd]. apply utf8_cons in Ht as [H1 H2]. rewrite (about_merge _ _ _ merge_access); [reflexivity | exact H1 |]. intros y ->. rewrite Hk. cbn [pred]. apply access_merge; [exact H2 |].
    rewrite <- (app_nil_r (fs_about _ _ _)) in Hsb. eapply short_about. exact Hsb.
  - destruct y as [[pid0 r0] f0]. cbn [fst snd]. apply utf8_cons in Ht as [H1 H2]. rewrite fold_opt_app, fold_enum by (intros g Hg; eapply about_no_enum; exact Hg). rewrite (about_merge _ _ _ merge_access); [| exact H1 |].
    + cbn [omap]. rewrite enum_merge by (apply format_code_ok, Hc). cbn [omap fst snd]. rewrite of_code. reflexivity.
    + intros y ->. rewrite Hk. cbn [pred]. apply access_merge; [exact H2 |]. eapply short_about. exact Hsb.
  - destruct y as [[pid0 r0] f0]. cbn [fst snd]. apply utf8_cons in Ht as [H1 H2]. rewrite fold_opt_app, fold_enum by (intros g Hg; eapply about_no_enum; exact Hg). rewrite (about_merge _ _ _ merge_root); [| exact H1 |].
    + cbn [omap]. rewrite enum_merge by (apply format_code_ok, Hc). cbn [omap fst snd]. rewrite of_code. reflexivity.
    + intros y ->. rewrite Hk. cbn [pred]. apply root_merge; [exact H2 |]. eapply short_about. exact Hsb.
  - destruct y as [pid0 f0]. cbn [fst snd]. apply utf8_one in Ht. rewrite fold_opt_app, fold_enum by (intros g Hg; eapply str_no_enum; exact Hg).
    rewrite (fold_text _ _ _ (fun s => s) _ pid0) by auto. cbn [omap]. rewrite enum_merge by exact Hc. reflexivity.
Qed.
