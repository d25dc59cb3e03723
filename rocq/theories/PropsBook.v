(** Property C107: what a selector selects, and what has been done with its messages before. *)
From Verif Require Import Base Domain Lexer Parser Validate Store Search Explain Yaml Service Dump Api Wire SpecWire Rpc SpecRpc Book SpecBook
  Fixtures BaseFacts StoreFacts WireFacts WireServe RpcFacts BookFacts SpecNewer NewerFacts PropsRpc.
Local Open Scope N_scope.

(** Requests whose selectors name objects and subjects by messages that nobody has looked at are answered as the model of all
    other properties says, for any number of requests at the same time. *)
Theorem C107_same_selection_partial : forall E qs sched s i, Forall clean_request qs ->
  answered (interleave sched (m_start E qs s)) i = answered (interleave sched (start E (map plain_request qs) s)) i /\
  snd (interleave sched (m_start E qs s)) = snd (interleave sched (start E (map plain_request qs) s)).
Proof.
  intros E qs sched s i Hq. assert (H : same_config (m_start E qs s) (start E (map plain_request qs) s)).
  { split; [| reflexivity]. unfold m_start, start. cbn [fst]. rewrite map_map. induction Hq as [| q qs Hq _ IH]; cbn [map]; constructor; [apply serve_same, Hq | exact IH]. }
  pose proof (same_interleave sched _ _ H) as Hs. split; [apply same_answered, Hs | apply Hs].
Qed.

Lemma map_ok {A B} (f : A -> prog (res B)) l : (forall a, In a l -> forall s, exists b, fst (run (f a) s) = Ok b) -> forall s, exists bs, fst (run (map_prog f l) s) = Ok bs.
Proof.
  induction l as [| a l IH]; intros H s; [eexists; reflexivity |]. cbn [map_prog]. unfold rbind. rewrite run_pbind. destruct (H a (or_introl eq_refl) s) as [b ->].
  rewrite run_pbind. destruct (IH (fun x Hx => H x (or_intror Hx)) (snd (run (f a) s))) as [bs ->]. eexists. reflexivity.
Qed.

Lemma get_ok E pid e s : exists b, fst (run (repo_get_relationship E pid (Some (from_internal e))) s) = Ok b.
Proof. unfold repo_get_relationship. destruct (to_internal_from_internal e) as [e' ->]. eexists. reflexivity. Qed.
Lemma delete_ok E pid e s : exists b, fst (run (repo_delete_relationship E pid (Some (from_internal e))) s) = Ok b.
Proof. unfold repo_delete_relationship. destruct (to_internal_from_internal e) as [e' ->]. eexists. reflexivity. Qed.

Lemma filtered sp (es : list ((string * string) * edge)) r : In r (filter (selector_satisfies sp) (map (fun x => from_internal (snd x)) es)) -> exists e, r = from_internal e.
Proof. intros H. apply filter_In in H as [H _]. apply in_map_iff in H as (x & <- & _). eauto. Qed.

Lemma run_m_find pid x s : ~ clean_selector x ->
  run (m_find_relationships pid (Some x)) s = (let* _ := new_selector_spec (Some (plain_selector x)) in Ok [], s).
Proof.
  intros Hx. unfold m_find_relationships. cbn [run]. fold (found_m (Some x) (edges_of pid s)). rewrite (found_touched _ _ Hx). reflexivity.
Qed.

(** Any others select nothing: a search answers an empty list wherever the model's answers a list, and a deletion answers 0
    and deletes nothing. *)
Theorem C107_touched : forall E pid x s, ~ clean_selector x ->
  run (m_serve E (MFind pid (Some x))) s = (nothing_found (answer E (plain_request (MFind pid (Some x))) s), s) /\
  run (m_serve E (MDelete pid (Some x))) s = (nothing_found (answer E (plain_request (MDelete pid (Some x))) s), s).
Proof.
  intros E pid x s Hx. unfold answer. cbn [plain_request omap m_serve serve]. unfold respond. rewrite !run_rbind. split.
  - unfold m_find_relationship_records, find_relationship_records. rewrite !run_pbind. unfold repo_get_policy. cbn [run fst snd].
    destruct (kv_get scmp pid (st_pol s)) as [rec |]; [| reflexivity]. cbn [omap]. rewrite !run_rbind. cbn [lift run fst snd].
    destruct (valid_selector (pr_policy rec) (Some (plain_selector x))) as [[] | | |]; try reflexivity. cbn [fst snd].
    unfold repo_find_relationship_records. rewrite !run_rbind, (run_m_find _ _ _ Hx), run_find. cbn [fst snd].
    destruct (new_selector_spec (Some (plain_selector x))) as [sp | | |]; try reflexivity. cbn [bind map_prog run fst snd].
    destruct (map_ok (fun r => repo_get_relationship E pid (Some r)) (matching s pid sp)) with (s := s) as [bs Hbs].
    { intros r Hr s'. apply filtered in Hr as [e ->]. apply get_ok. }
    rewrite Hbs. reflexivity.
  - unfold m_delete_relationships, delete_relationships, repo_delete_relationships. rewrite !run_rbind, (run_m_find _ _ _ Hx), run_find. cbn [fst snd].
    destruct (new_selector_spec (Some (plain_selector x))) as [sp | | |]; try reflexivity. cbn [bind map_prog run fst snd]. rewrite !run_rbind. cbn [map_prog run fst snd].
    destruct (map_ok (fun r => repo_delete_relationship E pid (Some r)) (matching s pid sp)) with (s := s) as [bs Hbs].
    { intros r Hr s'. apply filtered in Hr as [e ->]. apply delete_ok. }
    rewrite Hbs. reflexivity.
Qed.

(** Printing a message, encoding a message around it, and decoding fields that the schema does not know are such things. *)
Theorem C107_printed : forall e u l o v,
  ~ clean_selector (mkMSel (Some (MOObject (Some (print_entity e)))) l v) /\
  ~ clean_selector (mkMSel o l (Some (MUSubject (Some (print_subject u))))).
Proof.
  intros e u l o v. split; intros [H1 H2].
  - specialize (H1 _ eq_refl). discriminate H1.
  - destruct (H2 _ eq_refl) as [H _]. discriminate H.
Qed.

(** Printing a subject does this to the messages in it: taken out of it, they select nothing either. *)
Theorem C107_printed_inside : forall u l o v,
  (forall e, ms_is (print_subject u) = MVEntity e -> ~ clean_selector (mkMSel (Some (MOObject (Some e))) l v)) /\
  (forall b e rel, ms_is (print_subject u) = MVSet b (Some e) rel -> ~ clean_selector (mkMSel (Some (MOObject (Some e))) l v)) /\
  (forall b rs, ms_is (print_subject u) = MVRes b rs -> ~ clean_selector (mkMSel o l (Some (MUSubject (Some (mkMS fresh (MVRes b rs))))))).
Proof.
  intros [bk [e | b e rel | b rs |]] l o v; cbn [print_subject ms_is]; (split; [| split]); try discriminate.
  - intros e' [= <-] [H _]. specialize (H _ eq_refl). discriminate H.
  - intros b' e' rel' Heq [H _]. destruct e as [e |]; [| discriminate Heq]. injection Heq as _ <- _. specialize (H _ eq_refl). discriminate H.
  - intros b' rs' [= <- <-] [_ H]. destruct (H _ eq_refl) as [_ H']. discriminate H'.
Qed.

(** Decoding an entity keeps all of the further fields, in their order. *)
Lemma keep_all fs : forall d e, Forall (fun f => 2 < fst f) fs ->
  fold_opt (m_step_entity d) fs e = Some (mkME (fold_left (fun b f => Book.keep f b) fs (me_book e)) (me_res e) (me_id e)).
Proof.
  induction fs as [| [n v] fs IH]; intros d e H; cbn [fold_opt fold_left]; [destruct e; reflexivity |]. inversion H as [| ? ? Hn Hf]; subst. cbn [fst] in Hn.
  assert (Hs : m_step_entity d e (n, v) = Some (mkME (Book.keep (n, v) (me_book e)) (me_res e) (me_id e))).
  { destruct n as [| [n | n |]]; try lia; [destruct v; reflexivity |]. destruct n as [n | n |]; try lia; destruct v; reflexivity. }
  rewrite Hs, (IH d _ Hf). reflexivity.
Qed.

Lemma kept_all fs : forall b, fold_left (fun b f => Book.keep f b) fs b =
  mkBook (b_info b) (b_size b) match fs with [] => b_unknown b | _ => Some (or_else (b_unknown b) "" +++ put_fields fs) end.
Proof.
  induction fs as [| f fs IH]; intros b; cbn [fold_left]; [destruct b; reflexivity |]. rewrite IH. unfold Book.keep. cbn [b_info b_size b_unknown]. f_equal.
  destruct fs as [| g fs]; cbn [or_else put_fields]; [reflexivity |]. rewrite !app_assoc_w. reflexivity.
Qed.

Theorem C107_kept : forall lim x more, (0 < lim)%nat -> Forall well_formed (fs_entity x ++ more) -> all_utf8 [e_res x; e_id x] -> Forall (fun f => 2 < fst f) more ->
  message m_step_entity lim new_entity (put_fields (fs_entity x ++ more)) =
  Some (mkME (mkBook false 0 match more with [] => None | _ => Some (put_fields more) end) (e_res x) (e_id x)).
Proof.
  intros lim x more Hl Hw Ht Hm. destruct lim as [| d]; [lia |]. cbn [message]. rewrite (get_put_all _ Hw), fold_opt_app.
  assert (He : fold_opt (m_step_entity d) (fs_entity x) new_entity = Some (mkME fresh (e_res x) (e_id x))).
  { apply utf8_cons in Ht as [H1 H2]. apply utf8_one in H2. unfold fs_entity, f_str.
    destruct x as [[| c r] [| c' i]]; cbn [e_res e_id Datatypes.app fold_opt m_step_entity] in *; unfold text; rewrite ?H1, ?H2; reflexivity. }
  rewrite He, (keep_all more d _ Hm), kept_all. cbn [me_book me_res me_id fresh b_info b_size b_unknown or_else]. destruct more; reflexivity.
Qed.

Theorem C107_encoded : forall e l v, me_res e <> ""%string \/ me_id e <> ""%string ->
  ~ clean_selector (mkMSel (Some (MOObject (Some (encode_entity e)))) l v).
Proof.
  intros e l v He [H _]. specialize (H _ eq_refl). unfold clean_entity, encode_entity, sized, fresh in H. cbn [me_book] in H. injection H as _ Hs _.
  unfold size_of in Hs. apply N.eq_add_0 in Hs as [Hs _]. unfold fs_entity, e_plain in Hs. cbn [e_res e_id] in Hs.
  destruct e as [b [| c rs] [| c' i]]; cbn [me_res me_id f_str app] in *; [tauto | ..]; revert Hs; cbn [put_fields]; rewrite slen_app; unfold put_field; 
    intros Hs; apply N.eq_add_0 in Hs as [Hs _]; revert Hs; cbn; discriminate.
Qed.

(** Nothing but its texts makes the difference: a clean object without texts stays clean. *)
Theorem C107_encoded_empty : forall e, clean_entity e -> me_res e = ""%string -> me_id e = ""%string -> encode_entity e = e.
Proof.
  intros [b rs i] He H1 H2. unfold clean_entity, encode_entity in *. cbn [me_book me_res me_id] in *. subst. reflexivity.
Qed.

(** A selector that a client of the same schema sends arrives as it was meant. *)
Theorem C107_sent : forall lim x, (5 <= lim)%nat -> selector_ok x -> all_utf8 (selector_texts x) -> short (put_fields (fs_selector x)) ->
  exists m, m_decode_selector lim (put_fields (fs_selector x)) = Some m /\ clean_selector m /\ plain_selector m = x.
Proof.
  intros lim x Hl Hx Ht Hs. exists (new_selector x). split; [| apply new_selector_clean].
  do 5 (destruct lim as [| lim]; [lia |]). apply m_selector_round; assumption.
Qed.

(** Whatever arrives says what the decoder of C100 reads. *)
Lemma entity_image d e b : message step_entity d (e_plain e) b = omap e_plain (message m_step_entity d e b).
Proof.
  apply message_image. clear. intros d e f. fields f; try reflexivity; cbn [step_entity m_step_entity]; unfold text; destruct (utf8_valid s); reflexivity.
Qed.

Definition set_plain (x : book * option m_entity * string) : option entity * string := (omap e_plain (snd (fst x)), snd x).

Lemma set_image d x b : message step_entity_set d (set_plain x) b = omap set_plain (message m_step_entity_set d x b).
Proof.
  apply message_image. clear. intros d x f. fields f; try reflexivity; cbn [step_entity_set m_step_entity_set]; [unfold text; destruct (utf8_valid s); reflexivity |].
  replace (or_else (fst (set_plain x)) (mkEntity "" "")) with (e_plain (or_else (snd (fst x)) new_entity)) by (destruct x as [[? []] ?]; reflexivity).
  rewrite entity_image. destruct (message m_step_entity d _ s); reflexivity.
Qed.

Lemma name_image d x b : message step_cu d (snd x) b = omap snd (message m_step_name d x b).
Proof. apply (message_image snd). clear. intros d x f. fields f; try reflexivity; cbn [step_cu m_step_name]; unfold text; destruct (utf8_valid s); reflexivity. Qed.

Lemma subject_image d u b : message step_subject d (u_plain u) b = omap u_plain (message m_step_subject d u b).
Proof.
  apply message_image. clear. intros d u f. fields f; try reflexivity; cbn [step_subject m_step_subject].
  - replace (match u_plain u with SResourceSet r => r | _ => ""%string end) with (snd (match ms_is u with MVRes c r => (c, r) | _ => (fresh, ""%string) end)) by (destruct u as [? []]; reflexivity).
    rewrite name_image. destruct (message m_step_name d _ s) as [[] |]; reflexivity.
  - replace (match u_plain u with SEntitySet e r => (e, r) | _ => (None, ""%string) end) with (set_plain (match ms_is u with MVSet c e r => (c, e, r) | _ => (fresh, None, ""%string) end)) by (destruct u as [? []]; reflexivity).
    rewrite set_image. destruct (message m_step_entity_set d _ s) as [[[] ?] |]; reflexivity.
  - replace (match u_plain u with SEntity e => e | _ => mkEntity "" "" end) with (e_plain (match ms_is u with MVEntity e => e | _ => new_entity end)) by (destruct u as [? []]; reflexivity).
    rewrite entity_image. destruct (message m_step_entity d _ s); reflexivity.
Qed.

Theorem C107_decoded : forall lim b, message step_selector lim (mkSel None None None) b = omap plain_selector (m_decode_selector lim b).
Proof.
  intros lim b. change (mkSel None None None) with (plain_selector (mkMSel None None None)). apply message_image. clear. intros d x f.
  assert (Ho : forall d x b, message step_obj_selector d (o_plain x) b = omap o_plain (message m_step_obj_selector d x b)).
  { clear. intros d x b. apply message_image. clear. intros d x f. fields f; try reflexivity; cbn [step_obj_selector m_step_obj_selector].
    - unfold text. destruct (utf8_valid s); reflexivity.
    - destruct (message step_empty d tt s); reflexivity.
    - replace (match o_plain x with OSObject (Some e) => e | _ => no_entity end) with (e_plain (match x with MOObject (Some e) => e | _ => new_entity end)) by (destruct x as [[] | | |]; reflexivity).
      rewrite entity_image. destruct (message m_step_entity d _ s); reflexivity. }
  assert (Hu : forall d x b, message step_subj_selector d (us_plain x) b = omap us_plain (message m_step_subj_selector d x b)).
  { clear. intros d x b. apply message_image. clear. intros d x f. fields f; try reflexivity; cbn [step_subj_selector m_step_subj_selector].
    - unfold text. destruct (utf8_valid s); reflexivity.
    - destruct (message step_empty d tt s); reflexivity.
    - replace (match us_plain x with USSubject (Some e) => e | _ => SUnset end) with (u_plain (match x with MUSubject (Some u) => u | _ => mkMS fresh MVUnset end)) by (destruct x as [[] | | |]; reflexivity).
      rewrite subject_image. destruct (message m_step_subject d _ s); reflexivity. }
  fields f; try reflexivity; cbn [step_selector m_step_selector plain_selector s_obj s_rel s_subj].
  - replace (or_else (omap us_plain (m_subj x)) USUnset) with (us_plain (or_else (m_subj x) MUUnset)) by (destruct (m_subj x); reflexivity).
    rewrite Hu. destruct (message m_step_subj_selector d _ s); reflexivity.
  - destruct (message step_rel_selector d _ s); reflexivity.
  - replace (or_else (omap o_plain (m_obj x)) OSUnset) with (o_plain (or_else (m_obj x) MOUnset)) by (destruct (m_obj x); reflexivity).
    rewrite Ho. destruct (message m_step_obj_selector d _ s); reflexivity.
Qed.

(** The claim: selectors that say the same select the same.  It fails, for searches and for deletions, and for a client in the
    same process as well as for a remote one whose messages have a field that the server does not know. *)
Definition by_object (e : m_entity) : m_selector := mkMSel (Some (MOObject (Some e))) (Some LSWild) (Some MUWild).
Definition file1 : m_entity := mkME fresh "file" "1".
Definition owned : store := after_all E0 [create "p"; set "p" (tup "file" "1" "owner" (user "bob"))] empty_store.

Theorem C107_same_selection_refuted : exists s, sequential E0 s /\
  plain_selector (by_object (print_entity file1)) = plain_selector (by_object file1) /\
  fst (run (m_serve E0 (MFind "p" (Some (by_object file1)))) s) = Ok (ARecords [Some (mkRRec "p" (tup "file" "1" "owner" (user "bob")) 2 "data")]) /\
  fst (run (m_serve E0 (MFind "p" (Some (by_object (print_entity file1))))) s) = Ok (ARecords []) /\
  fst (run (m_serve E0 (MFind "p" (Some (by_object (encode_entity file1))))) s) = Ok (ARecords []) /\
  fst (run (m_serve E0 (MDelete "p" (Some (by_object file1)))) s) = Ok (ACount 1) /\
  run (m_serve E0 (MDelete "p" (Some (by_object (print_entity file1))))) s = (Ok (ACount 0), s).
Proof.
  exists owned. split; [eexists; reflexivity |]. vm_compute. repeat split.
Qed.

(** The bytes of the selector of [file1], and the same with a field 3 in the entity. *)
Definition selector_bytes (more : list field) : string :=
  put_fields (f_msg 1 (f_msg 1 (fs_entity (e_plain file1) ++ more)) ++ f_msg 2 (f_msg 2 []) ++ f_msg 3 (f_msg 2 [])).

Theorem C107_newer_client_refuted : exists m m', m_decode_selector 100 (selector_bytes []) = Some m /\
  m_decode_selector 100 (selector_bytes [(3, WVarint 7)]) = Some m' /\ plain_selector m = plain_selector m' /\
  fst (run (m_serve E0 (MDelete "p" (Some m))) owned) = Ok (ACount 1) /\ run (m_serve E0 (MDelete "p" (Some m'))) owned = (Ok (ACount 0), owned).
Proof.
  eexists _, _. split; [vm_compute; reflexivity |]. split; [vm_compute; reflexivity |]. vm_compute. repeat split.
Qed.

Example C107_case : clean_selector (by_object file1) /\ ~ clean_selector (by_object (print_entity file1)) /\
  clean_request (MFind "p" (Some (by_object file1))).
Proof.
  assert (H : clean_selector (by_object file1)) by (split; [intros e [= <-]; reflexivity | discriminate]).
  split; [exact H |]. split; [| exact H]. intros [H1 _]. specialize (H1 _ eq_refl). discriminate H1.
Qed.

Print Assumptions C107_same_selection_partial.
Print Assumptions C107_touched.
Print Assumptions C107_printed.
Print Assumptions C107_printed_inside.
Print Assumptions C107_kept.
Print Assumptions C107_encoded.
Print Assumptions C107_encoded_empty.
Print Assumptions C107_sent.
Print Assumptions C107_decoded.
Print Assumptions C107_same_selection_refuted.
Print Assumptions C107_newer_client_refuted.
