(** Properties of calls with limits on the length of messages: C101. *)
From Coq Require Import Sorted Permutation.
From Verif Require Import Base Domain Lexer Parser Validate Store Search Explain Yaml Service Dump Api Fault Wire SpecStore SpecPolicy SpecConc SpecWire Rpc SpecRpc Limits SpecLimits Fixtures
  BaseFacts ValidateFacts StoreFacts PolicyFacts RelFacts ConcFacts WireFacts WireServe RpcFacts RpcServe PropsPolicy PropsStore PropsFault PropsWire PropsRpc.
Local Open Scope N_scope.

(** ** C101 What remote clients store they can read, also with limits on the length of messages *)

(** A call that is too long changes nothing. *)
Theorem C101_too_long : forall E L lim smax cmax ord now n c b, smax < call_length ord c -> remote_max E L lim smax cmax ord now n c b = (Garbled, b).
Proof.
  intros E L lim smax cmax ord now n c b H. unfold remote_max, marshal_call. destruct (forallb utf8_valid (call_texts c)); [| reflexivity].
  unfold call_length in H. apply N.ltb_lt in H. rewrite H. reflexivity.
Qed.

Lemma deliver_max_good L lim max ord c x : (9 <= lim)%nat -> (forall l, Permutation (ord l) l) -> max < 9223372036854775808 -> ok (good_response L lim c) x ->
  counts_ok (local_outcome L c x) -> deliver_max L lim max ord c x = seen_max ord max (local_outcome L c x).
Proof.
  intros Hl Ho Hm Hx Hf. destruct x as [a | e | |]; cbn [deliver_max local_outcome seen_max]; try reflexivity. cbn [ok local_outcome] in *. unfold reply_length.
  destruct (N.ltb_spec max (slen (put_fields (fs_reply ord (reply_of L c a))))) as [H | H].
  - unfold marshal_reply. destruct (forallb _ _); [| reflexivity]. apply N.ltb_lt in H. rewrite H. reflexivity.
  - assert (Hs : short (put_fields (fs_reply ord (reply_of L c a)))) by (unfold short; lia).
    pose proof (deliver_good L lim ord c (Ok a) Hl Ho Hx) as Hd. cbn [local_outcome outcome_fits seen] in Hd.
    rewrite <- Hd; [| split; [exact Hs | destruct (reply_of L c a); exact Hf || exact I]].
    cbn [deliver]. destruct (marshal_reply ord (reply_of L c a)) as [m |] eqn:E1; [| reflexivity].
    assert (m = put_fields (fs_reply ord (reply_of L c a))) as -> by (unfold marshal_reply in E1; destruct (forallb _ _); [injection E1 as <-; reflexivity | discriminate]).
    apply N.ltb_ge in H. rewrite H. reflexivity.
Qed.

Lemma remote_max_ok E L lim smax cmax ord now n c b s : (9 <= lim)%nat -> texts_ok L -> (forall l, Permutation (ord l) l) ->
  smax < 9223372036854775808 -> cmax < 9223372036854775808 -> stands_for lim b s -> good_store lim s -> acceptable E L lim (now, n, c) ->
  call_length ord c <= smax -> counts_ok (fst (local E L now n c s)) ->
  exists b', remote_max E L lim smax cmax ord now n c b = (seen_max ord cmax (fst (local E L now n c s)), b') /\
    stands_for lim b' (snd (local E L now n c s)) /\ good_store lim (snd (local E L now n c s)) /\ b' = snd (byte_run lim ord (serve E (request_of L now n c)) b).
Proof.
  intros Hl HL Ho Hsm Hcm Hb Hg Hx Hc Hn.
  destruct (C100_request lim ord c Hl Ho (proj1 Hx)) as (m & Hm & Hu).
  assert (He : m = put_fields (fs_call ord c)). { unfold marshal_call in Hm. destruct (forallb _ _); [| discriminate]. injection Hm as <-. reflexivity. }
  unfold remote_max, local in *. rewrite Hm, Hu by (rewrite He; unfold short; unfold call_length in Hc; lia).
  assert (Hlt : (smax <? slen m) = false) by (apply N.ltb_ge; rewrite He; exact Hc). rewrite Hlt.
  pose proof (serve_writable E lim _ (acceptable_fits E L lim _ Hl HL Hx)) as Hd. pose proof (serve_good E L lim _ Hl HL Hx) as Hgv. unfold as_request in Hd, Hgv. cbn [fst snd] in Hd, Hgv.
  destruct (byte_run_ok lim ord _ ltac:(lia) Ho b s Hd Hb) as [H1 H2]. destruct (gives_run lim _ _ s Hgv Hg) as [H3 H4].
  eexists. split; [| split; [exact H2 | split; [exact H4 | reflexivity]]]. cbn [fst snd] in *. f_equal. rewrite H1. apply deliver_max_good; assumption.
Qed.

(** What a client sees whose calls are short enough: the responses that are short enough, and errors in place of the others. *)
Theorem C101_history : forall E L lim smax cmax ord xs, (9 <= lim)%nat -> texts_ok L -> (forall l, Permutation (ord l) l) ->
  smax < 9223372036854775808 -> cmax < 9223372036854775808 ->
  Forall (acceptable E L lim) xs -> Forall (fun x => call_length ord (snd x) <= smax) xs -> Forall counts_ok (fst (local_all E L xs empty_store)) ->
  fst (remote_max_all E L lim smax cmax ord xs empty_bytes) = map (seen_max ord cmax) (fst (local_all E L xs empty_store)).
Proof.
  intros E L lim smax cmax ord xs Hl HL Ho Hsm Hcm.
  assert (H : forall b s, stands_for lim b s -> good_store lim s -> Forall (acceptable E L lim) xs -> Forall (fun x => call_length ord (snd x) <= smax) xs -> Forall counts_ok (fst (local_all E L xs s)) ->
    fst (remote_max_all E L lim smax cmax ord xs b) = map (seen_max ord cmax) (fst (local_all E L xs s))).
  { induction xs as [| [[now n] c] xs IH]; intros b s Hb Hg Hx Hc Hf; [reflexivity |]. inversion Hx as [| ? ? Hx1 Hx2]; subst. inversion Hc as [| ? ? Hc1 Hc2]; subst.
    cbn [local_all remote_max_all] in *. pose proof (remote_max_ok E L lim smax cmax ord now n c b s Hl HL Ho Hsm Hcm Hb Hg Hx1 Hc1) as H1.
    destruct (local E L now n c s) as [o s1]. cbn [fst snd] in *. destruct (local_all E L xs s1) as [os s2] eqn:Hls. cbn [fst map] in *. inversion Hf as [| ? ? Hf1 Hf2]; subst.
    destruct (H1 Hf1) as (b1 & -> & H2 & H3 & _). specialize (IH b1 s1 H2 H3 Hx2 Hc2). rewrite Hls in IH. specialize (IH Hf2).
    destruct (remote_max_all E L lim smax cmax ord xs b1) as [os' b2]. cbn [fst] in *. f_equal. exact IH. }
  apply H; [split; [constructor | split; constructor] | split; [| split]; intros ? ? []].
Qed.

(** The same for calls at the same time, on every store that remote clients can bring about. *)
Theorem C101_answers : forall E L lim cmax ord b, (9 <= lim)%nat -> texts_ok L -> (forall l, Permutation (ord l) l) -> cmax < 9223372036854775808 -> remote_reachable E L lim b ->
  exists s, reachable E s /\ stands_for lim b s /\
    forall xs es i x a, Forall (acceptable E L lim) xs -> walks es -> nth_error xs i = Some x ->
      byte_answered (byte_interleave lim es (map (fun x => serve E (as_request L x)) xs, b)) i = Some a ->
      answered (interleave (map fst es) (start E (map (as_request L) xs) s)) i = Some a /\
      (counts_ok (local_outcome L (snd x) a) -> deliver_max L lim cmax ord (snd x) a = seen_max ord cmax (local_outcome L (snd x) a)).
Proof.
  intros E L lim cmax ord b Hl HL Ho Hm Hb. destruct (remote_typed E L lim b Hl HL Hb) as (s & H1 & H2 & H3). exists s. split; [exact H1 |]. split; [exact H2 |].
  intros xs es i x a Hx Hw Hi Ha.
  pose proof (C98_same_answers E lim (map (as_request L) xs) es b s i ltac:(lia) (fits_all E L lim xs Hl HL Hx) Hw H2) as [H4 _].
  rewrite map_map in H4. rewrite H4 in Ha. split; [exact Ha |]. apply deliver_max_good; [exact Hl | exact Ho | exact Hm |].
  pose proof (gives_interleave lim (fun i a => forall x, nth_error xs i = Some x -> ok (good_response L lim (snd x)) a) (map fst es)
    (map (fun x => serve E (as_request L x)) xs) s (start_gives E L lim xs Hl HL Hx) H3) as [H5 _].
  unfold answered, start in Ha. rewrite map_map in Ha. specialize (H5 i).
  match type of Ha with match ?y with _ => _ end = _ => destruct y as [[a' | | | | | | | | | | | |] |]; try discriminate end. injection Ha as ->. exact (H5 _ eq_refl x Hi).
Qed.

(** ** Responses of a fixed size *)

Lemma byte_respond lim ord {A} (p : prog (res A)) (f : A -> response) : forall b a, fst (byte_run lim ord (respond p f) b) = Ok a -> exists x, a = f x.
Proof.
  unfold respond, rbind. induction p as [x | id k IH | id k IH | id r k IH | id k IH | k IH | pid key k IH | pid key e k IH | pid key k IH | pid k IH | key k IH | key d k IH | key k IH];
    intros b a H; cbn [pbind byte_run] in H; try (eapply IH; exact H).
  - destruct x as [x | | |]; cbn [byte_run fst] in H; try discriminate. injection H as <-. eauto.
  - destruct (read _ _) as [x |]; [eapply IH; exact H | discriminate].
  - destruct (marshal_policy _ _); [eapply IH; exact H | discriminate].
  - destruct (read _ _) as [x |]; [eapply IH; exact H | discriminate].
  - destruct (marshal_edge _); [eapply IH; exact H | discriminate].
  - destruct (decode_all _ _) as [x |]; [eapply IH; exact H | discriminate].
  - destruct (read _ _) as [x |]; [eapply IH; exact H | discriminate].
Qed.

Lemma slen_fbool n (b : bool) : n < 16 -> slen (put_fields (f_bool n b)) <= 2.
Proof.
  intros Hn. destruct b; unfold f_bool, f_int; cbn [N.eqb put_fields]; [| cbn; lia]. unfold put_field. cbn [fst snd]. rewrite !slen_app, slen_nil.
  change (slen (put_varint 1)) with 1. unfold put_varint. cbn [put_varint_n]. assert (H : (n * 8 <? 128) = true) by (apply N.ltb_lt; lia). rewrite H.
  change (slen (one (ascii_of_N (n * 8)))) with 1. lia.
Qed.

Lemma slen_tag_int n v : n < 16 -> slen (put_fields (f_int n v)) <= 11.
Proof.
  intros Hn. unfold f_int. destruct (v =? 0); [cbn; lia |]. cbn [put_fields]. unfold put_field. cbn [fst snd]. rewrite !slen_app, slen_nil. pose proof (slen_varint v).
  unfold put_varint at 1. cbn [put_varint_n]. assert (H1 : (n * 8 <? 128) = true) by (apply N.ltb_lt; lia). rewrite H1. change (slen (one (ascii_of_N (n * 8)))) with 1. lia.
Qed.

Lemma brief_length L ord c a E now n : brief c -> (exists lim b, fst (byte_run lim ord (serve E (request_of L now n c)) b) = Ok a) -> reply_length ord (reply_of L c a) <= 13.
Proof.
  intros Hc (lim & b & H). unfold reply_length.
  destruct c; try contradiction; cbn [request_of serve] in H; apply byte_respond in H as [x ->]; cbn [reply_of fs_reply].
  - cbn. lia.
  - rewrite put_fields_app, slen_app. pose proof (slen_fbool 1 (fst x) ltac:(lia)). pose proof (slen_tag_int 2 (N.of_nat (snd x)) ltac:(lia)). lia.
  - pose proof (slen_fbool 1 x ltac:(lia)). lia.
  - pose proof (slen_fbool 1 x ltac:(lia)). lia.
  - pose proof (slen_tag_int 1 (N.of_nat x) ltac:(lia)). lia.
  - destruct x; cbn; lia.
Qed.

(** On every store: a client that may receive 13 bytes gets the answers to all writes except CreatePolicy, and to checks. *)
Theorem C101_brief : forall E L lim smax cmax ord now n c b, brief c -> 13 <= cmax -> call_length ord c <= smax ->
  remote_max E L lim smax cmax ord now n c b = remote E L lim ord now n c b.
Proof.
  intros E L lim smax cmax ord now n c b Hc Hm Hl. unfold remote_max, remote. destruct (marshal_call ord c) as [m |] eqn:E1; [| reflexivity].
  assert (m = put_fields (fs_call ord c)) as -> by (unfold marshal_call in E1; destruct (forallb _ _); [injection E1 as <-; reflexivity | discriminate]).
  apply N.ltb_ge in Hl. unfold call_length in Hl. rewrite Hl. destruct (unmarshal_call (method_of c) lim (put_fields (fs_call ord c))) as [c' |] eqn:E2; [| reflexivity].
  apply C100_received in E2 as [E2 _]. assert (Hc' : brief c') by (destruct c; try contradiction; destruct c'; try discriminate; exact I).
  f_equal. unfold deliver_max, deliver. destruct (fst (byte_run lim ord (serve E (request_of L now n c')) b)) as [a | | |] eqn:E3; try reflexivity.
  pose proof (brief_length L ord c' a E now n Hc' ltac:(eauto)) as Hb.
  destruct (marshal_reply ord (reply_of L c' a)) as [r |] eqn:E4; [| reflexivity].
  assert (r = put_fields (fs_reply ord (reply_of L c' a))) as -> by (unfold marshal_reply in E4; destruct (forallb _ _); [injection E4 as <-; reflexivity | discriminate]).
  unfold reply_length in Hb. destruct (N.ltb_spec cmax (slen (put_fields (fs_reply ord (reply_of L c' a))))); [lia | reflexivity].
Qed.

(** ** Lengths *)

Lemma varint_length_mono a b : a <= b -> slen (put_varint a) <= slen (put_varint b).
Proof.
  unfold put_varint. generalize 10%nat as k. intros k. revert a b. induction k as [| k IH]; intros a b H; cbn [put_varint_n]; [lia |].
  destruct (N.ltb_spec a 128) as [Ha | Ha]; destruct (N.ltb_spec b 128) as [Hb | Hb]; [| | lia |].
  - unfold slen. cbn [one String.length]. lia.
  - unfold slen. cbn [one String.length]. lia.
  - specialize (IH (a / 128) (b / 128) ltac:(apply N.div_le_mono; lia)). unfold slen in *. cbn [String.length]. lia.
Qed.

Lemma varint_length_some a : 1 <= slen (put_varint a).
Proof. destruct (put_varint_some a) as (c & t & ->). unfold slen. cbn [String.length]. lia. Qed.

Lemma bytes_length n s : n < 15 -> slen (put_fields [(n, WLen s)]) = 1 + slen (put_varint (slen s)) + slen s.
Proof.
  intros Hn. cbn [put_fields]. unfold put_field. cbn [fst snd]. rewrite !slen_app, slen_nil. unfold put_varint at 1. cbn [put_varint_n].
  assert (H : (n * 8 + 2 <? 128) = true) by (apply N.ltb_lt; lia). rewrite H. change (slen (one (ascii_of_N (n * 8 + 2)))) with 1. lia.
Qed.

Lemma msg_length n fs : n < 15 -> slen (put_fields (f_msg n fs)) = 1 + slen (put_varint (slen (put_fields fs))) + slen (put_fields fs).
Proof. apply bytes_length. Qed.

Lemma str_length n n' s : n < 15 -> n' < 15 -> slen (put_fields (f_str n s)) = slen (put_fields (f_str n' s)).
Proof. intros H H'. destruct s as [| c s]; [reflexivity |]. unfold f_str. rewrite !bytes_length by assumption. reflexivity. Qed.

(** The response to a creation, and to a reading of the policy, is longer than the request. *)
Lemma created_longer ord p ap t : call_length ord (KCreatePolicy (Some (SentPolicy p)) ap) + 2 <= reply_length ord (PCreated (Some (mkPRec p ap t))).
Proof.
  unfold call_length, reply_length. cbn [fs_call fs_reply f_opt fs_sent pr_policy]. rewrite put_fields_app, slen_app, !(msg_length 1) by lia.
  set (x := 1 + slen (put_varint (slen (put_fields (fs_policy p (ord (p_attrs p)))))) + slen (put_fields (fs_policy p (ord (p_attrs p))))).
  assert (H : slen (put_fields (fs_policy_record (mkPRec p ap t) (ord (p_attrs p)))) = x + slen (put_fields (f_str 2 ap)) + slen (put_fields (f_msg 3 (fs_time t)))).
  { unfold fs_policy_record. cbn [pr_policy pr_app pr_created]. rewrite !put_fields_app, !slen_app, (msg_length 1) by lia. fold x. lia. }
  rewrite H, (msg_length 3) by lia. pose proof (varint_length_some (slen (put_fields (fs_time t)))).
  match goal with |- 1 + slen (put_varint x) + x + _ + 2 <= 1 + slen (put_varint ?y) + _ => pose proof (varint_length_mono x y ltac:(lia)) end. lia.
Qed.

Lemma found_longer ord pid r ap t : call_length ord (KSetRelationship pid (Some r) ap) + 4 <= reply_length ord (PRecord (Some (mkRRec pid r t ap))).
Proof.
  unfold call_length, reply_length. cbn [fs_call fs_reply f_opt]. rewrite (msg_length 1) by lia. unfold fs_about, fs_rel_record. cbn [f_opt rr_policy rr_rel rr_created rr_app].
  rewrite !put_fields_app, !slen_app, (msg_length 3) by lia. rewrite (str_length 4 3) by lia.
  pose proof (varint_length_some (slen (put_fields (fs_time t)))).
  match goal with |- _ <= 1 + slen (put_varint ?y) + _ => pose proof (varint_length_some y) end. lia.
Qed.

(** ** What is stored and cannot be read *)

(** The policies whose request just fits: the policy is stored, the client that created it is told an error, and no remote client
    can read it. *)
Theorem C101_untold_refuted : forall E L lim max ord now n p ap b, let c := KCreatePolicy (Some (SentPolicy p)) ap in
  (9 <= lim)%nat -> texts_ok L -> (forall l, Permutation (ord l) l) -> max < 9223372036854775808 -> remote_reachable E L lim b -> acceptable E L lim (now, n, c) ->
  well_formed E p -> fst (byte_run lim ord (serve E (QGetPolicy (p_id p))) b) = Ok (APolicy None) -> call_length ord c <= max < call_length ord c + 2 ->
  exists b', remote_max E L lim max max ord now n c b = (Garbled, b') /\
    fst (byte_run lim ord (serve E (QGetPolicy (p_id p))) b') = Ok (APolicy (Some (mkPRec p ap now))) /\
    forall now' n', remote_max E L lim max max ord now' n' (KGetPolicy (p_id p)) b' = (Garbled, b').
Proof.
  intros E L lim max ord now n p ap b c Hl HL Ho Hm Hb Hx Hw Hno Hlen. destruct (remote_typed E L lim b Hl HL Hb) as (s & _ & Hst & Hg).
  assert (Hget : forall b s, stands_for lim b s -> fst (byte_run lim ord (serve E (QGetPolicy (p_id p))) b) = answer E (QGetPolicy (p_id p)) s /\ snd (byte_run lim ord (serve E (QGetPolicy (p_id p))) b) = b).
  { intros b0 s0 H0. split; [| apply byte_run_reads, reads_serve; reflexivity]. apply byte_run_ok; [lia | exact Ho | | exact H0]. apply serve_writable. exact I. }
  destruct (Hget b s Hst) as [Hn _]. rewrite Hn in Hno. clear Hn.
  assert (Hloc : local E L now n c s = (Got (PCreated (Some (mkPRec p ap now))), put_policy (mkPRec p ap now) s)).
  { unfold local, c. cbn [request_of serve omap def_of]. unfold respond. rewrite SearchRun.run_rbind, run_create. cbn [get_policy_from_definition].
    rewrite answer_get_policy in Hno. unfold policies in Hno. injection Hno as ->. apply verify_ok in Hw. rewrite Hw. reflexivity. }
  destruct (remote_max_ok E L lim max max ord now n c b s Hl HL Ho Hm Hm Hst Hg Hx ltac:(lia)) as (b' & H1 & H2 & H3 & _); [rewrite Hloc; exact I |].
  rewrite Hloc in *. cbn [fst snd] in *. exists b'. pose proof (created_longer ord p ap now) as Hlong. fold c in Hlong. split; [| split].
  - rewrite H1. cbn [seen_max]. destruct (N.ltb_spec max (reply_length ord (PCreated (Some (mkPRec p ap now))))); [reflexivity | lia].
  - destruct (Hget b' _ H2) as [-> _]. rewrite answer_get_policy. unfold policies, put_policy. cbn [st_pol pr_policy]. rewrite (get_set_same scmp scmp_ok). reflexivity.
  - intros now' n'. destruct (N.ltb_spec max (call_length ord (KGetPolicy (p_id p)))) as [Hlt | Hge]; [apply C101_too_long; exact Hlt |].
    assert (Hx' : acceptable E L lim (now', n', KGetPolicy (p_id p))).
    { split; [split; [| exact I] | exact I]. apply utf8_one. destruct Hx as [[Ht _] _]. apply Ht. left. reflexivity. }
    assert (Hloc' : local E L now' n' (KGetPolicy (p_id p)) (put_policy (mkPRec p ap now) s) = (Got (PPolicy (Some (mkPRec p ap now))), put_policy (mkPRec p ap now) s)).
    { unfold local. cbn [request_of]. pose proof (answer_get_policy E (p_id p) (put_policy (mkPRec p ap now) s)) as Ha. unfold answer in Ha. rewrite Ha. unfold policies, put_policy at 1. cbn [st_pol pr_policy].
      rewrite (get_set_same scmp scmp_ok). reflexivity. }
    destruct (remote_max_ok E L lim max max ord now' n' _ b' _ Hl HL Ho Hm Hm H2 H3 Hx' Hge) as (b'' & H4 & _ & _ & H5); [rewrite Hloc'; exact I |].
    rewrite Hloc' in H4. cbn [fst request_of] in H4, H5. destruct (Hget b' _ H2) as [_ H6]. rewrite H6 in H5. subst b''. rewrite H4. cbn [seen_max].
    change (reply_length ord (PPolicy (Some (mkPRec p ap now)))) with (reply_length ord (PCreated (Some (mkPRec p ap now)))).
    destruct (N.ltb_spec max (reply_length ord (PCreated (Some (mkPRec p ap now))))); [reflexivity | lia].
Qed.

(** A relationship whose request just fits is stored and in force, and no remote client can read its record. *)
Theorem C101_unread_refuted : forall E L lim max ord now n pid r ap ow b b', let c := KSetRelationship pid (Some r) ap in
  (9 <= lim)%nat -> texts_ok L -> (forall l, Permutation (ord l) l) -> max < 9223372036854775808 -> remote_reachable E L lim b -> acceptable E L lim (now, n, c) ->
  call_length ord c <= max < call_length ord c + 4 -> remote_max E L lim max max ord now n c b = (Got (PSet ow), b') ->
  fst (byte_run lim ord (serve E (QGetRelationship pid (Some r))) b') = Ok (ARecord (Some (mkRRec pid r now ap))) /\
  forall now' n', remote_max E L lim max max ord now' n' (KGetRelationship pid (Some r)) b' = (Garbled, b').
Proof.
  intros E L lim max ord now n pid r ap ow b b' c Hl HL Ho Hm Hb Hx Hlen Hset. destruct (remote_typed E L lim b Hl HL Hb) as (s & Hs & Hst & Hg).
  assert (Hcount : counts_ok (fst (local E L now n c s))).
  { unfold local, c. cbn [request_of serve fst]. unfold respond. rewrite SearchRun.run_rbind. destruct (fst (run (set_relationship E now pid (Some r) ap) s)); exact I. }
  destruct (remote_max_ok E L lim max max ord now n c b s Hl HL Ho Hm Hm Hst Hg Hx ltac:(lia) Hcount) as (b1 & H1 & H2 & H3 & _). rewrite H1 in Hset. assert (Hb1 : b1 = b') by exact (f_equal snd Hset). subst b'. apply (f_equal fst) in Hset. cbn [fst] in Hset.
  assert (Hans : answer E (QSetRelationship now pid (Some r) ap) s = Ok (ASet ow)).
  { unfold answer. unfold local, c in Hset. cbn [request_of fst] in Hset. revert Hset. generalize (fst (run (serve E (QSetRelationship now pid (Some r) ap)) s)).
    intros [a | | |] Hseen; cbn [seen_max local_outcome] in Hseen; try discriminate Hseen. destruct (max <? reply_length ord (reply_of L (KSetRelationship pid (Some r) ap) a)); [discriminate Hseen |].
    destruct a; cbn [reply_of as_received] in Hseen; try discriminate Hseen. injection Hseen as ->. reflexivity. }
  pose proof (PropsStore.C15_record_shared_by_all_policies E s now pid pid r ap ow Hs Hans) as Hrec.
  change (after E (QSetRelationship now pid (Some r) ap) s) with (snd (local E L now n c s)) in Hrec. set (s1 := snd (local E L now n c s)) in *.
  assert (Hd : does timely (writable lim) (serve E (QGetRelationship pid (Some r)))) by (apply serve_writable; exact I).
  destruct (byte_run_ok lim ord _ ltac:(lia) Ho b1 s1 Hd H2) as [H4 _].
  assert (Hsame : snd (byte_run lim ord (serve E (QGetRelationship pid (Some r))) b1) = b1) by (apply byte_run_reads, reads_serve; exact I).
  split; [rewrite H4; exact Hrec |]. intros now' n'.
  destruct (N.ltb_spec max (call_length ord (KGetRelationship pid (Some r)))) as [Hlt | Hge]; [apply C101_too_long; exact Hlt |].
  assert (Hx' : acceptable E L lim (now', n', KGetRelationship pid (Some r))) by (split; [split; [exact (proj1 (proj1 Hx)) | exact I] | exact I]).
  assert (Hloc : fst (local E L now' n' (KGetRelationship pid (Some r)) s1) = Got (PRecord (Some (mkRRec pid r now ap)))).
  { unfold local. cbn [request_of fst]. unfold answer in Hrec. rewrite Hrec. reflexivity. }
  destruct (remote_max_ok E L lim max max ord now' n' _ b1 s1 Hl HL Ho Hm Hm H2 H3 Hx' Hge) as (b2 & H5 & _ & _ & H6); [rewrite Hloc; exact I |].
  cbn [request_of] in H6. rewrite Hsame in H6. subst b2. rewrite H5, Hloc. cbn [seen_max]. pose proof (found_longer ord pid r ap now).
  destruct (N.ltb_spec max (reply_length ord (PRecord (Some (mkRRec pid r now ap))))); [reflexivity | unfold c in Hlen; lia].
Qed.

(** There are such policies for every limit. *)
Fixpoint filler (n : nat) : string := match n with O => "" | S n' => String "x" (filler n') end.
Lemma slen_filler n : slen (filler n) = N.of_nat n.
Proof. unfold slen. induction n as [| n IH]; cbn [filler String.length]; [reflexivity | lia]. Qed.

Lemma varint_length_step a : slen (put_varint (a + 1)) <= slen (put_varint a) + 1.
Proof.
  unfold put_varint. generalize 10%nat as k. intros k. revert a. induction k as [| k IH]; intros a; cbn [put_varint_n]; [lia |].
  destruct (N.ltb_spec a 128) as [Ha | Ha]; destruct (N.ltb_spec (a + 1) 128) as [Hb | Hb]; [| | lia |].
  - unfold slen. cbn [one String.length]. lia.
  - assert (a = 127) as -> by lia. destruct k; cbn; lia.
  - assert (H : (a + 1) / 128 = a / 128 \/ (a + 1) / 128 = a / 128 + 1).
    { pose proof (N.div_le_mono a (a + 1) 128 ltac:(lia) ltac:(lia)). pose proof (N.div_le_mono (a + 1) (a + 1 * 128) 128 ltac:(lia) ltac:(lia)). rewrite N.div_add in * by lia. lia. }
    unfold slen in *. cbn [String.length]. destruct H as [-> | ->]; [lia |]. specialize (IH (a / 128)). lia.
Qed.

Lemma filler_fits base max : base + 3 <= max -> exists n, base + slen (put_fields (f_str 2 (filler n))) <= max < base + slen (put_fields (f_str 2 (filler n))) + 2.
Proof.
  intros H. replace max with (base + 3 + (max - (base + 3))) by lia. generalize (max - (base + 3)) as k. clear H max. intros k.
  assert (Hl : forall n, slen (put_fields (f_str 2 (filler (S n)))) = 1 + slen (put_varint (N.of_nat (S n))) + N.of_nat (S n)).
  { intros n. cbn [filler f_str]. rewrite bytes_length by lia. change (String "x" (filler n)) with (filler (S n)). rewrite slen_filler. reflexivity. }
  assert (H : exists n, base + slen (put_fields (f_str 2 (filler (S n)))) <= base + 3 + k < base + slen (put_fields (f_str 2 (filler (S n)))) + 2).
  { induction k as [| k IH] using N.peano_ind.
    - exists 0%nat. cbn. lia.
    - destruct IH as [n IH]. destruct (N.ltb_spec (base + 3 + N.succ k) (base + slen (put_fields (f_str 2 (filler (S n)))) + 2)) as [H | H]; [exists n; lia |].
      exists (S n). pose proof (varint_length_step (N.of_nat (S n))) as Hs. pose proof (varint_length_mono (N.of_nat (S n)) (N.of_nat (S (S n))) ltac:(lia)) as Hs'. rewrite Hl in *.
      replace (N.of_nat (S n) + 1) with (N.of_nat (S (S n))) in Hs by lia. lia. }
  destruct H as [n H]. exists (S n). exact H.
Qed.

Theorem C101_untold_exists : forall E L lim ord now n max, (20 <= lim)%nat -> (forall l, Permutation (ord l) l) -> time_ok now -> 200 <= max < 2 ^ 50 ->
  exists p ap, let c := KCreatePolicy (Some (SentPolicy p)) ap in
    well_formed E p /\ acceptable E L lim (now, n, c) /\ call_length ord c <= max < call_length ord c + 2.
Proof.
  intros E L lim ord now n max Hl Ho Ht Hm. assert (Hnil : ord [] = []) by (apply Permutation_nil, Permutation_sym, Ho).
  destruct (ok_deep_policy 1) as (H1 & H2 & H3). exists (deep_policy 1).
  pose (base := slen (put_fields (f_msg 1 (f_msg 1 (fs_policy (deep_policy 1) []))))).
  assert (Hb : base + 3 <= 200) by (vm_compute; discriminate).
  destruct (filler_fits base max ltac:(lia)) as [k Hk]. exists (filler k). intros c.
  assert (Hc : call_length ord c = base + slen (put_fields (f_str 2 (filler k)))).
  { unfold call_length, c. cbn [fs_call f_opt fs_sent]. change (p_attrs (deep_policy 1)) with (@nil (string * string)). rewrite Hnil, put_fields_app, slen_app. reflexivity. }
  split; [apply verify_ok, verify_deep |]. split; [| rewrite Hc; exact Hk]. split; [split; [exact H2 |] |].
  - split; [exact H1 |]. rewrite H3. lia.
  - split; [exact Ht |]. intros p t attrs [= <-] Htt Hp. apply Permutation_sym, Permutation_nil in Hp as ->. unfold short. eapply N.le_lt_trans; [apply slen_record |]. cbn [pr_policy pr_app].
    assert (Hd : slen (put_fields (fs_policy (deep_policy 1) [])) <= 200) by (vm_compute; discriminate).
    assert (Hf : slen (filler k) <= max).
    { destruct k as [| k]; [cbn; lia |]. revert Hk. cbn [filler f_str]. rewrite bytes_length by lia. lia. }
    change (2 ^ 50) with 1125899906842624 in Hm. lia.
Qed.

(** For every limit there are two relationships that remote clients can set and read one by one, and not list. *)
Definition file_owner2 : relationship := tup "file" "g" "owner" (user "bob").
Definition k_data (r : relationship) (ap : string) : served := (2, 9%nat, KSetRelationship "p" (Some r) ap).
Definition pair (ap : string) : list served :=
  [k_create "p"; k_data file_owner ap; k_data file_owner2 ap; ask (KGetRelationship "p" (Some file_owner)); ask (KGetRelationship "p" (Some file_owner2)); ask (KFindRelationshipRecords "p" everything)].

Lemma data_ok r ap : r = file_owner \/ r = file_owner2 -> slen ap < 2 ^ 50 -> acceptable E0 L0 recursion_limit (k_data r ap).
Proof.
  intros Hr Ha. split; [split; [| exact I] | split; [vm_compute; reflexivity |]].
  - apply forallb_all_utf8. destruct Hr as [-> | ->]; vm_compute; reflexivity.
  - intros e He. assert (Hs : slen (put_fields (fs_edge e)) <= 1000 /\ slen (fst (edge_key E0 e) +++ snd (edge_key E0 e)) <= 1000).
    { destruct Hr as [-> | ->]; injection He as <-; split; vm_compute; discriminate. }
    destruct Hs as [H1 H2]. unfold short. split; [lia |]. unfold fs_data. cbn [d_created d_app]. rewrite !put_fields_app, !slen_app.
    pose proof (slen_str 1 (fst (edge_key E0 e) +++ snd (edge_key E0 e))). pose proof (slen_str 3 ap). pose proof (slen_msg 2 (fs_time 2)). pose proof (slen_time 2).
    change (2 ^ 50) with 1125899906842624 in Ha. change (fst (fst (k_data r ap))) with 2. lia.
Qed.

Theorem C101_list_refuted : forall max, 2000 <= max < 2 ^ 50 -> exists ap, let out := fst (remote_max_all E0 L0 recursion_limit max max keep (pair ap) empty_bytes) in
  Forall (acceptable E0 L0 recursion_limit) (pair ap) /\
  out = [Got (PCreated (Some (mkPRec (pol "p") "app" 1))); Got (PSet false); Got (PSet false); Got (PRecord (Some (mkRRec "p" file_owner 2 ap)));
         Got (PRecord (Some (mkRRec "p" file_owner2 2 ap))); Garbled].
Proof.
  intros max Hm. change (2 ^ 50) with 1125899906842624 in Hm. pose (ap := filler (N.to_nat (max / 2))).
  assert (Ha : 2 * slen ap <= max < 2 * slen ap + 2 /\ 1000 <= slen ap).
  { unfold ap. rewrite slen_filler, N2Nat.id. pose proof (N.div_mod max 2 ltac:(discriminate)). pose proof (N.mod_lt max 2 ltac:(discriminate)). split; [| apply N.div_le_lower_bound; lia]. revert H H0. generalize (max / 2), (max mod 2). intros q r Hq Hr. lia. }
  clearbody ap. exists ap. intros out.
  assert (Hacc : Forall (acceptable E0 L0 recursion_limit) (pair ap)).
  { unfold pair. apply Forall_cons; [apply create_ok; [reflexivity | cbn; lia] |]. do 2 (apply Forall_cons; [apply data_ok; [auto | change (2 ^ 50) with 1125899906842624; lia] |]).
    repeat (apply Forall_cons || apply Forall_nil); texts. split; discriminate. }
  split; [exact Hacc |].
  assert (Hloc : fst (local_all E0 L0 (pair ap) empty_store) =
    [Got (PCreated (Some (mkPRec (pol "p") "app" 1))); Got (PSet false); Got (PSet false); Got (PRecord (Some (mkRRec "p" file_owner 2 ap)));
     Got (PRecord (Some (mkRRec "p" file_owner2 2 ap))); Got (PRecords (Some [Some (mkRRec "p" file_owner 2 ap); Some (mkRRec "p" file_owner2 2 ap)]))]) by (vm_compute; reflexivity).
  unfold out. clear out. rewrite C101_history; [| exact limit_ok | exact L0_ok | exact keep_ok | lia | lia | exact Hacc | | rewrite Hloc; repeat (apply Forall_cons; [exact I |]); apply Forall_nil].
  - rewrite Hloc. clear Hloc Hacc.
    assert (H1 : reply_length keep (PCreated (Some (mkPRec (pol "p") "app" 1))) <= 1000) by (vm_compute; discriminate).
    assert (H2 : reply_length keep (PSet false) <= 1000) by (vm_compute; discriminate).
    assert (H3 : forall r, r = file_owner \/ r = file_owner2 -> slen (put_fields (fs_rel_record (mkRRec "p" r 2 ap))) <= slen ap + 500).
    { intros r Hr. unfold fs_rel_record. cbn [rr_policy rr_rel rr_created rr_app]. rewrite !put_fields_app, !slen_app. pose proof (slen_str 4 ap).
      assert (Hx : slen (put_fields (f_str 1 "p")) + slen (put_fields (f_msg 2 (fs_relationship r))) + slen (put_fields (f_msg 3 (fs_time 2))) <= 300) by (destruct Hr as [-> | ->]; vm_compute; discriminate). lia. }
    assert (H4 : forall r, slen ap <= slen (put_fields (fs_rel_record (mkRRec "p" r 2 ap)))).
    { intros r. unfold fs_rel_record. cbn [rr_policy rr_rel rr_created rr_app]. rewrite !put_fields_app, !slen_app. destruct ap as [| x ap]; [cbn; lia |]. cbn [f_str]. rewrite (bytes_length 4) by lia. lia. }
    assert (H5 : forall r, r = file_owner \/ r = file_owner2 -> reply_length keep (PRecord (Some (mkRRec "p" r 2 ap))) <= max).
    { intros r Hr. unfold reply_length. cbn [fs_reply f_opt]. pose proof (slen_msg 1 (fs_rel_record (mkRRec "p" r 2 ap))). specialize (H3 r Hr). lia. }
    assert (H6 : max < reply_length keep (PRecords (Some [Some (mkRRec "p" file_owner 2 ap); Some (mkRRec "p" file_owner2 2 ap)]))).
    { unfold reply_length. cbn [fs_reply f_opt]. rewrite (msg_length 1) by lia. unfold fs_records. cbn [flat_map fs_member]. rewrite app_nil_r, put_fields_app, slen_app, !(msg_length 1) by lia.
      pose proof (H4 file_owner). pose proof (H4 file_owner2). lia. }
    pose proof (H5 _ (or_introl eq_refl)) as H7. pose proof (H5 _ (or_intror eq_refl)) as H8. cbn [map seen_max].
    assert (F : forall x, x <= max -> (max <? x) = false) by (intros x Hx; apply N.ltb_ge; exact Hx). rewrite !F by (assumption || lia). apply N.ltb_lt in H6. rewrite H6. reflexivity.
  - assert (Hset : forall r, r = file_owner \/ r = file_owner2 -> call_length keep (snd (k_data r ap)) <= max).
    { intros r Hr. unfold call_length, k_data. cbn [snd fs_call]. rewrite put_fields_app, slen_app. pose proof (slen_str 3 ap).
      assert (Hx : slen (put_fields (fs_about fs_relationship "p" (Some r))) <= 300) by (destruct Hr as [-> | ->]; vm_compute; discriminate). lia. }
    unfold pair. apply Forall_cons; [eapply N.le_trans with 1000; [vm_compute; discriminate | lia] |]. do 2 (apply Forall_cons; [apply Hset; auto |]).
    repeat (apply Forall_cons; [eapply N.le_trans with 1000; [vm_compute; discriminate | lia] |]). apply Forall_nil.
Qed.

(** 4 MiB, the limit of grpc-go, is such a limit. *)
Example C101_default : default_max = 4 * 1024 * 1024 /\ 2000 <= default_max < 2 ^ 50.
Proof. split; [reflexivity |]. split; vm_compute; [discriminate | reflexivity]. Qed.

(** A limit of 120 bytes.  The policy is created and not told of; a check is answered; a longer request is refused. *)
Example C101_small :
  let create k := (1, 9%nat, KCreatePolicy (Some (SentPolicy (deep_policy 1))) (filler k)) in
  let bob := Some (mkAccess (Some (ent "r" "x")) "l" (Some (ent "r" "bob"))) in
  let rel := mkRel (Some (ent "r" "x")) "l" (Some (SEntity (ent "r" "bob"))) in
  map (fun k => call_length keep (snd (create k))) [77; 78; 79; 80]%nat = [118; 119; 120; 121] /\
  fst (remote_max_all E0 L0 recursion_limit 120 120 keep [create 80%nat; ask KListPolicyIds] empty_bytes) = [Garbled; Got (PPolicyIds [])] /\
  fst (remote_max_all E0 L0 recursion_limit 120 120 keep [create 79%nat; ask KListPolicyIds; ask (KGetPolicy "p"); ask (KCheck "p" bob); create 1%nat] empty_bytes) =
    [Garbled; Got (PPolicyIds ["p"]); Garbled; Got (PDecision (Some false)); Told EPolicyExists] /\
  fst (remote_max_all E0 L0 recursion_limit 120 120 keep
         [create 1%nat; (2, 9%nat, KSetRelationship "p" (Some rel) (filler 85)); ask (KCheck "p" bob); ask (KGetRelationship "p" (Some rel))] empty_bytes) =
    [Got (PCreated (Some (mkPRec (deep_policy 1) "x" 1))); Got (PSet false); Got (PDecision (Some true)); Garbled].
Proof. vm_compute. repeat split. Qed.

Print Assumptions C101_too_long.
Print Assumptions C101_history.
Print Assumptions C101_answers.
Print Assumptions C101_brief.
Print Assumptions C101_untold_refuted.
Print Assumptions C101_untold_exists.
Print Assumptions C101_unread_refuted.
Print Assumptions C101_list_refuted.
