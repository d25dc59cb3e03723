(** Properties of responses as JSON: C118, C119, C120. *)
From Coq Require Import ZArith Permutation Sorted.
From Verif Require Import Base BaseFacts Domain Lexer Parser Validate Store Search Explain Yaml Service Dump Api Fault Wire SpecStore SpecPolicy SpecConc SpecWire WireFacts
  Rpc SpecRpc RpcFacts RpcServe WireServe Fixtures Cli SpecCli CliFacts PropsRpc PropsCli Json SpecJson JsonFacts JsonReads JsonRecv PropsJson JsonReply SpecReply ReplyFacts ReplyRound.
Local Open Scope N_scope.

(** ** C118: JSON carries every response *)

Lemma shaped_good r : shaped r -> all_utf8 (reply_texts r) -> timely r -> exists lim, good_reply lim r.
Proof.
  intros Hs Hu Ht. unfold timely in Ht.
  assert (Hk : forall t, In t (reply_times r) -> time_ok t) by (intros t H; specialize (Ht t H); unfold time_ok; lia).
  assert (Hp : forall x, In (pr_created x) (reply_times r) -> policy_ok (pr_policy x) -> all_utf8 (policy_texts (pr_policy x)) -> exists lim, good_record lim x).
  { intros x H1 H2 H3. exists (S (S (nest_policy (pr_policy x)))). split; [| apply Hk; exact H1]. split; [exact H3 |]. split; [exact H2 | apply Nat.le_refl]. }
  destruct r as [[r |] | | f n | [r |] | l | b | b | [r |] | [l |] | n | b | t b f | t f | [t |]];
    cbn [shaped reply_texts reply_times good_reply opt_texts when] in *; try (exists 0%nat; exact I).
  - apply Hp; [left; reflexivity | exact Hs | exact Hu].
  - apply Hp; [left; reflexivity | exact Hs | exact Hu].
  - exists 0%nat. exact Hu.
  - exists 0%nat. split; [exact Hu | apply Hk; left; reflexivity].
  - exists 0%nat. intros [x |] Hx; [| exact I]. split.
    + intros s H. apply Hu, in_flat_map. exists (Some x). split; [exact Hx | exact H].
    + apply Hk, in_flat_map. exists (Some x). split; [exact Hx | left; reflexivity].
  - exists 0%nat. split; [apply Hu; left; reflexivity | exact Hs].
  - exists 0%nat. split; [apply Hu; left; reflexivity | exact Hs].
  - exists 0%nat. apply Hu. left. reflexivity.
Qed.

Lemma writes r st : all_utf8 (reply_texts r) -> timely r -> json_reply st r = Some (reply_doc st r).
Proof.
  intros Hu Ht. unfold json_reply. rewrite all_utf8_forallb by exact Hu. replace (forallb writable_time (reply_times r)) with true; [reflexivity |].
  symmetry. apply forallb_forall. intros t H. apply N.leb_le. exact (Ht t H).
Qed.

(** What any writer makes of a response is read as that response; a missing record of a list is an empty one, as over gRPC. *)
Theorem C118_written : forall d st r, plain st -> shaped r -> counts_fit r -> all_utf8 (reply_texts r) -> timely r ->
  exists j, json_reply st r = Some j /\ read_reply d (answers r) j = Some (as_received r).
Proof.
  intros d st r Hst Hs Hc Hu Ht. exists (reply_doc st r). split; [exact (writes r st Hu Ht) |].
  destruct (shaped_good r Hs Hu Ht) as [lim Hg]. exact (reply_json d st Hst lim r Hg Ht Hc).
Qed.

(** A response has no document if one of its texts is not UTF-8 or one of its times is after the year 9999, and for no other reason. *)
Theorem C118_unwritable : forall st r, json_reply st r = None <->
  (exists s, In s (reply_texts r) /\ utf8_valid s = false) \/ (exists t, In t (reply_times r) /\ 253402300799 < t / nanos).
Proof.
  intros st r. unfold json_reply.
  assert (H : forall A (f : A -> bool) l, forallb f l = false <-> exists x, In x l /\ f x = false).
  { intros A f l. induction l as [| x l IH]; cbn [forallb In].
    - split; [discriminate | intros (x & [] & _)].
    - rewrite andb_false_iff, IH. split; [intros [H | (y & H1 & H2)]; eauto | intros (y & [<- | H1] & H2); eauto]. }
  destruct (forallb utf8_valid (reply_texts r)) eqn:E1; cbn [andb].
  - destruct (forallb writable_time (reply_times r)) eqn:E2; (split; [| try reflexivity]).
    + discriminate.
    + intros [H1 | (t & H1 & H2)].
      * apply H in H1. congruence.
      * rewrite forallb_forall in E2. apply E2 in H1. apply N.leb_le in H1. unfold last_second in H1. lia.
    + intros _. right. apply H in E2 as (t & H1 & H2). exists t. split; [exact H1 |]. apply N.leb_gt in H2. exact H2.
  - split; [| reflexivity]. intros _. left. apply H in E1. exact E1.
Qed.

Lemma full_bool f b : w_bool full f b = [(f, JBool b)].
Proof. destruct b; reflexivity. Qed.
Lemma full_count f n : w_count full f n = [(f, JStr (count_text n))].
Proof. unfold w_count. destruct (N.eqb_spec n 0) as [-> |]; reflexivity. Qed.
Lemma full_unset f j : unset full f j = [(f, j)].
Proof. reflexivity. Qed.
Ltac names := unfold object; cbn [map app fst snd];
  repeat match goal with |- context [st_name full ?x] => let y := eval vm_compute in (f_json x) in change (st_name full x) with y end.
Lemma full_policy_record r : policy_ok (pr_policy r) -> json_policy_record full r = doc_policy_record r.
Proof. intros H. unfold json_policy_record. rewrite full_bytes, (full_policy _ H). unfold w_time. names. reflexivity. Qed.
Lemma full_rel_record r : json_rel_record full r = doc_rel_record r.
Proof. unfold json_rel_record. rewrite full_text, full_bytes, full_relationship. unfold w_time. names. reflexivity. Qed.

(** The document that follows the .proto files is what a writer makes that writes all fields, as the gateway does. *)
Theorem C118_document : forall r, shaped r -> reply_doc full r = doc_reply r.
Proof.
  intros r Hs. destruct r as [r | | f n | r | l | b | b | r | l | n | b | t b f | t f | t]; cbn [reply_doc doc_reply shaped] in *;
    rewrite ?full_text, ?full_opt, ?full_list, ?full_enum, ?full_bool, ?full_count.
  - destruct r as [r |]; cbn [maybe when] in *; [rewrite full_policy_record by exact Hs |]; names; reflexivity.
  - reflexivity.
  - names. reflexivity.
  - destruct r as [r |]; cbn [w_present when] in *; [rewrite full_policy_record by exact Hs |]; names; reflexivity.
  - names. rewrite (map_ext (one_text full t_id) (fun id => JObj [("id"%string, JStr id)])); [reflexivity |]. intros id. full. reflexivity.
  - names. reflexivity.
  - names. reflexivity.
  - destruct r as [r |]; cbn [w_present] in *; [rewrite full_rel_record |]; names; reflexivity.
  - names. destruct l as [l |]; cbn [maybe]; [| reflexivity]. rewrite full_list. names.
    rewrite (map_ext (json_listed full) (fun o => match o with Some r => doc_rel_record r | None => doc_no_record end)); [reflexivity |].
    intros [r |]; [apply full_rel_record |]. unfold json_listed. rewrite !full_unset. names. reflexivity.
  - names. reflexivity.
  - names. destruct b as [b |]; cbn [maybe]; [rewrite full_bool; names |]; reflexivity.
  - rewrite (full_format f Hs). names. reflexivity.
  - rewrite (full_format f Hs). names. reflexivity.
  - destruct t as [t |]; [unfold member; names |]; reflexivity.
Qed.

(** ** C119: times *)

(** The date of a day is found by counting: the first day is 0001-01-01, and each day has the date after the one before. *)
Lemma leap_spec y : leap y = true <-> is_leap y.
Proof.
  unfold leap, is_leap. rewrite andb_true_iff, orb_true_iff, negb_true_iff, !N.eqb_eq, N.eqb_neq.
  assert (H : forall k, k <> 0 -> (y mod k = 0 <-> exists q, y = k * q)).
  { intros k Hk. rewrite N.mod_divide by exact Hk. split; intros [q Hq]; exists q; lia. }
  rewrite <- !H by lia. tauto.
Qed.
Lemma month_spec y m : 1 <= m <= 12 -> month_long y m (month_days y m).
Proof.
  intros Hm. assert (H : In m [1; 2; 3; 4; 5; 6; 7; 8; 9; 10; 11; 12]) by (cbn; lia). cbn in H.
  repeat destruct H as [<- | H]; try (cbn [month_days]; first [apply ml_31; cbn; tauto | apply ml_30; cbn; tauto]); [| destruct H].
  cbn [month_days]. destruct (leap y) eqn:E; [apply ml_29, leap_spec, E |]. apply ml_28. intros H. apply leap_spec in H. congruence.
Qed.

Theorem C119_days : date_of 0 = (1, (1, 1)) /\ forall i, next_day (date_of i) (date_of (i + 1)).
Proof.
  split; [reflexivity |]. intros i. pose proof (date_ok i) as H. destruct (date_of i) as [y [m d]]. destruct H as (Hv & _ & ->). unfold date_valid in Hv.
  do 4 (apply andb_prop in Hv as [Hv ?]). repeat match goal with H : (_ <=? _) = true |- _ => apply N.leb_le in H end.
  pose proof (month_spec y m ltac:(lia)) as Hm. unfold next_of. destruct (N.ltb_spec d (month_days y m)) as [Hd | Hd]; [exact (nd_day y m d _ Hm Hd) |].
  replace d with (month_days y m) by lia. destruct (N.ltb_spec m 12) as [H12 | H12]; [exact (nd_month y m _ Hm H12) |].
  replace m with 12 by lia. exact (nd_year y).
Qed.

(** 1970-01-01 is the day that times are counted from. *)
Theorem C119_epoch : date_of epoch = (1970, (1, 1)) /\ date_of (epoch + 2932896) = (9999, (12, 31)).
Proof. split; vm_compute; reflexivity. Qed.

(** A time is written as its date and its hour, minute and second. *)
Theorem C119_text : forall day h mi s ns, h < 24 -> mi < 60 -> s < 60 -> ns < 1000000000 ->
  time_text ((day * 86400 + h * 3600 + mi * 60 + s) * 1000000000 + ns) =
  let '(y, (m, d)) := date_of (epoch + day) in
  digits 4 y +++ "-" +++ digits 2 m +++ "-" +++ digits 2 d +++ "T" +++ digits 2 h +++ ":" +++ digits 2 mi +++ ":" +++ digits 2 s +++ fraction ns +++ "Z".
Proof.
  intros day h mi s ns Hh Hm Hs Hn. unfold time_text. set (x := day * 86400 + h * 3600 + mi * 60 + s).
  assert (E1 : (x * 1000000000 + ns) / nanos = x) by (unfold nanos; clearbody x; lia). assert (E2 : (x * 1000000000 + ns) mod nanos = ns) by (unfold nanos; clearbody x; lia).
  rewrite E1, E2. replace (x / 86400) with day by (unfold x; lia). unfold clock_text. replace (x mod 86400 / 3600) with h by (unfold x; lia).
  replace (x mod 86400 / 60 mod 60) with mi by (unfold x; lia). replace (x mod 86400 mod 60) with s by (unfold x; lia).
  unfold date_text. destruct (date_of (epoch + day)) as [y [m d]]. rewrite !sapp_assoc. reflexivity.
Qed.

(** Up to the end of the year 9999 a time is read from its text, to the nanosecond; so different times have different texts. *)
Theorem C119_round : forall t, t / nanos <= 253402300799 -> read_time_text (time_text t) = Some t.
Proof. exact time_round. Qed.
Theorem C119_distinct : forall t t', t / nanos <= 253402300799 -> t' / nanos <= 253402300799 -> time_text t = time_text t' -> t = t'.
Proof. intros t t' H H' E. apply time_round in H, H'. rewrite E in H. congruence. Qed.

Example C119_examples :
  time_text 0 = "1970-01-01T00:00:00Z"%string /\
  time_text 951827696120000000 = "2000-02-29T12:34:56.120Z"%string /\
  time_text 1699574400000000001 = "2023-11-10T00:00:00.000000001Z"%string /\
  time_text (253402300799 * nanos + 999999000) = "9999-12-31T23:59:59.999999Z"%string /\
  read_time_text "2023-02-29T00:00:00Z" = None /\ read_time_text "2100-02-29T00:00:00Z" = None /\ read_time_text "2023-01-01T24:00:00Z" = None.
Proof. repeat split; vm_compute; reflexivity. Qed.

(** ** C120: a client of the REST gateway *)

(** One call: the client gets what it would get in the same process, and the store is the same. *)
Lemma rest_call_seen d E L lim ct st now n c s : plain ct -> plain st -> proper lim c -> ok (good_response L lim c) (fst (run (serve E (request_of L now n c)) s)) ->
  outcome_timely (fst (local E L now n c s)) -> rest_call d E L ct st now n c s = (seen (fst (local E L now n c s)), snd (local E L now n c s)).
Proof.
  intros Hct Hst Hp Hg Ht. unfold rest_call, rest. rewrite (C117_posted E L now n ct lim c s Hct Hp). f_equal. unfold local in *.
  destruct (run (serve E (request_of L now n c)) s) as [x s1]. cbn [fst snd] in *. destruct x as [a | e | |]; try reflexivity.
  cbn [local_outcome ok outcome_timely] in *. destruct Hg as [Hg Hm]. destruct Ht as [Ht Hc]. cbn [http_of].
  rewrite (writes _ st (good_reply_texts lim _ Hg) Ht). cbn [client_view seen]. rewrite <- Hm, (reply_json d st Hst lim _ Hg Ht Hc). reflexivity.
Qed.

(** Call by call a client that is alone sees what it would see in the same process, whatever names it and the gateway write, as
    long as the clock is in the calendar. *)
Theorem C120_history : forall d E L lim ct st xs, (9 <= lim)%nat -> texts_ok L -> plain ct -> plain st -> Forall (acceptable E L lim) xs ->
  Forall outcome_timely (fst (local_all E L xs empty_store)) ->
  rest_all d E L ct st xs empty_store = (map seen (fst (local_all E L xs empty_store)), snd (local_all E L xs empty_store)).
Proof.
  intros d E L lim ct st xs Hl HL Hct Hst.
  assert (H : forall s, good_store lim s -> Forall (acceptable E L lim) xs -> Forall outcome_timely (fst (local_all E L xs s)) ->
    rest_all d E L ct st xs s = (map seen (fst (local_all E L xs s)), snd (local_all E L xs s))).
  { induction xs as [| [[now n] c] xs IH]; intros s Hg Hx Ht; [reflexivity |]. inversion Hx as [| ? ? Hx1 Hx2]; subst. cbn [local_all rest_all] in *.
    pose proof (serve_good E L lim _ Hl HL Hx1) as Hgv. unfold as_request in Hgv. cbn [fst snd] in Hgv. destruct (gives_run lim _ _ s Hgv Hg) as [H3 H4].
    pose proof (rest_call_seen d E L lim ct st now n c s Hct Hst (proj1 Hx1) H3) as Hc.
    assert (Hs1 : snd (local E L now n c s) = snd (run (serve E (request_of L now n c)) s)) by (unfold local; destruct (run _ s); reflexivity).
    destruct (local E L now n c s) as [o s1]. cbn [fst snd] in *. subst s1. specialize (IH _ H4 Hx2).
    destruct (local_all E L xs (snd (run (serve E (request_of L now n c)) s))) as [os s2]. cbn [fst snd] in *. inversion Ht as [| ? ? Ht1 Ht2]; subst.
    rewrite (Hc Ht1), (IH Ht2). reflexivity. }
  apply H. split; [| split]; intros ? ? [].
Qed.

(** After the year 9999 a policy is created, but the client gets no response: the record cannot be written. *)
Definition late : N := 253402300800 * nanos.
Theorem C120_late_refuted : exists E L c s', good_store recursion_limit empty_store /\ proper recursion_limit c /\
  local E L late 9 c empty_store = (Got (PCreated (Some (mkPRec (pol "p") "app" late))), s') /\
  rest_call true E L usual full late 9 c empty_store = (Garbled, s') /\ s' <> empty_store.
Proof.
  exists E0, L0, (KCreatePolicy (Some (SentPolicy (pol "p"))) "app"). eexists. split; [split; [| split]; intros ? ? [] |].
  assert (Hp : proper recursion_limit (KCreatePolicy (Some (SentPolicy (pol "p"))) "app")).
  { destruct (pol_ok "p" eq_refl) as (H1 & H2 & H3). split; [exact H3 |]. split; [exact H1 |]. pose proof limit_ok. cbn [sent_ok] in *. lia. }
  split; [exact Hp |]. split; [vm_compute; reflexivity |]. split; [vm_compute; reflexivity | discriminate].
Qed.

(** *** Cases *)

Definition answer_record : rel_record := mkRRec "p" file_owner 1699574400000000000 "data".
Example C118_example :
  json_reply full (PRecords (Some [Some answer_record; None])) = Some (JObj [("result", JObj [("records", JArr
    [JObj [("policyId", JStr "p");
           ("relationship", JObj [("object", JObj [("resource", JStr "file"); ("id", JStr "f")]); ("relation", JStr "owner");
              ("subject", JObj [("entity", JObj [("resource", JStr "user"); ("id", JStr "bob")])])]);
           ("createdAt", JStr "2023-11-10T00:00:00Z"); ("appData", JStr "ZGF0YQ==")];
     JObj [("policyId", JStr ""); ("relationship", JNull); ("createdAt", JNull); ("appData", JStr "")]])])])%string /\
  read_reply true MFindRelationshipRecords (reply_doc full (PRecords (Some [Some answer_record; None]))) = Some (PRecords (Some [Some answer_record; Some no_record])) /\
  json_reply usual (PDecision (Some false)) = Some (JObj [("result"%string, JObj [])]) /\
  json_reply full (PDecision (Some false)) = Some (JObj [("result"%string, JObj [("authorized"%string, JBool false)])]) /\
  json_reply full (PDeletedPolicy true 12) = Some (JObj [("found", JBool true); ("relationshipsRemoved", JStr "12")])%string /\
  json_reply full (PPolicy None) = Some (JObj []) /\ json_reply full (PCreated None) = Some (JObj [("record"%string, JNull)]) /\
  json_reply full (PExpanded "t" FDot) = Some (JObj [("goalTree", JStr "t"); ("format", JStr "DOT")])%string /\
  json_reply full (PDumped (Some (String "255" ""))) = None.
Proof. repeat split; vm_compute; reflexivity. Qed.

(** A count is read from a text or a number of 64 bits, and from nothing else. *)
Example C118_counts :
  read_count (JStr "18446744073709551615") = Some 18446744073709551615 /\ read_count (JNum 7) = Some 7 /\ read_count (JStr "18446744073709551616") = None /\
  read_count (JNum (-1)) = None /\ read_count (JStr "007") = None /\ read_count (JStr "x") = None /\ read_count (JStr "") = None.
Proof. repeat split; vm_compute; reflexivity. Qed.

(** Every method over REST: the hypotheses hold, and the client sees what the client over gRPC sees. *)
Example C120_tour :
  Forall (acceptable E0 L0 recursion_limit) tour /\ Forall outcome_timely (fst (local_all E0 L0 tour empty_store)) /\
  fst (rest_all true E0 L0 usual full tour empty_store) = fst (remote_all E0 L0 recursion_limit keep tour empty_bytes) /\
  fst (rest_all true E0 L0 usual full shared empty_store) = fst (remote_all E0 L0 recursion_limit keep shared empty_bytes).
Proof.
  destruct C100_tour as (H1 & _ & H3 & _ & _). split; [exact H1 |]. split; [| split; vm_compute; reflexivity]. clear.
  assert (H : forallb (fun o => match o with Got r => forallb writable_time (reply_times r) && match r with PDeletedPolicy _ n | PCount n => n <? 18446744073709551616 | _ => true end | _ => true end)
    (fst (local_all E0 L0 tour empty_store)) = true) by (vm_compute; reflexivity).
  apply Forall_forall. intros o Ho. rewrite forallb_forall in H. specialize (H o Ho). destruct o as [r | | | |]; try exact I. apply andb_prop in H as [H H'].
  clear Ho. cbn [outcome_timely]. split.
  - unfold timely. intros t Ht. rewrite forallb_forall in H. specialize (H t Ht). unfold writable_time in H. apply N.leb_le in H. exact H.
  - destruct r; try exact I; apply N.ltb_lt; exact H'.
Qed.

Print Assumptions C118_written.
Print Assumptions C118_unwritable.
Print Assumptions C118_document.
Print Assumptions C119_days.
Print Assumptions C119_epoch.
Print Assumptions C119_text.
Print Assumptions C119_round.
Print Assumptions C119_distinct.
Print Assumptions C120_history.
Print Assumptions C120_late_refuted.
