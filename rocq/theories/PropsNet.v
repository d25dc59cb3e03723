(** C102: remote clients at the same time. *)
From Coq Require Import Sorted Permutation.
From Verif Require Import Base Domain Lexer Parser Validate Store Search Explain Yaml Service Dump Api SpecGrammar SpecPolicy SpecStore SpecConc SpecTouch
  SpecSearch SpecSafe SpecErrors SpecAccount SpecExpand SpecDump BaseFacts ParserFacts ValidateFacts StoreFacts PolicyFacts RelFacts SearchRun ConcFacts TouchFacts
  Wire SpecWire WireFacts WireServe Rpc SpecRpc RpcFacts RpcServe PropsRpc Limits SpecLimits PropsLimits Fixtures SpecRefine RefineFacts PropsRefine
  SpecSessions SessionFacts PropsSessions Net SpecNet NetFacts.
Local Open Scope N_scope.

Lemma orderly_told E L lim cmax owner U cs s0 s c i xs : orderly E L lim cmax owner U cs s0 s c -> nth_error cs i = Some xs ->
  exists done rest, xs = done ++ rest /\ (finished c i -> rest = []) /\
    (Forall counts_ok (fst (local_all E L done s0)) -> told_to c i = map (seen_max in_order cmax) (fst (local_all E L done s0))).
Proof.
  intros Ho Hi. assert (Hlt : (i < length (desks c))%nat).
  { rewrite (or_length _ _ _ _ _ _ _ _ _ _ Ho). apply nth_error_Some. rewrite Hi. discriminate. }
  destruct (nth_error (desks c) i) as [d |] eqn:Hd; [| apply nth_error_None in Hd; lia].
  destruct (or_own _ _ _ _ _ _ _ _ _ _ Ho i xs d Hi Hd) as (t & [_ _ (done & Hf & Hs)]).
  exists done. unfold told_to. rewrite Hd. destruct d as [l [[k p] |] rest]; cbn [told serving to_send] in *.
  - destruct Hs as (x & _ & -> & _). exists (x :: rest). split; [reflexivity |]. split; [| exact Hf].
    intros [l' Hl']. rewrite Hd in Hl'. discriminate Hl'.
  - destruct Hs as [-> _]. exists rest. split; [reflexivity |]. split; [| exact Hf].
    intros [l' Hl']. rewrite Hd in Hl'. injection Hl' as _ ->. reflexivity.
Qed.

Lemma named_requests L cs s xs x pid r : In xs cs -> In x xs -> mentions (as_request L x) pid r -> named (map (map (as_request L)) cs) s pid r.
Proof. intros H1 H2 H3. right. exists (map (as_request L) xs), (as_request L x). split; [apply in_map, H1 |]. split; [apply in_map, H2 | exact H3]. Qed.

Lemma C102_orderly E L lim smax cmax owner b s cs es : (9 <= lim)%nat -> texts_ok L -> smax < 9223372036854775808 -> cmax < 9223372036854775808 ->
  reachable E s -> stands_for lim b s -> good_store lim s ->
  (forall j ys, nth_error cs j = Some ys -> Forall (sendable E L lim smax) ys /\ Forall (fun y => own_policy owner j (as_request L y)) ys) ->
  keys_apart E owner (named (map (map (as_request L)) cs) s) -> walks es ->
  exists s', orderly E L lim cmax owner (named (map (map (as_request L)) cs) s) cs s s' (net_play E L lim smax cmax es (net_open cs b)).
Proof.
  intros Hl HL Hsm Hcm H1 H2 H3 Hcs Hk Hw. set (U := named (map (map (as_request L)) cs) s) in *.
  assert (Hs : sorted_store s) by (eapply ok_sorted, reachable_ok, H1).
  assert (HU : forall xs x pid r, In xs cs -> In x xs -> mentions (as_request L x) pid r -> U pid r) by (intros; eapply named_requests; eassumption).
  apply (orderly_play E L lim smax cmax owner U Hk Hl HL Hsm Hcm cs s Hcs HU es Hw s (net_open cs b)). apply orderly_start; auto. apply named_filed, H1.
Qed.

(** Whatever happens at the same time, a remote client is told, call by call, what it would be told alone. *)
Theorem C102_alone : forall E L lim smax cmax owner b, (9 <= lim)%nat -> texts_ok L -> smax < 9223372036854775808 -> cmax < 9223372036854775808 ->
  remote_reachable E L lim b ->
  exists s, reachable E s /\ stands_for lim b s /\
    forall cs es i xs,
      (forall j ys, nth_error cs j = Some ys -> Forall (sendable E L lim smax) ys /\ Forall (fun y => own_policy owner j (as_request L y)) ys) ->
      keys_apart E owner (named (map (map (as_request L)) cs) s) -> walks es -> nth_error cs i = Some xs ->
      exists done rest, xs = done ++ rest /\ (finished (net_play E L lim smax cmax es (net_open cs b)) i -> rest = []) /\
        (Forall counts_ok (fst (local_all E L done s)) ->
         told_to (net_play E L lim smax cmax es (net_open cs b)) i = map (seen_max in_order cmax) (fst (local_all E L done s))).
Proof.
  intros E L lim smax cmax owner b Hl HL Hsm Hcm Hb. destruct (remote_typed E L lim b Hl HL Hb) as (s & H1 & H2 & H3). exists s. split; [exact H1 |]. split; [exact H2 |].
  intros cs es i xs Hcs Hk Hw Hi. destruct (C102_orderly E L lim smax cmax owner b s cs es Hl HL Hsm Hcm H1 H2 H3 Hcs Hk Hw) as [s' Ho].
  exact (orderly_told E L lim cmax owner _ cs s s' _ i xs Ho Hi).
Qed.

(** ** Histories of an ideal service *)

Lemma as_request_bounded L n x : as_request L (bounded n x) = budget n (as_request L x).
Proof. destruct x as [[now m] c]. unfold as_request, bounded. cbn [fst snd]. destruct c; reflexivity. Qed.

Lemma sendable_bounded E L lim smax n x : sendable E L lim smax x -> sendable E L lim smax (bounded n x).
Proof.
  intros [[H1 H2] H3]. split; [split |]; [exact H1 | | exact H3]. rewrite as_request_bounded. destruct (as_request L x); exact H2.
Qed.

Lemma outcomes_bounded L n xs : forall as_, outcomes L (map (bounded n) xs) as_ = outcomes L xs as_.
Proof. induction xs as [| x xs IH]; intros [| a as_]; cbn [map outcomes]; try reflexivity. f_equal. apply IH. Qed.

Lemma local_outcomes E L xs : forall s, fst (local_all E L xs s) = outcomes L xs (SpecStore.answers E (map (as_request L) xs) s).
Proof.
  induction xs as [| [[now n] c] xs IH]; intros s; [reflexivity |]. cbn [map SpecStore.answers outcomes local_all].
  specialize (IH (after E (as_request L (now, n, c)) s)). unfold answer, after, local, as_request in *. cbn [fst snd] in *.
  destruct (run (serve E (request_of L now n c)) s) as [a s1]. cbn [fst snd] in *. destruct (local_all E L xs s1). cbn [fst] in *. f_equal. exact IH.
Qed.

Lemma answers_app E qs rs : forall s, SpecStore.answers E (qs ++ rs) s = SpecStore.answers E qs s ++ SpecStore.answers E rs (after_all E qs s).
Proof. induction qs as [| q qs IH]; intros s; cbn [app SpecStore.answers]; [reflexivity |]. unfold after_all. cbn [fold_left]. f_equal. apply IH. Qed.

Lemma answers_length E qs : forall s, length (SpecStore.answers E qs s) = length qs.
Proof. induction qs as [| q qs IH]; intros s; cbn [SpecStore.answers length]; [reflexivity |]. f_equal. apply IH. Qed.

Lemma history_front E qs rs : forall S xs ys S', length xs = length qs -> ideal_history E S (qs ++ rs) (xs ++ ys) S' ->
  exists S1, ideal_history E S qs xs S1 /\ ideal_history E S1 rs ys S'.
Proof.
  induction qs as [| q qs IH]; intros S [| x xs] ys S' Hl H; try discriminate Hl; cbn [app] in H.
  - exists S. split; [constructor | exact H].
  - inversion H; subst. injection Hl as Hl. edestruct IH as (S2 & A & B); [exact Hl | eassumption |]. exists S2. split; [econstructor; eassumption | exact B].
Qed.

(** At most [k] relationships are granted. *)
Definition at_most (k : nat) (S : service) : Prop :=
  exists g, (length g <= k)%nat /\ forall pid r, granted S pid r <> None -> In (pid, r) g.

Lemma lists_at_most k S pid P l : at_most k S -> SpecStore.lists (granted S) pid P l -> (length l <= k)%nat.
Proof.
  intros (g & Hg & Hin) [Hn Hl]. rewrite <- (map_length (fun r => (pid, r)) l). transitivity (length g); [| exact Hg]. apply NoDup_incl_length.
  - apply FinFun.Injective_map_NoDup; [| exact Hn]. intros a b [= ->]. reflexivity.
  - intros x Hx. apply in_map_iff in Hx as (r & <- & Hr). apply Hin, Hl, Hr.
Qed.

Lemma removed_at_most k S pid P g f : at_most k S -> removed (granted S) pid P g -> at_most (Datatypes.S k) (mkService f g).
Proof.
  intros (l & Hl & Hin) [H1 H2]. exists l. split; [lia |]. intros pid' r Hr. cbn [granted] in Hr. apply Hin. rewrite <- H2; [exact Hr |].
  destruct (string_dec pid' pid) as [-> | Hn]; [| left; exact Hn]. right. intros Hp. apply Hr, H1, Hp.
Qed.

Lemma updated_at_most k S pid r v g f : at_most k S -> updated (granted S) pid r v g -> at_most (Datatypes.S k) (mkService f g).
Proof.
  intros (l & Hl & Hin) [H1 H2]. exists ((pid, r) :: l). split; [cbn [length]; lia |]. intros pid' r' Hr. cbn [granted] in Hr.
  destruct (string_dec pid' pid) as [-> | Hn]; [| right; apply Hin; rewrite <- H2; auto].
  destruct (relationship_dec r' r) as [-> | Hn]; [left; reflexivity | right; apply Hin; rewrite <- H2; auto].
Qed.

Definition modest (k : nat) (x : res response) : Prop :=
  match x with
  | Ok (ADeletedPolicy _ n) | Ok (ACount n) => (n <= k)%nat
  | Ok (ARecords l) => ~ In None l
  | _ => True
  end.

Lemma ideal_modest E S q x S' k : ideal E S q x S' -> (draws q -> modest k x) -> at_most k S -> at_most (Datatypes.S k) S' /\ modest k x.
Proof.
  intros H Hd Hk. assert (Hm : at_most (Datatypes.S k) S) by (destruct Hk as (g & ? & ?); exists g; split; [lia | assumption]).
  inversion H; subst; cbn [modest]; (split; [try exact Hm |]); try exact I; try lia;
    try (eapply lists_at_most; eassumption); try (eapply removed_at_most; eassumption); try (eapply updated_at_most; eassumption).
  - intros Hin. apply in_map_iff in Hin as (r & Hr & Hl). match goal with H : SpecStore.lists _ _ _ _ |- _ => apply H in Hl as [Hl _] end.
    unfold record_in in Hr. destruct (granted S' pid r) as [[]|]; [discriminate Hr | apply Hl; reflexivity].
  - apply Hd. exact I.
Qed.

Lemma modest_le k m x : modest k x -> (k <= m)%nat -> modest m x.
Proof. destruct x as [[] | | |]; cbn [modest]; intros; try assumption; lia. Qed.

Lemma draw_modest E k q s : draws q -> modest k (answer E q s).
Proof.
  intros Hq. destruct q; try contradiction. unfold answer. cbn [serve]. unfold respond, rbind. rewrite run_pbind.
  destruct (run _ s) as [[a | e | |] s']; exact I.
Qed.

Lemma history_modest E qs : forall s S S' k, ideal_history E S qs (SpecStore.answers E qs s) S' -> at_most k S -> Forall (modest (k + length qs)) (SpecStore.answers E qs s).
Proof.
  induction qs as [| q qs IH]; intros s S S' k H Hk; [constructor |]. cbn [SpecStore.answers] in *. inversion H; subst.
  edestruct (ideal_modest E S q) as [H1 H2]; [eassumption | apply draw_modest | exact Hk |].
  constructor; [eapply modest_le; [exact H2 | lia] |]. cbn [length]. replace (k + Datatypes.S (length qs))%nat with (Datatypes.S k + length qs)%nat by lia. eauto.
Qed.

Lemma modest_outcome L k c x : modest k x -> N.of_nat k < 18446744073709551616 ->
  counts_ok (local_outcome L c x) /\ forall cmax, seen_max in_order cmax (local_outcome L c x) = received cmax (local_outcome L c x).
Proof.
  intros Hm Hk. destruct x as [a | e | |]; cbn [local_outcome counts_ok]; [| split; reflexivity ..].
  assert (Hr : as_received (reply_of L c a) = reply_of L c a).
  { destruct a; try reflexivity. cbn [reply_of as_received modest] in *. do 2 f_equal. rewrite <- (map_id l) at 2. apply map_ext_in. intros [r |] Hin; [reflexivity | contradiction]. }
  split; [destruct a; cbn [reply_of modest] in *; try exact I; lia |]. intros cmax. cbn [seen_max received]. rewrite Hr. reflexivity.
Qed.

Lemma modest_outcomes L k xs : forall as_, Forall (modest k) as_ -> N.of_nat k < 18446744073709551616 ->
  Forall counts_ok (outcomes L xs as_) /\ forall cmax, map (seen_max in_order cmax) (outcomes L xs as_) = map (received cmax) (outcomes L xs as_).
Proof.
  induction xs as [| x xs IH]; intros [| a as_] Ha Hk; cbn [outcomes map]; try (split; [constructor | reflexivity]).
  inversion Ha; subst. destruct (IH as_ ltac:(assumption) Hk) as [I1 I2]. destruct (modest_outcome L k (snd x) a ltac:(assumption) Hk) as [J1 J2].
  split; [constructor; assumption |]. intros cmax. rewrite I2, J2. reflexivity.
Qed.

(** ** Clients within the rules of C92 *)

Section Tidy.
  Variables (E : env) (L : libs) (lim : nat) (smax cmax : N) (R : rules) (owner : string -> nat) (cs : list (list served)).
  Hypothesis Hl : (9 <= lim)%nat.
  Hypothesis HL : texts_ok L.
  Hypothesis Hsm : smax < 9223372036854775808.
  Hypothesis Hcm : cmax < 9223372036854775808.
  Hypothesis Hf : collision_free E.
  Hypothesis Hcs : forall j ys, nth_error cs j = Some ys -> N.of_nat (length ys) < 18446744073709551616 /\ Forall (sendable E L lim smax) ys /\
     Forall (fun y => tidy E R (as_request L y)) ys /\ Forall (fun y => own_policy owner j (as_request L y)) ys.

  Definition with_bound (n : nat) : list (list served) := map (map (bounded n)) cs.

  Lemma tidy_orderly n es : walks es ->
    exists s', orderly E L lim cmax owner (named (map (map (as_request L)) (with_bound n)) empty_store) (with_bound n) empty_store s'
      (net_play E L lim smax cmax es (net_open (with_bound n) empty_bytes)).
  Proof.
    intros Hw. apply C102_orderly; auto.
    - constructor.
    - split; [constructor | split; constructor].
    - split; [| split]; intros ? ? [].
    - intros j ys Hj. unfold with_bound in Hj. rewrite nth_error_map in Hj. destruct (nth_error cs j) as [zs |] eqn:Hz; [| discriminate Hj]. injection Hj as <-.
      destruct (Hcs j zs Hz) as (_ & A & _ & B). split; apply Forall_map.
      + eapply Forall_impl; [| exact A]. intros y. apply sendable_bounded.
      + eapply Forall_impl; [| exact B]. intros y Hy. rewrite as_request_bounded. apply budget_own, Hy.
    - assert (Hn' : forall pid r, named (map (map (as_request L)) (with_bound n)) empty_store pid r -> tidy_relationship R pid r).
      { intros pid r [[] | (l & q & Hin & Hq & Hm)]. apply in_map_iff in Hin as (l1 & <- & Hin). unfold with_bound in Hin. apply in_map_iff in Hin as (l2 & <- & Hin).
        rewrite map_map in Hq. apply in_map_iff in Hq as (x & <- & Hq). rewrite as_request_bounded in Hm. apply budget_mentions in Hm.
        apply In_nth_error in Hin as [j Hj]. apply (tidy_mentions E R (as_request L x)); [| exact Hm]. destruct (Hcs j l2 Hj) as (_ & _ & Ht & _). rewrite Forall_forall in Ht. apply Ht, Hq. }
      intros pid pid' r r' Hr Hr' Hc Hc' Hk. f_equal. apply (tidy_inj E R pid pid' r r'); auto. apply same_key_iff; assumption.
  Qed.

  Lemma tidy_bound : exists N, forall n, (N <= n)%nat -> forall i done rest, nth_error cs i = Some (done ++ rest) -> exists S',
    ideal_history E nothing (map (as_request L) (map (bounded n) done)) (SpecStore.answers E (map (as_request L) (map (bounded n) done)) empty_store) S'.
  Proof.
    destruct (common_bound E R (map (map (as_request L)) cs) Hf) as [N HN].
    { intros qs Hin. apply in_map_iff in Hin as (ys & <- & Hin). apply In_nth_error in Hin as [j Hj]. apply Forall_map, (Hcs j ys Hj). }
    exists N. intros n Hn i done rest Hi. destruct (HN n Hn (map (as_request L) (done ++ rest))) as [S' HS]; [apply in_map; eapply nth_error_In, Hi |].
    assert (He : map (budget n) (map (as_request L) (done ++ rest)) = map (as_request L) (map (bounded n) done) ++ map (as_request L) (map (bounded n) rest)).
    { rewrite !map_map, map_app. f_equal; apply map_ext; intros x; rewrite as_request_bounded; reflexivity. }
    rewrite He, answers_app in HS. apply history_front in HS as (S1 & HS & _); [eauto | apply answers_length].
  Qed.

  Lemma tidy_told n es i xs : walks es -> nth_error cs i = Some xs -> (forall done rest, xs = done ++ rest -> exists S',
      ideal_history E nothing (map (as_request L) (map (bounded n) done)) (SpecStore.answers E (map (as_request L) (map (bounded n) done)) empty_store) S') ->
    exists done rest S', xs = done ++ rest /\
      (finished (net_play E L lim smax cmax es (net_open (with_bound n) empty_bytes)) i -> rest = []) /\
      ideal_history E nothing (map (as_request L) (map (bounded n) done)) (SpecStore.answers E (map (as_request L) (map (bounded n) done)) empty_store) S' /\
      told_to (net_play E L lim smax cmax es (net_open (with_bound n) empty_bytes)) i =
        map (received cmax) (outcomes L done (SpecStore.answers E (map (as_request L) (map (bounded n) done)) empty_store)).
  Proof.
    intros Hw Hi HN. destruct (tidy_orderly n es Hw) as [s' Ho].
    destruct (orderly_told E L lim cmax owner _ (with_bound n) empty_store s' _ i (map (bounded n) xs) Ho) as (done & rest & H1 & H2 & H3).
    { unfold with_bound. rewrite nth_error_map, Hi. reflexivity. }
    apply map_eq_app in H1 as (done' & rest' & -> & <- & <-). destruct (HN done' rest' eq_refl) as [S' HS].
    exists done', rest', S'. split; [reflexivity |]. split; [| split; [exact HS |]].
    - intros Hfin. specialize (H2 Hfin). destruct rest'; [reflexivity | discriminate H2].
    - destruct (Hcs i _ Hi) as (Hlen & _). rewrite app_length in Hlen.
      assert (Hm : Forall (modest (length done')) (SpecStore.answers E (map (as_request L) (map (bounded n) done')) empty_store)).
      { pose proof (history_modest E _ _ _ _ 0 HS) as Hm. rewrite !map_length in Hm. apply Hm. exists []. split; [reflexivity |]. intros pid r Hr. contradiction Hr. reflexivity. }
      destruct (modest_outcomes L (length done') done' _ Hm ltac:(lia)) as [M1 M2]. rewrite local_outcomes, outcomes_bounded in H3. rewrite <- M2. apply H3, M1.
  Qed.
End Tidy.

(** Remote clients within the rules of C92, each with policies of its own, each see an ideal service of their own: whatever
    they have been told so far is what such a service tells, as far as the responses are short enough. *)
Theorem C102_ideal : forall E L lim smax cmax R owner cs, (9 <= lim)%nat -> texts_ok L -> smax < 9223372036854775808 -> cmax < 9223372036854775808 ->
  collision_free E ->
  (forall j ys, nth_error cs j = Some ys -> N.of_nat (length ys) < 18446744073709551616 /\ Forall (sendable E L lim smax) ys /\
     Forall (fun y => tidy E R (as_request L y)) ys /\ Forall (fun y => own_policy owner j (as_request L y)) ys) ->
  exists N, forall n, (N <= n)%nat -> forall es i xs, walks es -> nth_error cs i = Some xs ->
    exists done rest as_ S', xs = done ++ rest /\
      (finished (net_play E L lim smax cmax es (net_open (map (map (bounded n)) cs) empty_bytes)) i -> rest = []) /\
      ideal_history E nothing (map (fun x => as_request L (bounded n x)) done) as_ S' /\
      told_to (net_play E L lim smax cmax es (net_open (map (map (bounded n)) cs) empty_bytes)) i = map (received cmax) (outcomes L done as_).
Proof.
  intros E L lim smax cmax R owner cs Hl HL Hsm Hcm Hf Hcs. destruct (tidy_bound E L lim smax R owner cs Hf Hcs) as [N HN]. exists N. intros n Hn es i xs Hw Hi.
  destruct (tidy_told E L lim smax cmax R owner cs Hl HL Hsm Hcm Hf Hcs n es i xs Hw Hi) as (done & rest & S' & H1 & H2 & H3 & H4).
  { intros done rest ->. exact (HN n Hn i done rest Hi). }
  rewrite map_map in H3. do 4 eexists. split; [exact H1 |]. split; [exact H2 |]. split; [exact H3 |]. rewrite <- map_map. rewrite map_map in H4. rewrite map_map. exact H4.
Qed.

(** ** Every call is answered *)

Lemma net_play_app E L lim smax cmax es es' c : net_play E L lim smax cmax (es ++ es') c = net_play E L lim smax cmax es' (net_play E L lim smax cmax es c).
Proof. apply fold_left_app. Qed.

Definition down_told (c : net) : Prop := up c = false -> exists i d, nth_error (desks c) i = Some d /\ In Broken (told d).

Lemma down_turn E L lim smax cmax c e : down_told c -> down_told (net_turn E L lim smax cmax c e).
Proof.
  intros Hc. unfold net_turn. destruct (up c) eqn:Hu; [| exact Hc]. assert (Hb : forall l b, down_told (mkNet true l b)) by (intros l b H; discriminate H).
  destruct (nth_error (desks c) (fst e)) as [d |] eqn:Hd; [| exact Hc]. destruct (serving d) as [[k p] |].
  - destruct (byte_step lim (snd e) p (disk c)) as [[p' b'] |]; [apply Hb |]. destruct p as [[a | x | |] | | | | | | | | | | | |]; try exact Hc; try apply Hb.
    intros _. exists (fst e). eexists. cbn [desks]. split; [eapply replace_same, Hd |]. cbn [told]. apply in_or_app. right. left. reflexivity.
  - destruct (to_send d) as [| [[now n] k] rest]; [exact Hc |]. destruct (receive lim smax (snd e) k); apply Hb.
Qed.

Lemma down_play E L lim smax cmax es : forall c, down_told c -> down_told (net_play E L lim smax cmax es c).
Proof. induction es as [| e es IH]; intros c Hc; [exact Hc |]. cbn [net_play fold_left]. apply IH, down_turn, Hc. Qed.

(** Turns of one client bring it to its last answer, unless the server goes down or a search does not end. *)
Definition ends (c : net) (i : nat) : Prop :=
  up c = false \/ finished c i \/ exists l k rest, nth_error (desks c) i = Some (mkDesk l (Some (k, Ret Fuel)) rest).

Lemma ends_after E L lim smax cmax ord i c c' : net_turn E L lim smax cmax c (i, ord) = c' ->
  (exists m, ends (net_play E L lim smax cmax (repeat (i, ord) m) c') i) -> exists m, ends (net_play E L lim smax cmax (repeat (i, ord) m) c) i.
Proof. intros H [m Hm]. exists (S m). cbn [repeat net_play fold_left]. rewrite H. exact Hm. Qed.

Lemma turns_end E L lim smax cmax ord i : forall rest c l sv, nth_error (desks c) i = Some (mkDesk l sv rest) ->
  exists m, ends (net_play E L lim smax cmax (repeat (i, ord) m) c) i.
Proof.
  assert (Hret : forall rest, (forall c l, nth_error (desks c) i = Some (mkDesk l None rest) -> exists m, ends (net_play E L lim smax cmax (repeat (i, ord) m) c) i) ->
    forall a c l k, nth_error (desks c) i = Some (mkDesk l (Some (k, Ret a)) rest) -> exists m, ends (net_play E L lim smax cmax (repeat (i, ord) m) c) i).
  { intros rest Hnone a c l k Hd. destruct (up c) eqn:Hu; [| exists 0%nat; left; exact Hu]. destruct a as [a | x | |].
    4: { exists 0%nat. right. right. exists l, k, rest. exact Hd. }
    all: eapply ends_after; [unfold net_turn; cbn [fst snd]; rewrite Hu, Hd; cbn [serving byte_step told to_send]; reflexivity |];
      eapply Hnone; cbn [desks]; eapply replace_same, Hd. }
  assert (Hserve : forall rest, (forall c l, nth_error (desks c) i = Some (mkDesk l None rest) -> exists m, ends (net_play E L lim smax cmax (repeat (i, ord) m) c) i) ->
    forall p c l k, nth_error (desks c) i = Some (mkDesk l (Some (k, p)) rest) -> exists m, ends (net_play E L lim smax cmax (repeat (i, ord) m) c) i).
  { intros rest Hnone p. induction p; intros c l k0 Hd; [eapply Hret; eassumption | ..]; (destruct (up c) eqn:Hu; [| exists 0%nat; left; exact Hu]);
      (match type of Hd with nth_error _ _ = Some (mkDesk _ (Some (_, ?p)) _) =>
         destruct (byte_step lim ord p (disk c)) as [[p' b'] |] eqn:Hb end;
       [| exfalso; cbn [byte_step] in Hb; repeat match type of Hb with match ?x with _ => _ end = _ => destruct x end; discriminate Hb]);
      (eapply ends_after; [unfold net_turn; cbn [fst snd]; rewrite Hu, Hd; cbn [serving told to_send]; rewrite Hb; reflexivity |]);
      cbn [byte_step] in Hb; repeat match type of Hb with match ?x with _ => _ end = _ => destruct x end; injection Hb as <- <-;
      first [match goal with IH : _ |- _ => eapply IH; cbn [desks]; eapply replace_same, Hd end | eapply (Hret rest Hnone); cbn [desks]; eapply replace_same, Hd]. }
  induction rest as [| [[now n] k] rest IH]; intros c l sv Hd.
  - assert (Hnone : forall c l, nth_error (desks c) i = Some (mkDesk l None []) -> exists m, ends (net_play E L lim smax cmax (repeat (i, ord) m) c) i).
    { intros c' l' Hd'. exists 0%nat. right. left. exists l'. exact Hd'. }
    destruct sv as [[k p] |]; [eapply Hserve; eassumption | eapply Hnone; exact Hd].
  - assert (Hnone : forall c l, nth_error (desks c) i = Some (mkDesk l None ((now, n, k) :: rest)) -> exists m, ends (net_play E L lim smax cmax (repeat (i, ord) m) c) i).
    { intros c' l' Hd'. destruct (up c') eqn:Hu; [| exists 0%nat; left; exact Hu].
      destruct (receive lim smax ord k) as [k' |] eqn:Hr;
        (eapply ends_after; [unfold net_turn; cbn [fst snd]; rewrite Hu, Hd'; cbn [serving told to_send]; rewrite Hr; reflexivity |]);
        eapply IH; cbn [desks]; eapply replace_same, Hd'. }
    destruct sv as [[k' p] |]; [eapply Hserve; eassumption | eapply Hnone; exact Hd].
Qed.

Lemma ideal_answers E S q x S' : ideal E S q x S' -> ~ draws q -> x <> Panic /\ x <> Fuel.
Proof. intros H Hd. inversion H; subst; try (split; intros Hx; discriminate Hx). exfalso. apply Hd. exact I. Qed.

Lemma history_answers E S qs xs S' : ideal_history E S qs xs S' -> Forall (fun q => ~ draws q) qs -> Forall (fun x => x <> Panic /\ x <> Fuel) xs.
Proof. induction 1 as [| S q x S1 qs xs S' H _ IH]; intros Hq; [constructor |]. inversion Hq; subst. constructor; [eapply ideal_answers; eassumption | auto]. Qed.

Lemma not_broken L cmax xs : forall as_, Forall (fun x => x <> Panic /\ x <> Fuel) as_ -> ~ In Broken (map (received cmax) (outcomes L xs as_)).
Proof.
  induction xs as [| x xs IH]; intros [| a as_] Ha; cbn [outcomes map In]; try (intros H; exact H). inversion Ha as [| ? ? [Hp _] Hr]; subst. intros [H | H]; [| eapply IH; eassumption].
  destruct a as [a | e | |]; cbn [local_outcome received] in H; [destruct (_ <? _); discriminate H | discriminate H | | discriminate H]. apply Hp. reflexivity.
Qed.

Lemma plain_bounded L n xs : Forall (fun y => ~ draws (as_request L y)) xs -> Forall (fun q => ~ draws q) (map (as_request L) (map (bounded n) xs)).
Proof.
  intros H. rewrite map_map. apply Forall_map. eapply Forall_impl; [| exact H]. intros y Hy. rewrite as_request_bounded. cbv beta in Hy. destruct (as_request L y); exact Hy.
Qed.

(** As long as nobody draws, the server stays up, and whatever the others have begun, turns of one client alone bring it to
    its last answer. *)
Theorem C102_answered : forall E L lim smax cmax R owner cs, (9 <= lim)%nat -> texts_ok L -> smax < 9223372036854775808 -> cmax < 9223372036854775808 ->
  collision_free E ->
  (forall j ys, nth_error cs j = Some ys -> N.of_nat (length ys) < 18446744073709551616 /\ Forall (sendable E L lim smax) ys /\
     Forall (fun y => tidy E R (as_request L y)) ys /\ Forall (fun y => own_policy owner j (as_request L y)) ys) ->
  (forall j ys, nth_error cs j = Some ys -> Forall (fun y => ~ draws (as_request L y)) ys) ->
  exists N, forall n, (N <= n)%nat -> forall es i ord, walks es -> (forall l, Permutation (ord l) l) -> (i < length cs)%nat ->
    up (net_play E L lim smax cmax es (net_open (map (map (bounded n)) cs) empty_bytes)) = true /\
    exists m, finished (net_play E L lim smax cmax (es ++ repeat (i, ord) m) (net_open (map (map (bounded n)) cs) empty_bytes)) i.
Proof.
  intros E L lim smax cmax R owner cs Hl HL Hsm Hcm Hf Hcs Hd. destruct (tidy_bound E L lim smax R owner cs Hf Hcs) as [N HN]. exists N. intros n Hn es i ord Hw Ho Hi.
  assert (Hup : forall es, walks es -> up (net_play E L lim smax cmax es (net_open (with_bound cs n) empty_bytes)) = true).
  { intros es' Hw'. destruct (up _) eqn:Hu; [reflexivity |]. exfalso.
    destruct (down_play E L lim smax cmax es' (net_open (with_bound cs n) empty_bytes) ltac:(intros H; discriminate H) Hu) as (j & d & Hj & Hb).
    assert (Hlt : (j < length cs)%nat).
    { destruct (tidy_orderly E L lim smax cmax R owner cs Hl HL Hsm Hcm Hf Hcs n es' Hw') as [s' Hor]. apply or_length in Hor. pose proof (map_length (map (bounded n)) cs) as Hml. fold (with_bound cs n) in Hml.
      rewrite <- Hml, <- Hor. apply nth_error_Some. rewrite Hj. discriminate. }
    destruct (nth_error cs j) as [xs |] eqn:Hx; [| apply nth_error_None in Hx; lia].
    destruct (tidy_told E L lim smax cmax R owner cs Hl HL Hsm Hcm Hf Hcs n es' j xs Hw' Hx) as (done & rest & S' & -> & _ & H3 & H4).
    { intros done rest ->. exact (HN n Hn j done rest Hx). }
    unfold told_to in H4. rewrite Hj in H4. rewrite H4 in Hb. revert Hb. apply not_broken. apply (history_answers _ _ _ _ _ H3), plain_bounded.
    specialize (Hd j _ Hx). apply Forall_app in Hd. apply Hd. }
  split; [apply Hup, Hw |]. destruct (nth_error cs i) as [xs |] eqn:Hx; [| apply nth_error_None in Hx; lia].
  assert (Hex : exists d, nth_error (desks (net_play E L lim smax cmax es (net_open (with_bound cs n) empty_bytes))) i = Some d).
  { destruct (tidy_orderly E L lim smax cmax R owner cs Hl HL Hsm Hcm Hf Hcs n es Hw) as [s' Hor]. apply or_length in Hor. pose proof (map_length (map (bounded n)) cs) as Hml. fold (with_bound cs n) in Hml.
    destruct (nth_error (desks _) i) as [d |] eqn:Hnd; [eauto |]. apply nth_error_None in Hnd. lia. }
  destruct Hex as [[l sv rest] Hnd]. destruct (turns_end E L lim smax cmax ord i rest _ l sv Hnd) as [m Hm]. exists m. rewrite <- net_play_app in Hm.
  assert (Hw' : walks (es ++ repeat (i, ord) m)).
  { intros e He. apply in_app_or in He as [He | He]; [apply Hw, He |]. apply repeat_spec in He. subst e. exact Ho. }
  destruct Hm as [Hm | [Hm | (l' & k & rest' & Hm)]]; [| exact Hm |].
  - pose proof (Hup _ Hw') as Hu. unfold with_bound in *. rewrite Hm in Hu. discriminate Hu.
  - exfalso. destruct (tidy_orderly E L lim smax cmax R owner cs Hl HL Hsm Hcm Hf Hcs n _ Hw') as [s' Hor].
    destruct (or_own _ _ _ _ _ _ _ _ _ _ Hor i (map (bounded n) xs) _ ltac:(unfold with_bound; rewrite nth_error_map, Hx; reflexivity) Hm) as (t & [_ _ (done & _ & Hs)]).
    cbn [serving to_send] in Hs. destruct Hs as (x & _ & Hxs & W). pose proof (uw_run _ _ _ _ _ _ _ _ _ _ W) as Hrun. cbn [run] in Hrun.
    change (x :: rest') with ([x] ++ rest') in Hxs. rewrite app_assoc in Hxs. apply map_eq_app in Hxs as (done' & rest2 & -> & Hdone & <-).
    destruct (HN n Hn i done' rest2 Hx) as [S' HS]. apply history_answers in HS.
    2: { apply plain_bounded. specialize (Hd i _ Hx). apply Forall_app in Hd. apply Hd. }
    assert (HD : map (as_request L) (map (bounded n) done') = map (as_request L) done ++ [as_request L x]) by (rewrite <- map_app with (l' := [x]); f_equal; exact Hdone).
    rewrite HD, answers_app in HS. apply Forall_app in HS as [_ HS]. cbn [map SpecStore.answers] in HS. inversion HS as [| ? ? [_ Hfu] _]; subst. apply Hfu. unfold answer. rewrite <- Hrun. reflexivity.
Qed.

(** The rules are needed: an empty message of one client is the end of the server for all of them. *)
Theorem C102_empty_message_refuted : forall E L lim smax cmax c i l now n rest o1 o2, (1 <= lim)%nat -> up c = true ->
  nth_error (desks c) i = Some (mkDesk l None ((now, n, KCreatePolicy None "") :: rest)) ->
  let c' := net_play E L lim smax cmax [(i, o1); (i, o2)] c in
  marshal_call o1 (KCreatePolicy None "") = Some ""%string /\ up c' = false /\ told_to c' i = l ++ [Broken] /\
  (forall j, j <> i -> told_to c' j = told_to c j) /\ forall es, net_play E L lim smax cmax es c' = c'.
Proof.
  intros E L lim smax cmax c i l now n rest o1 o2 Hl Hu Hd. cbv zeta. split; [reflexivity |].
  assert (Hr : receive lim smax o1 (KCreatePolicy None "") = Some (KCreatePolicy None "")).
  { destruct lim; [lia |]. destruct smax; reflexivity. }
  assert (Ht : net_play E L lim smax cmax [(i, o1); (i, o2)] c = mkNet false (replace i (mkDesk (l ++ [Broken]) None rest) (desks c)) (disk c)).
  { cbn [net_play fold_left]. unfold net_turn at 2. cbn [fst snd]. rewrite Hu, Hd. cbn [serving told to_send]. rewrite Hr. unfold net_turn. cbn [up desks disk fst snd].
    rewrite (replace_same i _ _ _ Hd). cbn [serving told to_send]. rewrite replace_twice. reflexivity. }
  rewrite Ht. cbn [up]. split; [reflexivity |]. split; [unfold told_to; cbn [desks]; rewrite (replace_same i _ _ _ Hd); reflexivity |].
  split; [intros j Hj; unfold told_to; cbn [desks]; rewrite replace_other by auto; reflexivity |].
  induction es as [| e es IH]; [reflexivity |]. cbn [net_play fold_left] in *. exact IH.
Qed.

(** ** Two remote clients at the same time *)

Definition call0 (c : call) : served := (3, 0%nat, c).
Definition shares_remotely (pid f who other : string) : list served :=
  [k_create pid; k_set pid (tup "file" f "owner" (user who)); k_set pid (tup "file" f "reader" (user other));
   call0 (KCheck pid (asks (ent "file" f) "reader" (ent "user" other))); call0 (KDeleteRelationship pid (Some (tup "file" f "reader" (user other))));
   call0 (KCheck pid (asks (ent "file" f) "reader" (ent "user" other))); call0 (KCheck pid (asks (ent "file" f) "reader" (ent "user" who)));
   call0 (KDeletePolicy pid); call0 (KGetPolicy pid)].
Definition remote_pair : list (list served) := [shares_remotely "p" "|f|" "|bob|" "|amy|"; shares_remotely "q" "|g|" "|amy|" "|bob|"].

Lemma set_ok pid r : forallb utf8_valid (call_texts (KSetRelationship pid (Some r) "data")) = true ->
  match to_internal (Some r) with Ok e => short (put_fields (fs_edge e)) /\ short (put_fields (fs_data (edge_key E0 e) (mkData "data" 2))) | _ => True end ->
  acceptable E0 L0 recursion_limit (k_set pid r).
Proof. intros H1 H2. split; [split; [apply forallb_all_utf8, H1 | exact I] |]. split; [vm_compute; reflexivity |]. intros e He. rewrite He in H2. exact H2. Qed.

Ltac sends := split; [lazymatch goal with
  | |- acceptable _ _ _ (k_create _) => apply create_ok; [reflexivity | cbn; lia]
  | |- acceptable _ _ _ (k_set _ _) => apply set_ok; [vm_compute; reflexivity | split; vm_compute; reflexivity]
  | _ => split; [split; [apply forallb_all_utf8; vm_compute; reflexivity | exact I] | exact I]
  end | vm_compute; discriminate].

Example C102_pair_hypotheses :
  (forall j ys, nth_error remote_pair j = Some ys -> N.of_nat (length ys) < 18446744073709551616 /\ Forall (sendable E0 L0 recursion_limit default_max) ys /\
     Forall (fun y => tidy E0 twins (as_request L0 y)) ys /\ Forall (fun y => own_policy first_or_second j (as_request L0 y)) ys) /\
  (forall j ys, nth_error remote_pair j = Some ys -> Forall (fun y => ~ draws (as_request L0 y)) ys).
Proof.
  assert (Hm : map (map (as_request L0)) remote_pair = pair_of_clients) by reflexivity. split; intros j ys Hj.
  - assert (Hq : nth_error pair_of_clients j = Some (map (as_request L0) ys)) by (rewrite <- Hm, nth_error_map, Hj; reflexivity).
    destruct (C93_example_rules j _ Hq) as [H1 H2]. split; [| split; [| split; [exact (proj1 (Forall_map _ _ _) H1) | exact (proj1 (Forall_map _ _ _) H2)]]].
    + destruct j as [| [| [| j]]]; try discriminate Hj; injection Hj as <-; reflexivity.
    + destruct j as [| [| [| j]]]; try discriminate Hj; injection Hj as <-; unfold shares_remotely; repeat (apply Forall_cons || apply Forall_nil); sends.
  - destruct j as [| [| [| j]]]; try discriminate Hj; injection Hj as <-; repeat constructor; intros [].
Qed.

Definition alternately (k : nat) : list byte_event := concat (repeat [(0%nat, in_order); (1%nat, @rev (string * string))] k).

Example C102_pair : forall c, c = net_play E0 L0 recursion_limit default_max default_max (alternately 100) (net_open (map (map (bounded 40)) remote_pair) empty_bytes) ->
  up c = true /\ map serving (desks c) = [None; None] /\ map to_send (desks c) = [[]; []] /\
  told_to c 0 = [Got (PCreated (Some (mkPRec (pol "p") "app" 1))); Got (PSet false); Got (PSet false); Got (PDecision (Some true)); Got (PDeleted true); Got (PDecision (Some false));
    Got (PDecision (Some true)); Got (PDeletedPolicy true 1); Got (PPolicy None)] /\
  told_to c 1 = [Got (PCreated (Some (mkPRec (pol "q") "app" 1))); Got (PSet false); Got (PSet false); Got (PDecision (Some true)); Got (PDeleted true); Got (PDecision (Some false));
    Got (PDecision (Some true)); Got (PDeletedPolicy true 1); Got (PPolicy None)].
Proof. intros c ->. vm_compute. repeat split. Qed.

Print Assumptions C102_alone.
Print Assumptions C102_ideal.
Print Assumptions C102_answered.
Print Assumptions C102_empty_message_refuted.
