(** Proofs about remote clients at the same time. *)
From Coq Require Import Sorted Permutation.
From Verif Require Import Base Domain Lexer Parser Validate Store Search Explain Yaml Service Dump Api SpecGrammar SpecPolicy SpecStore SpecConc SpecTouch SpecRefine
  SpecSessions BaseFacts ParserFacts ValidateFacts StoreFacts PolicyFacts RelFacts SearchRun ConcFacts TouchFacts SessionFacts Wire SpecWire WireFacts WireServe
  Rpc SpecRpc RpcFacts RpcServe PropsRpc Limits SpecLimits PropsLimits Net SpecNet.
Local Open Scope N_scope.

(** ** Lengths do not depend on the order of maps *)

Lemma put_fields_perm fs gs : Permutation fs gs -> slen (put_fields fs) = slen (put_fields gs).
Proof. induction 1; cbn [put_fields]; rewrite ?slen_app in *; lia. Qed.

Lemma put_fields_parts a b : slen (put_fields (a ++ b)) = slen (put_fields a) + slen (put_fields b).
Proof. rewrite put_fields_app, slen_app. reflexivity. Qed.

Lemma msg_length n fs gs : slen (put_fields fs) = slen (put_fields gs) -> slen (put_fields (f_msg n fs)) = slen (put_fields (f_msg n gs)).
Proof. intros H. unfold f_msg. cbn [put_fields put_field fst snd]. rewrite !slen_app, H. reflexivity. Qed.

Lemma policy_length p attrs : Permutation attrs (p_attrs p) -> slen (put_fields (fs_policy p attrs)) = slen (put_fields (fs_policy p (p_attrs p))).
Proof. intros H. apply put_fields_perm. unfold fs_policy. repeat apply Permutation_app_head. apply Permutation_flat_map. exact H. Qed.

Lemma record_length r attrs : Permutation attrs (p_attrs (pr_policy r)) ->
  slen (put_fields (fs_policy_record r attrs)) = slen (put_fields (fs_policy_record r (p_attrs (pr_policy r)))).
Proof. intros H. unfold fs_policy_record. rewrite !put_fields_parts. f_equal. apply msg_length, policy_length, H. Qed.

Lemma call_length_order ord c : (forall l, Permutation (ord l) l) -> call_length ord c = call_length in_order c.
Proof.
  intros Ho. assert (Hd : forall d, slen (put_fields (f_opt 1 (fs_sent ord) d)) = slen (put_fields (f_opt 1 (fs_sent in_order) d))).
  { intros [[p | s |] |]; cbn [f_opt fs_sent]; try reflexivity. apply msg_length, msg_length. apply policy_length, Ho. }
  unfold call_length. destruct c; cbn [fs_call]; try reflexivity; rewrite !put_fields_parts, Hd; reflexivity.
Qed.

Lemma reply_length_order ord r : (forall l, Permutation (ord l) l) -> reply_length ord r = reply_length in_order r.
Proof.
  intros Ho. unfold reply_length. destruct r as [[r |] | | | [r |] | | | | | | | | | |]; cbn [fs_reply]; try reflexivity; cbn [f_opt]; apply msg_length, record_length, Ho.
Qed.

Lemma seen_max_order ord cmax o : (forall l, Permutation (ord l) l) -> seen_max ord cmax o = seen_max in_order cmax o.
Proof. intros Ho. destruct o; cbn [seen_max]; try reflexivity. rewrite (reply_length_order ord r Ho). reflexivity. Qed.

(** ** Histories *)

Lemma local_all_run E L xs : forall s, snd (local_all E L xs s) = after_all E (map (as_request L) xs) s.
Proof.
  induction xs as [| [[now n] c] xs IH]; intros s; cbn [local_all map]; [reflexivity |]. unfold after_all. cbn [fold_left].
  specialize (IH (snd (local E L now n c s))). destruct (local E L now n c s) as [o s1] eqn:Hl. cbn [snd] in IH. destruct (local_all E L xs s1) as [os s2]. cbn [snd] in *. rewrite IH.
  unfold after_all. f_equal. apply (f_equal snd) in Hl. symmetry. exact Hl.
Qed.

Lemma local_all_app E L xs ys s :
  fst (local_all E L (xs ++ ys) s) = fst (local_all E L xs s) ++ fst (local_all E L ys (after_all E (map (as_request L) xs) s)).
Proof.
  revert s. induction xs as [| [[now n] c] xs IH]; intros s; [reflexivity |]. cbn [app local_all map]. unfold after_all. cbn [fold_left].
  destruct (local E L now n c s) as [o s1] eqn:Hl. specialize (IH s1). assert (Hs : after E (as_request L (now, n, c)) s = s1) by (apply (f_equal snd) in Hl; exact Hl).
  rewrite Hs. destruct (local_all E L (xs ++ ys) s1). destruct (local_all E L xs s1). cbn [fst app] in *. f_equal. exact IH.
Qed.

Lemma local_one E L x s : fst (local_all E L [x] s) = [local_outcome L (snd x) (fst (run (serve E (as_request L x)) s))].
Proof. destruct x as [[now n] c]. cbn [local_all]. unfold local, as_request. cbn [fst snd]. reflexivity. Qed.

Lemma after_all_snoc E qs q s : after_all E (qs ++ [q]) s = after E q (after_all E qs s).
Proof. unfold after_all. rewrite fold_left_app. reflexivity. Qed.

Section Net.
  Variables (E : env) (L : libs) (lim : nat) (smax cmax : N) (owner : string -> nat) (U : string -> relationship -> Prop).
  Hypothesis Hapart : keys_apart E owner U.
  Hypothesis Hl : (9 <= lim)%nat.
  Hypothesis HL : texts_ok L.
  Hypothesis Hsm : smax < 9223372036854775808.
  Hypothesis Hcm : cmax < 9223372036854775808.
  Variables (cs : list (list served)) (s0 : store).
  Hypothesis Hs0 : sorted_store s0.
  Hypothesis Hcs : forall i xs, nth_error cs i = Some xs -> Forall (sendable E L lim smax) xs /\ Forall (fun x => own_policy owner i (as_request L x)) xs.
  Hypothesis HU : forall xs x pid r, In xs cs -> In x xs -> mentions (as_request L x) pid r -> U pid r.

  Lemma receive_ok ord x : (forall l, Permutation (ord l) l) -> sendable E L lim smax x -> receive lim smax ord (snd x) = Some (snd x).
  Proof.
    intros Ho [Hx Hc]. destruct (C100_request lim ord (snd x) Hl Ho (proj1 Hx)) as (m & Hm & Hu).
    assert (He : m = put_fields (fs_call ord (snd x))). { unfold marshal_call in Hm. destruct (forallb _ _); [| discriminate]. injection Hm as <-. reflexivity. }
    assert (Hlen : slen m <= smax) by (rewrite He; rewrite <- (call_length_order ord (snd x) Ho) in Hc; exact Hc).
    unfold receive. rewrite Hm. apply N.ltb_ge in Hlen as Hlt. rewrite Hlt. apply Hu. unfold short. lia.
  Qed.

  (** A request under way, and the same request in the store of the client alone. *)
  Record under_way (i : nat) (x : served) (p : prog (res response)) (t t0 : store) : Prop := {
    uw_run : run p t = run (serve E (as_request L x)) t0;
    uw_inside : inside E owner U i p;
    uw_does : does timely (writable lim) p;
    uw_gives : gives lim (ok (good_response L lim (snd x))) p }.

  Definition so_far (done : list served) (l : list outcome) : Prop :=
    Forall counts_ok (fst (local_all E L done s0)) -> l = map (seen_max in_order cmax) (fst (local_all E L done s0)).

  Record settled (s : store) (i : nat) (xs : list served) (d : desk) (t : store) : Prop := {
    se_sorted : sorted_store t;
    se_same : forall x, at_home E owner U i x -> same_at x s t;
    se_calls : exists done, so_far done (told d) /\
      match serving d with
      | None => xs = done ++ to_send d /\ t = after_all E (map (as_request L) done) s0
      | Some (k, p) => exists x, k = snd x /\ xs = done ++ x :: to_send d /\ under_way i x p t (after_all E (map (as_request L) done) s0)
      end }.

  Record orderly (s : store) (c : net) : Prop := {
    or_sorted : sorted_store s;
    or_filed : all_filed E U s;
    or_good : good_store lim s;
    or_stands : stands_for lim (disk c) s;
    or_length : length (desks c) = length cs;
    or_own : forall i xs d, nth_error cs i = Some xs -> nth_error (desks c) i = Some d -> exists t, settled s i xs d t }.

  Lemma orderly_start b : all_filed E U s0 -> good_store lim s0 -> stands_for lim b s0 -> orderly s0 (net_open cs b).
  Proof.
    intros Hf Hg Hb. split; cbn [net_open desks disk]; auto; [apply map_length |]. intros i xs d Hi Hd. rewrite nth_error_map in Hd. unfold served in Hi. rewrite Hi in Hd. injection Hd as <-. exists s0.
    split; [exact Hs0 | intros; apply same_at_refl |]. exists []. cbn [told serving to_send]. split; [intros _; reflexivity | split; reflexivity].
  Qed.

  (** A desk whose client does nothing that others see. *)
  Lemma orderly_quiet s c i d d' xs t : orderly s c -> nth_error (desks c) i = Some d -> nth_error cs i = Some xs -> settled s i xs d' t ->
    forall a, orderly s (mkNet a (replace i d' (desks c)) (disk c)).
  Proof.
    intros [H1 H2 H3 H4 H5 H6] Hd Hi Hs a. split; cbn [desks disk]; auto; [rewrite replace_length; exact H5 |]. intros j ys d2 Hj Hd2.
    destruct (Nat.eq_dec i j) as [<- | Hij].
    - rewrite (replace_same i d' d) in Hd2 by exact Hd. injection Hd2 as <-. rewrite Hi in Hj. injection Hj as <-. exists t. exact Hs.
    - rewrite replace_other in Hd2 by exact Hij. eauto.
  Qed.

  Lemma so_far_next i done l x t a k ord : so_far done l -> (forall m, Permutation (ord m) m) -> k = snd x -> under_way i x (Ret a) t (after_all E (map (as_request L) done) s0) ->
    so_far (done ++ [x]) (l ++ [deliver_max L lim cmax ord k a]).
  Proof.
    intros Hf Ho -> [W1 _ _ W4] Hc. rewrite local_all_app, local_one in Hc |- *. apply Forall_app in Hc as [Hc1 Hc2]. inversion Hc2 as [| ? ? Hc3 _]; subst. rewrite map_app. f_equal; [apply Hf, Hc1 |].
    cbn [run] in W1. rewrite <- W1 in Hc3 |- *. cbn [fst map] in *. f_equal. cbn [gives] in W4.
    rewrite <- (seen_max_order ord) by exact Ho. apply deliver_max_good; assumption.
  Qed.

  Lemma orderly_turn s c e : (forall l, Permutation (snd e l) l) -> orderly s c -> exists s', orderly s' (net_turn E L lim smax cmax c e).
  Proof.
    intros Ho Hc. destruct e as [i ord]. cbn [fst snd] in *. unfold net_turn. cbn [fst snd]. destruct (up c); [| eauto].
    destruct (nth_error (desks c) i) as [d |] eqn:Hd; [| eauto].
    destruct (nth_error cs i) as [xs |] eqn:Hi.
    2: { exfalso. apply nth_error_None in Hi. assert (Hlt : (i < length (desks c))%nat) by (apply nth_error_Some; rewrite Hd; discriminate). pose proof (or_length s c Hc). lia. }
    destruct (or_own s c Hc i xs d Hi Hd) as (t & [S1 S2 (done & S3 & S4)]). destruct (Hcs i xs Hi) as [Hsend Hown].
    destruct d as [l [[k p] |] rest]; cbn [told serving to_send] in *.
    - destruct S4 as (x & -> & -> & W). pose proof (uw_does _ _ _ _ _ W) as Wd. pose proof (uw_inside _ _ _ _ _ W) as Wi. pose proof (uw_gives _ _ _ _ _ W) as Wg.
      pose proof (byte_step_ok lim ord p (disk c) s ltac:(lia) Ho Wd (or_stands s c Hc)) as Hb.
      pose proof (inside_step E owner U i p s t Wi (or_sorted s c Hc) S1 (or_filed s c Hc) S2) as Hst.
      destruct (byte_step lim ord p (disk c)) as [[p' b'] |] eqn:Hbs.
      + destruct (step1 p s) as [[p1 s'] |] eqn:Hs1; [| contradiction]. destruct Hb as (<- & Wd' & Hb'). destruct (step1 p t) as [[p2 t'] |] eqn:Hs2; [| contradiction].
        destruct Hst as (<- & Wi' & Hf' & Hsame & Hother). destruct (gives_step lim _ p s p' s' Wg (or_good s c Hc) Hs1) as [Wg' Hg']. exists s'.
        assert (Hss : sorted_store s') by (eapply step_sorted; [exact Hs1 | exact (or_sorted s c Hc)]).
        split; cbn [desks disk]; auto; [rewrite replace_length; exact (or_length s c Hc) |]. intros j ys d2 Hj Hd2. destruct (Nat.eq_dec i j) as [<- | Hij].
        * rewrite (replace_same i _ _ _ Hd) in Hd2. injection Hd2 as <-. rewrite Hi in Hj. injection Hj as <-. exists t'. split; [eapply step_sorted; eassumption | auto |].
          exists done. cbn [told serving to_send]. split; [exact S3 |]. exists x. split; [reflexivity |]. split; [reflexivity |]. split; auto.
          rewrite <- (step_run p t p' t' Hs2). apply (uw_run _ _ _ _ _ W).
        * rewrite replace_other in Hd2 by exact Hij. destruct (or_own s c Hc j ys d2 Hj Hd2) as (u & [U1 U2 U3]). exists u. split; auto.
          intros y Hy. apply (same_at_trans y _ s); [| apply U2, Hy]. apply same_at_sym, Hother. intros Hy'. apply Hij. eapply (home_apart E owner U Hapart); eassumption.
      + assert (Hret : exists a, p = Ret a).
        { destruct (step1 p s) as [[]|] eqn:Hs1; [contradiction |]. destruct p; try discriminate Hs1. eauto. }
        destruct Hret as [a ->]. assert (Hdone : forall l', so_far (done ++ [x]) l' -> settled s i (done ++ x :: rest) (mkDesk l' None rest) t).
        { intros l' Hf. split; auto. exists (done ++ [x]). cbn [told serving to_send]. split; [exact Hf |]. split; [rewrite <- app_assoc; reflexivity |].
          rewrite map_app. cbn [map]. rewrite after_all_snoc. unfold after. rewrite <- (uw_run _ _ _ _ _ W). reflexivity. }
        pose proof (so_far_next i done l x t a (snd x) ord S3 Ho eq_refl W) as Hnext.
        destruct a as [a | e | |]; [| | | eauto]; exists s; eapply orderly_quiet; eauto.
    - destruct S4 as [-> ->]. destruct rest as [| [[now n] k] rest]; [eauto |].
      assert (Hx : sendable E L lim smax (now, n, k)) by (rewrite Forall_forall in Hsend; apply Hsend, in_or_app; right; left; reflexivity).
      assert (Hw : own_policy owner i (as_request L (now, n, k))) by (rewrite Forall_forall in Hown; apply (Hown (now, n, k)), in_or_app; right; left; reflexivity).
      pose proof (receive_ok ord (now, n, k) Ho Hx) as Hr. cbn [snd] in Hr. rewrite Hr. exists s. refine (orderly_quiet s c i _ _ _ (after_all E (map (as_request L) done) s0) Hc Hd Hi _ true).
      split; [exact S1 | exact S2 |]. exists done. cbn [told serving to_send]. split; [exact S3 |].
      exists (now, n, k). split; [reflexivity |]. split; [reflexivity |]. split.
      + reflexivity.
      + apply (serve_inside E owner U i (as_request L (now, n, k))); [exact Hw |]. intros pid r Hm. apply (HU (done ++ (now, n, k) :: rest) (now, n, k)); [eapply nth_error_In, Hi | apply in_or_app; right; left; reflexivity | exact Hm].
      + apply (serve_writable E lim (as_request L (now, n, k))), acceptable_fits; [exact Hl | exact HL | apply Hx].
      + apply (serve_good E L lim (now, n, k)); [exact Hl | exact HL | apply Hx].
  Qed.

  Lemma orderly_play es : walks es -> forall s c, orderly s c -> exists s', orderly s' (net_play E L lim smax cmax es c).
  Proof.
    induction es as [| e es IH]; intros Hw s c Hc; [eauto |]. cbn [net_play fold_left].
    destruct (orderly_turn s c e (Hw e (or_introl eq_refl)) Hc) as [s1 H1]. apply (IH (fun e' He => Hw e' (or_intror He)) s1). exact H1.
  Qed.
End Net.
