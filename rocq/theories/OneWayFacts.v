(** Proofs about executions in which relationships are only added, or only removed. *)
From Verif Require Import Base Domain Lexer Parser Validate Store Search Explain Yaml Service Dump Api
  SpecGrammar SpecPolicy SpecStore SpecSearch SpecConc SpecTouch SpecApart SpecOneWay BaseFacts ParserFacts ValidateFacts StoreFacts PolicyFacts RelFacts
  SearchRun SearchFacts SearchSem SearchTerm ReadFacts GraphFacts ConcFacts ConcSearch TouchFacts ApartFacts.

(** ** First and last steps of a request *)

Lemma acts_dec E qs s sched i k : acts E qs s sched i k \/ ~ acts E qs s sched i k.
Proof.
  unfold acts. destruct (nth_error sched k) as [j |]; [| right; intros [H _]; discriminate].
  destruct (Nat.eq_dec j i) as [-> | Hj]; [| right; intros [H _]; congruence].
  destruct (answered _ i); [right; intros [_ H]; discriminate | left; auto].
Qed.

Lemma acts_bound E qs s sched i k : acts E qs s sched i k -> k < length sched.
Proof. intros [H _]. apply nth_error_Some. congruence. Qed.

Lemma first_step E qs s sched i k : acts E qs s sched i k ->
  exists k0, acts E qs s sched i k0 /\ forall j, acts E qs s sched i j -> k0 <= j.
Proof.
  induction k as [k IH] using lt_wf_ind. intros H.
  assert (Hd : (exists j, j < k /\ acts E qs s sched i j) \/ forall j, j < k -> ~ acts E qs s sched i j).
  { clear IH H. induction k as [| k IH]; [right; intros; lia |]. destruct IH as [(j & Hj & Ha) | Hn]; [left; exists j; split; [lia | exact Ha] |].
    destruct (acts_dec E qs s sched i k) as [Ha | Ha]; [left; exists k; split; [lia | exact Ha] |]. right. intros j Hj.
    destruct (Nat.eq_dec j k) as [-> | Hjk]; [exact Ha | apply Hn; lia]. }
  destruct Hd as [(j & Hj & Ha) | Hn]; [exact (IH j Hj Ha) |]. exists k. split; [exact H |]. intros j Hj.
  destruct (Nat.le_gt_cases k j) as [Hl | Hl]; [exact Hl | exfalso; exact (Hn j Hl Hj)].
Qed.

Lemma last_step E qs s sched i k : acts E qs s sched i k ->
  exists k1, acts E qs s sched i k1 /\ forall j, acts E qs s sched i j -> j <= k1.
Proof.
  intros H. remember (length sched - k) as d eqn:Hd. revert k H Hd. induction d as [d IH] using lt_wf_ind. intros k H Hd.
  pose proof (acts_bound _ _ _ _ _ _ H) as Hb.
  assert (Hx : (exists j, k < j /\ acts E qs s sched i j) \/ forall j, k < j -> ~ acts E qs s sched i j).
  { assert (Hn : (exists j, k < j /\ acts E qs s sched i j) \/ forall j, k < j -> j < length sched -> ~ acts E qs s sched i j).
    { clear. induction (length sched) as [| n IH]; [right; intros; lia |]. destruct IH as [IH | IH]; [left; exact IH |].
      destruct (Nat.lt_ge_cases k n) as [Hl | Hl]; [| right; intros; lia].
      destruct (acts_dec E qs s sched i n) as [Ha | Ha]; [left; exists n; auto |]. right. intros j Hj1 Hj2.
      destruct (Nat.eq_dec j n) as [-> | Hjn]; [exact Ha | apply IH; lia]. }
    destruct Hn as [Hn | Hn]; [left; exact Hn | right]. intros j Hj Ha. exact (Hn j Hj (acts_bound _ _ _ _ _ _ Ha) Ha). }
  destruct Hx as [(j & Hj & Ha) | Hn].
  - pose proof (acts_bound _ _ _ _ _ _ Ha). apply (IH (length sched - j)) with (k := j); [lia | exact Ha | reflexivity].
  - exists k. split; [exact H |]. intros j Hj. destruct (Nat.le_gt_cases j k) as [Hl | Hl]; [exact Hl | exfalso; exact (Hn j Hl Hj)].
Qed.

(** ** Moments of requests that only add or only remove *)

Section Ways.
  Variable E : env.
  Variable qs : list request.
  Variable s : store.
  Hypothesis Hs : store_ok E s.
  Variable sched : list nat.
  Variable pid : string.

  (** Steps from moment [k] to moment [k']. *)
  Lemma between (I : store -> Prop) k k' : k <= k' ->
    (forall s q x, I s -> In q qs -> changes E anything q x -> I (changed x s)) -> I (moment E qs s sched k) -> I (moment E qs s sched k').
  Proof.
    intros Hk HI H. unfold moment in *.
    assert (Hf : firstn k' sched = firstn k sched ++ firstn (k' - k) (skipn k sched)).
    { replace k' with (k + (k' - k)) at 1 by lia. clear. generalize (k' - k). revert sched. induction k as [| k IH]; intros l n; [reflexivity |].
      destruct l as [| a l]; [destruct n; reflexivity |]. cbn. f_equal. apply IH. }
    rewrite Hf. unfold interleave in *. rewrite fold_left_app.
    apply (interleave_changes E anything qs I (firstn (k' - k) (skipn k sched)) (fold_left advance (firstn k sched) (start E qs s))); auto.
    - intros; exact Logic.I.
    - clear Hf H.
      assert (Hall : forall sched0 c, (forall p, In p (fst c) -> exists q, In q qs /\ does anything (changes E anything q) p) ->
                forall p, In p (fst (fold_left advance sched0 c)) -> exists q, In q qs /\ does anything (changes E anything q) p).
      { induction sched0 as [| i l IH]; intros c Hc p Hp; [exact (Hc p Hp) |]. cbn [fold_left] in Hp. revert Hp. apply IH.
        unfold advance. destruct (nth_error (fst c) i) as [p0 |] eqn:Hi; [| exact Hc]. apply nth_error_In in Hi.
        destruct (step1 p0 (snd c)) as [[p' s'] |] eqn:Hst; [| exact Hc]. intros r Hr. cbn [fst] in Hr.
        apply in_replace in Hr as [-> | Hr]; [| exact (Hc r Hr)]. destruct (Hc p0 Hi) as (q & Hq & Hd). exists q. split; [exact Hq |].
        exact (proj1 (does_step anything _ p0 _ _ _ Hd (fun _ _ _ => Logic.I) Hst)). }
      apply Hall. intros p Hp. eapply start_does. exact Hp.
  Qed.

  (** Deletions leave what was there before. *)
  Lemma shrinks : (forall q r, In q qs -> ~ may_add q pid r) -> shrinking E qs s sched pid.
  Proof.
    intros Hq k k' r Hk Hin. pose proof (moment_ok E qs s Hs sched k) as Hok. pose proof (moment_ok E qs s Hs sched k') as Hok'.
    apply (relationships_in E); [exact Hok |]. apply (relationships_in E) in Hin as (e & He & Hg); [| exact Hok']. exists e. split; [exact He |].
    revert Hg. apply (between (fun s' => kv_sorted ecmp (st_edges s') /\
        forall key e, kv_get ecmp (pid, key) (st_edges s') = Some e -> kv_get ecmp (pid, key) (st_edges (moment E qs s sched k)) = Some e) k k' Hk).
    - clear Hok' He e r. intros s' q x [Hso HI] Hin Hx. destruct q; destruct x; cbn [changes] in Hx; try contradiction; try (destruct r; contradiction);
        cbn [changed st_edges]; try (split; [exact Hso | exact HI]).
      + split; [apply sorted_del; [exact ecmp_ok | exact Hso] |]. intros key e. rewrite (get_del ecmp ecmp_ok) by exact Hso.
        destruct (ecmp (pid, key) (pid0, k0)); auto; discriminate.
      + destruct r as [r |]; [| contradiction]. destruct Hx as (-> & _).
        split; [apply sorted_set; [exact ecmp_ok | exact Hso] |]. intros key e0. rewrite (get_set_other ecmp ecmp_ok); [apply HI |].
        intros [= <- _]. exact (Hq _ r Hin (conj eq_refl eq_refl)).
      + split; [apply sorted_del; [exact ecmp_ok | exact Hso] |]. intros key e. rewrite (get_del ecmp ecmp_ok) by exact Hso.
        destruct (ecmp (pid, key) (pid1, k0)); auto; discriminate.
      + split; [apply sorted_del; [exact ecmp_ok | exact Hso] |]. intros key e. rewrite (get_del ecmp ecmp_ok) by exact Hso.
        destruct (ecmp (pid, key) (pid1, k0)); auto; discriminate.
    - split; [apply so_edges with E; exact Hok | auto].
  Qed.

  (** What is stored at some moment was stored at the start or is set by a request. *)
  Lemma stored_or_added j r : In r (relationships (moment E qs s sched j) pid) ->
    In r (relationships s pid) \/ exists q, In q qs /\ may_add q pid r.
  Proof.
    intros H0. pose proof (moment_ok E qs s Hs sched j) as Hj. apply (relationships_in E) in H0 as (e & He & Hg); [| exact Hj].
    destruct (interleave_origin E qs s (firstn j sched)) as [_ Ho]. destruct (Ho _ _ _ Hg) as [H0 | (now & app & r' & rec & Hq' & He' & _)].
    - left. apply (relationships_in E); [exact Hs |]. eauto.
    - right. eexists. split; [exact Hq' |]. split; [reflexivity |].
      rewrite <- (from_to_internal _ _ He), <- (from_to_internal _ _ He'). reflexivity.
  Qed.

  (** Settings keep what was there, if they do not overwrite it. *)
  Lemma grows : (forall q, In q qs -> ~ may_remove q pid) ->
    own_keys E (fun r => In r (relationships s pid) \/ exists q, In q qs /\ may_add q pid r) -> growing E qs s sched pid.
  Proof.
    intros Hq Hown k k' r Hk Hin. pose proof (moment_ok E qs s Hs sched k) as Hok. pose proof (moment_ok E qs s Hs sched k') as Hok'.
    apply (relationships_in E); [exact Hok' |]. pose proof (stored_or_added k r Hin) as Hr. apply (relationships_in E) in Hin as (e & He & Hg); [| exact Hok].
    exists e. split; [exact He |].
    apply (between (fun s' => kv_get ecmp (pid, edge_key E e) (st_edges s') = Some e /\ kv_sorted ecmp (st_edges s')) k k' Hk).
    - clear Hok' Hok Hg. intros s' q x [HI Hso] Hin Hx. destruct q; destruct x; cbn [changes] in Hx; try contradiction; try (destruct r0; contradiction);
        cbn [changed st_edges]; try (split; [exact HI | exact Hso]).
      + subst. split; [| apply sorted_del; [exact ecmp_ok | exact Hso]]. rewrite (get_del_other ecmp ecmp_ok); [exact HI |].
        intros [= Hp _]. apply (Hq _ Hin). symmetry. exact Hp.
      + destruct r0 as [r0 |]; [| contradiction]. destruct Hx as (-> & He' & -> & _). split; [| apply sorted_set; [exact ecmp_ok | exact Hso]].
        rewrite (get_set ecmp ecmp_ok). destruct (ecmp (pid, edge_key E e) (pid0, edge_key E e0)) eqn:Hc; try exact HI.
        apply (cmp_eq _ ecmp_ok) in Hc. injection Hc as <- Hkey.
        assert (Heq : r = r0); [| subst r0; congruence].
        apply (Hown r r0 (edge_key E e)); [exact Hr | right; eexists; split; [exact Hin | split; reflexivity] | exists e; auto | exists e0; split; [exact He' | unfold edge_key; congruence]].
      + subst. split; [| apply sorted_del; [exact ecmp_ok | exact Hso]]. rewrite (get_del_other ecmp ecmp_ok); [exact HI |].
        intros [= Hp _]. apply (Hq _ Hin). symmetry. exact Hp.
      + subst. split; [| apply sorted_del; [exact ecmp_ok | exact Hso]]. rewrite (get_del_other ecmp ecmp_ok); [exact HI |].
        intros [= Hp _]. apply (Hq _ Hin). symmetry. exact Hp.
    - split; [exact Hg | apply so_edges with E; exact Hok].
  Qed.
End Ways.
