(** Proofs about the zanzid process. *)
From Verif Require Import Base Domain Lexer Store Search Explain Yaml Service Dump Api SpecStore SpecSafe Daemon
  BaseFacts StoreFacts TouchFacts SafeFacts.

Lemma interleave_more us sched : forall ts s, Forall (fun i => i < length ts) sched ->
  interleave sched (ts ++ us, s) = (fst (interleave sched (ts, s)) ++ us, snd (interleave sched (ts, s))).
Proof.
  induction sched as [| i sched IH]; intros ts s H; [reflexivity |]. inversion H as [| ? ? Hi Hs]; subst.
  cbn [interleave fold_left]. unfold advance at 2 4 6. cbn [fst snd]. rewrite nth_error_app1 by exact Hi.
  destruct (nth_error ts i) as [p |] eqn:Hp; [| apply IH; exact Hs].
  destruct (step1 p s) as [[p' s'] |]; [| apply IH; exact Hs].
  replace (replace i p' (ts ++ us)) with (replace i p' ts ++ us).
  - apply IH. rewrite replace_length. exact Hs.
  - clear - Hi. revert i Hi. induction ts as [| t ts IHt]; intros i Hi; [inversion Hi |]. destruct i as [| i]; [reflexivity |].
    cbn in *. rewrite IHt by lia. reflexivity.
Qed.

Section Daemon.
  Variable E : env.
  (** Stores closed under rounds of requests that satisfy [G]. *)
  Variables (G : request -> Prop) (St : store -> Prop).
  Hypothesis Hround : forall s qs sched, St s -> Forall G qs -> St (snd (interleave sched (start E qs s))).

  Record as_a_round (d : daemon) : Prop := {
    ar_store : St (dm_store d);
    ar_round : dm_up d = true -> exists s sched, St s /\ Forall G (map fst (dm_work d)) /\
      Forall (fun i => i < length (dm_work d)) sched /\
      interleave sched (start E (map fst (dm_work d)) s) = (map snd (dm_work d), dm_store d);
    ar_calm : forall q p, In (q, p) (dm_work d) -> p <> Ret Panic;
    ar_down : dm_up d = false -> dm_work d = [] }.

  Lemma settle_round work s0 sched s : St s0 -> Forall G (map fst work) -> Forall (fun i => i < length work) sched ->
    interleave sched (start E (map fst work) s0) = (map snd work, s) -> as_a_round (settle work s).
  Proof.
    intros Hs Hg Hi Hr. assert (St s) as Hs' by (replace s with (snd (interleave sched (start E (map fst work) s0))) by (rewrite Hr; reflexivity); auto).
    unfold settle. destruct (existsb (fun x => is_panic (snd x)) work) eqn:Hp.
    - split; cbn; [exact Hs' | discriminate | intros q p [] | reflexivity].
    - split; cbn; [exact Hs' | eauto 6 | | discriminate]. intros q p Hin ->.
      assert (existsb (fun x => is_panic (snd x)) work = true) by (apply existsb_exists; exists (q, Ret Panic); auto). congruence.
  Qed.

  Lemma map_replace {A B} (f : A -> B) i x l : map f (replace i x l) = replace i (f x) (map f l).
  Proof. revert i. induction l as [| a l IH]; intros []; cbn; auto. rewrite IH. reflexivity. Qed.

  Lemma occur_round d e : as_a_round d -> (forall q, e = Arrive q -> G q) -> as_a_round (occur E d e).
  Proof.
    intros [H1 H2 H3 H4] Hg. destruct d as [up work s]. cbn [dm_up dm_work dm_store] in *. destruct e as [q | i | |]; cbn [occur dm_up dm_work dm_store].
    - destruct up; [| split; assumption]. destruct (H2 eq_refl) as (s0 & sched & Hs0 & Hw & Hi & Hr).
      apply (settle_round _ s0 sched); auto.
      + rewrite map_app. apply Forall_app. split; [exact Hw |]. constructor; [apply Hg; reflexivity | constructor].
      + eapply Forall_impl; [| exact Hi]. intros i. rewrite app_length. cbn. lia.
      + unfold start in *. rewrite !map_app. cbn [map fst snd].
        rewrite interleave_more; [rewrite Hr; reflexivity |]. rewrite !map_length. exact Hi.
    - destruct up; [| split; assumption]. destruct (nth_error work i) as [[q p] |] eqn:Hq; [| split; assumption].
      destruct (step1 p s) as [[p' s'] |] eqn:Hst; [| split; assumption]. destruct (H2 eq_refl) as (s0 & sched & Hs0 & Hw & Hi & Hr).
      assert (Hf : map fst (replace i (q, p') work) = map fst work).
      { rewrite map_replace. cbn [fst]. apply replace_id. rewrite nth_error_map, Hq. reflexivity. }
      apply (settle_round _ s0 (sched ++ [i])); auto.
      + rewrite Hf. exact Hw.
      + rewrite replace_length. apply Forall_app. split; [exact Hi |]. constructor; [| constructor]. eapply nth_error_Some_lt, Hq.
      + rewrite Hf, interleave_app, Hr. cbn [interleave fold_left]. unfold advance. cbn [fst snd]. rewrite nth_error_map, Hq. cbn [option_map snd].
        rewrite Hst, map_replace. reflexivity.
    - split; cbn; [exact H1 | discriminate | intros q p [] | reflexivity].
    - destruct up; [split; assumption |]. split; cbn; [exact H1 | | intros q p [] | discriminate]. intros _. exists s, []. repeat split; auto.
  Qed.

  Lemma live_round es : forall d, as_a_round d -> (forall q, In (Arrive q) es -> G q) -> as_a_round (live E es d).
  Proof.
    induction es as [| e es IH]; intros d Hd Hg; [exact Hd |]. cbn [live fold_left]. apply IH.
    - apply occur_round; [exact Hd |]. intros q ->. apply Hg. left. reflexivity.
    - intros q Hq. apply Hg. right. exact Hq.
  Qed.

  Lemma off_round : St empty_store -> as_a_round switched_off.
  Proof. intros H. split; cbn; [exact H | discriminate | intros q p [] | reflexivity]. Qed.

  (** When no request of such a round panics, only a kill ends the process. *)
  Hypothesis Hcalm : forall s qs sched i, St s -> Forall G qs -> answered (interleave sched (start E qs s)) i <> Some Panic.

  Lemma settle_up work s0 sched s : St s0 -> Forall G (map fst work) ->
    interleave sched (start E (map fst work) s0) = (map snd work, s) -> dm_up (settle work s) = true.
  Proof.
    intros Hs Hg Hr. unfold settle. destruct (existsb (fun x => is_panic (snd x)) work) eqn:Hp; [| reflexivity]. exfalso.
    apply existsb_exists in Hp as ([q p] & Hin & Hp). cbn [snd] in Hp. apply In_nth_error in Hin as [i Hi].
    apply (Hcalm s0 (map fst work) sched i Hs Hg). unfold answered. rewrite Hr. cbn [fst]. rewrite nth_error_map, Hi. cbn.
    destruct p as [[] | | | | | | | | | | | |]; try discriminate Hp. reflexivity.
  Qed.

  Lemma occur_up d e : as_a_round d -> (forall q, e = Arrive q -> G q) -> e <> Kill -> dm_up d = true -> dm_up (occur E d e) = true.
  Proof.
    intros [H1 H2 H3 H4] Hg Hk Hup. destruct d as [up work s]. cbn [dm_up dm_work dm_store] in *. subst up.
    destruct (H2 eq_refl) as (s0 & sched & Hs0 & Hw & Hi & Hr). destruct e as [q | i | |]; cbn [occur dm_up dm_work dm_store]; [| | contradiction | reflexivity].
    - apply (settle_up _ s0 sched); auto.
      + rewrite map_app. apply Forall_app. split; [exact Hw |]. constructor; [apply Hg; reflexivity | constructor].
      + unfold start in *. rewrite !map_app. cbn [map fst snd]. rewrite interleave_more; [rewrite Hr; reflexivity |]. rewrite !map_length. exact Hi.
    - destruct (nth_error work i) as [[q p] |] eqn:Hq; [| reflexivity].
      destruct (step1 p s) as [[p' s'] |] eqn:Hst; [| reflexivity].
      assert (Hf : map fst (replace i (q, p') work) = map fst work).
      { rewrite map_replace. cbn [fst]. apply replace_id. rewrite nth_error_map, Hq. reflexivity. }
      apply (settle_up _ s0 (sched ++ [i])); rewrite ?Hf; auto.
      rewrite interleave_app, Hr. cbn [interleave fold_left]. unfold advance. cbn [fst snd]. rewrite nth_error_map, Hq. cbn [option_map snd].
      rewrite Hst, map_replace. reflexivity.
  Qed.
End Daemon.

(** A request that is at work alone, until something else ends the process. *)
Lemma progress_store E q work n : (forall x, In x work -> is_panic (snd x) = false) -> forall p s,
  dm_store (live E (repeat (Progress (length work)) n) (settle (work ++ [(q, p)]) s)) = crash n p s.
Proof.
  intros Hw.
  assert (Hc : forall p, existsb (fun x => is_panic (snd x)) (work ++ [(q, p)]) = is_panic p).
  { intros p. rewrite existsb_app. cbn. rewrite orb_false_r. destruct (existsb (fun x => is_panic (snd x)) work) eqn:Hp; [| reflexivity].
    apply existsb_exists in Hp as (x & Hx & Hp). rewrite Hw in Hp by exact Hx. discriminate. }
  assert (Hd : forall m s, live E (repeat (Progress (length work)) m) (mkDaemon false [] s) = mkDaemon false [] s)
    by (induction m as [| m IH]; intros s; [reflexivity | exact (IH s)]).
  induction n as [| n IH]; intros p s.
  - cbn. unfold settle. destruct (existsb _ _); reflexivity.
  - cbn [repeat live fold_left crash]. unfold settle at 1. rewrite Hc. destruct (is_panic p) eqn:Hp.
    + destruct p as [[] | | | | | | | | | | | |]; try discriminate Hp. cbn [occur dm_up step1]. change (dm_store (live E (repeat (Progress (length work)) n) (mkDaemon false [] s)) = s). rewrite Hd. reflexivity.
    + cbn [occur dm_up dm_work dm_store]. rewrite nth_middle. destruct (step1 p s) as [[p' s'] |] eqn:Hst.
      * rewrite replace_middle. apply IH.
      * replace s with (crash n p s) at 2 by (destruct n; cbn; rewrite ?Hst; reflexivity). rewrite <- IH. unfold settle. rewrite Hc, Hp. reflexivity.
Qed.
