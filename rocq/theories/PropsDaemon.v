(** C94: the zanzid process and the requests of different clients. *)
From Verif Require Import Base Domain Lexer Parser Validate Store Search Explain Yaml Service Dump Api SpecGrammar SpecPolicy SpecStore SpecSearch SpecSafe
  Fixtures Daemon BaseFacts StoreFacts TouchFacts SafeFacts PropsSafe DaemonFacts.

(** Requests that arrive over time, kills, panics and restarts leave no other stores than those of [reachable]. *)
Theorem C94_reachable : forall E es, reachable E (dm_store (live E es switched_off)).
Proof.
  intros E es. apply (live_round E (fun _ => True) (reachable E)).
  - intros s qs sched H _. constructor. exact H.
  - apply off_round. constructor.
  - auto.
Qed.

(** Every answer a client gets is one of a round of requests served at the same time, from a reachable store, and all
    requests of the round were sent. *)
Theorem C94_told : forall E es i q x, nth_error (dm_work (live E es switched_off)) i = Some (q, Ret x) ->
  x <> Panic /\ exists s qs sched, reachable E s /\ (forall r, In r qs -> In (Arrive r) es) /\ nth_error qs i = Some q /\
    answered (interleave sched (start E qs s)) i = Some x.
Proof.
  intros E es i q x Hi.
  destruct (live_round E (fun r => In (Arrive r) es) (reachable E)
    (fun s qs sched H _ => re_serve E s qs sched H) es switched_off (off_round E _ _ (re_empty E)) (fun r H => H)) as [_ H2 H3 H4].
  split; [intros ->; eapply H3; [eapply nth_error_In, Hi | reflexivity] |].
  destruct (dm_up (live E es switched_off)) eqn:Hup.
  - destruct (H2 eq_refl) as (s & sched & Hs & Hw & _ & Hr). exists s, (map fst (dm_work (live E es switched_off))), sched.
    split; [exact Hs |]. split; [apply Forall_forall; exact Hw |]. split; [rewrite nth_error_map, Hi; reflexivity |].
    unfold answered. rewrite Hr. cbn [fst]. rewrite nth_error_map, Hi. reflexivity.
  - rewrite (H4 eq_refl) in Hi. destruct i; discriminate.
Qed.

(** If all requests keep to the rules of C85, only a kill ends the process. *)
Theorem C94_careful_partial : forall E T es e, (forall q, In (Arrive q) (es ++ [e]) -> careful E T q) -> e <> Kill ->
  dm_up (live E es switched_off) = true -> dm_up (live E (es ++ [e]) switched_off) = true.
Proof.
  intros E T es e Hc Hk Hup. unfold live. rewrite fold_left_app. cbn [fold_left].
  apply (occur_up E (careful E T) (careful_store E T)); auto.
  - intros s qs sched i Hs Hq. apply (C85_careful_partial E T s qs sched i Hs Hq).
  - apply live_round; [intros s qs sched; apply ca_serve | apply off_round; constructor |]. intros q Hq. apply Hc, in_or_app. left. exact Hq.
  - intros q ->. apply Hc, in_or_app. right. left. reflexivity.
Qed.

(** Otherwise every request can be cut short by another client, after any number of its storage operations, and never
    answered: one message without its relationship does it. *)
Theorem C94_cut_short_refuted : forall E es q n pid, dm_up (live E es switched_off) = true ->
  let i := length (dm_work (live E es switched_off)) in
  live E (es ++ Arrive q :: repeat (Progress i) n ++ [Arrive (QGetRelationship pid None); Boot]) switched_off =
  mkDaemon true [] (crash n (serve E q) (dm_store (live E es switched_off))).
Proof.
  intros E es q n pid Hup i. unfold live at 1. rewrite fold_left_app. fold (live E es switched_off). cbn [fold_left].
  rewrite fold_left_app. set (d := live E es switched_off) in *.
  destruct (live_round E (fun _ => True) (reachable E)
    (fun s qs sched H _ => re_serve E s qs sched H) es switched_off (off_round E _ _ (re_empty E)) (fun r _ => I)) as [_ _ H3 _].
  fold d in H3. unfold occur at 3. rewrite Hup.
  pose proof (progress_store E q (dm_work d) n) as Hp. unfold live in Hp.
  assert (Hcalm : forall x, In x (dm_work d) -> is_panic (snd x) = false).
  { intros [r p] Hin. specialize (H3 r p Hin). cbn. destruct p as [[] | | | | | | | | | | | |]; try reflexivity. contradiction. }
  specialize (Hp Hcalm (serve E q) (dm_store d)). fold i in Hp.
  remember (fold_left (occur E) (repeat (Progress i) n) (settle (dm_work d ++ [(q, serve E q)]) (dm_store d))) as d1 eqn:Hd1. rewrite <- Hp.
  clear. cbn [fold_left]. destruct d1 as [[] work s]; cbn [occur dm_up dm_work dm_store]; [| reflexivity].
  unfold settle. rewrite existsb_app. cbn [existsb snd is_panic serve]. rewrite orb_true_r. reflexivity.
Qed.


(** A life of the process with requests within the rules: it is started, killed in between, and started again. *)
Definition example_life : list event :=
  Boot :: map Arrive example_setup ++ [Progress 0; Progress 0; Progress 0] ++ repeat (Progress 1) 4 ++ [Progress 2; Progress 2; Kill; Boot] ++
  map Arrive (example_setup ++ example_round) ++ repeat (Progress 0) 2 ++ repeat (Progress 1) 4 ++ repeat (Progress 2) 4 ++
  flat_map (fun i => repeat (Progress i) 12) [3; 4; 5; 6].

Example C94_example_careful : (forall q, In (Arrive q) example_life -> careful E0 example_names q) /\
  dm_up (live E0 example_life switched_off) = true /\
  map (fun x => match snd x with Ret (Ok _) => 1 | Ret _ => 2 | _ => 0 end) (dm_work (live E0 example_life switched_off)) = [2; 1; 1; 1; 1; 1; 1] /\
  nth_error (dm_work (live E0 example_life switched_off)) 3 =
    Some (QCheck 20 "p" (asks (ent "file" "1") "reader" (ent "user" "u")), Ret (Ok (ADecision true))).
Proof.
  split; [| vm_compute; auto]. pose proof example_careful as H. rewrite Forall_forall in H.
  intros q Hq. apply H. apply in_or_app. unfold example_life in Hq. cbn in Hq.
  repeat (destruct Hq as [Hq | Hq]; [try discriminate Hq; injection Hq as <-; cbn; tauto |]). contradiction.
Qed.

(** While one client grants bob access, another sends a message without its relationship: after the restart bob has
    access, though the grant was never confirmed and has no record. *)
Example C94_example_cut :
  let d := live E0 ([Boot; Arrive (create "p"); Progress 0; Progress 0; Progress 0] ++
    [Arrive (set "p" (tup "file" "f" "owner" (user "bob"))); Progress 1; Progress 1; Progress 1; Arrive (QGetRelationship "q" None); Boot]) switched_off in
  dm_up d = true /\ dm_work d = [] /\
  answer E0 (QCheck 20 "p" (asks (ent "file" "f") "reader" (ent "user" "bob"))) (dm_store d) = Ok (ADecision true) /\
  answer E0 (QGetRelationship "p" (Some (tup "file" "f" "owner" (user "bob")))) (dm_store d) = Ok (ARecord None).
Proof. vm_compute. auto. Qed.

Print Assumptions C94_reachable.
Print Assumptions C94_told.
Print Assumptions C94_careful_partial.
Print Assumptions C94_cut_short_refuted.
