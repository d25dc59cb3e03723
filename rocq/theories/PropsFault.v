(** Properties of storage failures: C68, C69. *)
From Verif Require Import Base Domain Lexer Parser Validate Store Search Explain Yaml Service Dump Api Fault
  SpecGrammar SpecPolicy SpecStore SpecSearch SpecCrash SpecConc SpecRetry Fixtures BaseFacts ValidateFacts StoreFacts PolicyFacts CrashFacts
  ConcFacts RetryFacts PropsPolicy PropsCrash PropsRetry PropsConcSearch.
From Coq Require Import Lia.

(** ** C68 A storage failure ends only the request that it hits *)

Lemma nth_replace_other {A} (x : A) : forall l i j, i <> j -> nth_error (replace i x l) j = nth_error l j.
Proof.
  induction l as [| y l IH]; intros i j H; destruct i, j; cbn; try reflexivity; [contradiction |]. apply IH. intros ->. apply H. reflexivity.
Qed.

Lemma nth_replace_same {A} (x y : A) : forall l i, nth_error l i = Some y -> nth_error (replace i x l) i = Some x.
Proof. induction l as [| z l IH]; intros [| i] H; cbn in *; try discriminate; [reflexivity | apply IH, H]. Qed.

(** [c] is [c'] where the requests [F] have failed. *)
Record alike (F : list nat) (c c' : config) : Prop := {
  al_store : snd c = snd c';
  al_same : forall i, ~ In i F -> nth_error (fst c) i = nth_error (fst c') i;
  al_failed : forall i, In i F -> nth_error (fst c) i = Some (Ret (Err EStorage)) }.

Lemma advance_done c i a : nth_error (fst c) i = Some (Ret a) -> advance c i = c.
Proof. intros H. unfold advance. rewrite H. reflexivity. Qed.

Lemma occur_alike e F c c' : alike F c c' ->
  exists sched F', alike F' (occur c e) (interleave sched c') /\ forall i, In i F' -> In i F \/ exists b, e = Fails i b.
Proof.
  intros [Hs He Hf]. destruct e as [i | i b]; cbn [occur].
  - destruct (in_dec PeanoNat.Nat.eq_dec i F) as [Hi | Hi].
    + exists [], F. rewrite (advance_done c i _ (Hf i Hi)). split; [split; assumption | auto].
    + exists [i], F. split; [| auto]. cbn [interleave fold_left]. unfold advance. rewrite <- (He i Hi), <- Hs.
      destruct (nth_error (fst c) i) as [p |] eqn:Hn; [| split; assumption]. destruct (step1 p (snd c)) as [[p' s'] |]; [| split; assumption].
      split; cbn [fst snd]; [reflexivity | |].
      * intros j Hj. destruct (PeanoNat.Nat.eq_dec i j) as [<- | Hij].
        -- rewrite (nth_replace_same p' p _ _ Hn). symmetry. apply (nth_replace_same p' p). rewrite <- (He i Hi). exact Hn.
        -- rewrite !nth_replace_other by exact Hij. apply He, Hj.
      * intros j Hj. rewrite nth_replace_other by (intros ->; contradiction). apply Hf, Hj.
  - destruct (in_dec PeanoNat.Nat.eq_dec i F) as [Hi | Hi].
    + exists [], F. rewrite (Hf i Hi). cbn. split; [split; assumption | auto].
    + destruct (nth_error (fst c) i) as [p |] eqn:Hn; [| exists [], F; split; [split; assumption | auto]].
      destruct (step1 p (snd c)) as [[p' s'] |] eqn:Hp; [| exists [], F; split; [split; assumption | auto]].
      assert (Hfail : forall j, In j (i :: F) -> nth_error (replace i (Ret (Err EStorage)) (fst c)) j = Some (Ret (Err EStorage))).
      { intros j Hj. destruct (PeanoNat.Nat.eq_dec i j) as [<- | Hij]; [exact (nth_replace_same _ p _ _ Hn) |].
        rewrite nth_replace_other by exact Hij. apply Hf. destruct Hj as [Hj | Hj]; [contradiction | exact Hj]. }
      destruct b.
      * exists [i], (i :: F). split; [| intros j [<- | Hj]; eauto]. cbn [interleave fold_left]. unfold advance. rewrite <- (He i Hi), Hn, <- Hs, Hp.
        split; cbn [fst snd]; [reflexivity | | exact Hfail]. intros j Hj. cbn in Hj. rewrite !nth_replace_other by tauto. apply He. tauto.
      * exists [], (i :: F). split; [| intros j [<- | Hj]; eauto]. cbn [interleave fold_left].
        split; cbn [fst snd]; [exact Hs | | exact Hfail]. intros j Hj. cbn in Hj. rewrite !nth_replace_other by tauto. apply He. tauto.
Qed.

Lemma happen_alike : forall es F c c', alike F c c' ->
  exists sched F', alike F' (happen es c) (interleave sched c') /\ forall i, In i F' -> In i F \/ exists b, In (Fails i b) es.
Proof.
  induction es as [| e es IH]; intros F c c' H; [exists [], F; auto |]. cbn [happen fold_left].
  destruct (occur_alike e F c c' H) as (s1 & F1 & H1 & Hi1). destruct (IH F1 _ _ H1) as (s2 & F2 & H2 & Hi2).
  exists (s1 ++ s2), F2. unfold interleave in *. rewrite fold_left_app. split; [exact H2 |].
  intros i Hi. destruct (Hi2 i Hi) as [Hi' | (b & Hb)]; [destruct (Hi1 i Hi') as [? | (b & ->)]; [auto |] |]; right; exists b; cbn; auto.
Qed.

(** The store, and the answers of all requests without a failure, are those of an execution without failures in which
    the failed requests stop; a failed request answers with an error, or as if nothing had failed. *)
Theorem C68_isolated : forall E s qs es, exists sched,
  snd (happen es (start E qs s)) = snd (interleave sched (start E qs s)) /\
  (forall i, (forall b, ~ In (Fails i b) es) -> answered (happen es (start E qs s)) i = answered (interleave sched (start E qs s)) i) /\
  (forall i x, answered (happen es (start E qs s)) i = Some x -> x = Err EStorage \/ answered (interleave sched (start E qs s)) i = Some x).
Proof.
  intros E s qs es.
  assert (H0 : alike [] (start E qs s) (start E qs s)) by (split; [reflexivity | reflexivity | intros i []]).
  destruct (happen_alike es [] _ _ H0) as (sched & F & [Hs He Hf] & Hi). exists sched. split; [exact Hs |]. split.
  - intros i Hn. unfold answered. rewrite He; [reflexivity |]. intros Hin. destruct (Hi i Hin) as [[] | (b & Hb)]. exact (Hn b Hb).
  - intros i x Hx. unfold answered in *. destruct (in_dec PeanoNat.Nat.eq_dec i F) as [Hin | Hin].
    + rewrite (Hf i Hin) in Hx. injection Hx as <-. auto.
    + rewrite <- (He i Hin). auto.
Qed.

(** So failures lead to no other stores, ... *)
Theorem C68_reachable : forall E s qs es, reachable E s -> reachable E (snd (happen es (start E qs s))).
Proof. intros E s qs es H. destruct (C68_isolated E s qs es) as (sched & -> & _). constructor. exact H. Qed.

(** ... and every decision to authorise is justified whatever fails around it. *)
Theorem C68_decision : forall E s qs es i n pid o rel a, reachable E s ->
  nth_error qs i = Some (QCheck n pid (asks o rel a)) ->
  answered (happen es (start E qs s)) i = Some (Ok (ADecision true)) ->
  exists sched k rec, snd (happen es (start E qs s)) = snd (interleave sched (start E qs s)) /\ acts E qs s sched i k /\
    answer E (QGetPolicy pid) (moment E qs s sched k) = Ok (APolicy (Some rec)) /\
    (~ policy_uses E (pr_policy rec) OpDiff -> member E (pr_policy rec) (sometimes E qs s sched i pid) a o rel).
Proof.
  intros E s qs es i n pid o rel a H Hq Ha. destruct (C68_isolated E s qs es) as (sched & Hs & _ & Hx).
  destruct (Hx i _ Ha) as [Hd | Ha']; [discriminate |].
  destruct (C50_justified E s qs sched i n pid o rel a H Hq Ha') as (k & rec & Hk & Hp & Hm). exists sched, k, rec. auto.
Qed.

(** A grant fails before its first write; a check beside it answers as without the grant, and the policy stays usable. *)
Example C68_example : let r := tup "file" "f" "owner" (user "bob") in
  let ask := QCheck 9 "p" (Some (mkAccess (Some (ent "file" "f")) "owner" (Some (ent "user" "bob")))) in
  let c := happen [Works 0; Works 1; Fails 0 false; Works 1; Works 1; Works 1; Works 1; Works 2; Works 2; Works 2; Works 2; Works 2]
    (start E0 [set "p" r; ask; set "p" r] (after_all E0 [create "p"] empty_store)) in
  answered c 0 = Some (Err EStorage) /\ answered c 1 = Some (Ok (ADecision false)) /\ answered c 2 = Some (Ok (ASet false)) /\
  relationships (snd c) "p" = [r].
Proof. vm_compute. auto. Qed.

(** ** C69 A request that answers with a storage error has changed nothing: refuted *)

Fixpoint rest {A} (n : nat) (p : prog A) (s : store) : prog A :=
  match n with
  | 0 => p
  | S n => match step1 p s with None => p | Some (p', s') => rest n p' s' end
  end.

Lemma works_alone n : forall p s, happen (repeat (Works 0) n) ([p], s) = ([rest n p s], crash n p s).
Proof.
  induction n as [| n IH]; intros p s; [reflexivity |]. cbn [repeat happen fold_left occur rest crash]. unfold advance. cbn [fst snd nth_error].
  destruct (step1 p s) as [[p' s'] |] eqn:Hp; [apply IH |]. specialize (IH p s). unfold happen in IH. rewrite IH. clear IH.
  destruct n as [| n]; [reflexivity |]. cbn [rest crash]. rewrite Hp. reflexivity.
Qed.

Lemma step1_run {A} (p : prog A) s p' s' : step1 p s = Some (p', s') -> run p s = run p' s'.
Proof. destruct p; cbn; try discriminate; intros [= <- <-]; reflexivity. Qed.

Lemma rest_run {A} n : forall (p : prog A) s, run p s = run (rest n p s) (crash n p s).
Proof.
  induction n as [| n IH]; intros p s; [reflexivity |]. cbn [rest crash]. destruct (step1 p s) as [[p' s'] |] eqn:Hp; [| reflexivity].
  rewrite (step1_run p s p' s' Hp). apply IH.
Qed.

Lemma crash_next {A} n : forall (p : prog A) s p' s', step1 (rest n p s) (crash n p s) = Some (p', s') -> crash (S n) p s = s'.
Proof.
  induction n as [| n IH]; intros p s p' s' H; [cbn in *; rewrite H; reflexivity |].
  cbn [rest crash] in H. cbn [crash]. destruct (step1 p s) as [[p1 s1] |] eqn:Hp; [apply (IH p1 s1 p' s' H) | congruence].
Qed.

Lemma step1_none {A} (p : prog A) s : step1 p s = None -> exists a, p = Ret a.
Proof. destruct p; cbn; try discriminate. eauto. Qed.

Lemma hit_cases E q s n b : let c := happen (hit n b) (start E [q] s) in
  (answered c 0 = Some (answer E q s) /\ snd c = after E q s /\ stopped E n q s = after E q s) \/
  ((exists x, step1 (rest n (serve E q) s) (stopped E n q s) = Some x) /\ answered c 0 = Some (Err EStorage) /\ snd c = stopped E (if b then S n else n) q s).
Proof.
  cbv zeta. unfold happen, hit. rewrite fold_left_app. unfold start. cbn [map]. pose proof (works_alone n (serve E q) s) as Hw. unfold happen in Hw. rewrite Hw.
  cbn [fold_left occur fst snd nth_error]. pose proof (rest_run n (serve E q) s) as Hr. unfold stopped.
  destruct (step1 (rest n (serve E q) s) (crash n (serve E q) s)) as [[p' s'] |] eqn:Hp.
  - right. split; [eauto |]. cbn [fst snd answered nth_error replace]. split; [reflexivity |]. destruct b; [| reflexivity]. symmetry. exact (crash_next n _ _ _ _ Hp).
  - left. apply step1_none in Hp as (a & Ha). rewrite Ha in *. cbn in Hr. unfold answer, after. rewrite Hr. cbn. auto.
Qed.

(** A request alone whose operation [n] fails: either it has no such operation, or it answers with an error and leaves
    the store of a stop before or after that operation. *)
Theorem C69_states_partial : forall E q s n b, let c := happen (hit n b) (start E [q] s) in
  (answered c 0 = Some (answer E q s) /\ snd c = after E q s /\ stopped E n q s = after E q s) \/
  (answered c 0 = Some (Err EStorage) /\ snd c = stopped E (if b then S n else n) q s).
Proof. intros E q s n b. destruct (hit_cases E q s n b) as [H | [_ H]]; auto. Qed.

(** Every stop of a request is reached by a failure, which is answered with an error. *)
Theorem C69_refuted : forall E q s n, stopped E n q s <> after E q s ->
  let c := happen (hit n false) (start E [q] s) in answered c 0 = Some (Err EStorage) /\ snd c = stopped E n q s.
Proof. intros E q s n H c. destruct (C69_states_partial E q s n false) as [(_ & _ & Hs) | Hx]; [contradiction | exact Hx]. Qed.

(** A grant that was answered with an error is in force, ... *)
Theorem C69_set_refuted : forall E s now pid r app b, reachable E s ->
  answer E (QSetRelationship now pid (Some r) app) s = Ok (ASet b) -> fully_unset E s pid r ->
  exists n, let c := happen (hit n false) (start E [QSetRelationship now pid (Some r) app] s) in
    answered c 0 = Some (Err EStorage) /\ In r (relationships (snd c) pid).
Proof.
  intros E s now pid r app b H Ha Hu. destruct (C40_set_refuted E s now pid r app H (ex_intro _ _ Ha) Hu) as (n & Hn & Hg). exists n. cbv zeta.
  destruct (C69_refuted E (QSetRelationship now pid (Some r) app) s n) as [H1 H2].
  - intros Heq. rewrite Heq in Hg. apply reachable_ok in H.
    destruct (set_effect E now pid r app s b H Ha) as (rec & e & _ & _ & He & _ & Hs). rewrite Hs, (get_rel_answer E pid r e _ He) in Hg.
    cbn in Hg. rewrite (get_set_same pcmp pcmp_ok) in Hg. discriminate.
  - split; [exact H1 |]. rewrite H2. exact Hn.
Qed.

(** ... a relationship whose removal was answered with an error is gone, ... *)
Theorem C69_delete_refuted : forall E s pid r, reachable E s -> fully_set E s pid r ->
  exists n, let c := happen (hit n false) (start E [QDeleteRelationship pid (Some r)] s) in
    answered c 0 = Some (Err EStorage) /\ ~ In r (relationships (snd c) pid).
Proof.
  intros E s pid r H Hf. destruct (C40_delete_refuted E s pid r H Hf) as (n & Hn & rec & Hg). exists n. cbv zeta.
  destruct (C69_refuted E (QDeleteRelationship pid (Some r)) s n) as [H1 H2].
  - intros Heq. rewrite Heq in Hg. destruct Hf as [Hin _]. apply reachable_ok in H. apply (relationships_in E s pid r H) in Hin as (e & He & _).
    rewrite (after_delete E pid (Some r) s e He), (get_rel_answer E pid r e _ He) in Hg. cbn in Hg. rewrite (get_del_same pcmp) in Hg. discriminate.
  - split; [exact H1 |]. rewrite H2. exact Hn.
Qed.

(** ... and a policy whose removal was answered with an error is gone while its relationships stay. *)
Theorem C69_policy_refuted : forall E s id rec, reachable E s -> answer E (QGetPolicy id) s = Ok (APolicy (Some rec)) -> relationships s id <> [] ->
  exists n, let c := happen (hit n false) (start E [QDeletePolicy id] s) in
    answered c 0 = Some (Err EStorage) /\ answer E (QGetPolicy id) (snd c) = Ok (APolicy None) /\ relationships (snd c) id = relationships s id.
Proof.
  intros E s id rec H Hp Hne. destruct (C41_refuted E s id rec H Hp) as (n & Hn & Hr & _). exists n. cbv zeta.
  destruct (C69_refuted E (QDeletePolicy id) s n) as [H1 H2].
  - intros Heq. rewrite Heq in Hr. apply Hne. rewrite <- Hr. exact (proj1 (proj2 (proj2 (proj2 (proj1 (C18_delete_policy_is_complete E id s H) rec Hp))))).
  - split; [exact H1 |]. rewrite H2. auto.
Qed.

(** Requests that write at most once change nothing, unless the failed operation did. *)
Definition writes_once (q : request) : Prop :=
  match q with
  | QSetRelationship _ _ _ _ | QDeleteRelationship _ _ | QDeleteRelationships _ _ | QDeletePolicy _ => False
  | _ => True
  end.

Lemma rest_ret {A} n (a : A) s : rest n (Ret a) s = Ret a.
Proof. destruct n; reflexivity. Qed.

Lemma pending_create E n now d app s x : step1 (rest n (serve E (QCreatePolicy now d app)) s) (stopped E n (QCreatePolicy now d app) s) = Some x ->
  stopped E n (QCreatePolicy now d app) s = s.
Proof.
  unfold stopped. cbn [serve]. unfold create_policy, respond, rbind, lift. cbn [pbind].
  destruct (get_policy_from_definition d) as [p | | |]; try (cbv beta iota delta [pbind]; rewrite rest_ret; discriminate). unfold repo_get_policy. cbn [pbind].
  destruct n as [| n]; cbn [crash rest step1]; [reflexivity |]. destruct (kv_get scmp (p_id p) (st_pol s)); [cbn [pbind]; rewrite rest_ret; discriminate |].
  destruct (verify_policy E p); try (cbv beta iota delta [pbind]; rewrite rest_ret; discriminate). cbn [pbind]. unfold repo_set_policy. cbn [pbind].
  destruct n as [| [| n]]; cbn [crash rest step1]; try reflexivity; cbn [pbind]; try rewrite rest_ret; discriminate.
Qed.

Lemma pending_update E n d app s x : step1 (rest n (serve E (QUpdatePolicy d app)) s) (stopped E n (QUpdatePolicy d app) s) = Some x ->
  stopped E n (QUpdatePolicy d app) s = s.
Proof.
  unfold stopped. cbn [serve]. unfold update_policy, respond, rbind, lift. cbn [pbind].
  destruct (get_policy_from_definition d) as [p | | |]; try (cbv beta iota delta [pbind]; rewrite rest_ret; discriminate). unfold repo_get_policy. cbn [pbind].
  destruct n as [| n]; cbn [crash rest step1]; [reflexivity |]. destruct (kv_get scmp (p_id p) (st_pol s)); [| cbn [pbind]; rewrite rest_ret; discriminate].
  destruct (verify_policy E p); try (cbv beta iota delta [pbind]; rewrite rest_ret; discriminate). cbn [pbind]. unfold repo_set_policy. cbn [pbind].
  destruct n as [| [| n]]; cbn [crash rest step1]; try reflexivity; cbn [pbind]; try rewrite rest_ret; discriminate.
Qed.

Theorem C69_once_partial : forall E q s n b, writes_once q -> let c := happen (hit n b) (start E [q] s) in
  answered c 0 = Some (Err EStorage) -> snd c = s \/ (b = true /\ snd c = after E q s).
Proof.
  intros E q s n b Hq. cbv zeta. intros Ha. destruct (hit_cases E q s n b) as [(H1 & H2 & _) | ((x & Hx) & _ & Hs)].
  { left. rewrite H2. apply failed_unchanged. rewrite Ha in H1. injection H1 as <-. intros y. discriminate. }
  rewrite Hs. destruct q; try contradiction; try (rewrite stopped_read by exact I; auto).
  - destruct b; [destruct (stopped_create E (S n) now d app s) as [-> | ->]; auto |]. left. eapply pending_create. exact Hx.
  - destruct b; [destruct (stopped_update E (S n) d app s) as [-> | ->]; auto |]. left. eapply pending_update. exact Hx.
Qed.

(** Sending the request again completes it. *)
Theorem C69_again_partial : forall E s q n b now, reachable E s -> ~ removes_many q ->
  let c := happen (hit n b) (start E [q] s) in
  after E (again now q) (snd c) = after E q s \/ after E (again now q) (snd c) = after E (again now q) s.
Proof.
  intros E s q n b now H Hq. cbv zeta. destruct (C69_states_partial E q s n b) as [(_ & -> & _) | [_ ->]].
  - apply C59_twice, H.
  - apply C59_completed_partial; assumption.
Qed.

(** A user who was told that the grant failed, and whose access was checked afterwards; and a request beside it. *)
Example C69_example : let r := tup "file" "f" "owner" (user "bob") in
  let c := happen [Works 0; Works 1; Works 0; Works 0; Fails 0 false; Works 1; Works 1; Works 1; Works 1]
    (start E0 [set "p" r; QCheck 9 "p" (Some (mkAccess (Some (ent "file" "f")) "owner" (Some (ent "user" "bob"))))] (after_all E0 [create "p"] empty_store)) in
  answered c 0 = Some (Err EStorage) /\ answered c 1 = Some (Ok (ADecision true)) /\ relationships (snd c) "p" = [r].
Proof. vm_compute. auto. Qed.

Print Assumptions C68_isolated.
Print Assumptions C68_reachable.
Print Assumptions C68_decision.
Print Assumptions C69_states_partial.
Print Assumptions C69_refuted.
Print Assumptions C69_set_refuted.
Print Assumptions C69_delete_refuted.
Print Assumptions C69_policy_refuted.
Print Assumptions C69_once_partial.
Print Assumptions C69_again_partial.
