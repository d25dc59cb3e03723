(** Properties of instances and their stores: C78 to C80. *)
From Verif Require Import Base Domain Lexer Parser Validate Store Search Explain Yaml Service Dump Api Config
  SpecConfig Fixtures BaseFacts ConfigFacts.

(** ** C78 Instances are independent *)

(** The calls among [cs] to instances with store [k]. *)
Definition of_store (k : nat) (x : instance * request) : bool := Nat.eqb (i_store (fst x)) k.

(** An instance answers as if the instances with other stores did not exist. *)
Theorem C78_isolated : forall E cs w k s, nth_error (w_stores w) k = Some s ->
  map snd (filter (fun x => of_store k (fst x)) (combine cs (snd (calls E cs w)))) = map Some (replies E (map snd (filter (of_store k) cs)) s) /\
  nth_error (w_stores (fst (calls E cs w))) k = Some (after_all E (map snd (filter (of_store k) cs)) s).
Proof.
  intros E cs. induction cs as [| [i q] cs IH]; intros w k s Hs; [split; [reflexivity | exact Hs] |].
  cbn [calls]. destruct (call E i q w) as [w1 a] eqn:Hc. destruct (calls E cs w1) as [w2 l] eqn:Hcs. cbn [snd combine].
  assert (Hrest : forall s1, nth_error (w_stores w1) k = Some s1 ->
    map snd (filter (fun x => of_store k (fst x)) (combine cs l)) = map Some (replies E (map snd (filter (of_store k) cs)) s1) /\
    nth_error (w_stores w2) k = Some (after_all E (map snd (filter (of_store k) cs)) s1)).
  { intros s1 H1. specialize (IH w1 k s1 H1). rewrite Hcs in IH. exact IH. }
  cbn [filter fst]. destruct (of_store k (i, q)) eqn:Hk; unfold of_store in Hk; cbn [fst] in Hk.
  - apply Nat.eqb_eq in Hk. subst k. destruct (call_same E i q w s Hs) as [Ha Hst]. rewrite Hc in Ha, Hst. cbn in Ha, Hst. subst a.
    destruct (Hrest _ Hst) as [H1 H2]. cbn. rewrite H1. split; [reflexivity | exact H2].
  - apply Nat.eqb_neq in Hk. apply Hrest. pose proof (call_other E i q w k (fun He => Hk (eq_sym He))) as Ho. rewrite Hc in Ho. cbn in Ho. congruence.
Qed.

(** New makes a store of its own, unless the last choice among its options is a given store or a directory. *)
Theorem C78_own_store : forall H os w w' i, new H os w = (w', Some i) ->
  (forall k, ~ last_choice os (WithKV k)) -> (forall path, ~ last_choice os (WithDefaultKV path)) ->
  length (w_stores w) <= i_store i /\ nth_error (w_stores w') (i_store i) = Some empty_store.
Proof.
  intros H os w w' i Hn Hkv Hdir. destruct (last_choice_dec os) as [(o & Ho) | Hno].
  - destruct (new_choice _ _ _ _ _ _ Hn Ho) as (d0 & w0 & d1 & [(l & Hl & _) _] & Ha & Hs).
    destruct o; try (destruct Ho as (? & ? & _ & Hc & _); inversion Hc; fail); [contradiction (Hkv k) | | contradiction (Hdir path)].
    cbn in Ha. destruct (h_zap H); [| discriminate]. injection Ha as <- <-. cbn in *. injection Hs as <-.
    split; [rewrite Hl, app_length; lia |]. rewrite nth_error_app2, Nat.sub_diag by lia. reflexivity.
  - apply new_no_choice in Hn as [Hs ->]; [| exact Hno]. rewrite Hs. split; [lia |]. cbn. rewrite nth_error_app2, Nat.sub_diag by lia. reflexivity.
Qed.

(** Instances built from the same value of WithMemKVStore share their store, in every world. *)
Theorem C78_memory_refuted : forall H w, exists w2 w3 i1 i2,
  (let (o, w1) := with_mem_kv w in new H [o] w1 = (w2, Some i1) /\ new H [o] w2 = (w3, Some i2)) /\
  snd (call E0 i2 (QGetPolicy "p") w3) = Some (Ok (APolicy None)) /\
  exists rec, snd (call E0 i2 (QGetPolicy "p") (fst (call E0 i1 (create "p") w3))) = Some (Ok (APolicy (Some rec))).
Proof.
  intros H w. cbn.
  set (w1 := mkWorld (w_stores w ++ [empty_store]) (w_dirs w) (w_open w)).
  exists w1, w1, (mkInstance (length (w_stores w)) LDefault), (mkInstance (length (w_stores w)) LDefault).
  assert (Hn : nth_error (w_stores w1) (length (w_stores w)) = Some empty_store) by (cbn; rewrite nth_error_app2, Nat.sub_diag by lia; reflexivity).
  split; [split; reflexivity |]. unfold call. cbn [i_store] in *. rewrite Hn. split; [reflexivity |]. cbn [fst w_stores].
  erewrite nth_replace_same by exact Hn. eexists. vm_compute. reflexivity.
Qed.

(** ** C79 What an instance stored is there after a restart *)

(** The store in a directory lasts. *)
Theorem C79_durable_partial : forall H E os w w1 i w2 os' w3 i' path path' dir, possible H E w ->
  new H os w = (w1, Some i) -> last_choice os (WithDefaultKV path) -> names_dir H path dir ->
  steps H E w1 w2 ->
  new H os' (restart w2) = (w3, Some i') -> last_choice os' (WithDefaultKV path') -> names_dir H path' dir ->
  forall q, snd (call E i' q w3) = snd (call E i q w2).
Proof.
  intros H E os w w1 i w2 os' w3 i' path path' dir Hp Hn Hl Hd Hs Hn' Hl' Hd' q.
  assert (Hopened : forall os w w1 i path, new H os w = (w1, Some i) -> last_choice os (WithDefaultKV path) -> names_dir H path dir ->
    exists w0, grows w w0 /\ grows w0 w1 /\ dir_store dir (w_dirs w1) = Some (i_store i)).
  { clear. intros os w w1 i path Hn Hl Hd. destruct (new_choice _ _ _ _ _ _ Hn Hl) as (d0 & w0 & d1 & Hg & Ha & Hst).
    exists w0. split; [exact Hg |]. cbn [apply_opt] in Ha. rewrite (proj2 (expand_names H path dir) Hd) in Ha.
    destruct (open_dir H dir w0) as [[k wk] |] eqn:Ho; [| discriminate]. injection Ha as <- <-. cbn in Hst. injection Hst as ->.
    apply open_dir_ok in Ho as (_ & _ & Hg' & _ & Hk). auto. }
  destruct (Hopened _ _ _ _ _ Hn Hl Hd) as (w0 & _ & _ & Hk).
  assert (Hw1 : world_ok w1). { pose proof (new_ok H os w (possible_ok _ _ _ Hp)) as Ho. rewrite Hn in Ho. exact Ho. }
  assert (Hw2 : world_ok w2) by (eapply steps_ok; eauto).
  assert (Hk2 : dir_store dir (w_dirs w2) = Some (i_store i)) by (eapply steps_dirs; eauto).
  destruct (Hopened _ _ _ _ _ Hn' Hl' Hd') as (w0' & Hg1 & Hg2 & Hk').
  assert (Hg : grows (restart w2) w3) by (eapply grows_trans; eauto).
  assert (He : i_store i' = i_store i). { destruct Hg as (_ & Hdirs & _). specialize (Hdirs dir (i_store i) Hk2). congruence. }
  destruct (nth_error (w_stores w2) (i_store i)) as [s |] eqn:Hst.
  - unfold call. rewrite He, Hst. pose proof (restart_nth w2 dir _ Hk2) as Hr. rewrite Hst in Hr.
    rewrite (grows_nth _ _ _ _ Hg Hr). reflexivity.
  - apply nth_error_None in Hst. apply Hw2 in Hk2. lia.
Qed.

(** New without options does not keep anything, although its comment says it stores its data in a directory. *)
Theorem C79_durable_refuted : forall H E w w1 i w2 w3 i', new H [] w = (w1, Some i) -> steps H E w1 w2 ->
  new H [] (restart w2) = (w3, Some i') ->
  forall q, snd (call E i' q w3) = Some (answer E q empty_store).
Proof.
  intros H E w w1 i w2 w3 i' _ _ Hn q. apply new_no_choice in Hn as [Hs ->]; [| intros o []].
  apply call_same. rewrite Hs. cbn [new_mem snd w_stores]. rewrite nth_error_app2, Nat.sub_diag by lia. reflexivity.
Qed.

(** ** C80 A New that fails leaves nothing behind *)

(** When New succeeds. *)
Theorem C80_succeeds : forall H os w,
  (exists w' i, new H os w = (w', Some i)) <->
  (exists dirs, opens H os dirs /\ NoDup dirs /\ forall dir, In dir dirs -> h_usable H dir = true /\ ~ In dir (w_open w)) /\
  (In WithDevelopmentConfig os \/ In WithDevelopmentLogger os -> h_zap H = true).
Proof.
  intros H os w. transitivity (exists w' d', apply_opts H os (mkDraft None None) w = (w', Some d')).
  - unfold new. destruct (apply_opts H os (mkDraft None None) w) as [w1 [d |]].
    + destruct (set_defaults d w1) as [w2 i]. split; eauto.
    + split; intros (? & ? & [=]).
  - rewrite apply_opts_some. split; intros [H1 H2]; (split; [exact H1 |]).
    + intros [Hi | Hi]; eapply H2; [exact Hi | left; reflexivity | exact Hi | right; reflexivity].
    + intros o Ho [-> | ->]; auto.
Qed.

(** New changes no store and closes no directory, no matter whether it fails; without options for directories it opens none. *)
Theorem C80_keeps_partial : forall H os w,
  (forall k s, nth_error (w_stores w) k = Some s -> nth_error (w_stores (fst (new H os w))) k = Some s) /\
  (forall dir, In dir (w_open w) -> In dir (w_open (fst (new H os w)))) /\
  ((forall path, ~ In (WithDefaultKV path) os) -> w_open (fst (new H os w)) = w_open w /\ w_dirs (fst (new H os w)) = w_dirs w).
Proof.
  intros H os w. split; [intros k s; apply grows_nth, new_grows | split; [apply new_grows |]].
  intros Hno. unfold new.
  assert (Hk : forall d w, w_open (fst (apply_opts H os d w)) = w_open w /\ w_dirs (fst (apply_opts H os d w)) = w_dirs w).
  { clear w. induction os as [| o os IH]; intros d w; cbn [apply_opts]; [auto |].
    assert (Ho : w_open (fst (apply_opt H o d w)) = w_open w /\ w_dirs (fst (apply_opt H o d w)) = w_dirs w).
    { destruct o; try (split; reflexivity). contradiction (Hno path). left. reflexivity. }
    destruct (apply_opt H o d w) as [w1 [d1 |]]; [| exact Ho].
    destruct (IH (fun path Hi => Hno path (or_intror Hi)) d1 w1) as [-> ->]. exact Ho. }
  destruct (Hk (mkDraft None None) w) as [H1 H2]. destruct (apply_opts H os (mkDraft None None) w) as [w1 [d |]]; [| auto].
  unfold set_defaults. destruct (d_store d); auto.
Qed.

(** A New that fails can keep a directory open, so that it cannot be used when New is called again. *)
Theorem C80_retry_refuted : exists H os w w1,
  new H os w = (w1, None) /\
  (exists w' i, new H [WithDefaultKV "a"] w = (w', Some i)) /\
  new H [WithDefaultKV "a"] w1 = (w1, None).
Proof.
  exists (mkHost None (String.eqb "a") true), [WithDefaultKV "a"; WithDefaultKV "b"], no_world, (mkWorld [empty_store] [("a", 0)] ["a"]).
  split; [reflexivity | split; [| reflexivity]]. do 2 eexists. reflexivity.
Qed.

(** ** Examples *)

Definition home_host : host := mkHost (Some "/root") (fun _ => true) true.

(** A database under ~ is found again by its full name, with the policy in it. *)
Example C79_example :
  exists w1 i w3 i' rec, new home_host [WithDefaultKV "~/.zanzi"; WithoutLogger] no_world = (w1, Some i) /\
  new home_host [WithDevelopmentConfig; WithDefaultKV "/root/.zanzi"] (restart (fst (call E0 i (create "p") w1))) = (w3, Some i') /\
  snd (call E0 i' (QGetPolicy "p") w3) = Some (Ok (APolicy (Some rec))).
Proof. do 5 eexists. split; [reflexivity |]. split; vm_compute; reflexivity. Qed.

(** Two instances in memory, with calls to both. *)
Example C78_example :
  exists w1 i1 w2 i2 a b, new home_host [] no_world = (w1, Some i1) /\ new home_host [WithDevelopmentConfig] w1 = (w2, Some i2) /\
  snd (calls E0 [(i1, QGetPolicy "p"); (i1, create "p"); (i2, QGetPolicy "p"); (i1, QGetPolicy "p")] w2) =
    [Some (Ok (APolicy None)); a; Some (Ok (APolicy None)); Some (Ok (APolicy (Some b)))].
Proof. do 6 eexists. split; [reflexivity |]. split; [reflexivity |]. vm_compute. reflexivity. Qed.

Print Assumptions C78_isolated.
Print Assumptions C78_own_store.
Print Assumptions C78_memory_refuted.
Print Assumptions C79_durable_partial.
Print Assumptions C79_durable_refuted.
Print Assumptions C80_succeeds.
Print Assumptions C80_keeps_partial.
Print Assumptions C80_retry_refuted.
