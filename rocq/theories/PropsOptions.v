(** C88: New builds what its options ask for. *)
From Verif Require Import Base Domain Lexer Parser Validate Store Search Explain Yaml Service Dump Api Config
  SpecConfig SpecOptions Fixtures BaseFacts ConfigFacts.

(** ** Proofs *)

Lemma silent_keeps H os : forall d w w' d', (forall o l, In o os -> ~ asks_logger o l) -> apply_opts H os d w = (w', Some d') -> d_logger d' = d_logger d.
Proof.
  induction os as [| o os IH]; intros d w w' d' Hn; cbn [apply_opts]; [intros [= <- <-]; reflexivity |].
  destruct (apply_opt H o d w) as [w1 [d1 |]] eqn:Ho; [| discriminate]. intros Hr.
  rewrite (IH d1 w1 w' d'); [| intros o' l' Hin; apply Hn; right; exact Hin | exact Hr].
  assert (Hs : forall l, ~ asks_logger o l) by (intros l; apply Hn; left; reflexivity). destruct o; cbn [apply_opt] in Ho.
  - injection Ho as <- <-. reflexivity.
  - contradiction (Hs LDevelopment). constructor.
  - destruct (expand_home H path) as [dir |]; [| discriminate]. destruct (open_dir H dir w) as [[k w2] |]; [| discriminate]. injection Ho as <- <-. reflexivity.
  - destruct l as [l |]; [contradiction (Hs l) | contradiction (Hs LDefault)]; constructor.
  - contradiction (Hs LDefault). constructor.
  - contradiction (Hs LDevelopment). constructor.
  - contradiction (Hs LNoop). constructor.
Qed.

Lemma asked H o l d w w' d' : asks_logger o l -> apply_opt H o d w = (w', Some d') -> match d_logger d' with Some x => x | None => LDefault end = l.
Proof.
  destruct 1; cbn [apply_opt].
  - intros [= _ <-]. reflexivity.
  - intros [= _ <-]. reflexivity.
  - intros [= _ <-]. reflexivity.
  - destruct (h_zap H); [intros [= _ <-]; reflexivity | discriminate].
  - destruct (new_mem w). destruct (h_zap H); [intros [= _ <-]; reflexivity | discriminate].
  - intros [= _ <-]. reflexivity.
Qed.

(** ** C88 *)

(** The last option that asks for a logger decides; without one it is the default logger. *)
Theorem C88_logger : forall H os w w' i, new H os w = (w', Some i) ->
  (forall l, last_logger os l -> i_logger i = l) /\
  ((forall o l, In o os -> ~ asks_logger o l) -> i_logger i = LDefault).
Proof.
  intros H os w w' i. unfold new. destruct (apply_opts H os (mkDraft None None) w) as [w1 [d |]] eqn:Hr; [| discriminate].
  intros Hi. assert (Hl : i_logger i = match d_logger d with Some x => x | None => LDefault end).
  { unfold set_defaults in Hi. destruct (d_store d); [injection Hi as _ <-; reflexivity |]. destruct (new_mem w1). injection Hi as _ <-. reflexivity. }
  rewrite Hl. split.
  - intros l (before & o & later & -> & Ho & Hlater). rewrite apply_opts_app in Hr.
    destruct (apply_opts H before (mkDraft None None) w) as [w2 [d2 |]]; [| discriminate]. cbn [apply_opts] in Hr.
    destruct (apply_opt H o d2 w2) as [w3 [d3 |]] eqn:Hx; [| discriminate].
    rewrite (silent_keeps H later d3 w3 w1 d); [| intros o' l'; apply Hlater | exact Hr]. eapply asked; eassumption.
  - intros Hs. rewrite (silent_keeps H os (mkDraft None None) w w1 d); auto.
Qed.
Print Assumptions C88_logger.

(** The last option that asks for a store decides: a given store is used, and a directory's store is the one that the
    directory holds from then on. *)
Theorem C88_store : forall H os w w' i, new H os w = (w', Some i) ->
  (forall k, last_choice os (WithKV k) -> i_store i = k) /\
  (forall path dir, last_choice os (WithDefaultKV path) -> names_dir H path dir -> dir_store dir (w_dirs w') = Some (i_store i) /\ In dir (w_open w')) /\
  (last_choice os WithDevelopmentConfig -> length (w_stores w) <= i_store i /\ nth_error (w_stores w') (i_store i) = Some empty_store).
Proof.
  intros H os w w' i Hn. split; [| split].
  - intros k Hk. destruct (new_choice _ _ _ _ _ _ Hn Hk) as (d0 & w0 & d1 & _ & Ha & Hs). cbn in Ha. injection Ha as _ <-. cbn in Hs. congruence.
  - intros path dir Hp Hd. destruct (new_choice _ _ _ _ _ _ Hn Hp) as (d0 & w0 & d1 & _ & Ha & Hs). cbn in Ha.
    apply expand_names in Hd. rewrite Hd in Ha. unfold open_dir in Ha. destruct (negb (h_usable H dir)); [discriminate |].
    destruct (existsb (String.eqb dir) (w_open w0)); [discriminate |].
    destruct (dir_store dir (w_dirs w0)) as [k |] eqn:Hk.
    + injection Ha as <- <-. cbn in Hs |- *. injection Hs as <-. auto.
    + injection Ha as <- <-. cbn in Hs |- *. injection Hs as <-. rewrite String.eqb_refl. auto.
  - intros Hp. destruct (new_choice _ _ _ _ _ _ Hn Hp) as (d0 & w0 & d1 & [(l & Hl & _) _] & Ha & Hs). cbn in Ha.
    destruct (h_zap H); [| discriminate]. injection Ha as <- <-. cbn in *. injection Hs as <-.
    split; [rewrite Hl, app_length; lia |]. rewrite nth_error_app2, Nat.sub_diag by lia. reflexivity.
Qed.
Print Assumptions C88_store.

(** zanzi.go:27-30 says that New without options stores its data in a directory. It opens none, on every host: its store is
    a new one in memory, and a restart empties it. *)
Theorem C88_default_refuted : forall H w w' i, new H [] w = (w', Some i) ->
  w_dirs w' = w_dirs w /\ w_open w' = w_open w /\ i_store i = length (w_stores w) /\
  nth_error (w_stores w') (i_store i) = Some empty_store.
Proof.
  intros H w w' i Hn. apply new_no_choice in Hn as [Hs ->]; [| intros o []]. rewrite Hs. cbn. rewrite nth_error_app2, Nat.sub_diag by lia. auto.
Qed.
Print Assumptions C88_default_refuted.

(** Options of both kinds, mixed: the directory is chosen last, and WithLogger(nil) asks for the default logger. *)
Example C88_example : forall H, h_usable H "/d" = true ->
  snd (new H [WithoutLogger; WithKV 7; WithDefaultKV "/d"; WithLogger None] no_world) = Some (mkInstance 0 LDefault) /\
  snd (new H [WithDefaultKV "/d"; WithLogger (Some (LGiven 3)); WithKV 7] no_world) = Some (mkInstance 7 (LGiven 3)) /\
  snd (new H [WithDefaultKV "/d"; WithDefaultKV "/d"] no_world) = None /\
  last_logger [WithoutLogger; WithKV 7; WithDefaultKV "/d"; WithLogger None] LDefault /\
  last_choice [WithoutLogger; WithKV 7; WithDefaultKV "/d"; WithLogger None] (WithDefaultKV "/d").
Proof.
  intros H Hu. unfold new, apply_opts, apply_opt, expand_home, open_dir. rewrite Hu. cbn. repeat split.
  - exists [WithoutLogger; WithKV 7; WithDefaultKV "/d"], (WithLogger None), []. repeat split; [constructor | intros o' l' []].
  - exists [WithoutLogger; WithKV 7], [WithLogger None]. repeat split; [constructor |]. intros o' [<- | []]. inversion 1.
Qed.
