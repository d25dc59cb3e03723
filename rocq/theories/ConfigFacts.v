(** Facts about building instances. *)
From Verif Require Import Base Domain Lexer Parser Validate Store Search Explain Yaml Service Dump Api Config SpecConfig BaseFacts.

Lemma nth_replace_same {A} (l : list A) i x y : nth_error l i = Some y -> nth_error (replace i x l) i = Some x.
Proof. revert i. induction l as [| z l IH]; intros [| i] H; cbn in *; try discriminate; auto. Qed.

Lemma nth_replace_other {A} (l : list A) i j x : i <> j -> nth_error (replace i x l) j = nth_error l j.
Proof. revert i j. induction l as [| z l IH]; intros [| i] [| j] H; cbn; auto; congruence. Qed.

Lemma length_replace {A} (l : list A) i x : length (replace i x l) = length l.
Proof. revert i. induction l as [| z l IH]; intros [| i]; cbn; auto. Qed.

(** ** Calls *)

Lemma call_same E i q w s : nth_error (w_stores w) (i_store i) = Some s ->
  snd (call E i q w) = Some (answer E q s) /\ nth_error (w_stores (fst (call E i q w))) (i_store i) = Some (after E q s).
Proof. intros H. unfold call. rewrite H. cbn. split; [reflexivity |]. eapply nth_replace_same. exact H. Qed.

Lemma call_other E i q w k : k <> i_store i -> nth_error (w_stores (fst (call E i q w))) k = nth_error (w_stores w) k.
Proof. intros H. unfold call. destruct (nth_error _ (i_store i)); cbn; [apply nth_replace_other; congruence | reflexivity]. Qed.

Lemma call_frame E i q w : length (w_stores (fst (call E i q w))) = length (w_stores w) /\
  w_dirs (fst (call E i q w)) = w_dirs w /\ w_open (fst (call E i q w)) = w_open w.
Proof. unfold call. destruct (nth_error _ _); cbn; rewrite ?length_replace; auto. Qed.

(** ** What options do to the world: stores are added, directories keep their stores *)

Definition grows (w w' : world) : Prop :=
  (exists l, w_stores w' = w_stores w ++ l /\ forall s, In s l -> s = empty_store) /\
  (forall dir k, dir_store dir (w_dirs w) = Some k -> dir_store dir (w_dirs w') = Some k) /\
  incl (w_open w) (w_open w').

Lemma grows_refl w : grows w w.
Proof. split; [exists []; rewrite app_nil_r; split; [reflexivity | intros s []] |]. split; [auto | apply incl_refl]. Qed.

Lemma grows_trans w1 w2 w3 : grows w1 w2 -> grows w2 w3 -> grows w1 w3.
Proof.
  intros [(l & Hl & He) [Hd Ho]] [(l' & Hl' & He') [Hd' Ho']]. split; [exists (l ++ l') | split; eauto using incl_tran].
  rewrite Hl', Hl, app_assoc. split; [reflexivity |]. intros s Hs. apply in_app_or in Hs as [Hs | Hs]; auto.
Qed.

Lemma grows_mem w : grows w (snd (new_mem w)).
Proof.
  split; [exists [empty_store]; split; [reflexivity | intros s [<- | []]; reflexivity] |]. cbn. split; [auto | apply incl_refl].
Qed.

Lemma grows_nth w w' k s : grows w w' -> nth_error (w_stores w) k = Some s -> nth_error (w_stores w') k = Some s.
Proof. intros [(l & -> & _) _] H. rewrite nth_error_app1; [exact H |]. apply nth_error_Some. congruence. Qed.

Lemma open_dir_ok H dir w k w' : open_dir H dir w = Some (k, w') ->
  h_usable H dir = true /\ ~ In dir (w_open w) /\ grows w w' /\ w_open w' = dir :: w_open w /\ dir_store dir (w_dirs w') = Some k.
Proof.
  unfold open_dir. destruct (h_usable H dir) eqn:Hu; [cbn [negb] | discriminate].
  destruct (existsb (String.eqb dir) (w_open w)) eqn:Ho; [discriminate |].
  assert (Hn : ~ In dir (w_open w)).
  { intros Hin. assert (Hex : existsb (String.eqb dir) (w_open w) = true) by (apply existsb_exists; exists dir; rewrite String.eqb_refl; auto). congruence. }
  destruct (dir_store dir (w_dirs w)) as [k' |] eqn:Hd; cbn [new_mem]; intros [= <- <-]; (split; [reflexivity | split; [exact Hn | split; [| split; [reflexivity |]]]]).
  - split; [exists []; rewrite app_nil_r; split; [reflexivity | intros s []] |]. cbn. split; [auto | intros x Hx; right; exact Hx].
  - exact Hd.
  - split; [exists [empty_store]; split; [reflexivity | intros s [<- | []]; reflexivity] |]. cbn. split; [| intros x Hx; right; exact Hx].
    intros dir' k Hk. destruct (String.eqb dir dir') eqn:He; [apply String.eqb_eq in He; congruence | exact Hk].
  - cbn. rewrite String.eqb_refl. reflexivity.
Qed.

Lemma open_dir_some H dir w : h_usable H dir = true -> ~ In dir (w_open w) -> exists k w', open_dir H dir w = Some (k, w').
Proof.
  intros Hu Hn. unfold open_dir. rewrite Hu. cbn [negb]. destruct (existsb (String.eqb dir) (w_open w)) eqn:Ho.
  - apply existsb_exists in Ho as (x & Hx & He). apply String.eqb_eq in He. subst x. contradiction.
  - destruct (dir_store dir (w_dirs w)); cbn [new_mem]; eauto.
Qed.

Lemma expand_names H path dir : expand_home H path = Some dir <-> names_dir H path dir.
Proof.
  split.
  - destruct path as [| c rest]; [intros [= <-]; constructor; discriminate |].
    destruct (ascii_dec c "~"%char) as [-> | Hc].
    + cbn. destruct (h_home H) as [home |] eqn:Hh; [intros [= <-]; constructor; exact Hh | discriminate].
    + intros Hx. assert (dir = String c rest) as ->.
      { cbn in Hx. destruct c as [[] [] [] [] [] [] [] []]; try (injection Hx as <-; reflexivity). contradiction. }
      constructor. congruence.
  - intros [home rest Hh | path' Hn]; [cbn; rewrite Hh; reflexivity |]. destruct path' as [| c rest]; [reflexivity |].
    destruct c as [[] [] [] [] [] [] [] []]; try reflexivity. contradiction (Hn rest). reflexivity.
Qed.

Lemma names_unique H path d1 d2 : names_dir H path d1 -> names_dir H path d2 -> d1 = d2.
Proof. rewrite <- !expand_names. congruence. Qed.

Lemma apply_opt_grows H o d w : grows w (fst (apply_opt H o d w)).
Proof.
  destruct o; cbn [apply_opt fst]; try apply grows_refl.
  - apply grows_mem.
  - destruct (expand_home H path) as [dir |]; [| apply grows_refl].
    destruct (open_dir H dir w) as [[k w1] |] eqn:Ho; [| apply grows_refl]. apply open_dir_ok in Ho. apply Ho.
Qed.

Lemma apply_opts_grows H os d w : grows w (fst (apply_opts H os d w)).
Proof.
  revert d w. induction os as [| o os IH]; intros d w; cbn [apply_opts]; [apply grows_refl |].
  pose proof (apply_opt_grows H o d w) as Hg. destruct (apply_opt H o d w) as [w1 [d1 |]]; cbn in *; [| exact Hg].
  eapply grows_trans; [exact Hg | apply IH].
Qed.

Lemma set_defaults_grows d w : grows w (fst (set_defaults d w)).
Proof. unfold set_defaults. destruct (d_store d); [apply grows_refl | apply grows_mem]. Qed.

Lemma new_grows H os w : grows w (fst (new H os w)).
Proof.
  unfold new. pose proof (apply_opts_grows H os (mkDraft None None) w) as Hg.
  destruct (apply_opts H os _ w) as [w1 [d |]]; cbn in *; [| exact Hg].
  pose proof (set_defaults_grows d w1) as Hg'. destruct (set_defaults d w1). cbn in *. eapply grows_trans; eauto.
Qed.

(** ** The last choice *)

Lemma apply_opts_app H os os' d w : apply_opts H (os ++ os') d w =
  match apply_opts H os d w with (w1, Some d1) => apply_opts H os' d1 w1 | (w1, None) => (w1, None) end.
Proof.
  revert d w. induction os as [| o os IH]; intros d w; cbn [apply_opts app]; [reflexivity |].
  destruct (apply_opt H o d w) as [w1 [d1 |]]; auto.
Qed.

Lemma apply_keeps H o d w w' d' : ~ chooses o -> apply_opt H o d w = (w', Some d') -> d_store d' = d_store d /\ w' = w.
Proof.
  intros Hn. destruct o; cbn [apply_opt]; try (intros [= <- <-]; auto); try (contradiction Hn; constructor).
  destruct (h_zap H); [intros [= <- <-]; auto | discriminate].
Qed.

Lemma applies_keep H os d w w' d' : (forall o, In o os -> ~ chooses o) -> apply_opts H os d w = (w', Some d') -> d_store d' = d_store d /\ w' = w.
Proof.
  revert d w. induction os as [| o os IH]; intros d w Hn; cbn [apply_opts]; [intros [= <- <-]; auto |].
  destruct (apply_opt H o d w) as [w1 [d1 |]] eqn:Ho; [| discriminate]. intros Hr.
  apply apply_keeps in Ho as [Hs ->]; [| apply Hn; left; reflexivity].
  apply IH in Hr as [Hs' ->]; [rewrite Hs'; auto | intros o' Ho'; apply Hn; right; exact Ho'].
Qed.

Lemma new_choice H os w w' i o : new H os w = (w', Some i) -> last_choice os o ->
  exists d0 w0 d1, grows w w0 /\ apply_opt H o d0 w0 = (w', Some d1) /\ d_store d1 = Some (i_store i).
Proof.
  intros Hn (before & later & -> & Hc & Hl). unfold new in Hn. rewrite apply_opts_app in Hn.
  pose proof (apply_opts_grows H before (mkDraft None None) w) as Hg.
  destruct (apply_opts H before _ w) as [w0 [d0 |]]; [| discriminate]. cbn in Hg. cbn [apply_opts] in Hn.
  destruct (apply_opt H o d0 w0) as [w1 [d1 |]] eqn:Ho; [| discriminate].
  destruct (apply_opts H later d1 w1) as [w2 [d2 |]] eqn:Hr; [| discriminate].
  apply applies_keep in Hr as [Hs ->]; [| exact Hl].
  assert (exists k, d_store d1 = Some k) as (k & Hk).
  { destruct Hc; cbn [apply_opt] in Ho.
    - injection Ho as _ <-. cbn. eauto.
    - destruct (new_mem w0) as [k w3]. destruct (h_zap H); [| discriminate]. injection Ho as _ <-. cbn. eauto.
    - destruct (expand_home H path) as [dir |]; [| discriminate]. destruct (open_dir H dir w0) as [[k w3] |]; [| discriminate]. injection Ho as _ <-. cbn. eauto. }
  unfold set_defaults in Hn. rewrite Hs, Hk in Hn. injection Hn as <- <-. exists d0, w0, d1. auto.
Qed.

Lemma new_no_choice H os w w' i : new H os w = (w', Some i) -> (forall o, In o os -> ~ chooses o) ->
  i_store i = length (w_stores w) /\ w' = snd (new_mem w).
Proof.
  intros Hn Hc. unfold new in Hn. destruct (apply_opts H os (mkDraft None None) w) as [w1 [d |]] eqn:Hr; [| discriminate].
  apply applies_keep in Hr as [Hs ->]; [| exact Hc]. cbn in Hs. unfold set_defaults in Hn. rewrite Hs in Hn. cbn in Hn. injection Hn as <- <-. auto.
Qed.

Lemma choice_dec o : chooses o \/ ~ chooses o.
Proof. destruct o; try (left; constructor); right; inversion 1. Qed.

Lemma last_choice_dec os : (exists o, last_choice os o) \/ (forall o, In o os -> ~ chooses o).
Proof.
  induction os as [| o os [(o' & before & later & -> & H) | IH]]; [right; intros o [] | left; exists o', (o :: before), later; auto |].
  destruct (choice_dec o) as [Hc | Hc]; [left; exists o, [], os; auto |]. right. intros o' [<- | Ho]; auto.
Qed.

(** ** Possible worlds *)

Definition world_ok (w : world) : Prop :=
  forall dir k, dir_store dir (w_dirs w) = Some k -> k < length (w_stores w).

Lemma mem_ok w : world_ok w -> world_ok (snd (new_mem w)).
Proof. intros H dir k Hk. cbn in *. rewrite app_length. apply H in Hk. lia. Qed.

Lemma apply_opt_ok H o d w : world_ok w -> world_ok (fst (apply_opt H o d w)).
Proof.
  intros Hw. destruct o; cbn [apply_opt fst]; try exact Hw; [apply mem_ok; exact Hw |].
  destruct (expand_home H path) as [dir |]; [| exact Hw]. unfold open_dir.
  destruct (negb (h_usable H dir)); [exact Hw |]. destruct (existsb (String.eqb dir) (w_open w)); [exact Hw |].
  destruct (dir_store dir (w_dirs w)) as [k |] eqn:Hd; cbn [new_mem fst]; [exact Hw |].
  intros dir' k. cbn. rewrite app_length. destruct (String.eqb dir dir'); [intros [= <-]; cbn; lia |]. intros Hk. apply Hw in Hk. lia.
Qed.

Lemma apply_opts_ok H os d w : world_ok w -> world_ok (fst (apply_opts H os d w)).
Proof.
  revert d w. induction os as [| o os IH]; intros d w Hw; cbn [apply_opts]; [exact Hw |].
  pose proof (apply_opt_ok H o d w Hw) as Hg. destruct (apply_opt H o d w) as [w1 [d1 |]]; cbn in *; auto.
Qed.

Lemma new_ok H os w : world_ok w -> world_ok (fst (new H os w)).
Proof.
  intros Hw. unfold new. pose proof (apply_opts_ok H os (mkDraft None None) w Hw) as Hg.
  destruct (apply_opts H os _ w) as [w1 [d |]]; cbn in *; [| exact Hg].
  unfold set_defaults. destruct (d_store d); cbn [fst]; [exact Hg | apply mem_ok; exact Hg].
Qed.

Lemma step_ok H E w w' : world_ok w -> step H E w w' -> world_ok w'.
Proof.
  intros Hw Hs. inversion Hs as [w0 | os w0 | i q w0]; subst; [apply mem_ok; exact Hw | apply new_ok; exact Hw |].
  destruct (call_frame E i q w) as (Hl & Hd & _). intros dir k. rewrite Hl, Hd. apply Hw.
Qed.

Lemma step_dirs H E w w' dir k : step H E w w' -> dir_store dir (w_dirs w) = Some k -> dir_store dir (w_dirs w') = Some k.
Proof.
  intros Hs Hd. inversion Hs as [w0 | os w0 | i q w0]; subst; [exact Hd | apply (new_grows H os w); exact Hd |]. rewrite (proj1 (proj2 (call_frame E i q w))). exact Hd.
Qed.

Lemma steps_ok H E w w' : world_ok w -> steps H E w w' -> world_ok w'.
Proof. intros Hw Hs. induction Hs; eauto using step_ok. Qed.

Lemma steps_dirs H E w w' dir k : steps H E w w' -> dir_store dir (w_dirs w) = Some k -> dir_store dir (w_dirs w') = Some k.
Proof. intros Hs. induction Hs; eauto using step_dirs. Qed.

Lemma keep_dirs_length dirs n l : length (keep_dirs dirs n l) = length l.
Proof. revert n. induction l; intros n; cbn; auto. Qed.

Lemma keep_dirs_nth dirs n l k : nth_error (keep_dirs dirs n l) k =
  match nth_error l k with
  | Some s => Some (if existsb (fun d => Nat.eqb (snd d) (n + k)) dirs then s else empty_store)
  | None => None
  end.
Proof.
  revert n k. induction l as [| s l IH]; intros n [| k]; cbn [keep_dirs nth_error]; auto; [rewrite Nat.add_0_r; reflexivity |].
  rewrite IH, Nat.add_succ_r. reflexivity.
Qed.

Lemma dir_store_in dir l k : dir_store dir l = Some k -> In (dir, k) l.
Proof.
  induction l as [| [d k'] l IH]; cbn; [discriminate |]. destruct (String.eqb d dir) eqn:He; [| auto].
  intros [= ->]. apply String.eqb_eq in He. subst d. auto.
Qed.

Lemma restart_nth w dir k : dir_store dir (w_dirs w) = Some k -> nth_error (w_stores (restart w)) k = nth_error (w_stores w) k.
Proof.
  intros Hd. cbn. rewrite keep_dirs_nth. destruct (nth_error (w_stores w) k) as [s |]; [| reflexivity].
  replace (existsb _ _) with true; [reflexivity |]. symmetry. apply existsb_exists. exists (dir, k). cbn.
  rewrite Nat.eqb_refl. split; [apply dir_store_in; exact Hd | reflexivity].
Qed.

Lemma restart_ok w : world_ok w -> world_ok (restart w).
Proof. intros Hw dir k Hk. cbn in *. rewrite keep_dirs_length. eapply Hw. exact Hk. Qed.

Lemma possible_ok H E w : possible H E w -> world_ok w.
Proof. induction 1; [intros dir k; discriminate | eapply steps_ok; eauto | apply restart_ok; auto]. Qed.

(** ** When New succeeds *)

Definition wants_zap (o : opt) : Prop := o = WithDevelopmentConfig \/ o = WithDevelopmentLogger.

Lemma apply_opts_some H os : forall d w,
  (exists w' d', apply_opts H os d w = (w', Some d')) <->
  (exists dirs, opens H os dirs /\ NoDup dirs /\ (forall dir, In dir dirs -> h_usable H dir = true /\ ~ In dir (w_open w))) /\
  (forall o, In o os -> wants_zap o -> h_zap H = true).
Proof.
  induction os as [| o os IH]; intros d w; cbn [apply_opts].
  { split; [intros _ | intros _; eauto]. split; [exists []; repeat split; [constructor | constructor | | ]; contradiction | intros o []]. }
  assert (Hplain : forall w1 d1, apply_opt H o d w = (w1, Some d1) -> w_open w1 = w_open w -> (forall path, o <> WithDefaultKV path) -> (wants_zap o -> h_zap H = true) ->
    ((exists w' d', (let (w1, o0) := apply_opt H o d w in match o0 with Some d1 => apply_opts H os d1 w1 | None => (w1, None) end) = (w', Some d')) <->
     (exists dirs, opens H (o :: os) dirs /\ NoDup dirs /\ (forall dir, In dir dirs -> h_usable H dir = true /\ ~ In dir (w_open w))) /\
     (forall o', In o' (o :: os) -> wants_zap o' -> h_zap H = true))).
  { intros w1 d1 -> Ho Hn Hz. rewrite IH, Ho. split.
    - intros [(dirs & Hd & Hrest) Hz']. split; [exists dirs; split; [apply op_skip; auto | exact Hrest] | intros o' [<- | Ho']; eauto].
    - intros [(dirs & Hd & Hrest) Hz']. split; [exists dirs; split; [| exact Hrest] | intros o' Ho'; apply Hz'; right; exact Ho'].
      inversion Hd; subst; [contradiction (Hn path); reflexivity | assumption]. }
  destruct o as [k | | path | l | | |].
  - eapply Hplain; [reflexivity | reflexivity | discriminate | intros [[=] | [=]]].
  - cbn [apply_opt] in *. destruct (new_mem w) as [k w1] eqn:Hm. destruct (h_zap H) eqn:Hz.
    + eapply Hplain; [reflexivity | injection Hm as _ <-; reflexivity | discriminate | auto].
    + split; [intros (? & ? & [=]) |]. intros [_ Hall]. assert (Hf : false = true) by (eapply Hall; [left; reflexivity | left; reflexivity]). discriminate.
  - cbn [apply_opt] in *. clear Hplain. destruct (expand_home H path) as [dir |] eqn:Hx.
    + apply expand_names in Hx. destruct (open_dir H dir w) as [[k w1] |] eqn:Ho.
      * apply open_dir_ok in Ho as (Hu & Hn & _ & Hop & _). rewrite IH, Hop. split.
        -- intros [(dirs & Hd & Hnd & Hall) Hz]. split.
           ++ exists (dir :: dirs). split; [constructor; assumption | split].
              ** constructor; [| exact Hnd]. intros Hin. apply Hall in Hin as [_ Hin]. apply Hin. left. reflexivity.
              ** intros dir' [<- | Hin]; [auto |]. apply Hall in Hin as [Hu' Hn']. split; [exact Hu' |]. intros Hi. apply Hn'. right. exact Hi.
           ++ intros o' [<- | Ho']; [intros [[=] | [=]] | eauto].
        -- intros [(dirs & Hd & Hnd & Hall) Hz]. split; [| intros o' Ho'; apply Hz; right; exact Ho'].
           inversion Hd as [| path' dir' os' dirs' Hp Hd' | o' os' dirs' Hno Hd']; subst; [| contradiction (Hno path); reflexivity].
           rewrite (names_unique _ _ _ _ Hp Hx) in *. inversion Hnd as [| ? ? Hnin Hnd']; subst. exists dirs'. split; [exact Hd' | split; [exact Hnd' |]].
           intros dir'' Hin. destruct (Hall dir'' (or_intror Hin)) as [Hu' Hn']. split; [exact Hu' |]. intros [<- | Hi]; contradiction.
      * split; [intros (? & ? & [=]) |]. intros [(dirs & Hd & Hnd & Hall) _].
        inversion Hd as [| path' dir' os' dirs' Hp Hd' | o' os' dirs' Hno Hd']; subst; [| contradiction (Hno path); reflexivity].
        rewrite (names_unique _ _ _ _ Hp Hx) in *. destruct (Hall dir (or_introl eq_refl)) as [Hu Hn].
        destruct (open_dir_some H dir w Hu Hn) as (k & w' & Hk). congruence.
    + split; [intros (? & ? & [=]) |]. intros [(dirs & Hd & _) _].
      inversion Hd as [| path' dir' os' dirs' Hp Hd' | o' os' dirs' Hno Hd']; subst; [| contradiction (Hno path); reflexivity].
      apply expand_names in Hp. congruence.
  - eapply Hplain; [reflexivity | reflexivity | discriminate | intros [[=] | [=]]].
  - eapply Hplain; [reflexivity | reflexivity | discriminate | intros [[=] | [=]]].
  - cbn [apply_opt] in *. destruct (h_zap H) eqn:Hz.
    + eapply Hplain; [reflexivity | reflexivity | discriminate | auto].
    + split; [intros (? & ? & [=]) |]. intros [_ Hall]. assert (Hf : false = true) by (eapply Hall; [left; reflexivity | right; reflexivity]). discriminate.
  - eapply Hplain; [reflexivity | reflexivity | discriminate | intros [[=] | [=]]].
Qed.
