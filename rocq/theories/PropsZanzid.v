(** Properties of zanzid: C121 and C122. *)
From Verif Require Import Base Domain Lexer Parser Validate Store Search Explain Yaml Service Dump Api Config Zanzid
  SpecConfig SpecZanzid Fixtures BaseFacts StoreFacts ConfigFacts.

(** ** Facts *)

Lemma set_flags_known args : forall a d,
  set_flags args a d = if forallb known args then Some (value_of "address" a args, value_of "data_dir" d args) else None.
Proof.
  induction args as [| [n v | | w] args IH]; intros a d; [reflexivity | | reflexivity | apply IH].
  cbn [set_flags forallb known]. unfold value_of. cbn [fold_left].
  destruct (String.eqb_spec n "address") as [-> | Ha]; [cbn; apply IH |].
  destruct (String.eqb_spec n "data_dir") as [-> | Hd]; [cbn; apply IH | reflexivity].
Qed.

Lemma substring_all s : forall n, (String.length s <= n)%nat -> substring 0 n s = s.
Proof. induction s as [| c s IH]; intros [| n] Hn; cbn in *; try reflexivity; [lia |]. rewrite IH by lia. reflexivity. Qed.

Lemma home_expand H path : home_path H path = expand_home H path.
Proof.
  unfold home_path, expand_home. destruct path as [| c s]; [reflexivity |].
  destruct (Ascii.eqb_spec c "~") as [-> | Hc].
  - cbn -[substring]. destruct s as [| c s].
    + cbn. destruct (h_home H); reflexivity.
    + cbn [substring String.length]. rewrite substring_all by (cbn; lia). destruct (h_home H); reflexivity.
  - assert (Hp : String.prefix "~" (String c s) = false).
    { cbn [String.prefix]. destruct (Ascii.ascii_dec "~" c) as [He | _]; [contradiction (Hc (eq_sym He)) | reflexivity]. }
    rewrite Hp. destruct c as [[] [] [] [] [] [] [] []]; try reflexivity. contradiction Hc. reflexivity.
Qed.

Lemma is_in_iff d l : is_in d l = true <-> In d l.
Proof.
  unfold is_in. rewrite existsb_exists. split.
  - intros (x & Hx & He). apply String.eqb_eq in He. subst. exact Hx.
  - intros Hd. exists d. split; [exact Hd | apply String.eqb_refl].
Qed.

(** What new does for zanzid. *)
Lemma new_zanzid H data w : new H [WithDefaultLogger; WithDefaultKV data] w =
  match home_path H data with
  | None => (w, None)
  | Some dir => match open_dir H dir w with None => (w, None) | Some (k, w1) => (w1, Some (mkInstance k LDefault)) end
  end.
Proof. rewrite home_expand. unfold new. cbn. destruct (expand_home H data) as [dir |]; [| reflexivity]. destruct (open_dir H dir w) as [[k w1] |]; reflexivity. Qed.

Lemma close_none w dirs : opened w w = dirs -> close dirs w = w.
Proof.
  intros <-. destruct w as [ss ds os]. unfold close, opened. cbn [w_open w_stores w_dirs]. f_equal.
  assert (Hf : filter (fun d => negb (is_in d os)) os = []).
  { assert (Hg : forall l, (forall d, In d l -> In d os) -> filter (fun d => negb (is_in d os)) l = []).
    { induction l as [| d l IH]; intros Hl; [reflexivity |]. cbn. rewrite (proj2 (is_in_iff d os)) by (apply Hl; left; reflexivity). cbn.
      apply IH. intros x Hx. apply Hl. right. exact Hx. }
    apply Hg. auto. }
  rewrite Hf. clear. induction os as [| d l IH]; [reflexivity |]. cbn. f_equal. exact IH.
Qed.

(** The machine does what the books say. *)
Definition same_process (w : world) (x : nat * process) (y : nat * (string * string)) : Prop :=
  fst x = fst y /\ p_dirs (snd x) = [fst (snd y)] /\ p_socket (snd x) = snd (snd y) /\ dir_store (fst (snd y)) (w_dirs w) = Some (i_store (p_zanzi (snd x))).

Record agrees (E : env) (m : machine) (b : books) : Prop := mkAgrees {
  ag_up : Forall2 (same_process (m_world m)) (m_up m) (b_up b);
  ag_open : forall d, In d (w_open (m_world m)) <-> In d (map (fun y => fst (snd y)) (b_up b));
  ag_pids : NoDup (map fst (b_up b));
  ag_once : NoDup (map (fun y => fst (snd y)) (b_up b));
  ag_data : forall d k, dir_store d (w_dirs (m_world m)) = Some k -> nth_error (w_stores (m_world m)) k = Some (replay E (served_on d (b_served b)));
  ag_new : forall d, dir_store d (w_dirs (m_world m)) = None -> served_on d (b_served b) = [];
  ag_inj : forall d d' k, dir_store d (w_dirs (m_world m)) = Some k -> dir_store d' (w_dirs (m_world m)) = Some k -> d = d' }.

Lemma find_same w l l' pid : Forall2 (same_process w) l l' ->
  match find_up pid l, find_up pid l' with
  | Some p, Some y => same_process w (pid, p) (pid, y)
  | None, None => True
  | _, _ => False
  end.
Proof.
  induction 1 as [| [n p] [n' y] l l' Hx Hl IH]; [exact I |]. cbn [find_up]. destruct Hx as (Hn & Hr). cbn in Hn. subst n'.
  destruct (Nat.eqb_spec n pid) as [-> | Hne]; [split; [reflexivity | exact Hr] | exact IH].
Qed.

Lemma find_exists {A} pid (l : list (nat * A)) : existsb (fun x => Nat.eqb (fst x) pid) l = match find_up pid l with Some _ => true | None => false end.
Proof. induction l as [| [n a] l IH]; [reflexivity |]. cbn. destruct (Nat.eqb n pid); [reflexivity | exact IH]. Qed.

Lemma sockets_same w l l' s : Forall2 (same_process w) l l' ->
  existsb (fun x => String.eqb (p_socket (snd x)) s) l = existsb (fun x => String.eqb (snd (snd x)) s) l'.
Proof. induction 1 as [| x y l l' Hx Hl IH]; [reflexivity |]. cbn. destruct Hx as (_ & _ & -> & _). rewrite IH. reflexivity. Qed.

Lemma Forall2_remove w l l' pid : Forall2 (same_process w) l l' -> Forall2 (same_process w) (remove_up pid l) (remove_up pid l').
Proof.
  induction 1 as [| [n p] [n' y] l l' Hx Hl IH]; [constructor |]. cbn [remove_up]. pose proof (proj1 Hx) as Hn. cbn in Hn. subst n'.
  destruct (Nat.eqb n pid); [exact Hl | constructor; assumption].
Qed.

Lemma same_process_world w w' l l' : (forall d k, dir_store d (w_dirs w) = Some k -> dir_store d (w_dirs w') = Some k) ->
  Forall2 (same_process w) l l' -> Forall2 (same_process w') l l'.
Proof. intros Hd. induction 1 as [| x y l l' (H1 & H2 & H3 & H4) Hl IH]; constructor; [| exact IH]. repeat split; auto. Qed.

Lemma remove_dirs pid (l : list (nat * (string * string))) dir s : find_up pid l = Some (dir, s) -> NoDup (map (fun y => fst (snd y)) l) ->
  NoDup (map (fun y => fst (snd y)) (remove_up pid l)) /\
  forall d, In d (map (fun y => fst (snd y)) (remove_up pid l)) <-> In d (map (fun y => fst (snd y)) l) /\ d <> dir.
Proof.
  induction l as [| [n [d0 s0]] l IH]; [discriminate |]. cbn [find_up remove_up map fst snd]. intros Hf Hn. apply NoDup_cons_iff in Hn as [Hni Hn].
  destruct (Nat.eqb n pid).
  - injection Hf as -> ->. split; [exact Hn |]. intros d. cbn. split.
    + intros Hd. split; [right; exact Hd | intros ->; exact (Hni Hd)].
    + intros [[-> | Hd] Hne]; [contradiction Hne; reflexivity | exact Hd].
  - destruct (IH Hf Hn) as [H1 H2]. assert (Hdir : In dir (map (fun y => fst (snd y)) l)).
    { clear -Hf. induction l as [| [n [d1 s1]] l IH]; [discriminate |]. cbn in *. destruct (Nat.eqb n pid); [injection Hf as -> _; left; reflexivity | right; auto]. }
    split.
    + cbn. apply NoDup_cons_iff. split; [| exact H1]. intros Hd. apply H2 in Hd as [Hd _]. exact (Hni Hd).
    + intros d. cbn. rewrite H2. split; [| tauto]. intros [-> | [Hd Hne]]; [| tauto]. split; [left; reflexivity |]. intros ->. exact (Hni Hdir).
Qed.

Lemma find_find {A} pid (l : list (nat * A)) : find (fun x => Nat.eqb (fst x) pid) l = option_map (pair pid) (find_up pid l).
Proof. induction l as [| [n a] l IH]; [reflexivity |]. cbn. destruct (Nat.eqb_spec n pid) as [-> |]; [reflexivity | exact IH]. Qed.

Lemma remove_filter {A} pid (l : list (nat * A)) : NoDup (map fst l) -> filter (fun x => negb (Nat.eqb (fst x) pid)) l = remove_up pid l.
Proof.
  induction l as [| [n a] l IH]; intros Hn; [reflexivity |]. cbn in *. apply NoDup_cons_iff in Hn as [Hni Hn].
  destruct (Nat.eqb_spec n pid) as [-> | Hne]; cbn; [| f_equal; apply IH; exact Hn].
  clear -Hni. induction l as [| [n b] l IH]; [reflexivity |]. cbn in *. destruct (Nat.eqb_spec n pid) as [-> | _]; [tauto |]. cbn. f_equal. apply IH. tauto.
Qed.

Lemma remove_pids {A} pid (l : list (nat * A)) : NoDup (map fst l) -> NoDup (map fst (remove_up pid l)).
Proof.
  intros Hn. rewrite <- remove_filter by exact Hn. induction l as [| [n a] l IH]; [constructor |]. cbn in *. apply NoDup_cons_iff in Hn as [Hni Hn].
  destruct (Nat.eqb n pid); cbn; [apply IH; exact Hn |]. constructor; [| apply IH; exact Hn].
  intros Hi. apply Hni. apply in_map_iff in Hi as (x & <- & Hx). apply filter_In in Hx as [Hx _]. apply in_map. exact Hx.
Qed.

Lemma find_none {A} pid (l : list (nat * A)) : find_up pid l = None -> ~ In pid (map fst l).
Proof.
  induction l as [| [n a] l IH]; intros Hf; [tauto |]. cbn in *. destruct (Nat.eqb_spec n pid) as [-> | Hne]; [discriminate |]. intros [He | Hi]; [congruence | exact (IH Hf Hi)].
Qed.

Lemma replay_snoc E l x : replay E (l ++ [x]) = redo E (replay E l) x.
Proof. unfold replay. rewrite fold_left_app. reflexivity. Qed.

Lemma served_snoc d dir q l : served_on d (l ++ [(dir, q)]) = if String.eqb dir d then served_on d l ++ [q] else served_on d l.
Proof. unfold served_on. rewrite filter_app, map_app. cbn. destruct (String.eqb dir d); [reflexivity | apply app_nil_r]. Qed.

(** Opening a directory that can be opened. *)
Lemma open_zanzid E H dir m b : agrees E m b ->
  match open_dir H dir (m_world m) with
  | None => h_usable H dir && negb (existsb (fun x => String.eqb (fst (snd x)) dir) (b_up b)) = false
  | Some (k, w1) =>
      h_usable H dir && negb (existsb (fun x => String.eqb (fst (snd x)) dir) (b_up b)) = true /\ opened (m_world m) w1 = [dir] /\
      agrees E (mkMachine (close [dir] w1) (m_up m)) b /\
      forall pid socket, find_up pid (b_up b) = None -> agrees E (mkMachine w1 ((pid, mkProcess [dir] socket (mkInstance k LDefault)) :: m_up m)) (mkBooks ((pid, (dir, socket)) :: b_up b) (b_served b))
  end.
Proof.
  intros [Hup Hopen Hpids Honce Hdata Hnew Hinj]. unfold open_dir. destruct (h_usable H dir); [| reflexivity]. cbn [negb andb].
  assert (Hin : existsb (String.eqb dir) (w_open (m_world m)) = existsb (fun x => String.eqb (fst (snd x)) dir) (b_up b)).
  { apply eq_true_iff_eq. change (is_in dir (w_open (m_world m)) = true <-> existsb (fun x => String.eqb (fst (snd x)) dir) (b_up b) = true).
    rewrite is_in_iff, Hopen, in_map_iff, existsb_exists. split.
    - intros (x & He & Hx). exists x. split; [exact Hx | apply String.eqb_eq; exact He].
    - intros (x & Hx & He). exists x. split; [apply String.eqb_eq; exact He | exact Hx]. }
  rewrite Hin. destruct (existsb (fun x => String.eqb (fst (snd x)) dir) (b_up b)) eqn:Hb; [reflexivity |].
  assert (Hno : ~ In dir (w_open (m_world m))) by (intros Hd; apply is_in_iff in Hd; unfold is_in in Hd; congruence).
  assert (Hopd : forall ss ds, opened (m_world m) (mkWorld ss ds (dir :: w_open (m_world m))) = [dir]).
  { intros ss ds. unfold opened. cbn [w_open filter]. destruct (is_in dir (w_open (m_world m))) eqn:Hi; [apply is_in_iff in Hi; contradiction |]. cbn. f_equal.
    pose proof (close_none (m_world m) _ eq_refl) as _. clear.
    assert (Hg : forall l, (forall d, In d l -> In d (w_open (m_world m))) -> filter (fun d => negb (is_in d (w_open (m_world m)))) l = []).
    { induction l as [| d l IH]; intros Hl; [reflexivity |]. cbn. rewrite (proj2 (is_in_iff d _)) by (apply Hl; left; reflexivity). cbn.
      apply IH. intros x Hx. apply Hl. right. exact Hx. }
    apply Hg. auto. }
  assert (Hcl : forall ss ds d, In d (w_open (close [dir] (mkWorld ss ds (dir :: w_open (m_world m))))) <-> In d (map (fun y => fst (snd y)) (b_up b))).
  { intros ss ds d. unfold close. cbn [w_open]. rewrite filter_In, <- Hopen. cbn [is_in existsb]. rewrite orb_false_r. split.
    - intros [[<- | Hd] Hne]; [rewrite String.eqb_refl in Hne; discriminate | exact Hd].
    - intros Hd. split; [right; exact Hd |]. destruct (String.eqb_spec d dir) as [-> | _]; [contradiction | reflexivity]. }
  assert (Hop2 : forall d, In d (dir :: w_open (m_world m)) <-> In d (dir :: map (fun y => fst (snd y)) (b_up b))).
  { intros d. cbn. rewrite Hopen. tauto. }
  assert (Hon2 : NoDup (dir :: map (fun y => fst (snd y)) (b_up b))).
  { constructor; [rewrite <- Hopen; exact Hno | exact Honce]. }
  destruct (dir_store dir (w_dirs (m_world m))) as [k |] eqn:Hk.
  - split; [reflexivity |]. split; [apply Hopd |]. split.
    + constructor; try assumption. intros d. apply Hcl.
    + intros pid socket Hpid. constructor; try assumption; [| constructor; [apply find_none; exact Hpid | exact Hpids]]. constructor; [repeat split; exact Hk | exact Hup].
  - cbn [new_mem w_stores w_dirs w_open fst snd]. split; [reflexivity |]. split; [apply Hopd |].
    set (n := length (w_stores (m_world m))).
    assert (Hlt : forall d k, dir_store d (w_dirs (m_world m)) = Some k -> (k < n)%nat).
    { intros d k Hd. apply Hdata in Hd. apply nth_error_Some. congruence. }
    assert (Hds : forall d, dir_store d ((dir, n) :: w_dirs (m_world m)) = if String.eqb dir d then Some n else dir_store d (w_dirs (m_world m))) by reflexivity.
    assert (Hold : forall d k, dir_store d (w_dirs (m_world m)) = Some k -> dir_store d ((dir, n) :: w_dirs (m_world m)) = Some k).
    { intros d k Hd. rewrite Hds. destruct (String.eqb_spec dir d) as [<- | _]; [congruence | exact Hd]. }
    assert (D : forall d k, dir_store d ((dir, n) :: w_dirs (m_world m)) = Some k ->
      nth_error (w_stores (m_world m) ++ [empty_store]) k = Some (replay E (served_on d (b_served b)))).
    { intros d k Hd. rewrite Hds in Hd. destruct (String.eqb_spec dir d) as [<- | _].
      - injection Hd as <-. rewrite (Hnew _ Hk), nth_error_app2, Nat.sub_diag by (unfold n; lia). reflexivity.
      - rewrite nth_error_app1 by (exact (Hlt _ _ Hd)). apply Hdata. exact Hd. }
    assert (D0 : forall d, dir_store d ((dir, n) :: w_dirs (m_world m)) = None -> served_on d (b_served b) = []).
    { intros d Hd. rewrite Hds in Hd. destruct (String.eqb dir d); [discriminate | apply Hnew; exact Hd]. }
    assert (DI : forall d d' k, dir_store d ((dir, n) :: w_dirs (m_world m)) = Some k -> dir_store d' ((dir, n) :: w_dirs (m_world m)) = Some k -> d = d').
    { intros d d' k Hd Hd'. rewrite Hds in Hd, Hd'. destruct (String.eqb_spec dir d) as [<- | _], (String.eqb_spec dir d') as [<- | _]; try reflexivity.
      - injection Hd as <-. apply Hlt in Hd'. lia.
      - injection Hd' as <-. apply Hlt in Hd. lia.
      - eapply Hinj; eassumption. }
    split.
    + constructor; try assumption; [| intros d; apply Hcl]. eapply same_process_world; [| exact Hup]. exact Hold.
    + intros pid socket Hpid. constructor; try assumption; [| constructor; [apply find_none; exact Hpid | exact Hpids]]. constructor; [repeat split; cbn; rewrite String.eqb_refl; reflexivity |].
      eapply same_process_world; [| exact Hup]. exact Hold.
Qed.

(** Work on a directory. *)
Lemma work_agrees E m b dir k x : agrees E m b -> dir_store dir (w_dirs (m_world m)) = Some k ->
  agrees E (mkMachine (mkWorld (replace k (redo E (replay E (served_on dir (b_served b))) x) (w_stores (m_world m))) (w_dirs (m_world m)) (w_open (m_world m))) (m_up m))
    (mkBooks (b_up b) (b_served b ++ [(dir, x)])).
Proof.
  intros A Hd. pose proof (ag_data _ _ _ A _ _ Hd) as Hn. destruct A as [Hup Hopen Hpids Honce Hdata Hnew Hinj].
  constructor; try assumption; cbn [m_world w_dirs w_stores b_served].
  - intros d k' Hk. rewrite served_snoc. destruct (String.eqb_spec dir d) as [<- | Hne].
    + rewrite Hd in Hk. injection Hk as <-. rewrite replay_snoc. eapply nth_replace_same. exact Hn.
    + rewrite nth_replace_other; [apply Hdata; exact Hk |]. intros He. rewrite He in Hd. apply Hne. eapply Hinj; eassumption.
  - intros d Hk. rewrite served_snoc. destruct (String.eqb_spec dir d) as [<- | Hne]; [congruence | apply Hnew; exact Hk].
Qed.

(** The end of a process. *)
Lemma end_agrees E m b pid dir s : agrees E m b -> find_up pid (b_up b) = Some (dir, s) ->
  agrees E (mkMachine (close [dir] (m_world m)) (remove_up pid (m_up m))) (mkBooks (filter (fun x => negb (Nat.eqb (fst x) pid)) (b_up b)) (b_served b)).
Proof.
  intros A Hb. rewrite remove_filter by exact (ag_pids _ _ _ A).
  destruct A as [Hup Hopen Hpids Honce Hdata Hnew Hinj]. destruct (remove_dirs _ _ _ _ Hb Honce) as [H1 H2].
  constructor; try assumption; try (apply remove_pids; assumption); cbn [m_world m_up b_up].
  - apply Forall2_remove. exact Hup.
  - intros d. unfold close. cbn [w_open]. rewrite H2, <- Hopen, filter_In. cbn [is_in existsb]. rewrite orb_false_r.
    destruct (String.eqb_spec d dir) as [-> | Hne]; cbn; intuition congruence.
Qed.

Lemma happen_agrees E H bind e m b : agrees E m b ->
  agrees E (fst (happen H bind E e m)) (fst (ideal_happen H bind E e b)) /\ snd (happen H bind E e m) = snd (ideal_happen H bind E e b).
Proof.
  intros A. destruct e as [pid args | pid q | pid | pid qs sched]; cbn [happen ideal_happen]; pose proof (find_same _ _ _ pid (ag_up _ _ _ A)) as Hf.
  - unfold start, ideal_start. rewrite find_exists. destruct (find_up pid (m_up m)), (find_up pid (b_up b)) eqn:Hpid; try contradiction; [split; [exact A | reflexivity] |].
    unfold flags. rewrite set_flags_known. destruct (forallb known args); cbn [negb]; [| split; [exact A | reflexivity]].
    set (data := value_of "data_dir" _ args). set (address := value_of "address" _ args). rewrite new_zanzid.
    assert (Hsame : agrees E (mkMachine (close (opened (m_world m) (m_world m)) (m_world m)) (m_up m)) b).
    { rewrite (close_none _ _ eq_refl). destruct m. exact A. }
    destruct (home_path H data) as [dir |]; [| split; [exact Hsame | reflexivity]].
    pose proof (open_zanzid E H dir m b A) as Ho. destruct (open_dir H dir (m_world m)) as [[k w1] |].
    + destruct Ho as (Ho & -> & Hc & Hs). destruct (bind address) as [socket |]; [| split; [exact Hc | reflexivity]].
      rewrite Ho, (sockets_same _ _ _ socket (ag_up _ _ _ A)). cbn [andb].
      destruct (existsb (fun x => String.eqb (snd (snd x)) socket) (b_up b)); [split; [exact Hc | reflexivity] |]. split; [apply Hs; exact Hpid | reflexivity].
    + destruct (bind address) as [socket |]; [| split; [exact Hsame | reflexivity]]. rewrite Ho. split; [exact Hsame | reflexivity].
  - rewrite find_find. destruct (find_up pid (m_up m)) as [p |], (find_up pid (b_up b)) as [[dir s] |]; try contradiction; [| split; [exact A | reflexivity]].
    destruct Hf as (_ & _ & _ & Hd). cbn in Hd. pose proof (ag_data _ _ _ A _ _ Hd) as Hn. unfold call. rewrite Hn. cbn [fst snd option_map].
    split; [| reflexivity]. exact (work_agrees E m b dir _ (Whole q) A Hd).
  - rewrite find_find. destruct (find_up pid (m_up m)) as [p |], (find_up pid (b_up b)) as [[dir s] |] eqn:Hb; try contradiction; [| split; [exact A | reflexivity]].
    split; [| reflexivity]. destruct Hf as (_ & Hdirs & _). cbn in Hdirs. cbn [fst option_map]. rewrite Hdirs. eapply end_agrees; eassumption.
  - rewrite find_find. destruct (find_up pid (m_up m)) as [p |], (find_up pid (b_up b)) as [[dir s] |] eqn:Hb; try contradiction; [| split; [exact A | reflexivity]].
    destruct Hf as (_ & Hdirs & _ & Hd). cbn in Hdirs, Hd. pose proof (ag_data _ _ _ A _ _ Hd) as Hn. unfold call_cut. rewrite Hn, Hdirs. cbn [fst snd option_map].
    split; [| reflexivity]. exact (end_agrees E _ _ pid dir s (work_agrees E m b dir _ (Cut qs sched) A Hd) Hb).
Qed.

Lemma off_agrees E : agrees E off (mkBooks [] []).
Proof. constructor; cbn; try discriminate; try constructor; try tauto. Qed.

(** ** C121 *)

(** Whatever is started, asked, stopped and killed, each request is answered from exactly the requests that daemons on the same directory served
    before (of requests that were cut short: the operations that were done), and a start succeeds exactly when its flags are known, its directory is usable and in no other daemon's hands, and its address is free. *)
Theorem C121_durable : forall H bind E es, observe H bind E es off = ideal H bind E es (mkBooks [] []).
Proof.
  intros H bind E es. pose proof (off_agrees E) as A. revert A. generalize (mkBooks [] []). generalize off.
  induction es as [| e es IH]; intros m b A; [reflexivity |]. cbn [observe ideal].
  destruct (happen_agrees E H bind e m b A) as [A1 Ho]. destruct (happen H bind E e m) as [m1 o], (ideal_happen H bind E e b) as [b1 o'].
  cbn in *. subst o'. f_equal. apply IH. exact A1.
Qed.

Lemma then_agrees H bind E es : exists b, agrees E (then_ H bind E es) b.
Proof.
  unfold then_. pose proof (off_agrees E) as A. revert A. generalize (mkBooks [] []). generalize off.
  induction es as [| e es IH]; intros m b A; [exists b; exact A |]. cbn. eapply IH. apply (happen_agrees E H bind e m b A).
Qed.

(** Two daemons never work on the same directory, nor on the same store, at the same time. *)
Theorem C121_exclusive : forall H bind E es n1 n2 p1 p2, nth_error (m_up (then_ H bind E es)) n1 = Some p1 -> nth_error (m_up (then_ H bind E es)) n2 = Some p2 -> n1 <> n2 ->
  (forall d, In d (p_dirs (snd p1)) -> ~ In d (p_dirs (snd p2))) /\ i_store (p_zanzi (snd p1)) <> i_store (p_zanzi (snd p2)).
Proof.
  intros H bind E es n1 n2 p1 p2 H1 H2 Hne. destruct (then_agrees H bind E es) as (b & [Hup _ _ Honce _ _ Hinj]).
  assert (Hnth : forall w l l' n x, Forall2 (same_process w) l l' -> nth_error l n = Some x -> exists y, nth_error l' n = Some y /\ same_process w x y).
  { clear. intros w l l' n x Hl. revert n. induction Hl as [| a y l l' Ha Hl IH]; intros [| n] Hx; try discriminate; [| apply IH; exact Hx].
    injection Hx as <-. exists y. split; [reflexivity | exact Ha]. }
  destruct (Hnth _ _ _ _ _ Hup H1) as (y1 & Hy1 & _ & Hd1 & _ & Hs1). destruct (Hnth _ _ _ _ _ Hup H2) as (y2 & Hy2 & _ & Hd2 & _ & Hs2).
  assert (Hdiff : fst (snd y1) <> fst (snd y2)).
  { intros He. apply Hne. rewrite NoDup_nth_error in Honce. apply Honce.
    - apply nth_error_Some. rewrite nth_error_map, Hy1. discriminate.
    - rewrite !nth_error_map, Hy1, Hy2. cbn. rewrite He. reflexivity. }
  split.
  - intros d. rewrite Hd1, Hd2. cbn. intros [<- | []] [He | []]. apply Hdiff. symmetry. exact He.
  - intros He. apply Hdiff. rewrite He in Hs1. eapply Hinj; eassumption.
Qed.

(** The data of every daemon is in a state about which the theorems on [reachable] stores speak. *)
Theorem C121_reachable : forall H bind E es pid p, In (pid, p) (m_up (then_ H bind E es)) ->
  exists s, nth_error (w_stores (m_world (then_ H bind E es))) (i_store (p_zanzi p)) = Some s /\ reachable E s.
Proof.
  intros H bind E es pid p Hp. destruct (then_agrees H bind E es) as (b & [Hup _ _ _ Hdata _ _]).
  assert (Hd : exists d, dir_store d (w_dirs (m_world (then_ H bind E es))) = Some (i_store (p_zanzi p))).
  { revert Hp. induction Hup as [| x y l l' (_ & _ & _ & Hx) Hl IH]; [intros [] |]. intros [-> | Hin]; [eexists; exact Hx | apply IH; exact Hin]. }
  destruct Hd as (d & Hd). eexists. split; [apply Hdata; exact Hd |]. generalize (served_on d (b_served b)). clear. intros l. unfold replay.
  assert (Hr : forall s, reachable E s -> reachable E (fold_left (redo E) l s)); [| apply Hr; constructor].
  induction l as [| x l IH]; intros s Hs; [exact Hs |]. cbn. apply IH. destruct x as [q | qs sched]; cbn; [apply reachable_after; exact Hs | constructor; exact Hs].
Qed.

Lemma observe_app H bind E es es' : forall m,
  observe H bind E (es ++ es') m = observe H bind E es m ++ observe H bind E es' (fold_left (fun m e => fst (happen H bind E e m)) es m).
Proof.
  induction es as [| e es IH]; intros m; [reflexivity |]. cbn. destruct (happen H bind E e m) as [m1 o]. cbn. f_equal. apply IH.
Qed.

(** A start that does not lead to a daemon changes nothing that can be seen later, although it may have made the directory. *)
Theorem C121_failed_start : forall H bind E es pid args es' out,
  snd (happen H bind E (Start pid args) (then_ H bind E es)) = out -> out <> Serving ->
  observe H bind E (es ++ Start pid args :: es') off = observe H bind E es off ++ out :: skipn (length es) (observe H bind E (es ++ es') off).
Proof.
  intros H bind E es pid args es' out Hout Hns. rewrite !observe_app. f_equal.
  assert (Hlen : forall es m, length (observe H bind E es m) = length es).
  { clear. induction es as [| e es IH]; intros m; [reflexivity |]. cbn. destruct (happen H bind E e m). cbn. f_equal. apply IH. }
  rewrite skipn_app, Hlen, Nat.sub_diag, skipn_all2 by (rewrite Hlen; lia). cbn [Datatypes.app skipn].
  fold (then_ H bind E es). destruct (then_agrees H bind E es) as (b & A). destruct (happen_agrees E H bind (Start pid args) _ b A) as [A1 Ho].
  assert (Hb : fst (ideal_happen H bind E (Start pid args) b) = b).
  { rewrite Hout in Ho. cbn [ideal_happen] in *. unfold ideal_start in *.
    repeat match goal with |- context [if ?c then _ else _] => destruct c | |- context [match ?c with Some _ => _ | None => _ end] => destruct c end; try reflexivity.
    contradiction Hns. }
  rewrite Hb in A1. cbn [observe]. destruct (happen H bind E (Start pid args) (then_ H bind E es)) as [m1 o]. cbn in *. subst o. f_equal.
  revert A A1. generalize (then_ H bind E es). clear. revert b m1. induction es' as [| e es IH]; intros b m1 m A A1; [reflexivity |]. cbn [observe].
  destruct (happen_agrees E H bind e m b A) as [B Ho]. destruct (happen_agrees E H bind e m1 b A1) as [B1 Ho1].
  destruct (happen H bind E e m) as [m' o], (happen H bind E e m1) as [m1' o1]. cbn in *. f_equal; [congruence | eapply IH; eassumption].
Qed.

(** ** C122 *)

(** Once the command line is understood, a zanzid that does not come to serve ends with status 1. *)
Theorem C122_status_partial : forall H bind E es pid args n, forallb known args = true ->
  snd (happen H bind E (Start pid args) (then_ H bind E es)) = Ended n -> n = 1%nat.
Proof.
  intros H bind E es pid args n Hk Ho. destruct (then_agrees H bind E es) as (b & A). destruct (happen_agrees E H bind (Start pid args) _ b A) as [_ H1].
  rewrite Ho in H1. cbn [ideal_happen] in H1. unfold ideal_start in H1. rewrite Hk in H1. cbn [negb] in H1.
  repeat match type of H1 with context [if ?c then _ else _] => destruct c | context [match ?c with Some _ => _ | None => _ end] => destruct c end;
    cbn in H1; congruence.
Qed.

(** A mistyped flag: nothing is served, and the status says that all went well. *)
Theorem C122_status_refuted : forall H bind E es pid value, find_up pid (m_up (then_ H bind E es)) = None ->
  snd (happen H bind E (Start pid [AFlag "data-dir" value]) (then_ H bind E es)) = Ended 0.
Proof. intros H bind E es pid value Hp. cbn [happen]. unfold start. rewrite Hp. reflexivity. Qed.

(** ** Cases *)

Definition here : host := mkHost (Some "/home/u") (fun d => negb (String.eqb d "/proc/z")) true.
Definition ports (a : string) : option string :=
  if String.eqb a "localhost:8080" then Some "127.0.0.1:8080" else if String.eqb a "127.0.0.1:8080" then Some "127.0.0.1:8080"
  else if String.eqb a ":9000" then Some ":9000" else None.

(** A second daemon needs another directory and another address; what the first stored is found by the one that comes after it. *)
Example C121_example :
  map (fun o => match o with Serving => "serving" | Ended 0 => "0" | Ended _ => "1" | Answer (Ok (APolicy None)) => "no policy" | Answer (Ok (APolicy (Some _))) => "policy"
                | Answer (Ok _) => "ok" | Answer _ => "error" | Stopped => "stopped" | Killed l => match l with [Some _] => "killed late" | [None] => "killed early" | _ => "killed" end | Nothing => "nothing" end)
    (observe here ports E0
       [Start 1 []; Request 1 (create "p"); Start 2 []; Start 2 [AFlag "address" ":9000"]; Start 2 [AFlag "data_dir" "/d"; AFlag "address" "127.0.0.1:8080"];
        Start 2 [AFlag "address" "x"; AFlag "data_dir" "/d"; AFlag "address" ":9000"]; Request 2 (QGetPolicy "p"); Start 3 [AFlag "data_dir" "/proc/z"];
        Start 3 [AHelp]; Stop 1; Request 1 (QGetPolicy "p"); Start 4 [AFlag "data_dir" "/home/u/.zanzi"; AWord "now"]; Request 4 (QGetPolicy "p");
        Kill 4 [create "q"] []; Start 5 []; Request 5 (QGetPolicy "q"); Kill 5 [create "q"] [0; 0; 0; 0; 0; 0]; Start 6 []; Request 6 (QGetPolicy "q")] off) =
  ["serving"; "ok"; "1"; "1"; "1"; "serving"; "no policy"; "1"; "0"; "stopped"; "nothing"; "serving"; "policy";
   "killed early"; "serving"; "no policy"; "killed late"; "serving"; "policy"].
Proof. vm_compute. reflexivity. Qed.

Print Assumptions C121_durable.
Print Assumptions C121_exclusive.
Print Assumptions C121_reachable.
Print Assumptions C121_failed_start.
Print Assumptions C122_status_partial.
Print Assumptions C122_status_refuted.
