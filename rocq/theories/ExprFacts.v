(** Consequences for relation expressions: printing, chains, white space, names. *)
From Coq Require Import Lia.
From Verif Require Import Base Domain Lexer Parser BaseFacts SpecGrammar LexerFacts ParserFacts.

(** ** First runes *)

(** [s] is empty or starts with a valid rune. *)
Definition starts_ok (s : string) : Prop :=
  s = ""%string \/ exists r s', scalar r /\ s = encode r +++ s'.

Lemma ascii_rune a s : (byte a < 128)%N -> scalar (byte a) /\ String a s = encode (byte a) +++ s.
Proof.
  intros H. split; [left; lia |]. unfold encode, chr.
  destruct (N.ltb_spec (byte a) 128); [| lia]. rewrite chr_byte. reflexivity.
Qed.

Lemma starts_ascii a s : (byte a < 128)%N -> starts_ok (String a s).
Proof. intros H. right. destruct (ascii_rune a s H) as [H1 H2]. eauto. Qed.

Lemma tokenizes_starts E s ts : tokenizes E s ts -> starts_ok s.
Proof.
  destruct 1; try (apply starts_ascii; reflexivity).
  - left. reflexivity.
  - right. eauto.
  - apply name_first in H as (r & rs & -> & Hr & _). right.
    exists r, (encode_all rs +++ s). split; [exact Hr |]. cbn [encode_all]. apply app_assoc_s.
Qed.

Lemma encode_eq r r' s s' : scalar r -> scalar r' -> encode r +++ s = encode r' +++ s' -> r = r' /\ s = s'.
Proof.
  intros H H' Heq. pose proof (peek_encode r s H) as P1. rewrite Heq, (peek_encode r' s' H') in P1.
  injection P1 as -> _ ->. auto.
Qed.

Lemma no_name_ascii E a s : (byte a < 128)%N -> is_ident_rune E (byte a) = false -> no_name_here E (String a s).
Proof.
  intros Ha Hi r s' Hr Hir Heq. destruct (ascii_rune a s Ha) as [Hsc Hs]. rewrite Hs in Heq.
  apply encode_eq in Heq as [<- _]; auto. congruence.
Qed.

Lemma no_name_empty E : no_name_here E "".
Proof.
  intros r s' Hr _ Heq. pose proof (encode_nonempty r). destruct (encode r); cbn in *; [lia | discriminate].
Qed.

Lemma no_name_rune E r s : scalar r -> is_ident_rune E r = false -> no_name_here E (encode r +++ s).
Proof.
  intros Hr Hi r' s' Hr' Hi' Heq. apply encode_eq in Heq as [<- _]; auto. congruence.
Qed.

Lemma starts_no_name E s x : starts_ok s -> no_name_here E s -> no_name_here E x -> no_name_here E (s +++ x).
Proof.
  intros [-> | (r & s' & Hr & ->)] Hs Hx; [exact Hx |]. rewrite app_assoc_s.
  apply no_name_rune; [exact Hr |]. destruct (is_ident_rune E r) eqn:Hi; [| reflexivity].
  exfalso. eapply Hs; eauto.
Qed.

(** ** Concatenation *)

(** What may follow: does not continue a name and does not turn a minus into an arrow. *)
Definition sep (E : env) (x : string) : Prop :=
  no_name_here E x /\ forall y, x <> ">" +++ y.

Lemma tokenizes_app E s ts x ts' : tokenizes E s ts -> sep E x -> tokenizes E x ts' ->
  tokenizes E (s +++ x) (ts ++ ts').
Proof.
  intros H [Hn Ha] Hx.
  induction H as [ | r s ts Hsc Hr Ht IH | s ts Ht IH | s ts Ht IH | s ts Ht IH | s ts Ht IH | s ts Ht IH
                 | s ts Hno Ht IH | s ts Ht IH | w s ts Hw Hpre Hs Ht IH]; rewrite ?app_assoc_s; cbn [app].
  - exact Hx.
  - apply tz_space; auto.
  - apply tz_open; auto.
  - apply tz_close; auto.
  - apply tz_arrow; auto.
  - apply tz_union; auto.
  - apply tz_inter; auto.
  - apply tz_diff; auto. intros y Heq. destruct s as [| c s]; [exact (Ha _ Heq) |].
    cbn in Heq. injection Heq as -> Heq. eapply Hno. reflexivity.
  - apply tz_this; auto.
  - apply tz_name; auto. apply starts_no_name; auto. eapply tokenizes_starts; eauto.
Qed.

Lemma sep_space E s : sep E (" " +++ s).
Proof. split; [apply no_name_ascii; reflexivity | intros y; discriminate]. Qed.

Lemma tokenizes_blank E s ts : tokenizes E s ts -> tokenizes E (" " +++ s) ts.
Proof. intros H. apply (tz_space E 32 s ts); [left; reflexivity | reflexivity | exact H]. Qed.

Lemma sep_white E w s : white E w -> w <> ""%string -> sep E (w +++ s).
Proof.
  intros (rs & -> & Hrs) Hne. destruct rs as [| r rs]; [elim Hne; reflexivity |].
  inversion Hrs as [| ? ? [Hsc Hr]]; subst. cbn [encode_all]. rewrite app_assoc_s. split.
  - apply no_name_rune; [exact Hsc | apply space_not_ident; exact Hr].
  - intros y Heq. destruct (ascii_rune ">"%char y) as [H1 H2]; [reflexivity |].
    cbn [String.append] in Heq. rewrite H2 in Heq. apply encode_eq in Heq as [-> _]; auto. discriminate Hr.
Qed.

Lemma tokenizes_white E w s ts : white E w -> tokenizes E s ts -> tokenizes E (w +++ s) ts.
Proof. intros (rs & -> & Hrs) H. apply tokenizes_spaces; auto. Qed.

Lemma tokenizes_det E s ts ts' : tokenizes E s ts -> tokenizes E s ts' -> ts = ts'.
Proof.
  intros H H'. apply scan_complete with (n := S (String.length s)) in H; [| lia].
  apply scan_complete with (n := S (String.length s)) in H'; [| lia].
  rewrite H in H'. injection H' as H'. apply app_inv_tail in H'. exact H'.
Qed.

(** ** Printing *)

Fixpoint tree_toks (t : tree) : list tok :=
  match t with
  | TRule RThis => [KThis]
  | TRule (RCu n) => [KIdent n]
  | TRule (RTtu a b) => [KIdent a; KArrow; KIdent b]
  | TOp l o r =>
      KOpen :: (tree_toks l ++ match o with OpUnion => KUnion | OpInter => KInter | _ => KDiff end
                  :: tree_toks r) ++ [KClose]
  | _ => []
  end.

Lemma tree_toks_term E t : writable E t -> g_term t (tree_toks t).
Proof.
  induction t as [| | r | l IHl o r IHr]; cbn [writable tree_toks]; try tauto.
  - destruct r; try constructor. tauto.
  - intros (Ho & Hl & Hr). apply gt_group. apply ge_op; auto.
    + apply ge_term. auto.
    + destruct Ho as [-> | [-> | ->]]; constructor.
Qed.

Lemma tokenizes_name E w s ts : usable_name E w -> no_name_here E s -> tokenizes E s ts ->
  tokenizes E (w +++ s) (KIdent w :: ts).
Proof. intros [H1 H2] H3 H4. apply tz_name; auto. Qed.

Lemma print_tokenizes E t : writable E t -> exists s, print_tree t = Ok s /\
  forall x ts, sep E x -> tokenizes E x ts -> tokenizes E (s +++ x) (tree_toks t ++ ts).
Proof.
  induction t as [| | r | l IHl o r IHr]; cbn [writable tree_toks print_tree]; try tauto.
  - destruct r as [| n | a b |]; intros Hw; try tauto; (eexists; split; [reflexivity |]); intros x ts [Hs1 Hs2] Hx;
      cbn [print_rule app].
    + apply tz_this. exact Hx.
    + apply tokenizes_name; auto.
    + destruct Hw as [Ha Hb]. rewrite !app_assoc_s. apply tokenizes_name; auto.
      * apply no_name_ascii; reflexivity.
      * apply tz_arrow. apply tokenizes_name; auto.
  - intros (Ho & Hl & Hr). destruct (IHl Hl) as (a & -> & Ha). destruct (IHr Hr) as (b & -> & Hb).
    cbn [bind]. eexists. split; [reflexivity |]. intros x ts Hs Hx.
    rewrite !app_assoc_s. cbn [app]. apply tz_open. repeat (rewrite <- app_assoc; cbn [app]).
    apply Ha; [apply sep_space |]. apply tokenizes_blank.
    assert (tokenizes E (" " +++ b +++ ")" +++ x) (tree_toks r ++ [KClose] ++ ts)) as Htail.
    { apply tokenizes_blank. apply Hb.
      - split; [apply no_name_ascii; reflexivity | discriminate].
      - apply tz_close. exact Hx. }
    cbn [app] in Htail.
    destruct Ho as [-> | [-> | ->]]; cbn [print_op]; constructor; auto; discriminate.
Qed.

Theorem print_parse E t : writable E t -> exists s, print_tree t = Ok s /\ parse E s = Ok t.
Proof.
  intros Hw. destruct (print_tokenizes E t Hw) as (s & Hs & Ht). exists s. split; [exact Hs |].
  apply parse_iff. exists (tree_toks t). split.
  - rewrite <- (app_nil_r_s s), <- (app_nil_r (tree_toks t)). apply Ht; [| constructor].
    split; [apply no_name_empty | discriminate].
  - apply ge_term. eapply tree_toks_term; eauto.
Qed.

Lemma tokenizes_usable E s ts : tokenizes E s ts -> forall w, In (KIdent w) ts -> usable_name E w.
Proof.
  induction 1; cbn; try (intros w' Hin; destruct Hin; [discriminate | auto]); auto; try tauto.
  intros w' [[= <-] | Hin]; [split; auto | auto].
Qed.

Lemma g_expr_writable E t ts : g_expr t ts -> (forall w, In (KIdent w) ts -> usable_name E w) -> writable E t.
Proof.
  intros H.
  refine (g_expr_ind2 (fun t ts _ => (forall w, In (KIdent w) ts -> usable_name E w) -> writable E t)
            (fun t ts _ => (forall w, In (KIdent w) ts -> usable_name E w) -> writable E t)
            _ _ _ _ _ _ t ts H); clear t ts H; cbn [writable In].
  - intros t ts _ IH Hin. apply IH. exact Hin.
  - intros l o k r ts1 ts2 _ IH1 Ho _ IH2 Hin. split; [destruct Ho; auto |]. split.
    + apply IH1. intros w Hw. apply Hin, in_app_iff. auto.
    + apply IH2. intros w Hw. apply Hin, in_app_iff. right. right. exact Hw.
  - intros _. exact I.
  - intros n Hin. apply Hin. auto.
  - intros a b Hin. split; apply Hin; auto.
  - intros t ts _ IH Hin. apply IH. intros w Hw. apply Hin. right. apply in_app_iff. auto.
Qed.

Theorem parse_writable E s t : parse E s = Ok t -> writable E t.
Proof.
  intros H. apply parse_iff in H as (ts & Ht & Hg). eapply g_expr_writable; eauto.
  intros w. eapply tokenizes_usable; eauto.
Qed.

(** ** Chains *)

Lemma snoc_term E s t o x tx : parse E s = Ok t -> is_term E x tx ->
  o = OpUnion \/ o = OpInter \/ o = OpDiff ->
  parse E (s +++ " " +++ op_text o +++ " " +++ x) = Ok (TOp t o tx).
Proof.
  intros H (ts' & Hx & Hg') Ho. apply parse_iff in H as (ts & Ht & Hg). apply parse_iff.
  destruct Ho as [-> | [-> | ->]]; cbn [op_text];
  [exists (ts ++ KUnion :: ts') | exists (ts ++ KInter :: ts') | exists (ts ++ KDiff :: ts')];
  (split; [| constructor; auto; constructor]);
  (apply tokenizes_app; [exact Ht | apply sep_space | apply tokenizes_blank]); constructor;
  try (apply tokenizes_blank; exact Hx); discriminate.
Qed.

Theorem chain_left E l : forall s t, parse E s = Ok t ->
  (forall o x tx, In (o, (x, tx)) l -> is_term E x tx /\ (o = OpUnion \/ o = OpInter \/ o = OpDiff)) ->
  parse E (chain_text s l) = Ok (chain_tree t l).
Proof.
  induction l as [| [o [x tx]] l IH]; intros s t Hs Hl; [exact Hs |].
  cbn [chain_text chain_tree fold_left fst snd]. apply IH.
  - destruct (Hl o x tx) as [H1 H2]; [left; reflexivity |]. apply snoc_term; auto.
  - intros o' x' tx' Hin. apply Hl. right. exact Hin.
Qed.

(** ** White space *)

Definition is_cont_byte (a : ascii) : Prop := (128 <= byte a /\ byte a <= 191)%N.

Lemma byte_chr_cont n : (n < 64)%N -> is_cont_byte (ascii_of_N (128 + n)).
Proof.
  intros H. unfold is_cont_byte. change (byte (ascii_of_N (128 + n))) with (N_of_ascii (ascii_of_N (128 + n))).
  rewrite N_ascii_embedding by nlia. nlia.
Qed.

Lemma encode_inner r a x m : encode r = a +++ String x m -> a <> ""%string -> is_cont_byte x.
Proof.
  assert (forall n, (n mod 64 < 64)%N) as Hm by (intros n; apply N.mod_lt; lia).
  intros H Ha. destruct a as [| y a]; [congruence |]. clear Ha.
  unfold encode, chr in H.
  destruct (N.ltb_spec r 128) as [H1 | H1].
  { cbn in H. injection H as _ H. destruct a; discriminate. }
  destruct (N.ltb_spec r 2048) as [H2 | H2].
  { cbn [String.append] in H. injection H as _ H.
    destruct a as [| z a]; cbn in H; injection H as <- H; [apply byte_chr_cont; auto |].
    destruct a; discriminate. }
  destruct (N.ltb_spec r 65536) as [H3 | H3].
  { cbn [String.append] in H. injection H as _ H.
    destruct a as [| z a]; cbn [String.append] in H; injection H as <- H; [apply byte_chr_cont; auto |].
    destruct a as [| z' a]; cbn [String.append] in H; injection H as <- H; [apply byte_chr_cont; auto |].
    destruct a; discriminate. }
  cbn [String.append] in H. injection H as _ H.
  destruct a as [| z a]; cbn [String.append] in H; injection H as <- H; [apply byte_chr_cont; auto |].
  destruct a as [| z' a]; cbn [String.append] in H; injection H as <- H; [apply byte_chr_cont; auto |].
  destruct a as [| z'' a]; cbn [String.append] in H; injection H as <- H; [apply byte_chr_cont; auto |].
  destruct a; discriminate.
Qed.

Lemma encode_lead r : scalar r -> exists a m, encode r = String a m /\ ~ is_cont_byte a.
Proof.
  intros Hr. unfold scalar in Hr. unfold encode, chr, is_cont_byte, byte.
  destruct (N.ltb_spec r 128) as [H1 | H1]; [eexists _, _; split; [reflexivity | rewrite N_ascii_embedding; lia] |].
  destruct (N.ltb_spec r 2048) as [H2 | H2]; [eexists _, _; split; [reflexivity |] |].
  { assert (r / 64 < 32)%N by nlia. rewrite N_ascii_embedding by nlia. nlia. }
  destruct (N.ltb_spec r 65536) as [H3 | H3]; [eexists _, _; split; [reflexivity |] |].
  { assert (r / 4096 < 16)%N by nlia. rewrite N_ascii_embedding by nlia. nlia. }
  eexists _, _; split; [reflexivity |].
  assert (r / 262144 < 5)%N by nlia. rewrite N_ascii_embedding by nlia. nlia.
Qed.

Lemma encode_all_split rs : forall a x m, encode_all rs = a +++ String x m -> ~ is_cont_byte x ->
  exists rs1 r rs2, rs = rs1 ++ r :: rs2 /\ a = encode_all rs1 /\ String x m = encode_all (r :: rs2).
Proof.
  induction rs as [| r rs IH]; intros a x m H Hx; cbn [encode_all] in H.
  { destruct a; discriminate. }
  destruct (string_dec a "") as [-> | Ha].
  { exists [], r, rs. repeat split. cbn [encode_all]. symmetry. exact H. }
  apply app_eq_app_s in H as [(k & He & Hk) | (y & k & -> & Hk)].
  - destruct k as [| y k].
    + rewrite app_nil_r_s in He. subst a. cbn in Hk. symmetry in Hk.
      destruct (IH ""%string x m) as (rs1 & r' & rs2 & -> & Hrs1 & H'); [exact Hk | exact Hx |].
      exists (r :: rs1), r', rs2. repeat split; auto. cbn [encode_all]. rewrite <- Hrs1, app_nil_r_s. reflexivity.
    + cbn in Hk. injection Hk as -> Hk. apply encode_inner in He; [contradiction | exact Ha].
  - destruct (IH (String y k) x m) as (rs1 & r' & rs2 & -> & Hrs1 & H'); [exact Hk | exact Hx |].
    exists (r :: rs1), r', rs2. repeat split; auto. cbn [encode_all]. rewrite Hrs1. reflexivity.
Qed.

(** A non-empty piece [m] that ends a token cannot start a white space rune. *)
Definition solid (E : env) (x : string) : Prop :=
  forall a m s r y, x = a +++ m -> m <> ""%string -> scalar r -> is_space E r = true ->
                    m +++ s <> encode r +++ y.

Lemma solid_name E w : name E w -> solid E w.
Proof.
  intros (rs & -> & _ & Hrs) a m s r y Hx Hm Hsc Hr Heq.
  destruct m as [| c m]; [congruence |].
  apply encode_all_split in Hx as (rs1 & r' & rs2 & -> & -> & Hm').
  - rewrite Hm' in Heq. cbn [encode_all] in Heq. rewrite app_assoc_s in Heq.
    apply Forall_app in Hrs as [_ Hrs]. inversion Hrs as [| ? ? [Hsc' Hr'] _]; subst.
    apply encode_eq in Heq as [-> _]; auto. apply space_not_ident in Hr. congruence.
  - destruct (encode_lead r Hsc) as (b & m' & Hb & Hnc). rewrite Hb in Heq. cbn in Heq.
    injection Heq as -> _. exact Hnc.
Qed.

Fixpoint no_space_ascii (E : env) (x : string) : bool :=
  match x with
  | EmptyString => true
  | String a x' => (byte a <? 128)%N && negb (is_space E (byte a)) && no_space_ascii E x'
  end.

Lemma solid_ascii E x : no_space_ascii E x = true -> solid E x.
Proof.
  intros Hx a m s r y -> Hm Hsc Hr Heq. destruct m as [| c m]; [congruence |].
  induction a as [| b a IH]; cbn in Hx.
  - apply andb_true_iff in Hx as [Hx _]. apply andb_true_iff in Hx as [Hc Hs].
    apply N.ltb_lt in Hc. destruct (ascii_rune c (m +++ s) Hc) as [H1 H2].
    cbn [String.append] in Heq. rewrite H2 in Heq. apply encode_eq in Heq as [<- _]; auto.
    rewrite Hr in Hs. discriminate.
  - apply andb_true_iff in Hx as [_ Hx]. auto.
Qed.

(** Reading a token in front of [s1 +++ encode r +++ y]: it lies within [s1]. *)
Lemma solid_split E x S' s1 r y : solid E x -> x <> ""%string -> scalar r -> is_space E r = true ->
  x +++ S' = s1 +++ encode r +++ y -> exists m, s1 = x +++ m /\ S' = m +++ encode r +++ y.
Proof.
  intros Hx Hne Hsc Hr Heq. apply app_eq_app_s in Heq as [(m & Hm & Heq) | (c & m & -> & Heq)].
  - destruct m as [| c m].
    + exists ""%string. cbn in Heq. rewrite app_nil_r_s in Hm. subst. rewrite app_nil_r_s. auto.
    + exfalso. apply (Hx s1 (String c m) S' r y); auto. discriminate.
  - exists (String c m). auto.
Qed.

Lemma tokenizes_white_inv E w s ts : white E w -> tokenizes E (w +++ s) ts -> tokenizes E s ts.
Proof.
  intros (rs & -> & Hrs) H.
  set (n := S (String.length (encode_all rs +++ s))).
  assert (scan E n (encode_all rs +++ s) = Ok (ts ++ [KEof])) as H1 by (apply scan_complete; [exact H | lia]).
  assert (String.length (encode_all rs +++ s) = String.length (encode_all rs) + String.length s) as Hlen
      by apply length_app_s.
  rewrite <- scan_skip in H1 by lia.
  assert (snd (span (is_space E) (encode_all rs +++ s)) = snd (span (is_space E) s)) as Hsk.
  { destruct (span (is_space E) s) as [w' rest] eqn:Hsp.
    pose proof (span_spec _ _ _ _ (space_rune_error E) Hsp) as (-> & Hst & rs' & -> & Hrs').
    assert (forall l1 l2, encode_all (l1 ++ l2) = encode_all l1 +++ encode_all l2) as Happ.
    { induction l1 as [| r l1 IH]; intros l2; cbn [encode_all app]; [reflexivity |].
      rewrite IH, app_assoc_s. reflexivity. }
    rewrite <- app_assoc_s, <- Happ, span_all; auto. apply Forall_app. auto. }
  rewrite Hsk, scan_skip in H1 by lia.
  apply scan_sound in H1 as [(ts' & Heq & H') | (ts' & Heq)].
  - apply app_inv_tail in Heq as <-. exact H'.
  - apply app_inj_tail in Heq as [_ Heq]. discriminate.
Qed.

Lemma tokenizes_split E S ts : tokenizes E S ts -> forall s1 r y,
  scalar r -> is_space E r = true -> S = s1 +++ encode r +++ y ->
  exists ts1 ts2, ts = ts1 ++ ts2 /\ tokenizes E s1 ts1 /\ tokenizes E y ts2.
Proof.
  intros H. induction H as [ | r0 s ts Hsc0 Hr0 Ht IH | s ts Ht IH | s ts Ht IH | s ts Ht IH | s ts Ht IH | s ts Ht IH
                 | s ts Hno Ht IH | s ts Ht IH | w s ts Hw Hpre Hs Ht IH]; intros s1 r y Hsc Hr Heq.
  - exfalso. pose proof (encode_nonempty r) as He. assert (String.length "" = String.length (s1 +++ encode r +++ y)) as Hl by (rewrite <- Heq; reflexivity).
    rewrite !length_app_s in Hl. cbn in Hl. lia.
  - destruct (string_dec s1 "") as [-> | Hne].
    + cbn in Heq. apply encode_eq in Heq as [-> <-]; auto. exists [], ts. repeat split; auto. constructor.
    + destruct (app_eq_app_s _ _ _ _ Heq) as [(m & Hm & Heq') | (c & m & -> & Heq')].
      * destruct m as [| c m].
        { rewrite app_nil_r_s in Hm. subst s1. cbn in Heq'. symmetry in Heq'.
          apply (IH ""%string) in Heq' as (ts1 & ts2 & -> & H1 & H2); auto.
          exists ts1, ts2. repeat split; auto. rewrite <- (app_nil_r_s (encode r0)). apply tz_space; auto. }
        { apply encode_inner in Hm; [| exact Hne]. exfalso.
          destruct (encode_lead r Hsc) as (b & m' & Hb & Hnc). rewrite Hb in Heq'. cbn in Heq'.
          injection Heq' as -> _. contradiction. }
      * apply IH in Heq' as (ts1 & ts2 & -> & H1 & H2); auto.
        exists ts1, ts2. repeat split; auto. apply tz_space; auto.
  - apply (solid_split E) in Heq as (m & -> & ->); auto; [| apply solid_ascii; reflexivity | discriminate].
    destruct (IH m r y) as (ts1 & ts2 & -> & H1 & H2); auto.
    exists (KOpen :: ts1), ts2. repeat split; auto. constructor; auto.
  - apply (solid_split E) in Heq as (m & -> & ->); auto; [| apply solid_ascii; reflexivity | discriminate].
    destruct (IH m r y) as (ts1 & ts2 & -> & H1 & H2); auto.
    exists (KClose :: ts1), ts2. repeat split; auto. constructor; auto.
  - apply (solid_split E) in Heq as (m & -> & ->); auto; [| apply solid_ascii; reflexivity | discriminate].
    destruct (IH m r y) as (ts1 & ts2 & -> & H1 & H2); auto.
    exists (KArrow :: ts1), ts2. repeat split; auto. constructor; auto.
  - apply (solid_split E) in Heq as (m & -> & ->); auto; [| apply solid_ascii; reflexivity | discriminate].
    destruct (IH m r y) as (ts1 & ts2 & -> & H1 & H2); auto.
    exists (KUnion :: ts1), ts2. repeat split; auto. constructor; auto.
  - apply (solid_split E) in Heq as (m & -> & ->); auto; [| apply solid_ascii; reflexivity | discriminate].
    destruct (IH m r y) as (ts1 & ts2 & -> & H1 & H2); auto.
    exists (KInter :: ts1), ts2. repeat split; auto. constructor; auto.
  - apply (solid_split E) in Heq as (m & -> & ->); auto; [| apply solid_ascii; reflexivity | discriminate].
    destruct (IH m r y) as (ts1 & ts2 & -> & H1 & H2); auto.
    exists (KDiff :: ts1), ts2. repeat split; auto. constructor; auto.
    intros s' ->. apply (Hno (s' +++ encode r +++ y)). reflexivity.
  - apply (solid_split E) in Heq as (m & -> & ->); auto; [| apply solid_ascii; reflexivity | discriminate].
    destruct (IH m r y) as (ts1 & ts2 & -> & H1 & H2); auto.
    exists (KThis :: ts1), ts2. repeat split; auto. constructor; auto.
  - assert (w <> ""%string) as Hne.
    { intros ->. apply name_first in Hw as (r' & rs & Heq' & _). cbn [encode_all] in Heq'.
      pose proof (encode_nonempty r'). destruct (encode r'); [cbn in *; lia | discriminate]. }
    apply (solid_split E) in Heq as (m & -> & ->); auto; [| apply solid_name; exact Hw].
    destruct (IH m r y) as (ts1 & ts2 & -> & H1 & H2); auto.
    exists (KIdent w :: ts1), ts2. repeat split; auto. constructor; auto.
    intros r' s' Hr' Hi' ->. apply (Hs r' (s' +++ encode r +++ y)); auto. apply app_assoc_s.
Qed.

Lemma tokenizes_white_iff E s1 w s2 ts : white E w -> w <> ""%string ->
  tokenizes E (s1 +++ w +++ s2) ts <->
  exists ts1 ts2, ts = ts1 ++ ts2 /\ tokenizes E s1 ts1 /\ tokenizes E s2 ts2.
Proof.
  intros Hw Hne. split.
  - intros H. pose proof Hw as (rs & -> & Hrs). destruct rs as [| r rs]; [elim Hne; reflexivity |].
    inversion Hrs as [| ? ? [Hsc Hr] Hrs']; subst. cbn [encode_all] in H.
    apply tokenizes_split with (s1 := s1) (r := r) (y := encode_all rs +++ s2) in H as (ts1 & ts2 & -> & H1 & H2); auto.
    + exists ts1, ts2. repeat split; auto. apply tokenizes_white_inv with (w := encode_all rs); [exists rs; auto | exact H2].
    + rewrite app_assoc_s. reflexivity.
  - intros (ts1 & ts2 & -> & H1 & H2). apply tokenizes_app; auto.
    + apply sep_white; auto.
    + apply tokenizes_white; auto.
Qed.

Lemma parse_err E s e : parse E s = Err e -> e = EParse.
Proof.
  unfold parse, lex. destruct (scan_no_fuel E (S (String.length s)) s) as [ts ->]; [lia |]. cbn [bind].
  unfold parse_tokens. destruct (is_error (last ts KEof)); [congruence |].
  assert (forall n ts e, expr_p n ts = Err e -> e = EParse) as He.
  { clear. assert (forall ex ts e, (forall ts e, ex ts = Err e -> e = EParse) -> term_p ex ts = Err e -> e = EParse) as Ht.
    { intros ex ts e Hex. unfold term_p. destruct ts as [| k ts]; cbn [first_p]; [congruence |].
      destruct (rule_p (k :: ts)); try discriminate.
      destruct (subexpr_p ex (k :: ts)) eqn:Hs; try discriminate; congruence. }
    induction n as [| n IH]; intros ts e; cbn [expr_p]; [discriminate |].
    destruct (term_p (expr_p n) ts) as [[h r] | e' | |] eqn:Hterm; cbn [bind]; try discriminate.
    - assert (forall m p ts e, many_p m (T := operator * tree) p ts <> Err e) as Hm.
      { clear. induction m as [| m IH]; intros p ts e; cbn [many_p]; [discriminate |].
        destruct (p ts) as [[x r] | | |]; try discriminate.
        destruct (many_p m p r) eqn:Hm; cbn [bind]; try discriminate. exfalso. eapply IH; eauto. }
      match goal with |- context [many_p ?m ?p ?l] => destruct (many_p m p l) eqn:Hmm end; cbn [bind]; try discriminate.
      exfalso. eapply Hm; eauto.
    - intros [= <-]. eapply Ht; eauto. }
  destruct (expr_p (S (length ts)) ts) as [[t r] | e' | |] eqn:Hx; cbn [bind fst snd]; try discriminate.
  - destruct (skip_eof r); congruence.
  - intros [= <-]. eapply He; eauto.
Qed.

Lemma parse_ext E s s' : (forall t, denotes E s t <-> denotes E s' t) -> parse E s = parse E s'.
Proof.
  intros H. assert (forall t, parse E s = Ok t <-> parse E s' = Ok t) as H' by (intros t; rewrite !parse_iff; apply H).
  destruct (parse_returns E s) as [[t Ht] | He].
  { rewrite Ht. symmetry. apply H'. exact Ht. }
  assert (parse E s = Err EParse) as Hs.
  { destruct He as [He | [e He]]; [exact He |]. rewrite He. f_equal. eapply parse_err; eauto. }
  destruct (parse_returns E s') as [[t Ht] | He'].
  { rewrite Ht. apply H'. exact Ht. }
  rewrite Hs. destruct He' as [He' | [e He']]; [congruence |].
  rewrite He'. f_equal. symmetry. eapply parse_err; eauto.
Qed.

Theorem white_inner E s1 w1 w2 s2 : white E w1 -> white E w2 -> w1 <> ""%string -> w2 <> ""%string ->
  parse E (s1 +++ w1 +++ s2) = parse E (s1 +++ w2 +++ s2).
Proof.
  intros H1 H2 N1 N2. apply parse_ext. intros t. unfold denotes.
  split; intros (ts & Ht & Hg); exists ts; (split; [| exact Hg]);
    apply tokenizes_white_iff; auto.
  - apply (tokenizes_white_iff E s1 w1 s2); auto.
  - apply (tokenizes_white_iff E s1 w2 s2); auto.
Qed.

Theorem white_left E w s : white E w -> parse E (w +++ s) = parse E s.
Proof.
  intros H. apply parse_ext. intros t. unfold denotes.
  split; intros (ts & Ht & Hg); exists ts; (split; [| exact Hg]).
  - eapply tokenizes_white_inv; eauto.
  - apply tokenizes_white; auto.
Qed.

Theorem white_right E w s : white E w -> parse E (s +++ w) = parse E s.
Proof.
  intros H. destruct (string_dec w "") as [-> | Hne]; [rewrite app_nil_r_s; reflexivity |].
  rewrite <- (app_nil_r_s w) at 1. apply parse_ext. intros t. unfold denotes.
  split; intros (ts & Ht & Hg); exists ts; (split; [| exact Hg]).
  - apply tokenizes_white_iff in Ht as (ts1 & ts2 & -> & H1 & H2); auto.
    assert (ts2 = []) as -> by (eapply tokenizes_det; [exact H2 | constructor]).
    rewrite app_nil_r. exact H1.
  - apply tokenizes_white_iff; auto. exists ts, []. rewrite app_nil_r. repeat split; auto. constructor.
Qed.

(** ** Names *)

Theorem name_parses E w : name E w -> (parse E w = Ok (TRule (RCu w)) <-> prefix "_this" w = false).
Proof.
  intros Hw. split.
  - intros H. apply parse_writable in H. cbn in H. apply H.
  - intros H. apply parse_iff. exists [KIdent w]. split; [| constructor; constructor].
    rewrite <- (app_nil_r_s w) at 1. apply tz_name; auto; [apply no_name_empty | constructor].
Qed.

Fixpoint ascii_ident (E : env) (w : string) : bool :=
  match w with
  | EmptyString => true
  | String a w' => (byte a <? 128)%N && is_ident_rune E (byte a) && ascii_ident E w'
  end.

Lemma name_ascii E w : w <> ""%string -> ascii_ident E w = true -> name E w.
Proof.
  intros Hne Hw. assert (exists rs, w = encode_all rs /\ Forall (fun r => scalar r /\ is_ident_rune E r = true) rs) as (rs & -> & Hrs).
  { clear Hne. induction w as [| a w IH]; [exists []; auto |]. cbn in Hw.
    apply andb_true_iff in Hw as [Hw Hw']. apply andb_true_iff in Hw as [Ha Hi]. apply N.ltb_lt in Ha.
    destruct (IH Hw') as (rs & -> & Hrs). destruct (ascii_rune a (encode_all rs) Ha) as [H1 H2].
    exists (byte a :: rs). auto. }
  exists rs. repeat split; auto. intros ->. apply Hne. reflexivity.
Qed.

(** ** Character classes *)

Theorem classes_ascii E r : (r < 128)%N ->
  (is_ident_rune E r = true <-> (r = 95 \/ 48 <= r <= 57 \/ 65 <= r <= 90 \/ 97 <= r <= 122)%N) /\
  (is_space E r = true <-> (9 <= r <= 13 \/ r = 32)%N).
Proof.
  intros Hr. unfold is_ident_rune, is_letter, is_digit, is_space.
  destruct (N.leb_spec r 255); [| lia].
  rewrite !orb_true_iff, !between_spec, !N.eqb_eq. lia.
Qed.

Theorem classes_above E r : (255 < r)%N -> r <> rune_error ->
  (is_ident_rune E r = true <-> hi_class E r = ClLetter \/ hi_class E r = ClDigit) /\
  (is_space E r = true <-> hi_class E r = ClSpace).
Proof.
  intros Hr Hne. unfold is_ident_rune, is_letter, is_digit, is_space.
  destruct (N.leb_spec r 255); [lia |]. destruct (N.eqb_spec r rune_error); [congruence |].
  destruct (N.eqb_spec r 95); [lia |].
  destruct (hi_class E r); cbn; intuition congruence.
Qed.

Definition latin1_ok (r : N) : bool :=
  let c := nth_error latin1_categories (N.to_nat r - 128) in
  Bool.eqb (between 65 90 r || between 97 122 r || (r =? 170) || (r =? 181) || (r =? 186)
            || between 192 214 r || between 216 246 r || between 248 255 r || between 48 57 r || (r =? 95))%N
    (match c with Some Ll | Some Lo | Some Lu => true | _ => false end) &&
  Bool.eqb (between 9 13 r || (r =? 32) || (r =? 133) || (r =? 160))%N ((r =? 133) || (r =? 160))%N.

Lemma latin1_all : forallb (fun i => latin1_ok (N.of_nat (128 + i))) (seq 0 128) = true.
Proof. vm_compute. reflexivity. Qed.

Lemma classes_latin1 E r : (128 <= r <= 255)%N ->
  (is_ident_rune E r = true <-> latin1_letter r) /\ (is_space E r = true <-> latin1_space r).
Proof.
  intros Hr. pose proof latin1_all as Ha. rewrite forallb_forall in Ha.
  specialize (Ha (N.to_nat r - 128)). rewrite in_seq in Ha. replace (N.of_nat (128 + (N.to_nat r - 128))) with r in Ha by lia.
  assert (Hok : latin1_ok r = true) by (apply Ha; lia). clear Ha.
  unfold latin1_ok in Hok. apply andb_prop in Hok as [H1 H2]. apply Bool.eqb_prop in H1, H2.
  assert (Hle : (r <=? 255)%N = true) by (apply N.leb_le; lia).
  split.
  - unfold is_ident_rune, is_letter, is_digit. rewrite Hle, H1. unfold latin1_letter.
    destruct (nth_error latin1_categories (N.to_nat r - 128)) as [c |].
    + split; [intros Hc; exists c; split; [reflexivity |] | intros (c' & [= <-] & [-> | [-> | ->]]); reflexivity].
      destruct c; auto; discriminate.
    + split; [discriminate | intros (c' & [=] & _)].
  - unfold is_space, latin1_space. rewrite Hle, H2, orb_true_iff, !N.eqb_eq. reflexivity.
Qed.
