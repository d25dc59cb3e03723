(** The scanner computes exactly the declarative token relation. *)
From Coq Require Import ZArith.
From Verif Require Import Base BaseFacts Domain Lexer SpecGrammar.
Local Open Scope N_scope.

Lemma app_assoc_s a b c : (a +++ b) +++ c = a +++ (b +++ c).
Proof. induction a; cbn; congruence. Qed.

Lemma app_nil_r_s a : a +++ "" = a.
Proof. induction a; cbn; congruence. Qed.

Lemma length_app_s a b : String.length (a +++ b) = (String.length a + String.length b)%nat.
Proof. induction a; cbn; congruence. Qed.

Lemma byte_chr n : n < 256 -> byte (ascii_of_N n) = n.
Proof. intros H. apply N_ascii_embedding. exact H. Qed.

Lemma byte_lt a : byte a < 256.
Proof. destruct a as [[] [] [] [] [] [] [] []]; cbv; reflexivity. Qed.

Lemma chr_byte a : ascii_of_N (byte a) = a.
Proof. apply ascii_N_embedding. Qed.

Lemma between_spec lo hi x : between lo hi x = true <-> lo <= x /\ x <= hi.
Proof. unfold between. rewrite andb_true_iff, !N.leb_le. tauto. Qed.

Lemma between_false lo hi x : between lo hi x = false <-> x < lo \/ hi < x.
Proof.
  unfold between. rewrite andb_false_iff, !N.leb_gt. tauto.
Qed.

Ltac bdec :=
  repeat match goal with
  | H : context [ ?a <? ?b ] |- _ => destruct (N.ltb_spec a b)
  | H : context [ ?a =? ?b ] |- _ => destruct (N.eqb_spec a b)
  | |- context [ ?a <? ?b ] => destruct (N.ltb_spec a b)
  | |- context [ ?a =? ?b ] => destruct (N.eqb_spec a b)
  end.

Ltac nlia := zify; Z.to_euclidean_division_equations; lia.

(** Decoding an encoded rune. *)
Lemma peek_encode r s : scalar r -> peek (encode r +++ s) = Some (r, encode r, s).
Proof.
  intros Hsc. unfold encode, chr.
  destruct (N.ltb_spec r 128) as [H1 | H1].
  { cbn [String.append peek]. rewrite byte_chr by lia.
    destruct (N.ltb_spec r 128); [reflexivity | lia]. }
  destruct (N.ltb_spec r 2048) as [H2 | H2].
  { cbn [String.append peek]. rewrite byte_chr by nlia. rewrite byte_chr by nlia.
    destruct (N.ltb_spec (192 + r / 64) 128); [nlia |].
    unfold utf8_lead. replace (between 194 223 (192 + r / 64)) with true
      by (symmetry; apply between_spec; nlia).
    replace (between 128 191 (128 + r mod 64)) with true by (symmetry; apply between_spec; nlia).
    cbn [negb Nat.eqb]. unfold one. repeat f_equal. nlia. }
  destruct (N.ltb_spec r 65536) as [H3 | H3].
  { cbn [String.append peek]. rewrite byte_chr by nlia. rewrite byte_chr by nlia.
    destruct (N.ltb_spec (224 + r / 4096) 128); [nlia |].
    assert (utf8_lead (224 + r / 4096) =
            Some (3%nat, if r <? 4096 then 160 else 128, if 53248 <=? r then if r <? 57344 then 159 else 191 else 191)) as ->.
    { unfold utf8_lead.
      replace (between 194 223 (224 + r / 4096)) with false by (symmetry; apply between_false; nlia).
      destruct (N.eqb_spec (224 + r / 4096) 224) as [He | He].
      { destruct (N.ltb_spec r 4096); [| nlia]. destruct (N.leb_spec 53248 r); [nlia | reflexivity]. }
      destruct (N.ltb_spec r 4096); [nlia |].
      destruct (N.leb_spec 53248 r).
      - destruct (N.ltb_spec r 57344).
        + replace (between 225 236 (224 + r / 4096)) with false by (symmetry; apply between_false; nlia).
          replace (between 238 239 (224 + r / 4096)) with false by (symmetry; apply between_false; nlia).
          cbn [orb]. destruct (N.eqb_spec (224 + r / 4096) 237); [reflexivity | nlia].
        + replace (between 238 239 (224 + r / 4096)) with true by (symmetry; apply between_spec; nlia).
          rewrite orb_true_r. reflexivity.
      - replace (between 225 236 (224 + r / 4096)) with true by (symmetry; apply between_spec; nlia).
        reflexivity. }
    match goal with |- context [between ?a ?b ?c] => replace (between a b c) with true end.
    2:{ symmetry; apply between_spec. unfold scalar in Hsc.
        destruct (N.ltb_spec r 4096); destruct (N.leb_spec 53248 r); try destruct (N.ltb_spec r 57344); nlia. }
    unfold is_cont. rewrite byte_chr by nlia.
    replace (between 128 191 (128 + r mod 64)) with true by (symmetry; apply between_spec; nlia).
    cbn [negb Nat.eqb]. unfold one. repeat f_equal. nlia. }
  { assert (r < 1114112) as H4 by (unfold scalar in Hsc; lia).
    cbn [String.append peek]. rewrite byte_chr by nlia. rewrite byte_chr by nlia.
    destruct (N.ltb_spec (240 + r / 262144) 128); [nlia |].
    assert (utf8_lead (240 + r / 262144) =
            Some (4%nat, if r <? 262144 then 144 else 128, if 1048576 <=? r then 143 else 191)) as ->.
    { unfold utf8_lead.
      replace (between 194 223 (240 + r / 262144)) with false by (symmetry; apply between_false; nlia).
      destruct (N.eqb_spec (240 + r / 262144) 224); [nlia |].
      replace (between 225 236 (240 + r / 262144)) with false by (symmetry; apply between_false; nlia).
      replace (between 238 239 (240 + r / 262144)) with false by (symmetry; apply between_false; nlia).
      cbn [orb]. destruct (N.eqb_spec (240 + r / 262144) 237); [nlia |].
      destruct (N.eqb_spec (240 + r / 262144) 240).
      { destruct (N.ltb_spec r 262144); [| nlia]. destruct (N.leb_spec 1048576 r); [nlia | reflexivity]. }
      destruct (N.ltb_spec r 262144); [nlia |].
      destruct (N.leb_spec 1048576 r).
      - replace (between 241 243 (240 + r / 262144)) with false by (symmetry; apply between_false; nlia).
        destruct (N.eqb_spec (240 + r / 262144) 244); [reflexivity | nlia].
      - replace (between 241 243 (240 + r / 262144)) with true by (symmetry; apply between_spec; nlia).
        reflexivity. }
    match goal with |- context [between ?a ?b ?c] => replace (between a b c) with true end.
    2:{ symmetry; apply between_spec.
        destruct (N.ltb_spec r 262144); destruct (N.leb_spec 1048576 r); nlia. }
    unfold is_cont. rewrite !byte_chr by nlia.
    replace (between 128 191 (128 + (r / 64) mod 64)) with true by (symmetry; apply between_spec; nlia).
    replace (between 128 191 (128 + r mod 64)) with true by (symmetry; apply between_spec; nlia).
    cbn [negb Nat.eqb]. unfold one. repeat f_equal. nlia. }
Qed.

(** A decoded rune is the encoding of a scalar value, or an error of width one. *)
Lemma peek_inv_strong s r c rest :
  peek s = Some (r, c, rest) ->
  s = c +++ rest /\ c <> "" /\ ((scalar r /\ c = encode r) \/ (r = rune_error /\ String.length c = 1%nat)).
Proof.
  destruct s as [| a s1]; [discriminate |]. cbn [peek].
  pose proof (byte_lt a) as Ha.
  destruct (N.ltb_spec (byte a) 128) as [H | H].
  { intros [= <- <- <-]. split; [reflexivity |]. split; [discriminate |]. left. unfold scalar, encode, chr.
    split; [lia |]. destruct (N.ltb_spec (byte a) 128); [| lia]. rewrite chr_byte. reflexivity. }
  assert (forall x : option (N * string * string),
            x = Some (rune_error, one a, s1) -> x = Some (r, c, rest) ->
            String a s1 = c +++ rest /\ c <> "" /\ ((scalar r /\ c = encode r) \/ (r = rune_error /\ String.length c = 1%nat))) as Hbad.
  { intros x -> [= <- <- <-]. split; [reflexivity |]. split; [discriminate | right; split; reflexivity]. }
  destruct (utf8_lead (byte a)) as [[[n lo] hi] |] eqn:Hl; [| apply (Hbad _ eq_refl)].
  destruct s1 as [| a1 s2]; [apply (Hbad _ eq_refl) |].
  pose proof (byte_lt a1) as Ha1.
  destruct (between lo hi (byte a1)) eqn:Hb; cbn [negb]; [| apply (Hbad _ eq_refl)].
  apply between_spec in Hb.
  assert (128 <= lo /\ hi <= 191 /\
          ((n = 2%nat /\ 194 <= byte a /\ byte a <= 223) \/
           (n = 3%nat /\ 224 <= byte a /\ byte a <= 239 /\ (byte a = 224 -> lo = 160) /\ (byte a = 237 -> hi = 159)) \/
           (n = 4%nat /\ 240 <= byte a /\ byte a <= 244 /\ (byte a = 240 -> lo = 144) /\ (byte a = 244 -> hi = 143)))) as Hn.
  { unfold utf8_lead in Hl.
    destruct (between 194 223 (byte a)) eqn:B1.
    { apply between_spec in B1. injection Hl as <- <- <-. lia. }
    destruct (N.eqb_spec (byte a) 224). { injection Hl as <- <- <-. lia. }
    destruct (between 225 236 (byte a) || between 238 239 (byte a)) eqn:B2.
    { apply orb_true_iff in B2 as [B2 | B2]; apply between_spec in B2; injection Hl as <- <- <-; lia. }
    destruct (N.eqb_spec (byte a) 237). { injection Hl as <- <- <-. lia. }
    destruct (N.eqb_spec (byte a) 240). { injection Hl as <- <- <-. lia. }
    destruct (between 241 243 (byte a)) eqn:B3.
    { apply between_spec in B3. injection Hl as <- <- <-. lia. }
    destruct (N.eqb_spec (byte a) 244); [| discriminate]. injection Hl as <- <- <-. lia. }
  destruct Hn as (Hlo & Hhi & [(-> & Hn) | [(-> & Hn) | (-> & Hn)]]); cbn [Nat.eqb].
  - intros [= <- <- <-]. split; [reflexivity |]. split; [discriminate |]. left.
    set (r' := (byte a - 192) * 64 + (byte a1 - 128)).
    unfold scalar, encode, chr. split; [lia |].
    destruct (N.ltb_spec r' 128); [lia |]. destruct (N.ltb_spec r' 2048); [| lia].
    replace (192 + r' / 64) with (byte a) by nlia. replace (128 + r' mod 64) with (byte a1) by nlia.
    rewrite !chr_byte. reflexivity.
  - destruct s2 as [| a2 s3]; [apply (Hbad _ eq_refl) |]. pose proof (byte_lt a2) as Ha2.
    destruct (is_cont a2) eqn:Hc2; cbn [negb]; [| apply (Hbad _ eq_refl)].
    apply between_spec in Hc2. intros [= <- <- <-]. split; [reflexivity |]. split; [discriminate |]. left.
    set (r' := (byte a - 224) * 4096 + (byte a1 - 128) * 64 + (byte a2 - 128)).
    unfold scalar, encode, chr. split; [lia |].
    destruct (N.ltb_spec r' 128); [lia |]. destruct (N.ltb_spec r' 2048); [lia |].
    destruct (N.ltb_spec r' 65536); [| lia].
    replace (224 + r' / 4096) with (byte a) by nlia.
    replace (128 + (r' / 64) mod 64) with (byte a1) by nlia.
    replace (128 + r' mod 64) with (byte a2) by nlia.
    rewrite !chr_byte. reflexivity.
  - destruct s2 as [| a2 s3]; [apply (Hbad _ eq_refl) |]. pose proof (byte_lt a2) as Ha2.
    destruct (is_cont a2) eqn:Hc2; cbn [negb]; [| apply (Hbad _ eq_refl)].
    destruct s3 as [| a3 s4]; [apply (Hbad _ eq_refl) |]. pose proof (byte_lt a3) as Ha3.
    destruct (is_cont a3) eqn:Hc3; cbn [negb]; [| apply (Hbad _ eq_refl)].
    apply between_spec in Hc2. apply between_spec in Hc3.
    intros [= <- <- <-]. split; [reflexivity |]. split; [discriminate |]. left.
    set (r' := (byte a - 240) * 262144 + (byte a1 - 128) * 4096 + (byte a2 - 128) * 64 + (byte a3 - 128)).
    unfold scalar, encode, chr. split; [lia |].
    destruct (N.ltb_spec r' 128); [lia |]. destruct (N.ltb_spec r' 2048); [lia |].
    destruct (N.ltb_spec r' 65536); [lia |].
    replace (240 + r' / 262144) with (byte a) by nlia.
    replace (128 + (r' / 4096) mod 64) with (byte a1) by nlia.
    replace (128 + (r' / 64) mod 64) with (byte a2) by nlia.
    replace (128 + r' mod 64) with (byte a3) by nlia.
    rewrite !chr_byte. reflexivity.
Qed.

Lemma peek_inv s r c rest :
  peek s = Some (r, c, rest) ->
  s = c +++ rest /\ c <> "" /\ ((scalar r /\ c = encode r) \/ r = rune_error).
Proof. intros H. apply peek_inv_strong in H as (H1 & H2 & [H3 | [H3 _]]); auto. Qed.

(** ** Literals *)

Lemma chr_inj_lt r a : r < 256 -> chr r = one a -> byte a = r.
Proof. unfold chr, one. intros H [= <-]. apply byte_chr. exact H. Qed.

Lemma peek_ascii a s : byte a < 128 -> peek (String a s) = Some (byte a, one a, s).
Proof. intros H. cbn [peek]. destruct (N.ltb_spec (byte a) 128); [reflexivity | lia]. Qed.

Lemma peek_is_ascii s r c s' a :
  byte a < 128 -> peek s = Some (r, c, s') -> r = byte a -> s = String a s'.
Proof.
  intros Ha Hp ->. apply peek_inv in Hp as (-> & _ & [[_ ->] | Hr]).
  - unfold encode, chr. destruct (N.ltb_spec (byte a) 128); [| lia]. rewrite chr_byte. reflexivity.
  - unfold rune_error in Hr. lia.
Qed.

Fixpoint ascii_lit (s : string) : bool :=
  match s with EmptyString => true | String a s' => (byte a <? 128) && ascii_lit s' end.

Lemma consume_spec lit : ascii_lit lit = true -> forall s s',
  consume lit s = Some s' <-> s = lit +++ s'.
Proof.
  induction lit as [| a lit IH]; cbn [ascii_lit consume String.append]; intros Hl s s'.
  - split; congruence.
  - apply andb_true_iff in Hl as [Ha Hl]. apply N.ltb_lt in Ha. split.
    + destruct (peek s) as [[[r c] s1] |] eqn:Hp; [| discriminate].
      destruct (N.eqb_spec r (byte a)) as [Hr | Hr]; [| discriminate].
      intros H. apply (IH Hl) in H as ->. eapply peek_is_ascii; eauto.
    + intros ->. rewrite (peek_ascii a _ Ha), N.eqb_refl. apply (IH Hl). reflexivity.
Qed.

Lemma consume_none lit s : ascii_lit lit = true ->
  (forall s', s <> lit +++ s') -> consume lit s = None.
Proof.
  intros Hl H. destruct (consume lit s) as [s' |] eqn:Hc; [| reflexivity].
  apply (consume_spec lit Hl) in Hc. congruence.
Qed.

(** ** Spans *)

(** [s] does not start with a rune satisfying [f]. *)
Definition stops (f : N -> bool) (s : string) : Prop :=
  match peek s with Some (r, _, _) => f r = false | None => True end.

Lemma peek_length s r c s' : peek s = Some (r, c, s') -> (String.length s' < String.length s)%nat.
Proof.
  intros H. apply peek_inv in H as (-> & Hc & _). rewrite length_app_s.
  destruct c; [congruence | cbn; lia].
Qed.

Lemma step_while_spec f : f rune_error = false -> forall n s w rest,
  (String.length s <= n)%nat -> step_while f n s = (w, rest) ->
  s = w +++ rest /\ stops f rest /\
  exists rs, w = encode_all rs /\ Forall (fun r => scalar r /\ f r = true) rs.
Proof.
  intros Hf. induction n as [| n IH]; intros s w rest Hn; cbn [step_while].
  - destruct s; [| cbn in Hn; lia]. intros [= <- <-]. split; [reflexivity |]. split; [exact I |].
    exists []. split; [reflexivity | constructor].
  - destruct (peek s) as [[[r c] s'] |] eqn:Hp.
    + destruct (f r) eqn:Hfr.
      * destruct (step_while f n s') as [x y] eqn:Hs. intros [= <- <-].
        pose proof (peek_length _ _ _ _ Hp) as Hlen.
        apply peek_inv in Hp as (-> & Hc & [[Hsc ->] | ->]); [| congruence].
        apply IH in Hs as (-> & Hst & rs & -> & Hrs); [| lia].
        split; [rewrite app_assoc_s; reflexivity |]. split; [exact Hst |].
        exists (r :: rs). split; [reflexivity |]. constructor; auto.
      * intros [= <- <-]. split; [reflexivity |]. split; [unfold stops; rewrite Hp; exact Hfr |].
        exists []. split; [reflexivity | constructor].
    + intros [= <- <-]. split; [reflexivity |]. split; [unfold stops; rewrite Hp; exact I |].
      exists []. split; [reflexivity | constructor].
Qed.

Lemma encode_nonempty r : (0 < String.length (encode r))%nat.
Proof.
  unfold encode, chr.
  repeat match goal with |- context [if ?b then _ else _] => destruct b end; cbn; lia.
Qed.

Lemma step_while_all f rs : Forall (fun r => scalar r /\ f r = true) rs -> forall s n,
  stops f s -> (length rs <= n)%nat -> step_while f n (encode_all rs +++ s) = (encode_all rs, s).
Proof.
  induction 1 as [| r rs [Hsc Hfr] Hrs IH]; intros s n Hst Hn; cbn [encode_all String.append].
  - destruct n; cbn [step_while]; [reflexivity |].
    unfold stops in Hst. destruct (peek s) as [[[r c] s'] |]; [rewrite Hst |]; reflexivity.
  - cbn in Hn. destruct n as [| n]; [lia |]. cbn [step_while].
    rewrite app_assoc_s, (peek_encode _ _ Hsc), Hfr, IH by (auto; lia). reflexivity.
Qed.

Lemma encode_all_length rs : (length rs <= String.length (encode_all rs))%nat.
Proof.
  induction rs as [| r rs IH]; cbn [encode_all length]; [lia |].
  rewrite length_app_s. pose proof (encode_nonempty r). lia.
Qed.

Lemma span_all f rs s : Forall (fun r => scalar r /\ f r = true) rs -> stops f s ->
  span f (encode_all rs +++ s) = (encode_all rs, s).
Proof.
  intros Hrs Hst. apply step_while_all; auto. rewrite length_app_s.
  pose proof (encode_all_length rs). lia.
Qed.

Lemma span_spec f s w rest : f rune_error = false -> span f s = (w, rest) ->
  s = w +++ rest /\ stops f rest /\
  exists rs, w = encode_all rs /\ Forall (fun r => scalar r /\ f r = true) rs.
Proof. intros Hf. apply step_while_spec; auto. Qed.

Lemma span_stops f s : stops f s -> span f s = ("", s)%string.
Proof. intros H. apply (span_all f [] s); [constructor | exact H]. Qed.

Lemma ident_rune_error E : is_ident_rune E rune_error = false.
Proof. reflexivity. Qed.

Lemma space_rune_error E : is_space E rune_error = false.
Proof. reflexivity. Qed.

(** Spaces are not identifier runes. *)
Lemma space_not_ident E r : is_space E r = true -> is_ident_rune E r = false.
Proof.
  unfold is_space, is_ident_rune, is_letter, is_digit.
  destruct (N.leb_spec r 255) as [H | H].
  - intros Hs. assert ((9 <= r /\ r <= 13) \/ r = 32 \/ r = 133 \/ r = 160) as Hr.
    { repeat (rewrite orb_true_iff in Hs). rewrite between_spec, !N.eqb_eq in Hs. tauto. }
    assert (forall lo hi, 13 < lo -> (hi < 133 \/ 160 < lo) -> (lo > 32 \/ hi < 32) -> between lo hi r = false) as Hb.
    { intros lo hi H1 H2 H3. apply between_false. lia. }
    rewrite !Hb by lia. cbn [orb].
    destruct (N.eqb_spec r 170); [lia |]. destruct (N.eqb_spec r 181); [lia |].
    destruct (N.eqb_spec r 186); [lia |]. destruct (N.eqb_spec r 95); [lia | reflexivity].
  - destruct (N.eqb_spec r rune_error); [discriminate |].
    destruct (N.eqb_spec r 95); [lia |]. destruct (hi_class E r); cbn; congruence.
Qed.

Lemma stops_ident_iff E s : stops (is_ident_rune E) s <-> no_name_here E s.
Proof.
  unfold stops, no_name_here. split.
  - intros H r s' Hsc Hr ->. rewrite (peek_encode _ _ Hsc) in H. congruence.
  - intros H. destruct (peek s) as [[[r c] s'] |] eqn:Hp; [| exact I].
    destruct (is_ident_rune E r) eqn:Hr; [| reflexivity].
    apply peek_inv in Hp as (-> & _ & [[Hsc ->] | ->]).
    + exfalso. eapply H; eauto.
    + rewrite ident_rune_error in Hr. discriminate.
Qed.

(** ** Terminals *)

Lemma lex_terminal_inv l s t s' : (forall x, In x l -> ascii_lit (fst x) = true) ->
  lex_terminal l s = Some (t, s') ->
  exists l1 lit l2, l = l1 ++ (lit, t) :: l2 /\ s = lit +++ s' /\
    forall x y, In x l1 -> s <> fst x +++ y.
Proof.
  induction l as [| [lit t0] l IH]; cbn [lex_terminal]; intros Hl; [discriminate |].
  destruct (consume lit s) as [s1 |] eqn:Hc.
  - intros [= <- <-]. apply consume_spec in Hc; [| apply (Hl (lit, t0)); left; reflexivity].
    exists [], lit, l. cbn. repeat split; auto.
  - intros H. apply IH in H as (l1 & lit' & l2 & -> & Hs & Hno).
    2:{ intros x Hx. apply Hl. right. exact Hx. }
    exists ((lit, t0) :: l1), lit', l2. repeat split; auto.
    intros x y [<- | Hx]; auto. cbn. intros ->.
    assert (consume lit (lit +++ y) = Some y) as Hc'.
    { apply consume_spec; [apply (Hl (lit, t0)); left; reflexivity | reflexivity]. }
    congruence.
Qed.

Lemma lex_terminal_none l s : (forall x, In x l -> ascii_lit (fst x) = true) ->
  (forall x y, In x l -> s <> fst x +++ y) -> lex_terminal l s = None.
Proof.
  induction l as [| [lit t0] l IH]; cbn [lex_terminal]; intros Hl H; [reflexivity |].
  rewrite consume_none.
  - apply IH.
    + intros x Hx. apply Hl. right. exact Hx.
    + intros x y Hx. apply H. right. exact Hx.
  - apply (Hl (lit, t0)). left. reflexivity.
  - intros s'. apply (H (lit, t0)). left. reflexivity.
Qed.

Lemma terminals_ascii x : In x terminals -> ascii_lit (fst x) = true.
Proof. cbn. intros H. repeat destruct H as [<- | H]; try reflexivity. destruct H. Qed.

Lemma terminals_length x : In x terminals -> (0 < String.length (fst x))%nat.
Proof. cbn. intros H. repeat destruct H as [<- | H]; cbn; lia. Qed.

Lemma lex_terminal_length s t s' :
  lex_terminal terminals s = Some (t, s') -> (String.length s' < String.length s)%nat.
Proof.
  intros H. apply lex_terminal_inv in H as (l1 & lit & l2 & Hl & -> & _); [| apply terminals_ascii].
  rewrite length_app_s. assert (0 < String.length lit)%nat; [| lia].
  apply (terminals_length (lit, t)). rewrite Hl. apply in_app_iff. right. left. reflexivity.
Qed.

(** Terminals start with a rune that is neither a space nor, except for the keyword, a name rune. *)
Lemma lex_terminal_rune E r s : scalar r -> is_space E r = true ->
  lex_terminal terminals (encode r +++ s) = None.
Proof.
  intros Hsc Hr. apply lex_terminal_none; [apply terminals_ascii |].
  intros x y Hx Heq.
  assert (peek (fst x +++ y) = Some (r, encode r, s)) as Hp by (rewrite <- Heq; apply peek_encode; exact Hsc).
  cbn in Hx. repeat destruct Hx as [<- | Hx]; try destruct Hx; cbn in Hp; injection Hp as <- _ _;
    discriminate Hr.
Qed.

(** ** Fuel *)

Lemma scan_fuel E : forall n m s,
  (String.length s < n)%nat -> (String.length s < m)%nat -> scan E n s = scan E m s.
Proof.
  induction n as [| n IH]; intros m s Hn Hm; [lia |]. destruct m as [| m]; [lia |].
  cbn [scan]. destruct (lex_terminal terminals s) as [[t s'] |] eqn:Ht.
  { apply lex_terminal_length in Ht. rewrite (IH m s') by lia. reflexivity. }
  destruct (span (is_ident_rune E) s) as [w s'] eqn:Hs. destruct w as [| a w].
  - destruct (peek s) as [[[r c] s1] |] eqn:Hp; [| reflexivity].
    destruct (is_space E r) eqn:Hr; [| reflexivity]. apply IH.
    + destruct (span (is_space E) s) as [w2 s2] eqn:Hs2. cbn [snd].
      pose proof (span_spec _ _ _ _ (space_rune_error E) Hs2) as (-> & Hst & _).
      destruct w2; [| rewrite length_app_s in Hn; cbn in Hn; lia].
      cbn in Hp. unfold stops in Hst. rewrite Hp in Hst. congruence.
    + destruct (span (is_space E) s) as [w2 s2] eqn:Hs2. cbn [snd].
      pose proof (span_spec _ _ _ _ (space_rune_error E) Hs2) as (-> & Hst & _).
      destruct w2; [| rewrite length_app_s in Hm; cbn in Hm; lia].
      cbn in Hp. unfold stops in Hst. rewrite Hp in Hst. congruence.
  - apply span_spec in Hs as (-> & _); [| apply ident_rune_error].
    rewrite length_app_s in Hn, Hm. cbn in Hn, Hm. rewrite (IH m s') by lia. reflexivity.
Qed.

(** Skipping leading white space does not change the tokens. *)
Lemma scan_skip E s n : (String.length s < n)%nat ->
  scan E n (snd (span (is_space E) s)) = scan E n s.
Proof.
  intros Hn. destruct (span (is_space E) s) as [w rest] eqn:Hsp. cbn [snd].
  pose proof (span_spec _ _ _ _ (space_rune_error E) Hsp) as (-> & Hst & rs & -> & Hrs).
  destruct rs as [| r rs]; [reflexivity |].
  inversion Hrs as [| ? ? [Hsc Hr] Hrs']; subst.
  destruct n as [| n]; [lia |]. cbn [encode_all] in *. rewrite app_assoc_s in *.
  transitivity (scan E n rest).
  { rewrite !length_app_s in Hn. pose proof (encode_nonempty r). apply scan_fuel; lia. }
  symmetry. cbn [scan].
  rewrite (lex_terminal_rune E r _ Hsc Hr).
  rewrite span_stops by (unfold stops; rewrite (peek_encode _ _ Hsc); apply space_not_ident; exact Hr).
  rewrite (peek_encode _ _ Hsc), Hr.
  rewrite Hsp. reflexivity.
Qed.

(** ** Completeness *)

Lemma app_eq_app_s a : forall b c d, a +++ b = c +++ d ->
  (exists m, a = c +++ m /\ d = m +++ b) \/ (exists x m, c = a +++ String x m /\ b = String x m +++ d).
Proof.
  induction a as [| x a IH]; intros b c d H.
  - cbn in H. destruct c as [| y c].
    + left. exists EmptyString. cbn in *. auto.
    + right. exists y, c. cbn. auto.
  - destruct c as [| y c].
    + left. exists (String x a). cbn in *. auto.
    + cbn in H. injection H as <- H. apply IH in H as [(m & -> & ->) | (z & m & -> & ->)].
      * left. exists m. auto.
      * right. exists z, m. auto.
Qed.

Lemma prefix_app a b : prefix a (a +++ b) = true.
Proof. induction a; cbn; [destruct b; reflexivity |]. destruct (Ascii.ascii_dec a a); [assumption | congruence]. Qed.

Lemma prefix_inv a : forall b, prefix a b = true -> exists m, b = a +++ m.
Proof.
  induction a as [| x a IH]; intros b H; [exists b; reflexivity |].
  destruct b as [| y b]; [discriminate |]. cbn in H.
  destruct (Ascii.ascii_dec x y) as [<- | _]; [| discriminate].
  apply IH in H as [m ->]. exists m. reflexivity.
Qed.

Lemma name_first E w : name E w ->
  exists r rs, w = encode_all (r :: rs) /\ scalar r /\ is_ident_rune E r = true /\
               Forall (fun r => scalar r /\ is_ident_rune E r = true) rs.
Proof.
  intros (rs & -> & Hne & Hrs). destruct rs as [| r rs]; [congruence |].
  inversion Hrs as [| ? ? [H1 H2] H3]; subst. exists r, rs. auto.
Qed.

Lemma lex_terminal_name E w s : name E w -> prefix "_this" w = false -> no_name_here E s ->
  lex_terminal terminals (w +++ s) = None.
Proof.
  intros Hw Hpre Hs. apply lex_terminal_none; [apply terminals_ascii |].
  intros x y Hx Heq.
  destruct (String.eqb_spec (fst x) "_this") as [Hx' | Hx'].
  - rewrite Hx' in Heq. apply app_eq_app_s in Heq as [(m & -> & _) | (c & m & Hc & ->)].
    + rewrite prefix_app in Hpre. discriminate.
    + assert (is_ident_rune E (byte c) = true /\ scalar (byte c) /\ byte c < 128) as (Hi & Hsc & Hlt).
      { clear -Hc. unfold scalar.
        do 5 (destruct w as [| ? w];
              [cbn in Hc; injection Hc; intros; subst; cbn;
               split; [reflexivity | split; [left |]; reflexivity]
              | cbn in Hc; injection Hc as <- Hc]).
        destruct w; discriminate Hc. }
      apply (Hs (byte c) (m +++ y) Hsc Hi).
      unfold encode, chr. destruct (N.ltb_spec (byte c) 128); [| lia]. rewrite chr_byte. reflexivity.
  - apply name_first in Hw as (r & rs & -> & Hsc & Hr & _).
    assert (peek (fst x +++ y) = Some (r, encode r, encode_all rs +++ s)) as Hp.
    { rewrite <- Heq. cbn [encode_all]. rewrite app_assoc_s. apply peek_encode. exact Hsc. }
    cbn in Hx. repeat destruct Hx as [<- | Hx]; try destruct Hx; cbn in Hp;
      try (exfalso; apply Hx'; reflexivity);
      injection Hp as <- _ _; discriminate Hr.
Qed.

Theorem scan_complete E s ts : tokenizes E s ts ->
  forall n, (String.length s < n)%nat -> scan E n s = Ok (ts ++ [KEof]).
Proof.
  induction 1 as [ | r s ts Hsc Hr Ht IH | s ts Ht IH | s ts Ht IH | s ts Ht IH | s ts Ht IH | s ts Ht IH
                 | s ts Hno Ht IH | s ts Ht IH | w s ts Hw Hpre Hs Ht IH]; intros n Hn;
    rewrite ?length_app_s in Hn; cbn [String.length] in Hn.
  - destruct n; [lia | reflexivity].
  - rewrite <- scan_skip by (rewrite length_app_s; exact Hn).
    assert (snd (span (is_space E) (encode r +++ s)) = snd (span (is_space E) s)) as ->.
    { destruct (span (is_space E) s) as [w rest] eqn:Hsp.
      pose proof (span_spec _ _ _ _ (space_rune_error E) Hsp) as (-> & Hst & rs & -> & Hrs).
      change (encode r +++ encode_all rs +++ rest) with (encode r +++ (encode_all rs +++ rest)).
      rewrite <- app_assoc_s. change (encode r +++ encode_all rs) with (encode_all (r :: rs)).
      rewrite span_all; auto. }
    rewrite scan_skip by lia. apply IH. lia.
  - destruct n as [| n]; [lia |]. cbn -[span]. rewrite IH by lia. reflexivity.
  - destruct n as [| n]; [lia |]. cbn -[span]. rewrite IH by lia. reflexivity.
  - destruct n as [| n]; [lia |]. cbn -[span]. rewrite IH by lia. reflexivity.
  - destruct n as [| n]; [lia |]. cbn -[span]. rewrite IH by lia. reflexivity.
  - destruct n as [| n]; [lia |]. cbn -[span]. rewrite IH by lia. reflexivity.
  - destruct n as [| n]; [lia |]. cbn [scan].
    assert (lex_terminal terminals ("-" +++ s) = Some (KDiff, s)) as ->.
    { assert (consume "->" ("-" +++ s) = None) as Hc.
      { apply consume_none; [reflexivity |]. intros s' Heq. cbn in Heq. injection Heq as Heq.
        apply (Hno s'). exact Heq. }
      unfold terminals. cbn [lex_terminal]. rewrite Hc. reflexivity. }
    rewrite IH by lia. reflexivity.
  - destruct n as [| n]; [lia |]. cbn -[span]. rewrite IH by lia. reflexivity.
  - pose proof Hw as (rs & -> & Hne & Hrs).
    assert (String.length (encode_all rs) <> 0%nat) as Hlen.
    { pose proof (encode_all_length rs). destruct rs; [congruence | cbn in *; lia]. }
    destruct n as [| n]; [lia |]. cbn [scan].
    rewrite (lex_terminal_name E _ _ Hw Hpre Hs).
    rewrite (span_all _ _ _ Hrs) by (apply stops_ident_iff; exact Hs).
    destruct (encode_all rs) as [| a x] eqn:Hw'; [cbn in Hlen; congruence |].
    rewrite IH by (cbn in Hn; lia). reflexivity.
Qed.

(** ** Soundness *)

Lemma tokenizes_spaces E rs s ts :
  Forall (fun r => scalar r /\ is_space E r = true) rs -> tokenizes E s ts ->
  tokenizes E (encode_all rs +++ s) ts.
Proof.
  induction 1 as [| r rs [Hsc Hr] Hrs IH]; intros Ht; [exact Ht |].
  cbn [encode_all]. rewrite app_assoc_s. apply tz_space; auto.
Qed.

Theorem scan_sound E : forall n s ts,
  scan E n s = Ok ts -> (exists ts', ts = ts' ++ [KEof] /\ tokenizes E s ts') \/
                        (exists ts', ts = ts' ++ [KError]).
Proof.
  induction n as [| n IH]; intros s ts; cbn [scan]; [discriminate |].
  destruct (lex_terminal terminals s) as [[t s'] |] eqn:Ht.
  { intros H. apply bind_ok in H as (ts1 & H1 & [= <-]).
    apply IH in H1 as [(ts' & -> & H1) | (ts' & ->)]; [left | right; exists (t :: ts'); reflexivity].
    exists (t :: ts'). split; [reflexivity |].
    apply lex_terminal_inv in Ht as (l1 & lit & l2 & Hl & -> & Hno); [| apply terminals_ascii].
    unfold terminals in Hl.
    do 7 (destruct l1 as [| x1 l1]; [cbn in Hl; injection Hl as <- <- _ | cbn in Hl; injection Hl as <- Hl];
          [ solve [ constructor; solve [ exact H1
                  | intros s1 ->; apply (Hno ("->", KArrow)%string s1); [cbn; auto | reflexivity] ] ] | ]).
    destruct l1; discriminate Hl. }
  destruct (span (is_ident_rune E) s) as [w s'] eqn:Hs. destruct w as [| a w].
  - destruct (peek s) as [[[r c] s1] |] eqn:Hp.
    + destruct (is_space E r) eqn:Hr.
      * intros H. apply IH in H as [(ts' & -> & H) | H]; [left | right; exact H].
        exists ts'. split; [reflexivity |].
        destruct (span (is_space E) s) as [w2 s2] eqn:Hs2.
        pose proof (span_spec _ _ _ _ (space_rune_error E) Hs2) as (-> & Hst & rs & -> & Hrs).
        apply tokenizes_spaces; auto.
      * intros [= <-]. right. exists []. reflexivity.
    + intros [= <-]. left. exists []. split; [reflexivity |]. destruct s; [constructor |].
      exfalso. clear -Hp. cbn [peek] in Hp.
      repeat match type of Hp with
             | context [if ?b then _ else _] => destruct b
             | context [match ?x with _ => _ end] => destruct x
             end; discriminate.
  - intros H. apply bind_ok in H as (ts1 & H1 & [= <-]).
    apply span_spec in Hs as (-> & Hst & rs & Hw & Hrs); [| apply ident_rune_error].
    assert (name E (String a w)) as Hname.
    { exists rs. split; [exact Hw |]. split; [| exact Hrs]. intros ->. discriminate. }
    apply IH in H1 as [(ts' & -> & H1) | (ts' & ->)];
      [left | right; exists (KIdent (String a w) :: ts'); reflexivity].
    exists (KIdent (String a w) :: ts'). split; [reflexivity |].
    apply tz_name; auto.
    + destruct (prefix "_this" (String a w)) eqn:Hpre; [| reflexivity].
      exfalso. assert (exists m, String a w = "_this" +++ m) as (m & Hm).
      { apply prefix_inv. exact Hpre. }
      rewrite Hm in Ht. cbn in Ht. discriminate Ht.
    + apply stops_ident_iff. exact Hst.
Qed.

Lemma scan_no_fuel E : forall n s, (String.length s < n)%nat -> exists ts, scan E n s = Ok ts.
Proof.
  induction n as [| n IH]; intros s Hn; [lia |]. cbn [scan].
  destruct (lex_terminal terminals s) as [[t s'] |] eqn:Ht.
  { apply lex_terminal_length in Ht. destruct (IH s') as [ts ->]; [lia |]. cbn. eauto. }
  destruct (span (is_ident_rune E) s) as [w s'] eqn:Hs. destruct w as [| a w].
  - destruct (peek s) as [[[r c] s1] |] eqn:Hp; [| eauto].
    destruct (is_space E r) eqn:Hr; [| eauto]. apply IH.
    destruct (span (is_space E) s) as [w2 s2] eqn:Hs2. cbn [snd].
    pose proof (span_spec _ _ _ _ (space_rune_error E) Hs2) as (-> & Hst & _).
    destruct w2; [| rewrite length_app_s in Hn; cbn in Hn; lia].
    cbn in Hp. unfold stops in Hst. rewrite Hp in Hst. congruence.
  - apply span_spec in Hs as (-> & _); [| apply ident_rune_error].
    rewrite length_app_s in Hn. cbn in Hn. destruct (IH s') as [ts ->]; [lia |]. cbn. eauto.
Qed.
