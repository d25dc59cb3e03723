(** The positions of tokens. *)
From Coq Require Import Lia.
From Verif Require Import Base Domain Lexer LexPos BaseFacts SpecGrammar SpecSpan LexerFacts.
Local Open Scope nat_scope.

Lemma substring_0_s w r : substring 0 (String.length w) (w +++ r) = w.
Proof. induction w as [| a w IH]; cbn; [destruct r; reflexivity | rewrite IH; reflexivity]. Qed.

Lemma substring_mid p w r : substring (String.length p) (String.length w) (p +++ w +++ r) = w.
Proof. induction p as [| a p IH]; cbn; [apply substring_0_s | exact IH]. Qed.

Lemma slice_mid p w r : slice (p +++ w +++ r) (String.length p) (String.length p + String.length w) = Ok w.
Proof.
  unfold slice. rewrite !length_app_s.
  replace (String.length p <=? String.length p + String.length w) with true by (symmetry; apply Nat.leb_le; lia).
  replace (_ <=? _) with true by (symmetry; apply Nat.leb_le; lia). cbn [andb].
  replace (String.length p + String.length w - String.length p) with (String.length w) by lia. rewrite substring_mid. reflexivity.
Qed.

Lemma slice_rest p r : slice_from (p +++ r) (String.length p) = Ok r.
Proof. unfold slice_from. rewrite length_app_s. pose proof (slice_mid p r "") as H. rewrite app_nil_r_s in H. exact H. Qed.

(** The text before the token, the token so far, and the rest. *)
Definition at_text (p w r : string) (L : lexer) : Prop :=
  lx_input L = p +++ w +++ r /\ lx_start L = String.length p /\ lx_curr L = String.length p + String.length w.

Lemma peek_some s : s <> ""%string -> exists x, peek s = Some x.
Proof.
  destruct s as [| a s]; [congruence |]. intros _. cbn [peek].
  repeat match goal with
         | |- context [if ?b then _ else _] => destruct b
         | |- context [match ?x with _ => _ end] => destruct x
         end; eauto.
Qed.

Lemma peek_at p w r L : at_text p w r L ->
  l_peek L = Ok (match peek r with Some (x, c, _) => (Some x, String.length c) | None => (None, 0) end).
Proof.
  intros (Hi & Hs & Hc). unfold l_peek. rewrite Hi, Hc, !length_app_s. destruct r as [| a r].
  - replace (_ =? _) with true by (symmetry; apply Nat.eqb_eq; cbn; lia). reflexivity.
  - replace (_ =? _) with false by (symmetry; apply Nat.eqb_neq; cbn; lia).
    rewrite <- app_assoc_s. rewrite <- length_app_s. rewrite slice_rest. cbn [bind]. unfold decode_rune.
    destruct (peek_some (String a r)) as [[[x c] y] ->]; [discriminate |]. reflexivity.
Qed.

Lemma step_at p w r L x c r' : at_text p w r L -> peek r = Some (x, c, r') ->
  exists L', l_step L = Ok (Some x, L') /\ at_text p (w +++ c) r' L' /\ lx_q L' = lx_q L.
Proof.
  intros H Hp. unfold l_step. rewrite (peek_at _ _ _ _ H), Hp. cbn [bind fst snd]. eexists. split; [reflexivity |].
  destruct H as (Hi & Hs & Hc). apply peek_inv in Hp as (-> & _). split; [| reflexivity].
  repeat split; cbn; [rewrite Hi, app_assoc_s; reflexivity | exact Hs | rewrite length_app_s, Hc; lia].
Qed.

(** ** Terminals *)

Lemma consume_at lit : forall p w r L, at_text p w r L -> ascii_lit lit = true ->
  match consume lit r with
  | Some r' => exists L', l_consume_runes lit L = Ok (true, L') /\ at_text p (w +++ lit) r' L' /\ lx_q L' = lx_q L
  | None => exists L', l_consume_runes lit L = Ok (false, L') /\ lx_input L' = lx_input L /\ lx_start L' = lx_start L /\ lx_q L' = lx_q L
  end.
Proof.
  induction lit as [| a lit IH]; intros p w r L H Hl; cbn [consume l_consume_runes].
  - exists L. rewrite app_nil_r_s. auto.
  - cbn [ascii_lit] in Hl. apply andb_true_iff in Hl as [Ha Hl]. apply N.ltb_lt in Ha.
    unfold l_step_if_rune. rewrite (peek_at _ _ _ _ H). cbn [bind].
    destruct (peek r) as [[[x c] r'] |] eqn:Hp; cbn [fst].
    + destruct (N.eqb x (byte a)) eqn:Hx.
      * destruct (step_at _ _ _ _ _ _ _ H Hp) as (L' & Hst & Hat & Hq). rewrite Hst. cbn [bind fst snd].
        apply N.eqb_eq in Hx. pose proof (peek_is_ascii _ _ _ _ _ Ha Hp Hx) as Hr.
        assert (Hc : c = one a).
        { rewrite Hr, (peek_ascii a _ Ha) in Hp. congruence. }
        subst c. specialize (IH p (w +++ one a) r' L' Hat Hl). destruct (consume lit r') as [r'' |].
        -- destruct IH as (L2 & H1 & H2 & H3). exists L2. rewrite app_assoc_s in H2. split; [exact H1 |]. split; [exact H2 | congruence].
        -- destruct IH as (L2 & H1 & H2 & H3 & H4). exists L2. split; [exact H1 |]. pose proof H as (G1 & G2 & _).
           destruct Hat as (G1' & G2' & _). apply peek_inv in Hp as (Hr' & _). split; [| split; congruence].
           rewrite H2, G1', G1, Hr', app_assoc_s. reflexivity.
      * exists L. auto.
    + exists L. auto.
Qed.

Lemma consume_string_at lit p r L : at_text p "" r L -> ascii_lit lit = true ->
  match consume lit r with
  | Some r' => exists L', l_consume_string lit L = Ok (true, L') /\ at_text p lit r' L' /\ lx_q L' = lx_q L
  | None => exists L', l_consume_string lit L = Ok (false, L') /\ at_text p "" r L' /\ lx_q L' = lx_q L
  end.
Proof.
  intros H Hl. pose proof (consume_at lit p "" r L H Hl) as Hc. unfold l_consume_string. destruct (consume lit r) as [r' |].
  - destruct Hc as (L' & -> & H1 & H2). exists L'. auto.
  - destruct Hc as (L' & -> & H1 & H2 & H3). cbn [bind fst snd]. eexists. split; [reflexivity |].
    destruct H as (G1 & G2 & G3). split; [| exact H3]. repeat split; cbn [lx_input lx_start lx_curr]; congruence.
Qed.

Lemma emit_at ty p w r L : at_text p w r L ->
  exists L', l_emit ty L = Ok L' /\ at_text (p +++ w) "" r L' /\
    lx_q L' = lx_q L ++ [mkToken ty w (String.length p) (String.length (p +++ w))].
Proof.
  intros (Hi & Hs & Hc). unfold l_emit. rewrite Hi, Hs, Hc, slice_mid. cbn [bind]. eexists. split; [reflexivity |].
  repeat split; cbn [l_ignore lx_input lx_start lx_curr lx_q]; rewrite ?app_assoc_s, ?length_app_s; cbn; auto; lia.
Qed.

(** The terminals of both lexers. *)
Definition terminal_kind (x : tok_type * string) : string * tok := (snd x, kind (mkToken (fst x) "" 0 0)).

Lemma terminals_same : map terminal_kind l_terminals = terminals.
Proof. reflexivity. Qed.

Lemma lex_terminals_at p r : forall l L, at_text p "" r L -> (forall x, In x l -> ascii_lit (snd x) = true) ->
  match lex_terminal (map terminal_kind l) r with
  | Some (k, r') => exists L' ty lit, l_lex_terminals l L = Ok (true, L') /\ In (ty, lit) l /\ k = kind (mkToken ty "" 0 0) /\
      r = lit +++ r' /\ at_text (p +++ lit) "" r' L' /\
      lx_q L' = lx_q L ++ [mkToken ty lit (String.length p) (String.length (p +++ lit))]
  | None => exists L', l_lex_terminals l L = Ok (false, L') /\ at_text p "" r L' /\ lx_q L' = lx_q L
  end.
Proof.
  induction l as [| [ty lit] l IH]; intros L H Hl; cbn [map terminal_kind lex_terminal l_lex_terminals fst snd].
  - exists L. auto.
  - pose proof (Hl _ (or_introl eq_refl)) as Hlit. cbn [snd] in Hlit. pose proof (consume_string_at lit p r L H Hlit) as Hc. unfold l_lex_terminal.
    destruct (consume lit r) as [r' |] eqn:Hcon.
    + destruct Hc as (L1 & -> & H1 & H2). cbn [bind fst snd]. destruct (emit_at ty _ _ _ _ H1) as (L2 & -> & H3 & H4). cbn [bind fst snd].
      exists L2, ty, lit. split; [reflexivity |]. split; [left; reflexivity |]. split; [reflexivity |].
      split; [apply consume_spec; assumption |]. split; [exact H3 |]. rewrite H4, H2. reflexivity.
    + destruct Hc as (L1 & -> & H1 & H2). cbn [bind fst snd]. specialize (IH L1 H1 (fun x Hx => Hl x (or_intror Hx))).
      destruct (lex_terminal (map terminal_kind l) r) as [[k r'] |].
      * destruct IH as (L' & ty' & lit' & G1 & G2 & G3 & G4 & G5 & G6). exists L', ty', lit'. split; [exact G1 |]. split; [right; exact G2 |].
        split; [exact G3 |]. split; [exact G4 |]. split; [exact G5 |]. rewrite G6, H2. reflexivity.
      * destruct IH as (L' & G1 & G2 & G3). exists L'. split; [exact G1 |]. split; [exact G2 |]. congruence.
Qed.

(** ** Names and spaces *)

Lemma step_while_at f : forall n p w r L x r', at_text p w r L -> String.length r < n -> step_while f n r = (x, r') ->
  exists c L', l_step_while f n L = Ok (c, L') /\ at_text p (w +++ x) r' L' /\ lx_q L' = lx_q L /\ (c = 0 <-> x = ""%string).
Proof.
  induction n as [| n IH]; intros p w r L x r' H Hn Hs; [lia |]. cbn [l_step_while step_while] in *. unfold l_step_if.
  rewrite (peek_at _ _ _ _ H). cbn [bind]. destruct (peek r) as [[[y c] r1] |] eqn:Hp; cbn [fst holds].
  - destruct (f y).
    + destruct (step_at _ _ _ _ _ _ _ H Hp) as (L1 & -> & H1 & H2). cbn [bind fst snd].
      destruct (step_while f n r1) as [x1 r2] eqn:Hs1. injection Hs as <- <-. pose proof (peek_length _ _ _ _ Hp).
      destruct (IH p (w +++ c) r1 L1 x1 r2 H1) as (k & L2 & -> & G2 & G3 & _); [lia | exact Hs1 |]. cbn [bind fst snd].
      exists (S k), L2. split; [reflexivity |]. rewrite app_assoc_s in G2. split; [exact G2 |]. split; [congruence |].
      apply peek_inv in Hp as (_ & Hc & _). split; [discriminate |]. destruct c; [congruence | discriminate].
    + injection Hs as <- <-. exists 0, L. rewrite app_nil_r_s. cbn [bind fst snd]. repeat split; auto; apply H.
  - injection Hs as <- <-. exists 0, L. rewrite app_nil_r_s. cbn [bind fst snd]. repeat split; auto; apply H.
Qed.

Lemma step_while_more f : forall n m r, String.length r <= n -> String.length r <= m -> step_while f n r = step_while f m r.
Proof.
  induction n as [| n IH]; intros m r Hn Hm.
  - destruct r; [| cbn in Hn; lia]. destruct m; reflexivity.
  - destruct m as [| m]; [destruct r; [reflexivity | cbn in Hm; lia] |]. cbn [step_while].
    destruct (peek r) as [[[y c] r1] |] eqn:Hp; [| reflexivity]. destruct (f y); [| reflexivity].
    pose proof (peek_length _ _ _ _ Hp). rewrite (IH m r1) by lia. reflexivity.
Qed.

Lemma span_at f p r L x r' : at_text p "" r L -> span f r = (x, r') ->
  exists c L', l_step_while f (S (String.length (lx_input L))) L = Ok (c, L') /\ at_text p x r' L' /\ lx_q L' = lx_q L /\ (c = 0 <-> x = ""%string).
Proof.
  intros H Hs. apply (step_while_at f _ p "" r); [exact H | |].
  - destruct H as (-> & _). rewrite !length_app_s. lia.
  - unfold span in Hs. rewrite <- Hs. apply step_while_more; [destruct H as (-> & _); rewrite !length_app_s; lia | lia].
Qed.

(** ** The whole text *)

Lemma white_nil E : white E "".
Proof. exists []. split; [reflexivity | constructor]. Qed.

Lemma encode_all_app rs rs' : encode_all (rs ++ rs') = encode_all rs +++ encode_all rs'.
Proof. induction rs as [| r rs IH]; [reflexivity |]. cbn [app encode_all]. rewrite IH, app_assoc_s. reflexivity. Qed.

Lemma white_app E a b : white E a -> white E b -> white E (a +++ b).
Proof. intros (x & -> & Hx) (y & -> & Hy). exists (x ++ y). split; [symmetry; apply encode_all_app | apply Forall_app; auto]. Qed.

Lemma tiles_space E w : white E w -> forall b r ts, tiles E (b +++ w) r ts -> tiles E b (w +++ r) ts.
Proof.
  intros Hw b r ts H.
  assert (G : forall c d, (b +++ w) +++ c = b +++ (w +++ c) /\ (b +++ w) +++ c +++ d = b +++ (w +++ c) +++ d /\ w +++ c +++ d = (w +++ c) +++ d)
    by (intros; rewrite !app_assoc_s; auto).
  inversion H as [b0 w0 x r0 ty ts0 Hw0 Hx Ht | b0 w0 Hw0 | b0 w0 r0 Hw0 Hf]; subst.
  - destruct (G w0 x) as (-> & H2 & _). rewrite H2 in *. destruct (G w0 (x +++ r0)) as (_ & _ & ->).
    apply ti_token; [apply white_app; assumption | exact Hx | exact Ht].
  - destruct (G r ""%string) as (-> & _). apply ti_end, white_app; assumption.
  - destruct (G w0 r0) as (-> & _ & ->). apply ti_error; [apply white_app; assumption | exact Hf].
Qed.

Lemma terminal_lexeme E ty lit r : In (ty, lit) l_terminals -> (ty = TyDiff -> forall r', r <> ">" +++ r') ->
  lexeme E ty lit r /\ kind (mkToken ty "" 0 0) = kind (mkToken ty lit 0 0).
Proof.
  cbn. intros H Hd. repeat (destruct H as [H | H]; [injection H as <- <-; split; [solve [constructor | constructor; apply Hd; reflexivity] | reflexivity] |]). contradiction.
Qed.

(** What comes before a difference is no arrow. *)
Lemma terminal_diff r k r' : lex_terminal terminals r = Some (k, r') -> k = KDiff -> forall r'', r' <> ">" +++ r''.
Proof.
  intros H -> r'' ->. apply lex_terminal_inv in H as (l1 & lit & l2 & Hl & -> & Hno); [| apply terminals_ascii].
  unfold terminals in Hl.
  do 4 (destruct l1 as [| x1 l1]; [discriminate Hl | cbn in Hl; injection Hl as <- Hl]).
  destruct l1 as [| x1 l1].
  - cbn in Hl. assert (lit = "-"%string) as -> by congruence. apply (Hno ("->", KArrow)%string r''); [cbn; auto | reflexivity].
  - do 2 (cbn in Hl; injection Hl as <- Hl; destruct l1 as [| x1 l1]; [discriminate Hl |]). cbn in Hl. injection Hl as <- Hl. destruct l1; discriminate Hl.
Qed.

Lemma terminal_absent l s : (forall x, In x l -> ascii_lit (fst x) = true) -> lex_terminal l s = None ->
  forall x y, In x l -> s <> fst x +++ y.
Proof.
  induction l as [| [lit k] l IH]; intros Hl H x y Hx; [contradiction |]. cbn [lex_terminal] in H.
  destruct (consume lit s) as [s1 |] eqn:Hc; [discriminate |]. destruct Hx as [<- | Hx].
  - intros ->. assert (consume lit (lit +++ y) = Some y); [| cbn [fst] in *; congruence].
    apply consume_spec; [exact (Hl _ (or_introl eq_refl)) | reflexivity].
  - apply IH; auto. intros z Hz. apply Hl. right. exact Hz.
Qed.

Lemma none_foreign E r : lex_terminal terminals r = None -> r <> ""%string -> stops (is_ident_rune E) r ->
  stops (is_space E) r -> foreign E r.
Proof.
  intros Ht Hne Hi Hs. split; [exact Hne |]. split.
  - intros x Hx r'. assert (Hx' : exists k, In (x, k) terminals) by (cbn in *; repeat (destruct Hx as [<- | Hx]; [eexists; eauto 9 |]); contradiction).
    destruct Hx' as [k Hk]. exact (terminal_absent terminals r terminals_ascii Ht (x, k) r' Hk).
  - intros c r' Hc ->. unfold stops in Hi, Hs. rewrite (peek_encode _ _ Hc) in Hi, Hs. auto.
Qed.

Lemma scan_at E : forall n p r L ts, at_text p "" r L -> scan E n r = Ok ts ->
  exists toks L', l_scan E n L = Ok L' /\ lx_q L' = lx_q L ++ toks /\ map kind toks = ts /\ tiles E p r toks.
Proof.
  induction n as [| n IH]; intros p r L ts H Hs; [discriminate |]. cbn [scan l_scan] in *.
  pose proof (lex_terminals_at p r l_terminals L H) as Ht. rewrite terminals_same in Ht.
  specialize (Ht (fun x Hx => terminals_ascii (terminal_kind x) (in_map terminal_kind _ _ Hx))).
  destruct (lex_terminal terminals r) as [[k r'] |] eqn:Hlt.
  - destruct Ht as (L' & ty & lit & -> & Hin & -> & -> & Hat & Hq). cbn [bind fst snd]. apply bind_ok in Hs as (ts1 & Hs & [= <-]).
    destruct (terminal_lexeme E ty lit r' Hin) as [Hl Hk]; [intros ->; apply (terminal_diff _ _ _ Hlt); reflexivity |]. destruct (IH _ _ _ _ Hat Hs) as (toks & L2 & H1 & H2 & H3 & H4).
    eexists (_ :: toks), L2. split; [exact H1 |]. split; [rewrite H2, Hq, <- app_assoc; reflexivity |]. cbn [map app]. split.
    + rewrite H3, Hk. reflexivity.
    + pose proof (ti_token E p "" lit r' ty toks (white_nil E) Hl H4) as G. rewrite app_nil_r_s in G. exact G.
  - destruct Ht as (L1 & -> & H1 & Hq1). cbn [bind fst snd]. unfold l_lex_identifier.
    destruct (span (is_ident_rune E) r) as [w r'] eqn:Hsp. destruct (span_at _ _ _ _ _ _ H1 Hsp) as (c & L2 & -> & H2 & Hq2 & Hc). cbn [bind fst snd].
    destruct w as [| a w].
    + destruct Hc as [_ Hc]. rewrite (Hc eq_refl). cbn [Nat.ltb Nat.leb bind fst snd].
      assert (Hr : r' = r) by (apply span_spec in Hsp as (-> & _); [reflexivity | apply ident_rune_error]). subst r'.
      rewrite (peek_at _ _ _ _ H2). cbn [bind]. destruct (peek r) as [[[y d] r1] |] eqn:Hp; cbn [fst holds].
      * destruct (is_space E y) eqn:Hy.
        -- unfold l_skip_spaces. destruct (span (is_space E) r) as [x r2] eqn:Hsp2. cbn [snd] in Hs.
           destruct (span_at _ _ _ _ _ _ H2 Hsp2) as (c2 & L3 & -> & H3 & Hq3 & _). cbn [bind fst snd].
           assert (Hat : at_text (p +++ x) "" r2 (l_ignore L3)).
           { destruct H3 as (G1 & G2 & G3). repeat split; cbn [l_ignore lx_input lx_start lx_curr]; rewrite ?G1, ?G3, ?app_assoc_s, ?length_app_s; cbn; auto; lia. }
           destruct (IH _ _ _ _ Hat Hs) as (toks & L4 & G1 & G2 & G3 & G4). exists toks, L4. split; [exact G1 |]. split.
           { rewrite G2. cbn [l_ignore lx_q]. congruence. }
           split; [exact G3 |]. apply span_spec in Hsp2 as (-> & _ & rs & -> & Hrs); [| apply space_rune_error].
           apply tiles_space; [| exact G4]. exists rs. auto.
        -- injection Hs as <-. unfold l_lex_eof. rewrite (peek_at _ _ _ _ H2), Hp. cbn [bind fst]. unfold l_emit_error.
           destruct H2 as (G1 & G2 & G3). rewrite G1, G2. cbn [String.append]. rewrite slice_rest. cbn [bind].
           eexists [_], _. split; [reflexivity |]. cbn [l_ignore lx_q]. split; [rewrite Hq2, Hq1; reflexivity |]. split; [reflexivity |].
           pose proof (ti_error E p "" r (white_nil E)) as G. rewrite app_nil_r_s in G. rewrite G3. cbn [String.length]. rewrite Nat.add_0_r. apply G.
           apply none_foreign; [exact Hlt | intros ->; discriminate Hp | | unfold stops; rewrite Hp; exact Hy].
           apply span_spec in Hsp as (_ & Hst & _); [exact Hst | apply ident_rune_error].
      * injection Hs as <-. unfold l_lex_eof. rewrite (peek_at _ _ _ _ H2), Hp. cbn [bind fst].
        destruct (emit_at TyEof _ _ _ _ H2) as (L3 & -> & _ & Hq3). eexists [_], L3. split; [reflexivity |]. split; [rewrite Hq3, Hq2, Hq1; reflexivity |].
        split; [reflexivity |]. assert (Hr : r = ""%string) by (destruct r; [reflexivity | destruct (peek_some (String a r)) as [z Hz]; [discriminate | congruence]]).
        subst r. pose proof (ti_end E p "" (white_nil E)) as G. rewrite app_nil_r_s in *. exact G.
    + apply bind_ok in Hs as (ts1 & Hs & [= <-]). destruct c as [| c]; [destruct Hc as [Hc _]; specialize (Hc eq_refl); discriminate |].
      cbn [Nat.ltb Nat.leb]. destruct (emit_at TyIdent _ _ _ _ H2) as (L3 & -> & H3 & Hq3). cbn [bind fst snd].
      destruct (IH _ _ _ _ H3 Hs) as (toks & L4 & G1 & G2 & G3 & G4).
      eexists (_ :: toks), L4. split; [exact G1 |]. split; [rewrite G2, Hq3, Hq2, Hq1, <- app_assoc; reflexivity |]. cbn [map app]. split; [rewrite G3; reflexivity |].
      apply span_spec in Hsp as (-> & Hst & rs & Hrs & Hall); [| apply ident_rune_error].
      pose proof (ti_token E p "" (String a w) r' TyIdent toks (white_nil E)) as G. rewrite app_nil_r_s in G. apply G; [| exact G4].
      constructor; [exists rs; split; [exact Hrs |]; split; [intros ->; discriminate | exact Hall] | | apply stops_ident_iff; exact Hst].
      destruct (prefix "_this" (String a w)) eqn:Hpre; [exfalso | reflexivity]. apply prefix_inv in Hpre as [m Hm].
      apply (terminal_absent terminals _ terminals_ascii Hlt ("_this", KThis)%string (m +++ r')); [cbn; auto 9 |]. rewrite Hm. apply app_assoc_s.
Qed.

Lemma lex_tokens_ok E s : exists toks, lex_tokens E s = Ok toks /\ lex E s = Ok (map kind toks) /\ tiles E "" s toks.
Proof.
  unfold lex_tokens, lex. destruct (scan_no_fuel E (S (String.length s)) s) as [ts Hs]; [lia |].
  assert (Hat : at_text "" "" s (new_lexer s)) by (repeat split).
  destruct (scan_at E _ _ _ _ _ Hat Hs) as (toks & L' & -> & Hq & Hk & Ht). exists toks. cbn [bind]. rewrite Hq. cbn [new_lexer lx_q app].
  split; [reflexivity |]. split; [congruence | exact Ht].
Qed.

(** ** Parts of the text *)

Lemma lexeme_prefix E ty x r1 r2 : lexeme E ty x (r1 +++ r2) -> lexeme E ty x r1.
Proof.
  intros H. inversion H as [| | | | r Hd | | | w r Hw Hp Hn]; subst; constructor; auto.
  - intros r' ->. exact (Hd (r' +++ r2) eq_refl).
  - intros c s' Hc Hi ->. apply (Hn c (s' +++ r2) Hc Hi). apply app_assoc_s.
Qed.

Lemma tokenizes_lexeme E ty x r ts i j : lexeme E ty x r -> tokenizes E r ts -> tokenizes E (x +++ r) (kind (mkToken ty x i j) :: ts).
Proof. intros H Ht. inversion H; subst; cbn [kind tk_type tk_lexeme]; constructor; assumption. Qed.

Lemma tokenizes_white E w s ts : white E w -> tokenizes E s ts -> tokenizes E (w +++ s) ts.
Proof. intros (rs & -> & Hrs). apply tokenizes_spaces. exact Hrs. Qed.

Lemma lexeme_type E ty x r : lexeme E ty x r -> ty <> TyError /\ ty <> TyEof.
Proof. intros H. inversion H; split; discriminate. Qed.

(** Where each token lies, and what comes before it. *)
Lemma tiles_at E b r toks : tiles E b r toks -> forall toks1 t toks2, toks = toks1 ++ t :: toks2 ->
  exists x y, r = x +++ y /\ tk_start t = String.length (b +++ x) /\ tokenizes E x (map kind toks1) /\
    (tk_type t = TyError -> toks2 = [] /\ tk_end t = tk_start t /\ foreign E y /\ tk_lexeme t = "unknown token: context: " +++ y) /\
    (tk_type t = TyEof -> toks2 = [] /\ tk_end t = tk_start t /\ y = ""%string /\ tk_lexeme t = ""%string) /\
    (tk_type t <> TyError -> exists y', y = tk_lexeme t +++ y' /\ tk_end t = String.length (b +++ x +++ tk_lexeme t)).
Proof.
  induction 1 as [b w x r ty ts Hw Hx Ht IH | b w Hw | b w r Hw Hf]; intros toks1 t toks2 Heq.
  - destruct toks1 as [| t1 toks1]; cbn [app] in Heq; injection Heq as <- Heq.
    + subst toks2. exists w, (x +++ r). cbn [tk_type tk_start tk_end tk_lexeme map]. destruct (lexeme_type _ _ _ _ Hx) as [Hne Hne'].
      split; [reflexivity |]. split; [reflexivity |].
      split; [rewrite <- (app_nil_r_s w); apply tokenizes_white; [exact Hw | constructor] |].
      split; [congruence |]. split; [congruence |]. intros _. exists r. split; reflexivity.
    + destruct (IH _ _ _ Heq) as (x' & y' & -> & H1 & H2 & H3). exists (w +++ x +++ x'), y'.
      rewrite !app_assoc_s in *. split; [reflexivity |]. split; [rewrite H1; rewrite ?app_assoc_s; reflexivity |]. cbn [map]. split.
      * apply tokenizes_white; [exact Hw |]. apply tokenizes_lexeme; [| exact H2]. eapply lexeme_prefix. exact Hx.
      * exact H3.
  - destruct toks1 as [| t1 toks1]; cbn [app] in Heq; injection Heq as <- Heq; [| destruct toks1; discriminate Heq]. subst toks2.
    exists w, ""%string. cbn [tk_type tk_start tk_end tk_lexeme map]. split; [symmetry; apply app_nil_r_s |]. split; [reflexivity |].
    split; [rewrite <- (app_nil_r_s w); apply tokenizes_white; [exact Hw | constructor] |].
    split; [discriminate |]. split; [auto |]. intros _. exists ""%string. split; [reflexivity | rewrite app_nil_r_s; reflexivity].
  - destruct toks1 as [| t1 toks1]; cbn [app] in Heq; injection Heq as <- Heq; [| destruct toks1; discriminate Heq]. subst toks2.
    exists w, r. cbn [tk_type tk_start tk_end tk_lexeme map]. split; [reflexivity |]. split; [reflexivity |].
    split; [rewrite <- (app_nil_r_s w); apply tokenizes_white; [exact Hw | constructor] |].
    split; [auto |]. split; [discriminate |]. congruence.
Qed.

(** ** No longer part reads as tokens *)

Lemma foreign_stuck E y1 y2 ts : foreign E (y1 +++ y2) -> y1 <> ""%string -> ~ tokenizes E y1 ts.
Proof.
  intros (_ & Hl & Hc) Hne Ht.
  assert (Hlit : forall x s, In x ["("; ")"; "+"; "-"; "&"]%string -> y1 <> x +++ s).
  { intros x s Hin ->. apply (Hl x Hin (s +++ y2)). apply app_assoc_s. }
  assert (Hrune : forall c s, scalar c -> y1 = encode c +++ s -> is_space E c = false /\ is_ident_rune E c = false).
  { intros c s Hs ->. apply (Hc c (s +++ y2) Hs). apply app_assoc_s. }
  destruct Ht as [| r s ts Hs Hr Ht | s ts Ht | s ts Ht | s ts Ht | s ts Ht | s ts Ht | s ts Hno Ht | s ts Ht | w s ts (rs & -> & Hrs & Hall) Hp Hno Ht].
  - congruence.
  - destruct (Hrune r s Hs eq_refl). congruence.
  - apply (Hlit "("%string s); cbn; auto.
  - apply (Hlit ")"%string s); cbn; auto.
  - apply (Hlit "-"%string (">" +++ s)); cbn; auto.
  - apply (Hlit "+"%string s); cbn; auto.
  - apply (Hlit "&"%string s); cbn; auto 9.
  - apply (Hlit "-"%string s); cbn; auto.
  - destruct (Hrune 95%N ("this" +++ s)) as [_ Hi]; [left; reflexivity | reflexivity |]. discriminate Hi.
  - destruct rs as [| c rs]; [congruence |]. inversion Hall as [| ? ? [Hs Hi] _]; subst.
    destruct (Hrune c (encode_all rs +++ s) Hs) as [_ Hi']; [cbn [encode_all]; apply app_assoc_s | congruence].
Qed.

Lemma tokenizes_scan E s ts : tokenizes E s ts <-> scan E (S (String.length s)) s = Ok (ts ++ [KEof]).
Proof.
  split; [intros H; apply scan_complete; [exact H | lia] |]. intros H.
  apply scan_sound in H as [(ts' & H & Ht) | (ts' & H)]; apply app_inj_tail in H as [-> H]; [exact Ht | discriminate].
Qed.

Lemma tokenizes_unspace E w s ts : white E w -> tokenizes E (w +++ s) ts -> tokenizes E s ts.
Proof.
  intros (rs & -> & Hrs) H. apply tokenizes_scan in H. apply tokenizes_scan.
  destruct (scan_no_fuel E (S (String.length s)) s) as [ts' Hs]; [lia |].
  assert (Hw : scan E (S (String.length (encode_all rs +++ s))) (encode_all rs +++ s) = Ok ts'); [| congruence].
  clear H. rewrite <- Hs. rewrite <- scan_skip by lia.
  destruct (span (is_space E) s) as [w rest] eqn:Hsp.
  pose proof (span_spec _ _ _ _ (space_rune_error E) Hsp) as (Heq & Hst & rs' & -> & Hrs').
  rewrite <- (scan_skip E s) by lia. rewrite Hsp. cbn [snd]. rewrite Heq, <- app_assoc_s, <- encode_all_app, span_all; [cbn [snd] | apply Forall_app; auto | exact Hst].
  rewrite scan_fuel with (m := S (String.length rest)); [| rewrite !length_app_s; lia | lia].
  symmetry. apply scan_fuel; [rewrite !length_app_s |]; lia.
Qed.

Lemma scan_lexeme E ty x r n i j : lexeme E ty x r ->
  scan E (S n) (x +++ r) = let* ts := scan E n r in Ok (kind (mkToken ty x i j) :: ts).
Proof.
  intros H. inversion H as [| | | | r' Hno | | | w r' Hw Hpre Hs]; subst; try (cbn -[span scan]; cbn [scan]; reflexivity); cbn [scan].
  - assert (lex_terminal terminals ("-" +++ r) = Some (KDiff, r)) as ->; [| reflexivity].
    assert (consume "->" ("-" +++ r) = None) as Hc.
    { apply consume_none; [reflexivity |]. intros s' Heq. cbn in Heq. injection Heq as Heq. apply (Hno s'). exact Heq. }
    unfold terminals. cbn [lex_terminal]. rewrite Hc. reflexivity.
  - rewrite (lex_terminal_name E _ _ Hw Hpre Hs). pose proof Hw as (rs & -> & Hne & Hrs).
    rewrite (span_all _ _ _ Hrs) by (apply stops_ident_iff; exact Hs).
    destruct (encode_all rs) as [| a y] eqn:Hy; [| reflexivity]. exfalso. pose proof (encode_all_length rs) as Hl. rewrite Hy in Hl. destruct rs; [congruence | cbn in Hl; lia].
Qed.

Lemma tokenizes_rest E ty x r ts : lexeme E ty x r -> tokenizes E (x +++ r) ts -> exists ts', tokenizes E r ts'.
Proof.
  intros Hx Ht. destruct (scan_no_fuel E (S (String.length r)) r) as [ts' Hs]; [lia |].
  pose proof (scan_sound E _ _ _ Hs) as [(t1 & -> & H1) | (t1 & ->)]; [eauto |]. exfalso.
  apply tokenizes_scan in Ht. pose proof (scan_lexeme E ty x r (String.length (x +++ r)) 0 0 Hx) as H.
  rewrite Ht in H. rewrite (scan_fuel E _ (S (String.length r))) in H; [| | lia].
  - rewrite Hs in H. cbn [bind] in H. injection H as H. change (kind (mkToken ty x 0 0) :: t1 ++ [KError]) with ((kind (mkToken ty x 0 0) :: t1) ++ [KError]) in H.
    apply app_inj_tail in H as [_ H]. discriminate H.
  - rewrite length_app_s. assert (0 < String.length x); [| lia]. inversion Hx as [| | | | | | | w r' (rs & Hrs & Hne & _)]; subst; cbn; try lia.
    pose proof (encode_all_length rs). destruct rs; [congruence | cbn in *; lia].
Qed.

Lemma prefix_cases a : forall b c d, a +++ b = c +++ d -> String.length a <= String.length c -> exists e, c = a +++ e /\ b = e +++ d.
Proof.
  induction a as [| x a IH]; intros b c d H Hl; cbn in *; [exists c; auto |].
  destruct c as [| y c]; cbn in *; [lia |]. injection H as -> H. destruct (IH b c d H) as (e & -> & ->); [lia |]. exists e. auto.
Qed.

(** Beyond an error, nothing reads as tokens. *)
Lemma tiles_stuck E b r toks : tiles E b r toks -> forall t, In t toks -> tk_type t = TyError ->
  forall x y ts, r = x +++ y -> tk_start t < String.length (b +++ x) -> ~ tokenizes E x ts.
Proof.
  induction 1 as [b w z r ty toks Hw Hx Ht IH | b w Hw | b w r Hw Hf]; intros t Hin Hty x y ts Heq Hlen Htok.
  - destruct Hin as [<- | Hin]; [destruct (lexeme_type _ _ _ _ Hx); cbn in Hty; congruence |].
    assert (Hst : String.length (b +++ w +++ z) <= tk_start t).
    { apply in_split in Hin as (t1 & t2 & ->). destruct (tiles_at _ _ _ _ Ht t1 t t2 eq_refl) as (x' & y' & _ & -> & _). rewrite (length_app_s (b +++ w +++ z)). lia. }
    rewrite <- app_assoc_s in Heq. destruct (prefix_cases _ _ _ _ Heq) as (e & -> & ->); [rewrite !length_app_s in *; lia |].
    rewrite app_assoc_s in Htok. apply tokenizes_unspace in Htok; [| exact Hw].
    destruct (tokenizes_rest E ty z e ts) as [ts' Hts]; [eapply lexeme_prefix; exact Hx | exact Htok |].
    apply (IH t Hin Hty e y ts' eq_refl); [| exact Hts]. rewrite !app_assoc_s in *. exact Hlen.
  - destruct Hin as [<- | []]. discriminate Hty.
  - destruct Hin as [<- | []]. cbn [tk_start] in Hlen. destruct (prefix_cases _ _ _ _ Heq) as (e & -> & ->); [rewrite !length_app_s in *; lia |].
    apply tokenizes_unspace in Htok; [| exact Hw]. revert Htok. apply (foreign_stuck E e y ts Hf).
    intros ->. rewrite app_nil_r_s in Hlen. lia.
Qed.

(** ** There is one way to lay out the tokens *)

Lemma foreign_stops E r : foreign E r -> stops (is_space E) r /\ stops (is_ident_rune E) r /\ lex_terminal terminals r = None.
Proof.
  intros (Hne & Hl & Hc). assert (Hst : forall f, f rune_error = false -> (forall c r', scalar c -> r = encode c +++ r' -> f c = false) -> stops f r).
  { intros f Hf H. unfold stops. destruct (peek r) as [[[c x] r'] |] eqn:Hp; [| exact I]. apply peek_inv in Hp as (-> & _ & [[Hs ->] | ->]); [| exact Hf]. eauto. }
  split; [apply Hst; [apply space_rune_error | intros c r' Hs H; apply (Hc c r' Hs H)] |].
  split; [apply Hst; [apply ident_rune_error | intros c r' Hs H; apply (Hc c r' Hs H)] |].
  apply lex_terminal_none; [apply terminals_ascii |]. intros x y Hin Heq. cbn in Hin.
  repeat (destruct Hin as [<- | Hin]; cbn [fst] in Heq); try contradiction.
  - apply (Hl "("%string) with y; cbn; auto 9.
  - apply (Hl ")"%string) with y; cbn; auto 9.
  - apply (Hl "-"%string) with (">" +++ y); cbn; auto 9.
  - apply (Hl "+"%string) with y; cbn; auto 9.
  - apply (Hl "-"%string) with y; cbn; auto 9.
  - apply (Hl "&"%string) with y; cbn; auto 9.
  - destruct (Hc 95%N ("this" +++ y)) as [_ Hi]; [left; reflexivity | exact Heq | discriminate Hi].
Qed.

Lemma lexeme_first E ty x r : lexeme E ty x r -> x <> ""%string /\ stops (is_space E) (x +++ r) /\
  ((ty <> TyIdent /\ lex_terminal terminals (x +++ r) = Some (kind (mkToken ty x 0 0), r)) \/
   (ty = TyIdent /\ lex_terminal terminals (x +++ r) = None /\ span (is_ident_rune E) (x +++ r) = (x, r))).
Proof.
  intros H. inversion H as [| | | | r' Hno | | | w r' Hw Hpre Hs]; subst;
    try (split; [discriminate |]; split; [reflexivity |]; left; split; [discriminate | reflexivity]).
  - split; [discriminate |]. split; [reflexivity |]. left. split; [discriminate |].
    assert (consume "->" ("-" +++ r) = None) as Hc.
    { apply consume_none; [reflexivity |]. intros s' Heq. cbn in Heq. injection Heq as Heq. apply (Hno s'). exact Heq. }
    unfold terminals. cbn [lex_terminal]. rewrite Hc. reflexivity.
  - pose proof Hw as (rs & -> & Hne & Hrs). destruct rs as [| c rs]; [congruence |]. split; [|split].
    + pose proof (encode_all_length (c :: rs)) as Hl. intros Heq. rewrite Heq in Hl. cbn in Hl. lia.
    + inversion Hrs as [| ? ? [Hc Hi] _]; subst. cbn [encode_all]. rewrite app_assoc_s. unfold stops. rewrite (peek_encode _ _ Hc).
      destruct (is_space E c) eqn:Hsp; [| reflexivity]. apply space_not_ident in Hsp. congruence.
    + right. split; [reflexivity |]. split; [apply (lex_terminal_name E _ _ Hw Hpre Hs) |].
      apply span_all; [exact Hrs | apply stops_ident_iff; exact Hs].
Qed.

Lemma white_cut E w y w' y' : white E w -> white E w' -> stops (is_space E) y -> stops (is_space E) y' -> w +++ y = w' +++ y' -> w = w' /\ y = y'.
Proof.
  intros (rs & -> & Hrs) (rs' & -> & Hrs') Hy Hy' Heq. pose proof (span_all _ _ _ Hrs Hy) as H. rewrite Heq, (span_all _ _ _ Hrs' Hy') in H.
  split; congruence.
Qed.

Lemma app_cancel_s a b r : a +++ r = b +++ r -> a = b.
Proof.
  intros H. assert (Hl : String.length a = String.length b) by (apply (f_equal String.length) in H; rewrite !length_app_s in H; lia).
  destruct (prefix_cases a r b r H) as (e & -> & _); [lia |]. rewrite length_app_s in Hl. destruct e; [symmetry; apply app_nil_r_s | cbn in Hl; lia].
Qed.

Lemma tiles_unique E b r toks : tiles E b r toks -> forall toks', tiles E b r toks' -> toks = toks'.
Proof.
  induction 1 as [b w x r ty toks Hw Hx Ht IH | b w Hw | b w r Hw Hf]; intros toks' H'.
  - destruct (lexeme_first _ _ _ _ Hx) as (Hne & Hst & Hfst).
    inversion H' as [b' w' x' r' ty' toks2 Hw' Hx' Ht' Hb Heq | b' w' Hw' Hb Heq | b' w' r' Hw' Hf' Hb Heq]; subst b'.
    + destruct (lexeme_first _ _ _ _ Hx') as (Hne' & Hst' & Hfst').
      destruct (white_cut E w' (x' +++ r') w (x +++ r)) as [-> Heq2]; auto. rewrite Heq2 in Hfst'.
      assert (Hone : r' = r /\ ty' = ty).
      { destruct Hfst as [[Hi Hl] | (Hi & Hl & Hs)], Hfst' as [[Hi' Hl'] | (Hi' & Hl' & Hs')]; rewrite Hl in Hl'; try discriminate.
        - injection Hl' as Hk Hr. split; [congruence |]. destruct ty, ty'; try discriminate Hk; congruence.
        - split; [congruence |]. congruence. }
      destruct Hone as [-> ->]. apply app_cancel_s in Heq2. subst x'. rewrite (IH _ Ht'). reflexivity.
    + exfalso. destruct (white_cut E w (x +++ r) w' "") as [_ Hx2]; try exact I; try congruence; try (rewrite app_nil_r_s; congruence).
      destruct x; [congruence | discriminate].
    + exfalso. destruct (foreign_stops _ _ Hf') as (Hs1 & Hs2 & Hs3). destruct (white_cut E w (x +++ r) w' r') as [_ Hx2]; auto.
      rewrite Hx2 in Hfst. destruct Hfst as [[_ Hl] | (_ & _ & Hs)]; [congruence |]. rewrite (span_stops _ _ Hs2) in Hs. congruence.
  - inversion H' as [b' w' x' r' ty' toks2 Hw' Hx' Ht' Hb Heq | b' w' Hw' Hb Heq | b' w' r' Hw' Hf' Hb Heq]; subst b'.
    + exfalso. destruct (lexeme_first _ _ _ _ Hx') as (Hne & Hst & _). destruct (white_cut E w' (x' +++ r') w "") as [_ Hx2]; try exact I; try congruence; try (rewrite app_nil_r_s; congruence).
      destruct x'; [congruence | discriminate].
    + congruence.
    + exfalso. destruct (foreign_stops _ _ Hf') as (Hs1 & _). destruct (white_cut E w' r' w "") as [_ Hx2]; try exact I; try congruence; try (rewrite app_nil_r_s; congruence).
      destruct Hf' as [Hne _]. congruence.
  - destruct (foreign_stops _ _ Hf) as (Hs1 & Hs2 & Hs3).
    inversion H' as [b' w' x' r' ty' toks2 Hw' Hx' Ht' Hb Heq | b' w' Hw' Hb Heq | b' w' r' Hw' Hf' Hb Heq]; subst b'.
    + exfalso. destruct (lexeme_first _ _ _ _ Hx') as (Hne & Hst & Hfst). destruct (white_cut E w' (x' +++ r') w r) as [_ Hx2]; auto.
      rewrite Hx2 in Hfst. destruct Hfst as [[_ Hl] | (_ & _ & Hs)]; [congruence |]. rewrite (span_stops _ _ Hs2) in Hs. congruence.
    + exfalso. destruct (white_cut E w r w' "") as [_ Hx2]; try exact I; try congruence; try (rewrite app_nil_r_s; congruence). destruct Hf as [Hne _]. congruence.
    + destruct (foreign_stops _ _ Hf') as (Hs1' & _). destruct (white_cut E w r w' r') as [-> ->]; auto.
Qed.

Lemma tiles_first E b r t toks : tiles E b r (t :: toks) -> exists w y, r = w +++ y /\ white E w /\ tk_start t = String.length (b +++ w).
Proof.
  intros H. inversion H; subst; eauto 6. exists r, ""%string. rewrite app_nil_r_s. auto.
Qed.

Lemma tiles_between E b r toks : tiles E b r toks -> forall toks1 t u toks2, toks = toks1 ++ t :: u :: toks2 ->
  exists x w y, r = x +++ w +++ y /\ white E w /\ tk_end t = String.length (b +++ x) /\ tk_start u = String.length (b +++ x +++ w).
Proof.
  induction 1 as [b w x r ty toks Hw Hx Ht IH | b w Hw | b w r Hw Hf]; intros toks1 t u toks2 Heq.
  - destruct toks1 as [| t1 toks1]; injection Heq as Ht1 Heq.
    + subst t. rewrite Heq in Ht. apply tiles_first in Ht as (w' & y & -> & Hw' & Hs). exists (w +++ x), w', y.
      rewrite Hs, !app_assoc_s. auto.
    + destruct (IH _ _ _ _ Heq) as (x' & w' & y & -> & Hw' & He & Hs). exists (w +++ x +++ x'), w', y. rewrite He, Hs, !app_assoc_s. auto.
  - destruct toks1 as [| ? [|]]; discriminate.
  - destruct toks1 as [| ? [|]]; discriminate.
Qed.

Lemma tiles_nonempty E b r toks : tiles E b r toks -> toks <> [].
Proof. destruct 1; discriminate. Qed.

(** Only the last token is the end of the text or an error. *)
Lemma tiles_last E b r toks : tiles E b r toks -> forall toks1 t toks2, toks = toks1 ++ t :: toks2 ->
  tk_type t = TyError \/ tk_type t = TyEof <-> toks2 = [].
Proof.
  intros H toks1 t toks2 Heq. split.
  - intros [Ht | Ht]; destruct (tiles_at _ _ _ _ H _ _ _ Heq) as (x & y & _ & _ & _ & He & Hf & _); [apply He | apply Hf]; exact Ht.
  - intros ->. subst toks. remember (toks1 ++ [t]) as toks eqn:Heq. revert toks1 Heq.
    induction H as [b w x r ty toks Hw Hx Ht IH | b w Hw | b w r Hw Hf]; intros toks1 Heq.
    + destruct toks1 as [| t1 toks1]; injection Heq as Ht1 Heq; [subst toks; inversion Ht | eauto].
    + destruct toks1 as [| ? [|]]; try discriminate. injection Heq as <-. auto.
    + destruct toks1 as [| ? [|]]; try discriminate. injection Heq as <-. auto.
Qed.
