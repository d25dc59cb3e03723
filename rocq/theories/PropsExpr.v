(** Properties C01 to C06: relation expressions. *)
From Verif Require Import Base Domain Lexer Parser Chan SpecGrammar LexerFacts ParserFacts ExprFacts ChanFacts Fixtures.

(** ** C01 *)

Theorem C01_print_parse_round_trip : forall E t, writable E t ->
  exists s, print_tree t = Ok s /\ parse E s = Ok t.
Proof. exact print_parse. Qed.

(** Whatever the parser returns can be printed and read back. *)
Theorem C01_parsed_trees_round_trip : forall E s t, parse E s = Ok t ->
  exists s', print_tree t = Ok s' /\ parse E s' = Ok t.
Proof. intros E s t H. apply print_parse, (parse_writable E s), H. Qed.

Example C01_case :
  let t := TOp (TRule (RTtu "parent" "reader")) OpDiff (TOp (TRule RThis) OpInter (TRule (RCu "owner"))) in
  writable E0 t /\ print_tree t = Ok "(parent->reader - (_this & owner))" /\
  parse E0 "(parent->reader - (_this & owner))" = Ok t.
Proof.
  split; [| split; vm_compute; reflexivity]. cbn [writable].
  assert (forall w, w <> ""%string -> ascii_ident E0 w = true -> prefix "_this" w = false -> usable_name E0 w) as H.
  { intros w H1 H2 H3. split; [apply name_ascii |]; assumption. }
  repeat split; auto; apply H; reflexivity || discriminate.
Qed.

(** The trees that come back from their text are the ones that can be written, and no others. *)
Theorem C01_exactly : forall E t, writable E t <-> exists s, print_tree t = Ok s /\ parse E s = Ok t.
Proof. intros E t. split; [apply print_parse |]. intros (s & _ & H). exact (parse_writable E s t H). Qed.

(** Parts that are not set have an empty text, which is no expression; a missing part panics. *)
Example C01_unset :
  print_tree TUnset = Ok ""%string /\ print_tree (TOp TUnset OpUnion (TRule RUnset)) = Ok "( + )"%string /\ print_tree (TOp (TRule RThis) OpUnion TNil) = Panic /\
  (forall t, parse E0 "" <> Ok t) /\ (forall t, parse E0 "( + )" <> Ok t).
Proof. repeat split; try (vm_compute; reflexivity); intros t H; vm_compute in H; discriminate. Qed.

(** ** C02 *)

Theorem C02_parser_accepts_exactly_the_grammar : forall E s t, parse E s = Ok t <-> denotes E s t.
Proof. exact parse_iff. Qed.

Theorem C02_parser_returns_tree_or_error : forall E s,
  (exists t, parse E s = Ok t) \/ parse E s = Err EParse.
Proof.
  intros E s. destruct (parse_returns E s) as [H | [H | [e H]]]; auto.
  right. rewrite H. f_equal. exact (parse_err E s e H).
Qed.

Theorem C02_grammar_is_unambiguous : forall E s t t', denotes E s t -> denotes E s t' -> t = t'.
Proof. intros E s t t' H H'. apply parse_iff in H, H'. congruence. Qed.

(** What the two character classes of the grammar contain. *)
Theorem C02_character_classes : forall E r, (r < 128)%N ->
  (is_ident_rune E r = true <-> (r = 95 \/ 48 <= r <= 57 \/ 65 <= r <= 90 \/ 97 <= r <= 122)%N) /\
  (is_space E r = true <-> (9 <= r <= 13 \/ r = 32)%N).
Proof. exact classes_ascii. Qed.

(** The letters and spaces from U+0080 to U+00FF are those of Unicode's table; there are no digits. *)
Theorem C02_character_classes_latin1 : forall E r, (128 <= r <= 255)%N ->
  (is_ident_rune E r = true <-> latin1_letter r) /\ (is_space E r = true <-> latin1_space r).
Proof. exact classes_latin1. Qed.

Theorem C02_character_classes_above_latin1 : forall E r, (255 < r)%N -> r <> 65533%N ->
  (is_ident_rune E r = true <-> hi_class E r = ClLetter \/ hi_class E r = ClDigit) /\
  (is_space E r = true <-> hi_class E r = ClSpace).
Proof. exact classes_above. Qed.

Example C02_case_accept : denotes E0 "a->b" (TRule (RTtu "a" "b")).
Proof. apply parse_iff. vm_compute. reflexivity. Qed.
Example C02_case_reject : ~ exists t, denotes E0 "a + (b" t.
Proof. intros [t H]. apply parse_iff in H. vm_compute in H. discriminate. Qed.

(** ** C03 *)

Theorem C03_operators_associate_left : forall E l s t, parse E s = Ok t ->
  (forall o x tx, In (o, (x, tx)) l -> is_term E x tx /\ (o = OpUnion \/ o = OpInter \/ o = OpDiff)) ->
  parse E (chain_text s l) = Ok (chain_tree t l).
Proof. exact chain_left. Qed.

Example C03_case :
  let l := [(OpUnion, ("b", TRule (RCu "b"))); (OpInter, ("(c - d)", TOp (TRule (RCu "c")) OpDiff (TRule (RCu "d"))))]%string in
  chain_text "a" l = "a + b & (c - d)"%string /\
  parse E0 "a + b & (c - d)" = Ok (TOp (TOp (TRule (RCu "a")) OpUnion (TRule (RCu "b"))) OpInter
                                     (TOp (TRule (RCu "c")) OpDiff (TRule (RCu "d")))).
Proof. vm_compute. split; reflexivity. Qed.

Example C03_case_terms :
  is_term E0 "b" (TRule (RCu "b")) /\ is_term E0 "(c)" (TRule (RCu "c")).
Proof.
  assert (forall s ts, scan E0 (S (String.length s)) s = Ok (ts ++ [KEof]) -> tokenizes E0 s ts) as H.
  { intros s ts Hs. apply scan_sound in Hs as [(ts' & Heq & Ht) | (ts' & Heq)].
    - apply app_inv_tail in Heq as <-. exact Ht.
    - apply app_inj_tail in Heq as [_ Heq]. discriminate. }
  split.
  - exists [KIdent "b"]. split; [apply H; vm_compute; reflexivity | constructor].
  - exists [KOpen; KIdent "c"; KClose]. split; [apply H; vm_compute; reflexivity |].
    apply (gt_group _ [KIdent "c"]). constructor. constructor.
Qed.

(** ** C04 *)

Theorem C04_white_space_between : forall E s1 w1 w2 s2,
  white E w1 -> white E w2 -> w1 <> ""%string -> w2 <> ""%string ->
  parse E (s1 +++ w1 +++ s2) = parse E (s1 +++ w2 +++ s2).
Proof. exact white_inner. Qed.

Theorem C04_white_space_left : forall E w s, white E w -> parse E (w +++ s) = parse E s.
Proof. exact white_left. Qed.

Theorem C04_white_space_right : forall E w s, white E w -> parse E (s +++ w) = parse E s.
Proof. exact white_right. Qed.

Example C04_case : white E0 (encode_all [32; 10; 160]%N) /\
  parse E0 ("a +" +++ encode_all [32; 10; 160]%N +++ "b") = parse E0 ("a +" +++ " " +++ "b") /\
  parse E0 "a + b" <> parse E0 "b + a".
Proof.
  split; [| split; [vm_compute; reflexivity | vm_compute; discriminate]].
  exists [32; 10; 160]%N. split; [reflexivity |]. repeat constructor.
Qed.

(** ** C05: channel capacity 10 in the code; any positive capacity here *)

Theorem C05_tokens_in_order : forall cap E s ts c, lex E s = Ok ts -> chan_steps cap (chan_init ts) c ->
  (exists rest, ts = c_got c ++ rest) /\ length (c_buf c) <= cap /\ (c_done c = true -> c_got c = ts).
Proof. intros cap E s ts c _. exact (chan_delivers cap ts c). Qed.

Theorem C05_never_stuck : forall cap ts c, 0 < cap -> chan_steps cap (chan_init ts) c ->
  c_done c = false -> exists c', chan_step cap c c'.
Proof. exact chan_progress. Qed.

Theorem C05_every_schedule_ends : forall cap ts (trace : nat -> chan_state),
  trace 0 = chan_init ts -> ~ (forall i, chan_step cap (trace i) (trace (S i))).
Proof. exact chan_terminates. Qed.

Example C05_case : lex E0 "a+b" = Ok [KIdent "a"; KUnion; KIdent "b"; KEof] /\
  chan_steps 1 (chan_init [KIdent "a"; KEof]) (mkChan [] [] true [KIdent "a"; KEof] true).
Proof.
  split; [vm_compute; reflexivity |]. unfold chan_init.
  eapply steps_cons; [apply step_send; cbn; auto |]. eapply steps_cons; [apply step_recv |].
  eapply steps_cons; [apply step_send; cbn; auto |]. eapply steps_cons; [apply step_close |].
  eapply steps_cons; [apply step_recv |]. eapply steps_cons; [apply step_end |]. apply steps_refl.
Qed.

(** ** C06 *)

(** Full statement: forall E w, name E w -> parse E w = Ok (TRule (RCu w)).
    It fails for names that begin with the keyword, such as [_this_group]. *)
Theorem C06_identifiers_refuted : forall E, exists w,
  name E w /\ w <> "_this"%string /\ parse E w = Err EParse.
Proof.
  intros E. exists "_this_group"%string. split; [apply name_ascii; [discriminate | reflexivity] |].
  split; [discriminate | vm_compute; reflexivity].
Qed.

Theorem C06_identifiers_partial : forall E w, name E w ->
  (parse E w = Ok (TRule (RCu w)) <-> prefix "_this" w = false).
Proof. exact name_parses. Qed.

Example C06_case : name E0 "reader_1" /\ parse E0 "reader_1" = Ok (TRule (RCu "reader_1")).
Proof. split; [apply name_ascii; [discriminate | reflexivity] | vm_compute; reflexivity]. Qed.

Print Assumptions C01_print_parse_round_trip.
Print Assumptions C01_parsed_trees_round_trip.
Print Assumptions C01_exactly.
Print Assumptions C02_parser_accepts_exactly_the_grammar.
Print Assumptions C02_parser_returns_tree_or_error.
Print Assumptions C02_grammar_is_unambiguous.
Print Assumptions C02_character_classes.
Print Assumptions C02_character_classes_latin1.
Print Assumptions C02_character_classes_above_latin1.
Print Assumptions C03_operators_associate_left.
Print Assumptions C04_white_space_between.
Print Assumptions C04_white_space_left.
Print Assumptions C04_white_space_right.
Print Assumptions C05_tokens_in_order.
Print Assumptions C05_never_stuck.
Print Assumptions C05_every_schedule_ends.
Print Assumptions C06_identifiers_refuted.
Print Assumptions C06_identifiers_partial.
