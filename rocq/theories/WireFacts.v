(** Facts about the protobuf encoding. *)
From Coq Require Import Sorted Permutation.
From Verif Require Import Base Domain Lexer Store Yaml Service Api Wire SpecWire BaseFacts.
Local Open Scope N_scope.

(** ** Bytes *)

Lemma byte_ascii n : n < 256 -> byte (ascii_of_N n) = n.
Proof. apply N_ascii_embedding. Qed.

Lemma get_put_varint_n k : forall n r, n < 2 * 128 ^ N.of_nat k ->
  get_varint_n (S k) (put_varint_n (S k) n +++ r) = Some (n, r).
Proof.
  induction k as [| k IH]; intros n r Hn.
  - assert (Hn2 : n < 2) by (cbn in Hn; lia).
    cbn [put_varint_n]. destruct (N.ltb_spec n 128); [| lia]. cbn [one String.append get_varint_n].
    rewrite byte_ascii by lia. destruct (N.ltb_spec n 128); [| lia]. cbn [Nat.eqb andb].
    destruct (N.ltb_spec 1 n); [lia | reflexivity].
  - rewrite Nat2N.inj_succ, N.pow_succ_r' in Hn. remember (S k) as k1. cbn [put_varint_n]. destruct (N.ltb_spec n 128) as [H | H].
    + cbn [one String.append get_varint_n]. rewrite byte_ascii by lia. destruct (N.ltb_spec n 128); [| lia].
      subst k1. reflexivity.
    + cbn [String.append get_varint_n]. pose proof (N.mod_lt n 128 ltac:(discriminate)) as Hm. rewrite byte_ascii by (clear Hn; lia).
      destruct (N.ltb_spec (n mod 128 + 128) 128) as [H1 | _]; [apply N.lt_nge in H1; destruct H1; apply N.le_add_l |].
      subst k1. rewrite IH by (apply N.div_lt_upper_bound; [discriminate |]; generalize dependent (128 ^ N.of_nat k); intros P ? ?; lia).
      do 2 f_equal. rewrite N.add_sub, N.add_comm. symmetry. apply N.div_mod. discriminate.
Qed.

Lemma get_put_varint n r : n < 18446744073709551616 -> get_varint (put_varint n +++ r) = Some (n, r).
Proof. intros H. apply (get_put_varint_n 9). exact H. Qed.

Lemma put_varint_some n : exists c s, put_varint n = String c s.
Proof. unfold put_varint. cbn [put_varint_n]. destruct (n <? 128); unfold one; eauto. Qed.

Lemma slen_app a b : slen (a +++ b) = slen a + slen b.
Proof. unfold slen. induction a as [| c a IH]; cbn [String.append String.length]; [reflexivity |]. lia. Qed.

Lemma slen_varint n : slen (put_varint n) <= 10.
Proof.
  assert (H : forall k n, (String.length (put_varint_n k n) <= k)%nat).
  { clear n. induction k as [| k IH]; intros n; cbn [put_varint_n]; [cbn; lia |].
    destruct (n <? 128); cbn [one String.length]; [lia |]. specialize (IH (n / 128)). lia. }
  specialize (H 10%nat n). unfold slen, put_varint. lia.
Qed.

Lemma cut_app a b : cut (a +++ b) (slen a) = Some (a, b).
Proof.
  induction a as [| c a IH].
  - cbn. destruct b; reflexivity.
  - unfold slen in *. cbn [String.append String.length]. cbn [cut].
    destruct (N.eqb_spec (N.of_nat (S (String.length a))) 0); [lia |].
    replace (N.of_nat (S (String.length a)) - 1) with (N.of_nat (String.length a)) by lia.
    rewrite IH. reflexivity.
Qed.

Lemma app_assoc_w a b c : (a +++ b) +++ c = a +++ (b +++ c).
Proof. induction a as [| x a IH]; cbn [String.append]; [reflexivity | rewrite IH; reflexivity]. Qed.

(** ** Fields *)

Lemma put_fields_app l1 l2 : put_fields (l1 ++ l2) = put_fields l1 +++ put_fields l2.
Proof. induction l1 as [| f l1 IH]; cbn [app put_fields]; [reflexivity |]. rewrite IH, app_assoc_w. reflexivity. Qed.

Definition simple (f : field) : Prop :=
  0 < fst f < 16 /\ match snd f with WVarint n => n < 18446744073709551616 | WLen _ => True | WFixed _ => False end.

Lemma get_put_field f r : simple f -> slen (put_field f) < 18446744073709551616 -> get_field (put_field f +++ r) = Some (f, r).
Proof.
  destruct f as [num v]. unfold simple, put_field, get_field. cbn [fst snd]. intros [Hn Hv] Hs. destruct v as [n | s | s]; [| | tauto].
  - rewrite app_assoc_w, get_put_varint by lia.
    rewrite N.div_mul, N.mod_mul by lia.
    destruct (N.eqb_spec num 0); [lia |]. destruct (N.ltb_spec 536870911 num); [lia |]. cbn [orb].
    rewrite get_put_varint by exact Hv. reflexivity.
  - rewrite !slen_app in Hs. rewrite !app_assoc_w, get_put_varint by lia.
    replace ((num * 8 + 2) / 8) with num by (rewrite N.add_comm, N.div_add by lia; reflexivity).
    replace ((num * 8 + 2) mod 8) with 2 by (rewrite N.add_comm, N.mod_add by lia; reflexivity).
    destruct (N.eqb_spec num 0); [lia |]. destruct (N.ltb_spec 536870911 num); [lia |]. cbn [orb].
    rewrite get_put_varint by lia. rewrite cut_app. reflexivity.
Qed.

Lemma put_field_some f : exists c s, put_field f = String c s.
Proof.
  destruct f as [num []]; unfold put_field; cbn [fst snd].
  - destruct (put_varint_some (num * 8)) as (c & t & ->). cbn [String.append]. eauto.
  - destruct (put_varint_some (num * 8 + 2)) as (c & t & ->). cbn [String.append]. eauto.
  - destruct (put_varint_some (num * 8 + if slen s =? 8 then 1 else 5)) as (c & t & ->). cbn [String.append]. eauto.
Qed.

Lemma length_app_s a b : String.length (a +++ b) = (String.length a + String.length b)%nat.
Proof. induction a; cbn [String.append String.length]; [reflexivity | lia]. Qed.

Lemma get_put_fields_n fs : forall k, Forall simple fs -> slen (put_fields fs) < 18446744073709551616 ->
  (String.length (put_fields fs) <= k)%nat -> get_fields_n k (put_fields fs) = Some fs.
Proof.
  induction fs as [| f fs IH]; intros k Hf Hs Hk; [destruct k; reflexivity |].
  cbn [put_fields] in *. rewrite slen_app in Hs. rewrite length_app_s in Hk. inversion Hf as [| x y H1 H2]; subst.
  destruct (put_field_some f) as (c & t & Hp). assert (Hl : (1 <= String.length (put_field f))%nat) by (rewrite Hp; cbn; lia).
  destruct k as [| k]; [lia |].
  pose proof (get_put_field f (put_fields fs) H1 ltac:(lia)) as Hg.
  rewrite Hp in *. cbn [String.append] in *. cbn [get_fields_n]. rewrite Hg, IH; [reflexivity | assumption | lia |].
  cbn [String.length] in Hk. lia.
Qed.

Lemma get_put_fields fs : Forall simple fs -> short (put_fields fs) -> get_fields (put_fields fs) = Some fs.
Proof. intros H1 H2. apply get_put_fields_n; [exact H1 | unfold short in H2; lia | lia]. Qed.

Lemma slen_in fs n s : In (n, WLen s) fs -> slen s <= slen (put_fields fs).
Proof.
  induction fs as [| f fs IH]; intros H; [destruct H |]. cbn [put_fields]. rewrite slen_app. destruct H as [-> | H].
  - unfold put_field. cbn [fst snd]. rewrite !slen_app. lia.
  - specialize (IH H). lia.
Qed.

Lemma short_in fs n s : short (put_fields fs) -> In (n, WLen s) fs -> short s.
Proof. unfold short. intros H Hi. pose proof (slen_in fs n s Hi). lia. Qed.

Lemma fold_opt_app {A B} (f : A -> B -> option A) l1 l2 a :
  fold_opt f (l1 ++ l2) a = match fold_opt f l1 a with Some a' => fold_opt f l2 a' | None => None end.
Proof. revert a. induction l1 as [| x l1 IH]; intros a; cbn; [reflexivity |]. destruct (f a x); auto. Qed.

Lemma fold_opt_none {A B} (f : A -> B -> option A) x l : In x l -> (forall a, f a x = None) -> forall a, fold_opt f l a = None.
Proof.
  intros Hi Hf. induction l as [| y l IH]; intros a; [destruct Hi |]. cbn. destruct Hi as [-> | Hi]; [rewrite Hf; reflexivity |].
  destruct (f a y); auto.
Qed.

Lemma fold_opt_inv {A B} (P : A -> Prop) (f : A -> B -> option A) l : (forall a x a', P a -> f a x = Some a' -> P a') ->
  forall a a', P a -> fold_opt f l a = Some a' -> P a'.
Proof.
  intros Hf. induction l as [| x l IH]; intros a a' Ha H; cbn in H; [congruence |].
  destruct (f a x) as [a1 |] eqn:H1; [eauto | discriminate].
Qed.

Lemma message_put {A} (step : nat -> A -> field -> option A) d a fs : Forall simple fs -> short (put_fields fs) ->
  message step (S d) a (put_fields fs) = fold_opt (step d) fs a.
Proof. intros H1 H2. cbn [message]. rewrite (get_put_fields fs H1 H2). reflexivity. Qed.

Lemma message_none {A} (step : nat -> A -> field -> option A) d a fs n s : Forall simple fs -> short (put_fields fs) ->
  In (n, WLen s) fs -> (forall a, step d a (n, WLen s) = None) -> message step (S d) a (put_fields fs) = None.
Proof. intros H1 H2 Hi Hs. rewrite message_put by assumption. eapply fold_opt_none; [exact Hi |]. exact Hs. Qed.

Lemma message_inv {A} (P : A -> Prop) (step : nat -> A -> field -> option A) d : forall a b a',
  (forall d' a f a', d = S d' -> P a -> step d' a f = Some a' -> P a') ->
  P a -> message step d a b = Some a' -> P a'.
Proof.
  intros a b a' Hs Ha H. destruct d as [| d]; cbn in H; [discriminate |]. destruct (get_fields b) as [fs |]; [| discriminate].
  refine (fold_opt_inv P (step d) fs _ a a' Ha H). intros. eapply Hs; eauto.
Qed.

(** Elements of a repeated field. *)
Lemma fold_opt_list {A X} (step : A -> field -> option A) n (fs : X -> list field) (push : A -> X -> A) (P : A -> Prop) l :
  (forall a x, In x l -> P a -> step a (n, WLen (put_fields (fs x))) = Some (push a x) /\ P (push a x)) ->
  forall a, P a -> fold_opt step (flat_map (fun x => f_msg n (fs x)) l) a = Some (fold_left push l a).
Proof.
  induction l as [| x l IH]; intros H a Ha; [reflexivity |]. cbn [flat_map f_msg app fold_opt fold_left].
  destruct (H a x (or_introl eq_refl) Ha) as [-> Hp]. apply IH; [| exact Hp]. intros a' x' Hx. apply H. right. exact Hx.
Qed.

Lemma in_f_msg_list {X} n (fs : X -> list field) l x : In x l -> In (n, WLen (put_fields (fs x))) (flat_map (fun x => f_msg n (fs x)) l).
Proof. intros H. apply in_flat_map. exists x. split; [exact H | left; reflexivity]. Qed.

(** ** Fields are simple *)

Ltac num := split; cbn [fst snd]; [lia | try exact I].

Lemma simple_str n s : 0 < n < 16 -> Forall simple (f_str n s).
Proof. intros H. destruct s; constructor; [num; exact I | constructor]. Qed.
Lemma simple_int n v : 0 < n < 16 -> v < 18446744073709551616 -> Forall simple (f_int n v).
Proof. intros H Hv. unfold f_int. destruct (v =? 0); constructor; [num; exact Hv | constructor]. Qed.
Lemma simple_msg n fs : 0 < n < 16 -> Forall simple (f_msg n fs).
Proof. intros H. constructor; [num | constructor]. Qed.
Lemma simple_opt {A} n (fs : A -> list field) o : 0 < n < 16 -> Forall simple (f_opt n fs o).
Proof. intros H. destruct o; [apply simple_msg; exact H | constructor]. Qed.
Lemma simple_list {X} n (fs : X -> list field) l : 0 < n < 16 -> Forall simple (flat_map (fun x => f_msg n (fs x)) l).
Proof. intros H. induction l; cbn [flat_map]; [constructor |]. apply Forall_app. split; [apply simple_msg; exact H | assumption]. Qed.

Ltac simple_tac :=
  repeat (apply Forall_app; split);
  first [apply simple_str; lia | apply simple_msg; lia | apply simple_opt; lia | apply simple_list; lia | apply simple_int; lia | constructor | idtac].

Lemma text_ok {A} s (f : string -> A) : utf8_valid s = true -> text s f = Some (f s).
Proof. unfold text. intros ->. reflexivity. Qed.

(** ** google.protobuf.Timestamp *)

Lemma time_round d t0 t : t0 = 0 -> time_ok t -> dec_time (S d) t0 (put_fields (fs_time t)) = Some t.
Proof.
  intros -> Ht. unfold dec_time. pose proof (N.mod_lt t nanos ltac:(discriminate)) as Hm. unfold time_ok in Ht.
  pose proof (N.div_mod t nanos ltac:(discriminate)) as Hd. unfold nanos in *.
  unfold fs_time. rewrite message_put.
  - rewrite fold_opt_app. unfold f_int, nanos.
    destruct (N.eqb_spec (t / 1000000000) 0) as [H1 | H1]; destruct (N.eqb_spec (t mod 1000000000) 0) as [H2 | H2];
      cbn [fold_opt step_time fst snd omap]; f_equal; rewrite ?(N.mod_small (t mod 1000000000) 4294967296) by lia;
      change (0 / 1000000000) with 0; change (0 mod 1000000000) with 0; lia.
  - unfold nanos. apply Forall_app. split; apply simple_int; lia.
  - unfold short, nanos. assert (Hi : forall n v, slen (put_fields (f_int n v)) <= 20).
    { intros n v. unfold f_int. destruct (v =? 0); cbn [put_fields put_field fst snd]; rewrite ?slen_app.
      - cbn. lia.
      - pose proof (slen_varint (n * 8)). pose proof (slen_varint v). change (slen EmptyString) with 0. lia. }
    rewrite put_fields_app, slen_app. pose proof (Hi 1 (t / 1000000000)). pose proof (Hi 2 (t mod 1000000000)). lia.
Qed.

Lemma time_none t0 b : dec_time 0 t0 b = None.
Proof. reflexivity. Qed.

(** ** Small messages *)

Lemma utf8_cons s l : all_utf8 (s :: l) -> utf8_valid s = true /\ all_utf8 l.
Proof. intros H. split; [apply H; left; reflexivity |]. intros x Hx. apply H. right. exact Hx. Qed.
Lemma utf8_app l1 l2 : all_utf8 (l1 ++ l2) <-> all_utf8 l1 /\ all_utf8 l2.
Proof.
  unfold all_utf8. split.
  - intros H. split; intros s Hs; apply H; apply in_or_app; auto.
  - intros [H1 H2] s Hs. apply in_app_or in Hs as [Hs | Hs]; auto.
Qed.
Lemma utf8_flat {X} (f : X -> list string) l x : all_utf8 (flat_map f l) -> In x l -> all_utf8 (f x).
Proof. intros H Hx s Hs. apply H. apply in_flat_map. eauto. Qed.
Lemma utf8_nil : all_utf8 [].
Proof. intros s []. Qed.

(** A string field that was written is read, or was empty. *)
Lemma fold_str {A} (step : A -> field -> option A) n s (f : string -> A) a :
  utf8_valid s = true -> (forall s, step a (n, WLen s) = text s f) -> f EmptyString = a -> fold_opt step (f_str n s) a = Some (f s).
Proof. intros Hs Hf He. destruct s as [| c s]; cbn [f_str fold_opt]; [rewrite He; reflexivity |]. rewrite Hf, text_ok by exact Hs. reflexivity. Qed.

Lemma cu_round d t : utf8_valid t = true -> short (put_fields (f_str 1 t)) -> message step_cu (S d) "" (put_fields (f_str 1 t)) = Some t.
Proof.
  intros Ht Hs. rewrite message_put; [| simple_tac | exact Hs].
  rewrite (fold_str _ _ _ (fun s => s)) by auto. reflexivity.
Qed.

Lemma ttu_round d a b : utf8_valid a = true -> utf8_valid b = true -> short (put_fields (f_str 1 a ++ f_str 2 b)) ->
  message step_ttu (S d) ("", "") (put_fields (f_str 1 a ++ f_str 2 b)) = Some (a, b).
Proof.
  intros Ha Hb Hs. rewrite message_put; [| simple_tac | exact Hs].
  rewrite fold_opt_app, (fold_str _ _ _ (fun s => (s, EmptyString))) by auto.
  rewrite (fold_str _ _ _ (fun s => (a, s))) by auto. reflexivity.
Qed.

Lemma simple_rule r : Forall simple (fs_rule r).
Proof. destruct r; cbn [fs_rule]; simple_tac. Qed.

Lemma rule_round d r : all_utf8 (rule_texts r) -> (nest_rule r <= d)%nat -> short (put_fields (fs_rule r)) ->
  message step_rule d RUnset (put_fields (fs_rule r)) = Some r.
Proof.
  intros Ht Hd Hs. destruct d as [| d]; [destruct r; cbn in Hd; lia |]. rewrite message_put; [| apply simple_rule | exact Hs].
  destruct r as [| t | ts c |]; cbn [fs_rule f_msg fold_opt step_rule]; [| | | reflexivity]; (destruct d as [| d]; [cbn in Hd; lia |]).
  - reflexivity.
  - cbn [rule_texts] in Ht. apply utf8_cons in Ht as [Ht _]. rewrite cu_round; [reflexivity | exact Ht |]. eapply short_in; [exact Hs | left; reflexivity].
  - cbn [rule_texts] in Ht. apply utf8_cons in Ht as [Ht Ht']. apply utf8_cons in Ht' as [Ht' _].
    rewrite ttu_round; [reflexivity | exact Ht | exact Ht' |]. eapply short_in; [exact Hs | left; reflexivity].
Qed.

Lemma rule_deep d r r0 : (d < nest_rule r)%nat -> short (put_fields (fs_rule r)) -> message step_rule d r0 (put_fields (fs_rule r)) = None.
Proof.
  intros Hd Hs. destruct d as [| d]; [reflexivity |]. rewrite message_put; [| apply simple_rule | exact Hs].
  destruct r; cbn [nest_rule] in Hd; try lia; (replace d with 0%nat by lia); reflexivity.
Qed.

(** ** Trees *)

Definition step_op (d : nat) (x : tree * operator * tree) (g : field) : option (tree * operator * tree) :=
  match g with
  | (1, WLen b2) => omap (fun l => (l, snd (fst x), snd x)) (dec_tree d (fresh (fst (fst x))) b2)
  | (2, WVarint v) => Some (fst (fst x), op_of v, snd x)
  | (3, WLen b2) => omap (fun r => (fst x, r)) (dec_tree d (fresh (snd x)) b2)
  | _ => Some x
  end.

Definition parts (t : tree) : tree * operator * tree := match t with TOp l o r => (l, o, r) | _ => (TNil, OpUnion, TNil) end.

Definition step_tree (d : nat) (t : tree) (f : field) : option tree :=
  match f with
  | (1, WLen b1) => omap (fun x => TOp (fst (fst x)) (snd (fst x)) (snd x)) (message step_op d (parts t) b1)
  | (2, WLen b1) => omap TRule (message step_rule d (match t with TRule r => r | _ => RUnset end) b1)
  | _ => Some t
  end.

Lemma fold_opt_ext {A B} (f g : A -> B -> option A) l : (forall a x, f a x = g a x) -> forall a, fold_opt f l a = fold_opt g l a.
Proof. intros H. induction l as [| x l IH]; intros a; cbn; [reflexivity |]. rewrite H. destruct (g a x); auto. Qed.

Lemma dec_tree_eq d t b : dec_tree d t b = message step_tree d t b.
Proof.
  destruct d as [| d]; [reflexivity |]. cbn [dec_tree message]. destruct (get_fields b) as [fs |]; [| reflexivity].
  apply fold_opt_ext. intros a [n v]. unfold step_tree.
  destruct n as [| [[] | [] |]], v; try reflexivity.
  destruct d as [| d]; [reflexivity |]. cbn [message]. destruct (get_fields s); reflexivity.
Qed.

Lemma simple_tree t : Forall simple (fs_tree t).
Proof. destruct t; cbn [fs_tree]; simple_tac. Qed.

Lemma op_wire_small o : op_ok o -> op_wire o < 18446744073709551616.
Proof.
  unfold op_wire. destruct o; cbn [op_code op_ok]; intros H; try (cbn; lia).
  destruct (N.ltb_spec n 2147483648); lia.
Qed.

Lemma op_of_small n : 2 < n < 4294967296 -> op_of n = OpOther n.
Proof.
  intros H. unfold op_of. rewrite N.mod_small by lia.
  destruct n as [| [[] | [] |]]; try lia; reflexivity.
Qed.

Lemma op_round o : op_ok o -> op_of (op_wire o) = o.
Proof.
  destruct o as [| | | n]; cbn [op_ok]; intros H; try reflexivity. unfold op_wire. cbn [op_code].
  destruct (N.ltb_spec n 2147483648) as [H1 | H1]; [apply op_of_small; exact H |].
  transitivity (op_of n); [| apply op_of_small; exact H]. unfold op_of. f_equal.
  replace (n + (18446744073709551616 - 4294967296)) with (n + 4294967295 * 4294967296) by reflexivity.
  rewrite N.mod_add by lia. reflexivity.
Qed.

Definition fs_op (l : tree) (o : operator) (r : tree) : list field :=
  match l with TNil => [] | _ => f_msg 1 (fs_tree l) end ++ f_int 2 (op_wire o) ++ match r with TNil => [] | _ => f_msg 3 (fs_tree r) end.

Lemma simple_op l o r : op_ok o -> Forall simple (fs_op l o r).
Proof.
  intros Ho. unfold fs_op. apply Forall_app. split; [destruct l; simple_tac |]. apply Forall_app. split; [| destruct r; simple_tac].
  apply simple_int; [lia | apply op_wire_small; exact Ho].
Qed.

Lemma nest_pos t : t <> TNil -> (1 <= nest_tree t)%nat.
Proof. destruct t; cbn; try lia. congruence. Qed.

Lemma nil_dec t : t = TNil \/ t <> TNil.
Proof. destruct t; [left; reflexivity | right | right | right]; discriminate. Qed.

Lemma opt_tree n t : t <> TNil -> match t with TNil => [] | _ => f_msg n (fs_tree t) end = f_msg n (fs_tree t).
Proof. destruct t; [congruence | | |]; reflexivity. Qed.

Lemma tree_round t : forall d, t <> TNil -> tree_ok t -> all_utf8 (tree_texts t) -> (nest_tree t <= d)%nat -> short (put_fields (fs_tree t)) ->
  dec_tree d TUnset (put_fields (fs_tree t)) = Some t.
Proof.
  induction t as [| | r | l IHl o r IHr]; intros d Hn Ho Ht Hd Hs; [congruence | | |].
  - destruct d as [| d]; [cbn in Hd; lia | reflexivity].
  - rewrite dec_tree_eq. destruct d as [| d]; [cbn in Hd; lia |]. rewrite message_put; [| apply simple_tree | exact Hs].
    cbn [fs_tree f_msg fold_opt step_tree]. cbn [nest_tree] in Hd. rewrite rule_round; [reflexivity | exact Ht | lia |].
    eapply short_in; [exact Hs | left; reflexivity].
  - cbn [nest_tree] in Hd. destruct d as [| [| d]]; [lia | lia |]. rewrite dec_tree_eq.
    rewrite message_put; [| apply simple_tree | exact Hs].
    cbn [tree_ok] in Ho. destruct Ho as (Hl & Ho & Hr). cbn [tree_texts] in Ht. apply utf8_app in Ht as [Htl Htr].
    change (fs_tree (TOp l o r)) with (f_msg 1 (fs_op l o r)) in *.
    assert (Hs1 : short (put_fields (fs_op l o r))) by (eapply short_in; [exact Hs | left; reflexivity]).
    cbn [f_msg fold_opt step_tree parts]. rewrite message_put; [| apply simple_op; exact Ho | exact Hs1].
    assert (H1 : fold_opt (step_op d) (fs_op l o r) (TNil, OpUnion, TNil) = Some (l, o, r)); [| rewrite H1; reflexivity].
    unfold fs_op in *. rewrite fold_opt_app.
    replace (fold_opt (step_op d) (match l with TNil => [] | _ => f_msg 1 (fs_tree l) end) (TNil, OpUnion, TNil)) with (Some (l, OpUnion, TNil)).
    2:{ destruct (nil_dec l) as [-> | Hln]; [reflexivity |]. rewrite opt_tree by exact Hln. cbn [f_msg fold_opt step_op fst snd fresh].
        rewrite IHl; [reflexivity | exact Hln | exact Hl | exact Htl | lia |].
        eapply short_in; [exact Hs1 |]. apply in_or_app. left. rewrite opt_tree by exact Hln. left. reflexivity. }
    rewrite fold_opt_app.
    replace (fold_opt (step_op d) (f_int 2 (op_wire o)) (l, OpUnion, TNil)) with (Some (l, o, TNil)).
    2:{ unfold f_int. destruct (N.eqb_spec (op_wire o) 0) as [H0 | H0]; cbn [fold_opt step_op fst snd].
        - rewrite <- (op_round o Ho), H0. reflexivity.
        - rewrite op_round by exact Ho. reflexivity. }
    destruct (nil_dec r) as [-> | Hrn]; [reflexivity |]. rewrite opt_tree by exact Hrn. cbn [f_msg fold_opt step_op fst snd fresh].
    rewrite IHr; [reflexivity | exact Hrn | exact Hr | exact Htr | lia |].
    eapply short_in; [exact Hs1 |]. apply in_or_app. right. apply in_or_app. right. rewrite opt_tree by exact Hrn. left. reflexivity.
Qed.

Lemma tree_deep t : forall d t0, tree_ok t -> (d < nest_tree t)%nat -> short (put_fields (fs_tree t)) -> dec_tree d t0 (put_fields (fs_tree t)) = None.
Proof.
  induction t as [| | r | l IHl o r IHr]; intros d t0 Ho Hd Hs.
  - cbn in Hd. lia.
  - cbn in Hd. replace d with 0%nat by lia. reflexivity.
  - rewrite dec_tree_eq. destruct d as [| d]; [reflexivity |]. rewrite message_put; [| apply simple_tree | exact Hs].
    cbn [fs_tree f_msg fold_opt step_tree]. cbn [nest_tree] in Hd. rewrite rule_deep; [reflexivity | lia |].
    eapply short_in; [exact Hs | left; reflexivity].
  - cbn [nest_tree] in Hd. rewrite dec_tree_eq. destruct d as [| d]; [reflexivity |]. rewrite message_put; [| apply simple_tree | exact Hs].
    cbn [tree_ok] in Ho. destruct Ho as (Hl & Ho & Hr).
    change (fs_tree (TOp l o r)) with (f_msg 1 (fs_op l o r)) in *.
    assert (Hs1 : short (put_fields (fs_op l o r))) by (eapply short_in; [exact Hs | left; reflexivity]).
    cbn [f_msg fold_opt step_tree parts]. destruct d as [| d]; [reflexivity |].
    assert (Hd' : (d < nest_tree l \/ d < nest_tree r)%nat) by lia. clear Hd.
    destruct Hd' as [Hd | Hd].
    + assert (Hln : l <> TNil) by (intros ->; cbn in Hd; lia).
      assert (Hin : In (1, WLen (put_fields (fs_tree l))) (fs_op l o r)).
      { unfold fs_op. apply in_or_app. left. rewrite opt_tree by exact Hln. left. reflexivity. }
      rewrite (message_none step_op d _ _ _ _ (simple_op l o r Ho) Hs1 Hin); [reflexivity |].
      intros a. cbn [step_op]. rewrite IHl; [reflexivity | exact Hl | exact Hd |]. eapply short_in; [exact Hs1 | exact Hin].
    + assert (Hrn : r <> TNil) by (intros ->; cbn in Hd; lia).
      assert (Hin : In (3, WLen (put_fields (fs_tree r))) (fs_op l o r)).
      { unfold fs_op. apply in_or_app. right. apply in_or_app. right. rewrite opt_tree by exact Hrn. left. reflexivity. }
      rewrite (message_none step_op d _ _ _ _ (simple_op l o r Ho) Hs1 Hin); [reflexivity |].
      intros a. cbn [step_op]. rewrite IHr; [reflexivity | exact Hr | exact Hd |]. eapply short_in; [exact Hs1 | exact Hin].
Qed.

(** ** policy.proto *)

Ltac inner Hs := eapply short_in; [exact Hs |].

Lemma simple_relexpr x : Forall simple (fs_relexpr x).
Proof. destruct x; cbn [fs_relexpr]; [constructor; [num | constructor] | simple_tac | constructor]. Qed.

Lemma relexpr_round d x : relexpr_ok x -> all_utf8 (relexpr_texts x) -> (nest_relexpr x <= d)%nat -> short (put_fields (fs_relexpr x)) ->
  message step_relexpr d XUnset (put_fields (fs_relexpr x)) = Some x.
Proof.
  intros Ho Ht Hd Hs. destruct d as [| d]; [destruct x; cbn in Hd; lia |]. rewrite message_put; [| apply simple_relexpr | exact Hs].
  destruct x as [s | t |]; cbn [fs_relexpr f_msg fold_opt step_relexpr]; [| | reflexivity].
  - cbn [relexpr_texts] in Ht. apply utf8_cons in Ht as [Ht _]. rewrite text_ok by exact Ht. reflexivity.
  - destruct Ho as [Hn Ho]. cbn [nest_relexpr] in Hd. rewrite tree_round; [reflexivity | exact Hn | exact Ho | exact Ht | lia |].
    inner Hs. left. reflexivity.
Qed.

Lemma relexpr_deep d x x0 : relexpr_ok x -> (d < nest_relexpr x)%nat -> short (put_fields (fs_relexpr x)) ->
  message step_relexpr d x0 (put_fields (fs_relexpr x)) = None.
Proof.
  intros Ho Hd Hs. destruct d as [| d]; [reflexivity |]. destruct x as [s | t |]; cbn [nest_relexpr] in Hd; try lia.
  apply (message_none _ _ _ _ 2 (put_fields (fs_tree t))); [apply simple_relexpr | exact Hs | left; reflexivity |].
  intros a. cbn [step_relexpr]. destruct Ho as [Hn Ho]. rewrite tree_deep; [reflexivity | exact Ho | lia |]. inner Hs. left. reflexivity.
Qed.

Lemma simple_restriction r : Forall simple (fs_restriction r).
Proof. destruct r; cbn [fs_restriction]; simple_tac. Qed.

Lemma restriction_round d r : all_utf8 (restriction_texts r) -> (nest_restriction r <= d)%nat -> short (put_fields (fs_restriction r)) ->
  message step_restriction d RRUnset (put_fields (fs_restriction r)) = Some r.
Proof.
  intros Ht Hd Hs. destruct d as [| d]; [destruct r; cbn in Hd; lia |]. rewrite message_put; [| apply simple_restriction | exact Hs].
  destruct r as [x | x y |]; cbn [fs_restriction f_msg fold_opt step_restriction]; [| | reflexivity]; (destruct d as [| d]; [cbn in Hd; lia |]);
    cbn [restriction_texts] in Ht; apply utf8_cons in Ht as [Ht Ht'].
  - rewrite cu_round; [reflexivity | exact Ht |]. inner Hs. left. reflexivity.
  - apply utf8_cons in Ht' as [Ht' _]. rewrite ttu_round; [reflexivity | exact Ht | exact Ht' |]. inner Hs. left. reflexivity.
Qed.

Lemma restriction_deep d r r0 : (d < nest_restriction r)%nat -> short (put_fields (fs_restriction r)) ->
  message step_restriction d r0 (put_fields (fs_restriction r)) = None.
Proof.
  intros Hd Hs. destruct d as [| d]; [reflexivity |]. rewrite message_put; [| apply simple_restriction | exact Hs].
  destruct r; cbn [nest_restriction] in Hd; try lia; (replace d with 0%nat by lia); reflexivity.
Qed.

Lemma push_list {A} (l l0 : list A) : fold_left (fun l x => l ++ [x]) l l0 = l0 ++ l.
Proof. revert l0. induction l as [| x l IH]; intros l0; cbn [fold_left]; [rewrite app_nil_r; reflexivity |]. rewrite IH, <- app_assoc. reflexivity. Qed.

Lemma max_in {A} (f : A -> nat) l x : In x l -> (f x <= list_max (map f l))%nat.
Proof.
  intros H. pose proof (proj1 (list_max_le (map f l) (list_max (map f l))) (Nat.le_refl _)) as Hf.
  rewrite Forall_forall in Hf. apply Hf. apply in_map. exact H.
Qed.

Lemma max_lt {A} (f : A -> nat) l n : (n < list_max (map f l))%nat -> exists x, In x l /\ (n < f x)%nat.
Proof.
  induction l as [| x l IH]; cbn [map]; intros H; [cbn in H; lia |].
  change (list_max (f x :: map f l)) with (Nat.max (f x) (list_max (map f l))) in H.
  destruct (Nat.lt_ge_cases n (f x)); [exists x; split; [left; reflexivity | assumption] |].
  destruct IH as (y & Hy & Hn); [lia |]. exists y. split; [right; exact Hy | exact Hn].
Qed.

Lemma restrictions_round d l : all_utf8 (flat_map restriction_texts l) -> (S (list_max (map nest_restriction l)) <= d)%nat ->
  short (put_fields (flat_map (fun r => f_msg 1 (fs_restriction r)) l)) ->
  message step_restrictions d [] (put_fields (flat_map (fun r => f_msg 1 (fs_restriction r)) l)) = Some l.
Proof.
  intros Ht Hd Hs. destruct d as [| d]; [lia |]. rewrite message_put; [| simple_tac | exact Hs].
  rewrite (fold_opt_list _ 1 fs_restriction (fun l x => l ++ [x]) (fun _ => True)); [rewrite push_list; reflexivity | | exact I].
  intros a x Hx _. split; [| exact I]. cbn [step_restrictions]. pose proof (max_in nest_restriction l x Hx).
  rewrite restriction_round; [reflexivity | eapply utf8_flat; eassumption | lia |]. inner Hs. apply in_f_msg_list. exact Hx.
Qed.

Lemma restrictions_deep d l l0 : (d < S (list_max (map nest_restriction l)))%nat ->
  short (put_fields (flat_map (fun r => f_msg 1 (fs_restriction r)) l)) ->
  message step_restrictions d l0 (put_fields (flat_map (fun r => f_msg 1 (fs_restriction r)) l)) = None.
Proof.
  intros Hd Hs. destruct d as [| d]; [reflexivity |]. destruct (max_lt nest_restriction l d) as (x & Hx & Hn); [lia |].
  apply (message_none _ _ _ _ 1 (put_fields (fs_restriction x))); [simple_tac | exact Hs | apply in_f_msg_list; exact Hx |].
  intros a. cbn [step_restrictions]. rewrite restriction_deep; [reflexivity | exact Hn |]. inner Hs. apply in_f_msg_list. exact Hx.
Qed.

Lemma simple_subj_restriction r : Forall simple (fs_subj_restriction r).
Proof. destruct r; cbn [fs_subj_restriction]; simple_tac. Qed.

Lemma subj_restriction_round d r : all_utf8 (subj_restriction_texts r) -> (nest_subj_restriction r <= d)%nat ->
  short (put_fields (fs_subj_restriction r)) -> message step_subj_restriction d SRUnset (put_fields (fs_subj_restriction r)) = Some r.
Proof.
  intros Ht Hd Hs. destruct d as [| d]; [destruct r; cbn in Hd; lia |]. rewrite message_put; [| apply simple_subj_restriction | exact Hs].
  destruct r as [| l |]; cbn [fs_subj_restriction f_msg fold_opt step_subj_restriction]; [| | reflexivity]; cbn [nest_subj_restriction] in Hd.
  - destruct d as [| d]; [lia | reflexivity].
  - rewrite restrictions_round; [reflexivity | exact Ht | lia |]. inner Hs. left. reflexivity.
Qed.

Lemma subj_restriction_deep d r r0 : (d < nest_subj_restriction r)%nat -> short (put_fields (fs_subj_restriction r)) ->
  message step_subj_restriction d r0 (put_fields (fs_subj_restriction r)) = None.
Proof.
  intros Hd Hs. destruct d as [| d]; [reflexivity |]. rewrite message_put; [| apply simple_subj_restriction | exact Hs].
  destruct r as [| l |]; cbn [nest_subj_restriction] in Hd; cbn [fs_subj_restriction f_msg fold_opt step_subj_restriction]; [| | lia].
  - replace d with 0%nat by lia. reflexivity.
  - rewrite restrictions_deep; [reflexivity | lia |]. inner Hs. left. reflexivity.
Qed.

Lemma simple_relation r : Forall simple (fs_relation r).
Proof. unfold fs_relation. simple_tac. Qed.

Lemma in_opt {A} n (fs : A -> list field) x : In (n, WLen (put_fields (fs x))) (f_opt n fs (Some x)).
Proof. left. reflexivity. Qed.

Ltac into := repeat first [apply in_opt | left; reflexivity | apply in_f_msg_list; assumption | apply in_or_app; first [left; solve [into] | right; solve [into]]].

Lemma relation_round d r : relation_ok r -> all_utf8 (relation_texts r) -> (nest_relation r <= d)%nat -> short (put_fields (fs_relation r)) ->
  message step_relation d (mkRelation "" "" None None) (put_fields (fs_relation r)) = Some r.
Proof.
  intros Ho Ht Hd Hs. unfold nest_relation in Hd. destruct d as [| d]; [lia |].
  rewrite message_put; [| apply simple_relation | exact Hs].
  destruct r as [name desc x r]. unfold relation_ok in Ho. unfold fs_relation, relation_texts in *. cbn [rl_name rl_desc rl_expr rl_restr] in *.
  apply utf8_cons in Ht as [H1 Ht]. apply utf8_cons in Ht as [H2 Ht]. apply utf8_app in Ht as [H3 H4].
  rewrite fold_opt_app, (fold_str _ _ _ (fun s => mkRelation s "" None None)) by auto.
  rewrite fold_opt_app, (fold_str _ _ _ (fun s => mkRelation name s None None)) by auto.
  rewrite fold_opt_app.
  replace (fold_opt (step_relation d) (f_opt 3 fs_relexpr x) (mkRelation name desc None None)) with (Some (mkRelation name desc x None)).
  2:{ destruct x as [x |]; [| reflexivity]. cbn [f_opt f_msg fold_opt step_relation rl_name rl_desc rl_expr rl_restr or_else nest_opt opt_texts] in *.
      rewrite relexpr_round; [reflexivity | exact Ho | exact H3 | lia |]. inner Hs. apply in_or_app. right. apply in_or_app. right. left. reflexivity. }
  destruct r as [r |]; [| reflexivity]. cbn [f_opt f_msg fold_opt step_relation rl_name rl_desc rl_expr rl_restr or_else nest_opt opt_texts] in *.
  rewrite subj_restriction_round; [reflexivity | exact H4 | lia |]. inner Hs. do 3 (apply in_or_app; right). left. reflexivity.
Qed.

Lemma relation_deep d r r0 : relation_ok r -> (d < nest_relation r)%nat -> short (put_fields (fs_relation r)) ->
  message step_relation d r0 (put_fields (fs_relation r)) = None.
Proof.
  intros Ho Hd Hs. unfold nest_relation in Hd. destruct d as [| d]; [reflexivity |]. unfold relation_ok in Ho.
  assert (Hd' : (d < nest_opt nest_relexpr (rl_expr r) \/ d < nest_opt nest_subj_restriction (rl_restr r))%nat) by lia. destruct Hd' as [H | H].
  - destruct (rl_expr r) as [x |] eqn:Hx; cbn [nest_opt] in H; [| lia].
    assert (Hin : In (3, WLen (put_fields (fs_relexpr x))) (fs_relation r)).
    { unfold fs_relation. rewrite Hx. apply in_or_app. right. apply in_or_app. right. left. reflexivity. }
    apply (message_none _ _ _ _ _ _ (simple_relation r) Hs Hin). intros a. cbn [step_relation].
    rewrite relexpr_deep; [reflexivity | exact Ho | exact H |]. inner Hs. exact Hin.
  - destruct (rl_restr r) as [x |] eqn:Hx; cbn [nest_opt] in H; [| lia].
    assert (Hin : In (4, WLen (put_fields (fs_subj_restriction x))) (fs_relation r)).
    { unfold fs_relation. rewrite Hx. do 3 (apply in_or_app; right). left. reflexivity. }
    apply (message_none _ _ _ _ _ _ (simple_relation r) Hs Hin). intros a. cbn [step_relation].
    rewrite subj_restriction_deep; [reflexivity | exact H |]. inner Hs. exact Hin.
Qed.

Lemma simple_resource r : Forall simple (fs_resource r).
Proof. unfold fs_resource. simple_tac. Qed.

Lemma resource_round d r : (forall l, In l (rs_relations r) -> relation_ok l) -> all_utf8 (resource_texts r) -> (nest_resource r <= d)%nat ->
  short (put_fields (fs_resource r)) -> message step_resource d (mkResource "" "" []) (put_fields (fs_resource r)) = Some r.
Proof.
  intros Ho Ht Hd Hs. unfold nest_resource in Hd. destruct d as [| d]; [lia |].
  rewrite message_put; [| apply simple_resource | exact Hs].
  destruct r as [name desc ls]. unfold fs_resource, resource_texts in *. cbn [rs_name rs_desc rs_relations] in *.
  apply utf8_cons in Ht as [H1 Ht]. apply utf8_cons in Ht as [H2 Ht].
  rewrite fold_opt_app, (fold_str _ _ _ (fun s => mkResource s "" [])) by auto.
  rewrite fold_opt_app, (fold_str _ _ _ (fun s => mkResource name s [])) by auto.
  rewrite (fold_opt_list _ 3 fs_relation (fun r l => mkResource (rs_name r) (rs_desc r) (rs_relations r ++ [l])) (fun _ => True)); [| | exact I].
  - f_equal. clear. assert (H : forall ls l0, fold_left (fun r l => mkResource (rs_name r) (rs_desc r) (rs_relations r ++ [l])) ls (mkResource name desc l0) = mkResource name desc (l0 ++ ls)).
    { clear. induction ls as [| l ls IH]; intros l0; cbn [fold_left rs_name rs_desc rs_relations]; [rewrite app_nil_r; reflexivity |]. rewrite IH, <- app_assoc. reflexivity. }
    apply H.
  - intros a x Hx _. split; [| exact I]. cbn [step_resource]. pose proof (max_in nest_relation ls x Hx).
    rewrite relation_round; [reflexivity | auto | eapply utf8_flat; eassumption | lia |].
    inner Hs. do 2 (apply in_or_app; right). apply in_f_msg_list. exact Hx.
Qed.

Lemma resource_deep d r r0 : (forall l, In l (rs_relations r) -> relation_ok l) -> (d < nest_resource r)%nat ->
  short (put_fields (fs_resource r)) -> message step_resource d r0 (put_fields (fs_resource r)) = None.
Proof.
  intros Ho Hd Hs. unfold nest_resource in Hd. destruct d as [| d]; [reflexivity |].
  destruct (max_lt nest_relation (rs_relations r) d) as (x & Hx & Hn); [lia |].
  assert (Hin : In (3, WLen (put_fields (fs_relation x))) (fs_resource r)).
  { unfold fs_resource. do 2 (apply in_or_app; right). apply in_f_msg_list. exact Hx. }
  apply (message_none _ _ _ _ _ _ (simple_resource r) Hs Hin). intros a. cbn [step_resource].
  rewrite relation_deep; [reflexivity | auto | exact Hn |]. inner Hs. exact Hin.
Qed.

(** *** Attributes *)

Lemma entry_round x : utf8_valid (fst x) = true -> utf8_valid (snd x) = true -> short (put_fields [(1, WLen (fst x)); (2, WLen (snd x))]) ->
  dec_entry (put_fields [(1, WLen (fst x)); (2, WLen (snd x))]) = Some x.
Proof.
  intros H1 H2 Hs. unfold dec_entry. rewrite message_put; [| constructor; [num | constructor; [num | constructor]] | exact Hs].
  cbn [fold_opt step_ttu]. rewrite !text_ok by assumption. cbn [fst snd]. destruct x; reflexivity.
Qed.

Lemma sorted_kv l : StronglySorted (fun x y : string * string => scmp (fst x) (fst y) = Lt) l -> kv_sorted scmp l.
Proof.
  induction 1 as [| [k v] l Hl IH Hf]; cbn [kv_sorted]; [exact I |]. split; [| exact IH].
  rewrite Forall_forall in Hf. intros k' v' Hin. exact (Hf _ Hin).
Qed.

Lemma kv_sorted_strong l : kv_sorted scmp l -> StronglySorted (fun x y : string * string => scmp (fst x) (fst y) = Lt) l.
Proof.
  induction l as [| [k v] l IH]; cbn [kv_sorted]; intros H; constructor; [apply IH; tauto |].
  apply Forall_forall. intros [k' v'] Hin. cbn. eapply H. exact Hin.
Qed.

(** Entries put into a map one by one, in any order. *)
Lemma set_all_get (attrs : list (string * string)) : forall m k, NoDup (map fst attrs) ->
  kv_get scmp k (fold_left (fun m x => kv_set scmp (fst x) (snd x) m) attrs m) =
  match kv_get scmp k attrs with Some v => Some v | None => kv_get scmp k m end.
Proof.
  induction attrs as [| [k v] l IH]; intros m k0 Hn; cbn [fold_left kv_get fst snd]; [reflexivity |].
  inversion Hn as [| ? ? Hk Hl]; subst. rewrite IH by exact Hl. rewrite (get_set scmp scmp_ok).
  destruct (scmp k0 k) eqn:Hc; try reflexivity. apply scmp_eq in Hc. subst k0.
  replace (kv_get scmp k l) with (@None string); [reflexivity |]. symmetry. clear - Hk. induction l as [| [k' v'] l IH]; [reflexivity |].
  cbn [kv_get]. cbn [map fst In] in Hk. destruct (scmp k k') eqn:Hc; try (apply IH; tauto). apply scmp_eq in Hc. subst. tauto.
Qed.

Lemma set_all_sorted (attrs : list (string * string)) : forall m, kv_sorted scmp m ->
  kv_sorted scmp (fold_left (fun m x => kv_set scmp (fst x) (snd x) m) attrs m).
Proof. induction attrs as [| x l IH]; intros m Hm; cbn [fold_left]; [exact Hm |]. apply IH. apply sorted_set; [apply scmp_ok | exact Hm]. Qed.

Lemma attrs_round attrs l : kv_sorted scmp l -> Permutation attrs l ->
  fold_left (fun m (x : string * string) => kv_set scmp (fst x) (snd x) m) attrs [] = l.
Proof.
  intros Hl Hp. apply (sorted_ext scmp scmp_ok); [apply set_all_sorted; exact I | exact Hl |]. intros k.
  assert (Hn : NoDup (map fst attrs)).
  { eapply Permutation_NoDup; [apply Permutation_map, Permutation_sym, Hp |]. apply (sorted_nodup scmp scmp_ok). exact Hl. }
  rewrite set_all_get by exact Hn. cbn [kv_get].
  assert (Hg : forall v, kv_get scmp k attrs = Some v <-> In (k, v) attrs).
  { clear - Hn. intros v. induction attrs as [| [k' v'] attrs IH]; cbn [kv_get]; [split; [discriminate | intros []] |].
    inversion Hn as [| ? ? Hk Hl]; subst. destruct (scmp k k') eqn:Hc.
    - apply scmp_eq in Hc. subst k'. split; [intros [= ->]; left; reflexivity |]. intros [[= ->] | H]; [reflexivity |].
      destruct Hk. apply in_map_iff. exists (k, v). split; [reflexivity | exact H].
    - rewrite IH by exact Hl. split; [right; assumption |]. intros [[= -> ->] | H]; [| exact H]. rewrite (proj2 (scmp_eq k k) eq_refl) in Hc. discriminate.
    - rewrite IH by exact Hl. split; [right; assumption |]. intros [[= -> ->] | H]; [| exact H]. rewrite (proj2 (scmp_eq k k) eq_refl) in Hc. discriminate. }
  destruct (kv_get scmp k attrs) as [v |] eqn:H1.
  - symmetry. apply (get_iff scmp scmp_ok); [exact Hl |]. eapply Permutation_in; [exact Hp |]. apply Hg. reflexivity.
  - destruct (kv_get scmp k l) as [v |] eqn:H2; [| reflexivity]. apply (get_iff scmp scmp_ok) in H2; [| exact Hl].
    apply Permutation_sym in Hp. apply (Permutation_in _ Hp) in H2. apply Hg in H2. discriminate.
Qed.

Lemma simple_entries attrs : Forall simple (flat_map f_entry attrs).
Proof. induction attrs; cbn [flat_map f_entry]; [constructor |]. apply Forall_app. split; [apply simple_msg; lia | assumption]. Qed.

Lemma simple_policy p attrs : Forall simple (fs_policy p attrs).
Proof. unfold fs_policy. repeat (apply Forall_app; split); try (apply simple_str; lia); [apply simple_list; lia | apply simple_entries]. Qed.

Lemma policy_round d p attrs : keeps d p -> Permutation attrs (p_attrs p) -> short (put_fields (fs_policy p attrs)) ->
  message step_policy d no_policy (put_fields (fs_policy p attrs)) = Some p.
Proof.
  intros (Ht & [Ho Ha] & Hd) Hp Hs. unfold nest_policy in Hd. destruct d as [| d]; [lia |].
  rewrite message_put; [| apply simple_policy | exact Hs].
  destruct p as [id name desc rs al]. unfold fs_policy, policy_texts in *. cbn [p_id p_name p_desc p_resources p_attrs] in *.
  apply utf8_cons in Ht as [H1 Ht]. apply utf8_cons in Ht as [H2 Ht]. apply utf8_cons in Ht as [H3 Ht]. apply utf8_app in Ht as [H4 H5].
  rewrite fold_opt_app, (fold_str _ _ _ (fun s => mkPolicy s "" "" [] [])) by auto.
  rewrite fold_opt_app, (fold_str _ _ _ (fun s => mkPolicy id s "" [] [])) by auto.
  rewrite fold_opt_app, (fold_str _ _ _ (fun s => mkPolicy id name s [] [])) by auto.
  rewrite fold_opt_app.
  rewrite (fold_opt_list _ 4 fs_resource (fun p r => mkPolicy (p_id p) (p_name p) (p_desc p) (p_resources p ++ [r]) (p_attrs p)) (fun _ => True)); [| | exact I].
  - assert (H : forall rs l0, fold_left (fun p r => mkPolicy (p_id p) (p_name p) (p_desc p) (p_resources p ++ [r]) (p_attrs p)) rs (mkPolicy id name desc l0 []) = mkPolicy id name desc (l0 ++ rs) []).
    { clear. induction rs as [| l rs IH]; intros l0; cbn [fold_left p_id p_name p_desc p_resources p_attrs]; [rewrite app_nil_r; reflexivity |]. rewrite IH, <- app_assoc. reflexivity. }
    rewrite H. clear H. cbn [app].
    assert (H : forall attrs m, (forall x, In x attrs -> utf8_valid (fst x) = true /\ utf8_valid (snd x) = true /\ short (put_fields [(1, WLen (fst x)); (2, WLen (snd x))])) ->
      fold_opt (step_policy d) (flat_map f_entry attrs) (mkPolicy id name desc rs m) = Some (mkPolicy id name desc rs (fold_left (fun m (x : string * string) => kv_set scmp (fst x) (snd x) m) attrs m))).
    { clear. induction attrs as [| x attrs IH]; intros m H; [reflexivity |]. cbn [flat_map f_entry f_msg app fold_opt fold_left step_policy].
      destruct (H x (or_introl eq_refl)) as (Hx1 & Hx2 & Hx3). rewrite entry_round by assumption. cbn [omap p_id p_name p_desc p_resources p_attrs].
      apply IH. intros y Hy. apply H. right. exact Hy. }
    rewrite H; [rewrite (attrs_round attrs al); [reflexivity | apply sorted_kv; exact Ha | exact Hp] |].
    intros x Hx. pose proof (Permutation_in _ Hp Hx) as Hx'. pose proof (utf8_flat (fun x => [fst x; snd x]) al x H5 Hx') as Hu.
    apply utf8_cons in Hu as [Hu1 Hu2]. apply utf8_cons in Hu2 as [Hu2 _]. split; [exact Hu1 |]. split; [exact Hu2 |].
    inner Hs. do 4 (apply in_or_app; right). apply in_flat_map. exists x. split; [exact Hx | left; reflexivity].
  - intros a x Hx _. split; [| exact I]. cbn [step_policy]. pose proof (max_in nest_resource rs x Hx).
    rewrite resource_round; [reflexivity | intros l Hl; eapply Ho; eassumption | eapply utf8_flat; eassumption | lia |].
    inner Hs. do 3 (apply in_or_app; right). apply in_or_app. left. apply in_f_msg_list. exact Hx.
Qed.

Lemma policy_deep d p p0 attrs : policy_ok p -> (d < nest_policy p)%nat -> short (put_fields (fs_policy p attrs)) ->
  message step_policy d p0 (put_fields (fs_policy p attrs)) = None.
Proof.
  intros [Ho _] Hd Hs. unfold nest_policy in Hd. destruct d as [| d]; [reflexivity |].
  destruct (max_lt nest_resource (p_resources p) d) as (x & Hx & Hn); [lia |].
  assert (Hin : In (4, WLen (put_fields (fs_resource x))) (fs_policy p attrs)).
  { unfold fs_policy. do 3 (apply in_or_app; right). apply in_or_app. left. apply in_f_msg_list. exact Hx. }
  apply (message_none _ _ _ _ _ _ (simple_policy p attrs) Hs Hin). intros a. cbn [step_policy].
  rewrite resource_deep; [reflexivity | intros l Hl; eapply Ho; eassumption | exact Hn |]. inner Hs. exact Hin.
Qed.

(** ** Records *)

Lemma fold_bytes {A} (step : A -> field -> option A) n s (f : string -> A) a :
  (forall s, step a (n, WLen s) = Some (f s)) -> f EmptyString = a -> fold_opt step (f_str n s) a = Some (f s).
Proof. intros Hf He. destruct s as [| c s]; cbn [f_str fold_opt]; [rewrite He; reflexivity |]. rewrite Hf. reflexivity. Qed.

Lemma simple_record r attrs : Forall simple (fs_policy_record r attrs).
Proof. unfold fs_policy_record. repeat (apply Forall_app; split); [apply simple_msg; lia | apply simple_str; lia | apply simple_msg; lia]. Qed.

Lemma record_round lim r attrs : keeps (pred lim) (pr_policy r) -> time_ok (pr_created r) -> Permutation attrs (p_attrs (pr_policy r)) ->
  short (put_fields (fs_policy_record r attrs)) -> unmarshal_policy lim (put_fields (fs_policy_record r attrs)) = Some r.
Proof.
  intros Hk Ht Hp Hs. unfold unmarshal_policy. destruct lim as [| d]; [destruct Hk as (_ & _ & Hd); unfold nest_policy in Hd; cbn in Hd; lia |].
  cbn [pred] in Hk. rewrite message_put; [| apply simple_record | exact Hs].
  destruct r as [p ap t]. unfold fs_policy_record in *. cbn [pr_policy pr_app pr_created] in *.
  assert (Hd : exists d', d = S d') by (destruct d; [destruct Hk as (_ & _ & Hd); unfold nest_policy in Hd; lia | eauto]). destruct Hd as [d' ->].
  cbn [f_msg app fold_opt step_policy_record pr_policy pr_app pr_created].
  rewrite policy_round; [| exact Hk | exact Hp | inner Hs; left; reflexivity]. cbn [omap].
  rewrite fold_opt_app, (fold_bytes _ _ _ (fun s => mkPRec p s 0)) by auto.
  cbn [f_msg fold_opt step_policy_record pr_policy pr_app pr_created]. rewrite time_round by auto. reflexivity.
Qed.

Lemma record_deep lim r attrs : policy_ok (pr_policy r) -> (pred lim < nest_policy (pr_policy r))%nat ->
  short (put_fields (fs_policy_record r attrs)) -> unmarshal_policy lim (put_fields (fs_policy_record r attrs)) = None.
Proof.
  intros Ho Hd Hs. unfold unmarshal_policy. destruct lim as [| d]; [reflexivity |]. cbn [pred] in Hd.
  assert (Hin : In (1, WLen (put_fields (fs_policy (pr_policy r) attrs))) (fs_policy_record r attrs)) by (left; reflexivity).
  apply (message_none _ _ _ _ _ _ (simple_record r attrs) Hs Hin). intros a. cbn [step_policy_record].
  rewrite policy_deep; [reflexivity | exact Ho | exact Hd |]. inner Hs. exact Hin.
Qed.

Lemma simple_inode n : Forall simple (fs_inode n).
Proof. unfold fs_inode. repeat (apply Forall_app; split); try (apply simple_str; lia). apply simple_int; [lia |]. destruct (i_type n); cbn; lia. Qed.

Lemma inode_round d n : utf8_valid (i_res n) = true -> utf8_valid (i_id n) = true -> utf8_valid (i_rel n) = true ->
  short (put_fields (fs_inode n)) -> message step_inode (S d) no_inode (put_fields (fs_inode n)) = Some n.
Proof.
  intros H1 H2 H3 Hs. rewrite message_put; [| apply simple_inode | exact Hs]. destruct n as [r i l t]. unfold fs_inode. cbn [i_res i_id i_rel i_type] in *.
  rewrite fold_opt_app, (fold_str _ _ _ (fun s => mkINode s "" "" TyUnknown)) by auto.
  rewrite fold_opt_app, (fold_str _ _ _ (fun s => mkINode r s "" TyUnknown)) by auto.
  rewrite fold_opt_app, (fold_str _ _ _ (fun s => mkINode r i s TyUnknown)) by auto.
  destruct t; reflexivity.
Qed.

Lemma simple_edge e : Forall simple (fs_edge e).
Proof. unfold fs_edge. apply Forall_app. split; apply simple_msg; lia. Qed.

Lemma edge_round d e : all_utf8 (edge_texts e) -> short (put_fields (fs_edge e)) -> unmarshal_edge (S (S d)) (put_fields (fs_edge e)) = Some e.
Proof.
  intros Ht Hs. unfold unmarshal_edge. rewrite message_put; [| apply simple_edge | exact Hs].
  destruct e as [a b]. unfold fs_edge, edge_texts in *. cbn [ed_src ed_dst] in *.
  assert (H : forall x, In x [i_res a; i_id a; i_rel a; i_res b; i_id b; i_rel b] -> utf8_valid x = true) by exact Ht.
  cbn [f_msg app fold_opt step_edge ed_src ed_dst].
  rewrite inode_round; [| apply H; cbn; tauto | apply H; cbn; tauto | apply H; cbn; tauto | inner Hs; left; reflexivity].
  cbn [omap ed_src ed_dst]. rewrite inode_round; [reflexivity | apply H; cbn; tauto | apply H; cbn; tauto | apply H; cbn; tauto |].
  inner Hs. right. left. reflexivity.
Qed.

Lemma simple_data k x : Forall simple (fs_data k x).
Proof. unfold fs_data. repeat (apply Forall_app; split); [apply simple_str; lia | apply simple_msg; lia | apply simple_str; lia]. Qed.

Lemma data_round d k x : time_ok (d_created x) -> short (put_fields (fs_data k x)) -> unmarshal_data (S (S d)) (marshal_data k x) = Some x.
Proof.
  intros Ht Hs. unfold unmarshal_data, marshal_data. rewrite message_put; [| apply simple_data | exact Hs].
  destruct x as [ap t]. unfold fs_data. cbn [d_app d_created] in *.
  rewrite fold_opt_app, (fold_bytes _ _ _ (fun s => mkData "" 0)) by auto.
  cbn [f_msg app fold_opt step_data d_app d_created]. rewrite time_round by auto. cbn [omap].
  rewrite (fold_bytes _ _ _ (fun s => mkData s t)) by auto. reflexivity.
Qed.

(** ** Sizes *)

Lemma slen_len n s : slen (put_field (n, WLen s)) <= slen s + 20.
Proof. unfold put_field. cbn [fst snd]. rewrite !slen_app. pose proof (slen_varint (n * 8 + 2)). pose proof (slen_varint (slen s)). lia. Qed.

Lemma slen_int n v : slen (put_field (n, WVarint v)) <= 20.
Proof. unfold put_field. cbn [fst snd]. rewrite !slen_app. pose proof (slen_varint (n * 8)). pose proof (slen_varint v). lia. Qed.

Lemma slen_nil : slen "" = 0.
Proof. reflexivity. Qed.

Lemma slen_str n s : slen (put_fields (f_str n s)) <= slen s + 20.
Proof. destruct s as [| c s]; cbn [f_str put_fields]; [cbn; lia |]. rewrite slen_app, slen_nil. pose proof (slen_len n (String c s)). lia. Qed.

Lemma slen_fint n v : slen (put_fields (f_int n v)) <= 20.
Proof. unfold f_int. destruct (v =? 0); cbn [put_fields]; [cbn; lia |]. rewrite slen_app, slen_nil. pose proof (slen_int n v). lia. Qed.

Lemma slen_msg n fs : slen (put_fields (f_msg n fs)) <= slen (put_fields fs) + 20.
Proof. unfold f_msg. cbn [put_fields]. rewrite slen_app, slen_nil. pose proof (slen_len n (put_fields fs)). lia. Qed.

Lemma slen_time t : slen (put_fields (fs_time t)) <= 40.
Proof. unfold fs_time. rewrite put_fields_app, slen_app. pose proof (slen_fint 1 (t / nanos)). pose proof (slen_fint 2 (t mod nanos)). lia. Qed.

Lemma slen_record r attrs : slen (put_fields (fs_policy_record r attrs)) <= slen (put_fields (fs_policy (pr_policy r) attrs)) + slen (pr_app r) + 100.
Proof.
  unfold fs_policy_record. rewrite !put_fields_app, !slen_app. pose proof (slen_msg 1 (fs_policy (pr_policy r) attrs)). pose proof (slen_str 2 (pr_app r)).
  pose proof (slen_msg 3 (fs_time (pr_created r))). pose proof (slen_time (pr_created r)). lia.
Qed.
