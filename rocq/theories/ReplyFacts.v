(** Facts about responses as JSON. *)
From Coq Require Import ZArith DecimalString DecimalN.
From Verif Require Import Base BaseFacts Domain Lexer Store Search Explain Yaml Service Dump Api Wire SpecWire WireFacts Rpc SpecRpc RpcFacts Cli Json SpecJson JsonFacts JsonReply SpecReply.
Local Open Scope N_scope.

(** ** Numbers *)

Lemma count_round n : n < count_limit -> read_count (JStr (count_text n)) = Some n.
Proof.
  intros Hn. unfold read_count. unfold count_text at 1. rewrite NilEmpty.usu, DecimalN.Unsigned.of_to, String.eqb_refl, andb_true_r.
  apply N.ltb_lt in Hn. rewrite Hn. reflexivity.
Qed.

(** ** Digits *)

Lemma decimal_value v : v < 10 -> digit_value (decimal v) = Some v.
Proof.
  intros Hv. unfold digit_value, decimal. rewrite N_ascii_embedding by lia.
  replace ((48 <=? 48 + v) && (48 + v <=? 57)) with true; [f_equal; lia |].
  symmetry. apply andb_true_intro. split; apply N.leb_le; lia.
Qed.

Lemma read_prefix j : forall k acc n r,
  read_digits j acc (digits (j + k) n +++ r) = Some (acc * 10 ^ N.of_nat j + n / 10 ^ N.of_nat k mod 10 ^ N.of_nat j, digits k n +++ r).
Proof.
  induction j as [| j IH]; intros k acc n r.
  - cbn [read_digits Nat.add]. change (10 ^ N.of_nat 0) with 1. rewrite N.mod_1_r, N.mul_1_r, N.add_0_r. reflexivity.
  - cbn [Nat.add digits String.append read_digits]. rewrite decimal_value by (apply N.mod_lt; lia). rewrite IH. f_equal. f_equal.
    rewrite Nat2N.inj_add, Nat2N.inj_succ, N.pow_add_r, N.pow_succ_r'.
    rewrite (N.mul_comm (10 ^ N.of_nat j) (10 ^ N.of_nat k)), <- N.div_div by (apply N.pow_nonzero; lia).
    rewrite (N.mul_comm 10 (10 ^ N.of_nat j)), N.mod_mul_r by (first [apply N.pow_nonzero; lia | lia]).
    generalize (n / 10 ^ N.of_nat k mod 10 ^ N.of_nat j) (n / 10 ^ N.of_nat k / 10 ^ N.of_nat j mod 10) (10 ^ N.of_nat j). intros. lia.
Qed.

Lemma number_prefix {A} j k n r (next : N -> string -> option A) :
  number j (digits (j + k) n +++ r) next = next (n / 10 ^ N.of_nat k mod 10 ^ N.of_nat j) (digits k n +++ r).
Proof. unfold number. rewrite read_prefix. reflexivity. Qed.

Lemma number_all {A} k n r (next : N -> string -> option A) : n < 10 ^ N.of_nat k -> number k (digits k n +++ r) next = next n r.
Proof.
  intros Hn. pose proof (number_prefix k 0 n r next) as H. rewrite Nat.add_0_r in H. rewrite H. change (10 ^ N.of_nat 0) with 1.
  rewrite N.div_1_r, N.mod_small by exact Hn. reflexivity.
Qed.

Lemma decimal_not v c : v < 10 -> digit_value c = None -> Ascii.eqb c (decimal v) = false.
Proof. intros Hv Hc. apply Ascii.eqb_neq. intros ->. rewrite decimal_value in Hc by exact Hv. discriminate. Qed.

Lemma digits_start k n r c : digit_value c = None -> starts c (digits (S k) n +++ r) = false.
Proof. intros H. cbn [digits String.append starts]. apply decimal_not; [apply N.mod_lt; lia | exact H]. Qed.

Ltac Zify.zify_post_hook ::= Z.to_euclidean_division_equations.

Lemma fraction_round ns : ns < 1000000000 -> read_fraction (fraction ns +++ "Z") = Some (ns, "Z"%string).
Proof.
  intros H. unfold fraction. destruct (N.eqb_spec ns 0) as [-> | H0]; [reflexivity |]. unfold read_fraction.
  destruct (N.eqb_spec (ns mod 1000000) 0) as [H1 | H1]; [| destruct (N.eqb_spec (ns mod 1000) 0) as [H2 | H2]].
  - change (starts "." (("." +++ digits 3 (ns / 1000000)) +++ "Z")) with true.
    change (("." +++ digits 3 (ns / 1000000)) +++ "Z") with (String "." (digits 3 (ns / 1000000) +++ "Z")).
    cbn [expect]. change (Ascii.eqb "." ".") with true. cbv iota. rewrite number_all by (change (10 ^ N.of_nat 3) with 1000; lia).
    change (starts "Z" "Z") with true. cbv iota. f_equal. f_equal. lia.
  - change (starts "." (("." +++ digits 6 (ns / 1000)) +++ "Z")) with true.
    change (("." +++ digits 6 (ns / 1000)) +++ "Z") with (String "." (digits (3 + 3) (ns / 1000) +++ "Z")).
    cbn [expect]. change (Ascii.eqb "." ".") with true. cbv iota. rewrite number_prefix, digits_start by reflexivity.
    pose proof (number_prefix 3 0 (ns / 1000) "Z" (fun b s => if starts "Z" s then Some (ns / 1000 / 10 ^ N.of_nat 3 mod 10 ^ N.of_nat 3 * 1000000 + b * 1000, s) else
      number 3 s (fun c s0 => Some (ns / 1000 / 10 ^ N.of_nat 3 mod 10 ^ N.of_nat 3 * 1000000 + b * 1000 + c, s0)))) as E.
    cbn [Nat.add] in E. rewrite E. change (digits 0 (ns / 1000) +++ "Z")%string with "Z"%string. change (starts "Z" "Z") with true. cbv iota.
    change (10 ^ N.of_nat 3) with 1000. change (10 ^ N.of_nat 0) with 1. f_equal. f_equal. lia.
  - change (starts "." (("." +++ digits 9 ns) +++ "Z")) with true.
    change (("." +++ digits 9 ns) +++ "Z") with (String "." (digits (3 + 6) ns +++ "Z")).
    cbn [expect]. change (Ascii.eqb "." ".") with true. cbv iota. rewrite number_prefix, digits_start by reflexivity.
    match goal with |- number 3 (digits 6 ns +++ "Z") ?f = _ => pose proof (number_prefix 3 3 ns "Z" f) as E end. cbn [Nat.add] in E. rewrite E. clear E.
    rewrite digits_start by reflexivity.
    match goal with |- number 3 (digits 3 ns +++ "Z") ?f = _ => pose proof (number_prefix 3 0 ns "Z" f) as E end. cbn [Nat.add] in E. rewrite E. clear E.
    change (10 ^ N.of_nat 6) with 1000000. change (10 ^ N.of_nat 3) with 1000. change (10 ^ N.of_nat 0) with 1. f_equal. f_equal. lia.
Qed.

(** ** The calendar *)

Definition all_below (p : N -> bool) (n : N) : bool := snd (N.iter n (fun x => (fst x + 1, snd x && p (fst x))) (0, true)).

Lemma all_below_ok p n : all_below p n = true -> forall i, i < n -> p i = true.
Proof.
  unfold all_below. assert (H : fst (N.iter n (fun x => (fst x + 1, snd x && p (fst x))) (0, true)) = n /\
    (snd (N.iter n (fun x => (fst x + 1, snd x && p (fst x))) (0, true)) = true -> forall i, i < n -> p i = true)); [| apply H].
  induction n as [| n IH] using N.peano_ind; [split; [reflexivity | intros _ i Hi; lia] |].
  rewrite N.iter_succ. cbn [fst snd]. destruct IH as [H1 H2]. rewrite H1. split; [lia |].
  intros H i Hi. apply andb_prop in H as [H H3]. destruct (N.eq_dec i n) as [-> | Hn]; [exact H3 | apply H2; [exact H | lia]].
Qed.

Definition next_of (x : N * (N * N)) : N * (N * N) :=
  let '(y, (m, d)) := x in
  if d <? month_days y m then (y, (m, d + 1)) else if m <? 12 then (y, (m + 1, 1)) else (y + 1, (1, 1)).
Definition same_date (x y : N * (N * N)) : bool :=
  (fst x =? fst y) && (fst (snd x) =? fst (snd y)) && (snd (snd x) =? snd (snd y)).
Lemma same_date_eq x y : same_date x y = true -> x = y.
Proof.
  destruct x as [a [b c]], y as [a' [b' c']]. unfold same_date. cbn [fst snd]. intros H. apply andb_prop in H as [H H3]. apply andb_prop in H as [H1 H2].
  apply N.eqb_eq in H1, H2, H3. congruence.
Qed.

Definition day_ok (i : N) : bool :=
  let '(y, (m, d)) := date_of i in
  date_valid y m d && (day_of y m d =? i) && same_date (date_of (i + 1)) (next_of (y, (m, d))).
Lemma era_ok : all_below day_ok 146097 = true.
Proof. vm_compute. reflexivity. Qed.

Lemma leap_era y e : leap (400 * e + y) = leap y.
Proof.
  unfold leap. replace ((400 * e + y) mod 4) with (y mod 4) by lia. replace ((400 * e + y) mod 100) with (y mod 100) by lia.
  replace ((400 * e + y) mod 400) with (y mod 400) by lia. reflexivity.
Qed.
Lemma month_era y e m : month_days (400 * e + y) m = month_days y m.
Proof. unfold month_days. rewrite leap_era. reflexivity. Qed.

Definition later (e : N) (x : N * (N * N)) : N * (N * N) := (400 * e + fst x, snd x).

Lemma date_era e i : date_of (146097 * e + i) = later e (date_of i).
Proof.
  unfold date_of. replace ((146097 * e + i) / 146097) with (e + i / 146097) by lia. replace ((146097 * e + i) mod 146097) with (i mod 146097) by lia.
  set (d := i mod 146097). cbv zeta.
  set (y := 400 * (i / 146097) + _ + 1). set (y' := 400 * (e + i / 146097) + _ + 1). replace y' with (400 * e + y) by (unfold y, y'; lia). clearbody y y'.
  unfold later. cbn [fst snd]. f_equal. unfold month_of. rewrite leap_era. reflexivity.
Qed.

Lemma months_era y e m : months_before (400 * e + y) m = months_before y m.
Proof. unfold months_before. f_equal. apply map_ext. intros k. apply month_era. Qed.

Lemma day_era y e m d : 1 <= y -> day_of (400 * e + y) m d = 146097 * e + day_of y m d.
Proof.
  intros Hy. unfold day_of. rewrite months_era. replace (400 * e + y - 1) with (400 * e + (y - 1)) by lia. set (p := y - 1). clearbody p. cbv zeta.
  replace ((400 * e + p) / 4) with (100 * e + p / 4) by lia. replace ((400 * e + p) / 100) with (4 * e + p / 100) by lia.
  replace ((400 * e + p) / 400) with (e + p / 400) by lia. assert (p / 100 <= p / 4) by lia. lia.
Qed.

Lemma date_ok i : let '(y, (m, d)) := date_of i in
  date_valid y m d = true /\ day_of y m d = i /\ date_of (i + 1) = next_of (y, (m, d)).
Proof.
  assert (Hi : i = 146097 * (i / 146097) + i mod 146097) by lia. set (e := i / 146097) in *. assert (Hj : i mod 146097 < 146097) by lia.
  set (j := i mod 146097) in *. clearbody e j. subst i. pose proof (all_below_ok _ _ era_ok j Hj) as H. unfold day_ok in H.
  replace (146097 * e + j + 1) with (146097 * e + (j + 1)) by lia. rewrite !date_era. destruct (date_of j) as [y [m d]] eqn:E. unfold later at 1. cbn [fst snd].
  apply andb_prop in H as [H H3]. apply andb_prop in H as [H1 H2]. apply N.eqb_eq in H2. apply same_date_eq in H3.
  unfold date_valid in *. rewrite month_era. pose proof H1 as H1'. do 4 apply andb_prop in H1' as [H1' _]. apply N.leb_le in H1'.
  split; [| split].
  - do 4 (apply andb_prop in H1 as [H1 ?]). repeat (apply andb_true_intro; split; try assumption). apply N.leb_le. lia.
  - rewrite day_era, H2 by exact H1'. reflexivity.
  - rewrite H3. unfold next_of. rewrite month_era. unfold later. destruct (d <? month_days y m); [reflexivity |]. destruct (m <? 12); [reflexivity |].
    cbn [fst snd]. f_equal. lia.
Qed.
