(** Documents of responses are read as the responses. *)
From Coq Require Import ZArith DecimalString DecimalN.
From Verif Require Import Base BaseFacts Domain Lexer Store Search Explain Yaml Service Dump Api Wire SpecWire WireFacts Rpc SpecRpc RpcFacts Cli Json SpecJson JsonFacts JsonReply SpecReply ReplyFacts.
Local Open Scope N_scope.

Ltac Zify.zify_post_hook ::= Z.to_euclidean_division_equations.

Lemma year_small y m d : day_of y m d <= 3652058 -> y <= 9999.
Proof. unfold day_of. generalize (months_before y m). intros k H. cbv zeta in H. set (p := y - 1) in *. assert (p <= 9998); [| lia]. clearbody p. lia. Qed.

Lemma month_small y m : month_days y m <= 31.
Proof. unfold month_days. destruct (leap y); destruct m as [| p]; [lia | | lia |]; repeat (destruct p as [p | p |]; try lia). Qed.

Lemma sapp_assoc (a b c : string) : ((a +++ b) +++ c = a +++ b +++ c)%string.
Proof. induction a as [| x a IH]; [reflexivity |]. cbn [String.append]. rewrite IH. reflexivity. Qed.

Lemma expect_app {A} c r (next : string -> option A) : expect c (String c "" +++ r) next = next r.
Proof. cbn [String.append expect]. rewrite Ascii.eqb_refl. reflexivity. Qed.
Lemma expect_last {A} c (next : string -> option A) : expect c (String c "") next = next ""%string.
Proof. cbn [expect]. rewrite Ascii.eqb_refl. reflexivity. Qed.

Lemma time_round t : t / nanos <= 253402300799 -> read_time_text (time_text t) = Some t.
Proof.
  intros Ht. unfold time_text, date_text, clock_text. set (s := t / nanos) in *. pose proof (date_ok (epoch + s / 86400)) as H.
  destruct (date_of (epoch + s / 86400)) as [y [m d]]. destruct H as (Hv & Hd & _).
  assert (Hy : y <= 9999) by (apply (year_small y m d); rewrite Hd; unfold epoch; clearbody s; lia).
  pose proof (month_small y m) as Hm31.
  assert (Hb : 1 <= y /\ 1 <= m /\ m <= 12 /\ 1 <= d /\ d <= month_days y m).
  { unfold date_valid in Hv. do 4 (apply andb_prop in Hv as [Hv ?]). repeat match goal with H : (_ <=? _) = true |- _ => apply N.leb_le in H end. auto. }
  rewrite !sapp_assoc. unfold read_time_text.
  change (10 ^ N.of_nat 4) with 10000 in *.
  rewrite number_all by (change (10 ^ N.of_nat 4) with 10000; lia). rewrite expect_app.
  rewrite number_all by (change (10 ^ N.of_nat 2) with 100; lia). rewrite expect_app.
  rewrite number_all by (change (10 ^ N.of_nat 2) with 100; lia). rewrite expect_app.
  rewrite number_all by (change (10 ^ N.of_nat 2) with 100; clearbody s; lia). rewrite expect_app.
  rewrite number_all by (change (10 ^ N.of_nat 2) with 100; clearbody s; lia). rewrite expect_app.
  rewrite number_all by (change (10 ^ N.of_nat 2) with 100; clearbody s; lia).
  rewrite fraction_round by (unfold nanos; lia). rewrite expect_last. rewrite Hv, Hd.
  assert (H1 : s mod 86400 / 3600 < 24) by (clearbody s; lia). assert (H2 : s mod 86400 / 60 mod 60 < 60) by (clearbody s; lia).
  assert (H3 : s mod 86400 mod 60 < 60) by (clearbody s; lia).
  apply N.ltb_lt in H1, H2, H3. rewrite H1, H2, H3. replace (epoch <=? epoch + s / 86400) with true by (symmetry; apply N.leb_le; lia).
  cbn [andb]. change (String.eqb "" "") with true. cbv iota. f_equal.
  replace (epoch + s / 86400 - epoch) with (s / 86400) by lia.
  replace (s / 86400 * 86400 + s mod 86400 / 3600 * 3600 + s mod 86400 / 60 mod 60 * 60 + s mod 86400 mod 60) with s by (clearbody s; lia).
  unfold s. unfold nanos. lia.
Qed.

Section Round.
  Variables (d : bool) (st : style).
  Hypothesis Hst : plain st.

  Ltac table_tac := let f := fresh in let Hf := fresh in intros f Hf; cbn in Hf; repeat (destruct Hf as [<- | Hf]; [split; reflexivity |]); destruct Hf.
  Ltac side := first [assumption | match goal with |- table_ok _ => table_tac end | (cbn; tauto) | reflexivity | (cbn; lia)].

  Ltac sides := match goal with |- adds _ _ _ _ _ => idtac | |- reads _ _ _ _ _ _ _ _ => idtac | |- _ <= _ => cbn; lia | |- _ => side end.

  Lemma adds_bool {A} set f b (a : A) g : (forall j, set (f_num f) j a = omap g (read_bool j)) -> g false = a -> adds set f (w_bool st f b) a (g b).
  Proof using Type.
    intros H Hg. unfold w_bool, unset. destruct b.
    - right. exists (JBool true). split; [reflexivity |]. right. split; [discriminate |]. rewrite H. reflexivity.
    - destruct (st_emit st f); [| left; auto]. right. exists (JBool false). split; [reflexivity |]. right. split; [discriminate |]. rewrite H. reflexivity.
  Qed.

  Lemma adds_count {A} set f n (a : A) g : n < 18446744073709551616 -> (forall j, set (f_num f) j a = omap g (read_count j)) -> g 0 = a ->
    adds set f (w_count st f n) a (g n).
  Proof using Type.
    intros Hn H Hg. unfold w_count, unset. destruct (N.eqb_spec n 0) as [-> | _].
    - destruct (st_emit st f); [| left; auto]. right. exists (JStr (count_text 0)). split; [reflexivity |]. right. split; [discriminate |].
      rewrite H, count_round by reflexivity. reflexivity.
    - right. exists (JStr (count_text n)). split; [reflexivity |]. right. split; [discriminate |]. rewrite H, count_round by exact Hn. reflexivity.
  Qed.

  Lemma adds_time {A} set f t (a : A) g : t / nanos <= 253402300799 -> (forall j, set (f_num f) j a = omap g (read_time j)) ->
    adds set f (w_time f t) a (g t).
  Proof using Type.
    intros Ht H. right. exists (JStr (time_text t)). split; [reflexivity |]. right. split; [discriminate |]. rewrite H. cbn [read_time].
    rewrite time_round by exact Ht. reflexivity.
  Qed.

  Lemma adds_always {A} set f j (a b : A) : j <> JNull -> set (f_num f) j a = Some b -> adds set f [(f, j)] a b.
  Proof using Type. intros H1 H2. right. exists j. auto. Qed.

  Lemma adds_unset {A} set f j (a : A) : j = JNull \/ set (f_num f) j a = Some a -> adds set f (unset st f j) a a.
  Proof using Type.
    intros H. unfold unset. destruct (st_emit st f); [| left; auto]. right. exists j. split; [reflexivity |].
    destruct j; [left; auto | ..]; right; (split; [discriminate |]); (destruct H as [H | H]; [discriminate | exact H]).
  Qed.

  Lemma policy_record_round lim r : good_record lim r -> pr_created r / nanos <= 253402300799 ->
    read_policy_record d (json_policy_record st r) = Some r.
  Proof using Hst.
    intros [(Hu & Hp & _) _] Ht. destruct r as [p app t]. cbn [pr_policy pr_app pr_created] in *. apply reads_object. cbn [pr_policy pr_app pr_created].
    apply (reads_cons d st Hst _ _ _ (field_of t_policy_record 1) _ _ _ (mkPRec p "" 0)); sides.
    { apply adds_always; [apply policy_object |]. change (omap (fun q => mkPRec q "" 0) (read_policy d (json_policy st p)) = Some (mkPRec p "" 0)).
      rewrite policy_round by assumption. reflexivity. }
    apply (reads_cons d st Hst _ _ _ (field_of t_policy_record 2) _ _ _ (mkPRec p app 0)); sides.
    { apply (adds_bytes st _ _ app (mkPRec p "" 0) (fun s => mkPRec p s 0)); reflexivity. }
    apply (reads_one d st Hst _ _ _ (field_of t_policy_record 3)); sides.
    apply (adds_time _ _ t (mkPRec p app 0) (fun t => mkPRec p app t)); [exact Ht | reflexivity].
  Qed.

  Lemma rel_record_json r : good_rel r -> rr_created r / nanos <= 253402300799 -> read_rel_record d (json_rel_record st r) = Some r.
  Proof using Hst.
    intros [Hu _] Ht. apply utf8_cons in Hu as [Hu1 Hu2]. destruct r as [pid x t app]. cbn [rr_policy rr_rel rr_created rr_app] in *.
    apply reads_object. cbn [rr_policy rr_rel rr_created rr_app].
    apply (reads_cons d st Hst _ _ _ (field_of t_rel_record 1) _ _ _ (mkRRec pid no_relationship 0 "")); sides.
    { apply (adds_text st _ _ pid no_record (fun s => mkRRec s no_relationship 0 "")); side. }
    apply (reads_cons d st Hst _ _ _ (field_of t_rel_record 2) _ _ _ (mkRRec pid x 0 "")); sides.
    { apply adds_always; [discriminate |]. change (omap (fun y => mkRRec pid y 0 "") (read_relationship d (json_relationship st x)) = Some (mkRRec pid x 0 "")).
      rewrite relationship_round by assumption. reflexivity. }
    apply (reads_cons d st Hst _ _ _ (field_of t_rel_record 3) _ _ _ (mkRRec pid x t "")); sides.
    { apply (adds_time _ _ t (mkRRec pid x 0 "") (fun t => mkRRec pid x t "")); [exact Ht | reflexivity]. }
    apply (reads_one d st Hst _ _ _ (field_of t_rel_record 4)); sides.
    apply (adds_bytes st _ _ app (mkRRec pid x t "") (fun s => mkRRec pid x t s)); reflexivity.
  Qed.

  Lemma listed_round o : when good_rel o -> when (fun r => rr_created r / nanos <= 253402300799) o ->
    read_rel_record d (json_listed st o) = Some (or_else o no_record).
  Proof using Hst.
    destruct o as [r |]; cbn [when json_listed or_else]; [apply rel_record_json |]. intros _ _. apply reads_object.
    apply (reads_cons d st Hst _ _ _ (field_of t_rel_record 1) _ _ _ no_record); sides; [apply adds_unset; right; reflexivity |].
    apply (reads_cons d st Hst _ _ _ (field_of t_rel_record 2) _ _ _ no_record); sides; [apply adds_unset; left; reflexivity |].
    apply (reads_cons d st Hst _ _ _ (field_of t_rel_record 3) _ _ _ no_record); sides; [apply adds_unset; left; reflexivity |].
    apply (reads_one d st Hst _ _ _ (field_of t_rel_record 4)); sides. apply adds_unset; right; reflexivity.
  Qed.

  Lemma sub_round {X} t (read : json -> option X) w (o : option X) : table_ok t -> In (field_of t 1) t -> f_one (field_of t 1) = false ->
    (forall x, o = Some x -> w x <> JNull /\ read (w x) = Some x) ->
    read_message d t (set_sub read) None (object st (w_opt st w (field_of t 1) o)) = Some o.
  Proof using Hst.
    intros Ht Hf Ho H. apply reads_object. apply (reads_one d st Hst _ _ _ (field_of t 1)); [exact Ht | exact Hf | exact Ho | lia |].
    apply adds_opt; [intros ->; reflexivity |]. intros x ->. destruct (H x eq_refl) as [H1 H2]. split; [exact H1 |]. unfold set_sub. rewrite H2. reflexivity.
  Qed.

  Lemma present_round {X} t (read : json -> option X) w (o : option X) : table_ok t -> In (field_of t 1) t -> f_one (field_of t 1) = false ->
    (forall x, o = Some x -> w x <> JNull /\ read (w x) = Some x) ->
    read_message d t (set_sub read) None (object st (w_present w (field_of t 1) o)) = Some o.
  Proof using Hst.
    intros Ht Hf Ho H. apply reads_object. destruct o as [x |]; [| apply reads_nil].
    apply (reads_one d st Hst _ _ _ (field_of t 1)); [exact Ht | exact Hf | exact Ho | lia |].
    destruct (H x eq_refl) as [H1 H2]. apply adds_always; [exact H1 |]. unfold set_sub. rewrite H2. reflexivity.
  Qed.

  Lemma flag_round t b : table_ok t -> In (field_of t 1) t -> f_one (field_of t 1) = false ->
    read_flag d t (object st (w_bool st (field_of t 1) b)) = Some b.
  Proof using Hst.
    intros Ht Hf Ho. apply reads_object. apply (reads_one d st Hst _ _ _ (field_of t 1)); [exact Ht | exact Hf | exact Ho | lia |].
    apply (adds_bool _ _ b false (fun b => b)); [| reflexivity]. intros j. unfold set_only. destruct (read_bool j); reflexivity.
  Qed.

  Lemma read_all_map {X Y} (read : json -> option Y) (w : X -> json) g l : (forall x, In x l -> read (w x) = Some (g x)) -> read_all read (map w l) = Some (map g l).
  Proof using Type.
    induction l as [| x l IH]; intros H; [reflexivity |]. cbn [map read_all]. rewrite (H x) by (left; reflexivity).
    rewrite IH by (intros; apply H; right; assumption). reflexivity.
  Qed.

  Lemma list_round {X Y} t (read : json -> option Y) (w : X -> json) g l : table_ok t -> In (field_of t 1) t -> f_one (field_of t 1) = false ->
    (forall x, In x l -> read (w x) = Some (g x)) ->
    read_message d t (set_only (read_list read)) [] (object st (w_list st w (field_of t 1) l)) = Some (map g l).
  Proof using Hst.
    intros Ht Hf Ho H. apply reads_object. apply (reads_one d st Hst _ _ _ (field_of t 1)); [exact Ht | exact Hf | exact Ho | lia |].
    unfold w_list. destruct l as [| x l]; [apply adds_unset; right; reflexivity |].
    apply adds_always; [discriminate |]. unfold set_only. cbn [read_list]. apply read_all_map. exact H.
  Qed.

  Lemma reply_json lim r : good_reply lim r -> timely r -> counts_fit r -> read_reply d (answers r) (reply_doc st r) = Some (as_received r).
  Proof using Hst.
    intros Hg Ht Hc. unfold timely in Ht. destruct r as [r | | f n | r | l | b | b | r | l | n | b | t b f | t f | t];
      cbn [answers read_reply reply_doc good_reply as_received counts_fit reply_times] in *.
    - rewrite sub_round; [reflexivity | table_tac | cbn; tauto | reflexivity |]. intros x ->. split; [discriminate |].
      apply (policy_record_round lim); [exact Hg | apply Ht; left; reflexivity].
    - reflexivity.
    - assert (E : read_message d t_deleted_policy set_deleted (false, 0) (object st (w_bool st (field_of t_deleted_policy 1) f ++ w_count st (field_of t_deleted_policy 2) n)) = Some (f, n));
        [| rewrite E; reflexivity]. apply reads_object.
      apply (reads_cons d st Hst _ _ _ (field_of t_deleted_policy 1) _ _ _ (f, 0)); sides; [apply (adds_bool _ _ f (false, 0) (fun b => (b, 0))); reflexivity |].
      apply (reads_one d st Hst _ _ _ (field_of t_deleted_policy 2)); sides. apply (adds_count _ _ n (f, 0) (fun n => (f, n))); [exact Hc | reflexivity | reflexivity].
    - rewrite present_round; [reflexivity | table_tac | cbn; tauto | reflexivity |]. intros x ->. split; [discriminate |].
      apply (policy_record_round lim); [exact Hg | apply Ht; left; reflexivity].
    - unfold read_ids. rewrite (list_round _ _ _ (fun x => x)); [rewrite map_id; reflexivity | table_tac | cbn; tauto | reflexivity |].
      intros x Hx. rewrite one_text_round; [reflexivity | exact Hst | table_tac | cbn; tauto | reflexivity | apply Hg; exact Hx].
    - rewrite flag_round; [reflexivity | table_tac | cbn; tauto | reflexivity].
    - rewrite flag_round; [reflexivity | table_tac | cbn; tauto | reflexivity].
    - rewrite present_round; [reflexivity | table_tac | cbn; tauto | reflexivity |]. intros x ->. split; [discriminate |].
      apply rel_record_json; [exact Hg | apply Ht; left; reflexivity].
    - destruct l as [l |].
      + assert (E : read_message d t_result (set_sub (read_records d)) None (object st (w_opt st (fun l => object st (w_list st (json_listed st) (field_of t_records 1) l)) (field_of t_result 1) (Some l))) =
          Some (Some (map (fun o => or_else o no_record) l))); [| rewrite E; cbn [omap]; rewrite map_map; reflexivity].
        apply reads_object. apply (reads_one d st Hst _ _ _ (field_of t_result 1)); sides. apply adds_always; [discriminate |]. unfold set_sub, read_records.
        rewrite (list_round _ _ _ (fun o => or_else o no_record)); [reflexivity | table_tac | cbn; tauto | reflexivity |].
        intros o Ho. apply listed_round; [apply Hg; exact Ho |]. destruct o as [r |]; [| exact I]. apply Ht. apply in_flat_map. exists (Some r). split; [exact Ho | left; reflexivity].
      + assert (E : read_message d t_result (set_sub (read_records d)) None (object st (unset st (field_of t_result 1) JNull)) = Some None);
          [| cbn [w_opt]; rewrite E; reflexivity].
        apply reads_object. apply (reads_one d st Hst _ _ _ (field_of t_result 1)); sides. apply adds_unset. left. reflexivity.
    - assert (E : read_message d t_affected (set_only read_count) 0 (object st (w_count st (field_of t_affected 1) n)) = Some n); [| rewrite E; reflexivity].
      apply reads_object. apply (reads_one d st Hst _ _ _ (field_of t_affected 1)); sides.
      apply (adds_count _ _ n 0 (fun n => n)); [exact Hc | | reflexivity]. intros j. unfold set_only. destruct (read_count j); reflexivity.
    - rewrite sub_round; [reflexivity | table_tac | cbn; tauto | reflexivity |]. intros x ->. split; [discriminate |].
      apply flag_round; [table_tac | cbn; tauto | reflexivity].
    - destruct Hg as [Hu Hf].
      assert (E : read_message d t_explained set_explained (""%string, false, 0) (object st (w_text st (field_of t_explained 1) t ++ w_bool st (field_of t_explained 2) b ++
        w_enum st format_names (field_of t_explained 3) (format_code f))) = Some (t, b, format_code f)); [| rewrite E; cbn [omap fst snd]; rewrite format_round by exact Hf; reflexivity].
      apply reads_object. apply (reads_cons d st Hst _ _ _ (field_of t_explained 1) _ _ _ (t, false, 0)); sides.
      { apply (adds_text st _ _ t (""%string, false, 0) (fun s => (s, false, 0))); side. }
      apply (reads_cons d st Hst _ _ _ (field_of t_explained 2) _ _ _ (t, b, 0)); sides; [apply (adds_bool _ _ b (t, false, 0) (fun b => (t, b, 0))); reflexivity |].
      apply (reads_one d st Hst _ _ _ (field_of t_explained 3)); sides.
      apply (adds_enum st _ format_names _ (format_code f) (t, b, 0) (fun n => (t, b, n))); [apply formats_ok | apply format_code_small; exact Hf | reflexivity | reflexivity].
    - destruct Hg as [Hu Hf].
      assert (E : read_message d t_expanded set_expanded (""%string, 0) (object st (w_text st (field_of t_expanded 1) t ++
        w_enum st format_names (field_of t_expanded 2) (format_code f))) = Some (t, format_code f)); [| rewrite E; cbn [omap fst snd]; rewrite format_round by exact Hf; reflexivity].
      apply reads_object. apply (reads_cons d st Hst _ _ _ (field_of t_expanded 1) _ _ _ (t, 0)); sides.
      { apply (adds_text st _ _ t (""%string, 0) (fun s => (s, 0))); side. }
      apply (reads_one d st Hst _ _ _ (field_of t_expanded 2)); sides.
      apply (adds_enum st _ format_names _ (format_code f) (t, 0) (fun n => (t, n))); [apply formats_ok | apply format_code_small; exact Hf | reflexivity | reflexivity].
    - destruct t as [t |]; [| reflexivity]. rewrite member_round; [| exact Hst | table_tac | cbn; tauto | reflexivity | discriminate].
      unfold set_sub. cbn [read_text]. unfold text. cbn [when] in Hg. rewrite Hg. reflexivity.
  Qed.
End Round.
