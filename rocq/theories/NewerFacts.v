(** Facts about messages with further fields, and with fields in another order. *)
From Coq Require Import Permutation.
From Verif Require Import Base Domain Lexer Store Yaml Service Api Wire SpecWire WireFacts Rpc SpecRpc SpecNewer.
Local Open Scope N_scope.

Lemma app_nil_s a : a +++ "" = a.
Proof. induction a as [| c a IH]; cbn [String.append]; [reflexivity | rewrite IH; reflexivity]. Qed.

Lemma get_varint_more k : forall s t n r, get_varint_n k s = Some (n, r) -> get_varint_n k (s +++ t) = Some (n, r +++ t).
Proof.
  induction k as [| k IH]; intros s t n r H; [destruct s; discriminate |]. destruct s as [| c s]; [discriminate |].
  cbn [get_varint_n String.append] in *. destruct (byte c <? 128).
  - destruct (_ && _); [discriminate |]. injection H as <- <-. reflexivity.
  - destruct (get_varint_n k s) as [[m q] |] eqn:Hg; [| discriminate]. injection H as <- <-. rewrite (IH _ t _ _ Hg). reflexivity.
Qed.

Lemma get_varint_less k : forall s n r, get_varint_n k s = Some (n, r) -> (String.length r < String.length s)%nat.
Proof.
  induction k as [| k IH]; intros s n r H; [destruct s; discriminate |]. destruct s as [| c s]; [discriminate |].
  cbn [get_varint_n String.length] in *. destruct (byte c <? 128).
  - destruct (_ && _); [discriminate |]. injection H as <- <-. lia.
  - destruct (get_varint_n k s) as [[m q] |] eqn:Hg; [| discriminate]. injection H as <- <-. apply IH in Hg. lia.
Qed.

Lemma cut_more s : forall t n a r, cut s n = Some (a, r) -> cut (s +++ t) n = Some (a, r +++ t).
Proof.
  induction s as [| c s IH]; intros t n a r H; cbn [cut String.append] in *.
  - destruct (n =? 0) eqn:Hn; [| discriminate]. injection H as <- <-. destruct t; cbn [cut String.append]; rewrite Hn; reflexivity.
  - destruct (n =? 0); [injection H as <- <-; reflexivity |]. destruct (cut s (n - 1)) as [[x y] |] eqn:Hc; [| discriminate].
    injection H as <- <-. rewrite (IH t _ _ _ Hc). reflexivity.
Qed.

Lemma cut_less s : forall n a r, cut s n = Some (a, r) -> (String.length r <= String.length s)%nat.
Proof.
  induction s as [| c s IH]; intros n a r H; cbn [cut] in H.
  - destruct (n =? 0); [| discriminate]. injection H as <- <-. lia.
  - destruct (n =? 0); [injection H as <- <-; lia |]. destruct (cut s (n - 1)) as [[x y] |] eqn:Hc; [| discriminate].
    injection H as <- <-. apply IH in Hc. cbn [String.length]. lia.
Qed.

Lemma get_field_more s t f r : get_field s = Some (f, r) -> get_field (s +++ t) = Some (f, r +++ t) /\ (String.length r < String.length s)%nat.
Proof.
  unfold get_field, get_varint. intros H. destruct (get_varint_n 10 s) as [[g s1] |] eqn:H1; [| discriminate].
  rewrite (get_varint_more _ _ t _ _ H1). apply get_varint_less in H1.
  destruct (_ || _); [discriminate |].
  assert (Hcut : forall (n : N) (k : string -> field) (x y : string), match cut s1 n with Some (a, r) => Some (k a, r) | None => None end = Some (f, r) ->
    match cut (s1 +++ t) n with Some (a, r) => Some (k a, r) | None => None end = Some (f, r +++ t) /\ (String.length r < String.length s)%nat).
  { intros n k _ _ Hc. destruct (cut s1 n) as [[a q] |] eqn:Hc1; [| discriminate]. injection Hc as <- <-. rewrite (cut_more _ t _ _ _ Hc1).
    apply cut_less in Hc1. split; [reflexivity | lia]. }
  destruct (g mod 8) as [| w].
  - destruct (get_varint_n 10 s1) as [[n q] |] eqn:H2; [| discriminate]. injection H as <- <-. rewrite (get_varint_more _ _ t _ _ H2).
    apply get_varint_less in H2. split; [reflexivity | lia].
  - destruct w as [[w | w |] | [w | w |] |]; try (exfalso; revert H; clear; (idtac + destruct w); discriminate).
    + destruct w; try (exfalso; revert H; clear; discriminate). apply (Hcut 4 (fun a => (g / 8, WFixed a))); auto; exact EmptyString.
    + destruct (get_varint_n 10 s1) as [[n s2] |] eqn:H2; [| discriminate]. rewrite (get_varint_more _ _ t _ _ H2).
      destruct (cut s2 n) as [[a q] |] eqn:H3; [| discriminate]. injection H as <- <-. rewrite (cut_more _ t _ _ _ H3).
      apply get_varint_less in H2. apply cut_less in H3. split; [reflexivity | lia].
    + apply (Hcut 8 (fun a => (g / 8, WFixed a))); auto; exact EmptyString.
Qed.

Lemma get_fields_fuel k : forall j s fs, get_fields_n k s = Some fs -> (k <= j)%nat -> get_fields_n j s = Some fs.
Proof.
  induction k as [| k IH]; intros j s fs H Hj; destruct s as [| c s]; [destruct j; exact H | discriminate | destruct j; exact H |].
  destruct j as [| j]; [lia |]. cbn [get_fields_n] in *. destruct (get_field (String c s)) as [[f r] |]; [| discriminate].
  destruct (get_fields_n k r) as [gs |] eqn:Hg; [| discriminate]. rewrite (IH j _ _ Hg) by lia. exact H.
Qed.

Lemma get_fields_join k t gs : get_fields t = Some gs -> forall s fs j, get_fields_n k s = Some fs -> (String.length s + String.length t <= j)%nat ->
  get_fields_n j (s +++ t) = Some (fs ++ gs).
Proof.
  intros Ht. induction k as [| k IH]; intros s fs j Hs Hj; destruct s as [| c s]; try discriminate.
  - injection Hs as <-. cbn [String.append app]. apply (get_fields_fuel _ j) in Ht; [exact Ht | cbn [String.length] in Hj; lia].
  - injection Hs as <-. cbn [String.append app]. apply (get_fields_fuel _ j) in Ht; [exact Ht | cbn [String.length] in Hj; lia].
  - cbn [get_fields_n] in Hs. destruct (get_field (String c s)) as [[f r] |] eqn:Hf; [| discriminate].
    destruct (get_fields_n k r) as [hs |] eqn:Hg; [| discriminate]. injection Hs as <-.
    destruct (get_field_more _ t _ _ Hf) as [Hf1 Hl]. destruct j as [| j]; [cbn [String.length] in Hj; lia |].
    cbn [String.append get_fields_n app] in *. rewrite Hf1, (IH r hs j Hg) by (cbn [String.length] in *; lia). reflexivity.
Qed.

Lemma get_fields_app s t fs gs : get_fields s = Some fs -> get_fields t = Some gs -> get_fields (s +++ t) = Some (fs ++ gs).
Proof. intros Hs Ht. eapply get_fields_join; [exact Ht | exact Hs |]. rewrite length_app_s. lia. Qed.

Lemma get_put_well_formed f : well_formed f -> get_field (put_field f) = Some (f, "").
Proof.
  destruct f as [num v]. unfold well_formed, carried, put_field, get_field. cbn [fst snd]. intros [Hn Hv].
  assert (Htag : forall w r, w < 8 -> get_varint (put_varint (num * 8 + w) +++ r) = Some (num * 8 + w, r)) by (intros; apply get_put_varint; lia).
  assert (Hdiv : forall w, w < 8 -> (num * 8 + w) / 8 = num /\ (num * 8 + w) mod 8 = w).
  { intros w Hw. rewrite (N.add_comm (num * 8)), N.div_add, N.mod_add by lia. rewrite N.div_small, N.mod_small by lia. split; reflexivity. }
  assert (Hnum : (num =? 0) || (536870911 <? num) = false).
  { destruct (N.eqb_spec num 0); [lia |]. destruct (N.ltb_spec 536870911 num); [lia | reflexivity]. }
  destruct v as [n | s | s].
  - specialize (Htag 0). specialize (Hdiv 0). rewrite N.add_0_r in Htag, Hdiv. destruct (Hdiv ltac:(lia)) as [Hd Hm].
    rewrite Htag, Hd, Hm, Hnum by lia. rewrite <- (app_nil_s (put_varint n)), get_put_varint by exact Hv. reflexivity.
  - destruct (Hdiv 2 ltac:(lia)) as [Hd Hm]. rewrite Htag, Hd, Hm, Hnum by lia. rewrite get_put_varint by exact Hv.
    rewrite <- (app_nil_s s) at 1. rewrite cut_app. reflexivity.
  - destruct (N.eqb_spec (slen s) 8) as [H8 | H8].
    + destruct (Hdiv 1 ltac:(lia)) as [Hd Hm]. rewrite Htag, Hd, Hm, Hnum by lia. rewrite <- H8. rewrite <- (app_nil_s s) at 1. rewrite cut_app. reflexivity.
    + destruct (Hdiv 5 ltac:(lia)) as [Hd Hm]. rewrite Htag, Hd, Hm, Hnum by lia. assert (H4 : slen s = 4) by tauto. rewrite <- H4.
      rewrite <- (app_nil_s s) at 1. rewrite cut_app. reflexivity.
Qed.

Lemma get_put_all fs : Forall well_formed fs -> get_fields (put_fields fs) = Some fs.
Proof.
  induction 1 as [| f fs Hf _ IH]; [reflexivity |]. cbn [put_fields]. change (f :: fs) with ([f] ++ fs). apply get_fields_app; [| exact IH].
  pose proof (get_put_well_formed f Hf) as Hg. destruct (put_field_some f) as (c & t & Hp). unfold get_fields. rewrite Hp in *.
  cbn [String.length get_fields_n]. rewrite Hg. destruct (String.length t); reflexivity.
Qed.

(** ** Further fields, and fields in another order *)

Lemma extended_well k fs gs : extended k fs gs -> Forall well_formed fs /\ Forall well_formed gs.
Proof.
  induction 1 as [k | k f fs gs Hf _ [H1 H2] | k f fs gs [Hf _] _ [H1 H2] | k n i hs js fs gs _ _ _ Hh Hj _ [H1 H2]
    | k f g fs gs _ Hf Hg _ [H1 H2] | k n l z hs fs gs _ _ _ Hh Hj _ [H1 H2] | k n l z hs fs gs _ _ _ Hh Hj _ [H1 H2] | k fs gs hs _ [H1 _] _ [_ H2]]; split; auto.
Qed.

Definition swaps {A} (step : A -> field -> option A) (a : A) (f g : field) : Prop :=
  match step a f with Some x => step x g | None => None end = match step a g with Some x => step x f | None => None end.

(** A step that does not look at fields above 15, nor at further fields in the messages of a message, nor at the order. *)
Definition agrees {A} (k : kind) (step : A -> field -> option A) : Prop :=
  (forall a f, 15 < fst f -> step a f = Some a) /\
  (forall a n i hs js, In (n, i) (inner k) -> extended i hs js -> step a (n, WLen (put_fields hs)) = step a (n, WLen (put_fields js))) /\
  (forall a f g, apart k (fst f) (fst g) -> swaps step a f g) /\
  (forall a n l z hs, In (n, l) (elements k) -> In z l -> Forall well_formed hs -> step a (n, WLen (put_fields hs)) = step a (n, WLen (put_fields ((z, WLen "") :: hs)))).

Lemma fold_extended {A} k (step : A -> field -> option A) fs gs : extended k fs gs -> agrees k step -> forall a, fold_opt step fs a = fold_opt step gs a.
Proof.
  induction 1 as [k | k f fs gs _ _ IH | k f fs gs [_ Hf] _ IH | k n i hs js fs gs Hn He _ _ _ _ IH | k f g fs gs Hd _ _ _ IH | k n l z hs fs gs Hn Hz Hw _ _ _ IH
    | k n l z hs fs gs Hn Hz Hw _ _ _ IH | k fs gs hs _ IH1 _ IH2]; intros Ha a; pose proof Ha as (Hb & Hi & Hs & He0); cbn [fold_opt].
  - reflexivity.
  - destruct (step a f); auto.
  - rewrite Hb by exact Hf. apply IH, Ha.
  - rewrite (Hi a n i hs js Hn He). destruct (step a _); auto.
  - specialize (Hs a f g Hd). unfold swaps in Hs. destruct (step a f) as [x |], (step a g) as [y |];
      [rewrite Hs; destruct (step y f); auto | rewrite Hs; reflexivity | rewrite <- Hs; reflexivity | reflexivity].
  - rewrite (He0 a n l z hs Hn Hz Hw). destruct (step a _); auto.
  - rewrite <- (He0 a n l z hs Hn Hz Hw). destruct (step a _); auto.
  - rewrite IH1 by exact Ha. apply IH2, Ha.
Qed.

Lemma message_extended {A} k (step : nat -> A -> field -> option A) d a fs gs : (forall d, agrees k (step d)) -> extended k fs gs ->
  message step d a (put_fields fs) = message step d a (put_fields gs).
Proof.
  intros Ha He. destruct d as [| d]; [reflexivity |]. cbn [message]. destruct (extended_well _ _ _ He) as [H1 H2].
  rewrite (get_put_all _ H1), (get_put_all _ H2). apply fold_extended with (k := k); auto.
Qed.

(** It is enough to look at the fields that a step knows. *)
Lemma swaps_known {A} (step : A -> field -> option A) k (l : list N) :
  (forall a n v, ~ In n l -> step a (n, v) = Some a) ->
  (forall a n m v w, In n l -> In m l -> n < m -> apart k n m -> swaps step a (n, v) (m, w)) ->
  forall a f g, apart k (fst f) (fst g) -> swaps step a f g.
Proof.
  intros Ho Hk a [n v] [m w] Ha. cbn [fst] in Ha. destruct (in_dec N.eq_dec n l) as [Hn | Hn].
  - destruct (in_dec N.eq_dec m l) as [Hm | Hm].
    + destruct Ha as [Hd Hc]. destruct (N.lt_total n m) as [H | [H | H]]; [apply Hk; try split; assumption | contradiction |].
      unfold swaps. symmetry. apply Hk; try assumption. split; [congruence | tauto].
    + unfold swaps. rewrite (Ho a m w Hm). destruct (step a (n, v)); [apply Ho, Hm | reflexivity].
  - unfold swaps. rewrite (Ho a n v Hn). destruct (step a (m, w)); [symmetry; apply Ho, Hn | reflexivity].
Qed.

(** No field of the list above 15 is looked at. *)
Ltac blind_tac := let a := fresh "a" in let n := fresh "n" in let v := fresh "v" in let H := fresh "H" in
  intros a [n v] H; cbn [fst] in H; destruct n as [| n]; [lia |];
  do 4 (destruct n as [n | n |]; try (exfalso; clear - H; lia));
  try (destruct v; reflexivity); try reflexivity.

Ltac inner_tac := let a := fresh "a" in let n := fresh "n" in let i := fresh "i" in let hs := fresh "hs" in let js := fresh "js" in let Hn := fresh "Hn" in let He := fresh "He" in
  intros a n i hs js Hn He; cbn [inner In] in Hn;
  repeat match goal with H : _ \/ _ |- _ => destruct H as [H | H] end; try contradiction;
  injection Hn as <- <-.

Ltac other_tac := let a := fresh "a" in let n := fresh "n" in let v := fresh "v" in let H := fresh "H" in
  intros a n v H; cbn [In] in H; destruct n as [| n]; [reflexivity |];
  do 3 (first [destruct n as [n | n |] | idtac]; try reflexivity); exfalso; apply H; repeat (first [left; reflexivity | right]).

Ltac settle := repeat (cbn [fst snd omap pr_policy pr_app pr_created d_app d_created ed_src ed_dst rl_name rl_desc rl_expr rl_restr rs_name rs_desc rs_relations
    p_id p_name p_desc p_resources p_attrs i_res i_id i_rel i_type e_res e_id r_object r_relation r_subject s_obj s_rel s_subj a_object a_relation a_subject
    rr_policy rr_rel rr_app rr_created];
  match goal with
  | |- ?x = ?x => reflexivity
  | H : ?o = _ |- context [omap _ ?o] => rewrite H
  | H : ?o = _ |- context [if ?o then _ else _] => rewrite H
  | |- context [omap _ ?o] => let E := fresh in destruct o eqn:E
  | |- context [if utf8_valid ?s then _ else _] => let E := fresh in destruct (utf8_valid s) eqn:E
  end).

Ltac same_tac := match goal with |- match ?x with Some _ => _ | None => None end = ?x => destruct x; reflexivity | |- ?x = match ?x with Some _ => _ | None => None end => destruct x; reflexivity end.

(** No step knows a field above 5. *)
Ltac swap_tac := apply (swaps_known _ _ [1; 2; 3; 4; 5]); [other_tac |];
  let a := fresh "a" in let n := fresh "n" in let m := fresh "m" in let v := fresh "v" in let w := fresh "w" in
  let Hn := fresh "Hn" in let Hm := fresh "Hm" in let Hl := fresh "Hl" in let Hc := fresh "Hc" in
  intros a n m v w Hn Hm Hl Hc; cbn [In] in Hn, Hm;
  repeat match goal with H : _ \/ _ |- _ => destruct H as [H | H] end; try contradiction; subst n; subst m;
  try (exfalso; clear - Hl; lia);
  try (exfalso; destruct Hc as [_ Hc]; apply Hc; cbn; tauto);
  unfold swaps; destruct v, w; cbn -[message kv_set dec_entry dec_time dec_tree]; unfold text; try reflexivity; try same_tac; settle.

Lemma well_empty z hs : 0 < z <= 15 -> Forall well_formed hs -> Forall well_formed ((z, WLen "") :: hs).
Proof. intros Hz H. constructor; [| exact H]. split; cbn; lia. Qed.

Ltac empty_tac := let a := fresh "a" in let n := fresh "n" in let l := fresh "l" in let z := fresh "z" in let hs := fresh "hs" in let Hn := fresh "Hn" in let Hz := fresh "Hz" in let Hw := fresh "Hw" in
  intros a n l z hs Hn Hz Hw; cbn [elements In] in Hn;
  repeat match goal with H : _ \/ _ |- _ => destruct H as [H | H] end; try contradiction;
  injection Hn as <- <-; cbn [In] in Hz;
  repeat match goal with H : _ \/ _ |- _ => destruct H as [H | H] end; try contradiction; subst z;
  apply (f_equal (omap _)); unfold dec_entry;
  match goal with |- message _ 1 _ _ = _ => idtac | |- message _ ?e _ _ = _ => destruct e; [reflexivity |] end; cbn [message];
  rewrite !get_put_all by (try apply well_empty; try exact Hw; lia); reflexivity.

Ltac tail_tac := split; [swap_tac | empty_tac].

Ltac agree := intros; split; [blind_tac | split; [inner_tac | tail_tac]].

Lemma agrees_time d : agrees Flat (step_time d). Proof. agree. Qed.
Lemma agrees_empty d : agrees Flat (step_empty d). Proof. agree. Qed.
Lemma agrees_cu d : agrees Flat (step_cu d). Proof. agree. Qed.
Lemma agrees_ttu d : agrees Flat (step_ttu d). Proof. agree. Qed.

Create HintDb agr.
#[local] Hint Resolve agrees_time agrees_empty agrees_cu agrees_ttu : agr.

Ltac agree1 := intros; split; [blind_tac | split; [inner_tac; apply (f_equal (omap _)); (eapply message_extended; [| eassumption]); auto with agr | tail_tac]].

Lemma time_extended d t hs js : extended Flat hs js -> dec_time d t (put_fields hs) = dec_time d t (put_fields js).
Proof. intros H. unfold dec_time. f_equal. eapply message_extended; [| exact H]. auto with agr. Qed.

Lemma agrees_rule d : agrees Rule (step_rule d). Proof. agree1. Qed.
#[local] Hint Resolve agrees_rule : agr.

Lemma tree_extended d : forall t hs js, extended Tree hs js -> dec_tree d t (put_fields hs) = dec_tree d t (put_fields js).
Proof.
  induction d as [d IH] using (well_founded_induction lt_wf). intros t hs js He. destruct d as [| d1]; [reflexivity |].
  cbn [dec_tree]. destruct (extended_well _ _ _ He) as [W1 W2]. rewrite (get_put_all _ W1), (get_put_all _ W2). eapply fold_extended; [exact He |].
  split; [blind_tac |]. split; [| tail_tac]. inner_tac.
  - destruct d1 as [| d2]; [reflexivity |]. destruct (extended_well _ _ _ He0) as [V1 V2]. rewrite (get_put_all _ V1), (get_put_all _ V2).
    apply f_equal. eapply fold_extended; [exact He0 |]. split; [blind_tac |]. split; [inner_tac; apply f_equal; apply IH; auto; lia | tail_tac].
  - apply f_equal. eapply message_extended; [| exact He0]. auto with agr.
Qed.

Lemma agrees_relexpr d : agrees Expression (step_relexpr d).
Proof. split; [blind_tac |]. split; [inner_tac; apply (f_equal (omap _)); apply tree_extended; assumption | tail_tac]. Qed.
#[local] Hint Resolve agrees_relexpr : agr.
Lemma agrees_restriction d : agrees Restriction (step_restriction d). Proof. agree1. Qed.
#[local] Hint Resolve agrees_restriction : agr.
Lemma agrees_restrictions d : agrees Restrictions (step_restrictions d). Proof. agree1. Qed.
#[local] Hint Resolve agrees_restrictions : agr.
Lemma agrees_subj_restriction d : agrees SubjectRestriction (step_subj_restriction d). Proof. agree1. Qed.
#[local] Hint Resolve agrees_subj_restriction : agr.
Lemma agrees_relation d : agrees Relation (step_relation d). Proof. agree1. Qed.
#[local] Hint Resolve agrees_relation : agr.
Lemma agrees_resource d : agrees Resource (step_resource d). Proof. agree1. Qed.
#[local] Hint Resolve agrees_resource : agr.
Lemma agrees_policy d : agrees Policy (step_policy d). Proof. agree1. Qed.
#[local] Hint Resolve agrees_policy : agr.
Lemma agrees_policy_record d : agrees PolicyRecord (step_policy_record d).
Proof.
  split; [blind_tac |]. split; [| tail_tac].
  inner_tac; apply (f_equal (omap _)); [eapply message_extended; [| eassumption]; auto with agr | apply time_extended; assumption].
Qed.
#[local] Hint Resolve agrees_policy_record : agr.
Lemma agrees_sent d : agrees Definition_ (step_sent d). Proof. agree1. Qed.
#[local] Hint Resolve agrees_sent : agr.
Lemma agrees_create d : agrees Create (step_create d). Proof. agree1. Qed.
#[local] Hint Resolve agrees_create : agr.

Lemma agrees_entity d : agrees Flat (step_entity d). Proof. agree. Qed.
#[local] Hint Resolve agrees_entity : agr.
Lemma agrees_entity_set d : agrees EntitySet (step_entity_set d). Proof. agree1. Qed.
#[local] Hint Resolve agrees_entity_set : agr.
Lemma agrees_subject d : agrees Subject (step_subject d). Proof. agree1. Qed.
#[local] Hint Resolve agrees_subject : agr.
Lemma agrees_relationship d : agrees Relationship (step_relationship d). Proof. agree1. Qed.
#[local] Hint Resolve agrees_relationship : agr.
Lemma agrees_rel_record d : agrees RelationshipRecord (step_rel_record d).
Proof.
  split; [blind_tac |]. split; [| tail_tac].
  inner_tac; apply (f_equal (omap _)); [eapply message_extended; [| eassumption]; auto with agr | apply time_extended; assumption].
Qed.
#[local] Hint Resolve agrees_rel_record : agr.
Lemma agrees_set_request d : agrees (About Relationship) (step_set_request d). Proof. agree1. Qed.
#[local] Hint Resolve agrees_set_request : agr.

Lemma agrees_obj_selector d : agrees ObjectSelector (step_obj_selector d). Proof. agree1. Qed.
Lemma agrees_rel_selector d : agrees RelationSelector (step_rel_selector d). Proof. agree1. Qed.
Lemma agrees_subj_selector d : agrees SubjectSelector (step_subj_selector d). Proof. agree1. Qed.
#[local] Hint Resolve agrees_obj_selector agrees_rel_selector agrees_subj_selector : agr.
Lemma agrees_selector d : agrees Selector (step_selector d). Proof. agree1. Qed.
#[local] Hint Resolve agrees_selector : agr.
Lemma agrees_access d : agrees AccessRequest (step_access d). Proof. agree1. Qed.
Lemma agrees_entity_node d : agrees EntityNode (step_entity_node d). Proof. agree1. Qed.
#[local] Hint Resolve agrees_access agrees_entity_node : agr.
Lemma agrees_rnode d : agrees RelationNode (step_rnode d). Proof. agree1. Qed.
#[local] Hint Resolve agrees_rnode : agr.

Lemma agrees_inode d : agrees Flat (step_inode d). Proof. agree. Qed.
#[local] Hint Resolve agrees_inode : agr.
Lemma agrees_edge d : agrees Edge (step_edge d). Proof. agree1. Qed.
Lemma agrees_data d : agrees Data (step_data d).
Proof. split; [blind_tac |]. split; [inner_tac; apply (f_equal (omap _)), time_extended; assumption | tail_tac]. Qed.

Lemma agrees_about {X} k (step : nat -> X -> field -> option X) new d : (forall d, agrees k (step d)) -> agrees (About k) (step_about step new d).
Proof. intros H. agree1. Qed.
Lemma agrees_one {X} k (step : nat -> X -> field -> option X) new d : (forall d, agrees k (step d)) -> agrees (Holding k) (step_one step new d).
Proof. intros H. agree1. Qed.
Lemma agrees_many {X} k (step : nat -> X -> field -> option X) new d : (forall d, agrees k (step d)) -> agrees (Holding k) (step_many step new d).
Proof. intros H. agree1. Qed.
Definition enum_in (k : N) (f : field) : option N := match f with (j, WVarint v) => if j =? k then Some (enum_of v) else None | _ => None end.
Lemma step_enum_in {X} k (step : nat -> X -> field -> option X) d a f :
  step_enum k step d a f = match enum_in k f with Some v => Some (fst a, v) | None => omap (fun y => (y, snd a)) (step d (fst a) f) end.
Proof. destruct f as [n [v | s | s]]; unfold step_enum, enum_in; [destruct (n =? k) |..]; reflexivity. Qed.
Lemma enum_in_num k f v : enum_in k f = Some v -> fst f = k.
Proof. destruct f as [n [x | s | s]]; unfold enum_in; intros H; [| discriminate H | discriminate H]. destruct (N.eqb_spec n k); [assumption | discriminate H]. Qed.

Lemma agrees_enum {X} k j (step : nat -> X -> field -> option X) d : j <= 15 -> (forall d, agrees k (step d)) -> agrees k (step_enum j step d).
Proof.
  intros Hj H. destruct (H d) as (H1 & H2 & H3 & H4). split; [| split; [| split]].
  - intros a [n v] Hn. cbn [fst] in Hn. unfold step_enum. rewrite H1 by exact Hn. destruct a, v; try reflexivity. destruct (N.eqb_spec n j); [lia | reflexivity].
  - intros a n i hs js Hn He. unfold step_enum. rewrite (H2 (fst a) n i hs js Hn He). reflexivity.
  - intros a f g Hd. pose proof (H3 (fst a) f g Hd) as Hc. destruct Hd as [Hd _]. unfold swaps in *. rewrite !(step_enum_in _ _ _ a).
    destruct (enum_in j f) as [v |] eqn:Hf, (enum_in j g) as [w |] eqn:Hg.
    + apply enum_in_num in Hf, Hg. congruence.
    + rewrite step_enum_in, Hg. cbn [fst snd]. destruct (step d (fst a) g); cbn [omap]; [rewrite step_enum_in, Hf |]; reflexivity.
    + rewrite step_enum_in, Hf. cbn [fst snd]. destruct (step d (fst a) f); cbn [omap]; [rewrite step_enum_in, Hg |]; reflexivity.
    + destruct (step d (fst a) f) as [x |], (step d (fst a) g) as [y |]; cbn [omap]; rewrite ?step_enum_in, ?Hf, ?Hg; cbn [fst snd];
        first [reflexivity | rewrite Hc; reflexivity | rewrite <- Hc; reflexivity].
  - intros a n l z hs Hn Hz Hw. unfold step_enum. rewrite (H4 (fst a) n l z hs Hn Hz Hw). reflexivity.
Qed.
Lemma agrees_bool d : agrees Flat (step_bool d). Proof. agree. Qed.
Lemma agrees_count d : agrees Flat (step_count d). Proof. agree. Qed.
Lemma agrees_deleted d : agrees Flat (step_deleted d). Proof. agree. Qed.
Lemma agrees_explained d : agrees Flat (step_explained d). Proof. agree. Qed.
Lemma agrees_dumped d : agrees Dump (step_dumped d). Proof. agree. Qed.
#[local] Hint Resolve agrees_about agrees_one agrees_many agrees_bool agrees_count agrees_deleted agrees_explained agrees_dumped agrees_edge agrees_data : agr.

Lemma call_extended m lim fs gs : extended (request_kind m) fs gs -> unmarshal_call m lim (put_fields fs) = unmarshal_call m lim (put_fields gs).
Proof.
  intros He. destruct m; cbn [request_kind] in He; cbn [unmarshal_call]; unfold unmarshal_set_request; apply (f_equal (omap _));
    (eapply message_extended; [| exact He]); intros d; try apply agrees_enum; try lia; auto with agr.
Qed.

Lemma reply_extended m lim fs gs : extended (response_kind m) fs gs -> unmarshal_reply m lim (put_fields fs) = unmarshal_reply m lim (put_fields gs).
Proof.
  intros He. destruct m; cbn [response_kind] in He; cbn [unmarshal_reply]; apply (f_equal (omap _));
    (eapply message_extended; [| exact He]); intros d; try apply agrees_enum; try lia; auto with agr.
Qed.

(** ** Fields in any order *)

(** A message without a oneof and without repeated fields. *)
Lemma permuted_extended k fs gs : choice k = [] -> Forall well_formed fs -> NoDup (map fst fs) -> Permutation fs gs -> extended k fs gs.
Proof.
  intros Hk Hw Hn Hp. revert Hw Hn.
  assert (Hr : forall l, Forall well_formed l -> extended k l l) by (intros l; induction 1; constructor; assumption).
  induction Hp as [| f fs gs _ IH | f g fs | fs gs hs H1 IH1 _ IH2]; intros Hw Hn.
  - constructor.
  - inversion Hw; inversion Hn; subst. apply ext_same; auto.
  - inversion Hw as [| ? ? Hf Hw1]; inversion Hw1 as [| ? ? Hg Hw2]; inversion Hn as [| ? ? Hi _]; subst. apply ext_swap; auto.
    split; [| rewrite Hk; intros [[] _]]. intros Hd. apply Hi. cbn [map]. left. symmetry. exact Hd.
  - apply ext_then with gs; [auto |]. apply IH2; [eapply Permutation_Forall; eassumption |]. eapply Permutation_NoDup; [| exact Hn]. apply Permutation_map. exact H1.
Qed.
