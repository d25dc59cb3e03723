(** Facts about the DOT rendering of search trees. *)
From Coq Require Import DecimalString DecimalNat.
From Verif Require Import Base Domain Lexer Store Search Explain BaseFacts SpecGrammar SpecPolicy SpecStore SpecSearch SpecDot
  SearchRun SearchFacts SearchSem SearchExplain GraphFacts NameFacts.

(** ** Strings *)

Lemma append_same_length a b : forall s t, String.length s = String.length t -> a +++ s = b +++ t -> a = b /\ s = t.
Proof.
  assert (Hlen : forall x y, String.length (x +++ y) = String.length x + String.length y).
  { intros x y. induction x as [| c x IH]; cbn; [reflexivity |]. f_equal. exact IH. }
  revert b. induction a as [| c a IH]; intros [| d b] s t Hl H; cbn in H.
  - auto.
  - exfalso. subst s. cbn in Hl. rewrite Hlen in Hl. lia.
  - exfalso. subst t. cbn in Hl. rewrite Hlen in Hl. lia.
  - injection H as -> H. destruct (IH b s t Hl H) as [-> ->]. auto.
Qed.

Lemma goal_id_inj a b : goal_id a = goal_id b -> a = b.
Proof.
  unfold goal_id, wrap_quotes, quote. intros H. apply append_inj in H. apply append_same_length in H as [H _]; [| reflexivity].
  apply (f_equal NilEmpty.uint_of_string) in H. rewrite !NilEmpty.usu in H. injection H as H.
  apply DecimalNat.Unsigned.to_uint_inj in H. exact H.
Qed.

Lemma goal_id_root c : goal_id c <> "root".
Proof. discriminate. Qed.

(** ** Labels *)

Lemma result_text_inj r r' : result_text r = result_text r' -> r = r'.
Proof. destruct r, r'; cbn; congruence. Qed.

Lemma result_text_length r r' : String.length (result_text r +++ quote) = String.length (result_text r' +++ quote).
Proof. destruct r, r'; reflexivity. Qed.

(** The text of a label before the result. *)
Definition label_head (t : gtree) : res string :=
  match t with
  | GPath _ n _ reason => let* p := pretty n in Ok ("PathNode" +++ newline +++ "relation node: " +++ p +++ newline +++ "reason: " +++ reason +++ newline +++ "result: ")
  | GOr _ _ => Ok ("ORNode" +++ newline +++ "result: ")
  | GAnd _ _ => Ok ("ANDNode" +++ newline +++ "result: ")
  | GDiff _ _ _ => Ok ("DifferenceNode" +++ newline +++ "result: ")
  end.

Lemma ok_same {A} (x y : A) : Ok x = Ok y -> x = y.
Proof. congruence. Qed.

Lemma label_split t lab : goal_label t = Ok lab <-> exists h, label_head t = Ok h /\ lab = quote +++ h +++ result_text (get_result t) +++ quote.
Proof.
  destruct t as [r ps | r ps | r x y | r n p why]; cbn [goal_label label_head get_result].
  1-3: unfold wrap_quotes; cbn; split; [intros [= <-]; eexists; split; reflexivity | intros (h & [= <-] & ->); reflexivity].
  destruct (pretty n) as [q | | |]; cbn [bind]; split; try discriminate; try (intros (h & H & _); discriminate).
  - intros H. apply ok_same in H. subst lab. eexists. split; [reflexivity |]. unfold wrap_quotes. rewrite !append_assoc. reflexivity.
  - intros (h & H & ->). apply ok_same in H. subst h. unfold wrap_quotes. rewrite !append_assoc. reflexivity.
Qed.

Lemma label_same t t' lab : goal_label t = Ok lab -> goal_label t' = Ok lab ->
  kind_of t = kind_of t' /\ get_result t = get_result t' /\ label_head t = label_head t'.
Proof.
  intros H H'. apply label_split in H as (h & Hh & H), H' as (h' & Hh' & H'). rewrite H in H'.
  apply append_inj in H'. rewrite Hh, Hh'. apply append_same_length in H' as [<- Hr]; [| apply result_text_length].
  apply append_same_length in Hr as [Hr _]; [| reflexivity]. apply result_text_inj in Hr. split; [| split; [exact Hr | reflexivity]].
  clear H Hr. destruct t as [r ps | r ps | r x y | r n p why], t' as [r' ps' | r' ps' | r' x' y' | r' n' p' why']; try reflexivity;
    exfalso; cbn [label_head] in Hh, Hh';
    try (destruct (pretty n); try discriminate); try (destruct (pretty n'); try discriminate); cbn in Hh, Hh'; congruence.
Qed.

Lemma pretty_object n : has_object n <-> exists p, pretty n = Ok p.
Proof.
  destruct n as [[o |] rel | [o |] | rs |]; cbn; split; try (intros [p [=]]); eauto; try contradiction.
Qed.

Lemma pretty_inj n n' p : legible n -> legible n' -> pretty n = Ok p -> pretty n' = Ok p -> n = n'.
Proof.
  assert (He : forall s t c, s +++ String c "" = t +++ String c "" -> s = t).
  { intros s t c H. apply append_same_length in H as [H _]; [exact H | reflexivity]. }
  assert (Hno : forall c s t x, lacks c s -> s <> t +++ String c x).
  { intros c s t x H ->. apply lacks_append in H as [_ [H _]]. contradiction H. reflexivity. }
  intros Hl Hl' H H'. rewrite <- H in H'. clear H p.
  assert (Hcut : forall a b x y, lacks ":" a -> lacks ":" b ->
            Ok ("(" +++ a +++ ":" +++ x) = Ok ("(" +++ b +++ ":" +++ y) -> a = b /\ x = y).
  { intros a b x y Ha Hb [= Hx]. change (a +++ String ":" x = b +++ String ":" y) in Hx. apply append_cut in Hx; auto. }
  destruct n as [[[re i] |] rel | [[re i] |] | rs |], n' as [[[re' i'] |] rel' | [[re' i'] |] | rs' |];
    cbn [legible e_res e_id] in Hl, Hl'; try contradiction; cbn [pretty e_res e_id] in H';
    repeat match goal with H : _ /\ _ |- _ => destruct H end.
  - destruct (String.eqb_spec rel "") as [| _]; [contradiction |]. destruct (String.eqb_spec rel' "") as [| _]; [contradiction |].
    apply Hcut in H' as [-> H']; auto. change (i' +++ String "," (" " +++ rel' +++ ")") = i +++ String "," (" " +++ rel +++ ")")) in H'.
    apply append_cut in H' as [-> H']; auto. injection H' as H'. apply He in H'. subst. reflexivity.
  - destruct (String.eqb_spec rel "") as [| _]; [contradiction |]. apply Hcut in H' as [-> H']; auto.
    exfalso. revert H'. change (i' +++ ")" <> i +++ String "," (" " +++ rel +++ ")")). apply Hno. apply lacks_append. cbn. repeat split; auto; discriminate.
  - destruct (String.eqb_spec rel "") as [| _]; [contradiction |]. apply (Hcut rs' re "*)") in H' as [-> H']; auto.
    exfalso. revert H'. change ("*)" <> i +++ String "," (" " +++ rel +++ ")")). apply Hno. cbn. repeat split; discriminate.
  - destruct (String.eqb_spec rel' "") as [| _]; [contradiction |]. apply Hcut in H' as [-> H']; auto. symmetry in H'.
    exfalso. revert H'. change (i +++ ")" <> i' +++ String "," (" " +++ rel' +++ ")")). apply Hno. apply lacks_append. cbn. repeat split; auto; discriminate.
  - apply Hcut in H' as [-> H']; auto. apply He in H'. subst. reflexivity.
  - apply (Hcut rs' re "*)") in H' as [-> H']; auto. apply (He "*" i) in H'. congruence.
  - destruct (String.eqb_spec rel' "") as [| _]; [contradiction |]. apply (Hcut re' rs _ "*)") in H' as [-> H']; auto. symmetry in H'.
    exfalso. revert H'. change ("*)" <> i' +++ String "," (" " +++ rel' +++ ")")). apply Hno. cbn. repeat split; discriminate.
  - apply (Hcut re' rs _ "*)") in H' as [-> H']; auto. apply (He i' "*") in H'. congruence.
  - apply (Hcut rs' rs "*)" "*)") in H' as [-> _]; auto.
Qed.

Lemma pretty_lacks c n p : pretty n = Ok p -> c <> "("%char -> c <> ")"%char -> c <> ":"%char -> c <> "*"%char -> c <> ","%char -> c <> " "%char ->
  match n with
  | NSet (Some o) rel => lacks c (e_res o) /\ lacks c (e_id o) /\ lacks c rel
  | NEntity (Some o) => lacks c (e_res o) /\ lacks c (e_id o)
  | NWild rs => lacks c rs
  | _ => True
  end -> lacks c p.
Proof.
  intros H H1 H2 H3 H4 H5 H6 Hl. destruct n as [[[re i] |] rel | [[re i] |] | rs |]; cbn [e_res e_id] in Hl;
    cbn [pretty e_res e_id] in H; try discriminate; apply ok_same in H; subst p;
    rewrite ?lacks_append; try (destruct (String.eqb rel "")); rewrite ?lacks_append; cbn [lacks]; intuition congruence.
Qed.

Lemma pretty_line n p : legible n -> pretty n = Ok p -> lacks nl p.
Proof.
  intros Hl H. apply (pretty_lacks nl n p H); try discriminate.
  destruct n as [[o |] rel | [o |] | rs |]; cbn in Hl; tauto.
Qed.

(** ** When there is a rendering *)

Lemma dot_loop_total f ps : (forall p, In p ps -> forall c, exists x, f p c = Ok x) -> forall c, exists x, dot_loop f ps c = Ok x.
Proof.
  induction ps as [| p ps IH]; intros H c; [eexists; reflexivity |]. cbn [dot_loop].
  destruct (H p (or_introl eq_refl) c) as [x ->]. cbn [bind]. destruct (IH (fun q Hq => H q (or_intror Hq)) (snd x)) as [y Hy].
  fold (dot_loop f) in *. rewrite Hy. cbn [bind]. eauto.
Qed.

Lemma displayed_or r ps n : displayed (GOr r ps) n <-> exists p, In p ps /\ displayed p n.
Proof.
  split.
  - intros (q & p & why & H). inversion H; subst. exists p0. split; [assumption |]. do 3 eexists. eassumption.
  - intros (p & Hp & q & x & why & H). do 3 eexists. eapply wi_or; eauto.
Qed.

Lemma displayed_and r ps n : displayed (GAnd r ps) n <-> exists p, In p ps /\ displayed p n.
Proof.
  split.
  - intros (q & p & why & H). inversion H; subst. exists p0. split; [assumption |]. do 3 eexists. eassumption.
  - intros (p & Hp & q & x & why & H). do 3 eexists. eapply wi_and; eauto.
Qed.

Lemma displayed_diff r a b n : displayed (GDiff r a b) n <-> displayed a n \/ displayed b n.
Proof.
  split.
  - intros (q & p & why & H). inversion H; subst; [left | right]; do 3 eexists; eassumption.
  - intros [(q & x & why & H) | (q & x & why & H)]; do 3 eexists; [eapply wi_left | eapply wi_right]; eauto.
Qed.

Lemma displayed_path r m p why n : displayed (GPath r m p why) n <-> n = m \/ exists t, p = Some t /\ displayed t n.
Proof.
  split.
  - intros (q & x & w & H). inversion H; subst; [auto |]. right. eexists. split; [reflexivity |]. do 3 eexists. eassumption.
  - intros [-> | (t & -> & q & x & w & H)]; do 3 eexists; [apply wi_here | eapply wi_path; eauto].
Qed.

Lemma dot_goal_total t : (forall n, displayed t n -> has_object n) -> forall parent c, exists x, dot_goal parent t c = Ok x.
Proof.
  induction t as [r ps IH | r ps IH | r a b IHa IHb | r n p why IH] using gtree_ind2; intros H parent c; cbn [dot_goal goal_label bind].
  - rewrite Forall_forall in IH. destruct (dot_loop_total (dot_goal (goal_id c)) ps) with (c := S c) as [x ->]; [| cbn; eauto].
    intros p Hp. apply IH; [exact Hp |]. intros n Hn. apply H. apply displayed_or. eauto.
  - rewrite Forall_forall in IH. destruct (dot_loop_total (dot_goal (goal_id c)) ps) with (c := S c) as [x ->]; [| cbn; eauto].
    intros p Hp. apply IH; [exact Hp |]. intros n Hn. apply H. apply displayed_and. eauto.
  - destruct (IHa (fun n Hn => H n (proj2 (displayed_diff r a b n) (or_introl Hn))) (goal_id c) (S c)) as [x ->]. cbn [bind].
    destruct (IHb (fun n Hn => H n (proj2 (displayed_diff r a b n) (or_intror Hn))) (goal_id c) (snd x)) as [y ->]. cbn. eauto.
  - destruct (proj1 (pretty_object n)) as [q ->]; [apply H, displayed_path; auto |]. cbn [bind].
    destruct p as [t |]; [| cbn; eauto]. destruct IH with (parent := goal_id c) (c := S c) as [x ->]; [| cbn; eauto].
    intros m Hm. apply H, displayed_path. eauto.
Qed.

Theorem goal_dot_total t : (forall n, displayed t n -> has_object n) -> exists l, goal_dot t = Ok l.
Proof. intros H. unfold goal_dot. destruct (dot_goal_total t H "root" 0) as [x ->]. cbn. eauto. Qed.

(** Otherwise it panics. *)
Lemma dot_loop_panics f ps : (forall p, In p ps -> forall c, f p c = Panic \/ exists x, f p c = Ok x) ->
  (exists p, In p ps /\ forall c, f p c = Panic) -> forall c, dot_loop f ps c = Panic.
Proof.
  induction ps as [| p ps IH]; intros H (q & Hq & Hf) c; [contradiction |]. cbn [dot_loop]. fold (dot_loop f).
  destruct (H p (or_introl eq_refl) c) as [-> | [x Hx]]; [reflexivity |]. destruct Hq as [<- | Hq]; [rewrite Hf; reflexivity |].
  rewrite Hx. cbn [bind]. rewrite IH; [reflexivity | intros; apply H; right; assumption |]. eauto.
Qed.

Lemma dot_loop_either f ps : (forall p, In p ps -> forall c, f p c = Panic \/ exists x, f p c = Ok x) ->
  forall c, dot_loop f ps c = Panic \/ exists x, dot_loop f ps c = Ok x.
Proof.
  induction ps as [| p ps IH]; intros H c; [right; eexists; reflexivity |]. cbn [dot_loop]. fold (dot_loop f).
  destruct (H p (or_introl eq_refl) c) as [-> | [x ->]]; [left; reflexivity |]. cbn [bind].
  destruct (IH (fun q Hq => H q (or_intror Hq)) (snd x)) as [-> | [y ->]]; cbn; eauto.
Qed.

Lemma pretty_either n : pretty n = Panic \/ exists p, pretty n = Ok p.
Proof. destruct n as [[o |] rel | [o |] | rs |]; cbn; eauto. Qed.

Lemma dot_goal_either t : forall parent c, dot_goal parent t c = Panic \/ exists x, dot_goal parent t c = Ok x.
Proof.
  induction t as [r ps IH | r ps IH | r a b IHa IHb | r n p why IH] using gtree_ind2; intros parent c; cbn [dot_goal goal_label bind].
  - rewrite Forall_forall in IH. destruct (dot_loop_either (dot_goal (goal_id c)) ps) with (c := S c) as [-> | [x ->]]; cbn; eauto.
  - rewrite Forall_forall in IH. destruct (dot_loop_either (dot_goal (goal_id c)) ps) with (c := S c) as [-> | [x ->]]; cbn; eauto.
  - destruct (IHa (goal_id c) (S c)) as [-> | [x ->]]; cbn [bind]; [auto |].
    destruct (IHb (goal_id c) (snd x)) as [-> | [y ->]]; cbn; eauto.
  - destruct (pretty_either n) as [-> | [q ->]]; cbn [bind]; [auto |]. destruct p as [t |]; [| cbn; eauto].
    destruct (IH (goal_id c) (S c)) as [-> | [x ->]]; cbn; eauto.
Qed.

Lemma dot_goal_panics t n : displayed t n -> ~ has_object n -> forall parent c, dot_goal parent t c = Panic.
Proof.
  intros Hd Hn. revert Hd.
  induction t as [r ps IH | r ps IH | r a b IHa IHb | r m p why IH] using gtree_ind2; intros Hd parent c; cbn [dot_goal goal_label bind].
  - apply displayed_or in Hd as (p & Hp & Hd). rewrite Forall_forall in IH. rewrite dot_loop_panics; [reflexivity | |].
    + intros q _ d. apply dot_goal_either.
    + exists p. split; [exact Hp |]. intros d. apply IH; assumption.
  - apply displayed_and in Hd as (p & Hp & Hd). rewrite Forall_forall in IH. rewrite dot_loop_panics; [reflexivity | |].
    + intros q _ d. apply dot_goal_either.
    + exists p. split; [exact Hp |]. intros d. apply IH; assumption.
  - apply displayed_diff in Hd as [Hd | Hd]; [rewrite IHa by exact Hd; reflexivity |].
    destruct (dot_goal_either a (goal_id c) (S c)) as [-> | [x ->]]; [reflexivity |]. cbn [bind]. rewrite IHb by exact Hd. reflexivity.
  - apply displayed_path in Hd as [-> | (t & -> & Hd)].
    + destruct (pretty_either m) as [-> | Hp]; [reflexivity |]. apply pretty_object in Hp. contradiction.
    + destruct (pretty_either m) as [-> | [q ->]]; [reflexivity |]. cbn [bind]. rewrite (IH Hd). reflexivity.
Qed.

Theorem goal_dot_panics t n : displayed t n -> ~ has_object n -> goal_dot t = Panic.
Proof. intros Hd Hn. unfold goal_dot. rewrite (dot_goal_panics t n Hd Hn). reflexivity. Qed.

Lemma goal_dot_fuel t : goal_dot t <> Fuel.
Proof. unfold goal_dot. destruct (dot_goal_either t "root" 0) as [-> | [x ->]]; discriminate. Qed.

Lemma goal_dot_error t e : goal_dot t <> Err e.
Proof. unfold goal_dot. destruct (dot_goal_either t "root" 0) as [-> | [x ->]]; discriminate. Qed.

(** ** The rendering is the tree *)

Lemma gtree_children_ind (Q : gtree -> Prop) : (forall t, (forall x, In x (children t) -> Q x) -> Q t) -> forall t, Q t.
Proof.
  intros H t. induction t as [r ps IH | r ps IH | r a b IHa IHb | r n p why IH] using gtree_ind2; apply H; cbn [children].
  - rewrite Forall_forall in IH. exact IH.
  - rewrite Forall_forall in IH. exact IH.
  - intros x [<- | [<- | []]]; assumption.
  - destruct p as [p |]; [intros x [<- | []]; assumption | intros x []].
Qed.

Lemma dot_goal_eq parent t c : dot_goal parent t c =
  let* l := goal_label t in
  let* x := dot_loop (dot_goal (goal_id c)) (children t) (S c) in
  Ok (GNode (goal_id c) (Some l) :: GEdge parent (goal_id c) :: fst x, snd x).
Proof.
  destruct t as [r ps | r ps | r a b | r n p why]; cbn [dot_goal children]; try reflexivity; destruct (goal_label _); cbn [bind]; try reflexivity.
  - cbn [dot_loop]. destruct (dot_goal (goal_id c) a (S c)) as [x | | |]; cbn [bind]; try reflexivity.
    destruct (dot_goal (goal_id c) b (snd x)) as [y | | |]; cbn [bind fst snd]; try reflexivity. rewrite app_nil_r. reflexivity.
  - destruct p as [p |]; cbn [dot_loop]; [| reflexivity].
    destruct (dot_goal (goal_id c) p (S c)) as [x | | |]; cbn [bind fst snd]; try reflexivity. rewrite app_nil_r. reflexivity.
Qed.

Lemma size_children t : size t = S (list_sum (map size (children t))).
Proof. destruct t as [r ps | r ps | r a b | r n [p |] why]; cbn [size children map]; unfold list_sum; cbn [fold_right]; lia || reflexivity. Qed.

Lemma labels_app a b id : labels_of (a ++ b) id = labels_of a id ++ labels_of b id.
Proof. apply flat_map_app. Qed.
Lemma targets_app a b id : targets_of (a ++ b) id = targets_of a id ++ targets_of b id.
Proof. apply flat_map_app. Qed.
Lemma names_app a b : node_names (a ++ b) = node_names a ++ node_names b.
Proof. apply flat_map_app. Qed.
Lemma sources_app a b : edge_sources (a ++ b) = edge_sources a ++ edge_sources b.
Proof. apply flat_map_app. Qed.

Lemma labels_absent l id : ~ In id (node_names l) -> labels_of l id = [].
Proof.
  induction l as [| [i lab | a b] l IH]; cbn; intros H; auto. destruct (String.eqb_spec i id) as [-> |]; [contradiction H; auto | cbn; auto].
Qed.
Lemma targets_absent l id : ~ In id (edge_sources l) -> targets_of l id = [].
Proof.
  induction l as [| [i lab | a b] l IH]; cbn; intros H; auto. destruct (String.eqb_spec a id) as [-> |]; [contradiction H; auto | cbn; auto].
Qed.

Definition ids (c n : nat) : list string := map goal_id (seq c n).

Lemma in_ids k c n : In (goal_id k) (ids c n) <-> c <= k < c + n.
Proof.
  unfold ids. rewrite in_map_iff. split.
  - intros (j & Hj & H). apply goal_id_inj in Hj as ->. apply in_seq in H. exact H.
  - intros H. exists k. rewrite in_seq. auto.
Qed.

Lemma ids_app c n m : ids c (n + m) = ids c n ++ ids (c + n) m.
Proof. unfold ids. rewrite seq_app, map_app. reflexivity. Qed.

Lemma ids_nodup c n : NoDup (ids c n).
Proof.
  unfold ids. apply FinFun.Injective_map_NoDup; [| apply seq_NoDup]. intros a b. apply goal_id_inj.
Qed.

(** Which nodes and edges there are. *)
Record counted (parent : string) (c n : nat) (l : list goal_stmt) (c' : nat) : Prop := {
  co_next : c' = c + n;
  co_names : node_names l = ids c n;
  co_sources : forall x, In x (edge_sources l) -> x = parent \/ In x (ids c n);
  co_edges : length (edge_sources l) = n }.

Lemma loop_counted id ts : (forall t, In t ts -> forall c l c', dot_goal id t c = Ok (l, c') -> counted id c (size t) l c') ->
  forall c l c', dot_loop (dot_goal id) ts c = Ok (l, c') -> counted id c (list_sum (map size ts)) l c'.
Proof.
  induction ts as [| t ts IH]; intros H c l c' Hd; cbn [dot_loop] in Hd.
  - injection Hd as <- <-. split; cbn; auto.
  - fold (dot_loop (dot_goal id)) in Hd. apply bind_ok in Hd as ([l1 c1] & H1 & Hd). apply bind_ok in Hd as ([l2 c2] & H2 & Hd).
    cbn [fst snd] in *. injection Hd as <- <-. destruct (H t (or_introl eq_refl) _ _ _ H1) as [-> N1 S1 E1].
    destruct (IH (fun x Hx => H x (or_intror Hx)) _ _ _ H2) as [-> N2 S2 E2]. cbn [map list_sum fold_right]. fold (list_sum (map size ts)).
    split.
    + lia.
    + rewrite names_app, N1, N2, ids_app. reflexivity.
    + intros x Hx. rewrite sources_app in Hx. rewrite ids_app, in_app_iff. apply in_app_iff in Hx as [Hx | Hx]; [destruct (S1 x Hx) | destruct (S2 x Hx)]; auto.
    + rewrite sources_app, app_length, E1, E2. reflexivity.
Qed.

Lemma goal_counted t : forall parent c l c', dot_goal parent t c = Ok (l, c') -> counted parent c (size t) l c'.
Proof.
  induction t as [t IH] using gtree_children_ind. intros parent c l c' H. rewrite dot_goal_eq in H.
  apply bind_ok in H as (lab & _ & H). apply bind_ok in H as ([l1 c1] & H1 & H). cbn [fst snd] in H. injection H as <- <-.
  apply loop_counted in H1; [| intros; eapply IH; eauto]. destruct H1 as [-> N1 S1 E1]. rewrite size_children.
  assert (Hids : ids c (S (list_sum (map size (children t)))) = goal_id c :: ids (S c) (list_sum (map size (children t)))) by reflexivity.
  split.
  - lia.
  - rewrite Hids. change (goal_id c :: node_names l1 = goal_id c :: ids (S c) (list_sum (map size (children t)))). rewrite N1. reflexivity.
  - intros x [<- | Hx]; [auto |]. rewrite Hids. right. destruct (S1 x Hx) as [-> | Hx']; [left; reflexivity | right; exact Hx'].
  - change (S (length (edge_sources l1)) = S (list_sum (map size (children t)))). rewrite E1. reflexivity.
Qed.

Definition agrees (L l : list goal_stmt) (c n : nat) : Prop :=
  forall k, c <= k < c + n -> labels_of L (goal_id k) = labels_of l (goal_id k) /\ targets_of L (goal_id k) = targets_of l (goal_id k).

Definition drawn (t : gtree) : Prop := forall parent c l c', dot_goal parent t c = Ok (l, c') ->
  ~ In parent (ids c (size t)) ->
  targets_of l parent = [goal_id c] /\
  exists r, portrays t r /\ forall L, agrees L l c (size t) -> depicts L (goal_id c) r.

Lemma loop_drawn id ts : (forall t, In t ts -> drawn t) -> forall c l c', dot_loop (dot_goal id) ts c = Ok (l, c') ->
  ~ In id (ids c (list_sum (map size ts))) ->
  exists rs, portrays_all ts rs /\ forall L, agrees L l c (list_sum (map size ts)) -> depicts_all L (targets_of l id) rs.
Proof.
  induction ts as [| t ts IH]; intros Hts c l c' Hd Hid; cbn [dot_loop] in Hd.
  - injection Hd as <- <-. exists []. split; [constructor |]. intros; constructor.
  - fold (dot_loop (dot_goal id)) in Hd. apply bind_ok in Hd as ([l1 c1] & H1 & Hd). apply bind_ok in Hd as ([l2 c2] & H2 & Hd).
    cbn [fst snd] in *. injection Hd as <- <-. cbn [map list_sum fold_right] in *. fold (list_sum (map size ts)) in *.
    rewrite ids_app in Hid. rewrite in_app_iff in Hid.
    destruct (goal_counted _ _ _ _ _ H1) as [-> N1 S1 E1].
    destruct (loop_counted id ts (fun x _ => goal_counted x id) _ _ _ H2) as [-> N2 S2 E2].
    destruct (Hts t (or_introl eq_refl) _ _ _ _ H1) as (T1 & r & Hr & Hd1); [tauto |].
    destruct (IH (fun x Hx => Hts x (or_intror Hx)) _ _ _ H2) as (rs & Hrs & Hd2); [tauto |].
    exists (r :: rs). split; [constructor; assumption |]. intros L HL. rewrite targets_app, T1. cbn [app].
    assert (A1 : agrees L l1 c (size t)).
    { intros k Hk. destruct (HL k) as [X Y]; [lia |]. rewrite labels_app in X. rewrite targets_app in Y.
      rewrite (labels_absent l2) in X by (rewrite N2, in_ids; lia). rewrite app_nil_r in X. split; [exact X |].
      rewrite (targets_absent l2) in Y.
      - rewrite app_nil_r in Y. exact Y.
      - intros Hin. destruct (S2 _ Hin) as [<- | Hin']; [| rewrite in_ids in Hin'; lia]. apply Hid. left. apply in_ids. exact Hk. }
    assert (A2 : agrees L l2 (c + size t) (list_sum (map size ts))).
    { intros k Hk. destruct (HL k) as [X Y]; [lia |]. rewrite labels_app in X. rewrite targets_app in Y.
      rewrite (labels_absent l1) in X by (rewrite N1, in_ids; lia). split; [exact X |].
      rewrite (targets_absent l1) in Y; [exact Y |].
      intros Hin. destruct (S1 _ Hin) as [<- | Hin']; [| rewrite in_ids in Hin'; lia]. apply Hid. right. apply in_ids. exact Hk. }
    constructor; auto.
Qed.

Lemma goal_drawn t : drawn t.
Proof.
  induction t as [t IH] using gtree_children_ind. intros parent c l c' H Hp. pose proof (goal_counted _ _ _ _ _ H) as [_ Hn _ _].
  rewrite dot_goal_eq in H.
  apply bind_ok in H as (lab & Hl & H). apply bind_ok in H as ([l1 c1] & H1 & H). cbn [fst snd] in H. injection H as <- <-.
  rewrite size_children in *. set (n := list_sum (map size (children t))) in *.
  assert (Hids : ids c (S n) = goal_id c :: ids (S c) n) by reflexivity.
  destruct (loop_counted (goal_id c) (children t) (fun x _ => goal_counted x (goal_id c)) _ _ _ H1) as [_ N1 S1 _]. fold n in N1, S1.
  destruct (loop_drawn (goal_id c) (children t) IH _ _ _ H1) as (rs & Hrs & Hd); [fold n; rewrite in_ids; lia |]. fold n in Hd.
  rewrite Hids in Hp. split.
  - cbn [targets_of flat_map]. rewrite String.eqb_refl. cbn [app]. f_equal.
    apply (targets_absent l1). intros Hin. apply Hp. destruct (S1 _ Hin) as [-> | Hin']; [left; reflexivity | right; exact Hin'].
  - exists (Rose (Some lab) rs). split; [constructor; assumption |]. intros L HL.
    assert (Hc : String.eqb parent (goal_id c) = false) by (apply String.eqb_neq; intros ->; apply Hp; left; reflexivity).
    assert (HL1 : agrees L l1 (S c) n).
    { intros k Hk. destruct (HL k) as [X Y]; [lia |]. cbn [labels_of targets_of flat_map] in X, Y.
      assert (Hck : String.eqb (goal_id c) (goal_id k) = false) by (apply String.eqb_neq; intros Hq; apply goal_id_inj in Hq; lia).
      assert (Hpk : String.eqb parent (goal_id k) = false) by (apply String.eqb_neq; intros ->; apply Hp; right; apply in_ids; exact Hk).
      rewrite Hck in X. rewrite Hpk in Y. auto. }
    destruct (HL c) as [X Y]; [lia |]. cbn [labels_of targets_of flat_map] in X, Y. rewrite String.eqb_refl in X. rewrite Hc in Y. cbn [app] in X, Y.
    constructor.
    + rewrite X. f_equal. apply (labels_absent l1). rewrite N1, in_ids. lia.
    + rewrite Y. apply Hd. exact HL1.
Qed.

Theorem goal_dot_depicts t l : goal_dot t = Ok l ->
  NoDup (node_names l) /\ length (node_names l) = S (size t) /\ length (edge_sources l) = size t /\
  exists r, portrays t r /\ depicts l "root" (Rose None [r]).
Proof.
  unfold goal_dot. intros H. apply bind_ok in H as ([l1 c1] & H1 & H). cbn [fst snd] in H. injection H as <-.
  destruct (goal_counted _ _ _ _ _ H1) as [_ N1 S1 E1].
  assert (Hroot : forall c n, ~ In "root"%string (ids c n)).
  { intros c n Hin. apply in_map_iff in Hin as (k & Hk & _). apply goal_id_root in Hk. exact Hk. }
  destruct (goal_drawn t _ _ _ _ H1) as (T1 & r & Hr & Hd); [apply Hroot |].
  change (node_names (GNode "root" None :: l1)) with ("root" :: node_names l1)%string. change (edge_sources (GNode "root" None :: l1)) with (edge_sources l1).
  rewrite N1, E1. split; [constructor; [apply Hroot | apply ids_nodup] |]. split; [cbn; unfold ids; rewrite map_length, seq_length; reflexivity |].
  split; [reflexivity |]. exists r. split; [exact Hr |]. constructor.
  - cbn [labels_of flat_map]. rewrite String.eqb_refl. cbn [app]. f_equal. apply (labels_absent l1). rewrite N1. apply Hroot.
  - change (targets_of (GNode "root" None :: l1) "root") with (targets_of l1 "root"). rewrite T1. constructor; [| constructor].
    apply Hd. intros k _. split; [| reflexivity]. cbn [labels_of flat_map].
    assert (String.eqb "root" (goal_id k) = false) as -> by reflexivity. reflexivity.
Qed.

Scheme depicts_ind2 := Induction for depicts Sort Prop with depicts_all_ind2 := Induction for depicts_all Sort Prop.
Combined Scheme depicts_both from depicts_ind2, depicts_all_ind2.

Lemma depicts_unique l : (forall id r, depicts l id r -> forall r', depicts l id r' -> r = r') /\
  (forall is rs, depicts_all l is rs -> forall rs', depicts_all l is rs' -> rs = rs').
Proof.
  apply depicts_both.
  - intros id lab rs Hl _ IH r' H. inversion H as [? lab' rs' Hl' Ha]; subst. rewrite Hl in Hl'. injection Hl' as <-.
    f_equal. apply IH. exact Ha.
  - intros rs' H. inversion H. reflexivity.
  - intros id is r rs _ IH1 _ IH2 rs' H. inversion H; subst. f_equal; auto.
Qed.

Lemma portrays_alike t : forall t' r, portrays t r -> portrays t' r -> alike t t'.
Proof.
  induction t as [t IH] using gtree_children_ind. intros t' r H H'. inversion H as [? lab rs Hl Hc]; subst. inversion H' as [? ? ? Hl' Hc']; subst.
  destruct (label_same _ _ _ Hl Hl') as (Hk & Hr & _). constructor; auto. clear H H' Hl Hl' Hk Hr. revert rs Hc Hc'. generalize (children t').
  induction (children t) as [| x xs IHx]; intros ys rs H H'; inversion H; subst; inversion H'; subst; constructor.
  - eapply IH; [left; reflexivity | eassumption | eassumption].
  - eapply IHx; eauto. intros y Hy. apply IH. right. exact Hy.
Qed.

Lemma legible_child t x : legible_tree t -> In x (children t) -> legible_tree x.
Proof.
  intros H Hx r n p why Hw. apply (H r n p why). destruct t as [q ps | q ps | q a b | q m [c |] w]; cbn in Hx.
  - eapply wi_or; eauto.
  - eapply wi_and; eauto.
  - destruct Hx as [<- | [<- | []]]; [apply wi_left | apply wi_right]; assumption.
  - destruct Hx as [<- | []]. apply wi_path. exact Hw.
  - destruct Hx.
Qed.

Lemma portrays_same t : forall t' r, portrays t r -> portrays t' r -> legible_tree t -> legible_tree t' -> t = t'.
Proof.
  induction t as [t IH] using gtree_children_ind. intros t' r H H' Hg Hg'. inversion H as [? lab rs Hl Hc]; subst. inversion H' as [? ? ? Hl' Hc']; subst.
  assert (Hch : children t = children t').
  { assert (La : forall x, In x (children t) -> legible_tree x) by (intros x Hx; exact (legible_child t x Hg Hx)).
    assert (Lb : forall x, In x (children t') -> legible_tree x) by (intros x Hx; exact (legible_child t' x Hg' Hx)).
    clear -IH Hc Hc' La Lb. revert rs Hc Hc' La Lb. generalize (children t').
    induction (children t) as [| x xs IHx]; intros ys rs H H' La Lb; inversion H; subst; inversion H'; subst; [reflexivity |]. f_equal.
    - eapply IH; [left; reflexivity | eassumption | eassumption | apply La; left; reflexivity | apply Lb; left; reflexivity].
    - eapply IHx; eauto; intros y Hy; [apply IH | apply La | apply Lb]; right; exact Hy. }
  destruct (label_same _ _ _ Hl Hl') as (Hk & Hr & Hh). clear H H' IH Hc Hc'.
  destruct t as [q ps | q ps | q a b | q n p why], t' as [q' ps' | q' ps' | q' a' b' | q' n' p' why']; try discriminate; cbn in Hr, Hch; subst.
  - reflexivity.
  - reflexivity.
  - injection Hch as -> ->. reflexivity.
  - assert (p = p') as -> by (destruct p, p'; congruence).
    destruct (Hg q' n p' why (wi_here _)) as [L1 L2]. destruct (Hg' q' n' p' why' (wi_here _)) as [L1' L2'].
    cbn [label_head] in Hh. apply label_split in Hl as (h & Hl & _). cbn [label_head] in Hl.
    destruct (pretty n) as [s | | |] eqn:Hs; try discriminate. destruct (pretty n') as [s' | | |] eqn:Hs'; try discriminate. clear Hl Hl'.
    cbn [bind] in Hh. apply ok_same in Hh. do 2 apply append_inj in Hh. apply append_inj in Hh.
    apply (append_cut nl) in Hh as [-> Hh]; [| exact (pretty_line n s L1 Hs) | exact (pretty_line n' s' L1' Hs')].
    apply (append_inj "reason: ") in Hh. apply (append_cut nl) in Hh as [-> _]; auto.
    rewrite (pretty_inj n n' s' L1 L1' Hs Hs'). reflexivity.
Qed.

(** ** Trees that a search returns *)

(** Every node shown is evaluated or skipped. *)
Definition either (t : gtree) : Prop := forall n, displayed t n -> In n (evaluated t) \/ In n (skipped t).

Lemma either_or r ps : Forall either ps -> either (GOr r ps).
Proof.
  rewrite Forall_forall. intros H n Hn. apply displayed_or in Hn as (p & Hp & Hn). cbn.
  destruct (H p Hp n Hn); [left | right]; apply in_flat_map; eauto.
Qed.

Lemma either_and r ps : Forall either ps -> either (GAnd r ps).
Proof.
  rewrite Forall_forall. intros H n Hn. apply displayed_and in Hn as (p & Hp & Hn). cbn.
  destruct (H p Hp n Hn); [left | right]; apply in_flat_map; eauto.
Qed.

Lemma either_diff r a b : either a -> either b -> either (GDiff r a b).
Proof.
  intros Ha Hb n Hn. cbn. rewrite !in_app_iff. apply displayed_diff in Hn as [Hn | Hn]; [destruct (Ha n Hn) | destruct (Hb n Hn)]; auto.
Qed.

Lemma either_leaf r n why : either (GPath r n None why).
Proof.
  intros m Hm. apply displayed_path in Hm as [-> | (t & H & _)]; [| discriminate]. destruct r; cbn; auto.
Qed.

Lemma either_fresh t : fresh t -> either t.
Proof.
  induction t as [r ps IH | r ps IH | r a b IHa IHb | r n p why IH] using gtree_ind2; cbn [fresh]; intros H.
  - destruct H as [_ H]. apply fresh_all in H. apply either_or. rewrite Forall_forall in *. auto.
  - destruct H as [_ H]. apply fresh_all in H. apply either_and. rewrite Forall_forall in *. auto.
  - destruct H as (_ & H1 & H2). apply either_diff; auto.
  - destruct H as [_ ->]. apply either_leaf.
Qed.

Lemma either_search E P es g :
  (forall nd why seen x seen', spath E P es g nd why seen x seen' -> either x) /\
  (forall t e rel seen x seen', stree E P es g t e rel seen x seen' -> either x) /\
  (forall why ns seen b ps seen', sor E P es g why ns seen b ps seen' -> Forall either ps).
Proof.
  apply (search_ind E P es g).
  - intros nd why seen id _ _. apply either_leaf.
  - intros nd why seen id _ _ _. apply either_leaf.
  - intros nd why seen id _ _ _ _. apply either_leaf.
  - intros e rel why seen id t gt x seen' _ _ _ _ _ Hs IH n Hn. apply displayed_path in Hn as [-> | (t' & [= <-] & Hn)].
    + destruct (stree_known E P es g _ _ _ _ _ _ Hs) as [-> | ->]; cbn; auto.
    + destruct (stree_known E P es g _ _ _ _ _ _ Hs) as [-> | ->]; cbn; destruct (IH n Hn); auto.
  - intros r e rel ns seen b ps seen' _ _ IH. apply either_or. exact IH.
  - intros l r e rel seen x seen' y _ IH _ Hb. apply either_or. (constructor; [exact IH | constructor; [| constructor]]). eapply either_fresh, build_fresh; eauto.
  - intros l r e rel seen x seen1 y seen2 _ IHl _ _ IHr. apply either_or. constructor; [exact IHl | constructor; [exact IHr | constructor]].
  - intros l r e rel seen x seen' y _ IH _ Hb. apply either_and. (constructor; [exact IH | constructor; [| constructor]]). eapply either_fresh, build_fresh; eauto.
  - intros l r e rel seen x seen1 y seen2 _ IHl _ _ IHr. apply either_and. constructor; [exact IHl | constructor; [exact IHr | constructor]].
  - intros l r e rel seen x seen1 y seen2 _ IHl _ IHr. apply either_diff; auto.
  - constructor.
  - intros why n ns seen x seen' _ IH _. constructor; [exact IH |]. apply Forall_forall. intros p Hp.
    apply in_map_iff in Hp as (m & <- & _). apply either_leaf.
  - intros why n ns seen x seen1 b ps seen2 _ IH _ _ IHs. constructor; assumption.
Qed.

(** Nodes met on the way have objects. *)
Lemma reach_object E P (succ : entity -> string -> subject -> Prop) origin : (forall o rel u, succ o rel u -> has_object (subject_node u)) ->
  ttu_objects E P succ origin -> has_object origin -> forall n, reach E P succ origin n -> has_object n.
Proof.
  intros Hobj Httu Ho n Hn. induction Hn as [| x y Hx IH Hle]; [exact Ho |]. inversion Hle as [e rel t ru m Hw Hoc Hy Hq1 Hq2]; subst.
  inversion Hy; subst; cbn; eauto. destruct (Httu e rel t ts cu u Hx Hw Hoc ltac:(assumption)) as [o' ->]. exact I.
Qed.

Theorem search_displays E P es (succ : entity -> string -> subject -> Prop) origin g why seen x seen' : edge_subjects E es succ ->
  (forall o rel u, succ o rel u -> has_object (subject_node u)) -> ttu_objects E P succ origin -> has_object origin ->
  spath E P es g origin why seen x seen' -> forall n, displayed x n -> has_object n.
Proof.
  intros Hs Hobj Httu Ho Hp n Hn. apply (reach_object E P succ origin Hobj Httu Ho).
  eapply (proj1 (shown_reached E P es g succ Hs origin)); [exact Hp | apply re_here |].
  apply (proj1 (either_search E P es g) _ _ _ _ _ Hp). exact Hn.
Qed.

(** ** Quotes *)

Lemma body_end s c : lacks dquote s -> c <> dquote -> c <> backslash -> string_body (s +++ String c "").
Proof.
  intros Hs H1 H2. remember (String.length s) as k eqn:Hk. revert s Hk Hs.
  induction k as [k IH] using Wf_nat.lt_wf_ind. intros [| d s] Hk Hs; cbn.
  - constructor; auto. constructor.
  - destruct Hs as [Hd Hs]. destruct (Ascii.eqb_spec d backslash) as [-> | Hb].
    + destruct s as [| d2 s]; [cbn; apply sb_escaped, sb_end |]. cbn. apply sb_escaped. destruct Hs as [_ Hs].
      eapply IH; [| reflexivity | exact Hs]. cbn in Hk. lia.
    + constructor; auto. eapply IH; [| reflexivity | exact Hs]. cbn in Hk. lia.
Qed.

Lemma body_plain s : lacks dquote s -> lacks backslash s -> string_body s.
Proof. induction s as [| c s IH]; cbn; intros; constructor; tauto. Qed.

Lemma body_head c s : string_body (String c s) -> c <> dquote.
Proof. intros H -> . inversion H; subst; try congruence; discriminate. Qed.

Lemma unquoted_pretty n p : unquoted n -> pretty n = Ok p -> lacks dquote p.
Proof.
  intros Hu H. apply (pretty_lacks dquote n p H); try discriminate. destruct n as [[o |] rel | [o |] | rs |]; cbn in *; auto.
Qed.
