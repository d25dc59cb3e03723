(** Facts about what a server answers to remote clients. *)
From Coq Require Import Sorted Permutation.
From Verif Require Import Base Domain Lexer Parser Validate Store Search Explain Yaml Service Dump Api Fault Wire SpecGrammar SpecStore SpecPolicy SpecWire Rpc SpecRpc BaseFacts
  LexerFacts ExprFacts ValidateFacts StoreFacts PolicyFacts RelFacts GraphFacts SpecConc ConcFacts WireFacts WireServe RpcFacts ConfigFacts.
Local Open Scope N_scope.

(** ** UTF-8 *)

Lemma utf8_name E w : name E w -> utf8_valid w = true.
Proof.
  intros (rs & -> & _ & H). rewrite <- (app_nil_r_s (encode_all rs)). rewrite utf8_encode_all; [reflexivity |].
  eapply Forall_impl; [| exact H]. intros r [Hr _]. exact Hr.
Qed.

(** The text before another is read alone. *)
Lemma utf8_app_str n : forall a b, (String.length a <= n)%nat -> utf8_valid a = true -> utf8_valid b = true -> utf8_valid (a +++ b) = true.
Proof.
  induction n as [| n IH]; intros a b Hn Ha Hb; [destruct a; [exact Hb | cbn in Hn; lia] |].
  destruct a as [| x a]; [exact Hb |]. cbn [String.length String.append utf8_valid] in *.
  destruct (byte x <? 128); [apply IH; auto; lia |]. destruct (utf8_lead (byte x)) as [[[k lo] hi] |]; [| discriminate].
  destruct a as [| y a]; [discriminate |]. cbn [String.length String.append] in *. apply andb_prop in Ha as [-> Ha]. cbn [andb].
  destruct (Nat.eqb k 2); [apply IH; auto; lia |]. destruct a as [| z a]; [discriminate |]. cbn [String.length String.append] in *. apply andb_prop in Ha as [-> Ha]. cbn [andb].
  destruct (Nat.eqb k 3); [apply IH; auto; lia |]. destruct a as [| w a]; [discriminate |]. cbn [String.length String.append] in *. apply andb_prop in Ha as [-> Ha]. cbn [andb].
  apply IH; auto; lia.
Qed.
Lemma utf8_plus a b : utf8_valid a = true -> utf8_valid b = true -> utf8_valid (a +++ b) = true.
Proof. apply (utf8_app_str (String.length a)). lia. Qed.

Lemma parse_texts E s t : parse E s = Ok t -> all_utf8 (tree_texts t).
Proof.
  intros H. apply parse_writable in H. induction t as [| | r | l IHl o r IHr]; cbn [SpecGrammar.writable tree_texts] in *; try contradiction.
  - destruct r; cbn [rule_texts]; try contradiction; try apply utf8_nil.
    all: unfold usable_name in H; repeat match goal with H : _ /\ _ |- _ => destruct H end.
    all: repeat (apply all_cons; [eapply utf8_name; eassumption |]); apply utf8_nil.
  - destruct H as (_ & H1 & H2). apply utf8_app. auto.
Qed.

(** ** What a program gives, if what it reads is good *)

Definition good_edge (e : edge) : Prop := all_utf8 (edge_texts e).
Definition good_data (d : rdata) : Prop := time_ok (d_created d).

Fixpoint gives (lim : nat) {A} (P : A -> Prop) (p : prog A) : Prop :=
  match p with
  | Ret a => P a
  | PolGet _ k => forall o, when (good_record lim) o -> gives lim P (k o)
  | PolHas _ k => forall b, gives lim P (k b)
  | PolSet id r k => (utf8_valid id = true /\ good_record lim r) /\ gives lim P k
  | PolDel _ k => gives lim P k
  | PolIds k => forall l, all_utf8 l -> gives lim P (k l)
  | EdgeGet _ _ k => forall o, gives lim P (k o)
  | EdgeSet _ _ e k => good_edge e /\ gives lim P k
  | EdgeDel _ _ k => gives lim P k
  | EdgeList _ k => forall l, (forall x, In x l -> good_edge (snd x)) -> gives lim P (k l)
  | DataGet _ k => forall o, when good_data o -> gives lim P (k o)
  | DataSet _ d k => good_data d /\ gives lim P k
  | DataDel _ k => gives lim P k
  end.

Definition ok {A} (P : A -> Prop) (x : res A) : Prop := match x with Ok a => P a | _ => True end.

Lemma gives_pbind lim {A B} (P : A -> Prop) (Q : B -> Prop) (p : prog A) f : gives lim P p -> (forall a, P a -> gives lim Q (f a)) -> gives lim Q (pbind p f).
Proof. intros Hp Hf. induction p; cbn [gives pbind] in *; auto; try (destruct Hp; split; auto; fail). Qed.

Lemma gives_rbind lim {A B} (P : A -> Prop) (Q : B -> Prop) (p : prog (res A)) f : gives lim (ok P) p -> (forall a, P a -> gives lim (ok Q) (f a)) -> gives lim (ok Q) (rbind p f).
Proof. intros Hp Hf. apply (gives_pbind lim (ok P)); [exact Hp |]. intros [a | | |] Ha; [apply Hf, Ha | exact I | exact I | exact I]. Qed.

Lemma gives_mono lim {A} (P Q : A -> Prop) (p : prog A) : (forall a, P a -> Q a) -> gives lim P p -> gives lim Q p.
Proof. intros H Hp. induction p; cbn [gives] in *; auto; try (destruct Hp; split; auto; fail). Qed.

Lemma gives_any lim {A} (P : A -> Prop) (p : prog A) : (forall a, P a) -> reads p -> gives lim P p.
Proof. intros H Hp. induction Hp; cbn [gives]; auto. Qed.

Lemma gives_map lim {A B} (P : B -> Prop) (f : A -> prog (res B)) l : (forall a, In a l -> gives lim (ok P) (f a)) -> gives lim (ok (fun bs => forall b, In b bs -> P b)) (map_prog f l).
Proof.
  induction l as [| a l IH]; intros H; cbn [map_prog]; [intros b [] |].
  apply (gives_rbind lim P); [apply H; left; reflexivity |]. intros b Hb.
  apply (gives_rbind lim (fun bs => forall b, In b bs -> P b)); [apply IH; intros a' Ha; apply H; right; exact Ha |].
  intros bs Hbs b' [<- | Hb']; auto.
Qed.

(** ** Stores *)

Definition good_store (lim : nat) (s : store) : Prop :=
  (forall id r, In (id, r) (st_pol s) -> utf8_valid id = true /\ good_record lim r) /\
  (forall k e, In (k, e) (st_edges s) -> good_edge e) /\
  (forall k d, In (k, d) (st_data s) -> good_data d).

Lemma in_kv_set {K V} (cmp : K -> K -> comparison) (x : K * V) k v m : In x (kv_set cmp k v m) -> x = (k, v) \/ In x m.
Proof.
  induction m as [| [k' v'] m IH]; cbn [kv_set]; [intros [<- | []]; auto |].
  destruct (cmp k k'); cbn [In]; intros H; [destruct H as [<- | H] | destruct H as [<- | H] | destruct H as [<- | H]]; auto.
  destruct (IH H); auto.
Qed.

Lemma in_kv_del {K V} (cmp : K -> K -> comparison) (x : K * V) k m : In x (kv_del cmp k m) -> In x m.
Proof. induction m as [| [k' v'] m IH]; cbn [kv_del]; [auto |]. destruct (cmp k k'); cbn [In]; intros H; auto; destruct H as [<- | H]; auto. Qed.

Lemma gives_step lim {A} (P : A -> Prop) (p : prog A) s p' s' : gives lim P p -> good_store lim s -> step1 p s = Some (p', s') -> gives lim P p' /\ good_store lim s'.
Proof.
  intros Hp Hs. pose proof Hs as (H1 & H2 & H3).
  destruct p as [a | id k | id k | id r k | id k | k | pid key k | pid key e k | pid key k | pid k | key k | key d k | key k]; cbn [gives step1] in *;
    intros H; [discriminate | ..]; injection H as <- <-.
  - split; [| exact Hs]. apply Hp. destruct (kv_get scmp id (st_pol s)) as [r |] eqn:Hr; [| exact I]. cbn [when]. apply (H1 id r). apply (get_in scmp scmp_ok). exact Hr.
  - split; [apply Hp | exact Hs].
  - destruct Hp as [Hw Hp]. split; [exact Hp |]. split; [| split; assumption]. intros id' r' Hin. cbn [st_pol] in Hin. apply in_kv_set in Hin as [[= -> ->] | Hin]; [exact Hw | apply H1; exact Hin].
  - split; [exact Hp |]. split; [| split; assumption]. intros id' r' Hin. cbn [st_pol] in Hin. apply in_kv_del in Hin. apply H1. exact Hin.
  - split; [| exact Hs]. apply Hp. intros id Hid. apply in_map_iff in Hid as ([id' r] & <- & Hin). exact (proj1 (H1 _ _ Hin)).
  - split; [apply Hp | exact Hs].
  - destruct Hp as [Hw Hp]. split; [exact Hp |]. split; [assumption | split; [| assumption]]. intros k' e' Hin. cbn [st_edges] in Hin. apply in_kv_set in Hin as [[= -> ->] | Hin]; [exact Hw | apply (H2 k'); exact Hin].
  - split; [exact Hp |]. split; [assumption | split; [| assumption]]. intros k' e' Hin. cbn [st_edges] in Hin. apply in_kv_del in Hin. apply (H2 k'). exact Hin.
  - split; [| exact Hs]. apply Hp. intros x Hx. unfold edges_of in Hx. apply in_map_iff in Hx as ([k' e] & <- & Hx). apply filter_In in Hx as [Hx _]. apply (H2 k' e Hx).
  - split; [| exact Hs]. apply Hp. destruct (kv_get pcmp key (st_data s)) as [d |] eqn:Hd; [| exact I]. cbn [when]. apply (H3 key d). apply (get_in pcmp pcmp_ok). exact Hd.
  - destruct Hp as [Hw Hp]. split; [exact Hp |]. split; [assumption | split; [assumption |]]. intros k' d' Hin. cbn [st_data] in Hin. apply in_kv_set in Hin as [[= -> ->] | Hin]; [exact Hw | apply (H3 k'); exact Hin].
  - split; [exact Hp |]. split; [assumption | split; [assumption |]]. intros k' d' Hin. cbn [st_data] in Hin. apply in_kv_del in Hin. apply (H3 k'). exact Hin.
Qed.

Lemma gives_run lim {A} (P : A -> Prop) (p : prog A) : forall s, gives lim P p -> good_store lim s -> P (fst (run p s)) /\ good_store lim (snd (run p s)).
Proof.
  induction p as [a | id k IH | id k IH | id r k IH | id k IH | k IH | pid key k IH | pid key e k IH | pid key k IH | pid k IH | key k IH | key d k IH | key k IH];
    intros s Hp Hs; [split; [exact Hp | exact Hs] | ..];
    match goal with |- P (fst (run ?p s)) /\ _ => destruct (step1 p s) as [[p' s'] |] eqn:Hst; [| discriminate Hst] end;
    destruct (gives_step lim P _ s p' s' Hp Hs Hst) as [Hp' Hs']; cbn [step1] in Hst; injection Hst as <- <-; cbn [run]; apply IH; assumption.
Qed.

Lemma gives_interleave lim (P : nat -> res response -> Prop) sched : forall ps s, (forall i p, nth_error ps i = Some p -> gives lim (P i) p) -> good_store lim s ->
  (forall i p, nth_error (fst (interleave sched (ps, s))) i = Some p -> gives lim (P i) p) /\ good_store lim (snd (interleave sched (ps, s))).
Proof.
  induction sched as [| j sched IH]; intros ps s Hp Hs; [split; assumption |].
  change (interleave (j :: sched) (ps, s)) with (interleave sched (advance (ps, s) j)).
  unfold advance. cbn [fst snd]. destruct (nth_error ps j) as [p |] eqn:Hj; [| apply IH; assumption].
  destruct (step1 p s) as [[p' s'] |] eqn:Hst; [| apply IH; assumption].
  destruct (gives_step lim (P j) p s p' s' (Hp j p Hj) Hs Hst) as [Hp' Hs']. apply IH; [| exact Hs'].
  intros i q Hq. destruct (Nat.eq_dec i j) as [-> | Hn].
  - rewrite (nth_replace_same _ _ _ _ Hj) in Hq. injection Hq as <-. exact Hp'.
  - rewrite nth_replace_other in Hq by congruence. apply Hp. exact Hq.
Qed.

(** ** Stored relationships *)

Lemma good_edge_texts e : good_edge e <->
  (utf8_valid (i_res (ed_src e)) = true /\ utf8_valid (i_id (ed_src e)) = true /\ utf8_valid (i_rel (ed_src e)) = true) /\
  (utf8_valid (i_res (ed_dst e)) = true /\ utf8_valid (i_id (ed_dst e)) = true /\ utf8_valid (i_rel (ed_dst e)) = true).
Proof.
  unfold good_edge, edge_texts. split.
  - intros H. repeat split; apply H; cbn; auto 8.
  - intros ((H1 & H2 & H3) & H4 & H5 & H6). repeat (apply all_cons; [assumption |]). apply utf8_nil.
Qed.

Lemma from_internal_texts e : good_edge e -> all_utf8 (relationship_texts (from_internal e)).
Proof.
  intros H. apply good_edge_texts in H as ((H1 & H2 & H3) & H4 & H5 & H6). unfold relationship_texts, from_internal. cbn [r_relation r_object r_subject opt_texts entity_texts e_res e_id app].
  apply all_cons; [exact H3 |]. apply all_cons; [exact H1 |]. apply all_cons; [exact H2 |].
  destruct (i_type (ed_dst e)); cbn [subject_texts opt_texts entity_texts e_res e_id]; repeat (apply all_cons; [assumption |]); apply utf8_nil.
Qed.

Lemma public_texts n : utf8_valid (i_res n) = true -> utf8_valid (i_id n) = true -> utf8_valid (i_rel n) = true -> all_utf8 (rnode_texts (to_public_node n)).
Proof.
  intros H1 H2 H3. unfold to_public_node. destruct (i_type n); cbn [rnode_texts opt_texts entity_texts e_res e_id]; repeat (apply all_cons; [assumption |]); apply utf8_nil.
Qed.

Lemma internal_good r e : when (fun r => all_utf8 (relationship_texts r)) r -> to_internal r = Ok e -> good_edge e.
Proof. intros Hr He. destruct r as [r |]; [| discriminate]. exact (internal_texts r e He Hr). Qed.

Lemma get_good lim E pid r : utf8_valid pid = true -> when (fun r => all_utf8 (relationship_texts r)) r -> gives lim (ok (when good_rel)) (repo_get_relationship E pid r).
Proof.
  intros Hp Hr. unfold repo_get_relationship, lift, rbind. cbn [pbind]. destruct (to_internal r) as [e | | |] eqn:He; cbn [gives ok]; auto.
  intros [d |] Hd; cbn [gives ok when]; [| exact I]. unfold good_rel, from_internal_record, record_texts. cbn [rr_policy rr_rel rr_created]. split; [| exact Hd].
  apply all_cons; [exact Hp |]. apply from_internal_texts. exact (internal_good r e Hr He).
Qed.

Lemma find_good lim pid s : gives lim (ok (fun l => forall r, In r l -> all_utf8 (relationship_texts r))) (repo_find_relationships pid s).
Proof.
  unfold repo_find_relationships, lift. cbn [gives]. intros es Hes. destruct (new_selector_spec s); cbn [bind ok]; auto.
  intros r Hr. apply filter_In in Hr as [Hr _]. apply in_map_iff in Hr as (x & <- & Hx). apply from_internal_texts, Hes, Hx.
Qed.

Lemma records_good lim E pid s : utf8_valid pid = true -> gives lim (ok (fun l => forall o, In o l -> when good_rel o)) (repo_find_relationship_records E pid s).
Proof.
  intros Hp. unfold repo_find_relationship_records. eapply gives_rbind; [apply find_good |]. intros rs Hr. apply gives_map. intros r Hi. apply get_good; [exact Hp |]. exact (Hr r Hi).
Qed.

Lemma delete_good lim E pid r : gives lim (ok (fun _ => True)) (repo_delete_relationship E pid r).
Proof. unfold repo_delete_relationship, lift, rbind. cbn [pbind]. destruct (to_internal r); cbn [gives ok]; auto. Qed.

Lemma delete_all_good lim E pid s : gives lim (ok (fun _ => True)) (repo_delete_relationships E pid s).
Proof.
  unfold repo_delete_relationships. eapply gives_rbind; [apply find_good |]. intros rs _.
  eapply gives_rbind; [apply gives_map with (P := fun _ => True); intros r _; apply delete_good |]. intros l _. exact I.
Qed.

(** ** Searches *)

Definition good_tree1 (x : gtree * list string) : Prop := all_utf8 (gtree_texts (fst x)).

Lemma reason_utf8 r : all_utf8 (rule_texts r) -> utf8_valid (reason_builder r) = true.
Proof.
  destruct r as [| t | ts cu |]; cbn [rule_texts reason_builder]; intros H; try reflexivity.
  - apply utf8_one in H. apply utf8_plus; [reflexivity | exact H].
  - apply utf8_cons in H as [H1 H2]. apply utf8_one in H2. apply utf8_plus; [reflexivity |]. apply utf8_plus; [exact H1 |]. apply utf8_plus; [reflexivity | exact H2].
Qed.

Lemma tree_texts_or r ps : all_utf8 (gtree_texts (GOr r ps)) <-> Forall (fun t => all_utf8 (gtree_texts t)) ps.
Proof.
  cbn [gtree_texts]. rewrite Forall_forall. split; [intros H t Ht; eapply utf8_flat; eassumption | apply all_flat].
Qed.
Lemma tree_texts_and r ps : all_utf8 (gtree_texts (GAnd r ps)) <-> Forall (fun t => all_utf8 (gtree_texts t)) ps.
Proof. apply (tree_texts_or r). Qed.
Lemma tree_texts_diff r a b : all_utf8 (gtree_texts (GDiff r a b)) <-> all_utf8 (gtree_texts a) /\ all_utf8 (gtree_texts b).
Proof. apply utf8_app. Qed.
Lemma tree_texts_path r n p why : all_utf8 (gtree_texts (GPath r n p why)) <-> utf8_valid why = true /\ all_utf8 (rnode_texts n) /\ when (fun t => all_utf8 (gtree_texts t)) p.
Proof.
  cbn [gtree_texts]. split.
  - intros H. apply utf8_cons in H as [H1 H2]. apply utf8_app in H2 as [H2 H3]. split; [exact H1 |]. split; [exact H2 |]. destruct p; [exact H3 | exact I].
  - intros (H1 & H2 & H3). apply all_cons; [exact H1 |]. apply utf8_app; split; [exact H2 |]. destruct p; [exact H3 | apply utf8_nil].
Qed.

Section Search.
  Variables (lim : nat) (E : env) (P : policy) (pid : string).
  Hypothesis HP : all_utf8 (policy_texts P).

  Lemma successors_good o rel : gives lim (ok (fun l => forall n, In n l -> all_utf8 (rnode_texts n))) (successors_prog E pid o rel).
  Proof.
    unfold successors_prog, lift. cbn [gives]. intros es Hes. unfold get_successors. destruct (from_public_node (NSet o rel)); cbn [bind ok]; auto.
    intros n Hn. apply in_map_iff in Hn as (x & <- & Hx). apply filter_In in Hx as [Hx _]. specialize (Hes x Hx). apply good_edge_texts in Hes as (_ & H1 & H2 & H3). apply public_texts; assumption.
  Qed.

  Lemma ttu_nodes cu ns ms : utf8_valid cu = true -> (forall n, In n ns -> all_utf8 (rnode_texts n)) -> map_res (build_ttu_node cu) ns = Ok ms -> forall n, In n ms -> all_utf8 (rnode_texts n).
  Proof.
    intros Hc. revert ms. induction ns as [| n ns IH]; intros ms Hns H; cbn [map_res] in H; [injection H as <-; intros n [] |].
    destruct (build_ttu_node cu n) as [m | | |] eqn:Hm; try discriminate. cbn [bind] in H. destruct (map_res (build_ttu_node cu) ns) as [l | | |] eqn:Hl; try discriminate. injection H as <-.
    intros x [<- | Hx]; [| apply (IH l); auto; intros y Hy; apply Hns; right; exact Hy].
    specialize (Hns n (or_introl eq_refl)). destruct n as [o rel | o | rs |]; cbn [build_ttu_node rnode_texts] in *; try discriminate; injection Hm as <-; cbn [rnode_texts opt_texts].
    - apply utf8_cons in Hns as [_ Hns]. apply all_cons; assumption.
    - apply all_cons; assumption.
    - apply utf8_one. exact Hc.
  Qed.

  Lemma evaluate_good r o rel : all_utf8 (rule_texts r) -> all_utf8 (opt_texts entity_texts o) -> gives lim (ok (fun l => forall n, In n l -> all_utf8 (rnode_texts n))) (evaluate_prog E pid r o rel).
  Proof.
    intros Hr Ho. destruct r as [| t | ts cu |]; cbn [evaluate_prog rule_texts] in *.
    - apply successors_good.
    - cbn. intros n [<- | []]. apply utf8_one in Hr. apply all_cons; assumption.
    - apply utf8_cons in Hr as [_ Hr]. apply utf8_one in Hr. eapply gives_rbind; [apply successors_good |]. intros ns Hns. cbn [lift gives].
      destruct (map_res (build_ttu_node cu) ns) as [ms | | |] eqn:Hm; cbn [ok]; auto. exact (ttu_nodes cu ns ms Hr Hns Hm).
    - exact I.
  Qed.

  Lemma build_tree_good t o rel : all_utf8 (tree_texts t) -> all_utf8 (opt_texts entity_texts o) -> gives lim (ok (fun t => all_utf8 (gtree_texts t))) (build_goal_tree_prog E pid t o rel).
  Proof.
    intros Ht Ho. induction t as [| | r | l IHl op r IHr]; cbn [build_goal_tree_prog tree_texts] in *; try exact I.
    - eapply gives_rbind; [apply evaluate_good; assumption |]. intros ns Hns. cbn [lift gives ok]. apply tree_texts_or. apply Forall_forall. intros x Hx. apply in_map_iff in Hx as (n & <- & Hn).
      apply tree_texts_path. split; [apply reason_utf8; exact Ht |]. split; [apply Hns, Hn | exact I].
    - apply utf8_app in Ht as [Hl Hr]. eapply gives_rbind; [apply IHl, Hl |]. intros a Ha. eapply gives_rbind; [apply IHr, Hr |]. intros b Hb. cbn [lift gives].
      destruct op; cbn [ok]; auto; [apply (tree_texts_or RUnknown) | apply (tree_texts_and RUnknown) | apply (tree_texts_diff RUnknown)]; auto.
  Qed.

  Lemma relation_texts_in rs rl l : lut_get_relation P rs rl = Some l -> all_utf8 (relation_texts l).
  Proof.
    intros H. apply (assoc_last_in pair_eqb pair_eqb_spec) in H. unfold lut_relations in H. apply in_flat_map in H as (r & Hr & H). apply in_map_iff in H as (l' & [= _ _ ->] & Hl).
    unfold policy_texts in HP. apply utf8_cons in HP as [_ H1]. apply utf8_cons in H1 as [_ H1]. apply utf8_cons in H1 as [_ H1]. apply utf8_app in H1 as [H1 _].
    apply (utf8_flat _ _ r H1) in Hr. unfold resource_texts in Hr. apply utf8_cons in Hr as [_ Hr]. apply utf8_cons in Hr as [_ Hr]. eapply utf8_flat; eassumption.
  Qed.

  Lemma expression_texts l t : all_utf8 (relation_texts l) -> get_expression_tree E l = Ok t -> all_utf8 (tree_texts t).
  Proof.
    intros Hl Ht. unfold relation_texts in Hl. apply utf8_cons in Hl as [_ Hl]. apply utf8_cons in Hl as [_ Hl]. apply utf8_app in Hl as [Hl _].
    unfold get_expression_tree in Ht. destruct (rl_expr l) as [[s | x |] |]; try discriminate; [eapply parse_texts; exact Ht |]. injection Ht as <-. exact Hl.
  Qed.

  Lemma build_good nd : all_utf8 (rnode_texts nd) -> gives lim (ok (fun t => all_utf8 (gtree_texts t))) (build_prog E P pid nd).
  Proof.
    intros Hn. destruct nd as [[e |] rel | o | rs |]; cbn [build_prog]; try exact I;
      try (cbn [lift gives ok]; apply tree_texts_path; split; [reflexivity | split; [exact Hn | exact I]]).
    destruct (lut_get_relation P (e_res e) rel) as [l |] eqn:Hl; [| exact I]. apply relation_texts_in in Hl. unfold lift at 1, rbind at 1. cbn [pbind].
    destruct (get_expression_tree E l) as [t | | |] eqn:Ht; try exact I. cbn [rnode_texts] in Hn. apply utf8_cons in Hn as [_ Hn].
    apply build_tree_good; [exact (expression_texts l t Hl Ht) | exact Hn].
  Qed.

  Section Loops.
    Variable f : gtree -> list string -> prog (res (gtree * list string)).
    Definition good_all (x : bool * list gtree * list string) : Prop := Forall (fun t => all_utf8 (gtree_texts t)) (snd (fst x)).

    Lemma or_loop_good ps : Forall (fun p => forall seen, all_utf8 (gtree_texts p) -> gives lim (ok good_tree1) (f p seen)) ps -> forall seen, Forall (fun t => all_utf8 (gtree_texts t)) ps ->
      gives lim (ok good_all) (or_loop_prog f ps seen).
    Proof.
      induction 1 as [| p ps Hp Hps IH]; intros seen Hd; cbn [or_loop_prog]; [constructor |]. inversion Hd; subst.
      eapply gives_rbind; [apply Hp; assumption |]. intros x Hx. destruct (is_success (get_result (fst x))).
      - constructor; [exact Hx | assumption].
      - eapply gives_rbind; [apply IH; assumption |]. intros [[b qs] seen'] Hy. constructor; [exact Hx | exact Hy].
    Qed.

    Lemma and_loop_good ps : Forall (fun p => forall seen, all_utf8 (gtree_texts p) -> gives lim (ok good_tree1) (f p seen)) ps -> forall seen, Forall (fun t => all_utf8 (gtree_texts t)) ps ->
      gives lim (ok good_all) (and_loop_prog f ps seen).
    Proof.
      induction 1 as [| p ps Hp Hps IH]; intros seen Hd; cbn [and_loop_prog]; [constructor |]. inversion Hd; subst.
      eapply gives_rbind; [apply Hp; assumption |]. intros x Hx. destruct (is_failure (get_result (fst x))).
      - constructor; [exact Hx | assumption].
      - eapply gives_rbind; [apply IH; assumption |]. intros [[b qs] seen'] Hy. constructor; [exact Hx | exact Hy].
    Qed.
  End Loops.

  Lemma search_tree_good sp : (forall nd why seen, all_utf8 (rnode_texts nd) -> utf8_valid why = true -> gives lim (ok good_tree1) (sp nd why seen)) ->
    forall t seen, all_utf8 (gtree_texts t) -> gives lim (ok good_tree1) (search_tree_prog sp t seen).
  Proof.
    intros Hsp t. induction t as [r ps IH | r ps IH | r a b IHa IHb | r n p why IH] using gtree_ind2; intros seen Hd; cbn [search_tree_prog].
    - apply tree_texts_or in Hd. eapply gives_rbind; [apply or_loop_good; [exact IH | exact Hd] |].
      intros [[b qs] seen'] Hq. cbn [lift gives ok]. apply (tree_texts_or RUnknown). exact Hq.
    - apply tree_texts_and in Hd. eapply gives_rbind; [apply and_loop_good; [exact IH | exact Hd] |].
      intros [[b qs] seen'] Hq. cbn [lift gives ok]. apply (tree_texts_and RUnknown). exact Hq.
    - apply tree_texts_diff in Hd as [Ha Hb]. eapply gives_rbind; [apply IHa, Ha |]. intros x Hx.
      eapply gives_rbind; [apply IHb, Hb |]. intros y Hy. cbn [lift gives ok]. apply (tree_texts_diff RUnknown). split; assumption.
    - apply tree_texts_path in Hd as (H1 & H2 & _). apply Hsp; assumption.
  Qed.

  Lemma search_path_good g n : forall nd why seen, all_utf8 (rnode_texts nd) -> utf8_valid why = true ->
    gives lim (ok good_tree1) (search_path_prog E P pid g n nd why seen).
  Proof.
    induction n as [| n IH]; intros nd why seen Hn Hy; [exact I |]. cbn [search_path_prog].
    assert (Hend : forall r p, when (fun t => all_utf8 (gtree_texts t)) p -> all_utf8 (gtree_texts (GPath r nd p why))) by (intros r p Hp; apply tree_texts_path; auto).
    unfold lift at 1, rbind at 1. cbn [pbind]. destruct (node_id E nd) as [id | | |]; try exact I. destruct (existsb (String.eqb id) seen); [exact (Hend RUnknown None I) |].
    unfold lift at 1, rbind at 1. cbn [pbind]. destruct (goal_found nd g) as [b | | |]; try exact I. destruct (b || is_terminal nd); [exact (Hend (conditional b) None I) |].
    eapply gives_rbind; [apply build_good, Hn |]. intros t Ht.
    eapply gives_rbind; [apply search_tree_good; [exact IH | exact Ht] |]. intros x Hx. exact (Hend _ (Some (fst x)) Hx).
  Qed.

  Lemma search_good g n nd : all_utf8 (rnode_texts nd) -> gives lim (ok (fun t => all_utf8 (gtree_texts t))) (search_prog E P pid n nd g).
  Proof. intros Hn. unfold search_prog. eapply gives_rbind; [apply search_path_good; [exact Hn | reflexivity] |]. intros x Hx. exact Hx. Qed.
End Search.

Lemma check_good lim E n pid a : all_utf8 (opt_texts access_texts a) -> gives lim (ok (fun t => all_utf8 (gtree_texts t))) (check_search E n pid a).
Proof.
  intros H. unfold check_search, repo_get_policy. cbn [pbind gives]. intros [rec |] Ho; [| exact I]. destruct a as [a |]; [| exact I]. apply search_good; [apply Ho |].
  cbn [opt_texts] in H. unfold access_texts in H. apply utf8_cons in H as [H1 H2]. apply utf8_app in H2 as [H2 _]. cbn [rnode_texts]. apply all_cons; assumption.
Qed.

(** ** Dumps *)

Definition good_forest (f : forest) : Prop := forall id n cs, In (id, (n, cs)) f -> all_utf8 (rnode_texts n).

Lemma walk_good E es : forall f os g, (forall a b, In (a, b) es -> all_utf8 (rnode_texts a) /\ all_utf8 (rnode_texts b)) -> good_forest f -> walk_edges E es f os = Ok g -> good_forest (fst g).
Proof.
  assert (Hget : forall id n f, all_utf8 (rnode_texts n) -> good_forest f -> good_forest (get_tree id n f)).
  { intros id n f Hn Hf. unfold get_tree. destruct (kv_get scmp id f); [exact Hf |]. intros id' n' cs Hin. apply in_kv_set in Hin as [[= -> -> ->] | Hin]; [exact Hn | eapply Hf; exact Hin]. }
  assert (Happ : forall id c f, good_forest f -> good_forest (append_child id c f)).
  { intros id c f Hf. unfold append_child. destruct (kv_get scmp id f) as [[n cs] |] eqn:Hg; [| exact Hf]. apply (get_in scmp scmp_ok) in Hg.
    intros id' n' cs' Hin. apply in_kv_set in Hin as [[= -> -> ->] | Hin]; eapply Hf; eassumption. }
  induction es as [| [a b] es IH]; intros f os g He Hf H; cbn [walk_edges] in H; [injection H as <-; exact Hf |].
  destruct (node_id E a) as [ia | | |]; try discriminate. destruct (node_id E b) as [ib | | |]; try discriminate. cbn [bind] in H.
  destruct (He a b (or_introl eq_refl)) as [Ha Hb].
  eapply IH; [intros; apply He; right; eassumption | | exact H]. apply Happ, Hget, Hget; assumption.
Qed.

Lemma map_res_in {A B} (f : A -> res B) l m y : map_res f l = Ok m -> In y m -> exists x, In x l /\ f x = Ok y.
Proof.
  revert m. induction l as [| x l IH]; intros m H Hy; cbn [map_res] in H; [injection H as <-; destruct Hy |].
  destruct (f x) as [z | | |] eqn:Hz; try discriminate. cbn [bind] in H. destruct (map_res f l) as [zs | | |]; try discriminate. injection H as <-.
  destruct Hy as [<- | Hy]; [exists x; split; [left; reflexivity | exact Hz] |]. destruct (IH zs eq_refl Hy) as (w & Hw & Hf). exists w. split; [right; exact Hw | exact Hf].
Qed.

Lemma dump_texts_app a b : all_utf8 (dump_texts a) -> all_utf8 (dump_texts b) -> all_utf8 (dump_texts (a ++ b)).
Proof. unfold dump_texts. rewrite flat_map_app. intros. apply utf8_app. auto. Qed.

Lemma dump_texts_concat l : (forall x, In x l -> all_utf8 (dump_texts x)) -> all_utf8 (dump_texts (concat l)).
Proof.
  induction l as [| x l IH]; intros H; cbn [concat]; [apply utf8_nil |]. apply dump_texts_app; [apply H; left; reflexivity |]. apply IH. intros y Hy. apply H. right. exact Hy.
Qed.

Lemma handle_good n : forall f parent id l, good_forest f -> handle_node n f parent id = Ok l -> all_utf8 (dump_texts l).
Proof.
  induction n as [| n IH]; intros f parent id l Hf H; cbn [handle_node] in H; [discriminate |].
  destruct (kv_get scmp id f) as [[nd cs] |] eqn:Hg; [| discriminate]. apply (get_in scmp scmp_ok) in Hg.
  destruct (map_res (handle_node n f (Some id)) cs) as [rest | | |] eqn:Hr; try discriminate. injection H as <-.
  unfold dump_texts. cbn [flat_map opt_texts]. apply utf8_app. split; [exact (Hf _ _ _ Hg) |]. cbn [app]. apply dump_texts_concat.
  intros x Hx. destruct (map_res_in _ _ _ _ Hr Hx) as (c & _ & Hc). eapply IH; eassumption.
Qed.

Lemma dump_good lim E n pid is_dot : gives lim (ok (fun l => all_utf8 (dump_texts l))) (dump_relationships E n pid is_dot).
Proof.
  unfold dump_relationships, repo_get_policy. cbn [pbind gives]. intros [r |] _; cbn [gives]; [| exact I]. intros es Hes. unfold lift. cbn [gives].
  destruct (walk E (list_edges es)) as [x | | |] eqn:Hw; cbn [bind ok]; auto. destruct is_dot; [| exact I].
  assert (Hf : good_forest (fst x)).
  { unfold walk in Hw. destruct (orphan_candidates E (list_edges es) []) as [os | | |]; try discriminate. cbn [bind] in Hw.
    destruct (walk_edges E (list_edges es) [] os) as [g | | |] eqn:Hg; try discriminate. injection Hw as <-. cbn [fst].
    eapply walk_good; [| | exact Hg]; [| intros ? ? ? []]. intros a b Hab. apply in_map_iff in Hab as (y & [= <- <-] & Hy). specialize (Hes y Hy).
    apply good_edge_texts in Hes as ((H1 & H2 & H3) & H4 & H5 & H6). split; apply public_texts; assumption. }
  unfold dump_dot. destruct (map_res (handle_node n (fst x) None) (snd x)) as [rest | | |] eqn:Hr; cbn [bind ok]; auto.
  change (all_utf8 (dump_texts (concat rest))). apply dump_texts_concat. intros l Hl. destruct (map_res_in _ _ _ _ Hr Hl) as (id & _ & Hid). eapply handle_good; eassumption.
Qed.

(** ** Requests of remote clients *)

Lemma sent_policy L lim d p : (9 <= lim)%nat -> yaml_ok (t_yaml L) -> when (sent_ok lim) d -> all_utf8 (opt_texts sent_texts d) ->
  get_policy_from_definition (omap (def_of L) d) = Ok p -> keeps (pred (pred lim)) p.
Proof.
  intros Hl Hy Hd Ht H. destruct d as [[q | s |] |]; cbn [omap def_of get_policy_from_definition when sent_ok opt_texts sent_texts] in *; try discriminate.
  - injection H as <-. split; [exact Ht | exact Hd].
  - destruct (t_yaml L s) as [y |] eqn:Hs; [| discriminate]. injection H as <-. destruct (Hy s y Hs) as [H1 H2].
    destruct (good_keeps 7 _ ltac:(lia) (yaml_good y H1 H2)) as (H3 & H4 & H5). split; [exact H3 |]. split; [exact H4 | lia].
Qed.

Definition good_response (L : libs) (lim : nat) (c : call) (a : response) : Prop := good_reply lim (reply_of L c a) /\ answers (reply_of L c a) = method_of c.

Lemma keeps_id n p : keeps n p -> utf8_valid (p_id p) = true.
Proof. intros (H & _ & _). apply H. left. reflexivity. Qed.

Lemma serve_good E L lim x : (9 <= lim)%nat -> texts_ok L -> acceptable E L lim x -> gives lim (ok (good_response L lim (snd x))) (serve E (as_request L x)).
Proof.
  intros Hl (Hy & HT & HD) [Hp Hr]. destruct x as [[now n] c]. unfold as_request in *. cbn [fst snd] in *. destruct Hp as [Ht Hp].
  destruct c as [d ap | d ap st | id | id | | pid r ap | pid r | pid r | pid x | pid x | pid a | pid a f | pid root f | pid f];
    cbn [request_of serve in_range call_texts] in *; unfold respond.
  - destruct Hr as [Hnow _]. apply (gives_rbind lim (good_record lim)); [| intros r Hg; split; [exact Hg | reflexivity]].
    unfold create_policy, lift, rbind, repo_get_policy, repo_set_policy. cbn [pbind].
    destruct (get_policy_from_definition (omap (def_of L) d)) as [p | | |] eqn:Hd; try exact I.
    apply (sent_policy L lim d p Hl Hy Hp Ht) in Hd as Hk. cbn [gives]. intros [r |] _; cbn [gives]; [exact I |]. cbn [pbind].
    destruct (verify_policy E p) as [[] | | |]; try exact I. cbn [pbind gives]. assert (good_record lim (mkPRec p ap now)) by (split; assumption).
    intros ?. split; [split; [exact (keeps_id _ _ Hk) | assumption] | assumption].
  - apply (gives_rbind lim (fun _ => True)); [| intros u _; split; [exact I | reflexivity]].
    unfold update_policy, lift, rbind, repo_get_policy, repo_set_policy. cbn [pbind].
    destruct (get_policy_from_definition (omap (def_of L) d)) as [p | | |] eqn:Hd; try exact I.
    apply (sent_policy L lim d p Hl Hy (proj1 Hp) Ht) in Hd as Hk. cbn [gives]. intros [r |] Ho; cbn [gives]; [| exact I]. cbn [pbind].
    destruct (verify_policy E p) as [[] | | |]; try exact I. cbn [pbind gives]. assert (good_record lim (mkPRec p ap (pr_created r))) by (split; [assumption | apply Ho]).
    intros ?. split; [split; [exact (keeps_id _ _ Hk) | assumption] | exact I].
  - apply (gives_rbind lim (fun _ => True)); [| intros u _; split; [exact I | reflexivity]].
    unfold delete_policy, repo_delete_policy. cbn [pbind gives]. intros []; cbn [pbind gives]; [| exact I].
    eapply gives_rbind; [apply delete_all_good | intros; exact I].
  - apply (gives_rbind lim (when (good_record lim))); [| intros r Hg; split; [exact Hg | reflexivity]]. cbn. auto.
  - apply (gives_rbind lim all_utf8); [| intros r Hg; split; [exact Hg | reflexivity]]. cbn. auto.
  - apply utf8_cons in Ht as [H1 H2]. destruct Hr as [Hnow _]. apply (gives_rbind lim (fun _ => True)); [| intros u _; split; [exact I | reflexivity]].
    unfold set_relationship, repo_get_policy. cbn [pbind gives]. intros [rec |] _; [| exact I].
    unfold lift, rbind at 1. cbn [pbind]. destruct (allowed_relationship (pr_policy rec) r) as [[] | | |]; try exact I.
    unfold repo_set_relationship, lift, rbind. cbn [pbind]. destruct (to_internal r) as [e | | |] eqn:He; try exact I. cbn [gives]. intros o.
    split; [apply (internal_good r e); [destruct r; cbn [when opt_texts] in *; [exact H2 | exact I] | exact He] |]. split; [exact Hnow | exact I].
  - apply (gives_rbind lim (fun _ => True)); [apply delete_good | intros u _; split; [exact I | reflexivity]].
  - apply utf8_cons in Ht as [H1 H2]. apply (gives_rbind lim (when good_rel)); [| intros o Ho; split; [exact Ho | reflexivity]].
    apply get_good; [exact H1 |]. destruct r; cbn [when opt_texts] in *; [exact H2 | exact I].
  - apply utf8_cons in Ht as [H1 H2]. apply (gives_rbind lim (fun l => forall o, In o l -> when good_rel o)); [| intros l Hgl; split; [exact Hgl | reflexivity]].
    unfold find_relationship_records, repo_get_policy. cbn [pbind gives]. intros [rec |] _; [| exact I].
    unfold lift, rbind at 1. cbn [pbind]. destruct (valid_selector (pr_policy rec) x) as [[] | | |]; try exact I. apply records_good. exact H1.
  - apply (gives_rbind lim (fun _ => True)); [apply delete_all_good | intros u _; split; [exact I | reflexivity]].
  - apply (gives_rbind lim (fun _ => True)); [| intros u _; split; [exact I | reflexivity]].
    apply utf8_cons in Ht as [_ H2]. unfold check. eapply gives_rbind; [apply check_good; exact H2 | intros; exact I].
  - apply utf8_cons in Ht as [H1 H2]. apply (gives_rbind lim (fun x => all_utf8 (gtree_texts (snd x)))); [| intros y Hg; split; [split; [apply HT; exact Hg | exact I] | reflexivity]].
    unfold explain_check, lift, rbind at 1. cbn [pbind]. destruct (serializer_factory f) as [[] | | |]; try exact I.
    apply (gives_rbind lim (fun t => all_utf8 (gtree_texts t))).
    + apply check_good. exact H2.
    + intros t Hg. unfold lift, rbind. cbn [pbind]. destruct (serialize n f t) as [[] | | |]; try exact I. exact Hg.
  - apply utf8_cons in Ht as [H1 H2]. apply (gives_rbind lim (fun t => all_utf8 (gtree_texts t))); [| intros y Hg; split; [split; [apply HT; exact Hg | exact Hp] | reflexivity]].
    unfold expand, lift, rbind at 1. cbn [pbind]. destruct (serializer_factory f) as [[] | | |]; try exact I.
    unfold repo_get_policy. cbn [pbind gives]. intros [rec |] Ho; [| exact I]. destruct root as [nd |]; [| exact I].
    apply (gives_rbind lim (fun t => all_utf8 (gtree_texts t))); [apply search_good; [apply Ho | exact H2] |].
    intros t Hg. unfold lift, rbind. cbn [pbind]. destruct (serialize n f t) as [[] | | |]; try exact I. exact Hg.
  - apply (gives_rbind lim (fun l => all_utf8 (dump_texts l))); [apply dump_good |]. intros l Hg. split; [apply HD; exact Hg | reflexivity].
Qed.

Lemma acceptable_fits E L lim x : (9 <= lim)%nat -> texts_ok L -> acceptable E L lim x -> fits_request E lim (as_request L x).
Proof.
  intros Hl (Hy & _ & _) [[Ht Hp] Hr]. destruct x as [[now n] c]. unfold as_request in *. cbn [fst snd] in *.
  assert (Hle : forall d p, when (sent_ok lim) d -> all_utf8 (opt_texts sent_texts d) -> get_policy_from_definition (omap (def_of L) d) = Ok p -> keeps (pred lim) p).
  { intros d p H1 H2 H3. apply (sent_policy L lim d p Hl Hy H1 H2) in H3 as (H4 & H5 & H6). split; [exact H4 |]. split; [exact H5 | lia]. }
  destruct c; cbn [request_of fits_request in_range call_texts] in *; try exact I.
  - destruct Hr as [Hn Hr]. split; [exact Hn |]. intros p Hd. split; [eapply Hle; eassumption |]. intros t attrs. apply Hr. exact Hd.
  - intros p Hd. split; [eapply Hle; [apply Hp | eassumption | exact Hd] |]. intros t attrs. apply Hr. exact Hd.
  - destruct Hr as [Hn Hr]. split; [exact Hn |]. intros e He. split; [| apply Hr; exact He]. apply utf8_cons in Ht as [_ Ht].
    apply (internal_good r e); [destruct r; cbn [when opt_texts] in *; [exact Ht | exact I] | exact He].
Qed.

Lemma deliver_good L lim ord c x : (9 <= lim)%nat -> (forall l, Permutation (ord l) l) -> ok (good_response L lim c) x -> outcome_fits ord (local_outcome L c x) ->
  deliver L lim ord c x = seen (local_outcome L c x).
Proof.
  intros Hl Ho Hx Hf. destruct x as [a | e | |]; cbn [deliver local_outcome seen]; try reflexivity. cbn [ok local_outcome outcome_fits] in *. destruct Hx as [Hg Hm].
  unfold marshal_reply. rewrite all_utf8_forallb by exact (good_reply_texts lim _ Hg). rewrite <- Hm, reply_round; auto.
Qed.
