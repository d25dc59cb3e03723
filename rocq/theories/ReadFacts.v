(** A search whose reads are spread over time: what each read can answer is what some store holds. *)
From Verif Require Import Base Domain Lexer Parser Validate Store Search Explain Yaml Service Dump Api
  BaseFacts SpecGrammar ParserFacts SpecPolicy SpecStore SpecSearch ValidateFacts StoreFacts SearchFacts SearchSem SearchTerm.

(** ** Outcomes of a program whose operations are performed in given stores *)

Inductive outcome (S : store -> Prop) {A} : prog A -> A -> Prop :=
| oc_ret a : outcome S (Ret a) a
| oc_step p s p' s' a : S s -> step1 p s = Some (p', s') -> outcome S p' a -> outcome S p a.

Lemma outcome_mono {A} (S S' : store -> Prop) (p : prog A) a : (forall s, S s -> S' s) -> outcome S p a -> outcome S' p a.
Proof. intros H. induction 1; [constructor | econstructor; eauto]. Qed.

Lemma outcome_ret {A} S (x y : A) : outcome S (Ret x) y -> x = y.
Proof. intros H. inversion H as [| ? ? ? ? ? _ Hs]; subst; [reflexivity | discriminate]. Qed.

Lemma outcome_pbind {A B} S (p : prog A) : forall (f : A -> prog B) b,
  outcome S (pbind p f) b -> exists a, outcome S p a /\ outcome S (f a) b.
Proof.
  induction p as [a | id k IH | id k IH | id r k IH | id k IH | k IH | pid key k IH | pid key e k IH | pid key k IH | pid k IH
                 | key k IH | key d k IH | key k IH]; intros f b H; cbn [pbind] in H.
  1: { exists a. split; [constructor | exact H]. }
  all: inversion H as [| ? s p' s' ? Hs Hst Ho]; subst; cbn [step1] in Hst; injection Hst as <- <-;
    apply IH in Ho as (a & Ha & Hb); exists a; (split; [eapply oc_step; [exact Hs | reflexivity | exact Ha] | exact Hb]).
Qed.

Lemma outcome_rbind {A B} S (p : prog (res A)) (f : A -> prog (res B)) x : outcome S (rbind p f) x ->
  (exists a, outcome S p (Ok a) /\ outcome S (f a) x) \/
  (exists e, outcome S p (Err e) /\ x = Err e) \/ (outcome S p Panic /\ x = Panic) \/ (outcome S p Fuel /\ x = Fuel).
Proof.
  intros H. apply outcome_pbind in H as ([a | e | |] & Ha & Hb); [left; eauto | | |]; right; apply outcome_ret in Hb; subst; eauto.
Qed.

Lemma outcome_ok {A B} S (p : prog (res A)) (f : A -> prog (res B)) b : outcome S (rbind p f) (Ok b) ->
  exists a, outcome S p (Ok a) /\ outcome S (f a) (Ok b).
Proof. intros H. apply outcome_rbind in H as [H | [(e & _ & H) | [[_ H] | [_ H]]]]; [exact H | discriminate..]. Qed.

Lemma outcome_fuel {A B} S (p : prog (res A)) (f : A -> prog (res B)) : outcome S (rbind p f) Fuel ->
  outcome S p Fuel \/ exists a, outcome S p (Ok a) /\ outcome S (f a) Fuel.
Proof. intros H. apply outcome_rbind in H as [H | [(e & _ & H) | [[_ H] | [H _]]]]; auto; discriminate. Qed.

Lemma outcome_list {A} S pid (k : _ -> prog A) a : outcome S (EdgeList pid k) a ->
  exists s, S s /\ outcome S (k (edges_of pid s)) a.
Proof. intros H. inversion H as [| ? s p' s' ? Hs Hst Ho]; subst. injection Hst as <- <-. eauto. Qed.

Lemma outcome_get {A} S id (k : _ -> prog A) a : outcome S (PolGet id k) a ->
  exists s, S s /\ outcome S (k (kv_get scmp id (st_pol s))) a.
Proof. intros H. inversion H as [| ? s p' s' ? Hs Hst Ho]; subst. injection Hst as <- <-. eauto. Qed.

(** *** Requests in an interleaving *)

Lemma interleave_outcome : forall sched c i p a, nth_error (fst c) i = Some p -> answered (interleave sched c) i = Some a ->
  outcome (fun s => exists k, nth_error sched k = Some i /\ answered (interleave (firstn k sched) c) i = None /\
                              s = snd (interleave (firstn k sched) c)) p a.
Proof.
  intros sched. induction sched as [| j sched IH]; intros c i p a Hp Ha.
  - cbn in Ha. unfold answered in Ha. rewrite Hp in Ha. destruct p; try discriminate. injection Ha as ->. constructor.
  - change (interleave (j :: sched) c) with (interleave sched (advance c j)) in Ha.
    assert (Hlater : forall p', nth_error (fst (advance c j)) i = Some p' ->
              outcome (fun s => exists k, nth_error (j :: sched) k = Some i /\
                answered (interleave (firstn k (j :: sched)) c) i = None /\
                s = snd (interleave (firstn k (j :: sched)) c)) p' a).
    { intros p' Hp'. eapply outcome_mono; [| exact (IH _ _ _ _ Hp' Ha)].
      intros s (k & Hk & Hn & ->). exists (S k). repeat split; assumption. }
    destruct (Nat.eq_dec j i) as [-> | Hne].
    + unfold advance in Hlater. rewrite Hp in Hlater. destruct (step1 p (snd c)) as [[p' s'] |] eqn:Hs; [| auto].
      apply (oc_step _ p (snd c) p' s'); [| exact Hs |].
      * exists 0. split; [reflexivity |]. split; [| reflexivity]. cbn. unfold answered. rewrite Hp. destruct p; try reflexivity. discriminate.
      * apply Hlater. cbn [fst]. eapply replace_same. exact Hp.
    + apply Hlater. unfold advance. destruct (nth_error (fst c) j) as [q |]; [| exact Hp].
      destruct (step1 q (snd c)) as [[q' s'] |]; [| exact Hp]. cbn [fst]. rewrite replace_other; assumption.
Qed.

(** ** The decision of a search, as a relation *)

Section Decide.
  Variable E : env.
  Variable P : policy.
  Variable g : goal.
  (** The nodes that the evaluation of a rule can give. *)
  Variable ev : rule -> entity -> string -> list rnode -> Prop.

  Inductive rpath : rnode -> list string -> sresult -> list string -> Prop :=
  | rp_seen nd seen id : node_id E nd = Ok id -> In id seen -> rpath nd seen RUnknown seen
  | rp_found nd seen id : node_id E nd = Ok id -> ~ In id seen -> goal_found nd g = Ok true ->
      rpath nd seen RSuccess (id :: seen)
  | rp_terminal nd seen id : node_id E nd = Ok id -> ~ In id seen -> goal_found nd g = Ok false ->
      is_terminal nd = true -> rpath nd seen RFailure (id :: seen)
  | rp_expand e rel seen id t b seen' : node_id E (NSet (Some e) rel) = Ok id -> ~ In id seen ->
      goal_found (NSet (Some e) rel) g = Ok false -> node_tree E P e rel t -> whole t ->
      rtree t e rel (id :: seen) b seen' -> rpath (NSet (Some e) rel) seen (conditional b) seen'
  with rtree : tree -> entity -> string -> list string -> bool -> list string -> Prop :=
  | rt_rule r e rel ns seen b seen' : ev r e rel ns -> ror ns seen b seen' -> rtree (TRule r) e rel seen b seen'
  | rt_union_left l r e rel seen seen' : rtree l e rel seen true seen' -> rtree (TOp l OpUnion r) e rel seen true seen'
  | rt_union_right l r e rel seen seen1 b seen2 : rtree l e rel seen false seen1 -> rtree r e rel seen1 b seen2 ->
      rtree (TOp l OpUnion r) e rel seen b seen2
  | rt_inter_left l r e rel seen seen' : rtree l e rel seen false seen' -> rtree (TOp l OpInter r) e rel seen false seen'
  | rt_inter_right l r e rel seen seen1 b seen2 : rtree l e rel seen true seen1 -> rtree r e rel seen1 b seen2 ->
      rtree (TOp l OpInter r) e rel seen b seen2
  | rt_diff l r e rel seen b1 seen1 b2 seen2 : rtree l e rel seen b1 seen1 -> rtree r e rel seen1 b2 seen2 ->
      rtree (TOp l OpDiff r) e rel seen (b1 && negb b2) seen2
  with ror : list rnode -> list string -> bool -> list string -> Prop :=
  | ro_nil seen : ror [] seen false seen
  | ro_hit n ns seen seen' : rpath n seen RSuccess seen' -> ror (n :: ns) seen true seen'
  | ro_miss n ns seen x seen1 b seen2 : rpath n seen x seen1 -> x <> RSuccess -> ror ns seen1 b seen2 ->
      ror (n :: ns) seen b seen2.

  Scheme rpath_ind2 := Induction for rpath Sort Prop
  with rtree_ind2 := Induction for rtree Sort Prop
  with ror_ind2 := Induction for ror Sort Prop.
  Combined Scheme decide_ind from rpath_ind2, rtree_ind2, ror_ind2.

  Lemma node_tree_rewrites e rel t : node_tree E P e rel t -> whole t -> rewrites E P e rel t.
  Proof.
    intros (l & Hl & Hx) Hw. exists l. apply lut_relation_some in Hl as [Hl Hn].
    repeat split; auto. apply expression_get. split; assumption.
  Qed.

  Lemma decide_grows :
    (forall nd seen x seen', rpath nd seen x seen' -> incl seen seen' /\ (exists id, node_id E nd = Ok id /\ In id seen')) /\
    (forall t e rel seen b seen', rtree t e rel seen b seen' -> incl seen seen') /\
    (forall ns seen b seen', ror ns seen b seen' -> incl seen seen').
  Proof.
    apply decide_ind; try solve [intros; eapply incl_tran; eassumption | intros; auto using incl_refl].
    - intros. split; [apply incl_refl | eauto].
    - intros. split; [apply incl_tl, incl_refl |]. exists id. split; [auto | left; reflexivity].
    - intros. split; [apply incl_tl, incl_refl |]. exists id. split; [auto | left; reflexivity].
    - intros e rel seen id t b seen' Hid _ _ _ _ _ IH. split.
      + intros i Hi. apply IH. right. exact Hi.
      + exists id. split; [exact Hid |]. apply IH. left. reflexivity.
    - intros n ns seen seen' _ [H _]. exact H.
    - intros n ns seen x seen1 b seen2 _ [H _] _ _ H'. eapply incl_tran; eauto.
  Qed.

  (** *** What was found was there *)

  Section Sound.
    Variable succ : entity -> string -> subject -> Prop.
    Hypothesis Hev : forall r e rel ns n, ev r e rel ns -> In n ns -> yields succ r e rel n.
    Variable a : entity.
    Hypothesis Hg : g = GoalEntity (Some a).
    Variable M : entity -> string -> Prop.
    Hypothesis Hclosed : closed E P succ a M.
    Hypothesis Hnodiff : ~ policy_uses E P OpDiff.

    Lemma decide_sound :
      (forall nd seen x seen', rpath nd seen x seen' -> x = RSuccess -> node_in a M nd) /\
      (forall t e rel seen b seen', rtree t e rel seen b seen' -> ~ uses OpDiff t -> b = true -> eval succ a M e rel t) /\
      (forall ns seen b seen', ror ns seen b seen' -> b = true -> exists n, In n ns /\ node_in a M n).
    Proof.
      apply decide_ind; try discriminate.
      - intros nd seen id _ _ Hf _. rewrite Hg in Hf. apply goal_found_in. exact Hf.
      - intros e rel seen id t b seen' _ _ _ Ht Hw _ IH Hr. apply conditional_success in Hr.
        pose proof (node_tree_rewrites _ _ _ Ht Hw) as Hrw. cbn [node_in]. apply (Hclosed e rel t Hrw).
        apply IH; [| exact Hr]. intros Hu. apply Hnodiff. destruct Hrw as (l & Hl & _ & Hx). exists (e_res e), l, t. auto.
      - intros r e rel ns seen b seen' He _ IH _ Hb. destruct (IH Hb) as (n & Hin & Hn).
        pose proof (Hev _ _ _ _ _ He Hin) as Hy.
        destruct Hy as [o rel u Hu | o rel c | o rel ts cu u Hu]; cbn [eval].
        + exists u. split; [exact Hu |]. apply node_in_covers. exact Hn.
        + exact Hn.
        + destruct (subject_object u) as [o' |] eqn:Ho; [| contradiction Hn]. exists u, o'. auto.
      - intros l r e rel seen seen' _ IH Hu _. cbn [eval]. left. apply IH; [| reflexivity]. intros H. apply Hu, us_left, H.
      - intros l r e rel seen seen1 b seen2 _ _ _ IH Hu Hb. cbn [eval]. right. apply IH; [| exact Hb]. intros H. apply Hu, us_right, H.
      - intros l r e rel seen seen1 b seen2 _ IHl _ IH Hu Hb. cbn [eval]. split.
        + apply IHl; [| reflexivity]. intros H. apply Hu, us_left, H.
        + apply IH; [| exact Hb]. intros H. apply Hu, us_right, H.
      - intros l r e rel seen b1 seen1 b2 seen2 _ _ _ _ Hu. exfalso. apply Hu. constructor.
      - intros n ns seen seen' _ IH _. exists n. split; [left; reflexivity | auto].
      - intros n ns seen x seen1 b seen2 _ _ _ _ IH Hb. destruct (IH Hb) as (m & Hm & Hn).
        exists m. split; [right; exact Hm | exact Hn].
    Qed.
  End Sound.

  (** *** What was there all the time was found *)

  Section Complete.
    (** [lo] is there in every read, [hi] in some. *)
    Variable lo hi : entity -> string -> subject -> Prop.
    Hypothesis Hlo : forall r e rel ns n, ev r e rel ns -> yields lo r e rel n -> In n ns.
    Hypothesis Hhi : forall r e rel ns n, ev r e rel ns -> In n ns -> yields hi r e rel n.
    Hypothesis Huniq : unique_decls P.
    Hypothesis Hops : union_only E P.
    Variable origin : rnode.

    Definition walked (seen seen' : list string) : Prop :=
      forall id, In id seen' -> In id seen \/
        exists x, reach E P hi origin x /\ node_id E x = Ok id /\ goal_found x g = Ok false /\
          forall y, leads E P lo x y -> exists idy, node_id E y = Ok idy /\ In idy seen'.

    Lemma walked_refl seen : walked seen seen.
    Proof. intros id H. auto. Qed.

    Lemma walked_trans s1 s2 s3 : walked s1 s2 -> walked s2 s3 -> incl s2 s3 -> walked s1 s3.
    Proof.
      intros H12 H23 Hi id Hid. destruct (H23 id Hid) as [Hid2 | Hx]; [| auto].
      destruct (H12 id Hid2) as [| (x & H1 & H2 & H3 & H4)]; [auto |].
      right. exists x. repeat split; auto. intros y Hy. destruct (H4 y Hy) as (idy & Hidy & Hin). eauto.
    Qed.

    Lemma decide_complete :
      (forall nd seen x seen', rpath nd seen x seen' -> reach E P hi origin nd -> x <> RSuccess -> walked seen seen') /\
      (forall t e rel seen b seen', rtree t e rel seen b seen' -> (forall op, uses op t -> op = OpUnion) ->
        reach E P hi origin (NSet (Some e) rel) -> (forall ru n, occurs ru t -> yields hi ru e rel n -> reach E P hi origin n) ->
        b <> true -> walked seen seen' /\
        forall ru n, occurs ru t -> yields lo ru e rel n -> exists id, node_id E n = Ok id /\ In id seen') /\
      (forall ns seen b seen', ror ns seen b seen' -> (forall n, In n ns -> reach E P hi origin n) ->
        b <> true -> walked seen seen' /\ forall n, In n ns -> exists id, node_id E n = Ok id /\ In id seen').
    Proof.
      destruct decide_grows as (Gp & Gt & Go).
      apply decide_ind; try congruence.
      - intros. apply walked_refl.
      - intros nd seen id Hid Hn Hf Ht Hr _ i [<- | Hi]; [| auto].
        right. exists nd. repeat split; auto. intros y Hy. exfalso. destruct Hy. discriminate.
      - intros e rel seen id t b seen' Hid Hn Hf Ht Hw Hs IH Hr Hres.
        pose proof (node_tree_rewrites _ _ _ Ht Hw) as Hrw.
        destruct IH as [Hex Hts]; [| exact Hr | | intros ->; apply Hres; reflexivity |].
        + intros op Hop. apply Hops. destruct Hrw as (l & Hl & _ & Hx). exists (e_res e), l, t. auto.
        + intros ru n Ho Hy. eapply re_step; [exact Hr |]. econstructor; eauto.
        + intros i Hi. destruct (Hex i Hi) as [[<- |] | Hx]; [| auto | auto].
          right. exists (NSet (Some e) rel). repeat split; auto. intros y Hy.
          inversion Hy as [o' rel' t' ru n Hw' Ho Hyl]; subst.
          assert (t' = t) as -> by (eapply rewrites_unique; eauto). eapply Hts; eauto.
      - intros r e rel ns seen b seen' He Hs IH Hu _ Hr Hres.
        destruct IH as [Hex Hns]; [| exact Hres |].
        + intros n Hin. apply (Hr r n); [constructor |]. eapply Hhi; eauto.
        + split; [exact Hex |]. intros ru n Ho Hy. inversion Ho; subst. apply Hns. eapply Hlo; eauto.
      - intros l r e rel seen seen1 b seen2 Hl IHl Hs IHr Hu He Hr Hres.
        destruct IHl as [Hex1 Hts1]; [intros op H; apply Hu, us_left, H | exact He |
          intros ru n Ho Hy; eapply Hr; [apply occ_left; exact Ho | exact Hy] | congruence |].
        destruct IHr as [Hex2 Hts2]; [intros op H; apply Hu, us_right, H | exact He |
          intros ru n Ho Hy; eapply Hr; [apply occ_right; exact Ho | exact Hy] | exact Hres |].
        pose proof (Gt _ _ _ _ _ _ Hs) as Hi. split; [eapply walked_trans; eauto |].
        intros ru n Ho Hy. inversion Ho; subst.
        + destruct (Hts1 ru n) as (id & Hid & Hin); auto. exists id. auto.
        + eapply Hts2; eauto.
      - intros l r e rel seen seen' Hl IHl Hu. specialize (Hu OpInter (us_here _ _ _)). discriminate.
      - intros l r e rel seen seen1 b seen2 Hl IHl Hs IHr Hu. specialize (Hu OpInter (us_here _ _ _)). discriminate.
      - intros l r e rel seen b1 seen1 b2 seen2 Hl IHl Hs IHr Hu. specialize (Hu OpDiff (us_here _ _ _)). discriminate.
      - intros seen _ _. split; [apply walked_refl | intros n []].
      - intros n ns seen x seen1 b seen2 Hx IHx Hres Hs IHs Hr Hb.
        assert (Hex1 : walked seen seen1) by (apply IHx; [apply Hr; left; reflexivity | exact Hres]).
        destruct IHs as [Hex2 Hns]; [intros m Hm; apply Hr; right; exact Hm | exact Hb |].
        pose proof (Go _ _ _ _ Hs) as Hi. split; [eapply walked_trans; eauto |].
        intros m [<- | Hm]; [| auto].
        destruct (Gp _ _ _ _ Hx) as [_ (id & Hid & Hin)]. exists id. auto.
    Qed.
  End Complete.
End Decide.

Theorem decide_complete_member E P (ev : rule -> entity -> string -> list rnode -> Prop) lo hi a o rel x seen' :
  (forall r e rel ns n, ev r e rel ns -> yields lo r e rel n -> In n ns) ->
  (forall r e rel ns n, ev r e rel ns -> In n ns -> yields hi r e rel n) ->
  (forall o rel u, lo o rel u -> hi o rel u) ->
  unique_decls P -> union_only E P -> distinct_ids E P hi (NSet (Some o) rel) ->
  rpath E P (GoalEntity (Some a)) ev (NSet (Some o) rel) [] x seen' -> x <> RSuccess -> ~ member E P lo a o rel.
Proof.
  intros Hlo Hhi Hlh Hu Hun Hd Hs Hres Hm. set (origin := NSet (Some o) rel) in *.
  pose proof (proj1 (decide_complete E P (GoalEntity (Some a)) ev lo hi Hlo Hhi Hu Hun origin) _ _ _ _ Hs (re_here _ _ _ _) Hres) as Hex.
  destruct (proj1 (decide_grows E P (GoalEntity (Some a)) ev) _ _ _ _ Hs) as [_ (id0 & Hid0 & Hin0)].
  set (V := fun n => reach E P hi origin n /\ exists id, node_id E n = Ok id /\ In id seen').
  assert (HV : forall n, V n -> goal_found n (GoalEntity (Some a)) = Ok false /\
                 forall y, leads E P lo n y -> V y).
  { intros n [Hr (id & Hid & Hin)]. destruct (Hex id Hin) as [[] | (m & Hrm & Hidm & Hg & Hl)].
    assert (n = m) as <-. { apply Hd; auto. apply node_id_text in Hid, Hidm. congruence. }
    split; [exact Hg |]. intros y Hy. split; [| auto]. eapply re_step; [exact Hr |].
    destruct Hy as [o' rel' t ru n' Hw Ho Hy]. econstructor; [exact Hw | exact Ho |]. destruct Hy; constructor; auto. }
  apply (Hm (fun o rel => ~ V (NSet (Some o) rel))).
  2:{ split; [apply re_here | eauto]. }
  intros o' rel' t Hw Hev Hv. destruct (HV _ Hv) as [_ Hl].
  assert (Hy : forall ru n, occurs ru t -> yields lo ru o' rel' n -> V n).
  { intros ru n Ho Hy. apply Hl. econstructor; eauto. }
  assert (Huses : forall op, uses op t -> op = OpUnion).
  { intros op Hop. apply Hun. destruct Hw as (l & Hrl & _ & Hx). exists (e_res o'), l, t. auto. }
  clear Hw Hl. revert Hev Hy Huses. induction t as [| | r | l IHl op r IHr]; intros Hev Hy Huses; try contradiction.
  - destruct r as [| c | ts cu |]; cbn in Hev.
    + destruct Hev as (u & Hu' & Hc). assert (Hvu : V (subject_node u)) by (apply (Hy RThis); constructor; exact Hu').
      destruct u as [e | [e |] r' | rs |]; cbn in Hc, Hvu; try contradiction.
      * subst e. destruct (HV _ Hvu) as [Hf _]. cbn in Hf. rewrite !String.eqb_refl in Hf. discriminate.
      * subst rs. destruct (HV _ Hvu) as [Hf _]. cbn in Hf. rewrite String.eqb_refl in Hf. discriminate.
    + apply Hev. apply (Hy (RCu c)); constructor.
    + destruct Hev as (u & o2 & Hu' & Ho2 & Hn). apply Hn. rewrite <- Ho2. apply (Hy (RTtu ts cu)); constructor. exact Hu'.
    + contradiction.
  - assert (op = OpUnion) as -> by (apply Huses; constructor). cbn in Hev. destruct Hev as [Hev | Hev].
    + apply IHl; [exact Hev | | intros; apply Huses, us_left; assumption].
      intros ru n Ho. apply (Hy ru n). apply occ_left. exact Ho.
    + apply IHr; [exact Hev | | intros; apply Huses, us_right; assumption].
      intros ru n Ho. apply (Hy ru n). apply occ_right. exact Ho.
Qed.

(** ** From programs to the relation *)

Section Outcome.
  Variable E : env.
  Variable P : policy.
  Variable pid : string.
  Variable g : goal.
  Variable S : store -> Prop.

  Definition evaluated_as (r : rule) (e : entity) (rel : string) (ns : list rnode) : Prop :=
    outcome S (evaluate_prog E pid r (Some e) rel) (Ok ns).

  Notation rpath := (rpath E P g evaluated_as).
  Notation rtree := (rtree E P g evaluated_as).
  Notation ror := (ror E P g evaluated_as).

  Lemma or_loop_decides sp why : (forall nd why' seen0 x seen1, outcome S (sp nd why' seen0) (Ok (x, seen1)) ->
      rpath nd seen0 (get_result x) seen1) ->
    forall ns seen b ps seen',
    outcome S (or_loop_prog (search_tree_prog sp) (map (fun n => GPath RUnknown n None why) ns) seen) (Ok (b, ps, seen')) ->
    ror ns seen b seen'.
  Proof.
    intros Hsp ns. induction ns as [| n ns IH]; intros seen b ps seen' H; cbn in H.
    - apply outcome_ret in H. injection H as <- <- <-. constructor.
    - apply outcome_ok in H as ([x seen1] & Hx & H). apply Hsp in Hx. cbn [fst snd] in H.
      destruct (is_success (get_result x)) eqn:Hr.
      + apply outcome_ret in H. injection H as <- _ <-. apply is_success_iff in Hr. rewrite Hr in Hx. apply ro_hit. exact Hx.
      + fold (or_loop_prog (search_tree_prog sp)) in H. apply outcome_ok in H as ([[b' qs] seen2] & Hl & H).
        apply outcome_ret in H. injection H as <- _ <-. eapply ro_miss; [exact Hx | | eapply IH; exact Hl].
        intros Hs. apply is_success_iff in Hs. congruence.
  Qed.

  Lemma build_whole_prog e rel : forall t gt, outcome S (build_goal_tree_prog E pid t (Some e) rel) (Ok gt) -> whole t.
  Proof.
    intros t. induction t as [| | r | l IHl op r IHr]; intros gt H; cbn [build_goal_tree_prog] in H;
      try (apply outcome_ret in H; discriminate); [constructor |].
    apply outcome_ok in H as (a & Ha & H). apply outcome_ok in H as (b & Hb & H). constructor; eauto.
  Qed.

  Lemma search_tree_decides sp : (forall nd why seen x seen', outcome S (sp nd why seen) (Ok (x, seen')) ->
      rpath nd seen (get_result x) seen') ->
    forall t e rel gt seen x seen', outcome S (build_goal_tree_prog E pid t (Some e) rel) (Ok gt) ->
      outcome S (search_tree_prog sp gt seen) (Ok (x, seen')) ->
      exists b, get_result x = conditional b /\ rtree t e rel seen b seen'.
  Proof.
    intros Hsp t. induction t as [| | r | l IHl op r IHr]; intros e rel gt seen x seen' Hb Hs; cbn [build_goal_tree_prog] in Hb;
      try (apply outcome_ret in Hb; discriminate).
    - apply outcome_ok in Hb as (ns & He & Hb). apply outcome_ret in Hb. injection Hb as <-.
      cbn [search_tree_prog] in Hs. apply outcome_ok in Hs as ([[b ps] seen1] & Hl & Hs).
      apply outcome_ret in Hs. injection Hs as <- <-. exists b. split; [reflexivity |].
      eapply rt_rule; [exact He |]. eapply or_loop_decides; eauto.
    - apply outcome_ok in Hb as (ga & Ha & Hb). apply outcome_ok in Hb as (gb & Hbr & Hb). apply outcome_ret in Hb.
      destruct op; try discriminate; injection Hb as <-.
      + cbn [search_tree_prog or_loop_prog] in Hs. apply outcome_ok in Hs as ([[b ps] seen1] & Hl & Hs).
        apply outcome_ret in Hs. injection Hs as <- <-. exists b. split; [reflexivity |].
        apply outcome_ok in Hl as ([y s1] & Hy & Hl). cbn [fst snd] in Hl.
        destruct (IHl _ _ _ _ _ _ Ha Hy) as (b1 & Hb1 & Ht1). rewrite Hb1 in Hl. destruct b1; cbn [conditional is_success] in Hl.
        * apply outcome_ret in Hl. injection Hl as <- _ <-. apply rt_union_left. exact Ht1.
        * apply outcome_ok in Hl as ([[b' qs] s2] & Hl & Hr). apply outcome_ret in Hr. injection Hr as <- _ <-.
          apply outcome_ok in Hl as ([z s3] & Hz & Hl). cbn [fst snd] in Hl.
          destruct (IHr _ _ _ _ _ _ Hbr Hz) as (b2 & Hb2 & Ht2). rewrite Hb2 in Hl.
          eapply rt_union_right; [exact Ht1 |]. destruct b2; cbn [conditional is_success] in Hl.
          -- apply outcome_ret in Hl. injection Hl as <- _ <-. exact Ht2.
          -- apply outcome_ok in Hl as ([[b3 qs3] s4] & Hl & Hr). apply outcome_ret in Hl. injection Hl as <- <- <-.
             apply outcome_ret in Hr. injection Hr as <- _ <-. exact Ht2.
      + cbn [search_tree_prog and_loop_prog] in Hs. apply outcome_ok in Hs as ([[b ps] seen1] & Hl & Hs).
        apply outcome_ret in Hs. injection Hs as <- <-. exists b. split; [reflexivity |].
        apply outcome_ok in Hl as ([y s1] & Hy & Hl). cbn [fst snd] in Hl.
        destruct (IHl _ _ _ _ _ _ Ha Hy) as (b1 & Hb1 & Ht1). rewrite Hb1 in Hl. destruct b1; cbn [conditional is_failure] in Hl.
        * apply outcome_ok in Hl as ([[b' qs] s2] & Hl & Hr). apply outcome_ret in Hr. injection Hr as <- _ <-.
          apply outcome_ok in Hl as ([z s3] & Hz & Hl). cbn [fst snd] in Hl.
          destruct (IHr _ _ _ _ _ _ Hbr Hz) as (b2 & Hb2 & Ht2). rewrite Hb2 in Hl.
          eapply rt_inter_right; [exact Ht1 |]. destruct b2; cbn [conditional is_failure] in Hl.
          -- apply outcome_ok in Hl as ([[b3 qs3] s4] & Hl & Hr). apply outcome_ret in Hl. injection Hl as <- <- <-.
             apply outcome_ret in Hr. injection Hr as <- _ <-. exact Ht2.
          -- apply outcome_ret in Hl. injection Hl as <- _ <-. exact Ht2.
        * apply outcome_ret in Hl. injection Hl as <- _ <-. apply rt_inter_left. exact Ht1.
      + cbn [search_tree_prog] in Hs. apply outcome_ok in Hs as ([y s1] & Hy & Hs). apply outcome_ok in Hs as ([z s2] & Hz & Hs).
        apply outcome_ret in Hs. cbn [fst snd] in *. injection Hs as <- <-.
        destruct (IHl _ _ _ _ _ _ Ha Hy) as (b1 & Hb1 & Ht1). destruct (IHr _ _ _ _ _ _ Hbr Hz) as (b2 & Hb2 & Ht2).
        exists (b1 && negb b2). split; [| eapply rt_diff; eauto]. cbn [get_result]. rewrite Hb1, Hb2. destruct b1, b2; reflexivity.
  Qed.

  Lemma search_path_decides : forall n nd why seen x seen',
    outcome S (search_path_prog E P pid g n nd why seen) (Ok (x, seen')) -> rpath nd seen (get_result x) seen'.
  Proof.
    intros n. induction n as [| n IH]; intros nd why seen x seen' H; cbn [search_path_prog] in H;
      [apply outcome_ret in H; discriminate |].
    apply outcome_ok in H as (id & Hid & H). apply outcome_ret in Hid.
    destruct (existsb (String.eqb id) seen) eqn:Hs.
    - apply outcome_ret in H. injection H as <- <-. apply existsb_in in Hs. econstructor; eauto.
    - apply existsb_not_in in Hs. apply outcome_ok in H as (found & Hf & H). apply outcome_ret in Hf.
      destruct found; [apply outcome_ret in H; injection H as <- <-; eapply rp_found; eauto |]. cbn [orb] in H.
      destruct (is_terminal nd) eqn:Ht; [apply outcome_ret in H; injection H as <- <-; eapply rp_terminal; eauto |].
      destruct nd as [[e |] rel | | |]; try discriminate.
      apply outcome_ok in H as (gt & Hb & H). apply outcome_ok in H as ([y seen1] & Hy & H). apply outcome_ret in H.
      cbn [fst snd] in H. injection H as <- <-. cbn [build_prog] in Hb.
      destruct (lut_get_relation P (e_res e) rel) as [l |] eqn:Hl; [| apply outcome_ret in Hb; discriminate].
      apply outcome_ok in Hb as (t & Hx & Hb). apply outcome_ret in Hx.
      destruct (search_tree_decides _ IH _ _ _ _ _ _ _ Hb Hy) as (b & Hbr & Htr). cbn [get_result]. rewrite Hbr.
      eapply rp_expand; eauto; [exists l; eauto | eapply build_whole_prog; eauto].
  Qed.

  (** *** Termination *)

  Variable Q : rnode -> Prop.
  Variable U : list string.
  Hypothesis HU : forall nd id, Q nd -> node_id E nd = Ok id -> In id U.
  Hypothesis HQ : forall nd t, Q nd -> outcome S (build_prog E P pid nd) (Ok t) -> paths_in Q t.

  Lemma build_no_fuel_prog nd : ~ outcome S (build_prog E P pid nd) Fuel.
  Proof.
    assert (He : forall r o rel, ~ outcome S (evaluate_prog E pid r o rel) Fuel).
    { intros r o rel H. destruct r as [| c | ts cu |]; cbn [evaluate_prog] in H; try (apply outcome_ret in H; discriminate).
      - apply outcome_list in H as (s & _ & H). apply outcome_ret in H. destruct o; discriminate.
      - apply outcome_fuel in H as [H | (ns & _ & H)].
        + apply outcome_list in H as (s & _ & H). apply outcome_ret in H. destruct o; discriminate.
        + apply outcome_ret in H. revert H. induction ns as [| n ns IH]; cbn; [discriminate |].
          destruct n; cbn; try discriminate; destruct (map_res (build_ttu_node cu) ns); cbn; congruence. }
    assert (Ht : forall t o rel, ~ outcome S (build_goal_tree_prog E pid t o rel) Fuel).
    { intros t o rel. induction t as [| | r | l IHl op r IHr]; intros H; cbn [build_goal_tree_prog] in H;
        try (apply outcome_ret in H; discriminate).
      - apply outcome_fuel in H as [H | (ns & _ & H)]; [exact (He _ _ _ H) |]. apply outcome_ret in H. discriminate.
      - apply outcome_fuel in H as [H | (a & _ & H)]; [exact (IHl H) |].
        apply outcome_fuel in H as [H | (b & _ & H)]; [exact (IHr H) |]. apply outcome_ret in H. destruct op; discriminate. }
    intros H. destruct nd as [[e |] rel | | |]; cbn [build_prog] in H; try (apply outcome_ret in H; discriminate).
    destruct (lut_get_relation P (e_res e) rel) as [l |]; [| apply outcome_ret in H; discriminate].
    apply outcome_fuel in H as [H | (t & _ & H)]; [| exact (Ht _ _ _ H)]. apply outcome_ret in H.
    unfold get_expression_tree in H. destruct (rl_expr l) as [[x | t |] |]; try discriminate.
    destruct (parse_returns E x) as [[t Hp] | [Hp | [x' Hp]]]; rewrite Hp in H; discriminate.
  Qed.

  Definition grows_prog (sp : rnode -> string -> list string -> prog (res (gtree * list string))) : Prop :=
    forall nd why seen x, outcome S (sp nd why seen) (Ok x) -> incl seen (snd x).

  Lemma search_path_grows_prog n : grows_prog (search_path_prog E P pid g n).
  Proof.
    intros nd why seen [x seen'] H. apply search_path_decides in H.
    apply (proj1 (decide_grows E P g evaluated_as)) in H. apply H.
  Qed.

  Lemma search_tree_grows_prog sp : grows_prog sp ->
    forall t seen x, outcome S (search_tree_prog sp t seen) (Ok x) -> incl seen (snd x).
  Proof.
    intros Hg t. induction t as [r ps IH | r ps IH | r x y IHx IHy | r n t why IH] using gtree_ind2; intros seen z H; cbn [search_tree_prog] in H.
    - apply outcome_ok in H as ([[b qs] seen'] & Hl & H). apply outcome_ret in H. injection H as <-. cbn [snd].
      revert seen b qs seen' Hl. induction IH as [| p ps Hp _ IH]; intros seen b qs seen' Hl; cbn in Hl.
      + apply outcome_ret in Hl. injection Hl as _ _ <-. apply incl_refl.
      + apply outcome_ok in Hl as ([x seen1] & Hx & Hl). apply Hp in Hx. cbn [fst snd] in *.
        destruct (is_success (get_result x)); [apply outcome_ret in Hl; injection Hl as _ _ <-; exact Hx |].
        apply outcome_ok in Hl as ([[b' qs'] seen2] & Hl & H). apply outcome_ret in H. injection H as _ _ <-.
        eapply incl_tran; [exact Hx | eapply IH; exact Hl].
    - apply outcome_ok in H as ([[b qs] seen'] & Hl & H). apply outcome_ret in H. injection H as <-. cbn [snd].
      revert seen b qs seen' Hl. induction IH as [| p ps Hp _ IH]; intros seen b qs seen' Hl; cbn in Hl.
      + apply outcome_ret in Hl. injection Hl as _ _ <-. apply incl_refl.
      + apply outcome_ok in Hl as ([x seen1] & Hx & Hl). apply Hp in Hx. cbn [fst snd] in *.
        destruct (is_failure (get_result x)); [apply outcome_ret in Hl; injection Hl as _ _ <-; exact Hx |].
        apply outcome_ok in Hl as ([[b' qs'] seen2] & Hl & H). apply outcome_ret in H. injection H as _ _ <-.
        eapply incl_tran; [exact Hx | eapply IH; exact Hl].
    - apply outcome_ok in H as (x' & Hx & H). apply outcome_ok in H as (y' & Hy & H). apply outcome_ret in H. injection H as <-.
      apply IHx in Hx. apply IHy in Hy. cbn [snd]. eapply incl_tran; eauto.
    - eapply Hg; eauto.
  Qed.

  Lemma search_tree_fuel_prog sp : grows_prog sp -> forall t seen, paths_in Q t ->
    (forall nd why seen', Q nd -> incl seen seen' -> ~ outcome S (sp nd why seen') Fuel) ->
    ~ outcome S (search_tree_prog sp t seen) Fuel.
  Proof.
    intros Hg t. induction t as [r ps IH | r ps IH | r x y IHx IHy | r n t why IH] using gtree_ind2; intros seen Hq Hsp H; cbn [search_tree_prog] in H.
    - cbn in Hq. apply paths_in_all in Hq. apply outcome_fuel in H as [H | ([[b qs] s] & _ & H)]; [| apply outcome_ret in H; discriminate].
      revert seen Hsp H. induction IH as [| p ps Hp _ IH]; intros seen Hsp H; cbn in H; [apply outcome_ret in H; discriminate |].
      inversion Hq; subst. apply outcome_fuel in H as [H | ([x seen1] & Hx & H)]; [eapply Hp; eauto |].
      cbn [fst snd] in H. destruct (is_success (get_result x)); [apply outcome_ret in H; discriminate |].
      apply (search_tree_grows_prog _ Hg) in Hx. cbn [snd] in Hx.
      apply outcome_fuel in H as [H | ([[b qs] s] & _ & H)]; [| apply outcome_ret in H; discriminate].
      eapply (IH H3 seen1); [| exact H]. intros nd why s Hn Hi. apply Hsp; [exact Hn | eapply incl_tran; eauto].
    - cbn in Hq. apply paths_in_all in Hq. apply outcome_fuel in H as [H | ([[b qs] s] & _ & H)]; [| apply outcome_ret in H; discriminate].
      revert seen Hsp H. induction IH as [| p ps Hp _ IH]; intros seen Hsp H; cbn in H; [apply outcome_ret in H; discriminate |].
      inversion Hq; subst. apply outcome_fuel in H as [H | ([x seen1] & Hx & H)]; [eapply Hp; eauto |].
      cbn [fst snd] in H. destruct (is_failure (get_result x)); [apply outcome_ret in H; discriminate |].
      apply (search_tree_grows_prog _ Hg) in Hx. cbn [snd] in Hx.
      apply outcome_fuel in H as [H | ([[b qs] s] & _ & H)]; [| apply outcome_ret in H; discriminate].
      eapply (IH H3 seen1); [| exact H]. intros nd why s Hn Hi. apply Hsp; [exact Hn | eapply incl_tran; eauto].
    - destruct Hq as [Hqx Hqy]. apply outcome_fuel in H as [H | ([x' seen1] & Hx & H)]; [exact (IHx seen Hqx Hsp H) |].
      apply (search_tree_grows_prog _ Hg) in Hx. cbn [snd] in *.
      apply outcome_fuel in H as [H | (y' & _ & H)]; [| apply outcome_ret in H; discriminate].
      eapply (IHy seen1 Hqy); [| exact H]. intros nd why s Hn Hi. apply Hsp; [exact Hn | eapply incl_tran; eauto].
    - cbn in Hq. eapply Hsp; [exact Hq | apply incl_refl | exact H].
  Qed.

  Lemma search_path_fuel_prog : forall n nd why seen, Q nd -> unseen U seen < n ->
    ~ outcome S (search_path_prog E P pid g n nd why seen) Fuel.
  Proof.
    intros n. induction n as [| n IH]; intros nd why seen Hq Hn H; [lia |]. cbn [search_path_prog] in H.
    apply outcome_fuel in H as [H | (id & Hid & H)].
    { apply outcome_ret in H. destruct nd as [[] | [] | |]; discriminate. }
    apply outcome_ret in Hid. destruct (existsb (String.eqb id) seen) eqn:Hs; [apply outcome_ret in H; discriminate |].
    apply existsb_not_in in Hs. apply outcome_fuel in H as [H | (f & Hf & H)].
    { apply outcome_ret in H. destruct nd as [| [] | |], g as [| []]; discriminate. }
    destruct (f || is_terminal nd); [apply outcome_ret in H; discriminate |].
    apply outcome_fuel in H as [H | (t & Hb & H)]; [exact (build_no_fuel_prog _ H) |].
    apply outcome_fuel in H as [H | (x & _ & H)]; [| apply outcome_ret in H; discriminate].
    revert H. apply search_tree_fuel_prog; [apply search_path_grows_prog | eapply HQ; eauto |].
    intros nd' why' seen' Hq' Hi. apply IH; [exact Hq' |].
    apply (unseen_incl U) in Hi. pose proof (unseen_cons U id seen (HU _ _ Hq Hid) Hs). lia.
  Qed.
End Outcome.
