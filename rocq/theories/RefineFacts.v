(** Facts for the refinement: clients that keep to the rules keep the store in order, and in such stores every request
    is answered as by the service without storage. *)
From Verif Require Import Base Domain Lexer Parser Validate Store Search Explain Yaml Service Dump Api
  SpecGrammar SpecPolicy SpecStore SpecSearch SpecDump SpecSafe SpecErrors SpecAccount SpecExpand
  BaseFacts ParserFacts ValidateFacts StoreFacts PolicyFacts RelFacts
  SearchFacts SearchSem SearchTerm SearchExplain GraphFacts NameFacts ErrorFacts AccountFacts
  PropsStore PropsSearch PropsExplain PropsAccount PropsExpand PropsDump PropsStale PropsErrors SpecRefine.

(** ** Tidy relationships *)

Lemma tidy_complete R pid r : tidy_relationship R pid r -> complete_relationship r.
Proof.
  intros [_ (o & u & Ho & Hu & _ & Ht) _]. unfold complete_relationship. rewrite Ho, Hu. repeat split; try discriminate.
  intros rel [= ->]. exact Ht.
Qed.

Lemma lacks_empty c : lacks c "".
Proof. exact Logic.I. Qed.

Lemma delimited_marked c x : delimited c x -> ~ lacks c x.
Proof. intros [-> | [m ->]] [H _]; apply H; reflexivity. Qed.

Lemma delimited_nonempty c x : delimited c x -> x <> "".
Proof. intros [-> | [m ->]]; discriminate. Qed.

(** The text of a subject, as resource, id and relation. *)
Lemma tidy_subject_text R rel rel' o o' r r' u u' : tidy_subject R rel u -> tidy_subject R rel' u' ->
  subject_text (mkRel o r (Some u)) = subject_text (mkRel o' r' (Some u')) -> u = u'.
Proof.
  assert (Hsep : forall x y z w, lacks (mark R) w -> delimited (mark R) y -> x +++ y +++ z <> w).
  { intros x y z w Hw Hy <-. apply lacks_append in Hw as [_ Hw]. apply lacks_append in Hw as [Hw _]. exact (delimited_marked _ _ Hy Hw). }
  assert (Hone : forall a b a' b', lacks (mark R) a -> lacks (mark R) a' -> delimited (mark R) b -> delimited (mark R) b' ->
            a +++ b = a' +++ b' -> a = a' /\ b = b').
  { intros a b a' b' Ha Ha' Hb Hb' H. apply (f_equal (fun x => x +++ "")) in H. rewrite !append_assoc in H.
    apply (delimited_text (mark R)) in H as (H1 & H2 & _); auto; apply lacks_empty. }
  unfold subject_text. cbn [r_subject].
  destruct u as [[er ei] | [[er ei] |] l | rs |], u' as [[er' ei'] | [[er' ei'] |] l' | rs' |]; cbn [tidy_subject tidy_entity e_res e_id];
    unfold tidy_entity, tidy_name; cbn [e_res e_id]; intros H H'; try contradiction; intros Hq.
  - destruct (Hone er ei er' ei') as [-> ->]; tauto.
  - exfalso. apply (f_equal (fun x => x +++ "")) in Hq. rewrite !append_assoc in Hq.
    apply (delimited_text (mark R)) in Hq as (_ & _ & Hq); try tauto; [| apply lacks_empty |].
    + destruct l' as [| c l']; [tauto |]. cbn in Hq. discriminate.
    + destruct H' as [_ [[H' _] _]]. apply lacks_append. split; [exact H' | exact Logic.I].
  - exfalso. apply (Hsep er ei "" rs'); try tauto. rewrite <- Hq, <- !append_assoc.
    generalize (er +++ ei). intros x. clear. induction x as [| c x IH]; cbn; [reflexivity | f_equal; exact IH].
  - exfalso. apply (f_equal (fun x => x +++ "")) in Hq. rewrite !append_assoc in Hq.
    apply (delimited_text (mark R)) in Hq as (_ & _ & Hq); try tauto; [| | apply lacks_empty].
    + destruct l as [| c l]; [tauto |]. cbn in Hq. discriminate.
    + destruct H as [_ [[H _] _]]. apply lacks_append. split; [exact H | exact Logic.I].
  - apply (delimited_text (mark R)) in Hq as (-> & -> & ->); tauto.
  - exfalso. apply (Hsep er ei l rs'); tauto.
  - exfalso. apply (Hsep er' ei' "" rs); try tauto. rewrite Hq, <- !append_assoc.
    generalize (er' +++ ei'). intros x. clear. induction x as [| c x IH]; cbn; [reflexivity | f_equal; exact IH].
  - exfalso. apply (Hsep er' ei' l' rs); [tauto | tauto | symmetry; exact Hq].
  - congruence.
Qed.

Lemma tidy_inj E R pid pid' r r' : collision_free E -> tidy_relationship R pid r -> tidy_relationship R pid' r' ->
  complete_relationship r -> complete_relationship r' -> rel_key E r = rel_key E r' -> pid = pid' /\ r = r'.
Proof.
  intros Hc H H' Hr Hr' Hk. apply (same_key_iff E r r' Hr Hr') in Hk as [H1 H2]. apply Hc in H1, H2.
  assert (r = r') as <-.
  { destruct H as [_ (o & u & Ho & Hu & To & Tu) [[Tr _] _]], H' as [_ (o' & u' & Ho' & Hu' & To' & Tu') [[Tr' _] _]].
    destruct r as [ro rl rs], r' as [ro' rl' rs']. cbn [r_object r_subject r_relation] in *. subst ro rs ro' rs'.
    pose proof (tidy_subject_text R _ _ _ _ _ _ _ _ Tu Tu' H2) as ->.
    cbn in H1. destruct To as [[To1 _] [To2 _]], To' as [[To1' _] [To2' _]].
    apply (delimited_text (mark R)) in H1 as (Q1 & Q2 & Q3); auto. destruct o, o'. cbn in *. congruence. }
  split; [| reflexivity]. rewrite <- (tr_home _ _ _ H). apply (tr_home _ _ _ H').
Qed.

(** ** Tidy nodes *)

Definition tidy_node (R : rules) (n : rnode) : Prop :=
  match n with
  | NSet (Some o) rel => tidy_entity R o /\ tidy_name R rel /\ rel <> ""
  | NEntity (Some o) => tidy_entity R o
  | NWild rs => tidy_name R rs
  | NSet None _ | NEntity None | NUnset => False
  end.

Lemma tidy_plain R n : tidy_node R n -> plain_node n.
Proof.
  destruct n as [[o |] rel | [o |] | rs |]; cbn; unfold tidy_entity, tidy_name; try tauto.
  intros (H1 & H2 & H3). pose proof (delimited_nonempty _ _ H2). tauto.
Qed.

(** ** Searches over tidy relationships *)

Section Graph.
  Variable E : env.
  Variable R : rules.
  Variable s : store.
  Variable pid : string.
  Variable rec : policy_record.
  Hypothesis Hfree : collision_free E.
  Hypothesis Hok : store_ok E s.
  Hypothesis Hp : policies s pid = Some rec.
  Hypothesis Htp : tidy_policy E R (pr_policy rec).
  Hypothesis Hrel : forall r, In r (relationships s pid) -> tidy_relationship R pid r.
  Hypothesis Hadm : forall r, In r (relationships s pid) -> admissible (pr_policy rec) r.

  Notation P := (pr_policy rec).
  Notation stored := (stored_subject (relationships s pid)).
  Notation keyed := (key_subject E (relationships s pid)).

  Lemma stored_wf : well_formed E P.
  Proof. eapply so_policy; eauto. Qed.

  Lemma stored_tidy o rel u : stored o rel u -> tidy_entity R o /\ tidy_subject R rel u /\ tidy_name R rel /\ rel <> "".
  Proof.
    intros H. destruct (Hrel _ H) as [_ (o' & u' & Ho & Hu & To & Tu) [Tr Tn]]. cbn in *.
    injection Ho as <-. injection Hu as <-. auto.
  Qed.

  Lemma stored_delimited : delimited_ids (mark R) P (relationships s pid).
  Proof.
    split.
    - intros rs H. exact (proj1 (tp_resources _ _ _ Htp rs H)).
    - intros rs rl H. exact (proj1 (proj1 (tp_relations _ _ _ Htp rs rl H))).
    - intros r o Hin Ho. destruct (Hrel _ Hin) as [_ (o' & u' & Ho' & Hu & To & Tu) [Tr Tn]].
      rewrite Ho in Ho'. injection Ho' as <-. destruct To as [[? _] [? _]], Tr as [? _]. auto.
    - intros r u o Hin Hu Ho. destruct (Hrel _ Hin) as [_ (o' & u' & Ho' & Hu' & To & Tu) _].
      rewrite Hu in Hu'. injection Hu' as <-.
      destruct u as [e | [e |] l | rs |]; cbn in Ho; try discriminate; injection Ho as <-; unfold tidy_subject, tidy_entity in Tu; tauto.
  Qed.

  Lemma stored_ttu o rel t ts cu u : rewrites E P o rel t -> occurs (RTtu ts cu) t -> stored o ts u ->
    exists o', subject_object u = Some o' /\ declares P (e_res o') cu.
  Proof.
    intros Hw Ho Hu. destruct (Hadm _ Hu) as (o2 & u2 & l2 & Ho2 & Hu2 & Hl2 & Hn2 & _ & Hadmits). cbn in Ho2, Hu2, Hn2.
    injection Ho2 as <-. injection Hu2 as <-. destruct Hw as (l & Hl & Hn & Hx).
    destruct (tp_objects _ _ _ Htp _ l l2 t ts cu Hl Hx Ho Hl2 Hn2) as (xs & Hxs & Hall). rewrite Hxs in Hadmits.
    destruct u as [e | [e |] rel' | rs' |]; cbn in Hadmits; try contradiction.
    - exists e. split; [reflexivity |]. exact (Hall _ Hadmits).
    - exists e. split; [reflexivity |]. exact (Hall _ Hadmits).
    - exfalso. destruct (stored_tidy _ _ _ Hu) as (_ & [_ Hf] & _). apply Hf. apply (tp_followed _ _ _ Htp).
      exists (e_res o), l, t, cu. auto.
  Qed.

  Lemma reach_tidy origin n : tidy_node R origin -> reach E P stored origin n -> tidy_node R n.
  Proof.
    intros Ho Hn. induction Hn as [| x y _ IH Hle]; [exact Ho |]. inversion Hle as [x0 xr t ru n Hw Hoc Hy Hq1 Hq2]; subst x n.
    inversion Hy as [x1 xr1 u Hu Hq1 Hq2 Hq3 Hq | x1 xr1 cu Hq1 Hq2 Hq3 Hq | x1 xr1 ts cu u Hu Hq1 Hq2 Hq3 Hq]; subst.
    - destruct (stored_tidy _ _ _ Hu) as (_ & Tu & _). destruct u as [e | [e |] l | rs |]; cbn in Tu |- *; tauto.
    - destruct IH as (IH & _). split; [exact IH |]. destruct Hw as (l & Hl & Hln & Hx).
      destruct (wf_expressions _ _ stored_wf _ _ Hl) as (t' & Hx' & Hru). rewrite (expression_unique _ _ _ _ Hx Hx') in Hoc.
      apply (tp_relations _ _ _ Htp (e_res x0)). exact (Hru _ Hoc).
    - destruct (stored_ttu _ _ _ _ _ _ Hw Hoc Hu) as (o' & Ho' & Hd). rewrite Ho'. cbn.
      destruct (stored_tidy _ _ _ Hu) as (_ & Tu & _). split; [| apply (tp_relations _ _ _ Htp _ _ Hd)].
      destruct u as [e | [e |] l | rs |]; cbn in Ho', Tu; try discriminate; injection Ho' as <-; tauto.
  Qed.

  Variable o : entity.
  Variable rel : string.
  Hypothesis Ho : tidy_entity R o.
  Hypothesis Hd : declares P (e_res o) rel.

  Lemma origin_tidy : tidy_node R (NSet (Some o) rel).
  Proof. split; [exact Ho |]. apply (tp_relations _ _ _ Htp _ _ Hd). Qed.

  Lemma origin_unaliased : unaliased E P (relationships s pid) (NSet (Some o) rel).
  Proof.
    apply (delimited_unaliased E (mark R)); [exact Hfree | exact stored_wf | exact stored_delimited |].
    unfold tidy_entity in Ho. tauto.
  Qed.

  Lemma origin_distinct : distinct_ids E P stored (NSet (Some o) rel).
  Proof.
    apply plain_distinct_ids; [exact Hfree |]. intros n Hn. apply (tidy_plain R). eapply reach_tidy; [| exact Hn]. exact origin_tidy.
  Qed.

  Lemma origin_ttu : ttu_declared E P keyed (NSet (Some o) rel).
  Proof.
    intros o1 rel1 t ts cu u Hr Hw Hoc Hu. apply (reach_keyed E _ _ _ origin_unaliased) in Hr.
    apply (keyed_stored E _ _ _ origin_unaliased o1 rel1 ts u Hr) in Hu; [| exists t; eauto].
    eapply stored_ttu; eauto.
  Qed.

  Lemma origin_total g : g <> GoalEntity None ->
    exists t, forall n, search_bound E P (edges_of pid s) (NSet (Some o) rel) <= n ->
      search E P (edges_of pid s) n (NSet (Some o) rel) g = Ok t.
  Proof.
    intros Hg. eapply (search_total E P _ _ (GraphFacts.stored_edges E s pid Hok) stored_wf);
      [exact (tp_standard _ _ _ Htp) | | exact origin_ttu | exact Hd | exact Hg].
    intros o' rel' u (r & Hr & Hu & _). destruct (Hadm r Hr) as (o1 & u1 & l & _ & Hu1 & _ & _ & Hsd & _).
    rewrite Hu in Hu1. injection Hu1 as <-. destruct u as [e | [e |] l' | rs' |]; cbn in *; auto.
  Qed.

  Lemma origin_serialized n g t f : search E P (edges_of pid s) n (NSet (Some o) rel) g = Ok t -> shown_as_text f ->
    serializer_factory f = Ok tt /\ exists x, serialize n f t = Ok x.
  Proof.
    intros Hs [-> | ->]; (split; [reflexivity |]); [eexists; reflexivity |].
    destruct (search_drawn E s pid rec n (NSet (Some o) rel) g t Hok Logic.I) with (2 := Hs) as [l Hl].
    - intros o1 rel1 t1 ts cu u Hr Hw Hoc Hu. destruct (origin_ttu _ _ _ _ _ _ Hr Hw Hoc Hu) as (o' & Ho' & _). eauto.
    - cbn. rewrite Hl. eexists. reflexivity.
  Qed.
End Graph.

(** ** Selectors *)

Lemma valid_declared p sel : unique_decls p -> complete_selector sel -> plain_selector sel ->
  s_subj sel <> Some (USSubject (Some SUnset)) -> valid_selector p (Some sel) = Ok tt -> selector_declared p sel.
Proof.
  intros Hu Hc [Hp1 Hp2] Hset Hv. unfold valid_selector in Hv.
  destruct (valid_object_ok p sel Hc) as (Ho & _).
  apply bind_ok in Hv as ([] & Hvo & Hv). pose proof (proj1 Ho Hvo) as Hod. apply bind_ok in Hv as ([] & Hvr & Hv).
  assert (Hcc := Hc). destruct Hcc as ((o & Hso & Hx1 & Hx2) & (l & Hsl & Hx3) & (u & Hsu & Hx4 & Hx5)).
  assert (Hrel : forall n rs, s_rel sel = Some (LSName n) -> object_name sel = Some rs -> declares p rs n).
  { intros n rs Hn Hon. apply (valid_relation_ok p sel n Hu Hn Hc rs Hon (Hod rs Hon)). exact Hvr. }
  unfold selector_declared. unfold object_name in *. rewrite Hso, Hsl, Hsu in *. split; [| split].
  - destruct o as [[e |] | rs | |]; auto.
  - destruct l as [n | |]; auto. specialize (Hp2 n eq_refl). destruct o as [[e |] | rs | |]; try congruence; apply Hrel; reflexivity.
  - assert (Hres : forall n, (match get_resource_by_name p n with Some _ => Ok tt | None => Err EResourceNotFound end) = Ok tt -> declares_resource p n).
    { intros n Hn. apply get_resource_some. destruct (get_resource_by_name p n); [eauto | discriminate]. }
    destruct u as [[[e | e x | x |] |] | rs | |]; auto; cbn [valid_subject_selector subject_resource_name bind] in Hv; try congruence;
      try discriminate; try (apply Hres, Hv).
Qed.

Lemma find_cases E s pid rec sel : reachable E s -> policies s pid = Some rec -> complete_selector sel -> plain_selector sel ->
  s_subj sel <> Some (USSubject (Some SUnset)) ->
  (selector_declared (pr_policy rec) sel /\ exists l, answer E (QFindRelationshipRecords pid (Some sel)) s = Ok (ARecords l)) \/
  (~ selector_declared (pr_policy rec) sel /\ exists e, answer E (QFindRelationshipRecords pid (Some sel)) s = Err e /\
     selector_fault (pr_policy rec) sel e).
Proof.
  intros H Hp Hc Hpl Hset. pose proof (reachable_ok _ _ H) as Hok.
  destruct (answer E (QFindRelationshipRecords pid (Some sel)) s) as [x | e | |] eqn:Ha.
  - left. assert (Hd : selector_declared (pr_policy rec) sel).
    { apply valid_declared; auto; [eapply stored_unique; eauto |]. rewrite (find_run E _ _ _ Hok), Hp in Ha.
      destruct (valid_selector (pr_policy rec) (Some sel)) as [[] | | |]; try discriminate. reflexivity. }
    split; [exact Hd |]. destruct (find_accepts E pid sel rec s Hok Hc Hp Hd Hpl) as [l Hl]. exists l. congruence.
  - right. split.
    + intros Hd. destruct (find_accepts E pid sel rec s Hok Hc Hp Hd Hpl) as [l Hl]. congruence.
    + exists e. split; [reflexivity |]. apply C91_cause_partial in Ha; [| exact H |].
      * inversion Ha as [| | | | | | | | | | ? ? Hn | ? ? rec' ? Hs Hf | | | | | | | | | | | | |]; subst.
        -- apply absent_iff in Hn. congruence.
        -- apply shown_iff in Hs. rewrite Hp in Hs. injection Hs as <-. exact Hf.
      * intros pid' sel' [= <- <-]. destruct Hpl as [Hp1 Hp2]. split; [exact Hp1 |]. intros Hw.
        destruct Hc as (_ & (l & Hl & Hn) & _). destruct l as [n | |]; [| exact Hl | congruence]. contradiction (Hp2 n Hl).
  - exfalso. destruct (proj1 (find_panics E pid sel s Hok Hc) (or_introl Ha)) as (rec' & n & _ & Hw & Hn & _).
    exact (proj2 Hpl n Hn Hw).
  - exfalso. destruct (proj1 (find_panics E pid sel s Hok Hc) (or_intror Ha)) as (rec' & n & _ & Hw & Hn & _).
    exact (proj2 Hpl n Hn Hw).
Qed.

(** ** The same grants give the same answers *)

Lemma eval_same (succ succ' : entity -> string -> subject -> Prop) a M o rel : (forall o rel u, succ o rel u <-> succ' o rel u) ->
  forall t, eval succ a M o rel t <-> eval succ' a M o rel t.
Proof.
  intros Hs t. induction t as [| | [| c | ts cu |] | l IHl [] r IHr]; cbn [eval]; try tauto.
  - setoid_rewrite Hs. reflexivity.
  - setoid_rewrite Hs. reflexivity.
Qed.

Lemma member_same E P (succ succ' : entity -> string -> subject -> Prop) a o rel : (forall o rel u, succ o rel u <-> succ' o rel u) ->
  member E P succ a o rel <-> member E P succ' a o rel.
Proof.
  intros Hs. unfold member, closed. split; intros H M HM; apply H; intros o1 rel1 t Hw He;
    (apply (HM o1 rel1 t Hw); apply (eval_same succ succ' a M o1 rel1 Hs t); exact He).
Qed.

Lemma yields_same (succ succ' : entity -> string -> subject -> Prop) ru o rel n : (forall o rel u, succ o rel u <-> succ' o rel u) ->
  yields succ ru o rel n <-> yields succ' ru o rel n.
Proof. intros Hs. split; intros Hy; destruct Hy; constructor; apply Hs; assumption. Qed.

Lemma acyclic_same L L' : (forall a b, L a b <-> L' a b) -> acyclic L -> acyclic L'.
Proof. intros H Ha a Hc. apply (Ha a). eapply leads_ext; [| exact Hc]. intros x y. symmetry. apply H. Qed.

Lemma shows_same L L' l : (forall a b, L a b <-> L' a b) -> shows L l -> shows L' l.
Proof.
  intros H [S1 S2 S3 S4]. split.
  - intros a b. rewrite S1. apply H.
  - intros b. rewrite S2. unfold top. setoid_rewrite H. reflexivity.
  - exact S3.
  - intros a. rewrite S4. setoid_rewrite H. reflexivity.
Qed.

(** ** The simulation *)

Record sim (E : env) (R : rules) (s : store) (S : service) : Prop := {
  si_seq : sequential E s;
  si_known : forall id, known S id = policies s id;
  si_granted : abs E (tidy_relationship R) s (granted S);
  si_policy : forall id rec, policies s id = Some rec -> tidy_policy E R (pr_policy rec);
  si_fits : fits s }.

Lemma sim_ok E R s S : sim E R s S -> store_ok E s.
Proof. intros H. apply reachable_ok, sequential_reachable, (si_seq _ _ _ _ H). Qed.

Lemma sim_owned E R s S : sim E R s S -> owned s.
Proof. intros H. eapply sequential_owned, (si_seq _ _ _ _ H). Qed.

Lemma sim_grants E R s S pid o rel u : sim E R s S -> stored_subject (relationships s pid) o rel u <-> grants S pid o rel u.
Proof. intros H. symmetry. apply (ab_in _ _ _ _ (si_granted _ _ _ _ H)). Qed.

Lemma sim_links E R s S pid a b : sim E R s S -> points E s pid a b <-> links E S pid a b.
Proof.
  intros H. pose proof (si_granted _ _ _ _ H) as Hg. unfold points, links. split.
  - intros (r & Hr & Ha & Hb). exists r. split; [apply (ab_in _ _ _ _ Hg); exact Hr |].
    apply node_id_text in Ha, Hb. auto.
  - intros (r & Hr & -> & ->). apply (ab_in _ _ _ _ Hg) in Hr. exists r. split; [exact Hr |].
    destruct (ab_named _ _ _ _ Hg _ _ Hr) as [_ (o & u & Ho & Hu & _ & Tu) _].
    unfold source_node, target_node. rewrite Ho, Hu. split; [reflexivity |].
    destruct u as [e | [e |] l | rs |]; cbn in Tu; try contradiction; reflexivity.
Qed.

Lemma after_budget E n q s : after E (budget n q) s = after E q s.
Proof. destruct q; cbn [budget]; try reflexivity; rewrite !after_read by exact Logic.I; reflexivity. Qed.

Section Steps.
  Variable E : env.
  Variable R : rules.
  Hypothesis Hfree : collision_free E.

  Lemma tidy_mentions q pid r : tidy E R q -> mentions q pid r -> tidy_relationship R pid r.
  Proof. intros Ht Hm. destruct Hm; cbn in Ht; destruct Ht as (x & [= <-] & Ht); exact Ht. Qed.

  Lemma after_tidy q s id rec : store_ok E s -> tidy E R q ->
    (forall id rec, policies s id = Some rec -> tidy_policy E R (pr_policy rec)) ->
    policies (after E q s) id = Some rec -> tidy_policy E R (pr_policy rec).
  Proof.
    intros H Ht Hs Hg. destruct (policy_step_sound E q s H) as (m' & Hst & Hm). rewrite <- Hm in Hg. clear Hm.
    assert (Hput : forall p v, tidy_policy E R p -> v = None \/ (exists r, v = Some r /\ pr_policy r = p) ->
              put (policies s) (p_id p) v id = Some rec -> tidy_policy E R (pr_policy rec)).
    { intros p v Hp Hv. unfold put. destruct (String.eqb id (p_id p)); [| apply Hs].
      intros ->. destruct Hv as [[=] | (r & [= <-] & ->)]. exact Hp. }
    inversion Hst as [now d app p Hd Hn Hw Hq1 Hq2 Hq3 | | | d app p r Hd Hn Hw Hq1 Hq2 Hq3 | | | i r n Hn Hq1 Hq2 Hq3 | | | |];
      subst; try (eapply Hs; eassumption).
    - destruct Ht as (p' & Hd' & Hp'). rewrite (defines_unique d p p' Hd Hd') in *. eapply Hput; [exact Hp' | right | exact Hg]. eauto.
    - destruct Ht as (p' & Hd' & Hp' & _). rewrite (defines_unique d p p' Hd Hd') in *. eapply Hput; [exact Hp' | right | exact Hg]. eauto.
    - unfold put in Hg. destruct (String.eqb id i); [discriminate | eapply Hs; exact Hg].
  Qed.

  Lemma sim_next q s S S' : sim E R s S -> tidy E R q ->
    (forall id, known S' id = policies (after E q s) id) -> abs E (tidy_relationship R) (after E q s) (granted S') ->
    sim E R (after E q s) S'.
  Proof.
    intros H Ht Hk Hg. pose proof (sim_ok _ _ _ _ H) as Hok. split; auto.
    - apply sequential_after, (si_seq _ _ _ _ H).
    - intros id rec. apply after_tidy; auto. apply (si_policy _ _ _ _ H).
    - apply after_fits; [exact Hok | eapply sim_owned; exact H | apply (si_fits _ _ _ _ H) |].
      intros d app p old -> Hd Hp r Hr. apply known_policy in Hp. destruct Ht as (p' & Hd' & Hp' & Hv).
      rewrite (defines_unique d p p' Hd Hd') in *. apply (Hv (pr_policy old) r); [| exact Hr].
      replace (p_id p') with (p_id (pr_policy old)); [exact (tp_version _ _ _ (si_policy _ _ _ _ H _ _ Hp)) |].
      apply (so_policy _ _ Hok _ _ Hp).
  Qed.

  Lemma sim_same q s S : sim E R s S -> tidy E R q -> about_relationships q \/ policies (after E q s) = policies s ->
    abs E (tidy_relationship R) (after E q s) (granted S) -> sim E R (after E q s) S.
  Proof.
    intros H Ht Hq Hg. apply (sim_next q s S); auto. intros id. rewrite (si_known _ _ _ _ H).
    destruct Hq as [Hq | ->]; [| reflexivity]. unfold policies. rewrite relationships_keep_policies by exact Hq. reflexivity.
  Qed.

  (** What the searches of a tidy store answer. *)
  Lemma step_check s S pid rec o rel a : sim E R s S -> policies s pid = Some rec -> tidy_entity R o ->
    declares (pr_policy rec) (e_res o) rel ->
    exists N b, forall n, N <= n -> answer E (QCheck n pid (asks o rel a)) s = Ok (ADecision b) /\
      (b = true <-> may E S pid (pr_policy rec) a o rel).
  Proof.
    intros H Hp Ho Hd. pose proof (sim_ok _ _ _ _ H) as Hok. pose proof (si_policy _ _ _ _ H _ _ Hp) as Htp.
    pose proof (ab_named _ _ _ _ (si_granted _ _ _ _ H) pid) as Hrel.
    assert (Hadm : forall r, In r (relationships s pid) -> admissible (pr_policy rec) r) by (intros r; apply (si_fits _ _ _ _ H); exact Hp).
    destruct (origin_total E R s pid rec Hfree Hok Hp Htp Hrel Hadm o rel Ho Hd (GoalEntity (Some a))) as [t Ht]; [discriminate |].
    exists (search_bound E (pr_policy rec) (edges_of pid s) (NSet (Some o) rel)), (is_success (get_result t)).
    intros n Hn.
    assert (Ha : answer E (QCheck n pid (asks o rel a)) s = Ok (ADecision (is_success (get_result t)))).
    { unfold asks. rewrite answer_check. unfold check_tree. rewrite Hp, Ht by exact Hn. reflexivity. }
    split; [exact Ha |]. unfold may. rewrite <- (member_same E _ _ _ a o rel (fun o rel u => sim_grants E R s S pid o rel u H)).
    eapply (C26_decides_partial E s pid rec n); [apply sequential_reachable, (si_seq _ _ _ _ H) | apply known_policy; exact Hp |
      exact (tp_union _ _ _ Htp) | eapply origin_unaliased; eauto | eapply origin_distinct; eauto | exact Ha].
  Qed.

  Lemma step_explain s S pid rec o rel a f : sim E R s S -> policies s pid = Some rec -> tidy_entity R o ->
    declares (pr_policy rec) (e_res o) rel -> shown_as_text f ->
    exists N, forall n, N <= n -> exists b t, answer E (QExplainCheck n pid (asks o rel a) f) s = Ok (AExplained b t) /\
      (b = true <-> may E S pid (pr_policy rec) a o rel) /\
      honest E (pr_policy rec) (grants S pid) (Some a) (NSet (Some o) rel) t /\ (b = true <-> get_result t = RSuccess).
  Proof.
    intros H Hp Ho Hd Hf. pose proof (sim_ok _ _ _ _ H) as Hok. pose proof (si_policy _ _ _ _ H _ _ Hp) as Htp.
    pose proof (ab_named _ _ _ _ (si_granted _ _ _ _ H) pid) as Hrel.
    assert (Hadm : forall r, In r (relationships s pid) -> admissible (pr_policy rec) r) by (intros r; apply (si_fits _ _ _ _ H); exact Hp).
    destruct (step_check s S pid rec o rel a H Hp Ho Hd) as (N & b & HN).
    destruct (origin_total E R s pid rec Hfree Hok Hp Htp Hrel Hadm o rel Ho Hd (GoalEntity (Some a))) as [t Ht]; [discriminate |].
    exists (max N (search_bound E (pr_policy rec) (edges_of pid s) (NSet (Some o) rel))). intros n Hn.
    specialize (Ht n (Nat.le_trans _ _ _ (Nat.le_max_r _ _) Hn)). destruct (HN n (Nat.le_trans _ _ _ (Nat.le_max_l _ _) Hn)) as [Hc Hb].
    destruct (origin_serialized E R s pid rec Hfree Hok Hp Htp Hrel Hadm o rel Ho n _ t f Ht Hf) as [Hsf [x Hx]].
    assert (Ha : answer E (QExplainCheck n pid (asks o rel a) f) s = Ok (AExplained b t)).
    { unfold asks in *. rewrite answer_check in Hc. rewrite answer_explain. unfold check_tree in *. rewrite Hp, Ht in *. cbn in Hc.
      rewrite Hsf. cbn. rewrite Hx. cbn. injection Hc as ->. reflexivity. }
    exists b, t. split; [exact Ha |]. split; [exact Hb |].
    destruct (C56_explanation E s pid rec n o rel a f b t) as [Hh Hg];
      [apply sequential_reachable, (si_seq _ _ _ _ H) | apply known_policy; exact Hp | eapply origin_unaliased; eauto | exact Ha |].
    split; [| exact Hg]. revert Hh. apply honest_same. intros. apply yields_same. intros. apply (sim_grants E R); exact H.
  Qed.

  Lemma step_expand s S pid rec o rel f : sim E R s S -> policies s pid = Some rec -> tidy_entity R o ->
    declares (pr_policy rec) (e_res o) rel -> shown_as_text f ->
    exists N, forall n, N <= n -> exists t, answer E (QExpand n pid (Some (NSet (Some o) rel)) f) s = Ok (AExpanded t) /\
      (forall a, SpecExpand.lists t a <-> may E S pid (pr_policy rec) a o rel) /\
      honest E (pr_policy rec) (grants S pid) None (NSet (Some o) rel) t.
  Proof.
    intros H Hp Ho Hd Hf. pose proof (sim_ok _ _ _ _ H) as Hok. pose proof (si_policy _ _ _ _ H _ _ Hp) as Htp.
    pose proof (ab_named _ _ _ _ (si_granted _ _ _ _ H) pid) as Hrel.
    assert (Hadm : forall r, In r (relationships s pid) -> admissible (pr_policy rec) r) by (intros r; apply (si_fits _ _ _ _ H); exact Hp).
    destruct (origin_total E R s pid rec Hfree Hok Hp Htp Hrel Hadm o rel Ho Hd GoalNone) as [t Ht]; [discriminate |].
    exists (search_bound E (pr_policy rec) (edges_of pid s) (NSet (Some o) rel)). intros n Hn. specialize (Ht n Hn). exists t.
    destruct (origin_serialized E R s pid rec Hfree Hok Hp Htp Hrel Hadm o rel Ho n _ t f Ht Hf) as [Hsf [x Hx]].
    assert (Ha : answer E (QExpand n pid (Some (NSet (Some o) rel)) f) s = Ok (AExpanded t)).
    { rewrite answer_expand, Hsf, Hp. cbn [bind]. rewrite Ht. cbn [bind]. rewrite Hx. reflexivity. }
    assert (Hre : reachable E s) by apply sequential_reachable, (si_seq _ _ _ _ H).
    assert (Hkp : answer E (QGetPolicy pid) s = Ok (APolicy (Some rec))) by (apply known_policy; exact Hp).
    assert (Hun : unaliased E (pr_policy rec) (relationships s pid) (NSet (Some o) rel)) by (eapply origin_unaliased; eauto).
    split; [exact Ha |]. split.
    - intros a. destruct (step_check s S pid rec o rel a H Hp Ho Hd) as (N & b & HN). destruct (HN N (le_n _)) as [Hc Hb]. rewrite <- Hb.
      symmetry. eapply (C76_listed_partial E s pid rec N n o rel a f t b Hre Hkp (tp_union _ _ _ Htp)); [| exact Hc | exact Ha].
      apply distinct_keyed; [exact Hun |]. eapply origin_distinct; eauto.
    - generalize (C56_expansion E s pid rec n _ f t Hre Hkp Hun Ha). apply honest_same.
      intros. apply yields_same. intros. apply (sim_grants E R); exact H.
  Qed.

  Lemma step_undeclared s pid rec o rel : policies s pid = Some rec -> ~ declares (pr_policy rec) (e_res o) rel ->
    forall n g, search E (pr_policy rec) (edges_of pid s) (S n) (NSet (Some o) rel) g = Err ERelationNotFound.
  Proof.
    intros Hp Hd n g. apply lut_relation_none in Hd. unfold search. cbn [search_path node_id bind existsb orb].
    assert (Hg : goal_found (NSet (Some o) rel) g = Ok false) by (destruct g as [| [a |]]; reflexivity).
    rewrite Hg. cbn [bind is_terminal build handle_entity_set]. rewrite Hd. reflexivity.
  Qed.

  Lemma declares_dec p rs rel : declares p rs rel \/ ~ declares p rs rel.
  Proof.
    destruct (lut_get_relation p rs rel) as [l |] eqn:Hl.
    - left. exists l. apply lut_relation_some. exact Hl.
    - right. apply lut_relation_none. exact Hl.
  Qed.

  Theorem step s S q : sim E R s S -> tidy E R q ->
    exists S', sim E R (after E q s) S' /\ exists N, forall n, N <= n -> ideal E S (budget n q) (answer E (budget n q) s) S'.
  Proof.
    intros H Ht. pose proof (sim_ok _ _ _ _ H) as Hok. pose proof (sim_owned _ _ _ _ H) as Hown.
    pose proof (si_known _ _ _ _ H) as Hk.
    assert (Hre : reachable E s) by apply sequential_reachable, (si_seq _ _ _ _ H).
    destruct (rel_step_sound E (tidy_relationship R) (fun p p' r r' => tidy_inj E R p p' r r' Hfree) s (granted S) q Hok Hown
      (si_granted _ _ _ _ H) (fun pid r => tidy_mentions q pid r Ht)) as (m' & Hst & Habs).
    assert (Hsame : m' = granted S -> about_relationships q \/ policies (after E q s) = policies s -> sim E R (after E q s) S).
    { intros -> Hq. apply sim_same; assumption. }
    destruct q as [now d app | d app | id | id | | now pid r app | pid r | pid r | pid sel | pid sel | n0 pid a | n0 pid a f | n0 pid root f | n0 pid dd];
      cbn [budget].
    - (* create *) inversion Hst; subst m'. destruct Ht as (p & Hd & Hp).
      destruct (create_cases E now d app s) as [(p' & Hd' & Hn & Hw & Ha & Hs) | [(p' & r & Hd' & Hn & Ha & Hs) | (Hb & Hf & Hs)]].
      + exists (mkService (put (known S) (p_id p') (Some (mkPRec p' app now))) (granted S)). split.
        * apply sim_next with (S := S); [exact H | exists p; auto | | exact Habs]. intros id. cbn [known]. rewrite Hs, policies_put.
          unfold put. cbn [pr_policy]. rewrite Hk. reflexivity.
        * exists 0. intros n _. rewrite Ha. apply id_create; auto. rewrite Hk. exact Hn.
      + exists S. split; [apply Hsame; [reflexivity | right; rewrite Hs; reflexivity] |]. exists 0. intros n _. rewrite Ha.
        eapply id_create_exists; [exact Hd' | rewrite Hk; exact Hn].
      + exists S. split; [apply Hsame; [reflexivity | right; rewrite Hs; reflexivity] |]. exists 0. intros n _.
        destruct (Hb p Hd) as [Hn Hw].
        destruct (C91_refused_policy E s now d app p Hre) as (e & He & Hfe); [| exact Hd | apply absent_iff; exact Hn | exact Hw |].
        { split; [intros ->; inversion Hd |]. intros p' ->. inversion Hd; subst. apply (tp_complete _ _ _ Hp). }
        rewrite He. eapply id_create_faulty; [exact Hd | rewrite Hk; exact Hn | exact Hfe].
    - (* update *) inversion Hst; subst m'. destruct Ht as (p & Hd & Hp & Hv).
      destruct (update_cases E d app s) as [(p' & r & Hd' & Hn & Hw & Ha & Hs) | [(p' & Hd' & Hn & Ha & Hs) | (Hb & Hf & Hs)]].
      + exists (mkService (put (known S) (p_id p') (Some (mkPRec p' app (pr_created r)))) (granted S)). split.
        * apply sim_next with (S := S); [exact H | exists p; auto | | exact Habs]. intros id. cbn [known]. rewrite Hs, policies_put.
          unfold put. cbn [pr_policy]. rewrite Hk. reflexivity.
        * exists 0. intros n _. rewrite Ha. apply id_update; auto. rewrite Hk. exact Hn.
      + exists S. split; [apply Hsame; [reflexivity | right; rewrite Hs; reflexivity] |]. exists 0. intros n _. rewrite Ha.
        eapply id_update_unknown; [exact Hd' | rewrite Hk; exact Hn].
      + exists S. split; [apply Hsame; [reflexivity | right; rewrite Hs; reflexivity] |]. exists 0. intros n _.
        destruct (Hb p Hd) as [Hn Hw]. destruct (policies s (p_id p)) as [rec |] eqn:Hrec; [| congruence].
        destruct (C91_refused_update E s d app p rec Hre) as (e & He & Hfe); [| exact Hd | apply shown_iff; exact Hrec | exact Hw |].
        { split; [intros ->; inversion Hd |]. intros p' ->. inversion Hd; subst. apply (tp_complete _ _ _ Hp). }
        rewrite He. eapply id_update_faulty; [exact Hd | rewrite Hk; exact Hrec | exact Hfe].
    - (* delete *) destruct (policy_step_sound E (QDeletePolicy id) s Hok) as (pm & Hps & Hpm).
      remember (answer E (QDeletePolicy id) s) as x eqn:Hx. clear Hx.
      inversion Hst; subst; inversion Hps; subst; try contradiction.
      + exists (mkService (put (known S) id None) m'). split.
        * apply sim_next with (S := S); [exact H | exact Ht | | exact Habs]. intros i. cbn [known]. rewrite <- Hpm. unfold put. rewrite Hk. reflexivity.
        * exists 0. intros n _. eapply id_delete; [rewrite Hk |  |]; eassumption.
      + exists S. split.
        * apply sim_next with (S := S); [exact H | exact Ht | | exact Habs]. intros i. rewrite Hk. apply Hpm.
        * exists 0. intros n _. apply id_delete_unknown. rewrite Hk. assumption.
    - (* get *) inversion Hst; subst m'. exists S. split; [apply Hsame; [reflexivity | right; rewrite after_read by exact Logic.I; reflexivity] |].
      exists 0. intros n _. rewrite answer_get_policy, <- Hk. apply id_get.
    - (* list *) inversion Hst; subst m'. exists S. split; [apply Hsame; [reflexivity | right; rewrite after_read by exact Logic.I; reflexivity] |].
      exists 0. intros n _. destruct (policy_step_sound E QListPolicyIds s Hok) as (pm & Hps & _).
      inversion Hps as [| | | | | | | | | l Hnd Hin Hq1 Hq2 Hq3 |]; subst; [| contradiction].
      apply id_list; [exact Hnd |]. intros id. rewrite Hk. apply Hin.
    - (* set *) destruct Ht as (x & -> & Hx). assert (Ht : tidy E R (QSetRelationship now pid (Some x) app)) by (exists x; auto).
      inversion Hst as [n1 p1 r1 a1 m1 Hup Hq1 Hq2 Hq3 | n1 p1 r1 a1 x1 Hf Hq1 Hq2 Hq3 | | | | | | | | | | | | | | | | | |]; subst.
      + destruct (proj1 (set_accepts E now pid x app s Hok) (ex_intro _ _ (eq_sym Hq2))) as (rec & Hrec & Hadm).
        exists (mkService (known S) m'). split.
        * apply sim_next with (S := S); [exact H | exact Ht | | exact Habs]. intros i. cbn [known]. rewrite Hk.
          unfold policies. rewrite relationships_keep_policies by exact Logic.I. reflexivity.
        * exists 0. intros n _. eapply id_set; [rewrite Hk; exact Hrec | exact Hadm | exact Hup].
      + exists S. split; [apply Hsame; [reflexivity | left; exact Logic.I] |]. exists 0. intros n _.
        destruct (answer E (QSetRelationship now pid (Some x) app) s) as [a | e | |] eqn:Ha.
        * contradiction (Hf a). reflexivity.
        * apply C91_cause_partial in Ha; [| exact Hre | intros ? ? [=]].
          inversion Ha as [| | | | | | | | ? ? ? ? Hn | ? ? ? ? rec ? Hs Hfe | | | | | | | | | | | | | | |]; subst.
          -- apply id_set_unknown. rewrite Hk. apply (absent_iff E). exact Hn.
          -- eapply id_set_faulty; [rewrite Hk; apply (shown_iff E); exact Hs | exact Hfe].
        * exfalso. apply (set_panics E now pid x app s Hok (tidy_complete R pid x Hx)) in Ha as (rec & o & u & l & Hp & _ & _ & Hl & _ & _ & Hr).
          exact (tp_restricted _ _ _ (si_policy _ _ _ _ H _ _ Hp) _ _ Hl Hr).
        * contradiction (set_no_fuel E now pid (Some x) app s Ha).
    - (* delete *) destruct Ht as (x & -> & Hx). assert (Ht : tidy E R (QDeleteRelationship pid (Some x))) by (exists x; auto).
      inversion Hst as [| | p1 r1 m1 Hc Hup Hq1 Hq2 Hq3 | p1 r1 x1 Hn Hf Hq1 Hq2 Hq3 | | | | | | | | | | | | | | | |]; subst.
      2:{ contradiction (Hn x eq_refl). apply (tidy_complete R pid). exact Hx. }
      exists (mkService (known S) m'). split.
      + apply sim_next with (S := S); [exact H | exact Ht | | exact Habs]. intros i. cbn [known]. rewrite Hk.
        unfold policies. rewrite relationships_keep_policies by exact Logic.I. reflexivity.
      + exists 0. intros n _. apply id_delete_rel. exact Hup.
    - (* get *) destruct Ht as (x & -> & Hx). assert (Ht : tidy E R (QGetRelationship pid (Some x))) by (exists x; auto).
      inversion Hst as [| | | | p1 r1 Hc Hq1 Hq2 Hq3 | p1 r1 x1 Hn Hf Hq1 Hq2 Hq3 | | | | | | | | | | | | | |]; subst.
      2:{ contradiction (Hn x eq_refl). apply (tidy_complete R pid). exact Hx. }
      exists S. split; [apply Hsame; [reflexivity | left; exact Logic.I] |]. exists 0. intros n _. apply id_get_rel.
    - (* find *) destruct Ht as (x & -> & Hc & Hpl & Hset).
      assert (m' = granted S) as -> by (inversion Hst; subst; reflexivity).
      exists S. split; [apply Hsame; [reflexivity | left; exact Logic.I] |]. exists 0. intros n _.
      destruct (policies s pid) as [rec |] eqn:Hp.
      + destruct (find_cases E s pid rec x Hre Hp Hc Hpl Hset) as [[Hd (l & Ha)] | [Hd (e & Ha & Hf)]]; rewrite Ha in *.
        * inversion Hst as [| | | | | | p1 s1 l1 Hl Hq1 Hq2 Hq3 | p1 s1 x1 Hf Hq1 Hq2 Hq3 | | | | | | | | | | | |]; subst; [| contradiction (Hf _ eq_refl)].
          eapply id_find; [rewrite Hk; exact Hp | exact Hd | exact Hl].
        * eapply id_find_faulty; [rewrite Hk; exact Hp | exact Hd | exact Hf].
      + rewrite (find_run E _ _ _ Hok), Hp. apply id_find_unknown. rewrite Hk. exact Hp.
    - (* delete many *) destruct Ht as (x & -> & Hc). assert (Ht : tidy E R (QDeleteRelationships pid (Some x))) by (exists x; auto).
      inversion Hst as [| | | | | | | | p1 s1 l m1 Hps Hl Hr Hq1 Hq2 Hq3 | p1 s1 x1 Hn Hf Hq1 Hq2 Hq3 | | | | | | | | | |]; subst.
      2:{ contradiction (Hn x eq_refl). apply complete_parts. exact Hc. }
      exists (mkService (known S) m'). split.
      + apply sim_next with (S := S); [exact H | exact Ht | | exact Habs]. intros i. cbn [known]. rewrite Hk.
        unfold policies. rewrite relationships_keep_policies by exact Logic.I. reflexivity.
      + exists 0. intros n _. apply id_delete_many; assumption.
    - (* check *) assert (m' = granted S) as -> by (inversion Hst; subst; reflexivity).
      exists S. split; [apply Hsame; [reflexivity | left; exact Logic.I] |]. destruct Ht as (o & rel & u & -> & Ho).
      destruct (policies s pid) as [rec |] eqn:Hp.
      + destruct (declares_dec (pr_policy rec) (e_res o) rel) as [Hd | Hd].
        * destruct (step_check s S pid rec o rel u H Hp Ho Hd) as (N & b & HN). exists N. intros n Hn. destruct (HN n Hn) as [-> Hb].
          eapply id_check; [rewrite Hk; exact Hp | exact Hd | exact Hb].
        * exists 1. intros [| n] Hn; [inversion Hn |]. unfold asks. rewrite answer_check. unfold check_tree. rewrite Hp, step_undeclared by assumption.
          eapply id_check_undeclared; [rewrite Hk; exact Hp | exact Hd].
      + exists 0. intros n _. unfold asks. rewrite answer_check. unfold check_tree. rewrite Hp. apply id_check_unknown. rewrite Hk. exact Hp.
    - (* explain *) assert (m' = granted S) as -> by (inversion Hst; subst; reflexivity).
      exists S. split; [apply Hsame; [reflexivity | left; exact Logic.I] |]. destruct Ht as ((o & rel & u & -> & Ho) & Hf).
      assert (Hsf : serializer_factory f = Ok tt) by (destruct Hf as [-> | ->]; reflexivity).
      destruct (policies s pid) as [rec |] eqn:Hp.
      + destruct (declares_dec (pr_policy rec) (e_res o) rel) as [Hd | Hd].
        * destruct (step_explain s S pid rec o rel u f H Hp Ho Hd Hf) as (N & HN). exists N. intros n Hn.
          destruct (HN n Hn) as (b & t & -> & Hb & Hh & Hg). eapply id_explain; [rewrite Hk; exact Hp | exact Hd | exact Hb | exact Hh | exact Hg].
        * exists 1. intros [| n] Hn; [inversion Hn |]. unfold asks. rewrite answer_explain, Hsf. unfold check_tree. rewrite Hp, step_undeclared by assumption.
          eapply id_explain_undeclared; [rewrite Hk; exact Hp | exact Hd].
      + exists 0. intros n _. unfold asks. rewrite answer_explain, Hsf. unfold check_tree. rewrite Hp. apply id_explain_unknown. rewrite Hk. exact Hp.
    - (* expand *) assert (m' = granted S) as -> by (inversion Hst; subst; reflexivity).
      exists S. split; [apply Hsame; [reflexivity | left; exact Logic.I] |]. destruct Ht as ((o & rel & -> & Ho) & Hf).
      assert (Hsf : serializer_factory f = Ok tt) by (destruct Hf as [-> | ->]; reflexivity).
      destruct (policies s pid) as [rec |] eqn:Hp.
      + destruct (declares_dec (pr_policy rec) (e_res o) rel) as [Hd | Hd].
        * destruct (step_expand s S pid rec o rel f H Hp Ho Hd Hf) as (N & HN). exists N. intros n Hn.
          destruct (HN n Hn) as (t & -> & Hl & Hh). eapply id_expand; [rewrite Hk; exact Hp | exact Hd | exact Hl | exact Hh].
        * exists 1. intros [| n] Hn; [inversion Hn |]. rewrite answer_expand, Hsf, Hp. cbn [bind]. rewrite step_undeclared by assumption.
          eapply id_expand_undeclared; [rewrite Hk; exact Hp | exact Hd].
      + exists 0. intros n _. rewrite answer_expand, Hsf, Hp. apply id_expand_unknown. rewrite Hk. exact Hp.
    - (* dump *) assert (m' = granted S) as -> by (inversion Hst; subst; reflexivity).
      exists S. split; [apply Hsame; [reflexivity | left; exact Logic.I] |]. cbn in Ht. subst dd.
      destruct (policies s pid) as [rec |] eqn:Hp.
      + exists (Datatypes.S (length (relationships s pid))). intros n Hn.
        eapply id_dump; [rewrite Hk; exact Hp |]. intros Ha.
        destruct (C37_acyclic_partial E s pid rec n Hre) as (l & Hl & Hs & _);
          [apply shown_iff; exact Hp | eapply acyclic_same; [| exact Ha]; intros; symmetry; apply (sim_links E R); exact H | exact Hn |].
        exists l. split; [exact Hl |]. eapply shows_same; [| exact Hs]. intros. apply (sim_links E R); exact H.
      + exists 0. intros n _. rewrite (proj2 (C91_not_found_exactly E s (QDumpRelationships n pid true) pid Hre (ne_dump n pid true))).
        * apply id_dump_unknown. rewrite Hk. exact Hp.
        * apply absent_iff. exact Hp.
  Qed.

  Theorem history qs : forall s S, sim E R s S -> Forall (tidy E R) qs ->
    exists N, forall n, N <= n -> exists S', ideal_history E S (map (budget n) qs) (answers E (map (budget n) qs) s) S'.
  Proof.
    induction qs as [| q qs IH]; intros s S H Hq; [exists 0; intros n _; exists S; constructor |].
    inversion Hq as [| q' qs' Hq1 Hq2]; subst. destruct (step s S q H Hq1) as (S1 & H1 & N1 & HN1).
    destruct (IH _ _ H1 Hq2) as (N2 & HN2). exists (Nat.max N1 N2). intros n Hn.
    destruct (HN2 n) as (S' & HS); [eapply PeanoNat.Nat.le_trans; [apply PeanoNat.Nat.le_max_r | exact Hn] |].
    exists S'. cbn [map answers]. apply ih_cons with S1.
    - apply HN1. eapply PeanoNat.Nat.le_trans; [apply PeanoNat.Nat.le_max_l | exact Hn].
    - rewrite after_budget. exact HS.
  Qed.
End Steps.

Lemma sim_start E R : sim E R empty_store nothing.
Proof.
  constructor.
  - exists []. reflexivity.
  - reflexivity.
  - constructor.
    + intros pid r. split; [intros H; contradiction H; reflexivity | intros []].
    + intros pid r [].
    + intros pid r _ _. reflexivity.
  - intros id rec [=].
  - intros pid r rec [=].
Qed.
