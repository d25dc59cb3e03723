(** Facts about the creation times of policies and relationships. *)
From Verif Require Import Base Domain Lexer Parser Validate Store Search Explain Yaml Service Dump Api
  SpecGrammar SpecPolicy SpecStore SpecConc BaseFacts ValidateFacts StoreFacts PolicyFacts RelFacts ConcFacts.

(** The program makes only the changes [W], as long as what it reads about policies satisfies [G]. *)
Inductive minds (G : string -> option policy_record -> Prop) (W : change -> Prop) {A} : prog A -> Prop :=
| mi_ret a : minds G W (Ret a)
| mi_polget id k : (forall x, G id x -> minds G W (k x)) -> minds G W (PolGet id k)
| mi_polhas id k : (forall x, minds G W (k x)) -> minds G W (PolHas id k)
| mi_polset id r k : W (CPolSet id r) -> minds G W k -> minds G W (PolSet id r k)
| mi_poldel id k : W (CPolDel id) -> minds G W k -> minds G W (PolDel id k)
| mi_polids k : (forall x, minds G W (k x)) -> minds G W (PolIds k)
| mi_edgeget pid key k : (forall x, minds G W (k x)) -> minds G W (EdgeGet pid key k)
| mi_edgeset pid key e k : W (CEdgeSet pid key e) -> minds G W k -> minds G W (EdgeSet pid key e k)
| mi_edgedel pid key k : W (CEdgeDel pid key) -> minds G W k -> minds G W (EdgeDel pid key k)
| mi_edgelist pid k : (forall x, minds G W (k x)) -> minds G W (EdgeList pid k)
| mi_dataget key k : (forall x, minds G W (k x)) -> minds G W (DataGet key k)
| mi_dataset key d k : W (CDataSet key d) -> minds G W k -> minds G W (DataSet key d k)
| mi_datadel key k : W (CDataDel key) -> minds G W k -> minds G W (DataDel key k).

Lemma does_minds G (V W : change -> Prop) {A} (p : prog A) : (forall x, V x -> W x) -> does anything V p -> minds G W p.
Proof. intros H Hp. induction Hp; constructor; auto. intros x _. apply H1. intros. exact I. Qed.

Lemma minds_mono G (V W : change -> Prop) {A} (p : prog A) : (forall x, V x -> W x) -> minds G V p -> minds G W p.
Proof. intros H Hp. induction Hp; constructor; auto. Qed.

Lemma minds_step (G : string -> option policy_record -> Prop) W {A} (p : prog A) s p' s' : minds G W p -> (forall id, G id (policies s id)) ->
  step1 p s = Some (p', s') -> minds G W p' /\ (s' = s \/ exists x, W x /\ s' = changed x s).
Proof.
  intros Hp HG Hs. inversion Hp; subst; cbn [step1] in Hs; try discriminate; injection Hs as <- <-; split; auto;
    try (right; eexists; (split; [eassumption | reflexivity])). apply H, HG.
Qed.

Lemma interleave_minds (G : string -> option policy_record -> Prop) (W : change -> Prop) (J : store -> Prop) sched : forall c,
  (forall s, J s -> forall id, G id (policies s id)) -> (forall s x, J s -> W x -> J (changed x s)) ->
  (forall p, In p (fst c) -> minds G W p) -> J (snd c) -> J (snd (interleave sched c)).
Proof.
  induction sched as [| i sched IH]; intros c HG HI Ht H; [exact H |]. cbn [interleave fold_left]. unfold advance at 2.
  destruct (nth_error (fst c) i) as [p |] eqn:Hi; [| apply IH; assumption]. apply nth_error_In in Hi.
  destruct (step1 p (snd c)) as [[p' s'] |] eqn:Hs; [| apply IH; assumption].
  destruct (minds_step G W p _ _ _ (Ht _ Hi) (HG _ H) Hs) as [Hp' Hs'].
  apply IH; auto; cbn [fst snd].
  - intros r Hr. apply in_replace in Hr as [-> | Hr]; auto.
  - destruct Hs' as [-> | (x & Hx & ->)]; [exact H | eapply HI; eassumption].
Qed.

(** ** Policies *)

(** What keeps policy [id], created at [t], as old as it is. *)
Definition born (id : string) (t : N) (id' : string) (x : option policy_record) : Prop :=
  id' = id -> exists r, x = Some r /\ pr_created r = t.
Definition keeps_born (id : string) (t : N) (x : change) : Prop :=
  match x with
  | CPolSet id' r => id' = id -> pr_created r = t
  | CPolDel id' => id' <> id
  | _ => True
  end.

Lemma serve_keeps_born E id t q : q <> QDeletePolicy id -> minds (born id t) (keeps_born id t) (serve E q).
Proof.
  intros Hq. assert (Hd : (exists now d app, q = QCreatePolicy now d app) \/ (exists d app, q = QUpdatePolicy d app) \/
    forall x, changes E anything q x -> keeps_born id t x).
  { destruct q; try (right; right; intros []; cbn; intros; try contradiction; try exact I; congruence); eauto 6.
    all: right; right; intros []; cbn; try contradiction; try (intros; exact I); destruct r; contradiction. }
  destruct Hd as [(now & d & app & ->) | [(d & app & ->) | Hd]]; [| | apply (does_minds _ _ _ _ Hd), serve_does]; cbn [serve].
  - unfold create_policy, respond, rbind, lift. cbn [pbind]. destruct (get_policy_from_definition d) as [p | | |]; try constructor.
    intros x Hx. cbn [pbind]. destruct x as [r |]; [constructor |].
    cbn [pbind]. destruct (verify_policy E p) as [[] | | |]; try constructor. intros x.
    constructor; [| constructor]. cbn. intros Heq. destruct (Hx Heq) as (r & Hr & _). discriminate.
  - unfold update_policy, respond, rbind, lift. cbn [pbind]. destruct (get_policy_from_definition d) as [p | | |]; try constructor.
    intros x Hx. cbn [pbind]. destruct x as [r |]; [| constructor].
    cbn [pbind]. destruct (verify_policy E p) as [[] | | |]; try constructor. intros x.
    constructor; [| constructor]. cbn. intros Heq. destruct (Hx Heq) as (r' & Hr & Ht). congruence.
Qed.

Lemma interleave_born E qs s id r sched : policies s id = Some r -> ~ In (QDeletePolicy id) qs ->
  exists r', policies (snd (interleave sched (start E qs s))) id = Some r' /\ pr_created r' = pr_created r.
Proof.
  intros Hr Hn. pose (J := fun s' => exists r', policies s' id = Some r' /\ pr_created r' = pr_created r).
  change (J (snd (interleave sched (start E qs s)))). apply (interleave_minds (born id (pr_created r)) (keeps_born id (pr_created r)) J).
  - intros s' HJ id' ->. exact HJ.
  - intros s' [] (r' & Hr' & Ht) Hx; cbn [keeps_born] in Hx; unfold J, policies in *; cbn [changed st_pol]; eauto.
    + rewrite (get_set scmp scmp_ok). destruct (scmp id id0) eqn:Hc; eauto. apply (cmp_eq _ scmp_ok) in Hc. subst id0. eauto.
    + rewrite (get_del_other scmp scmp_ok) by congruence. eauto.
  - cbn [start fst]. intros p Hp. apply in_map_iff in Hp as (q & <- & Hq). apply serve_keeps_born. intros ->. exact (Hn Hq).
  - cbn [start snd]. exists r. auto.
Qed.

(** First request 0 takes one step, then requests 1 and 2 all of theirs, then request 0 the rest. *)
Lemma overtake2 E q0 q1 q2 s rest : step1 (serve E q0) s = Some (rest, s) ->
  exists sched, let c := interleave sched (start E [q0; q1; q2] s) in let s2 := after E q2 (after E q1 s) in
    answered c 0 = Some (fst (run rest s2)) /\ answered c 1 = Some (answer E q1 s) /\ answered c 2 = Some (answer E q2 (after E q1 s)) /\
    snd c = snd (run rest s2).
Proof.
  intros Hs. pose (s1 := after E q1 s). pose (s2 := after E q2 s1).
  destruct (complete_one (serve E q1) 1 [rest; serve E q1; serve E q2] s eq_refl) as [k Hk].
  destruct (complete_one (serve E q2) 2 [rest; Ret (answer E q1 s); serve E q2] s1 eq_refl) as [l Hl].
  destruct (complete_one rest 0 [rest; Ret (answer E q1 s); Ret (answer E q2 s1)] s2 eq_refl) as [m Hm].
  exists ([0] ++ (repeat 1 k ++ (repeat 2 l ++ repeat 0 m))). cbv zeta.
  assert (H : interleave ([0] ++ (repeat 1 k ++ (repeat 2 l ++ repeat 0 m))) (start E [q0; q1; q2] s)
              = ([Ret (fst (run rest s2)); Ret (answer E q1 s); Ret (answer E q2 s1)], snd (run rest s2))).
  { rewrite !interleave_app. replace (interleave [0] (start E [q0; q1; q2] s)) with ([rest; serve E q1; serve E q2], s).
    2: { unfold interleave, start. cbn [fold_left map]. unfold advance. cbn [fst nth_error snd]. rewrite Hs. reflexivity. }
    rewrite Hk. cbn [replace]. fold (after E q1 s). fold s1. fold (answer E q1 s). rewrite Hl. cbn [replace]. exact Hm. }
  rewrite H. repeat split.
Qed.

(** ** Relationships *)

(** What a request may write to the records of relationships. *)
Definition writes_record (E : env) (q : request) (x : change) : Prop :=
  match q, x with
  | QSetRelationship now _ (Some r) app, CDataSet k d => exists e, to_internal (Some r) = Ok e /\ k = edge_key E e /\ d = mkData app now
  | _, CDataSet _ _ => False
  | _, _ => True
  end.

Lemma serve_writes_record E q : minds (fun _ _ => True) (writes_record E q) (serve E q).
Proof.
  assert (Hd : (exists now pid r app, q = QSetRelationship now pid r app) \/ forall x, changes E anything q x -> writes_record E q x).
  { destruct q; eauto 6; right; intros []; cbn; tauto. }
  destruct Hd as [(now & pid & r & app & ->) | Hd]; [| apply (does_minds _ _ _ _ Hd), serve_does].
  cbn [serve]. unfold set_relationship, respond, rbind, lift. cbn [pbind repo_get_policy]. constructor. intros [rec |] _; cbn [pbind]; [| constructor].
  destruct (allowed_relationship (pr_policy rec) r) as [[] | | |]; try constructor. cbn [pbind].
  unfold repo_set_relationship, rbind, lift. cbn [pbind]. destruct (to_internal r) as [e | | |] eqn:He; cbn [pbind]; try constructor.
  intros x. destruct r as [r |]; [| discriminate]. constructor; [exact I |]. constructor; [| constructor]. cbn. eauto.
Qed.

Definition record_origin (E : env) (qs : list request) (s s' : store) : Prop :=
  forall k d, kv_get pcmp k (st_data s') = Some d -> kv_get pcmp k (st_data s) = Some d \/
    exists now pid r app e, In (QSetRelationship now pid (Some r) app) qs /\ to_internal (Some r) = Ok e /\ k = edge_key E e /\ d = mkData app now.

Lemma interleave_record_origin E qs s sched : record_origin E qs s (snd (interleave sched (start E qs s))).
Proof.
  apply (interleave_minds (fun _ _ => True) (fun x => exists q, In q qs /\ writes_record E q x) (record_origin E qs s)); auto.
  - intros s' x HJ (q & Hq & Hx). destruct x; cbn [changed]; try exact HJ; intros k' d'; cbn [st_data].
    + rewrite (get_set pcmp pcmp_ok). destruct (pcmp k' k) eqn:Hc; try apply HJ. apply (cmp_eq _ pcmp_ok) in Hc. subst k'.
      intros [= <-]. right. destruct q; try contradiction. destruct r as [r |]; [| contradiction]. cbn in Hx.
      destruct Hx as (e & He & -> & ->). eauto 9.
    + rewrite (get_del pcmp pcmp_ok). destruct (pcmp k' k); try discriminate; apply HJ.
  - cbn [start fst]. intros p Hp. apply in_map_iff in Hp as (q & <- & Hq). apply (minds_mono _ (writes_record E q)); [eauto |]. apply serve_writes_record.
  - intros k d Hk. left. exact Hk.
Qed.
