(** Proofs about concurrent requests. *)
From Verif Require Import Base Domain Lexer Validate Store Search Explain Yaml Service Dump Api SpecPolicy SpecStore SpecConc
  BaseFacts ValidateFacts StoreFacts PolicyFacts RelFacts.

(** ** Independence *)

(** The program reads and writes only the policy and the relationships of [id], and writes data. *)
Inductive only (id : string) {A} : prog A -> Prop :=
| on_ret a : only id (Ret a)
| on_polget k : (forall x, only id (k x)) -> only id (PolGet id k)
| on_polhas k : (forall x, only id (k x)) -> only id (PolHas id k)
| on_polset r k : only id k -> only id (PolSet id r k)
| on_poldel k : only id k -> only id (PolDel id k)
| on_edgeget key k : (forall x, only id (k x)) -> only id (EdgeGet id key k)
| on_edgeset key e k : only id k -> only id (EdgeSet id key e k)
| on_edgedel key k : only id k -> only id (EdgeDel id key k)
| on_edgelist k : (forall x, only id (k x)) -> only id (EdgeList id k)
| on_dataset key d k : only id k -> only id (DataSet key d k)
| on_datadel key k : only id k -> only id (DataDel key k).

Lemma only_pbind id {A B} (p : prog A) (f : A -> prog B) : only id p -> (forall a, only id (f a)) -> only id (pbind p f).
Proof. intros Hp Hf. induction Hp; cbn [pbind]; auto; constructor; auto. Qed.

Lemma only_rbind id {A B} (p : prog (res A)) (f : A -> prog (res B)) : only id p -> (forall a, only id (f a)) -> only id (rbind p f).
Proof. intros Hp Hf. apply only_pbind; [exact Hp |]. intros []; auto; constructor. Qed.

Lemma only_respond id {A} (p : prog (res A)) f : only id p -> only id (respond p f).
Proof. intros Hp. apply only_rbind; [exact Hp |]. intros a. constructor. Qed.

Lemma only_map id {A B} (f : A -> prog (res B)) l : (forall a, only id (f a)) -> only id (map_prog f l).
Proof.
  intros Hf. induction l as [| a l IH]; cbn; [constructor |]. apply only_rbind; [apply Hf |]. intros b. apply only_rbind; [exact IH |].
  intros bs. constructor.
Qed.

Lemma only_scans id {A} (p : prog A) : scans id p -> only id p.
Proof. induction 1; constructor; auto. Qed.

Ltac only_tac :=
  repeat first
    [ assumption
    | match goal with
      | |- only _ (respond _ _) => apply only_respond
      | |- only _ (rbind _ _) => apply only_rbind
      | |- only _ (pbind _ _) => apply only_pbind
      | |- only _ (map_prog _ _) => apply only_map
      | |- only _ (search_prog _ _ _ _ _ _) => apply only_scans, scans_search
      | |- only _ (match ?x with _ => _ end) => destruct x eqn:?
      | |- only _ (Ret _) => constructor
      | |- only _ (lift _) => constructor
      | |- only _ (PolGet _ _) => constructor
      | |- only _ (PolHas _ _) => constructor
      | |- only _ (PolSet _ _ _) => constructor
      | |- only _ (PolDel _ _) => constructor
      | |- only _ (EdgeGet _ _ _) => constructor
      | |- only _ (EdgeSet _ _ _ _) => constructor
      | |- only _ (EdgeDel _ _ _) => constructor
      | |- only _ (EdgeList _ _) => constructor
      | |- only _ (DataSet _ _ _) => constructor
      | |- only _ (DataDel _ _) => constructor
      | |- forall _, _ => intros
      end ].

Lemma definition_id_ok d p : get_policy_from_definition d = Ok p -> definition_id d = Some (p_id p).
Proof. destruct d as [[q | [y |] |] |]; cbn; intros [= <-]; reflexivity. Qed.

Lemma serve_only E q id : concerns q = Some id -> ~ reads_records q -> only id (serve E q).
Proof.
  intros Hc Hr. destruct q; cbn [concerns reads_records] in *; try contradiction; try discriminate; try (injection Hc as ->); cbn [serve].
  - unfold create_policy, repo_get_policy, repo_set_policy, lift. apply only_respond.
    unfold rbind at 1. cbn [pbind]. destruct (get_policy_from_definition d) as [p | | |] eqn:Hd; try constructor.
    apply definition_id_ok in Hd. rewrite Hc in Hd. injection Hd as ->. only_tac.
  - unfold update_policy, repo_get_policy, repo_set_policy, lift. apply only_respond.
    unfold rbind at 1. cbn [pbind]. destruct (get_policy_from_definition d) as [p | | |] eqn:Hd; try constructor.
    apply definition_id_ok in Hd. rewrite Hc in Hd. injection Hd as ->. only_tac.
  - unfold delete_policy, repo_delete_policy, repo_delete_relationships, repo_find_relationships, repo_delete_relationship. only_tac.
  - unfold get_policy, repo_get_policy. only_tac.
  - unfold set_relationship, repo_get_policy, repo_set_relationship. only_tac.
  - unfold delete_relationship, repo_delete_relationship. only_tac.
  - unfold delete_relationships, repo_delete_relationships, repo_find_relationships, repo_delete_relationship. only_tac.
  - unfold check, check_search, repo_get_policy. only_tac.
  - unfold explain_check, check_search, repo_get_policy. only_tac.
  - unfold expand, repo_get_policy. only_tac.
  - unfold dump_relationships, repo_get_policy. only_tac.
Qed.

(** *** Edges of one policy *)

Lemma edges_get s pid k : kv_get pcmp k (edges_of pid s) = kv_get ecmp (pid, k) (st_edges s).
Proof.
  unfold edges_of. induction (st_edges s) as [| [[p k'] e] m IH]; [reflexivity |].
  cbn [filter map kv_get fst snd]. destruct (String.eqb_spec p pid) as [-> | Hne].
  - cbn [map kv_get fst snd]. unfold ecmp at 1. cbn [fst snd]. rewrite (cmp_refl _ scmp_ok). rewrite IH. reflexivity.
  - rewrite IH. destruct (ecmp (pid, k) (p, k')) eqn:Hc; [| reflexivity | reflexivity].
    apply (cmp_eq _ ecmp_ok) in Hc. congruence.
Qed.

Definition ordered (s : store) : Prop := kv_sorted ecmp (st_edges s).

Lemma edges_ext s s' id : ordered s -> ordered s' ->
  (forall k, kv_get ecmp (id, k) (st_edges s) = kv_get ecmp (id, k) (st_edges s')) -> edges_of id s = edges_of id s'.
Proof.
  intros H H' He. apply (sorted_ext pcmp pcmp_ok); [apply edges_of_sorted, H | apply edges_of_sorted, H' |].
  intros k. rewrite !edges_get. apply He.
Qed.

Lemma step_ordered {A} (p : prog A) s p' s' : step1 p s = Some (p', s') -> ordered s -> ordered s'.
Proof.
  intros Hs H. destruct p; cbn [step1] in Hs; try discriminate; injection Hs as <- <-; try exact H; unfold ordered; cbn [st_edges].
  - apply sorted_set; [exact ecmp_ok | exact H].
  - apply sorted_del; [exact ecmp_ok | exact H].
Qed.

(** One step of a program about [id] in stores that agree on [id]. *)
Lemma only_step id {A} (p : prog A) s s2 : only id p -> ordered s -> ordered s2 -> same_policy id s s2 ->
  match step1 p s, step1 p s2 with
  | Some (p1, t1), Some (p2, t2) => p1 = p2 /\ only id p1 /\ same_policy id t1 t2
  | None, None => True
  | _, _ => False
  end.
Proof.
  intros Ho H H2 [Hp He]. assert (Hk : forall k, kv_get ecmp (id, k) (st_edges s) = kv_get ecmp (id, k) (st_edges s2)).
  { intros k. rewrite <- !edges_get, He. reflexivity. }
  inversion Ho; subst; cbn [step1]; try exact I; (split; [try (rewrite ?Hp, ?He, ?Hk; reflexivity) | split; [auto |]]); split;
    cbn [st_pol]; try assumption; try (change (edges_of id s = edges_of id s2); assumption).
  - rewrite !(get_set_same scmp scmp_ok). reflexivity.
  - rewrite !(get_del_same scmp). reflexivity.
  - apply edges_ext; [apply sorted_set; [exact ecmp_ok | exact H] | apply sorted_set; [exact ecmp_ok | exact H2] |].
    intros k0. cbn [st_edges]. rewrite !(get_set ecmp ecmp_ok). destruct (ecmp (id, k0) (id, key)); auto.
  - apply edges_ext; [apply sorted_del; [exact ecmp_ok | exact H] | apply sorted_del; [exact ecmp_ok | exact H2] |].
    intros k0. cbn [st_edges]. rewrite !(get_del ecmp ecmp_ok). destruct (ecmp (id, k0) (id, key)); auto.
Qed.

(** One step of a program about another policy. *)
Lemma other_step id id' {A} (p : prog A) s p' s' : only id' p -> id' <> id -> ordered s -> step1 p s = Some (p', s') ->
  only id' p' /\ same_policy id s s'.
Proof.
  intros Ho Hne H Hs. assert (Hne' : id <> id') by congruence.
  assert (Hk : forall k key, (id, k) <> (id', key) :> string * (string * string)) by congruence.
  inversion Ho; subst; cbn [step1] in Hs; try discriminate; injection Hs as <- <-; (split; [auto |]); split; cbn [st_pol];
    try reflexivity.
  - rewrite (get_set_other scmp scmp_ok) by assumption. reflexivity.
  - rewrite (get_del_other scmp scmp_ok) by assumption. reflexivity.
  - apply edges_ext; [exact H | apply sorted_set; [exact ecmp_ok | exact H] |].
    intros k0. cbn [st_edges]. rewrite (get_set_other ecmp ecmp_ok) by auto. reflexivity.
  - apply edges_ext; [exact H | apply sorted_del; [exact ecmp_ok | exact H] |].
    intros k0. cbn [st_edges]. rewrite (get_del_other ecmp ecmp_ok) by auto. reflexivity.
Qed.

Lemma reads_step {A} (p : prog A) s p' s' : reads p -> step1 p s = Some (p', s') -> reads p' /\ s' = s.
Proof. intros Hr Hs. inversion Hr; subst; cbn [step1] in Hs; try discriminate; injection Hs as <- <-; auto. Qed.

Lemma serve_nobody E q : concerns q = None -> reads (serve E q).
Proof.
  intros Hc. destruct q; cbn [concerns] in Hc; try discriminate.
  - cbn [serve]. unfold respond. apply reads_rbind; [| intros; constructor]. unfold create_policy, lift, rbind. cbn [pbind].
    destruct (get_policy_from_definition d) as [p | | |] eqn:Hd; try constructor. apply definition_id_ok in Hd. congruence.
  - cbn [serve]. unfold respond. apply reads_rbind; [| intros; constructor]. unfold update_policy, lift, rbind. cbn [pbind].
    destruct (get_policy_from_definition d) as [p | | |] eqn:Hd; try constructor. apply definition_id_ok in Hd. congruence.
  - apply reads_serve. exact I.
Qed.

Lemma serve_records E q : reads_records q -> reads (serve E q).
Proof. intros H. apply reads_serve. destruct q; cbn in *; tauto. Qed.

(** *** The invariant of the two executions *)

Definition in_step (id : string) (q : request) (p1 p2 : prog (res response)) : Prop :=
  (concerns q = Some id -> ~ reads_records q -> p1 = p2 /\ only id p1) /\
  (concerns q = Some id -> reads_records q -> reads p1 /\ reads p2) /\
  (concerns q <> Some id -> reads p1 \/ exists id', id' <> id /\ only id' p1).

Record alike (id : string) (qs : list request) (c1 c2 : config) : Prop := {
  al_ord1 : ordered (snd c1); al_ord2 : ordered (snd c2); al_same : same_policy id (snd c1) (snd c2);
  al_threads : forall i, match nth_error qs i, nth_error (fst c1) i, nth_error (fst c2) i with
                    | Some q, Some p1, Some p2 => in_step id q p1 p2
                    | None, None, None => True
                    | _, _, _ => False
                    end }.

Lemma records_dec q : reads_records q \/ ~ reads_records q.
Proof. destruct q; cbn; tauto. Qed.

Lemma about_spec id qs i q : nth_error qs i = Some q -> (about id qs i = true <-> concerns q = Some id).
Proof.
  intros H. unfold about. rewrite H. destruct (concerns q) as [x |]; [| split; discriminate].
  rewrite String.eqb_eq. split; congruence.
Qed.

Lemma start_alike E id qs s : ordered s -> alike id qs (start E qs s) (start E qs s).
Proof.
  intros H. split; cbn [start snd fst]; auto; [split; reflexivity |]. intros i. rewrite nth_error_map.
  destruct (nth_error qs i) as [q |]; cbn [option_map]; [| exact I]. split; [| split].
  - intros Hc Hr. split; [reflexivity | apply serve_only; assumption].
  - intros _ Hr. split; apply serve_records, Hr.
  - intros Hc. destruct (concerns q) as [id' |] eqn:Hq.
    + destruct (records_dec q) as [Hr | Hr]; [left; apply serve_records, Hr |].
      right. exists id'. split; [congruence | apply serve_only; assumption].
    + left. apply serve_nobody, Hq.
Qed.

Lemma same_policy_sym id s s' : same_policy id s s' -> same_policy id s' s.
Proof. intros [H1 H2]. split; congruence. Qed.

Lemma same_policy_trans id s s' s'' : same_policy id s s' -> same_policy id s' s'' -> same_policy id s s''.
Proof. intros [H1 H2] [H3 H4]. split; congruence. Qed.

Lemma advance_ordered c i : ordered (snd c) -> ordered (snd (advance c i)).
Proof.
  intros H. unfold advance. destruct (nth_error (fst c) i) as [p |]; [| exact H].
  destruct (step1 p (snd c)) as [[p' s'] |] eqn:Hs; [| exact H]. eapply step_ordered; eassumption.
Qed.

Lemma advance_alike id qs c1 c2 i : alike id qs c1 c2 ->
  alike id qs (advance c1 i) (if about id qs i then advance c2 i else c2).
Proof.
  intros [H1 H2 Hs Ht]. destruct c1 as [ts1 s1], c2 as [ts2 s2]. cbn [fst snd] in *.
  pose proof (Ht i) as Hi. destruct (nth_error qs i) as [q |] eqn:Hq.
  2: { destruct (nth_error ts1 i) eqn:E1; [contradiction |]. unfold about. rewrite Hq. unfold advance. cbn [fst]. rewrite E1. split; auto. }
  destruct (nth_error ts1 i) as [p1 |] eqn:E1; [| contradiction]. destruct (nth_error ts2 i) as [p2 |] eqn:E2; [| contradiction].
  pose proof (about_spec id qs i q Hq) as Ha. destruct Hi as (Ia & Ib & Ic).
  assert (Hst : forall p1' p2' s1' s2' (ts2' := if about id qs i then replace i p2' ts2 else ts2),
            ordered s1' -> ordered s2' -> same_policy id s1' s2' -> in_step id q p1' (if about id qs i then p2' else p2) ->
            alike id qs (replace i p1' ts1, s1') (if about id qs i then replace i p2' ts2 else ts2, s2')).
  { intros p1' p2' s1' s2' _ A1 A2 A3 A4. split; cbn [fst snd]; auto. intros j. destruct (Nat.eq_dec i j) as [<- | Hij].
    - rewrite Hq, (replace_same i p1' p1) by exact E1. destruct (about id qs i); [rewrite (replace_same i p2' p2) by exact E2 | rewrite E2]; exact A4.
    - rewrite replace_other by exact Hij. destruct (about id qs i); [rewrite replace_other by exact Hij |]; apply Ht. }
  unfold advance. cbn [fst snd]. rewrite E1, E2. destruct (about id qs i) eqn:Hab.
  - assert (Hc : concerns q = Some id) by (apply Ha; reflexivity). destruct (records_dec q) as [Hr | Hr].
    + destruct (Ib Hc Hr) as [R1 R2].
      assert (X : forall p1' p2', reads p1' -> reads p2' -> in_step id q p1' p2').
      { intros. split; [intros; contradiction |]. split; [auto | intros; contradiction]. }
      destruct (step1 p1 s1) as [[p1' s1'] |] eqn:S1; destruct (step1 p2 s2) as [[p2' s2'] |] eqn:S2.
      * apply reads_step in S1 as [R1' ->], S2 as [R2' ->]; auto.
      * apply reads_step in S1 as [R1' ->]; auto. specialize (Hst p1' p2 s1 s2 H1 H2 Hs (X _ _ R1' R2)). cbn iota in Hst.
        rewrite (replace_id i p2) in Hst by exact E2. exact Hst.
      * apply reads_step in S2 as [R2' ->]; auto. specialize (Hst p1 p2' s1 s2 H1 H2 Hs (X _ _ R1 R2')). cbn iota in Hst.
        rewrite (replace_id i p1) in Hst by exact E1. exact Hst.
      * split; auto.
    + destruct (Ia Hc Hr) as [<- Ho]. pose proof (only_step id p1 s1 s2 Ho H1 H2 Hs) as St.
      destruct (step1 p1 s1) as [[p1' s1'] |] eqn:S1; destruct (step1 p1 s2) as [[p2' s2'] |] eqn:S2; try contradiction; [| split; auto].
      destruct St as (<- & Ho' & Hs'). apply Hst; auto.
      * eapply step_ordered; eassumption.
      * eapply step_ordered; eassumption.
      * split; [auto |]. split; [intros; contradiction | intros; contradiction].
  - assert (Hc : concerns q <> Some id) by (intros Hc; apply Ha in Hc; discriminate).
    destruct (step1 p1 s1) as [[p1' s1'] |] eqn:S1; [| split; auto].
    destruct (Ic Hc) as [R | (id' & Hne & Ho)].
    + apply reads_step in S1 as [R' ->]; [| exact R]. apply (Hst p1' p2); auto.
      split; [intros; contradiction |]. split; [intros; contradiction | auto].
    + destruct (other_step id id' p1 s1 p1' s1' Ho Hne H1 S1) as [Ho' Hs']. apply (Hst p1' p2); auto.
      * eapply step_ordered; eassumption.
      * eapply same_policy_trans; [apply same_policy_sym |]; eassumption.
      * split; [intros; contradiction |]. split; [intros; contradiction |]. intros _. right. eauto.
Qed.

Lemma interleave_alike id qs sched : forall c1 c2, alike id qs c1 c2 ->
  alike id qs (interleave sched c1) (interleave (filter (about id qs) sched) c2).
Proof.
  induction sched as [| i sched IH]; intros c1 c2 H; [exact H |]. cbn [interleave fold_left filter].
  pose proof (advance_alike id qs c1 c2 i H) as Ha. destruct (about id qs i); cbn [fold_left]; apply IH, Ha.
Qed.

(** ** Changes *)

Inductive change :=
| CPolSet (id : string) (r : policy_record)
| CPolDel (id : string)
| CEdgeSet (pid : string) (k : string * string) (e : edge)
| CEdgeDel (pid : string) (k : string * string)
| CDataSet (k : string * string) (d : rdata)
| CDataDel (k : string * string).

Definition changed (x : change) (s : store) : store :=
  match x with
  | CPolSet id r => mkStore (kv_set scmp id r (st_pol s)) (st_edges s) (st_data s)
  | CPolDel id => mkStore (kv_del scmp id (st_pol s)) (st_edges s) (st_data s)
  | CEdgeSet pid k e => mkStore (st_pol s) (kv_set ecmp (pid, k) e (st_edges s)) (st_data s)
  | CEdgeDel pid k => mkStore (st_pol s) (kv_del ecmp (pid, k) (st_edges s)) (st_data s)
  | CDataSet k d => mkStore (st_pol s) (st_edges s) (kv_set pcmp k d (st_data s))
  | CDataDel k => mkStore (st_pol s) (st_edges s) (kv_del pcmp k (st_data s))
  end.

(** The program makes only the changes [W], as long as every policy record it reads satisfies [G]. *)
Inductive does (G : string -> policy_record -> Prop) (W : change -> Prop) {A} : prog A -> Prop :=
| do_ret a : does G W (Ret a)
| do_polget id k : (forall x, (forall r, x = Some r -> G id r) -> does G W (k x)) -> does G W (PolGet id k)
| do_polhas id k : (forall x, does G W (k x)) -> does G W (PolHas id k)
| do_polset id r k : W (CPolSet id r) -> does G W k -> does G W (PolSet id r k)
| do_poldel id k : W (CPolDel id) -> does G W k -> does G W (PolDel id k)
| do_polids k : (forall x, does G W (k x)) -> does G W (PolIds k)
| do_edgeget pid key k : (forall x, does G W (k x)) -> does G W (EdgeGet pid key k)
| do_edgeset pid key e k : W (CEdgeSet pid key e) -> does G W k -> does G W (EdgeSet pid key e k)
| do_edgedel pid key k : W (CEdgeDel pid key) -> does G W k -> does G W (EdgeDel pid key k)
| do_edgelist pid k : (forall x, does G W (k x)) -> does G W (EdgeList pid k)
| do_dataget key k : (forall x, does G W (k x)) -> does G W (DataGet key k)
| do_dataset key d k : W (CDataSet key d) -> does G W k -> does G W (DataSet key d k)
| do_datadel key k : W (CDataDel key) -> does G W k -> does G W (DataDel key k).

Lemma does_reads G W {A} (p : prog A) : reads p -> does G W p.
Proof. induction 1; constructor; auto. Qed.

Lemma does_pbind G W {A B} (p : prog A) (f : A -> prog B) : does G W p -> (forall a, does G W (f a)) -> does G W (pbind p f).
Proof. intros Hp Hf. induction Hp; cbn [pbind]; auto; constructor; auto. Qed.

Lemma does_rbind G W {A B} (p : prog (res A)) (f : A -> prog (res B)) : does G W p -> (forall a, does G W (f a)) -> does G W (rbind p f).
Proof. intros Hp Hf. apply does_pbind; [exact Hp |]. intros []; auto; constructor. Qed.

Lemma does_map G W {A B} (f : A -> prog (res B)) l : (forall a, does G W (f a)) -> does G W (map_prog f l).
Proof.
  intros Hf. induction l as [| a l IH]; cbn [map_prog]; [constructor |].
  apply does_rbind; [auto |]. intros b. apply does_rbind; [exact IH |]. intros. constructor.
Qed.

Lemma does_step (G : string -> policy_record -> Prop) W {A} (p : prog A) s p' s' : does G W p -> (forall id r, policies s id = Some r -> G id r) ->
  step1 p s = Some (p', s') -> does G W p' /\ (s' = s \/ exists x, W x /\ s' = changed x s).
Proof.
  intros Hp HG Hs. inversion Hp; subst; cbn [step1] in Hs; try discriminate; injection Hs as <- <-; split; auto;
    right; eexists; (split; [eassumption | reflexivity]).
Qed.

(** What a request may change. *)
Definition changes (E : env) (G : string -> policy_record -> Prop) (q : request) (x : change) : Prop :=
  match q, x with
  | QCreatePolicy now d app, CPolSet id r => exists p, defines d p /\ well_formed E p /\ id = p_id p /\ r = mkPRec p app now
  | QUpdatePolicy d app, CPolSet id r =>
      exists p old, defines d p /\ well_formed E p /\ id = p_id p /\ G id old /\ r = mkPRec p app (pr_created old)
  | QDeletePolicy id, CPolDel id' => id' = id
  | QDeletePolicy id, CEdgeDel pid _ => pid = id
  | QDeletePolicy _, CDataDel _ => True
  | QSetRelationship now pid (Some r) app, CEdgeSet pid' k e =>
      pid' = pid /\ to_internal (Some r) = Ok e /\ k = edge_key E e /\
      exists rec, G pid rec /\ allowed_relationship (pr_policy rec) (Some r) = Ok tt
  | QSetRelationship _ _ _ _, CDataSet _ _ => True
  | QDeleteRelationship pid _, CEdgeDel pid' _ | QDeleteRelationships pid _, CEdgeDel pid' _ => pid' = pid
  | QDeleteRelationship _ _, CDataDel _ | QDeleteRelationships _ _, CDataDel _ => True
  | _, _ => False
  end.

Lemma does_delete_relationship E G (W : change -> Prop) pid r : (forall k, W (CEdgeDel pid k)) -> (forall k, W (CDataDel k)) ->
  does G W (repo_delete_relationship E pid r).
Proof.
  intros H1 H2. unfold repo_delete_relationship, rbind, lift. cbn [pbind]. destruct (to_internal r); try constructor.
  intros x. constructor; [auto |]. constructor; [auto |]. constructor.
Qed.

Lemma does_delete_relationships E G (W : change -> Prop) pid s : (forall k, W (CEdgeDel pid k)) -> (forall k, W (CDataDel k)) ->
  does G W (repo_delete_relationships E pid s).
Proof.
  intros H1 H2. apply does_rbind; [apply does_reads, reads_find |]. intros rs. apply does_rbind; [| intros; constructor].
  apply does_map. intros r. apply does_delete_relationship; auto.
Qed.

Lemma serve_does E G q : does G (changes E G q) (serve E q).
Proof.
  assert (Hd : is_read q \/ ~ is_read q) by (destruct q; cbn; tauto).
  destruct Hd as [Hr | Hr]; [apply does_reads, reads_serve, Hr |].
  destruct q; cbn [is_read] in Hr; try tauto; cbn [serve]; (apply does_rbind; [| intros; constructor]).
  - unfold create_policy, repo_get_policy, repo_set_policy, lift, rbind. cbn [pbind].
    destruct (get_policy_from_definition d) as [p | | |] eqn:Hd; try constructor. intros [r |] Hx; try constructor.
    cbn [pbind]. destruct (verify_policy E p) as [[] | | |] eqn:Hv; try constructor. intros x.
    constructor; [| constructor]. exists p. apply defines_ok in Hd. apply verify_ok in Hv. auto.
  - unfold update_policy, repo_get_policy, repo_set_policy, lift, rbind. cbn [pbind].
    destruct (get_policy_from_definition d) as [p | | |] eqn:Hd; try constructor. intros [r |] Hx; try constructor.
    cbn [pbind]. destruct (verify_policy E p) as [[] | | |] eqn:Hv; try constructor. intros x.
    constructor; [| constructor]. exists p, r. apply defines_ok in Hd. apply verify_ok in Hv. auto 6.
  - unfold delete_policy, repo_delete_policy. cbn [pbind]. constructor. intros []; cbn [pbind]; [| constructor].
    constructor; [reflexivity |]. apply does_rbind; [apply does_delete_relationships; cbn; auto | intros; constructor].
  - unfold set_relationship, repo_get_policy. cbn [pbind]. constructor. intros [rec |] Hx; [| constructor].
    unfold lift, rbind at 1. cbn [pbind]. destruct (allowed_relationship (pr_policy rec) r) as [[] | | |] eqn:Ha; try constructor.
    unfold repo_set_relationship, lift, rbind. cbn [pbind].
    destruct (to_internal r) as [e | | |] eqn:He; try constructor. intros x.
    destruct r as [r |]; [| discriminate]. constructor; [| constructor; [exact I | constructor]].
    cbn. split; [reflexivity |]. split; [exact He |]. split; [reflexivity |]. exists rec. auto.
  - apply does_delete_relationship; cbn; auto.
  - apply does_delete_relationships; cbn; auto.
Qed.

(** An invariant of the store that holds if it is kept by all changes of the requests. *)
Lemma interleave_changes E (G : string -> policy_record -> Prop) qs (I : store -> Prop) sched : forall c,
  (forall s, I s -> forall id r, policies s id = Some r -> G id r) ->
  (forall s q x, I s -> In q qs -> changes E G q x -> I (changed x s)) ->
  (forall p, In p (fst c) -> exists q, In q qs /\ does G (changes E G q) p) -> I (snd c) ->
  I (snd (interleave sched c)).
Proof.
  induction sched as [| i sched IH]; intros c HG HI Ht H; [exact H |]. cbn [interleave fold_left]. unfold advance at 2.
  destruct (nth_error (fst c) i) as [p |] eqn:Hi; [| apply IH; assumption]. apply nth_error_In in Hi.
  destruct (step1 p (snd c)) as [[p' s'] |] eqn:Hs; [| apply IH; assumption].
  destruct (Ht _ Hi) as (q & Hq & Hp). destruct (does_step G _ p _ _ _ Hp (HG _ H) Hs) as [Hp' Hs'].
  apply IH; auto; cbn [fst snd].
  - intros r Hr. apply in_replace in Hr as [-> | Hr]; eauto.
  - destruct Hs' as [-> | (x & Hx & ->)]; [exact H | eapply HI; eassumption].
Qed.

Lemma start_does E G qs s p : In p (fst (start E qs s)) -> exists q, In q qs /\ does G (changes E G q) p.
Proof. cbn [start fst]. intros H. apply in_map_iff in H as (q & <- & Hq). exists q. split; [exact Hq | apply serve_does]. Qed.

(** *** Where stored things come from *)

Lemma version_ok E qs s id rec : store_ok E s -> version E qs s id rec -> p_id (pr_policy rec) = id /\ well_formed E (pr_policy rec).
Proof.
  intros H Hv. destruct Hv as [rec Ha | now d app p Hin Hd Hw Hid | d app p old Hin Hd Hw Hid Ho]; [| auto | auto].
  rewrite answer_get_policy in Ha. injection Ha as Ha. exact (so_policy _ _ H id rec Ha).
Qed.

Definition origin (E : env) (qs : list request) (s : store) (s' : store) : Prop :=
  (forall id rec, policies s' id = Some rec -> version E qs s id rec) /\
  (forall pid k e, kv_get ecmp (pid, k) (st_edges s') = Some e ->
     kv_get ecmp (pid, k) (st_edges s) = Some e \/
     exists now app r rec, In (QSetRelationship now pid (Some r) app) qs /\ to_internal (Some r) = Ok e /\
       version E qs s pid rec /\ allowed_relationship (pr_policy rec) (Some r) = Ok tt).

Lemma interleave_origin E qs s sched : origin E qs s (snd (interleave sched (start E qs s))).
Proof.
  apply (interleave_changes E (version E qs s) qs (origin E qs s)).
  - intros s' [Ho _]. exact Ho.
  - intros s' q x [H1 H2] Hq Hx. destruct q; destruct x; cbn [changes] in Hx; try contradiction; try (destruct r; contradiction);
      try (destruct r as [r |]; [| contradiction]);
      (split; unfold policies; cbn [changed st_pol st_edges]; [try exact H1 | try exact H2]).
    + intros id0 rec. rewrite (get_set scmp scmp_ok). destruct (scmp id0 id) eqn:Hc; [| apply H1 | apply H1].
      apply (cmp_eq _ scmp_ok) in Hc as ->. intros [= <-]. destruct Hx as (p & Hd & Hw & -> & ->). eapply ver_created; eauto.
    + intros id0 rec. rewrite (get_set scmp scmp_ok). destruct (scmp id0 id) eqn:Hc; [| apply H1 | apply H1].
      apply (cmp_eq _ scmp_ok) in Hc as ->. intros [= <-]. destruct Hx as (p & old & Hd & Hw & -> & Ho & ->). eapply ver_updated; eauto.
    + intros id1 rec. rewrite (get_del scmp scmp_ok). destruct (scmp id1 id0); try apply H1. discriminate.
    + intros pid0 k0 e0. rewrite (get_del ecmp ecmp_ok). destruct (ecmp (pid0, k0) (pid, k)); try apply H2. discriminate.
    + destruct Hx as (-> & He & -> & rec & Hv & Ha). intros pid0 k0 e0. rewrite (get_set ecmp ecmp_ok).
      destruct (ecmp (pid0, k0) (pid, edge_key E e)) eqn:Hc; try apply H2. apply (cmp_eq _ ecmp_ok) in Hc. injection Hc as -> ->.
      intros [= <-]. right. exists now, app, r, rec. auto.
    + intros pid1 k0 e0. rewrite (get_del ecmp ecmp_ok). destruct (ecmp (pid1, k0) (pid0, k)); try apply H2. discriminate.
    + intros pid1 k0 e0. rewrite (get_del ecmp ecmp_ok). destruct (ecmp (pid1, k0) (pid0, k)); try apply H2. discriminate.
  - apply start_does.
  - split; cbn [start snd]; [| auto]. intros id rec Hr. constructor. rewrite answer_get_policy. congruence.
Qed.

(** *** One request among others *)

Definition anything : string -> policy_record -> Prop := fun _ _ => True.

(** [J] holds of what is left of request [i] if its own steps keep it and the changes of all requests do. *)
Lemma thread_inv E qs s i q (J : prog (res response) -> store -> Prop) sched :
  nth_error qs i = Some q -> store_ok E s -> J (serve E q) s ->
  (forall p s' q' x, J p s' -> store_ok E s' -> In q' qs -> changes E anything q' x -> J p (changed x s')) ->
  (forall p s' p' s'', J p s' -> store_ok E s' -> step1 p s' = Some (p', s'') ->
     s'' = s' \/ (exists x, changes E anything q x /\ s'' = changed x s') -> J p' s'') ->
  exists p, nth_error (fst (interleave sched (start E qs s))) i = Some p /\ J p (snd (interleave sched (start E qs s))).
Proof.
  intros Hi Hok H0 Hch Hown.
  assert (Hgen : forall c, (exists p, nth_error (fst c) i = Some p /\ J p (snd c) /\ does anything (changes E anything q) p) -> store_ok E (snd c) ->
    (forall p, In p (fst c) -> tidy E p /\ exists q, In q qs /\ does anything (changes E anything q) p) ->
    exists p, nth_error (fst (interleave sched c)) i = Some p /\ J p (snd (interleave sched c))).
  { clear H0 Hi Hok s. induction sched as [| j sched IH]; intros c (p & Hp & HJ & Hdp) Hok Hd; [eauto |].
    cbn [interleave fold_left]. unfold advance at 2 4.
    destruct (nth_error (fst c) j) as [p1 |] eqn:Hj; [| apply IH; eauto].
    destruct (step1 p1 (snd c)) as [[p' s'] |] eqn:Hs; [| apply IH; eauto].
    destruct (Hd _ (nth_error_In _ _ Hj)) as (Ht & q1 & Hq1 & Hdo).
    destruct (does_step anything _ p1 _ _ _ Hdo (fun _ _ _ => Logic.I) Hs) as [Hdo' Hch'].
    destruct (tidy_step E p1 _ _ _ Ht Hs Hok) as [Ht' Hok'].
    apply IH; cbn [fst snd]; [| exact Hok' |].
    - destruct (Nat.eq_dec j i) as [-> | Hne].
      + rewrite Hp in Hj. injection Hj as <-. exists p'. split; [eapply replace_same; exact Hp |].
        destruct (does_step anything _ p _ _ _ Hdp (fun _ _ _ => Logic.I) Hs) as [Hdo2 Hch2].
        split; [eapply Hown; eassumption | exact Hdo2].
      + exists p. rewrite replace_other by exact Hne. split; [exact Hp |]. split; [| exact Hdp].
        destruct Hch' as [-> | (x & Hx & ->)]; [exact HJ | eapply Hch; eassumption].
    - intros p2 Hin. apply in_replace in Hin as [-> | Hin]; [| auto]. split; [exact Ht' | eauto]. }
  apply Hgen.
  - cbn [start fst snd]. exists (serve E q). rewrite nth_error_map, Hi. repeat split; [exact H0 | apply serve_does].
  - exact Hok.
  - intros p Hp. split; [| eapply start_does; exact Hp]. cbn [start fst] in Hp. apply in_map_iff in Hp as (q' & <- & _). apply tidy_serve.
Qed.

Lemma definition_defines d id : definition_id d = Some id -> exists p, defines d p /\ p_id p = id.
Proof. destruct d as [[q | [y |] |] |]; cbn; intros [= <-]; eexists; (split; [constructor | reflexivity]). Qed.

Lemma defines_definition d p : defines d p -> definition_id d = Some (p_id p).
Proof. intros H. apply defines_ok in H. apply definition_id_ok, H. Qed.

(** Creating an existing policy fails at its first step. *)
Lemma create_existing E qs s i id now d app sched : store_ok E s -> policies s id <> None ->
  ~ In (QDeletePolicy id) qs -> nth_error qs i = Some (QCreatePolicy now d app) -> definition_id d = Some id ->
  nth_error (fst (interleave sched (start E qs s))) i = Some (serve E (QCreatePolicy now d app)) \/
  nth_error (fst (interleave sched (start E qs s))) i = Some (Ret (Err EPolicyExists)).
Proof.
  intros Hok Hp Hn Hi Hd. destruct (definition_defines _ _ Hd) as (p & Hdp & <-). apply defines_ok in Hdp.
  destruct (thread_inv E qs s i _ (fun r s' => policies s' (p_id p) <> None /\
              (r = serve E (QCreatePolicy now d app) \/ r = Ret (Err EPolicyExists))) sched Hi Hok) as (r & Hr & _ & Hc).
  - auto.
  - intros r s' q' x [H1 H2] _ Hq' Hx. split; [| exact H2].
    destruct q'; destruct x; cbn [changes] in Hx; try contradiction; try exact H1; try (destruct r0; contradiction); unfold policies; cbn [changed st_pol].
    + rewrite (get_set scmp scmp_ok). destruct (scmp (p_id p) id); try exact H1. discriminate.
    + rewrite (get_set scmp scmp_ok). destruct (scmp (p_id p) id); try exact H1. discriminate.
    + subst id0. rewrite (get_del_other scmp scmp_ok); [exact H1 |]. intros Heq. apply Hn. rewrite Heq. exact Hq'.
  - intros r s' r' s'' [H1 [-> | ->]] _ Hs _; [| discriminate].
    cbn [serve] in Hs. unfold create_policy, respond, rbind, lift in Hs. cbn [pbind] in Hs. rewrite Hdp in Hs. cbn in Hs.
    unfold policies in H1. destruct (kv_get scmp (p_id p) (st_pol s')) as [rec |] eqn:Hg; [| contradiction].
    injection Hs as <- <-. split; [unfold policies; rewrite Hg; discriminate | right; reflexivity].
  - rewrite Hr. destruct Hc as [-> | ->]; auto.
Qed.

(** The rest of DeletePolicy after the policy is removed. *)
Definition delete_rest (E : env) (id : string) : prog (res response) :=
  respond (rbind (repo_delete_relationships E id (Some all_relationships_selector)) (fun n => Ret (Ok (true, n))))
    (fun x => ADeletedPolicy (fst x) (snd x)).

Lemma serve_delete_step E id s p' s' : step1 (serve E (QDeletePolicy id)) s = Some (p', s') ->
  s' = s /\ (p' = PolDel id (delete_rest E id) \/ p' = Ret (Ok (ADeletedPolicy false 0))).
Proof. cbn. destruct (kv_get scmp id (st_pol s)); intros [= <- <-]; auto. Qed.

(** An absent policy stays absent if no request defines it. *)
Lemma absent_stays E id q x s : ~ defines_policy q id -> changes E anything q x -> policies s id = None -> policies (changed x s) id = None.
Proof.
  intros Hn Hx H1. destruct q; destruct x; cbn [changes defines_policy] in *; try contradiction; try exact H1; try (destruct r; contradiction); unfold policies; cbn [changed st_pol].
  - destruct Hx as (p & Hd & _ & -> & _). rewrite (get_set_other scmp scmp_ok); [exact H1 |]. intros ->. apply Hn, defines_definition, Hd.
  - destruct Hx as (p & old & Hd & _ & -> & _). rewrite (get_set_other scmp scmp_ok); [exact H1 |]. intros ->. apply Hn, defines_definition, Hd.
  - rewrite (get_del scmp scmp_ok). destruct (scmp id id1); auto.
Qed.

(** After a successful deletion the policy is gone if no request defines it. *)
Lemma deleted_gone E qs s i id sched n : store_ok E s -> nth_error qs i = Some (QDeletePolicy id) ->
  (forall q, In q qs -> ~ defines_policy q id) ->
  answered (interleave sched (start E qs s)) i = Some (Ok (ADeletedPolicy true n)) ->
  policies (snd (interleave sched (start E qs s))) id = None.
Proof.
  intros Hok Hi Hn Ha.
  destruct (thread_inv E qs s i _ (fun r s' => policies s' id = None \/ r = serve E (QDeletePolicy id) \/
     r = PolDel id (delete_rest E id) \/ r = Ret (Ok (ADeletedPolicy false 0))) sched Hi Hok) as (r & Hr & Hc).
  - auto.
  - intros r s' q' x [H1 | H2] _ Hq' Hx; [left | auto]. eapply absent_stays; eauto.
  - intros r s' r' s'' HJ _ Hs Hx. destruct HJ as [H1 | [-> | [-> | ->]]].
    + left. destruct Hx as [-> | (x & Hx & ->)]; [exact H1 |]. eapply absent_stays; [| exact Hx | exact H1]. cbn. tauto.
    + apply serve_delete_step in Hs as [-> [-> | ->]]; auto.
    + cbn in Hs. injection Hs as <- <-. left. unfold policies. cbn [st_pol]. apply (get_del_same scmp).
    + discriminate.
  - unfold answered in Ha. rewrite Hr in Ha. destruct Hc as [H1 | [-> | [-> | ->]]]; [exact H1 | discriminate | discriminate | discriminate].
Qed.

(** *** Removing all relationships of a policy *)

(** The program removes edges of [id]; [ks] are the keys still to remove, and [Q] holds of its result and the
    keys left. *)
Inductive removes (id : string) {A} (Q : A -> list (string * string) -> Prop) : list (string * string) -> prog A -> Prop :=
| rm_ret ks a : Q a ks -> removes id Q ks (Ret a)
| rm_edgeget ks key k : (forall x, removes id Q ks (k x)) -> removes id Q ks (EdgeGet id key k)
| rm_edgedel ks key k : removes id Q ks k -> removes id Q (key :: ks) (EdgeDel id key k)
| rm_datadel ks key k : removes id Q ks k -> removes id Q ks (DataDel key k).

Lemma removes_pbind id {A B} (Q : B -> list (string * string) -> Prop) (f : A -> prog B) ks p :
  removes id (fun a ks' => removes id Q ks' (f a)) ks p -> removes id Q ks (pbind p f).
Proof. induction 1; cbn [pbind]; [assumption | constructor; auto | constructor; auto | constructor; auto]. Qed.

Lemma removes_all E id es : forall ks (Q : res (list bool) -> list (string * string) -> Prop),
  Forall edge_image es -> (forall x, Q (Ok x) ks) ->
  removes id Q (map (edge_key E) es ++ ks) (map_prog (fun r => repo_delete_relationship E id (Some r)) (map from_internal es)).
Proof.
  induction es as [| e es IH]; intros ks Q Hes HQ; cbn [map map_prog app]; [constructor; apply HQ |].
  apply Forall_cons_iff in Hes as [He Hes]. unfold repo_delete_relationship at 1. unfold lift, rbind at 2. cbn [pbind].
  rewrite (to_from_internal e He). unfold rbind. cbn [pbind]. constructor. intros x. constructor. constructor.
  apply removes_pbind. apply IH; [exact Hes |]. intros bs. constructor. apply HQ.
Qed.

(** What is left of DeletePolicy after the policy is removed: it lists the edges, then removes them. *)
Definition empties (E : env) (id : string) (p : prog (res response)) (s : store) : Prop :=
  p = delete_rest E id \/
  exists ks, removes id (fun _ ks' => ks' = []) ks p /\ forall k, kv_get ecmp (id, k) (st_edges s) <> None -> In k ks.

Lemma delete_rest_eq E id : delete_rest E id = EdgeList id (fun es =>
  respond (rbind (rbind (map_prog (fun r => repo_delete_relationship E id (Some r))
                           (filter (selector_satisfies all_spec) (map (fun x => from_internal (snd x)) es)))
                   (fun founds => Ret (Ok (length founds)))) (fun n => Ret (Ok (true, n))))
    (fun x => ADeletedPolicy (fst x) (snd x))).
Proof. reflexivity. Qed.

Lemma empties_start E id s p' s' : store_ok E s -> step1 (delete_rest E id) s = Some (p', s') -> empties E id p' s'.
Proof.
  intros Hok Hs. right. rewrite delete_rest_eq in Hs. cbn [step1] in Hs. injection Hs as <- <-.
  assert (Hf : filter (selector_satisfies all_spec) (map (fun x => from_internal (snd x)) (edges_of id s))
               = map from_internal (map snd (edges_of id s))).
  { rewrite map_map. change (matching s id all_spec = relationships s id). apply matching_all. }
  rewrite Hf. exists (map (edge_key E) (map snd (edges_of id s)) ++ []). split.
  - unfold respond, rbind. do 3 apply removes_pbind. apply removes_all.
    + apply Forall_forall. intros e He. apply in_map_iff in He as ([k e'] & <- & Hin).
      apply (edges_of_in E) in Hin; [| exact Hok]. apply (so_edge _ _ Hok _ _ _ Hin).
    + intros x. constructor. constructor. constructor. reflexivity.
  - intros k Hk. rewrite app_nil_r. destruct (kv_get ecmp (id, k) (st_edges s)) as [e |] eqn:Hg; [| contradiction].
    destruct (so_edge _ _ Hok _ _ _ Hg) as [_ ->]. apply in_map. apply (edges_of_in E) in Hg; [| exact Hok].
    apply in_map_iff. eexists. split; [| exact Hg]. reflexivity.
Qed.

Lemma removes_step id {A} (Q : A -> list (string * string) -> Prop) ks p s p' s' : removes id Q ks p -> step1 p s = Some (p', s') ->
  (forall k, kv_get ecmp (id, k) (st_edges s) <> None -> In k ks) ->
  exists ks', removes id Q ks' p' /\ forall k, kv_get ecmp (id, k) (st_edges s') <> None -> In k ks'.
Proof.
  intros Hr Hs Hk. inversion Hr; subst; cbn [step1] in Hs; try discriminate; injection Hs as <- <-; cbn [st_edges]; eauto.
  exists ks0. split; [assumption |]. intros k0. rewrite (get_del ecmp ecmp_ok).
  destruct (ecmp (id, k0) (id, key)) eqn:Hc; [congruence | |]; intros Hg; (destruct (Hk _ Hg) as [<- | Hin]; [| exact Hin]);
    rewrite (cmp_refl _ ecmp_ok) in Hc; discriminate.
Qed.

Lemma edges_kept E id q x s k : ~ sets_relationship q id -> changes E anything q x ->
  kv_get ecmp (id, k) (st_edges (changed x s)) <> None -> kv_get ecmp (id, k) (st_edges s) <> None.
Proof.
  intros Hn Hx. destruct q; destruct x; cbn [changes sets_relationship] in *; try contradiction; try (destruct r; contradiction); cbn [changed st_edges]; auto.
  - rewrite (get_del ecmp ecmp_ok). destruct (ecmp (id, k) (pid, k0)); try congruence; auto.
  - destruct r; [| contradiction]. destruct Hx as (-> & _). rewrite (get_set_other ecmp ecmp_ok); [auto |]. congruence.
  - rewrite (get_del ecmp ecmp_ok). destruct (ecmp (id, k) (pid0, k0)); try congruence; auto.
  - rewrite (get_del ecmp ecmp_ok). destruct (ecmp (id, k) (pid0, k0)); try congruence; auto.
Qed.

Lemma deleted_empty E qs s i id sched n : store_ok E s -> nth_error qs i = Some (QDeletePolicy id) ->
  (forall q, In q qs -> ~ sets_relationship q id) ->
  answered (interleave sched (start E qs s)) i = Some (Ok (ADeletedPolicy true n)) ->
  forall k, kv_get ecmp (id, k) (st_edges (snd (interleave sched (start E qs s)))) = None.
Proof.
  intros Hok Hi Hn Ha.
  destruct (thread_inv E qs s i _ (fun r s' => empties E id r s' \/ r = serve E (QDeletePolicy id) \/
     r = PolDel id (delete_rest E id) \/ r = Ret (Ok (ADeletedPolicy false 0))) sched Hi Hok) as (r & Hr & Hc).
  - auto.
  - intros r s' q' x [[-> | (ks & H1 & H2)] | H2] _ Hq' Hx; [left; left; reflexivity | left; right | auto].
    exists ks. split; [exact H1 |]. intros k Hk. apply H2. eapply edges_kept; eauto.
  - intros r s' r' s'' HJ Hok' Hs Hx. destruct HJ as [[-> | (ks & H1 & H2)] | [-> | [-> | ->]]].
    + left. eapply empties_start; eassumption.
    + left. right. eapply removes_step; eassumption.
    + apply serve_delete_step in Hs as [-> [-> | ->]]; auto.
    + cbn [step1] in Hs. injection Hs as <- <-. left. left. reflexivity.
    + discriminate.
  - unfold answered in Ha. rewrite Hr in Ha. destruct Hc as [[-> | (ks & H1 & H2)] | [-> | [-> | ->]]]; try discriminate.
    intros k. inversion H1; subst; try discriminate. destruct (kv_get ecmp (id, k) _) eqn:Hg; [| reflexivity].
    exfalso. apply (H2 k). rewrite Hg. discriminate.
Qed.
