(** Execution of programs, the mapper, and the store invariant. *)
From Coq Require Import Lia.
From Verif Require Export SearchRun.
From Verif Require Import Base Domain Lexer Parser Validate Store Search Explain Yaml Service Dump Api
  BaseFacts ParserFacts SpecPolicy SpecStore ValidateFacts.

Lemma ecmp_ok : cmp_ok ecmp.
Proof. exact (lex_cmp_ok scmp pcmp scmp_ok pcmp_ok). Qed.

(** ** Execution *)

Lemma run_respond {A} (p : prog (res A)) f s :
  run (respond p f) s =
  (match fst (run p s) with Ok a => Ok (f a) | Err e => Err e | Panic => Panic | Fuel => Fuel end,
   snd (run p s)).
Proof. unfold respond. rewrite run_rbind. destruct (fst (run p s)); reflexivity. Qed.

(** A program that writes nothing. *)
Inductive reads {A} : prog A -> Prop :=
| rd_ret a : reads (Ret a)
| rd_polget id k : (forall x, reads (k x)) -> reads (PolGet id k)
| rd_polhas id k : (forall x, reads (k x)) -> reads (PolHas id k)
| rd_polids k : (forall x, reads (k x)) -> reads (PolIds k)
| rd_edgeget pid key k : (forall x, reads (k x)) -> reads (EdgeGet pid key k)
| rd_edgelist pid k : (forall x, reads (k x)) -> reads (EdgeList pid k)
| rd_dataget key k : (forall x, reads (k x)) -> reads (DataGet key k).

Lemma reads_run {A} (p : prog A) : reads p -> forall s, snd (run p s) = s.
Proof. induction 1; intros s; cbn [run]; auto. Qed.

Lemma reads_pbind {A B} (p : prog A) (f : A -> prog B) :
  reads p -> (forall a, reads (f a)) -> reads (pbind p f).
Proof. intros Hp Hf. induction Hp; cbn [pbind]; try constructor; auto. Qed.

Lemma reads_rbind {A B} (p : prog (res A)) (f : A -> prog (res B)) :
  reads p -> (forall a, reads (f a)) -> reads (rbind p f).
Proof. intros Hp Hf. apply reads_pbind; [exact Hp |]. intros []; auto; constructor. Qed.

Lemma reads_lift {A} (x : res A) : reads (lift x).
Proof. constructor. Qed.

Lemma reads_map_prog {A B} (f : A -> prog (res B)) l : (forall a, reads (f a)) -> reads (map_prog f l).
Proof.
  intros Hf. induction l as [| a l IH]; cbn [map_prog]; [constructor |].
  apply reads_rbind; [auto |]. intros b. apply reads_rbind; [exact IH |]. intros. constructor.
Qed.

Lemma reads_get_policy id : reads (repo_get_policy id).
Proof. constructor. intros. constructor. Qed.

Lemma reads_get_relationship E pid r : reads (repo_get_relationship E pid r).
Proof. apply reads_rbind; [constructor |]. intros. constructor. intros. constructor. Qed.

Lemma reads_find pid s : reads (repo_find_relationships pid s).
Proof. constructor. intros. constructor. Qed.

Lemma scans_reads {A} pid (p : prog A) : scans pid p -> reads p.
Proof. induction 1; constructor; auto. Qed.

Lemma reads_check_search E n pid a : reads (check_search E n pid a).
Proof.
  apply reads_pbind; [apply reads_get_policy |]. intros [rec |]; [| constructor].
  destruct a; [| constructor]. apply scans_reads with pid, scans_search.
Qed.

Create HintDb reads.
#[export] Hint Resolve reads_get_policy reads_get_relationship reads_find reads_check_search reads_lift : reads.

(** Requests that only read. *)
Definition is_read (q : request) : Prop :=
  match q with
  | QGetPolicy _ | QListPolicyIds | QGetRelationship _ _ | QFindRelationshipRecords _ _
  | QCheck _ _ _ | QExplainCheck _ _ _ _ | QExpand _ _ _ _ | QDumpRelationships _ _ _ => True
  | _ => False
  end.

Lemma reads_serve E q : is_read q -> reads (serve E q).
Proof.
  destruct q; cbn [is_read serve]; try tauto; intros _; unfold respond;
    (apply reads_rbind; [| intros; constructor]).
  - apply reads_pbind; [apply reads_get_policy | intros; constructor].
  - apply reads_pbind; [constructor; intros; constructor | intros; constructor].
  - apply reads_get_relationship.
  - apply reads_pbind; [apply reads_get_policy |]. intros [rec |]; [| constructor].
    apply reads_rbind; [constructor |]. intros _. apply reads_rbind; [apply reads_find |].
    intros. apply reads_map_prog. intros. apply reads_get_relationship.
  - apply reads_rbind; [apply reads_check_search |]. intros. constructor.
  - apply reads_rbind; [constructor |]. intros _. apply reads_rbind; [apply reads_check_search |].
    intros. apply reads_rbind; [constructor |]. intros. constructor.
  - apply reads_rbind; [constructor |]. intros _. apply reads_pbind; [apply reads_get_policy |].
    intros [rec |]; [| constructor]. destruct root; [| constructor].
    apply reads_rbind; [eapply scans_reads, scans_search |]. intros. apply reads_rbind; [constructor |]. intros. constructor.
  - apply reads_pbind; [apply reads_get_policy |]. intros [rec |]; [| constructor].
    constructor. intros. constructor.
Qed.

Lemma after_read E q s : is_read q -> after E q s = s.
Proof. intros H. apply reads_run, reads_serve, H. Qed.

(** ** Mapper *)

Lemma to_internal_complete r : complete_relationship r <-> exists e, to_internal (Some r) = Ok e.
Proof.
  unfold complete_relationship, to_internal. destruct r as [[o |] rel u]; cbn [r_object r_relation r_subject].
  - destruct u as [[e | [e |] x | rs |] |]; cbn [bind]; split; intros H; eauto;
      try (repeat split; [discriminate | discriminate | discriminate]).
    + exfalso. destruct H as (_ & _ & H). eapply H. reflexivity.
    + destruct H as [? [=]].
    + exfalso. destruct H as (_ & H & _). congruence.
    + destruct H as [? [=]].
  - split; [intros (H & _); congruence |].
    destruct u as [[e | [e |] x | rs |] |]; cbn [bind]; intros [? [=]].
Qed.

Lemma to_internal_returns r : (exists e, to_internal r = Ok e) \/ to_internal r = Panic.
Proof.
  unfold to_internal. destruct r as [[[o |] rel u] |]; cbn [r_object r_relation r_subject]; auto;
    destruct u as [[e | [e |] x | rs |] |]; cbn [bind]; eauto.
Qed.

Theorem from_to_internal r e : to_internal (Some r) = Ok e -> from_internal e = r.
Proof.
  unfold to_internal. destruct r as [[o |] rel u]; cbn [r_object r_relation r_subject].
  - destruct u as [[x | [x |] y | rs |] |]; cbn [bind]; try discriminate; intros [= <-]; unfold from_internal; cbn;
      try destruct o; try destruct x; reflexivity.
  - destruct u as [[x | [x |] y | rs |] |]; cbn [bind]; discriminate.
Qed.

(** Edges that the mapper produces. *)
Definition edge_image (e : edge) : Prop := exists r, to_internal (Some r) = Ok e.

Lemma to_from_internal e : edge_image e -> to_internal (Some (from_internal e)) = Ok e.
Proof. intros [r H]. rewrite (from_to_internal r e H). exact H. Qed.

(** Key of a relationship. *)
Definition rel_key (E : env) (r : relationship) : string * string :=
  match to_internal (Some r) with Ok e => edge_key E e | _ => (""%string, ""%string) end.

Lemma rel_key_edge E e : edge_image e -> rel_key E (from_internal e) = edge_key E e.
Proof. intros H. unfold rel_key. rewrite (to_from_internal e H). reflexivity. Qed.

(** ** The store invariant *)

Record store_ok (E : env) (s : store) : Prop := {
  so_pol : kv_sorted scmp (st_pol s);
  so_edges : kv_sorted ecmp (st_edges s);
  so_data : kv_sorted pcmp (st_data s);
  so_policy : forall id r, kv_get scmp id (st_pol s) = Some r ->
                           p_id (pr_policy r) = id /\ well_formed E (pr_policy r);
  so_edge : forall pid k e, kv_get ecmp (pid, k) (st_edges s) = Some e ->
                            edge_image e /\ k = edge_key E e }.

Lemma empty_ok E : store_ok E empty_store.
Proof. split; cbn; auto; discriminate. Qed.

Lemma edges_of_in E s pid k e : store_ok E s ->
  (In (k, e) (edges_of pid s) <-> kv_get ecmp (pid, k) (st_edges s) = Some e).
Proof.
  intros H. rewrite (get_iff ecmp ecmp_ok _ _ _ (so_edges _ _ H)). unfold edges_of. rewrite in_map_iff. split.
  - intros ([[pid' k'] e'] & [= <- <-] & Hin). apply filter_In in Hin as [Hin Heq].
    cbn in Heq. apply String.eqb_eq in Heq as ->. exact Hin.
  - intros Hin. exists ((pid, k), e). split; [reflexivity |]. apply filter_In. split; [exact Hin |].
    cbn. apply String.eqb_refl.
Qed.

Lemma edges_of_edge E s pid k e : store_ok E s -> In (k, e) (edges_of pid s) ->
  edge_image e /\ k = edge_key E e.
Proof. intros H Hin. apply edges_of_in with (E := E) in Hin; [| exact H]. eapply so_edge; eauto. Qed.

Lemma relationships_in E s pid r : store_ok E s ->
  (In r (relationships s pid) <->
   exists e, to_internal (Some r) = Ok e /\ kv_get ecmp (pid, edge_key E e) (st_edges s) = Some e).
Proof.
  intros H. unfold relationships. rewrite in_map_iff. split.
  - intros ([k e] & <- & Hin). cbn [snd]. destruct (edges_of_edge E s pid k e H Hin) as [Hi ->].
    exists e. split; [apply to_from_internal; exact Hi |]. apply (edges_of_in E); auto.
  - intros (e & He & Hg). exists (edge_key E e, e). split; [apply from_to_internal; exact He |].
    apply (edges_of_in E); auto.
Qed.

Lemma relationships_nodup E s pid : store_ok E s -> NoDup (relationships s pid).
Proof.
  intros H. unfold relationships.
  assert (NoDup (map fst (edges_of pid s))) as Hk.
  { unfold edges_of. rewrite map_map. cbn [fst].
    pose proof (sorted_nodup ecmp ecmp_ok _ (so_edges _ _ H)) as Hnd. clear H.
    induction (st_edges s) as [| [[p k] e] m IH]; cbn; [constructor |].
    cbn in Hnd. inversion Hnd; subst. destruct (String.eqb p pid) eqn:Hp; cbn; auto.
    constructor; auto. intros Hin. apply in_map_iff in Hin as ([[p' k'] e'] & Heq & Hin). cbn in Heq. subst k'.
    apply filter_In in Hin as [Hin Hp']. cbn in Hp'. apply String.eqb_eq in Hp as ->, Hp' as ->.
    apply H1. apply in_map_iff. exists ((pid, k), e'). auto. }
  assert (forall k e, In (k, e) (edges_of pid s) -> edge_image e /\ k = edge_key E e) as Ho
      by (intros; eapply edges_of_edge; eauto).
  induction (edges_of pid s) as [| [k e] m IH]; cbn; [constructor |].
  cbn in Hk. inversion Hk; subst. constructor; [| apply IH; auto; intros; apply Ho; right; assumption].
  intros Hin. apply in_map_iff in Hin as ([k' e'] & Heq & Hin). cbn in Heq.
  destruct (Ho k e) as [Hi ->]; [left; reflexivity |].
  destruct (Ho k' e') as [Hi' ->]; [right; exact Hin |].
  apply H2. apply in_map_iff. exists (edge_key E e', e'). split; [| exact Hin]. cbn.
  rewrite <- (rel_key_edge E e Hi), <- (rel_key_edge E e' Hi'), Heq. reflexivity.
Qed.

(** ** Effects of the writing methods *)

Definition put_policy (r : policy_record) (s : store) : store :=
  mkStore (kv_set scmp (p_id (pr_policy r)) r (st_pol s)) (st_edges s) (st_data s).

Definition drop_policy (id : string) (s : store) : store :=
  mkStore (kv_del scmp id (st_pol s)) (st_edges s) (st_data s).

Definition put_rel (E : env) (pid : string) (e : edge) (d : rdata) (s : store) : store :=
  mkStore (st_pol s) (kv_set ecmp (pid, edge_key E e) e (st_edges s))
    (kv_set pcmp (edge_key E e) d (st_data s)).

Definition drop_key (pid : string) (k : string * string) (s : store) : store :=
  mkStore (st_pol s) (kv_del ecmp (pid, k) (st_edges s)) (kv_del pcmp k (st_data s)).

Definition drop_keys (pid : string) (ks : list (string * string)) (s : store) : store :=
  fold_left (fun s k => drop_key pid k s) ks s.

Lemma run_create E now d app s :
  run (create_policy E now d app) s =
  match get_policy_from_definition d with
  | Ok p =>
      match kv_get scmp (p_id p) (st_pol s) with
      | Some _ => (Err EPolicyExists, s)
      | None =>
          match verify_policy E p with
          | Ok _ => (Ok (mkPRec p app now), put_policy (mkPRec p app now) s)
          | Err e => (Err e, s)
          | Panic => (Panic, s)
          | Fuel => (Fuel, s)
          end
      end
  | Err e => (Err e, s)
  | Panic => (Panic, s)
  | Fuel => (Fuel, s)
  end.
Proof.
  unfold create_policy. rewrite run_rbind. cbn [lift run fst snd].
  destruct (get_policy_from_definition d) as [p | | |]; try reflexivity.
  rewrite run_pbind. cbn [repo_get_policy run fst snd].
  destruct (kv_get scmp (p_id p) (st_pol s)); [reflexivity |].
  rewrite run_rbind. cbn [lift run fst snd]. destruct (verify_policy E p); reflexivity.
Qed.

Lemma run_update E d app s :
  run (update_policy E d app) s =
  match get_policy_from_definition d with
  | Ok p =>
      match kv_get scmp (p_id p) (st_pol s) with
      | None => (Err EPolicyNotFound, s)
      | Some r =>
          match verify_policy E p with
          | Ok _ => (Ok tt, put_policy (mkPRec p app (pr_created r)) s)
          | Err e => (Err e, s)
          | Panic => (Panic, s)
          | Fuel => (Fuel, s)
          end
      end
  | Err e => (Err e, s)
  | Panic => (Panic, s)
  | Fuel => (Fuel, s)
  end.
Proof.
  unfold update_policy. rewrite run_rbind. cbn [lift run fst snd].
  destruct (get_policy_from_definition d) as [p | | |]; try reflexivity.
  rewrite run_pbind. cbn [repo_get_policy run fst snd].
  destruct (kv_get scmp (p_id p) (st_pol s)); [| reflexivity].
  rewrite run_rbind. cbn [lift run fst snd]. destruct (verify_policy E p); reflexivity.
Qed.

Lemma run_set_rel E now pid r app s :
  run (set_relationship E now pid r app) s =
  match kv_get scmp pid (st_pol s) with
  | None => (Err EPolicyNotFound, s)
  | Some rec =>
      match allowed_relationship (pr_policy rec) r with
      | Ok _ =>
          match to_internal r with
          | Ok e => (Ok (is_some (kv_get ecmp (pid, edge_key E e) (st_edges s))),
                     put_rel E pid e (mkData app now) s)
          | Err x => (Err x, s)
          | Panic => (Panic, s)
          | Fuel => (Fuel, s)
          end
      | Err x => (Err x, s)
      | Panic => (Panic, s)
      | Fuel => (Fuel, s)
      end
  end.
Proof.
  unfold set_relationship. rewrite run_pbind. cbn [repo_get_policy run fst snd].
  destruct (kv_get scmp pid (st_pol s)) as [rec |]; [| reflexivity].
  rewrite run_rbind. cbn [lift run fst snd].
  destruct (allowed_relationship (pr_policy rec) r); try reflexivity.
  unfold repo_set_relationship. rewrite run_rbind. cbn [lift run fst snd].
  destruct (to_internal r); reflexivity.
Qed.

Lemma run_delete_rel E pid r s :
  run (delete_relationship E pid r) s =
  match to_internal r with
  | Ok e => (Ok (is_some (kv_get ecmp (pid, edge_key E e) (st_edges s))), drop_key pid (edge_key E e) s)
  | Err x => (Err x, s)
  | Panic => (Panic, s)
  | Fuel => (Fuel, s)
  end.
Proof.
  unfold delete_relationship, repo_delete_relationship. rewrite run_rbind. cbn [lift run fst snd].
  destruct (to_internal r); reflexivity.
Qed.

Lemma run_get_rel E pid r s :
  run (get_relationship E pid r) s =
  (match to_internal r with
   | Ok e => Ok (option_map (from_internal_record pid e) (kv_get pcmp (edge_key E e) (st_data s)))
   | Err x => Err x
   | Panic => Panic
   | Fuel => Fuel
   end, s).
Proof.
  unfold get_relationship, repo_get_relationship. rewrite run_rbind. cbn [lift run fst snd].
  destruct (to_internal r) as [a | | |]; reflexivity.
Qed.

(** The relationships of a policy that match a selector. *)
Definition matching (s : store) (pid : string) (sp : obj_selector * rel_selector * subj_selector) :=
  filter (selector_satisfies sp) (relationships s pid).

Lemma run_find pid sel s :
  run (repo_find_relationships pid sel) s =
  (match new_selector_spec sel with
   | Ok sp => Ok (matching s pid sp)
   | Err e => Err e
   | Panic => Panic
   | Fuel => Fuel
   end, s).
Proof. cbn. unfold matching, relationships. destruct (new_selector_spec sel); reflexivity. Qed.

(** Running a reading step over a list. *)
Lemma run_map_reads {A B} (f : A -> prog (res B)) (g : A -> B) s : forall l,
  (forall a, In a l -> run (f a) s = (Ok (g a), s)) -> run (map_prog f l) s = (Ok (map g l), s).
Proof.
  induction l as [| a l IH]; intros H; [reflexivity |]. cbn [map_prog map].
  rewrite run_rbind, (H a) by (left; reflexivity). cbn [fst snd].
  rewrite run_rbind, IH by (intros; apply H; right; assumption). reflexivity.
Qed.

(** The record of an edge. *)
Definition record_of (s : store) (pid : string) (E : env) (r : relationship) : option rel_record :=
  match kv_get pcmp (rel_key E r) (st_data s) with
  | None => None
  | Some d => Some (mkRRec pid r (d_created d) (d_app d))
  end.

Lemma run_find_records E pid sel s : store_ok E s ->
  run (repo_find_relationship_records E pid sel) s =
  (match new_selector_spec sel with
   | Ok sp => Ok (map (record_of s pid E) (matching s pid sp))
   | Err e => Err e
   | Panic => Panic
   | Fuel => Fuel
   end, s).
Proof.
  intros H. unfold repo_find_relationship_records. rewrite run_rbind, run_find. cbn [fst snd].
  destruct (new_selector_spec sel) as [sp | | |]; try reflexivity.
  apply run_map_reads. intros r Hr. apply filter_In in Hr as [Hr _].
  apply (relationships_in E) in Hr as (e & He & _); [| exact H].
  rewrite (run_get_rel E pid (Some r) s : run (repo_get_relationship E pid (Some r)) s = _), He.
  unfold record_of, rel_key. rewrite He.
  destruct (kv_get pcmp (edge_key E e) (st_data s)); [| reflexivity].
  unfold from_internal_record. cbn. rewrite (from_to_internal r e He). reflexivity.
Qed.

Lemma run_map_delete E pid rs : forall s,
  (forall r, In r rs -> exists e, to_internal (Some r) = Ok e) ->
  exists founds,
    run (map_prog (fun r => repo_delete_relationship E pid (Some r)) rs) s =
      (Ok founds, drop_keys pid (map (rel_key E) rs) s) /\ length founds = length rs.
Proof.
  induction rs as [| r rs IH]; intros s H.
  - exists []. split; reflexivity.
  - cbn [map_prog map drop_keys fold_left].
    destruct (H r) as [e He]; [left; reflexivity |].
    rewrite run_rbind, (run_delete_rel E pid (Some r) s : run (repo_delete_relationship E pid (Some r)) s = _), He.
    cbn [fst snd].
    destruct (IH (drop_key pid (edge_key E e) s)) as (founds & Hf & Hl).
    { intros r' Hr'. apply H. right. exact Hr'. }
    rewrite run_rbind, Hf. cbn [fst snd run].
    assert (rel_key E r = edge_key E e) as Hk by (unfold rel_key; rewrite He; reflexivity). rewrite Hk.
    eexists. split; [reflexivity |]. cbn. rewrite Hl. reflexivity.
Qed.

Lemma relationships_internal s pid r : (forall k e, In (k, e) (edges_of pid s) -> edge_image e) ->
  In r (relationships s pid) -> exists e, to_internal (Some r) = Ok e.
Proof.
  intros H Hin. apply in_map_iff in Hin as ([k e] & <- & Hin). exists e.
  apply to_from_internal. eapply H. exact Hin.
Qed.

Lemma to_internal_from_internal e : exists e', to_internal (Some (from_internal e)) = Ok e'.
Proof. unfold from_internal, to_internal. cbn. destruct (i_type (ed_dst e)); cbn; eauto. Qed.

Lemma run_delete_rels E pid sel s :
  run (delete_relationships E pid sel) s =
  match new_selector_spec sel with
  | Ok sp => (Ok (length (matching s pid sp)), drop_keys pid (map (rel_key E) (matching s pid sp)) s)
  | Err e => (Err e, s)
  | Panic => (Panic, s)
  | Fuel => (Fuel, s)
  end.
Proof.
  unfold delete_relationships, repo_delete_relationships. rewrite run_rbind, run_find. cbn [fst snd].
  destruct (new_selector_spec sel) as [sp | | |]; try reflexivity.
  destruct (run_map_delete E pid (matching s pid sp) s) as (founds & Hf & Hl).
  { intros r Hr. apply filter_In in Hr as [Hr _]. apply in_map_iff in Hr as ([k e] & <- & _).
    apply to_internal_from_internal. }
  rewrite run_rbind, Hf. cbn [fst snd run]. rewrite Hl. reflexivity.
Qed.

Definition all_spec : obj_selector * rel_selector * subj_selector := (OSWild, LSWild, USWild).

Lemma matching_all s pid : matching s pid all_spec = relationships s pid.
Proof.
  unfold matching. induction (relationships s pid) as [| r l IH]; cbn; [reflexivity |]. rewrite IH. reflexivity.
Qed.

Lemma run_delete_policy E id s :
  run (delete_policy E id) s =
  match kv_get scmp id (st_pol s) with
  | None => (Ok (false, 0), s)
  | Some _ => (Ok (true, length (relationships s id)),
               drop_keys id (map (rel_key E) (relationships s id)) (drop_policy id s))
  end.
Proof.
  unfold delete_policy. rewrite run_pbind. unfold repo_delete_policy. cbn [run fst snd].
  destruct (kv_get scmp id (st_pol s)); [| reflexivity]. cbn [run fst snd].
  rewrite run_rbind. fold (drop_policy id s).
  rewrite (run_delete_rels E id (Some all_relationships_selector) (drop_policy id s)
    : run (repo_delete_relationships E id (Some all_relationships_selector)) (drop_policy id s) = _).
  change (new_selector_spec (Some all_relationships_selector)) with (Ok all_spec).
  cbn [fst snd run]. rewrite matching_all. reflexivity.
Qed.

(** ** Contents after dropping keys *)

Lemma drop_keys_pol pid ks : forall s, st_pol (drop_keys pid ks s) = st_pol s.
Proof. induction ks as [| k ks IH]; intros s; cbn [drop_keys fold_left]; [reflexivity |]. unfold drop_keys in IH. rewrite IH. reflexivity. Qed.

Lemma key_dec (a b : string * string) : {a = b} + {a <> b}.
Proof. destruct a, b. destruct (string_dec s s1); [destruct (string_dec s0 s2) |]; [left | right | right]; congruence. Qed.

Lemma drop_keys_edges pid ks : forall s pid' k,
  kv_get ecmp (pid', k) (st_edges (drop_keys pid ks s)) =
  if string_dec pid' pid then if in_dec key_dec k ks then None else kv_get ecmp (pid', k) (st_edges s)
  else kv_get ecmp (pid', k) (st_edges s).
Proof.
  induction ks as [| x ks IH]; intros s pid' k; cbn [drop_keys fold_left].
  - destruct (string_dec pid' pid); reflexivity.
  - unfold drop_keys in IH. rewrite IH. cbn [drop_key st_edges].
    destruct (string_dec pid' pid) as [-> | Hne].
    + destruct (in_dec key_dec k ks) as [Hin | Hnin].
      * destruct (in_dec key_dec k (x :: ks)) as [_ | H]; [reflexivity |]. exfalso. apply H. right. exact Hin.
      * destruct (key_dec k x) as [-> | Hkx].
        -- rewrite (get_del_same ecmp). destruct (in_dec key_dec x (x :: ks)) as [_ | H]; [reflexivity |].
           exfalso. apply H. left. reflexivity.
        -- rewrite (get_del_other ecmp ecmp_ok) by congruence.
           destruct (in_dec key_dec k (x :: ks)) as [[-> | H] | _]; [congruence | contradiction | reflexivity].
    + apply (get_del_other ecmp ecmp_ok). congruence.
Qed.

Lemma drop_keys_data pid ks : forall s k,
  kv_get pcmp k (st_data (drop_keys pid ks s)) =
  if in_dec key_dec k ks then None else kv_get pcmp k (st_data s).
Proof.
  induction ks as [| x ks IH]; intros s k; cbn [drop_keys fold_left]; [reflexivity |].
  unfold drop_keys in IH. rewrite IH. cbn [drop_key st_data].
  destruct (in_dec key_dec k ks) as [Hin | Hnin].
  - destruct (in_dec key_dec k (x :: ks)) as [_ | H]; [reflexivity |]. exfalso. apply H. right. exact Hin.
  - destruct (key_dec k x) as [-> | Hkx].
    + rewrite (get_del_same pcmp). destruct (in_dec key_dec x (x :: ks)) as [_ | H]; [reflexivity |].
      exfalso. apply H. left. reflexivity.
    + rewrite (get_del_other pcmp pcmp_ok) by congruence.
      destruct (in_dec key_dec k (x :: ks)) as [[-> | H] | _]; [congruence | contradiction | reflexivity].
Qed.

(** ** The invariant is kept by every request *)

Lemma put_policy_ok E r s : store_ok E s -> well_formed E (pr_policy r) -> store_ok E (put_policy r s).
Proof.
  intros [H1 H2 H3 H4 H5] Hw. split; cbn [put_policy st_pol st_edges st_data]; auto.
  - apply sorted_set; [apply scmp_ok | exact H1].
  - intros id r'. rewrite (get_set scmp scmp_ok).
    destruct (scmp id (p_id (pr_policy r))) eqn:Hc; try apply H4.
    apply scmp_eq in Hc as ->. intros [= <-]. auto.
Qed.

Lemma drop_policy_ok E id s : store_ok E s -> store_ok E (drop_policy id s).
Proof.
  intros [H1 H2 H3 H4 H5]. split; cbn [drop_policy st_pol st_edges st_data]; auto.
  - apply sorted_del; [apply scmp_ok | exact H1].
  - intros id' r'. rewrite (get_del scmp scmp_ok). destruct (scmp id' id); try discriminate; apply H4.
Qed.

Lemma put_rel_ok E pid e d s : store_ok E s -> edge_image e -> store_ok E (put_rel E pid e d s).
Proof.
  intros [H1 H2 H3 H4 H5] Hi. split; cbn [put_rel st_pol st_edges st_data]; auto.
  - apply sorted_set; [apply ecmp_ok | exact H2].
  - apply sorted_set; [apply pcmp_ok | exact H3].
  - intros pid' k e'. rewrite (get_set ecmp ecmp_ok).
    destruct (ecmp (pid', k) (pid, edge_key E e)) eqn:Hc; try apply H5.
    apply (cmp_eq _ ecmp_ok) in Hc. injection Hc as -> ->. intros [= <-]. auto.
Qed.

Lemma drop_key_ok E pid k s : store_ok E s -> store_ok E (drop_key pid k s).
Proof.
  intros [H1 H2 H3 H4 H5]. split; cbn [drop_key st_pol st_edges st_data]; auto.
  - apply sorted_del; [apply ecmp_ok | exact H2].
  - apply sorted_del; [apply pcmp_ok | exact H3].
  - intros pid' k' e'. rewrite (get_del ecmp ecmp_ok). destruct (ecmp (pid', k') (pid, k)); try discriminate; apply H5.
Qed.

Lemma drop_keys_ok E pid ks : forall s, store_ok E s -> store_ok E (drop_keys pid ks s).
Proof. induction ks as [| k ks IH]; intros s H; [exact H |]. apply IH. apply drop_key_ok. exact H. Qed.

Lemma after_ok E q s : store_ok E s -> store_ok E (after E q s).
Proof.
  intros H. unfold after. destruct q;
    try (rewrite reads_run by (apply reads_serve; exact I); exact H); cbn [serve]; rewrite run_respond; cbn [snd].
  - rewrite run_create. destruct (get_policy_from_definition d) as [p | | |]; try exact H.
    destruct (kv_get scmp (p_id p) (st_pol s)); [exact H |].
    destruct (verify_policy E p) as [[] | | |] eqn:Hv; try exact H.
    apply put_policy_ok; [exact H |]. apply verify_ok. exact Hv.
  - rewrite run_update. destruct (get_policy_from_definition d) as [p | | |]; try exact H.
    destruct (kv_get scmp (p_id p) (st_pol s)); [| exact H].
    destruct (verify_policy E p) as [[] | | |] eqn:Hv; try exact H.
    apply put_policy_ok; [exact H |]. apply verify_ok. exact Hv.
  - rewrite run_delete_policy. destruct (kv_get scmp id (st_pol s)); [| exact H].
    apply drop_keys_ok, drop_policy_ok, H.
  - rewrite run_set_rel. destruct (kv_get scmp pid (st_pol s)); [| exact H].
    destruct (allowed_relationship _ r) eqn:Ha; try exact H.
    destruct (to_internal r) eqn:He; try exact H.
    apply put_rel_ok; [exact H |]. destruct r as [r |]; [exists r; exact He | discriminate].
  - rewrite run_delete_rel. destruct (to_internal r); try exact H. apply drop_key_ok, H.
  - rewrite run_delete_rels. destruct (new_selector_spec s0); try exact H. apply drop_keys_ok, H.
Qed.

Lemma after_all_ok E qs : forall s, store_ok E s -> store_ok E (after_all E qs s).
Proof. induction qs as [| q qs IH]; intros s H; [exact H |]. apply IH, after_ok, H. Qed.

(** ** Requests served at the same time *)

Lemma replace_same {A} i (x y : A) l : nth_error l i = Some y -> nth_error (replace i x l) i = Some x.
Proof. revert i. induction l as [| z l IH]; intros [| i]; cbn; try discriminate; auto. Qed.

Lemma replace_other {A} i j (x : A) l : i <> j -> nth_error (replace i x l) j = nth_error l j.
Proof. revert i j. induction l as [| z l IH]; intros [| i] [| j] H; cbn; auto; congruence. Qed.

Lemma replace_twice {A} i (x y : A) l : replace i x (replace i y l) = replace i x l.
Proof. revert i. induction l as [| z l IH]; intros [| i]; cbn; auto. rewrite IH. reflexivity. Qed.

Lemma replace_id {A} i (x : A) l : nth_error l i = Some x -> replace i x l = l.
Proof. revert i. induction l as [| z l IH]; intros [| i]; cbn; intros H; try discriminate; [congruence |]. rewrite IH; auto. Qed.

Lemma interleave_app s1 s2 c : interleave (s1 ++ s2) c = interleave s2 (interleave s1 c).
Proof. apply fold_left_app. Qed.

Lemma step_case i ts s p p' s' : nth_error ts i = Some p -> step1 p s = Some (p', s') -> run p s = run p' s' ->
  (exists k, interleave (repeat i k) (replace i p' ts, s') = (replace i (Ret (fst (run p' s'))) (replace i p' ts), snd (run p' s'))) ->
  exists k, interleave (repeat i k) (ts, s) = (replace i (Ret (fst (run p s))) ts, snd (run p s)).
Proof.
  intros Hi Hs Hr [k Hk]. exists (S k). cbn [repeat interleave fold_left]. unfold advance at 2. cbn [fst snd]. rewrite Hi, Hs.
  unfold interleave in Hk. rewrite Hk, replace_twice, Hr. reflexivity.
Qed.

Lemma complete_one p : forall i ts s, nth_error ts i = Some p ->
  exists k, interleave (repeat i k) (ts, s) = (replace i (Ret (fst (run p s))) ts, snd (run p s)).
Proof.
  induction p; intros i ts s Hi; try (eapply step_case; [exact Hi | reflexivity | reflexivity |]; match goal with H : _ |- _ => apply H; eapply replace_same; exact Hi end).
  exists 0. cbn. rewrite replace_id; auto.
Qed.

(** The program writes only well-formed policies and edges of relationships. *)
Inductive tidy (E : env) {A} : prog A -> Prop :=
| ti_ret a : tidy E (Ret a)
| ti_polget id k : (forall x, tidy E (k x)) -> tidy E (PolGet id k)
| ti_polhas id k : (forall x, tidy E (k x)) -> tidy E (PolHas id k)
| ti_polset id r k : p_id (pr_policy r) = id -> well_formed E (pr_policy r) -> tidy E k -> tidy E (PolSet id r k)
| ti_poldel id k : tidy E k -> tidy E (PolDel id k)
| ti_polids k : (forall x, tidy E (k x)) -> tidy E (PolIds k)
| ti_edgeget pid key k : (forall x, tidy E (k x)) -> tidy E (EdgeGet pid key k)
| ti_edgeset pid key e k : edge_image e -> key = edge_key E e -> tidy E k -> tidy E (EdgeSet pid key e k)
| ti_edgedel pid key k : tidy E k -> tidy E (EdgeDel pid key k)
| ti_edgelist pid k : (forall x, tidy E (k x)) -> tidy E (EdgeList pid k)
| ti_dataget key k : (forall x, tidy E (k x)) -> tidy E (DataGet key k)
| ti_dataset key d k : tidy E k -> tidy E (DataSet key d k)
| ti_datadel key k : tidy E k -> tidy E (DataDel key k).

Lemma tidy_reads E {A} (p : prog A) : reads p -> tidy E p.
Proof. induction 1; constructor; auto. Qed.

Lemma tidy_pbind E {A B} (p : prog A) (f : A -> prog B) : tidy E p -> (forall a, tidy E (f a)) -> tidy E (pbind p f).
Proof. intros Hp Hf. induction Hp; cbn [pbind]; auto; constructor; auto. Qed.

Lemma tidy_rbind E {A B} (p : prog (res A)) (f : A -> prog (res B)) : tidy E p -> (forall a, tidy E (f a)) -> tidy E (rbind p f).
Proof. intros Hp Hf. apply tidy_pbind; [exact Hp |]. intros []; auto; constructor. Qed.

Lemma tidy_map E {A B} (f : A -> prog (res B)) l : (forall a, tidy E (f a)) -> tidy E (map_prog f l).
Proof.
  intros Hf. induction l as [| a l IH]; cbn [map_prog]; [constructor |].
  apply tidy_rbind; [auto |]. intros b. apply tidy_rbind; [exact IH |]. intros. constructor.
Qed.

Lemma tidy_delete_relationship E pid r : tidy E (repo_delete_relationship E pid r).
Proof.
  unfold repo_delete_relationship, rbind, lift. cbn [pbind]. destruct (to_internal r); try constructor.
  intros x. constructor. constructor. constructor.
Qed.

Lemma tidy_delete_relationships E pid s : tidy E (repo_delete_relationships E pid s).
Proof.
  apply tidy_rbind; [apply tidy_reads, reads_find |]. intros rs. apply tidy_rbind; [| intros; constructor].
  apply tidy_map. intros r. apply tidy_delete_relationship.
Qed.

Lemma tidy_serve E q : tidy E (serve E q).
Proof.
  assert (Hd : is_read q \/ ~ is_read q) by (destruct q; cbn; tauto).
  destruct Hd as [Hr | Hr]; [apply tidy_reads, reads_serve, Hr |].
  destruct q; cbn [is_read] in Hr; try tauto; cbn [serve]; (apply tidy_rbind; [| intros; constructor]).
  - unfold create_policy, repo_get_policy, repo_set_policy, lift, rbind. cbn [pbind].
    destruct (get_policy_from_definition d) as [p | | |]; try constructor. intros [r |]; try constructor.
    cbn [pbind]. destruct (verify_policy E p) as [[] | | |] eqn:Hv; try constructor.
    intros x. constructor; [reflexivity | apply verify_ok; exact Hv | constructor].
  - unfold update_policy, repo_get_policy, repo_set_policy, lift, rbind. cbn [pbind].
    destruct (get_policy_from_definition d) as [p | | |]; try constructor. intros [r |]; try constructor.
    cbn [pbind]. destruct (verify_policy E p) as [[] | | |] eqn:Hv; try constructor.
    intros x. constructor; [reflexivity | apply verify_ok; exact Hv | constructor].
  - unfold delete_policy, repo_delete_policy. cbn [pbind]. constructor. intros []; cbn [pbind]; [| constructor].
    constructor. apply tidy_rbind; [apply tidy_delete_relationships | intros; constructor].
  - unfold set_relationship, repo_get_policy. cbn [pbind]. constructor. intros [rec |]; [| constructor].
    apply tidy_rbind; [constructor |]. intros _. unfold repo_set_relationship, lift, rbind. cbn [pbind].
    destruct (to_internal r) as [e | | |] eqn:He; try constructor. intros x.
    constructor; [| reflexivity | constructor; constructor]. destruct r as [r |]; [exists r; exact He | discriminate].
  - apply tidy_delete_relationship.
  - apply tidy_delete_relationships.
Qed.

Lemma tidy_step E {A} (p : prog A) s p' s' : tidy E p -> step1 p s = Some (p', s') -> store_ok E s -> tidy E p' /\ store_ok E s'.
Proof.
  intros Hp Hs H. inversion Hp; subst; cbn [step1] in Hs; try discriminate; injection Hs as <- <-; (split; [auto |]); try exact H.
  - apply (put_policy_ok E r s); assumption.
  - apply (drop_policy_ok E id s); assumption.
  - destruct H as [O1 O2 O3 O4 O5]. split; auto; cbn [st_edges].
    + apply sorted_set; [exact ecmp_ok | exact O2].
    + intros pid0 k0 e0. rewrite (get_set ecmp ecmp_ok). destruct (ecmp (pid0, k0) (pid, edge_key E e)) eqn:Hc; eauto.
      apply (cmp_eq _ ecmp_ok) in Hc. injection Hc as -> ->. intros [= <-]. auto.
  - destruct H as [O1 O2 O3 O4 O5]. split; auto; cbn [st_edges].
    + apply sorted_del; [exact ecmp_ok | exact O2].
    + intros pid0 k0 e0. rewrite (get_del ecmp ecmp_ok). destruct (ecmp (pid0, k0) (pid, key)) eqn:Hc; eauto. discriminate.
  - destruct H as [O1 O2 O3 O4 O5]. split; auto; cbn [st_data]. apply sorted_set; [exact pcmp_ok | exact O3].
  - destruct H as [O1 O2 O3 O4 O5]. split; auto; cbn [st_data]. apply sorted_del; [exact pcmp_ok | exact O3].
Qed.

Lemma in_replace {A} i (x y : A) l : In y (replace i x l) -> y = x \/ In y l.
Proof. revert i. induction l as [| z l IH]; intros [| i]; cbn; intuition. apply IH in H0. tauto. Qed.

Lemma interleave_ok E sched : forall c, (forall p, In p (fst c) -> tidy E p) -> store_ok E (snd c) ->
  store_ok E (snd (interleave sched c)).
Proof.
  induction sched as [| i sched IH]; intros c Ht H; [exact H |]. cbn [interleave fold_left]. unfold advance at 2.
  destruct (nth_error (fst c) i) as [p |] eqn:Hi; [| apply IH; assumption]. apply nth_error_In in Hi.
  destruct (step1 p (snd c)) as [[p' s'] |] eqn:Hs; [| apply IH; assumption].
  destruct (tidy_step E p _ _ _ (Ht _ Hi) Hs H) as [Hp' H']. apply IH; [| exact H'].
  cbn [fst]. intros q Hq. apply in_replace in Hq as [-> | Hq]; auto.
Qed.

Theorem reachable_ok E s : reachable E s -> store_ok E s.
Proof.
  induction 1 as [| s qs sched _ IH]; [apply empty_ok |]. apply interleave_ok; [| exact IH].
  cbn [start fst]. intros p Hp. apply in_map_iff in Hp as (q & <- & _). apply tidy_serve.
Qed.

Lemma reachable_after E q s : reachable E s -> reachable E (after E q s).
Proof.
  intros H. destruct (complete_one (serve E q) 0 [serve E q] s eq_refl) as [k Hk].
  replace (after E q s) with (snd (interleave (repeat 0 k) (start E [q] s))) by (unfold start; cbn [map]; rewrite Hk; reflexivity).
  constructor. exact H.
Qed.

Lemma reachable_after_all E qs : forall s, reachable E s -> reachable E (after_all E qs s).
Proof. induction qs as [| q qs IH]; intros s H; [exact H |]. apply IH, reachable_after, H. Qed.

Lemma sequential_reachable E s : sequential E s -> reachable E s.
Proof. intros [qs ->]. apply reachable_after_all. constructor. Qed.

Lemma sequential_after E q s : sequential E s -> sequential E (after E q s).
Proof. intros [qs ->]. exists (qs ++ [q]). unfold after_all. rewrite fold_left_app. reflexivity. Qed.

(** ** Answers *)

Lemma answer_eq E q s x : fst (run (serve E q) s) = x -> answer E q s = x.
Proof. auto. Qed.
