(** Proofs about interrupted requests. *)
From Verif Require Import Base Domain Lexer Validate Store Search Explain Yaml Service Dump Api SpecPolicy SpecStore SpecCrash
  BaseFacts ValidateFacts StoreFacts PolicyFacts RelFacts.

(** ** Prefixes of programs *)

Lemma crash_ret {A} n (a : A) s : crash n (Ret a) s = s.
Proof. destruct n; reflexivity. Qed.

Lemma crash_pbind {A B} (p : prog A) : forall (f : A -> prog B) n s,
  (exists m, crash n (pbind p f) s = crash m p s) \/
  exists m, crash n (pbind p f) s = crash m (f (fst (run p s))) (snd (run p s)).
Proof.
  induction p; intros f n s; cbn [pbind run fst snd]; try (right; exists n; reflexivity);
    (destruct n as [| n]; [left; exists 0; reflexivity |]); cbn [crash step1];
    match goal with
    | H : forall x f n s, _ |- context [crash n (pbind (_ ?y) f) ?s] => destruct (H y f n s) as [[m Hm] | [m Hm]]
    | H : forall f n s, _ |- context [crash n (pbind _ f) ?s] => destruct (H f n s) as [[m Hm] | [m Hm]]
    end; rewrite Hm; (left; exists (S m); reflexivity) || (right; exists m; reflexivity).
Qed.

Lemma crash_rbind {A B} (p : prog (res A)) (f : A -> prog (res B)) n s :
  (exists m, crash n (rbind p f) s = crash m p s) \/
  exists m a, fst (run p s) = Ok a /\ crash n (rbind p f) s = crash m (f a) (snd (run p s)).
Proof.
  assert (Hend : exists m, snd (run p s) = crash m p s).
  { clear f. revert s. induction p; intros s; cbn [run snd]; try (exists 0; reflexivity);
      match goal with
      | H : forall x s, exists m, snd (run _ s) = _ |- context [run (_ ?y) ?s] => destruct (H y s) as [m Hm]
      | H : forall s, exists m, snd (run _ s) = _ |- context [run _ ?s] => destruct (H s) as [m Hm]
      end; exists (S m); exact Hm. }
  unfold rbind. destruct (crash_pbind p (fun x => match x with Ok a => f a | Err e => Ret (Err e) | Panic => Ret Panic | Fuel => Ret Fuel end) n s)
    as [H | [m Hm]]; [auto |]. destruct (fst (run p s)) as [a | e | |] eqn:He.
  - right. exists m, a. auto.
  - left. rewrite crash_ret in Hm. destruct Hend as [k Hk]. exists k. congruence.
  - left. rewrite crash_ret in Hm. destruct Hend as [k Hk]. exists k. congruence.
  - left. rewrite crash_ret in Hm. destruct Hend as [k Hk]. exists k. congruence.
Qed.

Lemma crash_respond {A} (p : prog (res A)) f n s : exists m, crash n (respond p f) s = crash m p s \/ crash n (respond p f) s = snd (run p s).
Proof.
  unfold respond. destruct (crash_rbind p (fun a => Ret (Ok (f a))) n s) as [[m Hm] | (m & a & _ & Hm)]; exists m; [auto |].
  rewrite crash_ret in Hm. auto.
Qed.

(** ** Setting *)

Definition put_edge (E : env) (pid : string) (e : edge) (s : store) : store :=
  mkStore (st_pol s) (kv_set ecmp (pid, edge_key E e) e (st_edges s)) (st_data s).
Definition drop_edge (pid : string) (k : string * string) (s : store) : store :=
  mkStore (st_pol s) (kv_del ecmp (pid, k) (st_edges s)) (st_data s).

Lemma stopped_set E n now pid r app s :
  stopped E n (QSetRelationship now pid r app) s = s \/
  exists rec e, policies s pid = Some rec /\ allowed_relationship (pr_policy rec) r = Ok tt /\ to_internal r = Ok e /\
    (stopped E n (QSetRelationship now pid r app) s = put_edge E pid e s \/
     stopped E n (QSetRelationship now pid r app) s = put_rel E pid e (mkData app now) s).
Proof.
  unfold stopped. cbn [serve]. destruct n as [| n]; [left; reflexivity |].
  unfold set_relationship, repo_get_policy. cbn [respond rbind pbind]. unfold respond, rbind. cbn [pbind crash step1].
  unfold policies. destruct (kv_get scmp pid (st_pol s)) as [rec |]; [| left; apply crash_ret].
  unfold lift. cbn [pbind]. destruct (allowed_relationship (pr_policy rec) r) as [[] | | |] eqn:Ha; try (left; apply crash_ret).
  unfold repo_set_relationship, rbind, lift. cbn [pbind]. destruct (to_internal r) as [e | | |] eqn:He; try (left; apply crash_ret).
  cbn [pbind]. destruct n as [| [| [| n]]]; cbn [crash step1]; try (left; reflexivity).
  - right. exists rec, e. auto.
  - right. exists rec, e. repeat (split; [reflexivity || assumption |]). right. rewrite crash_ret. reflexivity.
Qed.

Lemma stopped_delete E n pid r s :
  stopped E n (QDeleteRelationship pid r) s = s \/
  exists e, to_internal r = Ok e /\
    (stopped E n (QDeleteRelationship pid r) s = drop_edge pid (edge_key E e) s \/
     stopped E n (QDeleteRelationship pid r) s = drop_key pid (edge_key E e) s).
Proof.
  unfold stopped. cbn [serve]. unfold delete_relationship, repo_delete_relationship, respond, rbind, lift. cbn [pbind].
  destruct (to_internal r) as [e | | |]; try (left; apply crash_ret). cbn [pbind].
  destruct n as [| [| [| n]]]; cbn [crash step1]; try (left; reflexivity).
  - right. exists e. auto.
  - right. exists e. split; [reflexivity |]. right. rewrite crash_ret. reflexivity.
Qed.

Lemma edges_of_put E pid pid' e d s : edges_of pid' (put_edge E pid e s) = edges_of pid' (put_rel E pid e d s).
Proof. reflexivity. Qed.

Lemma set_set {K V} (cmp : K -> K -> comparison) (OK : cmp_ok cmp) k (v v' : V) m : kv_sorted cmp m -> kv_set cmp k v (kv_set cmp k v' m) = kv_set cmp k v m.
Proof.
  intros Hs. apply (sorted_ext cmp OK); [repeat apply sorted_set; auto | apply sorted_set; auto |]. intros k0.
  rewrite !(get_set cmp OK). destruct (cmp k0 k); reflexivity.
Qed.

Lemma del_del {K V} (cmp : K -> K -> comparison) (OK : cmp_ok cmp) k (m : list (K * V)) : kv_sorted cmp m -> kv_del cmp k (kv_del cmp k m) = kv_del cmp k m.
Proof.
  intros Hs. apply (sorted_ext cmp OK); [repeat apply sorted_del; auto | apply sorted_del; auto |]. intros k0.
  rewrite !(get_del cmp OK). destruct (cmp k0 k); reflexivity.
Qed.

Lemma after_set E now pid r app s rec e : policies s pid = Some rec -> allowed_relationship (pr_policy rec) r = Ok tt -> to_internal r = Ok e ->
  after E (QSetRelationship now pid r app) s = put_rel E pid e (mkData app now) s.
Proof. intros Hp Ha He. serve_eq. rewrite run_set_rel. unfold policies in Hp. rewrite Hp, Ha, He. reflexivity. Qed.

Lemma after_delete E pid r s e : to_internal r = Ok e -> after E (QDeleteRelationship pid r) s = drop_key pid (edge_key E e) s.
Proof. intros He. serve_eq. rewrite run_delete_rel, He. reflexivity. Qed.

Lemma put_rel_again E pid e d s : store_ok E s ->
  put_rel E pid e d (put_edge E pid e s) = put_rel E pid e d s /\ put_rel E pid e d (put_rel E pid e d s) = put_rel E pid e d s.
Proof.
  intros H. unfold put_rel, put_edge. cbn. split; f_equal; try apply set_set; auto using ecmp_ok, pcmp_ok; apply H.
Qed.

Lemma drop_key_again E pid k s : store_ok E s ->
  drop_key pid k (drop_edge pid k s) = drop_key pid k s /\ drop_key pid k (drop_key pid k s) = drop_key pid k s.
Proof.
  intros H. unfold drop_key, drop_edge. cbn. split; f_equal; try apply del_del; auto using ecmp_ok, pcmp_ok; apply H.
Qed.

(** ** Deleting a policy *)

(** Programs that only remove relationships of one policy and data. *)
Inductive erases (id : string) {A} : prog A -> Prop :=
| er_ret a : erases id (Ret a)
| er_get pid k f : (forall x, erases id (f x)) -> erases id (EdgeGet pid k f)
| er_list pid f : (forall x, erases id (f x)) -> erases id (EdgeList pid f)
| er_del k f : erases id f -> erases id (EdgeDel id k f)
| er_data k f : erases id f -> erases id (DataDel k f).

Lemma erases_pbind id {A B} (p : prog A) (f : A -> prog B) : erases id p -> (forall a, erases id (f a)) -> erases id (pbind p f).
Proof. intros Hp Hf. induction Hp; cbn [pbind]; auto; constructor; auto. Qed.

Lemma erases_rbind id {A B} (p : prog (res A)) (f : A -> prog (res B)) : erases id p -> (forall a, erases id (f a)) -> erases id (rbind p f).
Proof. intros Hp Hf. apply erases_pbind; [exact Hp |]. intros []; auto; constructor. Qed.

Lemma erases_map id {A B} (f : A -> prog (res B)) l : (forall a, erases id (f a)) -> erases id (map_prog f l).
Proof.
  intros Hf. induction l as [| a l IH]; cbn; [constructor |]. apply erases_rbind; [apply Hf |]. intros b. apply erases_rbind; [exact IH |].
  intros bs. constructor.
Qed.

Lemma erases_delete E id r : erases id (repo_delete_relationship E id r).
Proof.
  apply erases_rbind; [constructor |]. intros e. constructor. intros x. constructor. constructor. constructor.
Qed.

Lemma erases_rels E id sel : erases id (repo_delete_relationships E id sel).
Proof.
  apply erases_rbind.
  - constructor. intros x. constructor.
  - intros rs. apply erases_rbind; [apply erases_map; intros r; apply erases_delete |]. intros l. constructor.
Qed.

(** Some relationships of [id] and some data were removed. *)
Record erased (E : env) (id : string) (s s' : store) : Prop := {
  es_ok : store_ok E s';
  es_pol : st_pol s' = st_pol s;
  es_edges : forall pid k e, kv_get ecmp (pid, k) (st_edges s') = Some e -> kv_get ecmp (pid, k) (st_edges s) = Some e;
  es_other : forall pid k, pid <> id -> kv_get ecmp (pid, k) (st_edges s') = kv_get ecmp (pid, k) (st_edges s);
  es_data : forall k d, kv_get pcmp k (st_data s') = Some d -> kv_get pcmp k (st_data s) = Some d }.

Lemma erases_crash E id {A} (p : prog A) : erases id p -> forall n s0 s, erased E id s0 s -> erased E id s0 (crash n p s).
Proof.
  intros Hp. induction Hp as [a | pid k f _ IH | pid f _ IH | k f _ IH | k f _ IH]; intros [| n] s0 s [H1 H2 H3 H4 H5]; cbn [crash step1];
    try (split; assumption); apply IH; split; cbn [st_pol st_edges st_data]; auto.
  - destruct H1 as [O1 O2 O3 O4 O5]. split; cbn; auto.
    + apply sorted_del; [exact ecmp_ok | exact O2].
    + intros pid' k' e'. rewrite (get_del ecmp ecmp_ok). destruct (ecmp (pid', k') (id, k)); try discriminate; apply O5.
  - intros pid k' e. rewrite (get_del ecmp ecmp_ok). destruct (ecmp (pid, k') (id, k)); try discriminate; apply H3.
  - intros pid k' Hne. rewrite (get_del_other ecmp ecmp_ok) by congruence. apply H4, Hne.
  - destruct H1 as [O1 O2 O3 O4 O5]. split; cbn; auto. apply sorted_del; [exact pcmp_ok | exact O3].
  - intros k' d. rewrite (get_del pcmp pcmp_ok). destruct (pcmp k' k); try discriminate; apply H5.
Qed.

Lemma erased_refl E id s : store_ok E s -> erased E id s s.
Proof. intros H. split; auto. Qed.

Lemma stopped_delete_policy E n id s : store_ok E s ->
  stopped E n (QDeletePolicy id) s = s \/
  (policies s id <> None /\ erased E id (drop_policy id s) (stopped E n (QDeletePolicy id) s)).
Proof.
  intros H. unfold stopped. cbn [serve]. destruct n as [| n]; [left; reflexivity |].
  unfold delete_policy, repo_delete_policy, respond, rbind. cbn [pbind crash step1]. unfold policies.
  destruct (kv_get scmp id (st_pol s)) as [rec |]; [| left; cbn [pbind]; apply crash_ret].
  cbn [pbind]. destruct n as [| n]; cbn [crash step1]; [left; reflexivity |]. right. split; [discriminate |].
  change (mkStore (kv_del scmp id (st_pol s)) (st_edges s) (st_data s)) with (drop_policy id s).
  apply erases_crash; [| apply erased_refl, drop_policy_ok, H].
  apply erases_pbind; [| intros []; constructor]. apply erases_pbind; [apply erases_rels |]. intros []; constructor.
Qed.

Lemma relationships_subset E s s' pid : store_ok E s -> store_ok E s' ->
  (forall k e, kv_get ecmp (pid, k) (st_edges s') = Some e -> kv_get ecmp (pid, k) (st_edges s) = Some e) ->
  forall r, In r (relationships s' pid) -> In r (relationships s pid).
Proof.
  intros H H' Hk r Hr. apply (relationships_in E s' pid r H') in Hr as (e & He & Hg). apply (relationships_in E s pid r H). exists e. auto.
Qed.
