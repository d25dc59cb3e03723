(** Proofs about requests that are sent again. *)
From Verif Require Import Base Domain Lexer Validate Store Search Explain Yaml Service Dump Api SpecPolicy SpecStore SpecCrash SpecRetry
  BaseFacts ValidateFacts StoreFacts PolicyFacts RelFacts CrashFacts.

(** ** Defining a policy *)

Lemma after_create E now d app s :
  after E (QCreatePolicy now d app) s = s \/
  exists p, get_policy_from_definition d = Ok p /\ policies s (p_id p) = None /\ verify_policy E p = Ok tt /\
    after E (QCreatePolicy now d app) s = put_policy (mkPRec p app now) s.
Proof.
  unfold after. cbn [serve]. rewrite run_respond, run_create. cbn [snd]. destruct (get_policy_from_definition d) as [p | | |] eqn:Hd; auto.
  unfold policies. destruct (kv_get scmp (p_id p) (st_pol s)) eqn:Hg; [auto |]. destruct (verify_policy E p) as [[] | | |] eqn:Hv; auto.
  right. exists p. auto.
Qed.

Lemma stopped_create E n now d app s :
  stopped E n (QCreatePolicy now d app) s = s \/ stopped E n (QCreatePolicy now d app) s = after E (QCreatePolicy now d app) s.
Proof.
  unfold stopped, after. cbn [serve]. rewrite run_respond, run_create. cbn [snd]. unfold create_policy, respond, rbind, lift. cbn [pbind].
  destruct (get_policy_from_definition d) as [p | | |]; try (left; apply crash_ret). unfold repo_get_policy. cbn [pbind].
  destruct n as [| n]; cbn [crash step1]; [left; reflexivity |]. destruct (kv_get scmp (p_id p) (st_pol s)); [left; apply crash_ret |].
  destruct (verify_policy E p); cbn [pbind]; try (left; apply crash_ret). unfold repo_set_policy. cbn [pbind].
  destruct n as [| [| n]]; cbn [crash step1]; try (left; reflexivity). right. rewrite crash_ret. reflexivity.
Qed.

Lemma stopped_update E n d app s :
  stopped E n (QUpdatePolicy d app) s = s \/ stopped E n (QUpdatePolicy d app) s = after E (QUpdatePolicy d app) s.
Proof.
  unfold stopped, after. cbn [serve]. rewrite run_respond, run_update. cbn [snd]. unfold update_policy, respond, rbind, lift. cbn [pbind].
  destruct (get_policy_from_definition d) as [p | | |]; try (left; apply crash_ret). unfold repo_get_policy. cbn [pbind].
  destruct n as [| n]; cbn [crash step1]; [left; reflexivity |]. destruct (kv_get scmp (p_id p) (st_pol s)); [| left; apply crash_ret].
  destruct (verify_policy E p); cbn [pbind]; try (left; apply crash_ret). unfold repo_set_policy. cbn [pbind].
  destruct n as [| [| n]]; cbn [crash step1]; try (left; reflexivity). right. rewrite crash_ret. reflexivity.
Qed.

Lemma create_again E now now' d app s : store_ok E s ->
  after E (QCreatePolicy now' d app) (after E (QCreatePolicy now d app) s) = after E (QCreatePolicy now d app) s \/
  after E (QCreatePolicy now' d app) (after E (QCreatePolicy now d app) s) = after E (QCreatePolicy now' d app) s.
Proof.
  intros H. destruct (after_create E now d app s) as [-> | (p & Hd & Hn & Hv & ->)]; [auto |]. left.
  destruct (after_create E now' d app (put_policy (mkPRec p app now) s)) as [-> | (p' & Hd' & Hn' & _)]; [reflexivity |].
  rewrite Hd in Hd'. injection Hd' as <-. unfold policies in Hn'. cbn in Hn'. rewrite (get_set_same scmp scmp_ok) in Hn'. discriminate.
Qed.

Lemma update_again E d app s : store_ok E s ->
  after E (QUpdatePolicy d app) (after E (QUpdatePolicy d app) s) = after E (QUpdatePolicy d app) s.
Proof.
  intros H. unfold after. cbn [serve]. rewrite !run_respond, !run_update. cbn [snd]. destruct (get_policy_from_definition d) as [p | | |]; auto.
  destruct (kv_get scmp (p_id p) (st_pol s)) as [rec |] eqn:Hg; cbn [snd]; [| rewrite Hg; reflexivity].
  destruct (verify_policy E p) eqn:Hv; cbn [snd]; try (rewrite Hg; reflexivity).
  cbn [put_policy pr_policy st_pol]. rewrite (get_set_same scmp scmp_ok). cbn [snd pr_created put_policy pr_policy st_pol st_edges st_data].
  unfold put_policy. cbn. f_equal. apply (set_set scmp scmp_ok). apply H.
Qed.

(** ** Removing many relationships *)

Lemma crash_rets {A} (p : prog A) a : p = Ret a -> forall n s, crash n p s = s.
Proof. intros -> n s. apply crash_ret. Qed.

Definition erase (E : env) (pid : string) (r : relationship) : prog (res bool) := repo_delete_relationship E pid (Some r).

Lemma crash_erase E pid r e n s : to_internal (Some r) = Ok e ->
  crash n (erase E pid r) s = s \/ crash n (erase E pid r) s = drop_edge pid (rel_key E r) s \/
  crash n (erase E pid r) s = drop_key pid (rel_key E r) s.
Proof.
  intros He. unfold erase, repo_delete_relationship, rbind, lift, rel_key. rewrite He. cbn [pbind].
  destruct n as [| [| [| n]]]; cbn [crash step1]; auto. rewrite crash_ret. auto.
Qed.

Lemma run_erase E pid r e s : to_internal (Some r) = Ok e -> snd (run (erase E pid r) s) = drop_key pid (rel_key E r) s.
Proof.
  intros He. rewrite (run_delete_rel E pid (Some r) s : run (erase E pid r) s = _). rewrite He. unfold rel_key. rewrite He. reflexivity.
Qed.

Lemma crash_erase_all E pid : forall rels, (forall r, In r rels -> exists e, to_internal (Some r) = Ok e) -> forall n s,
  exists l1 l2, rels = l1 ++ l2 /\
    (crash n (map_prog (erase E pid) rels) s = drop_keys pid (map (rel_key E) l1) s \/
     exists r l3, l2 = r :: l3 /\ crash n (map_prog (erase E pid) rels) s = drop_edge pid (rel_key E r) (drop_keys pid (map (rel_key E) l1) s)).
Proof.
  induction rels as [| r rels IH]; intros Hin n s.
  - exists [], []. split; [reflexivity |]. left. cbn [map_prog]. apply crash_ret.
  - cbn [map_prog]. destruct (Hin r) as [e He]; [left; reflexivity |].
    destruct (crash_rbind (erase E pid r) (fun b => rbind (map_prog (erase E pid) rels) (fun bs => Ret (Ok (b :: bs)))) n s)
      as [[m Hm] | (m & b & _ & Hm)]; rewrite Hm.
    + destruct (crash_erase E pid r e m s He) as [-> | [-> | ->]].
      * exists [], (r :: rels). split; [reflexivity | left; reflexivity].
      * exists [], (r :: rels). split; [reflexivity |]. right. exists r, rels. split; reflexivity.
      * exists [r], rels. split; [reflexivity | left; reflexivity].
    + rewrite (run_erase E pid r e s He).
      set (s1 := drop_key pid (rel_key E r) s).
      assert (Hk : exists k, crash m (rbind (map_prog (erase E pid) rels) (fun bs => Ret (Ok (b :: bs)))) s1 = crash k (map_prog (erase E pid) rels) s1).
      { unfold rbind. destruct (crash_pbind (map_prog (erase E pid) rels) (fun x => match x with Ok bs => Ret (Ok (b :: bs)) | Err e => Ret (Err e)
          | Panic => Ret Panic | Fuel => Ret Fuel end) m s1) as [Hx | [k Hk]]; [exact Hx |].
        assert (Hend : exists k, snd (run (map_prog (erase E pid) rels) s1) = crash k (map_prog (erase E pid) rels) s1).
        { generalize (map_prog (erase E pid) rels). intros p. generalize s1.
          induction p; intros s0; cbn [run snd]; try (exists 0; reflexivity);
          match goal with
          | H : forall x s, exists m, snd (run _ s) = _ |- context [run (_ ?y) ?s] => destruct (H y s) as [j Hj]
          | H : forall s, exists m, snd (run _ s) = _ |- context [run _ ?s] => destruct (H s) as [j Hj]
          end; exists (S j); exact Hj. }
        destruct Hend as [j Hj]. exists j. rewrite Hk, <- Hj.
        destruct (fst (run (map_prog (erase E pid) rels) s1)); apply crash_ret. }
      destruct Hk as [k ->].
      destruct (IH (fun r Hr => Hin r (or_intror Hr)) k s1) as (l1 & l2 & -> & Hc). exists (r :: l1), l2. split; [reflexivity |]. exact Hc.
Qed.

Lemma matching_internal s pid sp r : In r (matching s pid sp) -> exists e, to_internal (Some r) = Ok e.
Proof. intros Hr. apply filter_In in Hr as [Hr _]. apply in_map_iff in Hr as ([k e] & <- & _). apply to_internal_from_internal. Qed.

Lemma crash_repo_many E n pid sel s :
  crash n (repo_delete_relationships E pid sel) s = s \/
  exists sp l1 l2, new_selector_spec sel = Ok sp /\ matching s pid sp = l1 ++ l2 /\
    (crash n (repo_delete_relationships E pid sel) s = drop_keys pid (map (rel_key E) l1) s \/
     exists r l3, l2 = r :: l3 /\
       crash n (repo_delete_relationships E pid sel) s = drop_edge pid (rel_key E r) (drop_keys pid (map (rel_key E) l1) s)).
Proof.
  unfold repo_delete_relationships.
  destruct (crash_rbind (repo_find_relationships pid sel) (fun rs => rbind (map_prog (fun r => repo_delete_relationship E pid (Some r)) rs)
    (fun founds => Ret (Ok (length founds)))) n s) as [[m Hm] | (m & rs & Hr & Hm)]; rewrite Hm.
  - left. destruct m as [| [| m]]; try reflexivity.
  - rewrite run_find in Hr |- *. cbn [fst snd] in *. destruct (new_selector_spec sel) as [sp | | |] eqn:Hsp; try discriminate.
    injection Hr as <-. right. exists sp.
    assert (Hi : forall r, In r (matching s pid sp) -> exists e, to_internal (Some r) = Ok e) by (intros r; apply matching_internal).
    change (fun r => repo_delete_relationship E pid (Some r)) with (erase E pid).
    destruct (crash_rbind (map_prog (erase E pid) (matching s pid sp)) (fun founds => Ret (Ok (length founds))) m s) as [[k Hk] | (k & bs & Hb & Hk)].
    + rewrite Hk. destruct (crash_erase_all E pid (matching s pid sp) Hi k s) as (l1 & l2 & Hl & Hc). exists l1, l2. auto.
    + rewrite Hk, crash_ret. destruct (run_map_delete E pid (matching s pid sp) s Hi) as (founds & Hf & _).
      exists (matching s pid sp), []. split; [reflexivity |]. split; [rewrite app_nil_r; reflexivity |]. left.
      change (fun r => repo_delete_relationship E pid (Some r)) with (erase E pid) in Hf. rewrite Hf. reflexivity.
Qed.

(** A stop leaves some of the selected relationships, perhaps one of them with its record only. *)
Lemma stopped_many E n pid sel s :
  stopped E n (QDeleteRelationships pid sel) s = s \/
  exists sp l1 l2, new_selector_spec sel = Ok sp /\ matching s pid sp = l1 ++ l2 /\
    (stopped E n (QDeleteRelationships pid sel) s = drop_keys pid (map (rel_key E) l1) s \/
     exists r l3, l2 = r :: l3 /\
       stopped E n (QDeleteRelationships pid sel) s = drop_edge pid (rel_key E r) (drop_keys pid (map (rel_key E) l1) s)).
Proof.
  unfold stopped. cbn [serve]. unfold respond.
  destruct (crash_rbind (delete_relationships E pid sel) (fun a => Ret (Ok (ACount a))) n s) as [[m Hm] | (m & a & Ha & Hm)]; rewrite Hm.
  - apply crash_repo_many.
  - rewrite crash_ret. rewrite run_delete_rels in *. destruct (new_selector_spec sel) as [sp | | |]; try discriminate. right.
    exists sp, (matching s pid sp), []. rewrite app_nil_r. auto.
Qed.

(** Every such stop is possible. *)
Lemma stop_first {A B} (p : prog A) (f : A -> prog B) : forall n s, exists m, crash m (pbind p f) s = crash n p s.
Proof.
  induction p; intros n s; try (destruct n as [| n]; [exists 0; reflexivity |]); cbn [pbind crash step1]; try (exists 0; reflexivity);
    match goal with
    | H : forall x n s, exists m, _ |- context [crash n (_ ?y) ?s] => destruct (H y n s) as [m Hm]
    | H : forall n s, exists m, _ |- context [crash n _ ?s] => destruct (H n s) as [m Hm]
    end; exists (S m); exact Hm.
Qed.

Lemma stop_later {A B} (p : prog A) (f : A -> prog B) : forall n s, exists m, crash m (pbind p f) s = crash n (f (fst (run p s))) (snd (run p s)).
Proof.
  induction p; intros n s; cbn [pbind run fst snd]; try (exists n; reflexivity);
    match goal with
    | H : forall x n s, exists m, _ |- context [run (_ ?y) ?s] => destruct (H y n s) as [m Hm]
    | H : forall n s, exists m, _ |- context [run _ ?s] => destruct (H n s) as [m Hm]
    end; exists (S m); exact Hm.
Qed.

Lemma stop_erase_all E pid r l2 : forall l1, (forall x, In x (l1 ++ r :: l2) -> exists e, to_internal (Some x) = Ok e) ->
  forall s, exists n, crash n (map_prog (erase E pid) (l1 ++ r :: l2)) s = drop_edge pid (rel_key E r) (drop_keys pid (map (rel_key E) l1) s).
Proof.
  induction l1 as [| x l1 IH]; intros Hin s; cbn [app map_prog].
  - destruct (Hin r) as [e He]; [left; reflexivity |]. exists 2. unfold erase, repo_delete_relationship, rbind, lift, rel_key. rewrite He. reflexivity.
  - destruct (Hin x) as [e He]; [left; reflexivity |].
    destruct (IH (fun y Hy => Hin y (or_intror Hy)) (drop_key pid (rel_key E x) s)) as [n Hn].
    cbn [map drop_keys fold_left]. unfold drop_keys in Hn. rewrite <- Hn. rewrite <- (run_erase E pid x e s He).
    assert (Hf : exists b, fst (run (erase E pid x) s) = Ok b).
    { rewrite (run_delete_rel E pid (Some x) s : run (erase E pid x) s = _), He. eexists. reflexivity. }
    destruct Hf as [b Hb]. unfold rbind at 1.
    destruct (stop_first (map_prog (erase E pid) (l1 ++ r :: l2)) (fun y => match y with Ok bs => Ret (Ok (b :: bs)) | Err e => Ret (Err e)
      | Panic => Ret Panic | Fuel => Ret Fuel end) n (snd (run (erase E pid x) s))) as [m <-].
    match goal with |- exists k, crash k (pbind ?p ?f) _ = _ => destruct (stop_later p f m s) as [j Hj] end.
    exists j. rewrite Hj, Hb. reflexivity.
Qed.

Lemma stop_many E pid sel sp l1 r l2 s : new_selector_spec sel = Ok sp -> matching s pid sp = l1 ++ r :: l2 ->
  exists n, stopped E n (QDeleteRelationships pid sel) s = drop_edge pid (rel_key E r) (drop_keys pid (map (rel_key E) l1) s).
Proof.
  intros Hsp Hm. unfold stopped. cbn [serve]. unfold respond, rbind, delete_relationships, repo_delete_relationships.
  change (fun r => repo_delete_relationship E pid (Some r)) with (erase E pid).
  assert (Hi : forall x, In x (l1 ++ r :: l2) -> exists e, to_internal (Some x) = Ok e).
  { intros x Hx. rewrite <- Hm in Hx. eapply matching_internal, Hx. }
  destruct (stop_erase_all E pid r l2 l1 Hi s) as [n <-].
  match goal with |- exists k, crash k (pbind ?p ?f) _ = _ => assert (Hp : exists j, crash j p s = crash n (map_prog (erase E pid) (l1 ++ r :: l2)) s) end.
  - unfold rbind. match goal with |- exists k, crash k (pbind ?p ?f) _ = _ => assert (Hf : fst (run p s) = Ok (matching s pid sp) /\ snd (run p s) = s) end.
    { rewrite run_find, Hsp. split; reflexivity. }
    destruct Hf as [Hf Hs]. rewrite <- Hm.
    destruct (stop_first (map_prog (erase E pid) (matching s pid sp)) (fun y => match y with Ok founds => Ret (Ok (length founds)) | Err e => Ret (Err e)
      | Panic => Ret Panic | Fuel => Ret Fuel end) n s) as [m <-].
    match goal with |- exists k, crash k (pbind ?p ?f) _ = _ => destruct (stop_later p f m s) as [j Hj] end.
    exists j. rewrite Hj, Hf, Hs. reflexivity.
  - destruct Hp as [j <-]. apply stop_first.
Qed.

(** ** Sending the removal again *)

Record partly (E : env) (pid : string) (sp : obj_selector * rel_selector * subj_selector) (s s1 : store) : Prop := {
  pa_ok : store_ok E s1;
  pa_pol : st_pol s1 = st_pol s;
  pa_edges : forall pid' k, kv_get ecmp (pid', k) (st_edges s1) = kv_get ecmp (pid', k) (st_edges s) \/
               (pid' = pid /\ kv_get ecmp (pid', k) (st_edges s1) = None /\ In k (map (rel_key E) (matching s pid sp)));
  pa_data : forall k, kv_get pcmp k (st_data s1) = kv_get pcmp k (st_data s) \/
               (kv_get pcmp k (st_data s1) = None /\ In k (map (rel_key E) (matching s pid sp))) }.

Lemma partly_keys E pid sp s l1 l2 : store_ok E s -> matching s pid sp = l1 ++ l2 -> partly E pid sp s (drop_keys pid (map (rel_key E) l1) s).
Proof.
  intros H Hm. assert (Hi : forall k, In k (map (rel_key E) l1) -> In k (map (rel_key E) (matching s pid sp))).
  { intros k Hk. rewrite Hm, map_app. apply in_or_app. auto. }
  split; [apply drop_keys_ok, H | apply drop_keys_pol | |].
  - intros pid' k. rewrite drop_keys_edges. destruct (string_dec pid' pid); [| auto]. destruct (in_dec key_dec k (map (rel_key E) l1)); auto.
  - intros k. rewrite drop_keys_data. destruct (in_dec key_dec k (map (rel_key E) l1)); auto.
Qed.

Lemma drop_edge_ok E pid k s : store_ok E s -> store_ok E (drop_edge pid k s).
Proof.
  intros [H1 H2 H3 H4 H5]. split; cbn [drop_edge st_pol st_edges st_data]; auto.
  - apply sorted_del; [apply ecmp_ok | exact H2].
  - intros pid' k' e'. rewrite (get_del ecmp ecmp_ok). destruct (ecmp (pid', k') (pid, k)); try discriminate; apply H5.
Qed.

Lemma partly_edge E pid sp s s1 k : partly E pid sp s s1 -> In k (map (rel_key E) (matching s pid sp)) -> partly E pid sp s (drop_edge pid k s1).
Proof.
  intros [H1 H2 H3 H4] Hk. split; [apply drop_edge_ok, H1 | exact H2 | | exact H4].
  intros pid' k'. cbn [drop_edge st_edges]. rewrite (get_del ecmp ecmp_ok). destruct (ecmp (pid', k') (pid, k)) eqn:Hc; auto.
  apply (cmp_eq _ ecmp_ok) in Hc. injection Hc as -> ->. auto.
Qed.

Lemma stopped_partly E n pid sel s : store_ok E s ->
  stopped E n (QDeleteRelationships pid sel) s = s \/
  exists sp, new_selector_spec sel = Ok sp /\ partly E pid sp s (stopped E n (QDeleteRelationships pid sel) s).
Proof.
  intros H. destruct (stopped_many E n pid sel s) as [-> | (sp & l1 & l2 & Hsp & Hm & Hs)]; [auto |]. right. exists sp. split; [exact Hsp |].
  pose proof (partly_keys E pid sp s l1 l2 H Hm) as Hp. destruct Hs as [-> | (r & l3 & -> & ->)]; [exact Hp |].
  apply partly_edge; [exact Hp |]. rewrite Hm, map_app. apply in_or_app. right. left. reflexivity.
Qed.

Lemma matching_key E s pid sp k : store_ok E s ->
  (In k (map (rel_key E) (matching s pid sp)) <->
   exists e, kv_get ecmp (pid, k) (st_edges s) = Some e /\ selector_satisfies sp (from_internal e) = true).
Proof.
  intros H. unfold matching. rewrite in_map_iff. split.
  - intros (r & <- & Hr). apply filter_In in Hr as [Hr Hs]. apply (relationships_in E s pid r H) in Hr as (e & He & Hg).
    exists e. unfold rel_key. rewrite He. rewrite (from_to_internal r e He). auto.
  - intros (e & Hg & Hs). destruct (so_edge E s H pid k e Hg) as [Hi ->]. exists (from_internal e). split; [apply rel_key_edge, Hi |].
    apply filter_In. split; [| exact Hs]. apply (relationships_in E s pid _ H). exists e. split; [apply to_from_internal, Hi | exact Hg].
Qed.

Lemma partly_matching E pid sp s s1 k : store_ok E s -> partly E pid sp s s1 ->
  In k (map (rel_key E) (matching s1 pid sp)) -> In k (map (rel_key E) (matching s pid sp)).
Proof.
  intros H Hp Hk. apply (matching_key E s1 pid sp k (pa_ok _ _ _ _ _ Hp)) in Hk as (e & Hg & Hs).
  apply (matching_key E s pid sp k H). exists e. split; [| exact Hs].
  destruct (pa_edges _ _ _ _ _ Hp pid k) as [Hx | (_ & Hx & _)]; congruence.
Qed.

Lemma partly_again E pid sp s s1 : store_ok E s -> partly E pid sp s s1 ->
  st_pol (drop_keys pid (map (rel_key E) (matching s1 pid sp)) s1) = st_pol (drop_keys pid (map (rel_key E) (matching s pid sp)) s) /\
  st_edges (drop_keys pid (map (rel_key E) (matching s1 pid sp)) s1) = st_edges (drop_keys pid (map (rel_key E) (matching s pid sp)) s).
Proof.
  intros H Hp. rewrite !drop_keys_pol. split; [apply (pa_pol _ _ _ _ _ Hp) |].
  apply (sorted_ext ecmp ecmp_ok); [apply (so_edges E), drop_keys_ok, (pa_ok _ _ _ _ _ Hp) | apply (so_edges E), drop_keys_ok, H |].
  intros [pid' k]. rewrite !drop_keys_edges. destruct (string_dec pid' pid) as [-> | Hne].
  - destruct (in_dec key_dec k (map (rel_key E) (matching s pid sp))) as [Hk | Hk].
    + destruct (in_dec key_dec k (map (rel_key E) (matching s1 pid sp))) as [Hk1 | Hk1]; [reflexivity |].
      destruct (pa_edges _ _ _ _ _ Hp pid k) as [Hx | (_ & Hx & _)]; [| exact Hx].
      apply (matching_key E s pid sp k H) in Hk as (e & Hg & Hs). exfalso. apply Hk1.
      apply (matching_key E s1 pid sp k (pa_ok _ _ _ _ _ Hp)). exists e. split; [congruence | exact Hs].
    + destruct (in_dec key_dec k (map (rel_key E) (matching s1 pid sp))) as [Hk1 | Hk1].
      * exfalso. apply Hk. eapply partly_matching; eauto.
      * destruct (pa_edges _ _ _ _ _ Hp pid k) as [Hx | (_ & _ & Hx)]; [exact Hx | contradiction].
  - destruct (pa_edges _ _ _ _ _ Hp pid' k) as [Hx | (Hx & _)]; [exact Hx | contradiction].
Qed.

Lemma partly_data E pid sp s s1 k : store_ok E s -> partly E pid sp s s1 ->
  kv_get pcmp k (st_data (drop_keys pid (map (rel_key E) (matching s1 pid sp)) s1)) =
    kv_get pcmp k (st_data (drop_keys pid (map (rel_key E) (matching s pid sp)) s)) \/
  kv_get pcmp k (st_data (drop_keys pid (map (rel_key E) (matching s1 pid sp)) s1)) = kv_get pcmp k (st_data s).
Proof.
  intros H Hp. rewrite !drop_keys_data.
  destruct (in_dec key_dec k (map (rel_key E) (matching s1 pid sp))) as [Hk1 | Hk1];
    destruct (in_dec key_dec k (map (rel_key E) (matching s pid sp))) as [Hk | Hk]; auto.
  - exfalso. apply Hk. eapply partly_matching; eauto.
  - destruct (pa_data _ _ _ _ _ Hp k) as [Hx | (Hx & _)]; auto.
  - destruct (pa_data _ _ _ _ _ Hp k) as [Hx | (_ & Hx)]; [auto | contradiction].
Qed.

(** A completed removal finds nothing more to remove. *)
Lemma after_many E pid sel s : after E (QDeleteRelationships pid sel) s =
  match new_selector_spec sel with Ok sp => drop_keys pid (map (rel_key E) (matching s pid sp)) s | _ => s end.
Proof. unfold after. cbn [serve]. rewrite run_respond, run_delete_rels. cbn [snd]. destruct (new_selector_spec sel); reflexivity. Qed.

Lemma many_again E pid sel s : store_ok E s ->
  after E (QDeleteRelationships pid sel) (after E (QDeleteRelationships pid sel) s) = after E (QDeleteRelationships pid sel) s.
Proof.
  intros H. rewrite !after_many. destruct (new_selector_spec sel) as [sp | | |]; try reflexivity.
  set (s1 := drop_keys pid (map (rel_key E) (matching s pid sp)) s).
  assert (H1 : store_ok E s1) by apply drop_keys_ok, H.
  destruct (matching s1 pid sp) as [| r l] eqn:Hm; [reflexivity |]. exfalso.
  assert (Hk : In (rel_key E r) (map (rel_key E) (matching s1 pid sp))) by (rewrite Hm; left; reflexivity).
  pose proof Hk as Hk1. apply (matching_key E s1 pid sp _ H1) in Hk as (e & Hg & Hs). unfold s1 in Hg. rewrite drop_keys_edges in Hg.
  destruct (string_dec pid pid); [| contradiction]. destruct (in_dec key_dec _ _) as [Hi | Hi] in Hg; [discriminate |].
  apply Hi. apply (matching_key E s pid sp _ H). eauto.
Qed.

Lemma delete_policy_again E id s : after E (QDeletePolicy id) (after E (QDeletePolicy id) s) = after E (QDeletePolicy id) s.
Proof.
  unfold after. cbn [serve]. rewrite !run_respond, !run_delete_policy. cbn [snd].
  destruct (kv_get scmp id (st_pol s)) eqn:Hg; cbn [snd]; [| rewrite Hg; reflexivity].
  rewrite drop_keys_pol. cbn [drop_policy st_pol]. rewrite (get_del_same scmp). reflexivity.
Qed.
