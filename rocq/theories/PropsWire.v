(** Properties of stored bytes: C98, C99. *)
From Coq Require Import Sorted Permutation.
From Verif Require Import Base Domain Lexer Parser Validate Store Search Explain Yaml Service Dump Api Fault Wire SpecStore SpecPolicy SpecConc SpecWire Fixtures
  BaseFacts ValidateFacts StoreFacts PolicyFacts RelFacts ConcFacts WireFacts WireServe PropsPolicy PropsFault.
Local Open Scope N_scope.

(** ** C98 What is stored is what is read back *)

(** A policy record that is at most [lim] messages deep is encoded, and decoded to itself, in whatever order its
    attributes are written. *)
Theorem C98_policy : forall lim r attrs, keeps (pred lim) (pr_policy r) -> time_ok (pr_created r) -> Permutation attrs (p_attrs (pr_policy r)) ->
  exists v, marshal_policy r attrs = Some v /\ (short v -> unmarshal_policy lim v = Some r).
Proof.
  intros lim r attrs Hk Ht Hp. eexists. unfold marshal_policy. rewrite all_utf8_forallb by apply Hk. split; [reflexivity |].
  intros Hs. apply record_round; assumption.
Qed.

Theorem C98_relationship : forall lim e, (2 <= lim)%nat -> all_utf8 (edge_texts e) ->
  exists v, marshal_edge e = Some v /\ (short v -> unmarshal_edge lim v = Some e).
Proof.
  intros lim e Hl Ht. eexists. unfold marshal_edge. rewrite all_utf8_forallb by exact Ht. split; [reflexivity |].
  intros Hs. destruct lim as [| [| d]]; [lia | lia |]. apply edge_round; assumption.
Qed.

Theorem C98_data : forall lim k d, (2 <= lim)%nat -> time_ok (d_created d) -> short (marshal_data k d) -> unmarshal_data lim (marshal_data k d) = Some d.
Proof. intros lim k d Hl Ht Hs. destruct lim as [| [| n]]; [lia | lia |]. apply data_round; assumption. Qed.

(** The texts that can be stored are the encodings of sequences of Unicode scalar values. *)
Theorem C98_texts : forall s, utf8_valid s = true <-> exists rs, Forall SpecGrammar.scalar rs /\ s = SpecGrammar.encode_all rs.
Proof.
  intros s. split; [apply (utf8_scalars (String.length s)); lia |]. intros (rs & Hr & ->). apply utf8_scalar_texts. exact Hr.
Qed.

(** Every request that arrives as bytes has records that survive. *)
Theorem C98_received : forall E yaml lim q, (8 <= lim)%nat -> yaml_ok yaml -> arrives yaml lim q -> in_range E q -> fits_request E lim q.
Proof.
  intros E yaml lim q Hl Hy Ha Hr.
  assert (HP : forall b d ap p, unmarshal_policy_request yaml lim b = Some (d, ap) -> get_policy_from_definition d = Ok p -> keeps (pred lim) p).
  { intros b d ap p Hb Hd. assert (Hle : forall n, keeps n p -> (n <= pred lim)%nat -> keeps (pred lim) p).
    { intros n (H1 & H2 & H3) Hn. split; [exact H1 |]. split; [exact H2 | lia]. }
    destruct d as [[p' | [y |] |] |]; cbn in Hd; try discriminate; injection Hd as <-.
    - apply (request_recv yaml lim _ _ _) with (p := p') in Hb; [| intros p0; discriminate | reflexivity].
      apply (Hle (pred (pred lim))); [apply good_keeps; tauto | lia].
    - apply (Hle 7%nat); [| lia]. assert (Hs : exists s, yaml s = Some y).
      { assert (Hm : forall d1 x0 b1 x, (forall y, x0 = DYaml (Some y) -> exists s, yaml s = Some y) -> message (step_definition yaml) d1 x0 b1 = Some x ->
          forall y, x = DYaml (Some y) -> exists s, yaml s = Some y).
        { intros d1 x0 b1 x. apply (message_inv (fun x => forall y, x = DYaml (Some y) -> exists s, yaml s = Some y)). clear. intros d' a f a' -> Ha H y.
          assert (Hk : Some a = Some a' -> a' = DYaml (Some y) -> exists s, yaml s = Some y) by (intros [= <-]; apply Ha).
          fields f; cbn [step_definition] in H; try (exact (Hk H)).
          - apply text_some in H as [_ ->]. intros [= H]. eauto.
          - apply omap_some in H as (z & _ & ->). discriminate. }
        revert Hb. unfold unmarshal_policy_request. intros Hb.
        pose (P := fun x : option policy_def * string => forall y, fst x = Some (DYaml (Some y)) -> exists s, yaml s = Some y).
        assert (HPx : P (Some (DYaml (Some y)), ap)).
        { revert Hb. apply (message_inv P); [| intros z; discriminate]. intros d' a f a' -> Hpa H z.
          assert (Hk : Some a = Some a' -> fst a' = Some (DYaml (Some z)) -> exists s, yaml s = Some z) by (intros [= <-]; apply Hpa).
          fields f; cbn [step_policy_request] in H; try (exact (Hk H)).
          - injection H as <-. apply Hpa.
          - apply omap_some in H as (w & Hw & ->). cbn [fst]. intros [= ->]. apply (Hm _ _ _ _) with (2 := Hw) (y := z); [| reflexivity].
            intros y0 Hy0. apply Hpa. destruct (fst a); cbn [or_else] in Hy0; [congruence | discriminate]. }
        exact (HPx y eq_refl). }
      destruct Hs as [s Hs]. destruct (Hy s y Hs) as [H1 H2]. apply good_keeps; [lia |]. apply yaml_good; assumption. }
  destruct q; cbn [arrives in_range fits_request] in *; try exact I.
  - destruct Ha as [b Hb], Hr as [Ht Hr]. split; [exact Ht |]. intros p Hp. split; [eapply HP; eassumption |]. intros t attrs. apply Hr. exact Hp.
  - destruct Ha as [b Hb]. intros p Hp. split; [eapply HP; eassumption |]. intros t attrs. apply Hr. exact Hp.
  - destruct Ha as [b Hb], Hr as [Ht Hr]. split; [exact Ht |]. intros e He. split; [| apply Hr; exact He].
    destruct r as [r |]; [| discriminate]. apply (internal_texts r); [exact He |].
    apply (set_request_recv lim _ _ _) with (2 := Hb) (r := r); [| reflexivity]. intros r'. discriminate.
Qed.

(** Requests with such records are answered as on the typed store, in whatever order they are served. *)
Theorem C98_same_answers : forall E lim qs es b s i, (2 <= lim)%nat -> Forall (fits_request E lim) qs -> walks es -> stands_for lim b s ->
  let c := byte_interleave lim es (map (serve E) qs, b) in let c' := interleave (map fst es) (start E qs s) in
  byte_answered c i = answered c' i /\ stands_for lim (snd c) (snd c').
Proof.
  intros E lim qs es b s i Hl Hq Hw Hb c c'. destruct (byte_interleave_ok lim es (map (serve E) qs) b s Hl Hw) as [H1 H2]; [| exact Hb |].
  - intros p Hp. apply in_map_iff in Hp as (q & <- & Hq'). rewrite Forall_forall in Hq. apply serve_writable, Hq, Hq'.
  - split; [| exact H2]. unfold byte_answered, answered, c, c', start. rewrite H1. reflexivity.
Qed.

(** So every store of bytes stands for a store that the other theorems are about. *)
Theorem C98_reachable : forall E lim b, (2 <= lim)%nat -> byte_reachable E lim b -> exists s, reachable E s /\ stands_for lim b s.
Proof.
  intros E lim b Hl H. induction H as [| b qs es H (s & Hs & Hb) Hq Hw].
  - exists empty_store. split; [constructor |]. split; [constructor |]. split; constructor.
  - exists (snd (interleave (map fst es) (start E qs s))). split; [constructor; exact Hs |].
    apply (C98_same_answers E lim qs es b s 0 Hl Hq Hw Hb).
Qed.

(** The bytes of a relationship, a request that arrives as bytes, and requests on a store of bytes. *)
Example C98_bytes :
  marshal_edge (mkEdge (mkINode "file" "f" "owner" TyObjectSet) (mkINode "user" "bob" "" TyObject)) =
    Some (fold_right (fun n s => String (ascii_of_N n) s) ""
      [10; 18; 10; 4; 102; 105; 108; 101; 18; 1; 102; 26; 5; 111; 119; 110; 101; 114; 32; 2; 18; 13; 10; 4; 117; 115; 101; 114; 18; 3; 98; 111; 98; 32; 1]).
Proof. vm_compute. reflexivity. Qed.

Definition bytes (l : list N) : string := fold_right (fun n s => String (ascii_of_N n) s) "" l.

(** SetRelationshipRequest: field 2 is the relationship, then the policy id comes (fields may come in any order). *)
Example C98_request_bytes :
  unmarshal_set_request recursion_limit
    (bytes [18; 20; 10; 3; 10; 1; 102; 18; 2; 108; 108; 26; 9; 10; 7; 10; 1; 117; 18; 2; 195; 169; 10; 1; 112]) =
    Some ("p", Some (mkRel (Some (mkEntity "f" "")) "ll" (Some (SEntity (mkEntity "u" (bytes [195; 169]))))), "") /\
  unmarshal_set_request recursion_limit (bytes [10; 1; 195]) = None /\
  unmarshal_set_request recursion_limit (bytes [10; 5; 112]) = None.
Proof. vm_compute. auto. Qed.

Example C98_requests :
  let es := repeat (0%nat, @rev (string * string)) 5 ++ repeat (1%nat, @rev (string * string)) 5 ++ repeat (2%nat, @rev (string * string)) 40 in
  let ask := QCheck 9 "p" (Some (mkAccess (Some (ent "file" "f")) "reader" (Some (ent "user" "bob")))) in
  let c := byte_interleave recursion_limit es (map (serve E0) [create "p"; set "p" (tup "file" "f" "owner" (user "bob")); ask], empty_bytes) in
  map (byte_answered c) [0; 1; 2]%nat = [Some (Ok (ACreated (mkPRec (pol "p") "app" 1))); Some (Ok (ASet false)); Some (Ok (ADecision true))] /\
  walks es.
Proof.
  split; [vm_compute; reflexivity |]. intros e He l. repeat (apply in_app_or in He as [He | He]); apply repeat_spec in He; subst e; cbn [snd];
    apply Permutation_sym, Permutation_rev.
Qed.

Example C98_fits : fits_request E0 recursion_limit (create "p") /\ fits_request E0 recursion_limit (set "p" (tup "file" "f" "owner" (user "bob"))).
Proof.
  assert (Hk : keeps (pred recursion_limit) (pol "p")).
  { split; [apply forallb_all_utf8; vm_compute; reflexivity |]. split; [| apply Nat.leb_le; vm_compute; reflexivity].
    split; [| constructor]. intros r l Hr Hl. cbn in Hr. repeat (destruct Hr as [<- | Hr]; [cbn in Hl; repeat (destruct Hl as [<- | Hl]; [first [exact I | split; [discriminate | exact I]] |]) |]); contradiction. }
  split; cbn [fits_request create set].
  - split; [vm_compute; reflexivity |]. intros p [= <-]. split; [exact Hk |]. intros t attrs Ht Hp. apply Permutation_sym, Permutation_nil in Hp as ->.
    unfold short. eapply N.le_lt_trans; [apply slen_record |]. vm_compute. reflexivity.
  - split; [vm_compute; reflexivity |]. intros e [= <-]. split; [apply forallb_all_utf8; vm_compute; reflexivity |]. split; vm_compute; reflexivity.
Qed.

(** ** C99 A policy that was created can be read: refuted for clients in the same process *)

(** The record is read back exactly if it is not too deep; it is written in any case. *)
Theorem C99_boundary : forall lim r attrs v, policy_ok (pr_policy r) -> time_ok (pr_created r) -> Permutation attrs (p_attrs (pr_policy r)) ->
  marshal_policy r attrs = Some v -> short v ->
  unmarshal_policy lim v = if (nest_policy (pr_policy r) <=? pred lim)%nat then Some r else None.
Proof.
  intros lim r attrs v Ho Ht Hp Hm Hs. unfold marshal_policy in Hm. destruct (forallb utf8_valid (policy_texts (pr_policy r))) eqn:Hu; [| discriminate]. injection Hm as <-.
  destruct (Nat.leb_spec (nest_policy (pr_policy r)) (pred lim)) as [H | H]; [apply record_round | apply record_deep]; auto.
  split; [apply forallb_all_utf8; exact Hu |]. split; assumption.
Qed.

(** An unreadable policy makes every request that needs it fail; nothing changes. *)
Theorem C99_unreadable : forall E lim ord b id v q, kv_get scmp id (b_pol b) = Some v -> unmarshal_policy lim v = None -> needs_policy q id ->
  byte_run lim ord (serve E q) b = (Err EStorage, b).
Proof.
  intros E lim ord b id v q Hg Hu Hq.
  assert (H : forall A (k : option policy_record -> prog (res A)), byte_run lim ord (PolGet id k) b = (Err EStorage, b)).
  { intros A k. cbn [byte_run]. rewrite Hg. cbn [read]. rewrite Hu. reflexivity. }
  destruct q; cbn [needs_policy] in Hq; try contradiction; cbn [serve].
  - destruct Hq as (p & Hd & <-). unfold create_policy, lift, respond, rbind. cbn [pbind]. rewrite Hd. apply H.
  - destruct Hq as (p & Hd & <-). unfold update_policy, lift, respond, rbind. cbn [pbind]. rewrite Hd. apply H.
  - subst. apply H.
  - subst. apply H.
  - subst. apply H.
  - subst. apply H.
  - destruct Hq as [<- Hf]. unfold explain_check, lift, respond, rbind. cbn [pbind]. rewrite Hf. apply H.
  - destruct Hq as [<- Hf]. unfold expand, lift, respond, rbind. cbn [pbind]. rewrite Hf. apply H.
  - subst. apply H.
Qed.

(** The tree of depth [n]: _this + _this + ... *)
Fixpoint deep (n : nat) : tree := match n with O => TRule RThis | S n' => TOp (deep n') OpUnion (TRule RThis) end.
Definition deep_policy (n : nat) : policy :=
  mkPolicy "p" "" "" [mkResource "r" "" [mkRelation "l" "" (Some (XTree (deep n))) (Some SRUniversal)]] [].

Lemma nest_deep n : nest_tree (deep n) = (2 * n + 3)%nat.
Proof. induction n as [| n IH]; [reflexivity |]. cbn [deep nest_tree nest_rule]. rewrite IH. lia. Qed.

Lemma ok_deep n : deep n <> TNil /\ tree_ok (deep n) /\ all_utf8 (tree_texts (deep n)).
Proof.
  induction n as [| n (H1 & H2 & H3)]; [split; [discriminate |]; split; [exact I | apply utf8_nil] |].
  split; [discriminate |]. split; [cbn; auto |]. cbn [deep tree_texts rule_texts]. apply utf8_app. split; [exact H3 | apply utf8_nil].
Qed.

Lemma slen_deep n : slen (put_fields (fs_tree (deep n))) <= 120 * N.of_nat (S n).
Proof.
  induction n as [| n IH]; [vm_compute; discriminate |]. cbn [deep fs_tree]. rewrite (opt_tree 1) by apply ok_deep.
  eapply N.le_trans; [apply slen_msg |]. rewrite !put_fields_app, !slen_app.
  pose proof (slen_msg 1 (fs_tree (deep n))). pose proof (slen_fint 2 (op_wire OpUnion)).
  assert (slen (put_fields (f_msg 3 (f_msg 2 (fs_rule RThis)))) = 6) by reflexivity. lia.
Qed.

Lemma ok_deep_policy n : policy_ok (deep_policy n) /\ all_utf8 (policy_texts (deep_policy n)) /\ nest_policy (deep_policy n) = (2 * n + 7)%nat.
Proof.
  destruct (ok_deep n) as (H1 & H2 & H3). split; [| split].
  - split; [| constructor]. intros r l [<- | []] [<- | []]. split; assumption.
  - unfold policy_texts, deep_policy. cbn [p_id p_name p_desc p_resources p_attrs flat_map resource_texts rs_name rs_desc rs_relations relation_texts rl_name rl_desc rl_expr rl_restr
      opt_texts relexpr_texts subj_restriction_texts app]. repeat (apply all_cons; [reflexivity |]). rewrite !app_nil_r. exact H3.
  - unfold nest_policy, deep_policy. cbn [p_resources map]. unfold nest_resource. cbn [rs_relations map]. unfold nest_relation.
    cbn [rl_expr rl_restr nest_opt nest_relexpr nest_subj_restriction]. rewrite nest_deep. cbn [list_max fold_right]. lia.
Qed.

Lemma slen_deep_policy n : slen (put_fields (fs_policy (deep_policy n) [])) <= 120 * N.of_nat (S n) + 200.
Proof.
  pose proof (slen_deep n) as H0. pose (rel := mkRelation "l" "" (Some (XTree (deep n))) (Some SRUniversal)).
  assert (H1 : slen (put_fields (fs_relation rel)) <= 120 * N.of_nat (S n) + 60).
  { unfold fs_relation, rel. cbn [rl_name rl_desc rl_expr rl_restr f_opt fs_relexpr fs_subj_restriction]. rewrite !put_fields_app, !slen_app.
    pose proof (slen_msg 3 (f_msg 2 (fs_tree (deep n)))). pose proof (slen_msg 2 (fs_tree (deep n))).
    assert (slen (put_fields (f_msg 4 (f_msg 2 []))) = 4) by reflexivity. assert (slen (put_fields (f_str 1 "l")) = 3) by reflexivity.
    assert (slen (put_fields (f_str 2 "")) = 0) by reflexivity. lia. }
  assert (H2 : slen (put_fields (fs_resource (mkResource "r" "" [rel]))) <= 120 * N.of_nat (S n) + 90).
  { unfold fs_resource. cbn [rs_name rs_desc rs_relations flat_map]. rewrite app_nil_r, !put_fields_app, !slen_app.
    pose proof (slen_msg 3 (fs_relation rel)). assert (slen (put_fields (f_str 1 "r")) = 3) by reflexivity.
    assert (slen (put_fields (f_str 2 "")) = 0) by reflexivity. lia. }
  unfold fs_policy, deep_policy. cbn [p_id p_name p_desc p_resources flat_map]. fold rel. rewrite !app_nil_r, !put_fields_app, !slen_app.
  pose proof (slen_msg 4 (fs_resource (mkResource "r" "" [rel]))). assert (slen (put_fields (f_str 1 "p")) = 3) by reflexivity.
  assert (slen (put_fields (f_str 2 "")) = 0) by reflexivity. assert (slen (put_fields (f_str 3 "")) = 0) by reflexivity. lia.
Qed.

Lemma rules_deep n : exists l, get_rules (deep n) = Ok l /\ forall r, In r l -> r = RThis.
Proof.
  induction n as [| n (l & Hl & H)]; [exists [RThis]; split; [reflexivity | intros r [<- | []]; reflexivity] |].
  exists (l ++ [RThis]). cbn [deep get_rules]. rewrite Hl. split; [reflexivity |]. intros r Hr. apply in_app_or in Hr as [Hr | [<- | []]]; auto.
Qed.

Lemma verify_deep E n : verify_policy E (deep_policy n) = Ok tt.
Proof.
  unfold verify_policy. cbn [bind deep_policy p_resources unique_resource_names existsb rs_relations rs_name map unique_names rl_name required_fields_present].
  change (subject_restrictions_consistent _) with (@Ok unit tt). cbn [bind].
  unfold relation_expression_well_defined. cbn [deep_policy p_resources for_each rs_relations get_expression_tree rl_expr bind rs_name].
  destruct (rules_deep n) as (l & Hl & H). rewrite Hl. cbn [bind].
  assert (Hf : for_each (policy_contains_relations_in_rule (deep_policy n) "r") l = Ok tt).
  { clear Hl. induction l as [| r l IH]; [reflexivity |]. cbn [for_each]. rewrite (H r (or_introl eq_refl)). cbn. apply IH. intros r' Hr'. apply H. right. exact Hr'. }
  rewrite Hf. reflexivity.
Qed.

(** For every limit there is a valid policy that is created, but can neither be read, updated nor used afterwards.  It
    can be deleted. *)
Theorem C99_created_policies_can_be_read_refuted : forall E lim ord now app, (2 <= lim)%nat -> N.of_nat lim < 2 ^ 50 -> slen app < 2 ^ 50 -> (forall l, Permutation (ord l) l) -> time_ok now ->
  exists p, well_formed E p /\ policy_ok p /\ all_utf8 (policy_texts p) /\
    exists b, byte_run lim ord (serve E (QCreatePolicy now (Some (DPolicy p)) app)) empty_bytes = (Ok (ACreated (mkPRec p app now)), b) /\
      (forall q, needs_policy q (p_id p) -> byte_run lim ord (serve E q) b = (Err EStorage, b)) /\
      byte_run lim ord (serve E (QDeletePolicy (p_id p))) b = (Ok (ADeletedPolicy true 0), empty_bytes).
Proof.
  intros E lim ord now ap Hl Hs1 Hs2 Ho Ht. exists (deep_policy lim). destruct (ok_deep_policy lim) as (H1 & H2 & H3).
  split; [apply verify_ok, verify_deep |]. split; [exact H1 |]. split; [exact H2 |].
  assert (Hnil : ord [] = []) by (apply Permutation_nil, Permutation_sym, Ho).
  pose (v := put_fields (fs_policy_record (mkPRec (deep_policy lim) ap now) [])).
  exists (mkBytes [("p", v)] [] []). split; [| split].
  - cbn [serve]. unfold create_policy, respond, lift, rbind. cbn [pbind get_policy_from_definition]. unfold repo_get_policy. cbn [pbind byte_run empty_bytes b_pol kv_get read].
    rewrite verify_deep. cbn [pbind]. unfold repo_set_policy. cbn [pbind byte_run pr_policy]. unfold marshal_policy. cbn [pr_policy].
    rewrite (all_utf8_forallb _ H2). change (p_attrs (deep_policy lim)) with (@nil (string * string)). rewrite Hnil. reflexivity.
  - intros q Hq. apply (C99_unreadable E lim ord _ "p" v); [reflexivity | | exact Hq].
    apply record_deep; [exact H1 | cbn [pr_policy]; rewrite H3; lia |]. unfold short.
    eapply N.le_lt_trans; [apply slen_record |]. cbn [pr_policy pr_app]. pose proof (slen_deep_policy lim). change (2 ^ 50) with 1125899906842624 in *. lia.
  - reflexivity.
Qed.

(** Encoding failures are storage failures: whatever clients in the same process send, the answers are those of the
    typed store with failing operations, and only policy records can become unreadable. *)
Theorem C99_as_failures : forall E lim qs es b s, (2 <= lim)%nat -> Forall (in_range E) qs -> Forall possible qs -> walks es -> partly_stands_for lim b s ->
  exists evs, let c := byte_interleave lim es (map (serve E) qs, b) in let c' := happen evs (start E qs s) in
    (forall i, byte_answered c i = answered c' i) /\ partly_stands_for lim (snd c) (snd c').
Proof.
  intros E lim qs es b s Hl Hq Hp Hw Hb. destruct (byte_interleave_partly lim es (map (serve E) qs) b s Hl Hw) as (evs & H1 & H2); [| exact Hb |].
  - intros p Hin. apply in_map_iff in Hin as (q & <- & Hq'). rewrite Forall_forall in Hq, Hp. apply serve_loose; auto.
  - exists evs. split; [| exact H2]. intros i. unfold byte_answered, answered, start. rewrite H1. reflexivity.
Qed.

Theorem C99_reachable : forall E lim b, (2 <= lim)%nat -> byte_embedded E lim b -> exists s, reachable E s /\ partly_stands_for lim b s.
Proof.
  intros E lim b Hl H. induction H as [| b qs es H (s & Hs & Hb) Hq Hp Hw].
  - exists empty_store. split; [constructor |]. split; [constructor |]. split; constructor.
  - destruct (C99_as_failures E lim qs es b s Hl Hq Hp Hw Hb) as (evs & _ & H2). eexists. split; [| exact H2]. apply C68_reachable. exact Hs.
Qed.

(** An unreadable policy can always be deleted, with all its relationships. *)
Theorem C99_deletable : forall E lim ord b id v, (2 <= lim)%nat -> byte_embedded E lim b -> kv_get scmp id (b_pol b) = Some v ->
  exists n b', byte_run lim ord (serve E (QDeletePolicy id)) b = (Ok (ADeletedPolicy true n), b') /\
    kv_get scmp id (b_pol b') = None /\ stored_edges id b' = [].
Proof.
  intros E lim ord b id v Hl He Hg. destruct (C99_reachable E lim b Hl He) as (s & Hs & Hb).
  destruct (byte_run_blind lim ord (serve E (QDeletePolicy id)) (serve_blind E (QDeletePolicy id) I) b s Hb) as [H1 H2].
  pose proof (proj1 (partly_same _ _ _) Hb) as (P1 & P2 & P3). pose proof (same_get scmp _ id _ _ P1) as Hsg. rewrite Hg in Hsg.
  destruct (kv_get scmp id (st_pol s)) as [rec |] eqn:Hr; [| contradiction].
  destruct (proj1 (C18_delete_policy_is_complete E id s Hs) rec) as (A1 & _ & A2); [rewrite answer_get_policy; unfold policies; rewrite Hr; reflexivity |].
  cbn zeta in A2. destruct A2 as (A2 & A3 & _).
  change (fst (run (serve E (QDeletePolicy id)) s)) with (answer E (QDeletePolicy id) s) in H1.
  change (snd (run (serve E (QDeletePolicy id)) s)) with (after E (QDeletePolicy id) s) in H2.
  remember (after E (QDeletePolicy id) s) as s' eqn:Hs'. clear Hs'.
  destruct (byte_run lim ord (serve E (QDeletePolicy id)) b) as [x b'] eqn:Hrun. cbn [fst snd] in *.
  exists (length (relationships s id)), b'. split; [rewrite <- A1, <- H1; reflexivity |].
  pose proof (proj1 (partly_same _ _ _) H2) as (Q1 & Q2 & Q3). split.
  - pose proof (same_get scmp _ id _ _ Q1) as Hsg'.
    rewrite answer_get_policy in A2. injection A2 as A2. unfold policies in A2. rewrite A2 in Hsg'. destruct (kv_get scmp id (b_pol b')); [contradiction | reflexivity].
  - pose proof (decode_edges _ id _ _ Q2) as Hd. fold (stored_edges id b') in Hd. unfold relationships in A3. fold (edges_of id s') in Hd.
    destruct (edges_of id s'); [| discriminate].
    destruct (stored_edges id b') as [| [k w] l]; [reflexivity |]. cbn [decode_all] in Hd.
    destruct (unmarshal_edge lim w); [| discriminate]. destruct (decode_all lim l); discriminate.
Qed.

(** A request with a text that is not UTF-8 stores nothing and does not succeed. *)
Theorem C99_bad_text : forall E lim ord b q, bad_text q -> (forall a, fst (byte_run lim ord (serve E q) b) <> Ok a) /\ snd (byte_run lim ord (serve E q) b) = b.
Proof.
  intros E lim ord b q Hq.
  assert (Hf : forall l t, In t l -> utf8_valid t = false -> forallb utf8_valid l = false).
  { intros l t Hin Hv. destruct (forallb utf8_valid l) eqn:H; [| reflexivity]. rewrite forallb_forall in H. rewrite (H t Hin) in Hv. discriminate. }
  destruct q; cbn [bad_text] in Hq; try contradiction; cbn [serve].
  - destruct Hq as (p & t & Hd & Hin & Hv). unfold create_policy, respond, lift, rbind. cbn [pbind]. rewrite Hd. unfold repo_get_policy. cbn [pbind byte_run].
    destruct (read _ _) as [[r |] |]; [split; [discriminate | reflexivity] | | split; [discriminate | reflexivity]].
    destruct (verify_policy E p); cbn [pbind byte_run]; try (split; [discriminate | reflexivity]).
    unfold repo_set_policy. cbn [pbind byte_run pr_policy]. unfold marshal_policy. cbn [pr_policy]. rewrite (Hf _ t Hin Hv). split; [discriminate | reflexivity].
  - destruct Hq as (p & t & Hd & Hin & Hv). unfold update_policy, respond, lift, rbind. cbn [pbind]. rewrite Hd. unfold repo_get_policy. cbn [pbind byte_run].
    destruct (read _ _) as [[r |] |]; [| split; [discriminate | reflexivity] | split; [discriminate | reflexivity]].
    destruct (verify_policy E p); cbn [pbind byte_run]; try (split; [discriminate | reflexivity]).
    unfold repo_set_policy. cbn [pbind byte_run pr_policy]. unfold marshal_policy. cbn [pr_policy]. rewrite (Hf _ t Hin Hv). split; [discriminate | reflexivity].
  - destruct Hq as (x & t & -> & Hin & Hv). unfold set_relationship, respond, repo_get_policy, lift, rbind. cbn [pbind byte_run].
    destruct (read _ _) as [[rec |] |]; cbn [pbind byte_run]; try (split; [discriminate | reflexivity]).
    destruct (allowed_relationship (pr_policy rec) (Some x)); cbn [pbind byte_run]; try (split; [discriminate | reflexivity]).
    unfold repo_set_relationship, lift, rbind. cbn [pbind]. destruct (to_internal (Some x)) as [e | | |] eqn:He; cbn [pbind byte_run]; try (split; [discriminate | reflexivity]).
    destruct (read _ _) as [opt |]; [| split; [discriminate | reflexivity]]. unfold marshal_edge.
    rewrite (Hf (edge_texts e) t); [split; [discriminate | reflexivity] | | exact Hv].
    destruct x as [o rel sub]. unfold relationship_texts in Hin. unfold to_internal in He. cbn [r_relation r_object r_subject] in *.
    destruct sub as [sub |]; [| discriminate]. destruct o as [o |]; [| destruct sub as [| [] | |]; discriminate].
    unfold edge_texts. destruct sub as [z | [z |] rl | z |]; cbn [bind subject_texts opt_texts entity_texts Datatypes.app] in *; try discriminate; injection He as <-;
      cbn [ed_src ed_dst i_res i_id i_rel In] in *; unfold entity_texts in *; cbn [In] in *; tauto.
Qed.

(** A deep tree under a small limit; a name that is not UTF-8. *)
Example C99_example :
  let id_ord := fun l : list (string * string) => l in
  let bad := bytes [255] in
  let b := snd (byte_run 20 id_ord (serve E0 (QCreatePolicy 1 (Some (DPolicy (deep_policy 7))) "")) empty_bytes) in
  let b' := snd (byte_run 20 id_ord (serve E0 (QCreatePolicy 1 (Some (DPolicy (deep_policy 6))) "")) empty_bytes) in
  fst (byte_run 20 id_ord (serve E0 (QGetPolicy "p")) b) = Err EStorage /\
  fst (byte_run 20 id_ord (serve E0 (QGetPolicy "p")) b') = Ok (APolicy (Some (mkPRec (deep_policy 6) "" 1))) /\
  fst (byte_run 20 id_ord (serve E0 (set "p" (tup "r" "x" "l" (SEntity (ent "r" bad))))) b') = Err EStorage /\
  fst (byte_run 20 id_ord (serve E0 (set "p" (tup "r" "x" "l" (SEntity (ent "r" "y"))))) b') = Ok (ASet false) /\
  bad_text (set "p" (tup "r" "x" "l" (SEntity (ent "r" bad)))).
Proof.
  do 4 (split; [vm_compute; reflexivity |]). eexists _, (bytes [255]). split; [reflexivity |]. split; [cbn; tauto | reflexivity].
Qed.

Print Assumptions C98_policy.
Print Assumptions C98_relationship.
Print Assumptions C98_data.
Print Assumptions C98_texts.
Print Assumptions C98_received.
Print Assumptions C98_same_answers.
Print Assumptions C98_reachable.
Print Assumptions C99_boundary.
Print Assumptions C99_unreadable.
Print Assumptions C99_created_policies_can_be_read_refuted.
Print Assumptions C99_as_failures.
Print Assumptions C99_reachable.
Print Assumptions C99_deletable.
Print Assumptions C99_bad_text.
