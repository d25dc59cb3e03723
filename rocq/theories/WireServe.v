(** Facts about what decoders produce and about serving requests on encoded records. *)
From Coq Require Import Sorted Permutation.
From Verif Require Import Base Domain Lexer Parser Validate Store Search Explain Yaml Service Dump Api Fault Wire SpecStore SpecPolicy SpecWire BaseFacts
  ValidateFacts StoreFacts PolicyFacts RelFacts SpecConc ConcFacts WireFacts.
Local Open Scope N_scope.

(** ** What a decoder returns *)

Lemma text_some {A} s (f : string -> A) a : text s f = Some a -> utf8_valid s = true /\ a = f s.
Proof. unfold text. destruct (utf8_valid s); [intros [= <-]; auto | discriminate]. Qed.

Lemma omap_some {A B} (f : A -> B) o b : omap f o = Some b -> exists a, o = Some a /\ b = f a.
Proof. destruct o; cbn; [intros [= <-]; eauto | discriminate]. Qed.

Lemma all_cons s l : utf8_valid s = true -> all_utf8 l -> all_utf8 (s :: l).
Proof. intros H1 H2 x [<- | Hx]; auto. Qed.

(** Cases of a field: its number and its payload. *)
Ltac fields f := destruct f as [[| [[[] | [] |] | [[] | [] |] |]] []].

Lemma cu_recv d t0 b t : utf8_valid t0 = true -> message step_cu d t0 b = Some t -> utf8_valid t = true.
Proof.
  apply (message_inv (fun t => utf8_valid t = true)). intros d' a f a' _ Ha H. fields f; cbn [step_cu] in H; try (injection H as <-; exact Ha).
  apply text_some in H as [H ->]. exact H.
Qed.

Lemma ttu_recv d x0 b x : utf8_valid (fst x0) = true /\ utf8_valid (snd x0) = true -> message step_ttu d x0 b = Some x ->
  utf8_valid (fst x) = true /\ utf8_valid (snd x) = true.
Proof.
  apply (message_inv (fun x => utf8_valid (fst x) = true /\ utf8_valid (snd x) = true)). intros d' a f a' _ Ha H.
  fields f; cbn [step_ttu] in H; try (injection H as <-; exact Ha); apply text_some in H as [H ->]; cbn [fst snd]; tauto.
Qed.

Definition good_rule (d : nat) (r : rule) : Prop := (nest_rule r <= d)%nat /\ all_utf8 (rule_texts r).

Lemma message_pos {A} (step : nat -> A -> field -> option A) d a b a' : message step d a b = Some a' -> (0 < d)%nat.
Proof. destruct d; [discriminate | lia]. Qed.

Lemma rule_recv d r0 b r : (0 < d -> good_rule d r0)%nat -> message step_rule d r0 b = Some r -> good_rule d r.
Proof.
  intros H0 Hm. pose proof (message_pos _ _ _ _ _ Hm) as Hd. revert Hm. apply (message_inv (good_rule d)); [| exact (H0 Hd)].
  clear. intros d' r f r' -> Hr H. destruct Hr as [Hn Ht].
  assert (Hk : Some r = Some r' -> good_rule (S d') r') by (intros [= <-]; split; assumption).
  fields f; cbn [step_rule] in H; try (exact (Hk H)); apply omap_some in H as (x & Hx & ->); pose proof (message_pos _ _ _ _ _ Hx);
    (split; [cbn; lia |]); cbn [rule_texts].
  - apply ttu_recv in Hx; [| destruct r; cbn [rule_texts] in Ht; try (split; reflexivity); apply utf8_cons in Ht as [? Ht]; apply utf8_cons in Ht as [? _]; split; assumption].
    apply all_cons; [tauto |]. apply all_cons; [tauto |]. apply utf8_nil.
  - apply cu_recv in Hx; [| destruct r; cbn [rule_texts] in Ht; try reflexivity; apply utf8_cons in Ht as [? _]; assumption].
    apply all_cons; [tauto |]. apply utf8_nil.
  - apply utf8_nil.
Qed.

Definition good_tree (d : nat) (t : tree) : Prop := (nest_tree t <= d)%nat /\ tree_ok t /\ all_utf8 (tree_texts t).

Lemma op_of_ok v : op_ok (op_of v).
Proof.
  unfold op_of. assert (H : v mod 4294967296 < 4294967296) by (apply N.mod_lt; discriminate).
  destruct (v mod 4294967296) as [| p]; [exact I |].
  destruct p as [[p | p |] | [p | p |] |]; cbn [op_ok]; try exact I; lia.
Qed.

Lemma good_fresh d t : (0 < d)%nat -> good_tree d t -> good_tree d (fresh t).
Proof. intros Hd (H1 & H2 & H3). destruct t; cbn [fresh]; (split; [| split]); auto; cbn in *; lia. Qed.

Lemma fresh_not_nil t : fresh t <> TNil.
Proof. destruct t; discriminate. Qed.

Lemma tree_recv n : forall d t0 b t, (d <= n)%nat -> t0 <> TNil -> (0 < d -> good_tree d t0)%nat -> dec_tree d t0 b = Some t -> t <> TNil /\ good_tree d t.
Proof.
  induction n as [| n IH]; intros d t0 b t Hn Hnil H0 Hm; rewrite dec_tree_eq in Hm; pose proof (message_pos _ _ _ _ _ Hm) as Hd; [lia |].
  specialize (H0 Hd). revert Hm. apply (message_inv (fun t => t <> TNil /\ good_tree d t)); [| split; assumption].
  clear t0 b t Hnil H0 Hd. intros d1 t f t' -> [Hnil Ht] H.
  assert (Hk : Some t = Some t' -> t' <> TNil /\ good_tree (S d1) t') by (intros [= <-]; split; assumption).
  fields f; cbn [step_tree] in H; try (exact (Hk H)); apply omap_some in H as (x & Hx & ->); clear Hk; pose proof (message_pos _ _ _ _ _ Hx) as Hd1;
    (split; [discriminate |]).
  - apply rule_recv in Hx; [destruct Hx as [H1 H2]; split; [cbn; lia | split; [exact I | exact H2]] |].
    intros _. destruct t; try (split; [cbn; lia | apply utf8_nil]). destruct Ht as (H1 & _ & H2). split; [cbn in H1; lia | exact H2].
  - pose (P := fun x : tree * operator * tree => good_tree (pred d1) (fst (fst x)) /\ op_ok (snd (fst x)) /\ good_tree (pred d1) (snd x)).
    assert (HP : P x).
    { revert Hx. apply (message_inv P).
      - intros d2 y g y' -> (Hl & Ho & Hr) Hg. unfold P in *. cbn [pred] in *.
        assert (Hk : Some y = Some y' -> good_tree d2 (fst (fst y')) /\ op_ok (snd (fst y')) /\ good_tree d2 (snd y')) by (intros [= <-]; tauto).
        fields g; cbn [step_op] in Hg; try (exact (Hk Hg)).
        + apply omap_some in Hg as (r & Hr' & ->). cbn [fst snd]. split; [exact Hl |]. split; [exact Ho |].
          apply IH in Hr'; [tauto | lia | apply fresh_not_nil |]. intros Hpos. apply good_fresh; assumption.
        + injection Hg as <-. cbn [fst snd]. split; [exact Hl |]. split; [apply op_of_ok | exact Hr].
        + apply omap_some in Hg as (l & Hl' & ->). cbn [fst snd]. split; [| split; [exact Ho | exact Hr]].
          apply IH in Hl'; [tauto | lia | apply fresh_not_nil |]. intros Hpos. apply good_fresh; assumption.
      - assert (Hnilg : good_tree (pred d1) TNil) by (split; [cbn; lia | split; [exact I | apply utf8_nil]]).
        destruct t; cbn [parts]; unfold P; cbn [fst snd]; try (split; [exact Hnilg | split; [exact I | exact Hnilg]]).
        destruct Ht as (H1 & (H2 & H3 & H4) & H5). cbn [tree_texts] in H5. apply utf8_app in H5 as [H5 H6]. cbn [nest_tree] in H1.
        repeat split; auto; lia. }
    destruct HP as ((H1 & H2 & H3) & Ho & (H4 & H5 & H6)). repeat split; auto.
    + cbn [nest_tree]. lia.
    + cbn [tree_texts]. apply utf8_app. auto.
Qed.

Definition good_relexpr (d : nat) (x : relexpr) : Prop := (nest_relexpr x <= d)%nat /\ relexpr_ok x /\ all_utf8 (relexpr_texts x).

Lemma relexpr_recv d x0 b x : (0 < d -> good_relexpr d x0)%nat -> message step_relexpr d x0 b = Some x -> good_relexpr d x.
Proof.
  intros H0 Hm. pose proof (message_pos _ _ _ _ _ Hm) as Hd. revert Hm. apply (message_inv (good_relexpr d)); [| exact (H0 Hd)].
  clear. intros d' r f r' -> Hr H.
  assert (Hk : Some r = Some r' -> good_relexpr (S d') r') by (intros [= <-]; exact Hr).
  fields f; cbn [step_relexpr] in H; try (exact (Hk H)).
  - apply omap_some in H as (t & Ht & ->). apply (tree_recv d' d') in Ht as [Hn (H1 & H2 & H3)]; [split; [cbn; lia | split; [split; assumption | exact H3]] | lia | |].
    + destruct r; try discriminate. apply fresh_not_nil.
    + intros Hd'. destruct r as [s' | t' |]; try (split; [cbn; lia | split; [exact I | apply utf8_nil]]).
      apply good_fresh; [exact Hd' |]. destruct Hr as (H1 & [H2 H3] & H4). cbn [nest_relexpr] in H1. repeat split; auto. lia.
  - apply text_some in H as [H ->]. split; [cbn; lia |]. split; [exact I |]. apply all_cons; [exact H | apply utf8_nil].
Qed.

Definition good_restriction (d : nat) (r : restriction) : Prop := (nest_restriction r <= d)%nat /\ all_utf8 (restriction_texts r).

Lemma restriction_recv d r0 b r : (0 < d -> good_restriction d r0)%nat -> message step_restriction d r0 b = Some r -> good_restriction d r.
Proof.
  intros H0 Hm. pose proof (message_pos _ _ _ _ _ Hm) as Hd. revert Hm. apply (message_inv (good_restriction d)); [| exact (H0 Hd)].
  clear. intros d' r f r' -> Hr H. destruct Hr as [Hn Ht].
  assert (Hk : Some r = Some r' -> good_restriction (S d') r') by (intros [= <-]; split; assumption).
  fields f; cbn [step_restriction] in H; try (exact (Hk H)); apply omap_some in H as (x & Hx & ->); pose proof (message_pos _ _ _ _ _ Hx);
    (split; [cbn; lia |]); cbn [restriction_texts].
  - apply ttu_recv in Hx; [| destruct r; cbn [restriction_texts] in Ht; try (split; reflexivity); apply utf8_cons in Ht as [? Ht]; apply utf8_cons in Ht as [? _]; split; assumption].
    apply all_cons; [tauto |]. apply all_cons; [tauto |]. apply utf8_nil.
  - apply cu_recv in Hx; [| destruct r; cbn [restriction_texts] in Ht; try reflexivity; apply utf8_cons in Ht as [? _]; assumption].
    apply all_cons; [tauto |]. apply utf8_nil.
Qed.

Lemma max_le {A} (f : A -> nat) l n : (forall x, In x l -> (f x <= n)%nat) -> (list_max (map f l) <= n)%nat.
Proof. intros H. apply list_max_le. apply Forall_forall. intros k Hk. apply in_map_iff in Hk as (x & <- & Hx). auto. Qed.

Lemma all_flat {X} (f : X -> list string) l : (forall x, In x l -> all_utf8 (f x)) -> all_utf8 (flat_map f l).
Proof. intros H s Hs. apply in_flat_map in Hs as (x & Hx & Hs). exact (H x Hx s Hs). Qed.

Lemma restrictions_recv d l0 b l : (forall r, In r l0 -> good_restriction (pred d) r) -> message step_restrictions d l0 b = Some l ->
  forall r, In r l -> good_restriction (pred d) r.
Proof.
  apply (message_inv (fun l => forall r, In r l -> good_restriction (pred d) r)). intros d' a f a' -> Ha H. cbn [pred] in *.
  assert (Hk : Some a = Some a' -> forall r, In r a' -> good_restriction d' r) by (intros [= <-]; exact Ha).
  fields f; cbn [step_restrictions] in H; try (exact (Hk H)). apply omap_some in H as (x & Hx & ->).
  intros r Hr. apply in_app_or in Hr as [Hr | [<- | []]]; [auto |]. apply restriction_recv in Hx; [exact Hx |]. intros Hd. split; [cbn; lia | apply utf8_nil].
Qed.

Definition good_subj (d : nat) (r : subj_restriction) : Prop := (nest_subj_restriction r <= d)%nat /\ all_utf8 (subj_restriction_texts r).

Lemma subj_recv d r0 b r : (0 < d -> good_subj d r0)%nat -> message step_subj_restriction d r0 b = Some r -> good_subj d r.
Proof.
  intros H0 Hm. pose proof (message_pos _ _ _ _ _ Hm) as Hd. revert Hm. apply (message_inv (good_subj d)); [| exact (H0 Hd)].
  clear. intros d' r f r' -> Hr H.
  assert (Hk : Some r = Some r' -> good_subj (S d') r') by (intros [= <-]; exact Hr).
  fields f; cbn [step_subj_restriction] in H; try (exact (Hk H)); apply omap_some in H as (x & Hx & ->); pose proof (message_pos _ _ _ _ _ Hx).
  - split; [cbn; lia | apply utf8_nil].
  - assert (Hl : forall y, In y x -> good_restriction (pred d') y).
    { apply (restrictions_recv d' _ _ _) with (2 := Hx). intros y Hy. destruct r as [| l |]; try destruct Hy. destruct Hr as [H1 H2].
      cbn [nest_subj_restriction subj_restriction_texts] in *. pose proof (max_in nest_restriction l y Hy). split; [lia | eapply utf8_flat; eassumption]. }
    split; cbn [nest_subj_restriction subj_restriction_texts].
    + assert (list_max (map nest_restriction x) <= pred d')%nat by (apply max_le; intros y Hy; apply Hl; exact Hy). lia.
    + apply all_flat. intros y Hy. apply Hl. exact Hy.
Qed.

Definition good_relation (d : nat) (r : relation) : Prop := (nest_relation r <= d)%nat /\ relation_ok r /\ all_utf8 (relation_texts r).

Lemma relation_recv d r0 b r : (0 < d -> good_relation d r0)%nat -> message step_relation d r0 b = Some r -> good_relation d r.
Proof.
  intros H0 Hm. pose proof (message_pos _ _ _ _ _ Hm) as Hd. revert Hm. apply (message_inv (good_relation d)); [| exact (H0 Hd)].
  clear. intros d' r f r' -> Hr H.
  assert (Hk : Some r = Some r' -> good_relation (S d') r') by (intros [= <-]; exact Hr).
  destruct r as [nm ds x rr]. destruct Hr as (H1 & H2 & H3). unfold nest_relation, relation_ok, relation_texts in *. cbn [rl_name rl_desc rl_expr rl_restr] in *.
  apply utf8_cons in H3 as [H3 H4]. apply utf8_cons in H4 as [H4 H5]. apply utf8_app in H5 as [H5 H6].
  fields f; cbn [step_relation rl_name rl_desc rl_expr rl_restr] in H; try (exact (Hk H)); clear Hk.
  - apply omap_some in H as (y & Hy & ->). apply relexpr_recv in Hy.
    + destruct Hy as (Hy1 & Hy2 & Hy3). split; unfold nest_relation; cbn [rl_name rl_desc rl_expr rl_restr nest_opt]; [lia |]. split; [exact Hy2 |].
      unfold relation_texts. cbn [rl_name rl_desc rl_expr rl_restr opt_texts]. apply all_cons; [exact H3 |]. apply all_cons; [exact H4 |]. apply utf8_app. auto.
    + intros Hd. destruct x as [x |]; cbn [or_else nest_opt opt_texts] in *; [repeat split; auto; lia |]. split; [cbn; lia | split; [exact I | apply utf8_nil]].
  - apply omap_some in H as (y & Hy & ->). apply subj_recv in Hy.
    + destruct Hy as (Hy1 & Hy2). split; unfold nest_relation; cbn [rl_name rl_desc rl_expr rl_restr nest_opt]; [lia |]. split; [exact H2 |].
      unfold relation_texts. cbn [rl_name rl_desc rl_expr rl_restr opt_texts]. apply all_cons; [exact H3 |]. apply all_cons; [exact H4 |]. apply utf8_app. auto.
    + intros Hd. destruct rr as [rr |]; cbn [or_else nest_opt opt_texts] in *; [split; auto; lia |]. split; [cbn; lia | apply utf8_nil].
  - apply text_some in H as [H ->]. split; unfold nest_relation; cbn [rl_name rl_desc rl_expr rl_restr nest_opt]; [lia |]. split; [exact H2 |].
    unfold relation_texts. cbn [rl_name rl_desc rl_expr rl_restr opt_texts]. apply all_cons; [exact H3 |]. apply all_cons; [exact H |]. apply utf8_app. auto.
  - apply text_some in H as [H ->]. split; unfold nest_relation; cbn [rl_name rl_desc rl_expr rl_restr nest_opt]; [lia |]. split; [exact H2 |].
    unfold relation_texts. cbn [rl_name rl_desc rl_expr rl_restr opt_texts]. apply all_cons; [exact H |]. apply all_cons; [exact H4 |]. apply utf8_app. auto.
Qed.

Definition good_resource (d : nat) (r : resource) : Prop :=
  utf8_valid (rs_name r) = true /\ utf8_valid (rs_desc r) = true /\ forall l, In l (rs_relations r) -> good_relation (pred d) l.

Lemma resource_recv d r0 b r : good_resource d r0 -> message step_resource d r0 b = Some r -> good_resource d r.
Proof.
  apply (message_inv (good_resource d)). intros d' a f a' -> Ha H.
  assert (Hk : Some a = Some a' -> good_resource (S d') a') by (intros [= <-]; exact Ha). destruct Ha as (H1 & H2 & H3).
  fields f; cbn [step_resource] in H; try (exact (Hk H)); clear Hk; unfold good_resource; cbn [pred] in *.
  - apply omap_some in H as (x & Hx & ->). cbn [rs_name rs_desc rs_relations]. split; [exact H1 |]. split; [exact H2 |].
    intros l Hl. apply in_app_or in Hl as [Hl | [<- | []]]; [auto |]. apply relation_recv in Hx; [exact Hx |].
    intros Hd. split; [cbn; lia |]. split; [exact I |]. apply all_cons; [reflexivity |]. apply all_cons; [reflexivity |]. apply utf8_nil.
  - apply text_some in H as [H ->]. cbn. auto.
  - apply text_some in H as [H ->]. cbn. auto.
Qed.

Definition good_policy (d : nat) (p : policy) : Prop :=
  utf8_valid (p_id p) = true /\ utf8_valid (p_name p) = true /\ utf8_valid (p_desc p) = true /\
  (forall r, In r (p_resources p) -> (0 < pred d)%nat /\ good_resource (pred d) r) /\
  (forall x, In x (p_attrs p) -> utf8_valid (fst x) = true /\ utf8_valid (snd x) = true) /\ kv_sorted scmp (p_attrs p).

Lemma in_set (x : string * string) k v m : In x (kv_set scmp k v m) -> x = (k, v) \/ In x m.
Proof.
  induction m as [| [k' v'] m IH]; cbn [kv_set]; [intros [<- | []]; auto |].
  destruct (scmp k k'); cbn [In]; intros H; [destruct H as [<- | H] | destruct H as [<- | H] | destruct H as [<- | H]]; auto.
  destruct (IH H); auto.
Qed.

Lemma policy_recv d p0 b p : good_policy d p0 -> message step_policy d p0 b = Some p -> good_policy d p.
Proof.
  apply (message_inv (good_policy d)). intros d' a f a' -> Ha H.
  assert (Hk : Some a = Some a' -> good_policy (S d') a') by (intros [= <-]; exact Ha). destruct Ha as (H1 & H2 & H3 & H4 & H5 & H6).
  fields f; cbn [step_policy] in H; try (exact (Hk H)); clear Hk; unfold good_policy; cbn [pred] in *.
  - apply omap_some in H as (x & Hx & ->). cbn [p_id p_name p_desc p_resources p_attrs]. repeat (split; [assumption |]).
    unfold dec_entry in Hx. apply ttu_recv in Hx; [| split; reflexivity]. split; [| apply sorted_set; [apply scmp_ok | exact H6]].
    intros y Hy. apply in_set in Hy as [-> | Hy]; auto.
  - apply text_some in H as [H ->]. cbn. auto 7.
  - apply omap_some in H as (x & Hx & ->). cbn [p_id p_name p_desc p_resources p_attrs]. repeat (split; [assumption |]). split; [| auto].
    intros r Hr. apply in_app_or in Hr as [Hr | [<- | []]]; [auto |]. split; [exact (message_pos _ _ _ _ _ Hx) |].
    apply resource_recv in Hx; [exact Hx |]. split; [reflexivity |]. split; [reflexivity |]. intros l [].
  - apply text_some in H as [H ->]. cbn. auto 7.
  - apply text_some in H as [H ->]. cbn. auto 7.
Qed.

Lemma good_keeps d p : (0 < d)%nat -> good_policy d p -> keeps d p.
Proof.
  intros Hd (H1 & H2 & H3 & H4 & H5 & H6). split; [| split].
  - unfold policy_texts. repeat (apply all_cons; [assumption |]). apply utf8_app. split.
    + apply all_flat. intros r Hr. destruct (H4 r Hr) as (_ & Hr1 & Hr2 & Hr3). apply all_cons; [exact Hr1 |]. apply all_cons; [exact Hr2 |].
      apply all_flat. intros l Hl. apply (Hr3 l Hl).
    + apply all_flat. intros x Hx. destruct (H5 x Hx). apply all_cons; [assumption |]. apply all_cons; [assumption |]. apply utf8_nil.
  - split; [| apply kv_sorted_strong; exact H6]. intros r l Hr Hl. destruct (H4 r Hr) as (_ & _ & _ & Hr3). apply (Hr3 l Hl).
  - unfold nest_policy. assert (list_max (map nest_resource (p_resources p)) <= pred d)%nat; [| lia].
    apply max_le. intros r Hr. destruct (H4 r Hr) as (Hp & _ & _ & Hr3). unfold nest_resource.
    assert (list_max (map nest_relation (rs_relations r)) <= pred (pred d))%nat; [| lia]. apply max_le. intros l Hl. apply (Hr3 l Hl).
Qed.

Lemma good_no_policy d : good_policy d no_policy.
Proof. unfold good_policy. do 3 (split; [reflexivity |]). split; [intros r [] |]. split; [intros x [] | exact I]. Qed.

Lemma definition_recv yaml d x0 b x : (forall p, x0 = DPolicy p -> (0 < pred d)%nat /\ good_policy (pred d) p) -> message (step_definition yaml) d x0 b = Some x ->
  forall p, x = DPolicy p -> (0 < pred d)%nat /\ good_policy (pred d) p.
Proof.
  apply (message_inv (fun x => forall p, x = DPolicy p -> (0 < pred d)%nat /\ good_policy (pred d) p)). intros d' a f a' -> Ha H p. cbn [pred] in *.
  assert (Hk : Some a = Some a' -> a' = DPolicy p -> (0 < d')%nat /\ good_policy d' p) by (intros [= <-]; apply Ha).
  fields f; cbn [step_definition] in H; try (exact (Hk H)).
  - apply text_some in H as [_ ->]. discriminate.
  - apply omap_some in H as (y & Hy & ->). intros [= <-]. split; [exact (message_pos _ _ _ _ _ Hy) |]. apply policy_recv in Hy; [exact Hy |].
    destruct a as [p |  |]; try apply good_no_policy. apply (Ha p eq_refl).
Qed.

Lemma request_recv yaml d x0 b x : (forall p, fst x0 = Some (DPolicy p) -> (0 < pred (pred d))%nat /\ good_policy (pred (pred d)) p) -> message (step_policy_request yaml) d x0 b = Some x ->
  forall p, fst x = Some (DPolicy p) -> (0 < pred (pred d))%nat /\ good_policy (pred (pred d)) p.
Proof.
  apply (message_inv (fun x : option policy_def * string => forall p, fst x = Some (DPolicy p) -> (0 < pred (pred d))%nat /\ good_policy (pred (pred d)) p)). intros d' a f a' -> Ha H p. cbn [pred] in *.
  assert (Hk : Some a = Some a' -> fst a' = Some (DPolicy p) -> (0 < pred d')%nat /\ good_policy (pred d') p) by (intros [= <-]; apply Ha).
  fields f; cbn [step_policy_request] in H; try (exact (Hk H)).
  - injection H as <-. apply Ha.
  - apply omap_some in H as (y & Hy & ->). cbn [fst]. intros [= ->]. apply (definition_recv _ _ _ _ _) with (2 := Hy) (p := p); [| reflexivity].
    intros p0 Hp0. apply Ha. destruct (fst a); cbn [or_else] in Hp0; [congruence | discriminate].
Qed.

(** *** Relationships *)

Lemma entity_recv d e0 b e : all_utf8 (entity_texts e0) -> message step_entity d e0 b = Some e -> all_utf8 (entity_texts e).
Proof.
  apply (message_inv (fun e => all_utf8 (entity_texts e))). intros d' a f a' -> Ha H.
  assert (Hk : Some a = Some a' -> all_utf8 (entity_texts a')) by (intros [= <-]; exact Ha).
  unfold entity_texts in *. apply utf8_cons in Ha as [H1 Ha]. apply utf8_cons in Ha as [H2 _].
  fields f; cbn [step_entity] in H; try (exact (Hk H)); apply text_some in H as [H ->]; cbn [e_res e_id];
    (apply all_cons; [assumption |]; apply all_cons; [assumption | apply utf8_nil]).
Qed.

Lemma entity_none : all_utf8 (entity_texts (mkEntity "" "")).
Proof. apply all_cons; [reflexivity |]. apply all_cons; [reflexivity | apply utf8_nil]. Qed.

Lemma entity_set_recv d x0 b x : all_utf8 (snd x0 :: opt_texts entity_texts (fst x0)) -> message step_entity_set d x0 b = Some x ->
  all_utf8 (snd x :: opt_texts entity_texts (fst x)).
Proof.
  apply (message_inv (fun x : option entity * string => all_utf8 (snd x :: opt_texts entity_texts (fst x)))). intros d' a f a' -> Ha H.
  assert (Hk : Some a = Some a' -> all_utf8 (snd a' :: opt_texts entity_texts (fst a'))) by (intros [= <-]; exact Ha).
  apply utf8_cons in Ha as [H1 Ha].
  fields f; cbn [step_entity_set] in H; try (exact (Hk H)).
  - apply text_some in H as [H ->]. cbn [fst snd]. apply all_cons; assumption.
  - apply omap_some in H as (e & He & ->). cbn [fst snd opt_texts]. apply all_cons; [exact H1 |]. apply entity_recv in He; [exact He |].
    destruct (fst a); cbn [or_else opt_texts] in *; [exact Ha | apply entity_none].
Qed.

Lemma subject_recv d x0 b x : all_utf8 (subject_texts x0) -> message step_subject d x0 b = Some x -> all_utf8 (subject_texts x).
Proof.
  apply (message_inv (fun x => all_utf8 (subject_texts x))). intros d' a f a' -> Ha H.
  assert (Hk : Some a = Some a' -> all_utf8 (subject_texts a')) by (intros [= <-]; exact Ha).
  fields f; cbn [step_subject] in H; try (exact (Hk H)); apply omap_some in H as (y & Hy & ->); cbn [subject_texts].
  - apply cu_recv in Hy; [apply all_cons; [exact Hy | apply utf8_nil] |]. destruct a; try reflexivity. cbn [subject_texts] in Ha. apply utf8_cons in Ha as [Ha _]. exact Ha.
  - apply entity_set_recv in Hy; [exact Hy |]. destruct a; cbn [fst snd opt_texts]; try (apply all_cons; [reflexivity | apply utf8_nil]). exact Ha.
  - apply entity_recv in Hy; [exact Hy |]. destruct a; try apply entity_none. exact Ha.
Qed.

Lemma relationship_recv d r0 b r : all_utf8 (relationship_texts r0) -> message step_relationship d r0 b = Some r -> all_utf8 (relationship_texts r).
Proof.
  apply (message_inv (fun x => all_utf8 (relationship_texts x))). intros d' a f a' -> Ha H.
  assert (Hk : Some a = Some a' -> all_utf8 (relationship_texts a')) by (intros [= <-]; exact Ha).
  unfold relationship_texts in *. apply utf8_cons in Ha as [H1 Ha]. apply utf8_app in Ha as [H2 H3].
  fields f; cbn [step_relationship] in H; try (exact (Hk H)).
  - apply omap_some in H as (y & Hy & ->). cbn [r_relation r_object r_subject opt_texts]. apply all_cons; [exact H1 |]. apply utf8_app. split; [exact H2 |].
    apply subject_recv in Hy; [exact Hy |]. destruct (r_subject a); cbn [or_else opt_texts] in *; [exact H3 | apply utf8_nil].
  - apply text_some in H as [H ->]. cbn [r_relation r_object r_subject opt_texts]. apply all_cons; [exact H |]. apply utf8_app. auto.
  - apply omap_some in H as (y & Hy & ->). cbn [r_relation r_object r_subject opt_texts]. apply all_cons; [exact H1 |]. apply utf8_app. split; [| exact H3].
    apply entity_recv in Hy; [exact Hy |]. destruct (r_object a); cbn [or_else opt_texts] in *; [exact H2 | apply entity_none].
Qed.

Lemma set_request_recv d x0 b x : (forall r, snd (fst x0) = Some r -> all_utf8 (relationship_texts r)) -> message step_set_request d x0 b = Some x ->
  forall r, snd (fst x) = Some r -> all_utf8 (relationship_texts r).
Proof.
  apply (message_inv (fun x : string * option relationship * string => forall r, snd (fst x) = Some r -> all_utf8 (relationship_texts r))). intros d' a f a' -> Ha H r.
  assert (Hk : Some a = Some a' -> snd (fst a') = Some r -> all_utf8 (relationship_texts r)) by (intros [= <-]; apply Ha).
  fields f; cbn [step_set_request] in H; try (exact (Hk H)).
  - injection H as <-. apply Ha.
  - apply omap_some in H as (y & Hy & ->). cbn [fst snd]. intros [= ->]. apply relationship_recv in Hy; [exact Hy |].
    destruct (snd (fst a)) as [r' |] eqn:Hr; cbn [or_else]; [apply Ha; reflexivity |].
    unfold relationship_texts. cbn. apply all_cons; [reflexivity | apply utf8_nil].
  - apply text_some in H as [H ->]. apply Ha.
Qed.

Lemma internal_texts r e : to_internal (Some r) = Ok e -> all_utf8 (relationship_texts r) -> all_utf8 (edge_texts e).
Proof.
  intros He Ht. destruct r as [o rel sub]. unfold relationship_texts in Ht. unfold to_internal in He. cbn [r_relation r_object r_subject] in *.
  destruct sub as [sub |]; [| discriminate]. destruct o as [o |]; [| destruct sub as [| [] | |]; discriminate].
  cbn [opt_texts entity_texts app] in Ht. apply utf8_cons in Ht as [H1 Ht]. apply utf8_cons in Ht as [H2 Ht]. apply utf8_cons in Ht as [H3 Ht].
  unfold edge_texts. destruct sub as [x | [x |] rl | x |]; cbn [bind subject_texts opt_texts entity_texts] in *; try discriminate; injection He as <-;
    cbn [ed_src ed_dst i_res i_id i_rel];
    repeat (apply utf8_cons in Ht as [? Ht]); repeat (apply all_cons; [assumption || reflexivity |]); apply utf8_nil.
Qed.

(** ** Key-value stores with the same keys *)

Section Same.
  Context {K V W : Type} (cmp : K -> K -> comparison) (R : V -> W -> Prop).
  Definition same (m : list (K * V)) (n : list (K * W)) : Prop := Forall2 (fun x y => fst x = fst y /\ R (snd x) (snd y)) m n.

  Lemma same_get k m n : same m n ->
    match kv_get cmp k m, kv_get cmp k n with Some v, Some w => R v w | None, None => True | _, _ => False end.
  Proof.
    induction 1 as [| [k1 v] [k2 w] m n [Hk HR] H IH]; cbn [kv_get]; [exact I |]. cbn [fst snd] in *. subst k2.
    destruct (cmp k k1); auto.
  Qed.

  Lemma same_set k v w m n : same m n -> R v w -> same (kv_set cmp k v m) (kv_set cmp k w n).
  Proof.
    intros H HR. induction H as [| [k1 v1] [k2 w1] m n [Hk HR1] H IH]; cbn [kv_set].
    - constructor; [cbn; auto | constructor].
    - cbn [fst snd] in *. subst k2. destruct (cmp k k1); repeat constructor; cbn; auto.
  Qed.

  Lemma same_del k m n : same m n -> same (kv_del cmp k m) (kv_del cmp k n).
  Proof.
    induction 1 as [| [k1 v] [k2 w] m n [Hk HR] H IH]; cbn [kv_del]; [constructor |]. cbn [fst snd] in *. subst k2.
    destruct (cmp k k1); auto; constructor; cbn; auto.
  Qed.

  Lemma same_keys m n : same m n -> map fst m = map fst n.
  Proof. induction 1 as [| x y m n [Hk _] H IH]; cbn [map]; [reflexivity |]. rewrite Hk, IH. reflexivity. Qed.
End Same.

Lemma decode_edges lim pid m n : same (fun v e => unmarshal_edge lim v = Some e) m n ->
  decode_all lim (map (fun x => (snd (fst x), snd x)) (filter (fun x : (string * (string * string)) * string => String.eqb (fst (fst x)) pid) m)) =
  Some (map (fun x => (snd (fst x), snd x)) (filter (fun x : (string * (string * string)) * edge => String.eqb (fst (fst x)) pid) n)).
Proof.
  induction 1 as [| [k v] [k' e] m n [Hk HR] H IH]; cbn [filter map decode_all]; [reflexivity |]. cbn [fst snd] in *. subst k'.
  destruct (String.eqb (fst k) pid); cbn [map decode_all fst snd]; [rewrite HR, IH; reflexivity | exact IH].
Qed.

(** ** One storage operation *)

(** A change whose records survive. *)
Definition writable (lim : nat) (x : change) : Prop :=
  match x with
  | CPolSet _ r => keeps (pred lim) (pr_policy r) /\ time_ok (pr_created r) /\
      forall attrs, Permutation attrs (p_attrs (pr_policy r)) -> short (put_fields (fs_policy_record r attrs))
  | CEdgeSet _ _ e => all_utf8 (edge_texts e) /\ short (put_fields (fs_edge e))
  | CDataSet k d => time_ok (d_created d) /\ short (put_fields (fs_data k d))
  | _ => True
  end.

Definition timely (id : string) (r : policy_record) : Prop := time_ok (pr_created r).

Lemma all_utf8_forallb l : all_utf8 l -> forallb utf8_valid l = true.
Proof. intros H. apply forallb_forall. exact H. Qed.

Lemma stands_same lim b s : stands_for lim b s <->
  same (fun v r => unmarshal_policy lim v = Some r /\ time_ok (pr_created r)) (b_pol b) (st_pol s) /\
  same (fun v e => unmarshal_edge lim v = Some e) (b_edges b) (st_edges s) /\
  same (fun v d => unmarshal_data lim v = Some d) (b_data b) (st_data s).
Proof. unfold stands_for, same. tauto. Qed.

Lemma stands_timely lim b s id r : stands_for lim b s -> kv_get scmp id (st_pol s) = Some r -> time_ok (pr_created r).
Proof.
  intros Hb Hr. destruct (proj1 (stands_same lim b s) Hb) as (H & _ & _). pose proof (same_get scmp _ id _ _ H) as Hg. rewrite Hr in Hg. destruct (kv_get scmp id (b_pol b)); [apply Hg | destruct Hg].
Qed.

Lemma byte_step_ok lim ord {A} (p : prog (res A)) b s : (2 <= lim)%nat -> (forall l, Permutation (ord l) l) ->
  does timely (writable lim) p -> stands_for lim b s ->
  match byte_step lim ord p b, step1 p s with
  | None, None => True
  | Some (p', b'), Some (q', s') => p' = q' /\ does timely (writable lim) p' /\ stands_for lim b' s'
  | _, _ => False
  end.
Proof.
  intros Hl Hord Hp Hb. destruct lim as [| [| lim]]; [lia | lia |].
  pose proof (proj1 (stands_same _ _ _) Hb) as (H1 & H2 & H3).
  destruct Hp as [a | id k Hk | id k Hk | id r k Hw Hk | id k Hw Hk | k Hk | pid key k Hk | pid key e k Hw Hk | pid key k Hw Hk | pid k Hk | key k Hk | key d k Hw Hk | key k Hw Hk];
    cbn [byte_step step1].
  - exact I.
  - pose proof (same_get scmp _ id _ _ H1) as Hg.
    destruct (kv_get scmp id (b_pol b)) as [v |], (kv_get scmp id (st_pol s)) as [r |] eqn:Hr; try contradiction; cbn [read].
    + destruct Hg as [Hg Ht]. rewrite Hg. cbn [omap]. split; [reflexivity |]. split; [| exact Hb]. apply Hk. intros r' [= <-]. exact Ht.
    + split; [reflexivity |]. split; [| exact Hb]. apply Hk. discriminate.
  - pose proof (same_get scmp _ id _ _ H1) as Hg.
    destruct (kv_get scmp id (b_pol b)) as [v |], (kv_get scmp id (st_pol s)) as [r |] eqn:Hr; try contradiction; cbn [is_some]; auto.
  - destruct Hw as (Hw1 & Hw2 & Hw3). unfold marshal_policy. rewrite all_utf8_forallb by apply Hw1.
    split; [reflexivity |]. split; [exact Hk |]. apply stands_same. split; [| split; [exact H2 | exact H3]]. cbn [b_pol st_pol].
    apply same_set; [exact H1 |]. split; [| exact Hw2]. apply record_round; auto.
  - split; [reflexivity |]. split; [exact Hk |]. apply stands_same. split; [| split; [exact H2 | exact H3]]. cbn [b_pol st_pol]. apply same_del. exact H1.
  - rewrite (same_keys _ _ _ H1). auto.
  - pose proof (same_get ecmp _ (pid, key) _ _ H2) as Hg.
    destruct (kv_get ecmp (pid, key) (b_edges b)) as [v |], (kv_get ecmp (pid, key) (st_edges s)) as [e |]; try contradiction; cbn [read]; auto.
    rewrite Hg. cbn [omap]. auto.
  - destruct Hw as (Hw1 & Hw2). unfold marshal_edge. rewrite all_utf8_forallb by exact Hw1.
    split; [reflexivity |]. split; [exact Hk |]. apply stands_same. split; [exact H1 | split; [| exact H3]]. cbn [b_edges st_edges].
    apply same_set; [exact H2 |]. apply edge_round; auto.
  - split; [reflexivity |]. split; [exact Hk |]. apply stands_same. split; [exact H1 | split; [| exact H3]]. cbn [b_edges st_edges]. apply same_del. exact H2.
  - unfold stored_edges, edges_of. rewrite (decode_edges _ pid _ _ H2). auto.
  - pose proof (same_get pcmp _ key _ _ H3) as Hg.
    destruct (kv_get pcmp key (b_data b)) as [v |], (kv_get pcmp key (st_data s)) as [e |]; try contradiction; cbn [read]; auto.
    rewrite Hg. cbn [omap]. auto.
  - destruct Hw as (Hw1 & Hw2). split; [reflexivity |]. split; [exact Hk |]. apply stands_same. split; [exact H1 | split; [exact H2 |]]. cbn [b_data st_data].
    apply same_set; [exact H3 |]. apply data_round; auto.
  - split; [reflexivity |]. split; [exact Hk |]. apply stands_same. split; [exact H1 | split; [exact H2 |]]. cbn [b_data st_data]. apply same_del. exact H3.
Qed.

(** ** Requests *)

Lemma serve_writable E lim q : fits_request E lim q -> does timely (writable lim) (serve E q).
Proof.
  intros Hq. assert (Hd : is_read q \/ ~ is_read q) by (destruct q; cbn; tauto).
  destruct Hd as [Hr | Hr]; [apply does_reads, reads_serve, Hr |].
  destruct q; cbn [is_read] in Hr; try tauto; cbn [serve fits_request] in *; (apply does_rbind; [| intros; constructor]).
  - destruct Hq as [Hnow Hq]. unfold create_policy, repo_get_policy, repo_set_policy, lift, rbind. cbn [pbind].
    destruct (get_policy_from_definition d) as [p | | |] eqn:Hd; try constructor. intros [r |] Hx; try constructor.
    cbn [pbind]. destruct (verify_policy E p) as [[] | | |]; try constructor. intros x.
    constructor; [| constructor]. destruct (Hq p eq_refl) as [Hk Hs]. cbn [writable pr_policy pr_created]. auto.
  - unfold update_policy, repo_get_policy, repo_set_policy, lift, rbind. cbn [pbind].
    destruct (get_policy_from_definition d) as [p | | |] eqn:Hd; try constructor. intros [r |] Hx; try constructor.
    cbn [pbind]. destruct (verify_policy E p) as [[] | | |]; try constructor. intros x.
    constructor; [| constructor]. destruct (Hq p eq_refl) as [Hk Hs]. specialize (Hx r eq_refl). unfold timely in Hx. cbn [writable pr_policy pr_created]. auto.
  - unfold delete_policy, repo_delete_policy. cbn [pbind]. constructor. intros []; cbn [pbind]; [| constructor].
    constructor; [exact I |]. apply does_rbind; [apply does_delete_relationships; cbn; auto | intros; constructor].
  - destruct Hq as [Hnow Hq]. unfold set_relationship, repo_get_policy. cbn [pbind]. constructor. intros [rec |] Hx; [| constructor].
    unfold lift, rbind at 1. cbn [pbind]. destruct (allowed_relationship (pr_policy rec) r) as [[] | | |]; try constructor.
    unfold repo_set_relationship, lift, rbind. cbn [pbind].
    destruct (to_internal r) as [e | | |] eqn:He; try constructor. intros x. destruct (Hq e eq_refl) as (Ht & Hs1 & Hs2).
    constructor; [cbn; auto |]. constructor; [cbn; auto | constructor].
  - apply does_delete_relationship; cbn; auto.
  - apply does_delete_relationships; cbn; auto.
Qed.

Lemma byte_interleave_ok lim es : forall ps b s, (2 <= lim)%nat -> walks es -> (forall p, In p ps -> does timely (writable lim) p) -> stands_for lim b s ->
  fst (byte_interleave lim es (ps, b)) = fst (interleave (map fst es) (ps, s)) /\
  stands_for lim (snd (byte_interleave lim es (ps, b))) (snd (interleave (map fst es) (ps, s))).
Proof.
  induction es as [| [i ord] es IH]; intros ps b s Hl Hw Hp Hb; [split; [reflexivity | exact Hb] |].
  assert (Hw' : walks es) by (intros e He; apply Hw; right; exact He).
  assert (Hst : exists qs b' s', byte_advance lim (ps, b) (i, ord) = (qs, b') /\ advance (ps, s) i = (qs, s') /\
    (forall p, In p qs -> does timely (writable lim) p) /\ stands_for lim b' s').
  { unfold byte_advance, advance. cbn [fst snd]. destruct (nth_error ps i) as [p |] eqn:Hi; [| exists ps, b, s; auto].
    pose proof (byte_step_ok lim ord p b s Hl (Hw (i, ord) (or_introl eq_refl)) (Hp p (nth_error_In _ _ Hi)) Hb) as Hs.
    destruct (byte_step lim ord p b) as [[p' b'] |], (step1 p s) as [[q' s'] |]; try contradiction; [| exists ps, b, s; auto].
    destruct Hs as (<- & Hd & Hb'). exists (replace i p' ps), b', s'. split; [reflexivity |]. split; [reflexivity |]. split; [| exact Hb'].
    intros q Hq. apply in_replace in Hq as [-> | Hq]; auto. }
  destruct Hst as (qs & b' & s' & H1 & H2 & H3 & H4).
  change (byte_interleave lim ((i, ord) :: es) (ps, b)) with (byte_interleave lim es (byte_advance lim (ps, b) (i, ord))).
  change (interleave (map fst ((i, ord) :: es)) (ps, s)) with (interleave (map fst es) (advance (ps, s) i)).
  rewrite H1, H2. apply IH; assumption.
Qed.

Lemma byte_run_step lim ord {A} (p : prog (res A)) b :
  match byte_step lim ord p b with
  | Some (p', b') => byte_run lim ord p b = byte_run lim ord p' b'
  | None => exists a, p = Ret a
  end.
Proof.
  destruct p; cbn [byte_step byte_run]; eauto;
    match goal with
    | |- context [read ?f ?x] => destruct (read f x)
    | |- context [marshal_policy ?r ?x] => destruct (marshal_policy r x)
    | |- context [marshal_edge ?e] => destruct (marshal_edge e)
    | |- context [decode_all ?l ?x] => destruct (decode_all l x)
    end; reflexivity.
Qed.

Lemma run_step1 {A} (p : prog A) s : match step1 p s with Some (p', s') => run p s = run p' s' | None => exists a, p = Ret a end.
Proof. destruct p; cbn [step1 run]; eauto. Qed.

Lemma byte_run_ok lim ord {A} (p : prog (res A)) : (2 <= lim)%nat -> (forall l, Permutation (ord l) l) -> forall b s, does timely (writable lim) p -> stands_for lim b s ->
  fst (byte_run lim ord p b) = fst (run p s) /\ stands_for lim (snd (byte_run lim ord p b)) (snd (run p s)).
Proof.
  intros Hl Ho. induction p as [a | id k IH | id k IH | id r k IH | id k IH | k IH | pid key k IH | pid key e k IH | pid key k IH | pid k IH | key k IH | key d k IH | key k IH];
    intros b s Hp Hb; [split; [reflexivity | exact Hb] | ..];
    match goal with |- fst (byte_run _ _ ?p _) = _ /\ _ =>
      pose proof (byte_step_ok lim ord p b s Hl Ho Hp Hb) as Hs; pose proof (byte_run_step lim ord p b) as Hr; pose proof (run_step1 p s) as Hq end;
    cbn [step1] in Hs, Hq;
    (destruct (byte_step lim ord _ b) as [[p' b'] |]; [| destruct Hs]); rewrite Hr, Hq; destruct Hs as (-> & Hd & Hb'); apply IH; assumption.
Qed.

(** ** YAML definitions *)

Lemma utf8_split c b : byte c < 128 -> forall n a, (String.length a <= n)%nat -> utf8_valid (a +++ String c b) = true ->
  utf8_valid a = true /\ utf8_valid b = true.
Proof.
  intros Hc. assert (Hcont : is_cont c = false) by (unfold is_cont, between; apply andb_false_intro1, N.leb_gt; lia).
  induction n as [| n IH]; intros a Hn H.
  - destruct a; [| cbn in Hn; lia]. cbn [String.append utf8_valid] in *. apply N.ltb_lt in Hc. rewrite Hc in H. auto.
  - destruct a as [| x a]; [apply IH; [cbn; lia | exact H] |]. cbn [String.length] in Hn.
    change (String x a +++ String c b) with (String x (a +++ String c b)) in H. cbn [utf8_valid] in *.
    destruct (byte x <? 128); [apply IH; [lia | exact H] |].
    destruct (utf8_lead (byte x)) as [[[k lo] hi] |] eqn:Hl; [| discriminate].
    assert (Hlo : 128 <= lo).
    { unfold utf8_lead in Hl. repeat match type of Hl with (if ?e then _ else _) = _ => destruct e end; try discriminate; injection Hl as <- <- <-; lia. }
    destruct a as [| y a].
    + cbn [String.append] in H. apply andb_prop in H as [H _]. unfold between in H. apply andb_prop in H as [H _]. apply N.leb_le in H. lia.
    + change (String y a +++ String c b) with (String y (a +++ String c b)) in H. cbn [String.length] in Hn.
      apply andb_prop in H as [-> H]. destruct (Nat.eqb k 2); [apply IH; [lia | exact H] |].
      destruct a as [| z a].
      * cbn [String.append] in H. rewrite Hcont in H. discriminate.
      * change (String z a +++ String c b) with (String z (a +++ String c b)) in H. cbn [String.length] in Hn.
        apply andb_prop in H as [-> H]. destruct (Nat.eqb k 3); [apply IH; [lia | exact H] |].
        destruct a as [| w a].
        -- cbn [String.append] in H. rewrite Hcont in H. discriminate.
        -- change (String w a +++ String c b) with (String w (a +++ String c b)) in H. cbn [String.length] in Hn.
           apply andb_prop in H as [-> H]. apply IH; [lia | exact H].
Qed.

Lemma cut_colon_app s : match snd (cut_colon s) with Some r => s = fst (cut_colon s) +++ String ":" r | None => fst (cut_colon s) = s end.
Proof.
  induction s as [| c s IH]; [reflexivity |]. cbn [cut_colon]. destruct (Ascii.eqb c ":") eqn:Hc.
  - apply Ascii.eqb_eq in Hc as ->. reflexivity.
  - destruct (cut_colon s) as [a r]. cbn [fst snd] in *. destruct r as [r |].
    + rewrite IH. reflexivity.
    + rewrite IH. reflexivity.
Qed.

Lemma elem_texts s : utf8_valid s = true -> all_utf8 (restriction_texts (map_restriction_elem s)).
Proof.
  intros H. pose proof (cut_colon_app s) as Hs. unfold map_restriction_elem. destruct (cut_colon s) as [a [r |]]; cbn [fst snd restriction_texts] in *.
  - subst s. apply (utf8_split ":" r eq_refl (String.length a) a (le_n _)) in H as [H1 H2]. apply all_cons; [exact H1 |]. apply all_cons; [exact H2 | apply utf8_nil].
  - subst a. apply all_cons; [exact H | apply utf8_nil].
Qed.

Lemma in_insert {A} (x y : string * A) l : In y (insert_by_name x l) -> y = x \/ In y l.
Proof.
  induction l as [| z l IH]; cbn [insert_by_name]; [intros [<- | []]; auto |].
  destruct (scmp (fst x) (fst z)); cbn [In]; intros [<- | H]; auto. destruct (IH H); auto.
Qed.

Lemma in_sort {A} (y : string * A) l : In y (sort_by_name l) -> In y l.
Proof. induction l as [| x l IH]; cbn [sort_by_name fold_right]; [auto |]. intros H. apply in_insert in H as [-> | H]; [left; reflexivity | right; auto]. Qed.

Lemma yaml_good y : all_utf8 (ydef_texts y) -> StronglySorted (fun x y => scmp (fst x) (fst y) = Lt) (y_attrs y) -> good_policy 7 (map_policy_definition y).
Proof.
  intros Ht Hs. unfold ydef_texts in Ht. apply utf8_cons in Ht as [H1 Ht]. apply utf8_cons in Ht as [H2 Ht]. apply utf8_cons in Ht as [H3 Ht]. apply utf8_app in Ht as [Hr Ha].
  unfold good_policy, map_policy_definition. cbn [p_id p_name p_desc p_resources p_attrs pred]. repeat (split; [assumption |]).
  split; [| split; [| apply sorted_kv; exact Hs]].
  - intros r Hin. split; [lia |]. apply in_map_iff in Hin as (x & <- & Hx). apply in_sort in Hx. apply (utf8_flat _ _ x Hr) in Hx. apply utf8_cons in Hx as [Hn Hx].
    unfold good_resource, map_resource. cbn [rs_name rs_desc rs_relations pred]. split; [exact Hn |].
    destruct (snd x) as [d |]; cbn [default_res yr_doc yr_relations opt_texts] in *; [| split; [reflexivity | intros l []]].
    unfold yres_texts in Hx. apply utf8_cons in Hx as [Hd Hl]. split; [exact Hd |]. intros l Hin. apply in_map_iff in Hin as (z & <- & Hz). apply in_sort in Hz.
    apply (utf8_flat _ _ z Hl) in Hz. apply utf8_cons in Hz as [Hzn Hz].
    assert (Hz' : utf8_valid (yl_doc (default_rel (snd z))) = true /\ utf8_valid (yl_expr (default_rel (snd z))) = true /\ all_utf8 (yl_types (default_rel (snd z)))).
    { destruct (snd z) as [q |]; cbn [default_rel opt_texts yl_doc yl_expr yl_types] in *; [| split; [reflexivity | split; [reflexivity | apply utf8_nil]]].
      unfold yrel_texts in Hz. apply utf8_cons in Hz as [Hz1 Hz]. apply utf8_cons in Hz as [Hz2 Hz]. auto. }
    destruct Hz' as (Hz1 & Hz2 & Hz3). unfold map_relation, good_relation, relation_ok, relation_texts, nest_relation. cbn [rl_name rl_desc rl_expr rl_restr nest_opt opt_texts relexpr_ok nest_relexpr relexpr_texts].
    assert (Hg : (nest_subj_restriction (map_subject_restriction (yl_types (default_rel (snd z)))) <= 4)%nat /\
                 all_utf8 (subj_restriction_texts (map_subject_restriction (yl_types (default_rel (snd z)))))).
    { unfold map_subject_restriction. destruct (existsb _ _); cbn [nest_subj_restriction subj_restriction_texts]; [split; [lia | apply utf8_nil] |]. split.
      - assert (list_max (map nest_restriction (map map_restriction_elem (yl_types (default_rel (snd z))))) <= 2)%nat; [| lia].
        apply max_le. intros w _. destruct w; cbn; lia.
      - apply all_flat. intros w Hw. apply in_map_iff in Hw as (v & <- & Hv). apply elem_texts. apply Hz3. exact Hv. }
    destruct Hg as [Hg1 Hg2]. split; [lia |]. split; [exact I |]. repeat (apply all_cons; [assumption |]). exact Hg2.
  - intros x Hx. apply (utf8_flat _ _ x Ha) in Hx. apply utf8_cons in Hx as [? Hx]. apply utf8_cons in Hx as [? _]. auto.
Qed.

(** ** Stores in which some policy records cannot be read *)

(** A change of any request in the same process. *)
Definition loose (x : change) : Prop :=
  match x with
  | CPolSet _ r => policy_ok (pr_policy r) /\ time_ok (pr_created r) /\
      forall attrs, Permutation attrs (p_attrs (pr_policy r)) -> short (put_fields (fs_policy_record r attrs))
  | CEdgeSet _ _ e => short (put_fields (fs_edge e))
  | CDataSet k d => time_ok (d_created d) /\ short (put_fields (fs_data k d))
  | _ => True
  end.

Lemma partly_same lim b s : partly_stands_for lim b s <->
  same (fun v r => (unmarshal_policy lim v = Some r \/ unmarshal_policy lim v = None) /\ time_ok (pr_created r)) (b_pol b) (st_pol s) /\
  same (fun v e => unmarshal_edge lim v = Some e) (b_edges b) (st_edges s) /\
  same (fun v d => unmarshal_data lim v = Some d) (b_data b) (st_data s).
Proof. unfold partly_stands_for, same. tauto. Qed.

Lemma forallb_all_utf8 l : forallb utf8_valid l = true -> all_utf8 l.
Proof. intros H. unfold all_utf8. apply forallb_forall. exact H. Qed.

(** Each operation works as on the typed store, or it fails and changes nothing. *)
Lemma byte_step_partly lim ord {A} (p : prog (res A)) b s : (2 <= lim)%nat -> (forall l, Permutation (ord l) l) ->
  does timely loose p -> partly_stands_for lim b s ->
  match byte_step lim ord p b, step1 p s with
  | None, None => True
  | Some (p', b'), Some (q', s') =>
      (p' = q' /\ does timely loose p' /\ partly_stands_for lim b' s') \/ (p' = Ret (Err EStorage) /\ b' = b)
  | _, _ => False
  end.
Proof.
  intros Hl Hord Hp Hb. destruct lim as [| [| lim]]; [lia | lia |].
  pose proof (proj1 (partly_same _ _ _) Hb) as (H1 & H2 & H3).
  destruct Hp as [a | id k Hk | id k Hk | id r k Hw Hk | id k Hw Hk | k Hk | pid key k Hk | pid key e k Hw Hk | pid key k Hw Hk | pid k Hk | key k Hk | key d k Hw Hk | key k Hw Hk];
    cbn [byte_step step1].
  - exact I.
  - pose proof (same_get scmp _ id _ _ H1) as Hg.
    destruct (kv_get scmp id (b_pol b)) as [v |], (kv_get scmp id (st_pol s)) as [r |] eqn:Hr; try contradiction; cbn [read].
    + destruct Hg as [[Hg | Hg] Ht]; rewrite Hg; cbn [omap]; [left | right; auto]. split; [reflexivity |]. split; [| exact Hb]. apply Hk. intros r' [= <-]. exact Ht.
    + left. split; [reflexivity |]. split; [| exact Hb]. apply Hk. discriminate.
  - left. pose proof (same_get scmp _ id _ _ H1) as Hg.
    destruct (kv_get scmp id (b_pol b)) as [v |], (kv_get scmp id (st_pol s)) as [r |] eqn:Hr; try contradiction; cbn [is_some]; auto.
  - destruct Hw as (Hw1 & Hw2 & Hw3). unfold marshal_policy. destruct (forallb utf8_valid (policy_texts (pr_policy r))) eqn:Hu; [left | right; auto].
    split; [reflexivity |]. split; [exact Hk |]. apply partly_same. split; [| split; [exact H2 | exact H3]]. cbn [b_pol st_pol].
    apply same_set; [exact H1 |]. split; [| exact Hw2]. destruct (Nat.le_gt_cases (nest_policy (pr_policy r)) (S lim)) as [Hn | Hn].
    + left. apply record_round; auto. split; [apply forallb_all_utf8; exact Hu |]. split; assumption.
    + right. apply record_deep; auto.
  - left. split; [reflexivity |]. split; [exact Hk |]. apply partly_same. split; [| split; [exact H2 | exact H3]]. cbn [b_pol st_pol]. apply same_del. exact H1.
  - left. rewrite (same_keys _ _ _ H1). auto.
  - pose proof (same_get ecmp _ (pid, key) _ _ H2) as Hg.
    destruct (kv_get ecmp (pid, key) (b_edges b)) as [v |], (kv_get ecmp (pid, key) (st_edges s)) as [e |]; try contradiction; cbn [read]; auto.
    rewrite Hg. cbn [omap]. auto.
  - cbn [loose] in Hw. unfold marshal_edge. destruct (forallb utf8_valid (edge_texts e)) eqn:Hu; [left | right; auto].
    split; [reflexivity |]. split; [exact Hk |]. apply partly_same. split; [exact H1 | split; [| exact H3]]. cbn [b_edges st_edges].
    apply same_set; [exact H2 |]. apply edge_round; [apply forallb_all_utf8; exact Hu | exact Hw].
  - left. split; [reflexivity |]. split; [exact Hk |]. apply partly_same. split; [exact H1 | split; [| exact H3]]. cbn [b_edges st_edges]. apply same_del. exact H2.
  - unfold stored_edges, edges_of. rewrite (decode_edges _ pid _ _ H2). auto.
  - pose proof (same_get pcmp _ key _ _ H3) as Hg.
    destruct (kv_get pcmp key (b_data b)) as [v |], (kv_get pcmp key (st_data s)) as [e |]; try contradiction; cbn [read]; auto.
    rewrite Hg. cbn [omap]. auto.
  - left. destruct Hw as (Hw1 & Hw2). split; [reflexivity |]. split; [exact Hk |]. apply partly_same. split; [exact H1 | split; [exact H2 |]]. cbn [b_data st_data].
    apply same_set; [exact H3 |]. apply data_round; auto.
  - left. split; [reflexivity |]. split; [exact Hk |]. apply partly_same. split; [exact H1 | split; [exact H2 |]]. cbn [b_data st_data]. apply same_del. exact H3.
Qed.

Lemma serve_loose E q : in_range E q -> possible q -> does timely loose (serve E q).
Proof.
  intros Hq Ho. assert (Hd : is_read q \/ ~ is_read q) by (destruct q; cbn; tauto).
  destruct Hd as [Hr | Hr]; [apply does_reads, reads_serve, Hr |].
  destruct q; cbn [is_read] in Hr; try tauto; cbn [serve in_range possible] in *; (apply does_rbind; [| intros; constructor]).
  - destruct Hq as [Hnow Hq]. unfold create_policy, repo_get_policy, repo_set_policy, lift, rbind. cbn [pbind].
    destruct (get_policy_from_definition d) as [p | | |] eqn:Hd; try constructor. intros [r |] Hx; try constructor.
    cbn [pbind]. destruct (verify_policy E p) as [[] | | |]; try constructor. intros x.
    constructor; [| constructor]. cbn [loose pr_policy pr_created]. auto.
  - unfold update_policy, repo_get_policy, repo_set_policy, lift, rbind. cbn [pbind].
    destruct (get_policy_from_definition d) as [p | | |] eqn:Hd; try constructor. intros [r |] Hx; try constructor.
    cbn [pbind]. destruct (verify_policy E p) as [[] | | |]; try constructor. intros x.
    constructor; [| constructor]. specialize (Hx r eq_refl). unfold timely in Hx. cbn [loose pr_policy pr_created]. auto.
  - unfold delete_policy, repo_delete_policy. cbn [pbind]. constructor. intros []; cbn [pbind]; [| constructor].
    constructor; [exact I |]. apply does_rbind; [apply does_delete_relationships; cbn; auto | intros; constructor].
  - destruct Hq as [Hnow Hq]. unfold set_relationship, repo_get_policy. cbn [pbind]. constructor. intros [rec |] Hx; [| constructor].
    unfold lift, rbind at 1. cbn [pbind]. destruct (allowed_relationship (pr_policy rec) r) as [[] | | |]; try constructor.
    unfold repo_set_relationship, lift, rbind. cbn [pbind].
    destruct (to_internal r) as [e | | |] eqn:He; try constructor. intros x. destruct (Hq e eq_refl) as (Hs1 & Hs2).
    constructor; [cbn; auto |]. constructor; [cbn; auto | constructor].
  - apply does_delete_relationship; cbn; auto.
  - apply does_delete_relationships; cbn; auto.
Qed.

Lemma byte_interleave_partly lim es : forall ps b s, (2 <= lim)%nat -> walks es -> (forall p, In p ps -> does timely loose p) -> partly_stands_for lim b s ->
  exists evs, fst (byte_interleave lim es (ps, b)) = fst (happen evs (ps, s)) /\
  partly_stands_for lim (snd (byte_interleave lim es (ps, b))) (snd (happen evs (ps, s))).
Proof.
  induction es as [| [i ord] es IH]; intros ps b s Hl Hw Hp Hb; [exists []; split; [reflexivity | exact Hb] |].
  assert (Hw' : walks es) by (intros e He; apply Hw; right; exact He).
  assert (Hst : exists qs b' s' ev, byte_advance lim (ps, b) (i, ord) = (qs, b') /\ occur (ps, s) ev = (qs, s') /\
    (forall p, In p qs -> does timely loose p) /\ partly_stands_for lim b' s').
  { unfold byte_advance. cbn [fst snd]. destruct (nth_error ps i) as [p |] eqn:Hi; [| exists ps, b, s, (Works i); cbn; unfold advance; cbn; rewrite Hi; auto].
    pose proof (byte_step_partly lim ord p b s Hl (Hw (i, ord) (or_introl eq_refl)) (Hp p (nth_error_In _ _ Hi)) Hb) as Hs.
    destruct (byte_step lim ord p b) as [[p' b'] |], (step1 p s) as [[q' s'] |] eqn:Hq; try contradiction;
      [| exists ps, b, s, (Works i); cbn [occur]; unfold advance; cbn [fst snd]; rewrite Hi, Hq; auto].
    destruct Hs as [(<- & Hd & Hb') | [-> ->]].
    - exists (replace i p' ps), b', s', (Works i). split; [reflexivity |]. split; [cbn [occur]; unfold advance; cbn [fst snd]; rewrite Hi, Hq; reflexivity |]. split; [| exact Hb'].
      intros q Hin. apply in_replace in Hin as [-> | Hin]; auto.
    - exists (replace i (Ret (Err EStorage)) ps), b, s, (Fails i false). split; [reflexivity |]. split; [cbn [occur fst snd]; rewrite Hi, Hq; reflexivity |]. split; [| exact Hb].
      intros q Hin. apply in_replace in Hin as [-> | Hin]; [constructor | auto]. }
  destruct Hst as (qs & b' & s' & ev & H1 & H2 & H3 & H4).
  change (byte_interleave lim ((i, ord) :: es) (ps, b)) with (byte_interleave lim es (byte_advance lim (ps, b) (i, ord))).
  rewrite H1. destruct (IH qs b' s' Hl Hw' H3 H4) as (evs & He). exists (ev :: evs).
  change (happen (ev :: evs) (ps, s)) with (happen evs (occur (ps, s) ev)). rewrite H2. exact He.
Qed.

(** *** Programs that read and write no policy record *)

Inductive blind {A} : prog A -> Prop :=
| bl_ret a : blind (Ret a)
| bl_polhas id k : (forall x, blind (k x)) -> blind (PolHas id k)
| bl_poldel id k : blind k -> blind (PolDel id k)
| bl_polids k : (forall x, blind (k x)) -> blind (PolIds k)
| bl_edgeget pid key k : (forall x, blind (k x)) -> blind (EdgeGet pid key k)
| bl_edgedel pid key k : blind k -> blind (EdgeDel pid key k)
| bl_edgelist pid k : (forall x, blind (k x)) -> blind (EdgeList pid k)
| bl_dataget key k : (forall x, blind (k x)) -> blind (DataGet key k)
| bl_datadel key k : blind k -> blind (DataDel key k).

Lemma blind_pbind {A B} (p : prog A) (f : A -> prog B) : blind p -> (forall a, blind (f a)) -> blind (pbind p f).
Proof. intros Hp Hf. induction Hp; cbn [pbind]; auto; constructor; auto. Qed.

Lemma blind_rbind {A B} (p : prog (res A)) (f : A -> prog (res B)) : blind p -> (forall a, blind (f a)) -> blind (rbind p f).
Proof. intros Hp Hf. apply blind_pbind; [exact Hp |]. intros []; auto; constructor. Qed.

Lemma blind_map {A B} (f : A -> prog (res B)) l : (forall a, blind (f a)) -> blind (map_prog f l).
Proof.
  intros Hf. induction l as [| a l IH]; cbn [map_prog]; [constructor |].
  apply blind_rbind; [auto |]. intros b. apply blind_rbind; [exact IH |]. intros. constructor.
Qed.

Lemma blind_delete E pid r : blind (repo_delete_relationship E pid r).
Proof. unfold repo_delete_relationship, rbind, lift. cbn [pbind]. destruct (to_internal r); repeat constructor. Qed.

Lemma blind_deletes E pid s : blind (repo_delete_relationships E pid s).
Proof.
  unfold repo_delete_relationships. apply blind_rbind.
  - unfold repo_find_relationships. constructor. intros x. constructor.
  - intros l. apply blind_rbind; [apply blind_map; intros; apply blind_delete | constructor].
Qed.

Lemma serve_blind E q : needs_no_policy q -> blind (serve E q).
Proof.
  destruct q; cbn [needs_no_policy]; try contradiction; intros _; cbn [serve]; (apply blind_rbind; [| constructor]).
  - unfold delete_policy, repo_delete_policy. cbn [pbind]. constructor. intros []; cbn [pbind]; [| constructor]. constructor.
    apply blind_rbind; [apply blind_deletes | constructor].
  - unfold list_policy_ids, repo_list_policy_ids. repeat constructor.
  - apply blind_delete.
  - unfold get_relationship, repo_get_relationship, rbind, lift. cbn [pbind]. destruct (to_internal r); repeat constructor.
  - apply blind_deletes.
Qed.

Lemma byte_run_blind lim ord {A} (p : prog (res A)) : blind p -> forall b s, partly_stands_for lim b s ->
  fst (byte_run lim ord p b) = fst (run p s) /\ partly_stands_for lim (snd (byte_run lim ord p b)) (snd (run p s)).
Proof.
  induction 1 as [a | id k Hk IH | id k Hk IH | k Hk IH | pid key k Hk IH | pid key k Hk IH | pid k Hk IH | key k Hk IH | key k Hk IH]; intros b s Hb;
    cbn [byte_run run]; pose proof (proj1 (partly_same _ _ _) Hb) as (H1 & H2 & H3).
  - auto.
  - pose proof (same_get scmp _ id _ _ H1) as Hg.
    destruct (kv_get scmp id (b_pol b)), (kv_get scmp id (st_pol s)); try contradiction; cbn [is_some]; auto.
  - apply IH, partly_same. split; [apply same_del; exact H1 | auto].
  - rewrite (same_keys _ _ _ H1). auto.
  - pose proof (same_get ecmp _ (pid, key) _ _ H2) as Hg.
    destruct (kv_get ecmp (pid, key) (b_edges b)) as [v |], (kv_get ecmp (pid, key) (st_edges s)) as [e |]; try contradiction; cbn [read]; auto.
    rewrite Hg. cbn [omap]. auto.
  - apply IH, partly_same. split; [exact H1 |]. split; [apply same_del; exact H2 | exact H3].
  - unfold stored_edges, edges_of. rewrite (decode_edges _ pid _ _ H2). auto.
  - pose proof (same_get pcmp _ key _ _ H3) as Hg.
    destruct (kv_get pcmp key (b_data b)) as [v |], (kv_get pcmp key (st_data s)) as [e |]; try contradiction; cbn [read]; auto.
    rewrite Hg. cbn [omap]. auto.
  - apply IH, partly_same. split; [exact H1 |]. split; [exact H2 | apply same_del; exact H3].
Qed.

Lemma byte_run_reads lim ord {A} (p : prog (res A)) : reads p -> forall b, snd (byte_run lim ord p b) = b.
Proof.
  induction 1; intros b; cbn [byte_run]; auto;
    match goal with
    | |- context [read ?f ?x] => destruct (read f x)
    | |- context [decode_all ?l ?x] => destruct (decode_all l x)
    end; auto.
Qed.

(** ** UTF-8 *)

From Verif Require Import SpecGrammar LexerFacts.

Lemma peek_utf8 s r c rest : peek s = Some (r, c, rest) -> utf8_valid s = utf8_valid rest \/ (String.length c = 1%nat /\ r = rune_error).
Proof.
  destruct s as [| a s1]; cbn [peek utf8_valid]; [discriminate |].
  destruct (byte a <? 128); [intros [= <- <- <-]; auto |].
  assert (Hbad : Some (rune_error, one a, s1) = Some (r, c, rest) -> forall P, P \/ (String.length c = 1%nat /\ r = rune_error)) by (intros [= <- <- <-]; auto).
  destruct (utf8_lead (byte a)) as [[[n lo] hi] |]; [| intros H; exact (Hbad H _)]. destruct s1 as [| a1 s2]; [intros H; exact (Hbad H _) |].
  destruct (between lo hi (byte a1)); cbn [negb]; [| intros H; exact (Hbad H _)]. cbn [andb].
  destruct (Nat.eqb n 2); [intros [= <- <- <-]; auto |]. destruct s2 as [| a2 s3]; [intros H; exact (Hbad H _) |].
  destruct (is_cont a2); cbn [negb]; [| intros H; exact (Hbad H _)]. cbn [andb].
  destruct (Nat.eqb n 3); [intros [= <- <- <-]; auto |]. destruct s3 as [| a3 s4]; [intros H; exact (Hbad H _) |].
  destruct (is_cont a3); cbn [negb]; [| intros H; exact (Hbad H _)]. intros [= <- <- <-]. auto.
Qed.

Lemma utf8_encode r s : scalar r -> utf8_valid (encode r +++ s) = utf8_valid s.
Proof.
  intros Hr. destruct (peek_utf8 _ _ _ _ (peek_encode r s Hr)) as [H | [H ->]]; [exact H |]. vm_compute in H. discriminate.
Qed.

Lemma utf8_encode_all rs s : Forall scalar rs -> utf8_valid (encode_all rs +++ s) = utf8_valid s.
Proof. induction 1 as [| r rs Hr H IH]; cbn [encode_all String.append]; [reflexivity |]. rewrite app_assoc_s, utf8_encode by exact Hr. exact IH. Qed.

Lemma peek_valid s r c rest : utf8_valid s = true -> peek s = Some (r, c, rest) -> scalar r /\ c = encode r /\ utf8_valid rest = true.
Proof.
  intros Hv Hp. pose proof (peek_inv_strong _ _ _ _ Hp) as (_ & _ & Hc).
  assert (H : utf8_valid rest = true /\ (String.length c = 1%nat -> scalar r /\ c = encode r)).
  { revert Hv Hp. destruct s as [| a s1]; cbn [peek utf8_valid]; [discriminate |].
    destruct (N.ltb_spec (byte a) 128) as [Ha | Ha].
    { intros Hv [= <- <- <-]. split; [exact Hv |]. intros _. unfold scalar, encode, chr. split; [lia |]. destruct (N.ltb_spec (byte a) 128); [| lia]. rewrite chr_byte. reflexivity. }
    destruct (utf8_lead (byte a)) as [[[n lo] hi] |]; [| discriminate]. destruct s1 as [| a1 s2]; [discriminate |].
    destruct (between lo hi (byte a1)); [| discriminate]. cbn [negb andb].
    destruct (Nat.eqb n 2); [intros Hv [= <- <- <-]; split; [exact Hv | discriminate] |]. destruct s2 as [| a2 s3]; [discriminate |].
    destruct (is_cont a2); [| discriminate]. cbn [negb andb].
    destruct (Nat.eqb n 3); [intros Hv [= <- <- <-]; split; [exact Hv | discriminate] |]. destruct s3 as [| a3 s4]; [discriminate |].
    destruct (is_cont a3); [| discriminate]. cbn [negb andb]. intros Hv [= <- <- <-]; split; [exact Hv | discriminate]. }
  destruct H as [H1 H2]. destruct Hc as [[H3 H4] | [_ H3]]; [auto |]. destruct (H2 H3). auto.
Qed.

Lemma utf8_scalars n : forall s, (String.length s <= n)%nat -> utf8_valid s = true -> exists rs, Forall scalar rs /\ s = encode_all rs.
Proof.
  induction n as [| n IH]; intros s Hn Hv; [destruct s; [exists []; split; [constructor | reflexivity] | cbn in Hn; lia] |].
  destruct (peek s) as [[[r c] rest] |] eqn:Hp.
  - destruct (peek_valid s r c rest Hv Hp) as (H1 & H2 & H3). apply peek_inv in Hp as (-> & Hc & _). rewrite length_app_s in Hn.
    destruct (IH rest) as (rs & H4 & ->); [destruct c; [contradiction | cbn in Hn; lia] | exact H3 |].
    exists (r :: rs). split; [constructor; assumption |]. rewrite H2. reflexivity.
  - exists []. split; [constructor |]. destruct s; [reflexivity |]. exfalso. revert Hp. cbn [peek]. repeat (match goal with |- context [if ?b then _ else _] => destruct b | |- context [match ?x with _ => _ end] => destruct x end; try discriminate).
Qed.

Lemma utf8_scalar_texts rs : Forall scalar rs -> utf8_valid (encode_all rs) = true.
Proof. induction 1 as [| r rs Hr H IH]; cbn [encode_all]; [reflexivity |]. rewrite utf8_encode; assumption. Qed.
