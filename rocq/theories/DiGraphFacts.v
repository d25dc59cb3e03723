(** Proofs about the graphs of pkg/types/graph.go. *)
From Verif Require Import Base Lexer Explain DiGraph SpecDot SpecDiGraph BaseFacts NameFacts DotFacts.

Lemma di_run_app ops : forall g ops', di_run g (ops ++ ops') = let* g' := di_run g ops in di_run g' ops'.
Proof.
  induction ops as [| o ops IH]; intros g ops'; [reflexivity |]. cbn [app di_run]. destruct (di_step g o); cbn [bind]; auto.
Qed.

Lemma di_after_snoc ops o : di_after (ops ++ [o]) = let* g := di_after ops in di_step g o.
Proof. unfold di_after. rewrite di_run_app. destruct (di_run dg_new ops) as [g | | |]; cbn; auto. destruct (di_step g o); reflexivity. Qed.

(** ** The last node and the last edge *)

Lemma snoc_split {A} (ops : list A) o before x after : ops ++ [o] = before ++ x :: after ->
  (after = [] /\ ops = before /\ x = o) \/ exists after', after = after' ++ [o] /\ ops = before ++ x :: after'.
Proof.
  destruct after as [| y after] using rev_ind; intros H.
  - left. apply app_inj_tail in H as [<- <-]. auto.
  - right. change (before ++ x :: after ++ [y]) with (before ++ (x :: after) ++ [y]) in H. rewrite app_assoc in H.
    apply app_inj_tail in H as [-> ->]. eauto.
Qed.

Lemma last_node_snoc ops o id n : last_node (ops ++ [o]) id n <->
  (gn_id n = id /\ o = DNode (Some n)) \/ (last_node ops id n /\ forall n', o = DNode (Some n') -> gn_id n' <> id).
Proof.
  split.
  - intros (Hid & before & after & Ho & Hl). apply snoc_split in Ho as [(-> & -> & <-) | (after' & -> & ->)]; [auto |].
    right. split; [| intros n' ->; apply Hl, in_or_app; right; left; reflexivity].
    split; [exact Hid |]. exists before, after'. split; [reflexivity |]. intros n' Hn. apply Hl, in_or_app. auto.
  - intros [[Hid ->] | [(Hid & before & after & -> & Hl) Hn]].
    + split; [exact Hid |]. exists ops, []. split; [reflexivity |]. intros n' [].
    + split; [exact Hid |]. exists before, (after ++ [o]). split; [rewrite <- app_assoc; reflexivity |].
      intros n' Hin. apply in_app_or in Hin as [Hin | [-> | []]]; auto.
Qed.

Lemma last_edge_snoc ops o a b e : last_edge (ops ++ [o]) a b e <->
  (ge_source e = a /\ ge_dest e = b /\ o = DEdge (Some e)) \/
  (last_edge ops a b e /\ forall e', o = DEdge (Some e') -> ge_source e' <> a \/ ge_dest e' <> b).
Proof.
  split.
  - intros (Ha & Hb & before & after & Ho & Hl). apply snoc_split in Ho as [(-> & -> & <-) | (after' & -> & ->)]; [auto |].
    right. split; [| intros n' ->; apply Hl, in_or_app; right; left; reflexivity].
    split; [exact Ha |]. split; [exact Hb |]. exists before, after'. split; [reflexivity |]. intros n' Hn. apply Hl, in_or_app. auto.
  - intros [(Ha & Hb & ->) | [(Ha & Hb & before & after & -> & Hl) Hn]].
    + split; [exact Ha |]. split; [exact Hb |]. exists ops, []. split; [reflexivity |]. intros n' [].
    + split; [exact Ha |]. split; [exact Hb |]. exists before, (after ++ [o]). split; [rewrite <- app_assoc; reflexivity |].
      intros n' Hin. apply in_app_or in Hin as [Hin | [-> | []]]; auto.
Qed.

(** ** What a graph holds *)

Definition deep_get (a b : string) (m : list (string * edge_map)) : option gedge :=
  match kv_get scmp a m with Some x => kv_get scmp b x | None => None end.

Definition deep_sorted (m : list (string * edge_map)) : Prop :=
  kv_sorted scmp m /\ forall a x, In (a, x) m -> kv_sorted scmp x.

Record holds_ops (ops : list di_op) (g : digraph) : Prop := {
  ho_nodes_sorted : kv_sorted scmp (entries (dg_nodes g));
  ho_fwd_sorted : deep_sorted (entries (dg_fwd g));
  ho_back_sorted : deep_sorted (entries (dg_back g));
  ho_keys : forall id n, In (id, n) (entries (dg_nodes g)) -> gn_id n = id;
  ho_nodes : forall id n, kv_get scmp id (entries (dg_nodes g)) = Some n <-> last_node ops id n;
  ho_fwd : forall a b e, deep_get a b (entries (dg_fwd g)) = Some e <-> last_edge ops a b e;
  ho_back : forall a b e, deep_get b a (entries (dg_back g)) = Some e <-> last_edge ops a b e }.

Lemma scmp_eqb x y : match scmp x y with Eq => true | _ => false end = String.eqb x y.
Proof.
  destruct (String.eqb_spec x y) as [-> | Hne]; [rewrite (cmp_refl _ scmp_ok); reflexivity |].
  destruct (scmp x y) eqn:Hc; auto. apply (cmp_eq _ scmp_ok) in Hc. contradiction.
Qed.

Lemma get_set_s {A} k (v : A) m k0 : kv_get scmp k0 (kv_set scmp k v m) = if String.eqb k0 k then Some v else kv_get scmp k0 m.
Proof. rewrite (get_set scmp scmp_ok), <- scmp_eqb. destruct (scmp k0 k); reflexivity. Qed.

Lemma index_ok key other e m : match dg_index key other e m with
  | Ok m' => m <> None /\ m' <> None /\ (deep_sorted (entries m) -> deep_sorted (entries m')) /\
             forall a b, deep_get a b (entries m') = if String.eqb a key && String.eqb b other then Some e else deep_get a b (entries m)
  | Panic => m = None
  | _ => False
  end.
Proof.
  unfold dg_index. destruct m as [m |]; [| reflexivity]. cbn [entries]. split; [discriminate |]. split; [discriminate |]. split.
  - intros [Hs Hi]. split; [apply sorted_set; [exact scmp_ok | exact Hs] |]. intros a x Hin.
    apply in_set in Hin as [[-> ->] | Hin]; [| eauto]. apply sorted_set; [exact scmp_ok |].
    destruct (kv_get scmp key m) as [y |] eqn:Hg; [| exact I]. apply (Hi key). apply (get_iff scmp scmp_ok); assumption.
  - intros a b. unfold deep_get. rewrite get_set_s. destruct (String.eqb_spec a key) as [-> | Hne]; cbn [andb]; [| reflexivity].
    rewrite get_set_s. destruct (String.eqb b other); [reflexivity |]. destruct (kv_get scmp key m); reflexivity.
Qed.

Lemma sent_entries {A} (m : option (list (string * A))) : entries (sent m) = entries m.
Proof. destruct m as [[| x m] |]; reflexivity. Qed.

Lemma after_holds ops : forall g, di_after ops = Ok g -> holds_ops ops g.
Proof.
  induction ops as [| o ops IH] using rev_ind; intros g Hg.
  - injection Hg as <-. constructor; cbn; try exact I; try (split; [exact I | intros ? ? []]); try contradiction.
    + intros id n. split; [discriminate |]. intros (_ & before & after & Hx & _). destruct before; discriminate.
    + intros a b e. split; [discriminate |]. intros (_ & _ & before & after & Hx & _). destruct before; discriminate.
    + intros a b e. split; [discriminate |]. intros (_ & _ & before & after & Hx & _). destruct before; discriminate.
  - rewrite di_after_snoc in Hg. destruct (di_after ops) as [g0 | | |] eqn:Hx; cbn [bind] in Hg; try discriminate.
    destruct (IH g0 eq_refl) as [S1 S2 S3 K N F B]. clear IH Hx. destruct o as [[n |] | [e |] |]; cbn [di_step] in Hg; try discriminate.
    + unfold dg_add_node in Hg. destruct (dg_nodes g0) as [m |] eqn:Hm; [| discriminate]. injection Hg as <-.
      constructor; cbn [dg_nodes dg_fwd dg_back entries] in *; auto.
      * apply sorted_set; [exact scmp_ok | exact S1].
      * intros id n' Hin. apply in_set in Hin as [[-> ->] | Hin]; auto.
      * intros id n'. rewrite get_set_s, last_node_snoc. destruct (String.eqb_spec id (gn_id n)) as [-> | Hne].
        -- split; [intros [= ->]; auto |]. intros [[_ [= ->]] | [_ Hn]]; [reflexivity | contradiction (Hn n eq_refl eq_refl)].
        -- rewrite N. split; [intros H; right; split; [exact H |]; intros n'' [= ->]; congruence |].
           intros [[Hid [= ->]] | [H _]]; [congruence | exact H].
      * intros a b e. rewrite last_edge_snoc, F. split; [intros H; right; split; [exact H | discriminate] | intros [(_ & _ & [=]) | [H _]]; exact H].
      * intros a b e. rewrite last_edge_snoc, B. split; [intros H; right; split; [exact H | discriminate] | intros [(_ & _ & [=]) | [H _]]; exact H].
    + unfold dg_add_edge in Hg. pose proof (index_ok (ge_source e) (ge_dest e) e (dg_fwd g0)) as Hf.
      destruct (dg_index (ge_source e) (ge_dest e) e (dg_fwd g0)) as [f | | |]; cbn [bind] in Hg; try discriminate.
      pose proof (index_ok (ge_dest e) (ge_source e) e (dg_back g0)) as Hb.
      destruct (dg_index (ge_dest e) (ge_source e) e (dg_back g0)) as [bk | | |]; cbn [bind] in Hg; try discriminate. injection Hg as <-.
      destruct Hf as (_ & _ & Hfs & Hf), Hb as (_ & _ & Hbs & Hb).
      constructor; cbn [dg_nodes dg_fwd dg_back] in *; auto.
      * intros id n. rewrite last_node_snoc, N. split; [intros H; right; split; [exact H | discriminate] | intros [(_ & [=]) | [H _]]; exact H].
      * intros a b e'. rewrite Hf, last_edge_snoc. destruct (String.eqb_spec a (ge_source e)) as [-> | Ha]; cbn [andb].
        -- destruct (String.eqb_spec b (ge_dest e)) as [-> | Hb'].
           ++ split; [intros [= ->]; auto |]. intros [(_ & _ & [= ->]) | [_ Hn]]; [reflexivity | destruct (Hn e eq_refl); congruence].
           ++ rewrite F. split; [intros H; right; split; [exact H |]; intros e'' [= ->]; right; congruence |].
              intros [(_ & Hd & [= ->]) | [H _]]; [congruence | exact H].
        -- rewrite F. split; [intros H; right; split; [exact H |]; intros e'' [= ->]; left; congruence |].
           intros [(Hd & _ & [= ->]) | [H _]]; [congruence | exact H].
      * intros a b e'. rewrite Hb, last_edge_snoc. destruct (String.eqb_spec b (ge_dest e)) as [-> | Hb']; cbn [andb].
        -- destruct (String.eqb_spec a (ge_source e)) as [-> | Ha].
           ++ split; [intros [= ->]; auto |]. intros [(_ & _ & [= ->]) | [_ Hn]]; [reflexivity | destruct (Hn e eq_refl); congruence].
           ++ rewrite B. split; [intros H; right; split; [exact H |]; intros e'' [= ->]; left; congruence |].
              intros [(Hd & _ & [= ->]) | [H _]]; [congruence | exact H].
        -- rewrite B. split; [intros H; right; split; [exact H |]; intros e'' [= ->]; right; congruence |].
           intros [(_ & Hd & [= ->]) | [H _]]; [congruence | exact H].
    + injection Hg as <-. constructor; cbn [dg_send dg_nodes dg_fwd dg_back]; rewrite ?sent_entries; auto.
      * intros id n. rewrite last_node_snoc, N. split; [intros H; right; split; [exact H | discriminate] | intros [(_ & [=]) | [H _]]; exact H].
      * intros a b e. rewrite last_edge_snoc, F. split; [intros H; right; split; [exact H | discriminate] | intros [(_ & _ & [=]) | [H _]]; exact H].
      * intros a b e. rewrite last_edge_snoc, B. split; [intros H; right; split; [exact H | discriminate] | intros [(_ & _ & [=]) | [H _]]; exact H].
Qed.

(** No entry for a node without edges. *)
Definition inhabited (m : list (string * edge_map)) : Prop := forall a x, In (a, x) m -> x <> [].

Lemma index_inhabited key other e m m' : dg_index key other e m = Ok m' -> inhabited (entries m) -> inhabited (entries m').
Proof.
  unfold dg_index. destruct m as [m |]; [| discriminate]. intros [= <-] H a x Hin. cbn [entries] in *.
  apply in_set in Hin as [[-> ->] | Hin]; [| eapply H; exact Hin].
  destruct (kv_get scmp key m) as [[| [b e'] y] |]; cbn; try discriminate. destruct (scmp other b); discriminate.
Qed.

Lemma after_edges ops : forall g, di_after ops = Ok g -> inhabited (entries (dg_fwd g)) /\ inhabited (entries (dg_back g)).
Proof.
  induction ops as [| o ops IH] using rev_ind; intros g Hg; [injection Hg as <-; split; intros ? ? [] |].
  rewrite di_after_snoc in Hg. destruct (di_after ops) as [g0 | | |] eqn:Hx; cbn [bind] in Hg; try discriminate.
  destruct (IH g0 eq_refl) as [Hf Hb]. destruct o as [[n |] | [e |] |]; cbn [di_step] in Hg; try discriminate.
  - unfold dg_add_node in Hg. destruct (dg_nodes g0); [| discriminate]. injection Hg as <-. auto.
  - unfold dg_add_edge in Hg. destruct (dg_index (ge_source e) (ge_dest e) e (dg_fwd g0)) as [f | | |] eqn:H1; cbn [bind] in Hg; try discriminate.
    destruct (dg_index (ge_dest e) (ge_source e) e (dg_back g0)) as [b | | |] eqn:H2; cbn [bind] in Hg; try discriminate. injection Hg as <-.
    cbn [dg_fwd dg_back]. split; eapply index_inhabited; eassumption.
  - injection Hg as <-. cbn [dg_send dg_fwd dg_back]. rewrite !sent_entries. auto.
Qed.

(** ** When the calls succeed *)

Definition no_nil (g : digraph) : Prop := dg_nodes g <> None /\ dg_fwd g <> None /\ dg_back g <> None.

Lemma step_total g o : no_nil g -> given o -> o <> DSend -> exists g', di_step g o = Ok g' /\ no_nil g'.
Proof.
  intros (H1 & H2 & H3) [Hn He] Hs. destruct o as [[n |] | [e |] |]; try congruence; cbn [di_step].
  - unfold dg_add_node. destruct (dg_nodes g); [| congruence]. eexists. split; [reflexivity |]. repeat split; cbn; auto; discriminate.
  - unfold dg_add_edge. pose proof (index_ok (ge_source e) (ge_dest e) e (dg_fwd g)) as Hf.
    destruct (dg_index (ge_source e) (ge_dest e) e (dg_fwd g)) as [f | | |]; cbn [bind]; try contradiction.
    pose proof (index_ok (ge_dest e) (ge_source e) e (dg_back g)) as Hb.
    destruct (dg_index (ge_dest e) (ge_source e) e (dg_back g)) as [b | | |]; cbn [bind]; try contradiction.
    eexists. split; [reflexivity |]. repeat split; cbn; [exact H1 | apply Hf | apply Hb].
Qed.

Lemma run_total ops : forall g, no_nil g -> Forall given ops -> ~ In DSend ops -> exists g', di_run g ops = Ok g' /\ no_nil g'.
Proof.
  induction ops as [| o ops IH]; intros g Hg Ho Hs; [exists g; split; [reflexivity | exact Hg] |]. apply Forall_cons_iff in Ho as [H1 H2].
  destruct (step_total g o Hg H1) as (g' & Hx & Hg'); [intros ->; apply Hs; left; reflexivity |]. cbn [di_run]. rewrite Hx. cbn [bind].
  apply IH; auto. intros H. apply Hs. right. exact H.
Qed.

(** ** Names *)

Lemma escape_inj a : forall b, escape a = escape b -> a = b.
Proof.
  induction a as [| c a IH]; intros [| d b]; cbn [escape]; try reflexivity.
  - destruct (Ascii.eqb d """"); discriminate.
  - destruct (Ascii.eqb c """"); discriminate.
  - destruct (Ascii.eqb_spec c """") as [-> | Hc], (Ascii.eqb_spec d """") as [-> | Hd]; intros H.
    + injection H as H. f_equal. auto.
    + injection H as <- H. destruct b as [| d' b]; cbn [escape] in H; [discriminate |].
      destruct (Ascii.eqb_spec d' """") as [-> | Hd']; [discriminate |]. exfalso. congruence.
    + injection H as -> H. destruct a as [| c' a]; cbn [escape] in H; [discriminate |].
      destruct (Ascii.eqb_spec c' """") as [-> | Hc']; [discriminate |]. exfalso. congruence.
    + injection H as -> H. f_equal. auto.
Qed.

Lemma wrap_inj a b : wrap_quotes a = wrap_quotes b -> a = b.
Proof. unfold wrap_quotes. intros H. apply append_inj in H. apply append_same_length in H as [H _]; [exact H | reflexivity]. Qed.

Lemma map_id_inj a b : map_id a = map_id b -> a = b.
Proof. intros H. apply escape_inj, wrap_inj, H. Qed.

(** ** The DOT statements *)

Definition node_stmt (x : string * gnode) : goal_stmt := GNode (map_id (gn_id (snd x))) (Some (wrap_quotes (gn_data (snd x)))).

Lemma labels_app l l' id : labels_of (l ++ l') id = labels_of l id ++ labels_of l' id.
Proof. unfold labels_of. apply flat_map_app. Qed.

Lemma labels_edges (l : list goal_stmt) id : (forall x, In x l -> exists a b, x = GEdge a b) -> labels_of l id = [].
Proof.
  intros H. induction l as [| x l IH]; [reflexivity |]. destruct (H x (or_introl eq_refl)) as (a & b & ->). cbn. apply IH.
  intros y Hy. apply H. right. exact Hy.
Qed.

Lemma labels_none m id : (forall k n, In (k, n) m -> gn_id n = k) -> (forall n, ~ In (id, n) m) -> labels_of (map node_stmt m) (map_id id) = [].
Proof.
  induction m as [| [k n] m IH]; intros Hk Hn; [reflexivity |]. cbn [map labels_of flat_map node_stmt snd].
  destruct (String.eqb_spec (map_id (gn_id n)) (map_id id)) as [He | _].
  - apply map_id_inj in He. exfalso. apply (Hn n). left. rewrite <- (Hk k n (or_introl eq_refl)), He. reflexivity.
  - apply IH; [intros; apply Hk; right; assumption |]. intros x Hx. apply (Hn x). right. exact Hx.
Qed.

Lemma labels_one m id n : kv_sorted scmp m -> (forall k n, In (k, n) m -> gn_id n = k) -> In (id, n) m ->
  labels_of (map node_stmt m) (map_id id) = [Some (wrap_quotes (gn_data n))].
Proof.
  induction m as [| [k x] m IH]; intros Hs Hk Hin; [contradiction |]. destruct Hs as [Hlt Hs].
  assert (Hkx : gn_id x = k) by (apply Hk; left; reflexivity). cbn [map labels_of flat_map node_stmt snd]. destruct Hin as [[= -> ->] | Hin].
  - rewrite Hkx, String.eqb_refl. cbn [app]. f_equal. apply labels_none; [intros; apply Hk; right; assumption |].
    intros y Hy. specialize (Hlt _ _ Hy). rewrite (cmp_refl _ scmp_ok) in Hlt. discriminate.
  - destruct (String.eqb_spec (map_id (gn_id x)) (map_id id)) as [He | _].
    + apply map_id_inj in He. subst. specialize (Hlt _ _ Hin). rewrite (cmp_refl _ scmp_ok) in Hlt. discriminate.
    + apply IH; auto. intros; apply Hk; right; assumption.
Qed.

Lemma edge_stmts m s : In s (concat (map (fun x : string * edge_map => map (fun y => GEdge (map_id (fst x)) (map_id (fst y))) (snd x)) m)) <->
  exists a x b e, In (a, x) m /\ In (b, e) x /\ s = GEdge (map_id a) (map_id b).
Proof.
  rewrite in_concat. split.
  - intros (l & Hl & Hs). apply in_map_iff in Hl as ([a x] & <- & Hm). apply in_map_iff in Hs as ([b e] & <- & Hx). cbn. do 4 eexists. eauto.
  - intros (a & x & b & e & Hm & Hx & ->). eexists. split; [apply in_map_iff; exists (a, x); split; [reflexivity | exact Hm] |].
    apply in_map_iff. exists (b, e). auto.
Qed.

Lemma deep_in m a b e : deep_sorted m -> (deep_get a b m = Some e <-> exists x, In (a, x) m /\ In (b, e) x).
Proof.
  intros [Hs Hi]. unfold deep_get. split.
  - destruct (kv_get scmp a m) as [x |] eqn:Hg; [| discriminate]. intros He. apply (get_iff scmp scmp_ok) in Hg; [| exact Hs].
    exists x. split; [exact Hg |]. apply (get_iff scmp scmp_ok); [eapply Hi; eassumption | exact He].
  - intros (x & Hx & He). rewrite (proj2 (get_iff scmp scmp_ok a x m Hs) Hx). apply (get_iff scmp scmp_ok); [eapply Hi; eassumption | exact He].
Qed.

(** Values that are not shown do not matter. *)
Lemma map_set_ext {A B} (h : string * A -> B) k v v' m : h (k, v) = h (k, v') -> map h (kv_set scmp k v m) = map h (kv_set scmp k v' m).
Proof.
  intros H. induction m as [| [k' w] m IH]; cbn; [rewrite H; reflexivity |]. destruct (scmp k k'); cbn; rewrite ?H, ?IH; reflexivity.
Qed.

(** ** DOT strings *)

Lemma dot_string_wrap s : dot_string (wrap_quotes s) <-> string_body s.
Proof.
  split; [| intros H; exists s; split; [reflexivity | exact H]]. intros (b & Hs & Hb). change (wrap_quotes s = wrap_quotes b) in Hs.
  apply wrap_inj in Hs as ->. exact Hb.
Qed.

Lemma escape_body s : string_body (escape s) <-> slashed s.
Proof.
  split.
  - assert (H : forall n s, String.length s <= n -> string_body (escape s) -> slashed s); [| apply (H (String.length s)); lia].
    intros n. induction n as [| n IH]; intros [| c t] Hl Hb; cbn in Hl; try lia; try exact sl_end. cbn [escape] in Hb.
    destruct (Ascii.eqb_spec c """") as [-> | Hc].
    + apply sl_char; [discriminate |]. inversion Hb as [| c' s' H1 H2 H3 | c' s' H1 H2]; [contradiction H2; reflexivity |]. apply IH; [lia | exact H1].
    + inversion Hb as [| c' s' H1 H2 H3 H4 | c' s' H1 H2].
      * apply sl_char; [exact H2 |]. apply IH; [lia | exact H3].
      * symmetry in H2. destruct t as [| d t]; cbn [escape] in *; [congruence |].
        destruct (Ascii.eqb_spec d """") as [-> | Hd].
        -- assert (s' = String """" (escape t)) as -> by congruence. inversion H1 as [| ? ? Hq |]; contradiction Hq; reflexivity.
        -- apply sl_pair; [exact Hd |]. apply IH; [cbn in Hl; lia |]. assert (s' = escape t) as <- by congruence. exact H1.
  - induction 1 as [| c s Hc _ IH | c s Hc _ IH]; cbn [escape].
    + constructor.
    + destruct (Ascii.eqb_spec c """") as [-> | Hd]; [apply sb_escaped, IH | apply sb_char; assumption].
    + cbn. destruct (Ascii.eqb_spec c """") as [-> | Hd]; [contradiction Hc; reflexivity | apply sb_escaped, IH].
Qed.
