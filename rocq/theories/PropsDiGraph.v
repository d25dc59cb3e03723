(** C86, C87: the exported graph type of pkg/types/graph.go. *)
From Verif Require Import Base Lexer SpecSearch Explain DiGraph SpecDot SpecDiGraph BaseFacts NameFacts DotFacts DiGraphFacts.

(** ** C86: a graph holds exactly what was added *)

(** Whatever calls were made, in whatever order and with encoding in between: a node is found iff it was the last one
    added under its id, an edge is found from either end iff it was the last one added between its two ids. *)
Theorem C86_contents ops g : di_after ops = Ok g ->
  (forall id n, dg_get_node id g = Some n <-> last_node ops id n) /\
  (forall a b e, dg_forward a b g = Some e <-> last_edge ops a b e) /\
  (forall a b e, dg_backward a b g = Some e <-> last_edge ops a b e).
Proof. intros H. destruct (after_holds ops g H) as [_ _ _ _ N F B]. auto. Qed.
Print Assumptions C86_contents.

(** Calls with a message on a graph made by NewMapDiGraph always succeed. Missing: graphs that have been encoded and
    decoded, where it is false ([C86_received_refuted]). *)
Theorem C86_total_partial ops : Forall given ops -> ~ In DSend ops -> exists g, di_after ops = Ok g.
Proof.
  intros H1 H2. destruct (run_total ops dg_new) as (g & Hg & _); auto; [| eauto]. repeat split; discriminate.
Qed.
Print Assumptions C86_total_partial.

(** A graph without nodes that has been encoded and decoded cannot take a node, one without edges cannot take an edge:
    the call panics, whatever else the graph holds. *)
Theorem C86_received_refuted :
  (forall ops g n, di_after ops = Ok g -> (forall id n', ~ last_node ops id n') -> di_after (ops ++ [DSend; DNode (Some n)]) = Panic) /\
  (forall ops g e, di_after ops = Ok g -> (forall a b e', ~ last_edge ops a b e') -> di_after (ops ++ [DSend; DEdge (Some e)]) = Panic).
Proof.
  split.
  - intros ops g n Hg Hn. unfold di_after in *. rewrite di_run_app, Hg. cbn [bind di_run di_step]. unfold dg_add_node, dg_send. cbn [dg_nodes].
    pose proof (after_holds ops g Hg) as [S1 _ _ _ N _ _]. destruct (dg_nodes g) as [[| [id n'] m] |]; try reflexivity.
    exfalso. apply (Hn id n'), N, (get_iff scmp scmp_ok); [exact S1 | left; reflexivity].
  - intros ops g e Hg Hn. unfold di_after in *. rewrite di_run_app, Hg. cbn [bind di_run di_step]. unfold dg_add_edge, dg_send. cbn [dg_fwd].
    pose proof (after_edges ops g Hg) as Hne. pose proof (after_holds ops g Hg) as [_ S2 _ _ _ F _].
    destruct (dg_fwd g) as [[| [a x] m] |]; try reflexivity. cbn [entries] in *.
    destruct x as [| [b e'] x]; [contradiction (proj1 Hne a [] (or_introl eq_refl)); reflexivity |].
    exfalso. apply (Hn a b e'), F. apply deep_in; [exact S2 |]. exists ((b, e') :: x). split; left; reflexivity.
Qed.
Print Assumptions C86_received_refuted.

(** The DOT graph has exactly the nodes that were added, each once with its data as label, and exactly the edges. *)
Theorem C86_dot ops g : di_after ops = Ok g ->
  (forall id n, last_node ops id n -> labels_of (graph_to_dot g) (map_id id) = [Some (wrap_quotes (gn_data n))]) /\
  (forall name, In name (node_names (graph_to_dot g)) -> exists id n, last_node ops id n /\ name = map_id id) /\
  (forall x y, In (GEdge x y) (graph_to_dot g) <-> exists a b e, last_edge ops a b e /\ x = map_id a /\ y = map_id b).
Proof.
  intros H. destruct (after_holds ops g H) as [S1 S2 S3 K N F B]. unfold graph_to_dot.
  change (fun x : string * gnode => GNode (map_id (gn_id (snd x))) (Some (wrap_quotes (gn_data (snd x))))) with node_stmt. split; [| split].
  - intros id n Hl. rewrite labels_app, (labels_one _ id n S1 K).
    + rewrite labels_edges; [reflexivity |]. intros x Hx. apply edge_stmts in Hx as (a & x' & b & e & _ & _ & ->). eauto.
    + apply (get_iff scmp scmp_ok); [exact S1 |]. apply N. exact Hl.
  - intros name Hn. unfold node_names in Hn. apply in_flat_map in Hn as (s & Hs & Hn). destruct s as [i lab | x y]; [| contradiction].
    destruct Hn as [<- | []]. apply in_app_or in Hs as [Hs | Hs].
    + apply in_map_iff in Hs as ([id n] & [= <- <-] & Hin). exists id, n. split.
      * apply N, (get_iff scmp scmp_ok); assumption.
      * f_equal. apply K. exact Hin.
    + apply edge_stmts in Hs as (a & x' & b & e & _ & _ & [=]).
  - intros x y. rewrite in_app_iff, edge_stmts. split.
    + intros [Hs | (a & m & b & e & Hm & He & [= -> ->])]; [apply in_map_iff in Hs as (? & [=] & _) |].
      exists a, b, e. split; [apply F, deep_in; eauto | auto].
    + intros (a & b & e & He & -> & ->). right. apply F, deep_in in He as (m & Hm & He); [| exact S2]. do 4 eexists. eauto.
Qed.
Print Assumptions C86_dot.

(** Different ids have different names. *)
Theorem C86_names a b : map_id a = map_id b -> a = b.
Proof. apply map_id_inj. Qed.
Print Assumptions C86_names.

(** The labels of the edges are not shown: two graphs that differ in the label of an edge have the same DOT graph. *)
Theorem C86_edge_labels_refuted ops g a b l l' : di_after (ops ++ [DEdge (Some {| ge_source := a; ge_dest := b; ge_label := l |})]) = Ok g ->
  exists g', di_after (ops ++ [DEdge (Some {| ge_source := a; ge_dest := b; ge_label := l' |})]) = Ok g' /\
  graph_to_dot g' = graph_to_dot g.
Proof.
  rewrite !di_after_snoc. destruct (di_after ops) as [g0 | | |]; cbn [bind]; try discriminate. cbn [di_step]. unfold dg_add_edge, dg_index.
  cbn [ge_source ge_dest]. destruct (dg_fwd g0) as [m |]; cbn [bind]; [| discriminate]. destruct (dg_back g0) as [m' |]; cbn [bind]; [| discriminate].
  intros [= <-]. eexists. split; [reflexivity |]. unfold graph_to_dot. cbn [dg_nodes dg_fwd entries]. f_equal. f_equal.
  apply map_set_ext. cbn [fst snd]. apply map_set_ext. reflexivity.
Qed.
Print Assumptions C86_edge_labels_refuted.

Definition edge (a b l : string) : di_op := DEdge (Some {| ge_source := a; ge_dest := b; ge_label := l |}).
Definition node (id d : string) : di_op := DNode (Some {| gn_id := id; gn_data := d |}).

(** A graph sent half-way: the second label of a node and the second edge between two nodes replace the first. *)
Example C86_example : exists g, di_after [node "x" "1"; edge "x" "y" "a"; node "y" "2"; DSend; node "x" "3"; edge "x" "y" "b"; edge "y" "x" "c"] = Ok g /\
  dg_get_node "x" g = Some {| gn_id := "x"; gn_data := "3" |} /\ dg_get_node "z" g = None /\
  option_map ge_label (dg_forward "x" "y" g) = Some "b" /\ option_map ge_label (dg_backward "y" "x" g) = Some "c" /\
  graph_to_dot g = [GNode """x""" (Some """3"""); GNode """y""" (Some """2"""); GEdge """x""" """y"""; GEdge """y""" """x"""].
Proof. eexists. split; [reflexivity |]. repeat split; reflexivity. Qed.

Example C86_received_example : di_after [node "x" "1"; DSend; edge "x" "x" ""] = Panic /\ di_after [edge "x" "x" ""; DSend; node "x" ""] = Panic.
Proof. split; reflexivity. Qed.

(** ** C87: names and labels are DOT strings *)

(** Exactly when: a name is one if in its id no backslash stands before a quote or at the end; a label is one if the data
    itself is the inside of a DOT string, since it is not escaped. *)
Theorem C87_exact id data : (dot_string (map_id id) <-> slashed id) /\ (dot_string (wrap_quotes data) <-> string_body data).
Proof.
  split; [| apply dot_string_wrap]. unfold map_id. rewrite dot_string_wrap. apply escape_body.
Qed.
Print Assumptions C87_exact.

(** Ids with no backslash are always fine, whatever else they hold. *)
Theorem C87_names_partial id : lacks backslash id -> dot_string (map_id id).
Proof.
  intros H. apply (proj1 (C87_exact id "")). induction id as [| c id IH]; [constructor |].
  destruct H as [Hc H]. apply sl_char; auto.
Qed.
Print Assumptions C87_names_partial.

(** For every id there is a longer one whose name is not a DOT string; the same for data, where one quote is enough. *)
Theorem C87_refuted : (forall id, slashed id -> ~ dot_string (map_id (id +++ "\"))) /\
  (forall a b, string_body a -> ~ dot_string (wrap_quotes (a +++ String dquote b))).
Proof.
  split.
  - intros id Hid Hd. apply (proj1 (C87_exact _ "")) in Hd. induction Hid as [| c s Hc _ IH | c s Hc _ IH]; cbn [append] in Hd.
    + inversion Hd as [| ? ? Hq |]. contradiction Hq; reflexivity.
    + inversion Hd; subst; auto.
    + inversion Hd as [| ? ? Hq | ? ? ? Hr]; [contradiction Hq; reflexivity | auto].
  - intros a b Ha Hd. apply (proj2 (C87_exact "" _)) in Hd. induction Ha as [| c s Hc Hb _ IH | c s _ IH]; cbn [append] in Hd.
    + inversion Hd as [| ? ? Hq |]. contradiction Hq; reflexivity.
    + inversion Hd; subst; auto.
    + inversion Hd as [| ? ? ? Hq | ? ? Hr]; [contradiction Hq; reflexivity | auto].
Qed.
Print Assumptions C87_refuted.

(** A quote in an id is escaped, one in the data is not, and a final backslash swallows the closing quote. *)
Example C87_example : map_id "a""b" = """a\""b""" /\ dot_string (map_id "a""b") /\
  wrap_quotes "a""b" = """a""b""" /\ ~ dot_string (wrap_quotes "a""b") /\
  map_id "a\" = """a\""" /\ ~ dot_string (map_id "a\").
Proof.
  split; [reflexivity |]. split; [apply C87_names_partial; repeat split; discriminate |]. split; [reflexivity |].
  split; [apply (proj2 C87_refuted "a" "b"); repeat constructor; discriminate |]. split; [reflexivity |].
  apply (proj1 C87_refuted "a"). repeat constructor; discriminate.
Qed.
