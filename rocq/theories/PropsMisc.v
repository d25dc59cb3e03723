(** Properties of YAML definitions and of the in-memory graph: C38, C39, C46, C47. *)
From Coq Require Import Permutation.
From Verif Require Import Base Domain Lexer Parser Validate Store Search Explain Yaml Service Dump MapGraph Api
  SpecGrammar SpecPolicy SpecStore SpecMisc Fixtures BaseFacts ValidateFacts StoreFacts PolicyFacts MiscFacts.

Definition yaml (d : ydef) : option policy_def := Some (DYaml (Some d)).

(** ** C38 YAML definitions are independent of key order *)

(** Requests with equal documents up to key order are served by the same steps and answers. *)
Theorem C38_order_irrelevant : forall E d d', proper d -> same_document d d' ->
  (forall now app s, answer E (QCreatePolicy now (yaml d) app) s = answer E (QCreatePolicy now (yaml d') app) s /\
    after E (QCreatePolicy now (yaml d) app) s = after E (QCreatePolicy now (yaml d') app) s) /\
  (forall app s, answer E (QUpdatePolicy (yaml d) app) s = answer E (QUpdatePolicy (yaml d') app) s /\
    after E (QUpdatePolicy (yaml d) app) s = after E (QUpdatePolicy (yaml d') app) s).
Proof.
  intros E d d' Hp Hs. pose proof (order_irrelevant d d' Hp Hs) as He. unfold answer, after, yaml, serve, create_policy, update_policy, get_policy_from_definition.
  rewrite He. auto.
Qed.

(** [stores E q s d p]: the request [q] carries the document [d], succeeds, and the policy is then [p]. *)
Inductive stores (E : env) (s : store) (d : ydef) : policy -> Prop :=
| st_create now app rec rec' :
    answer E (QCreatePolicy now (yaml d) app) s = Ok (ACreated rec') ->
    answer E (QGetPolicy (y_id d)) (after E (QCreatePolicy now (yaml d) app) s) = Ok (APolicy (Some rec)) ->
    stores E s d (pr_policy rec)
| st_update app rec :
    answer E (QUpdatePolicy (yaml d) app) s = Ok AUpdated ->
    answer E (QGetPolicy (y_id d)) (after E (QUpdatePolicy (yaml d) app) s) = Ok (APolicy (Some rec)) ->
    stores E s d (pr_policy rec).

Lemma stores_mapped E s d p : stores E s d p -> p = map_policy_definition d.
Proof.
  intros [now app rec rec' Ha Hg | app rec Ha Hg]; rewrite answer_get_policy in Hg; injection Hg as Hg.
  - destruct (create_cases E now (yaml d) app s) as [(q & Hd & _ & _ & _ & Hs) | [(q & r & _ & _ & Hf & _) | (_ & Hf & _)]]; try congruence.
    rewrite Hs, policies_put in Hg. inversion Hd; subst. cbn in Hg. unfold put in Hg. cbn in Hg. rewrite String.eqb_refl in Hg. injection Hg as <-. reflexivity.
  - destruct (update_effect E (yaml d) app s Ha) as (q & r & Hd & _ & _ & Hs).
    rewrite Hs, policies_put in Hg. inversion Hd; subst. cbn in Hg. unfold put in Hg. cbn in Hg. rewrite String.eqb_refl in Hg. injection Hg as <-. reflexivity.
Qed.

(** The stored policy has the names, descriptions and expressions of the document, sorted by name. *)
Theorem C38_contents : forall E s d p, proper d -> stores E s d p -> describes d p.
Proof. intros E s d p Hp Hs. rewrite (stores_mapped E s d p Hs). apply yaml_describes, Hp. Qed.

Definition doc1 : ydef :=
  mkYDef "p" "name" "about"
    [("file", Some (mkYRes "files" [("reader", Some (mkYRel "" "_this + owner" ["user"; "group:member"]));
                                    ("owner", Some (mkYRel "who made it" "_this" ["user"]))]));
     ("group", Some (mkYRes "" [("member", Some (mkYRel "" "_this" ["*"]))])); ("user", None)] [("k", "v")].
Definition doc2 : ydef :=
  mkYDef "p" "name" "about"
    [("user", None); ("group", Some (mkYRes "" [("member", Some (mkYRel "" "_this" ["*"]))]));
     ("file", Some (mkYRes "files" [("owner", Some (mkYRel "who made it" "_this" ["user"]));
                                    ("reader", Some (mkYRel "" "_this + owner" ["user"; "group:member"]))]))] [("k", "v")].

Example C38_example : proper doc1 /\ same_document doc1 doc2 /\ doc1 <> doc2.
Proof.
  assert (Hnd : forall l : list string, (if List.list_eq_dec string_dec (nodup string_dec l) l then true else false) = true -> NoDup l).
  { intros l. destruct (List.list_eq_dec string_dec (nodup string_dec l) l) as [<- |]; [intros _; apply NoDup_nodup | discriminate]. }
  split; [| split; [| discriminate]].
  - split; [apply Hnd; reflexivity |]. cbn. intros k r Hin.
    repeat destruct Hin as [[= _ <-] | Hin]; try (apply Hnd; reflexivity); try discriminate; contradiction || (destruct Hin as [[=] | []]).
  - repeat (split; [reflexivity |]). exists (rev (y_resources doc1)). split; [apply Permutation_rev |].
    repeat constructor.
Qed.

Example C38_example_stored : exists p, stores E0 empty_store doc1 p /\
  map rs_name (p_resources p) = ["file"; "group"; "user"] /\
  map (fun r => map rl_name (rs_relations r)) (p_resources p) = [["owner"; "reader"]; ["member"]; []].
Proof.
  eexists. split.
  - eapply (st_create _ _ _ 1%N "app"); vm_compute; reflexivity.
  - vm_compute. auto.
Qed.

(** ** C39 YAML subject types map to the documented restrictions *)

Theorem C39_types : forall E s d p r l y, proper d -> stores E s d p ->
  In r (p_resources p) -> In l (rs_relations r) -> declared_in d (rs_name r) (rl_name l) y ->
  exists x, rl_restr l = Some x /\ types_mean (says_types y) x.
Proof. intros E s d p r l y Hp Hs. rewrite (stores_mapped E s d p Hs). apply yaml_types, Hp. Qed.

(** The meaning of a type list is a function. *)
Theorem C39_unambiguous : forall l x x', types_mean l x -> types_mean l x' -> x = x'.
Proof. intros l x x' H1 H2. apply types_ok in H1, H2. congruence. Qed.

Example C39_example : types_mean ["user"; "group:member"; "a:b:c"]
  (SRSet [REntity "user"; REntitySet "group" "member"; REntitySet "a" "b:c"]).
Proof. apply types_ok. reflexivity. Qed.

Example C39_example_star : types_mean ["user"; "*"] SRUniversal.
Proof. apply types_ok. reflexivity. Qed.

(** ** C47 A YAML relation needs no expression: false, such documents are always rejected *)

Theorem C47_optional_expression_refuted : forall E d rs rl y, proper d ->
  declared_in d rs rl y -> says_expr y = "" ->
  (forall now app s, failed (answer E (QCreatePolicy now (yaml d) app) s)) /\
  (forall app s, failed (answer E (QUpdatePolicy (yaml d) app) s)).
Proof.
  intros E d rs rl y Hp Hd He.
  assert (Hw : ~ well_formed E (map_policy_definition d)).
  { intros Hw. pose proof (yaml_describes d Hp) as Hc.
    assert (Hr : exists r, In r (p_resources (map_policy_definition d)) /\ rs_name r = rs).
    { destruct Hd as (x & Hx & _). assert (Hn : In rs (map fst (y_resources d))) by (apply in_map_iff; exists (rs, Some x); auto).
      apply (ds_resources _ _ Hc) in Hn. apply in_map_iff in Hn as (r & Hr & Hin). eauto. }
    destruct Hr as (r & Hr & <-).
    assert (Hl : In rl (map rl_name (rs_relations r))) by (apply (ds_resource _ _ Hc r Hr); eauto).
    apply in_map_iff in Hl as (l & <- & Hl). destruct (ds_relation _ _ Hc r l y Hr Hl Hd) as [_ Hx]. rewrite He in Hx.
    destruct (wf_expressions _ _ Hw (rs_name r) l) as (t & Ht & _); [exists r; auto |].
    apply expression_get in Ht as [Ht _]. unfold get_expression_tree in Ht. rewrite Hx in Ht. discriminate. }
  split.
  - intros now app s a Ha. assert (Hx : exists a, answer E (QCreatePolicy now (yaml d) app) s = Ok a) by eauto.
    apply create_accepts in Hx as (p & Hdef & _ & Hwf). inversion Hdef; subst. contradiction.
  - intros app s a Ha. assert (Hx : exists a, answer E (QUpdatePolicy (yaml d) app) s = Ok a) by eauto.
    apply update_accepts in Hx as (p & r & Hdef & _ & Hwf). inversion Hdef; subst. contradiction.
Qed.

(** The group of docs/policy-definition.md: relations without a body. *)
Example C47_example : answer E0 (QCreatePolicy 1%N
    (yaml (mkYDef "p" "" "" [("group", Some (mkYRes "Represents a set of Users" [("owner", None); ("member", None)]))] [])) "") empty_store
  = Err EParse.
Proof. vm_compute. reflexivity. Qed.

(** ** C46 Graph successor and ancestor queries are inverse *)

Theorem C46_successors_ancestors : forall (T : Type) (ops : list (graph_op T)) a b,
  (In b (map fst (mg_successors a (graph_after ops))) <-> edge_inserted ops a b) /\
  (In a (map fst (mg_ancestors b (graph_after ops))) <-> edge_inserted ops a b).
Proof.
  intros T ops a b. destruct (graph_after_means ops) as [(S1 & S2 & S3) Hn Hf Hb]. unfold mg_successors, mg_ancestors. split.
  - rewrite <- Hf, in_map_iff. split.
    + intros ([b' v] & Hq & Hin). cbn in Hq. subst b'. apply get_nodes_in in Hin as [H _]; assumption.
    + intros H. exists (b, mg_get_node b (graph_after ops)). split; [reflexivity |]. apply get_nodes_in; auto.
  - rewrite <- Hb, in_map_iff. split.
    + intros ([b' v] & Hq & Hin). cbn in Hq. subst b'. apply get_nodes_in in Hin as [H _]; assumption.
    + intros H. exists (a, mg_get_node a (graph_after ops)). split; [reflexivity |]. apply get_nodes_in; auto.
Qed.

Lemma value_before {T} (before after : list (graph_op T)) id : node_value before id <> None -> node_value (before ++ after) id <> None.
Proof.
  induction before as [| [id' x | a b] l IH]; cbn; intros H; [contradiction | | auto].
  destruct (node_value (l ++ after) id) as [v |] eqn:He; [discriminate |].
  destruct (node_value l id) as [v |] eqn:He'; [exfalso; apply IH; discriminate || congruence | exact H].
Qed.

(** The nodes returned carry the value set last, and none is returned twice. *)
Theorem C46_values : forall (T : Type) (ops : list (graph_op T)) a,
  (forall id, mg_get_node id (graph_after ops) = node_value ops id) /\
  (forall b v, In (b, v) (mg_successors a (graph_after ops)) \/ In (b, v) (mg_ancestors a (graph_after ops)) ->
     v = node_value ops b /\ v <> None) /\
  NoDup (map fst (mg_successors a (graph_after ops))) /\ NoDup (map fst (mg_ancestors a (graph_after ops))).
Proof.
  intros T ops a. destruct (graph_after_means ops) as [(S1 & S2 & S3) Hn Hf Hb]. unfold mg_successors, mg_ancestors.
  split; [exact Hn | split; [| split; apply get_nodes_nodup; assumption]].
  intros b v [H | H]; (apply get_nodes_in in H as [Hk ->]; [| assumption]); rewrite Hn; (split; [reflexivity |]).
  - apply Hf in Hk as (pre & post & -> & _ & H2). apply value_before, H2.
  - apply Hb in Hk as (pre & post & -> & H1 & _). apply value_before, H1.
Qed.

Theorem C46_missing_endpoint : forall (T : Type) (ops : list (graph_op T)) a b,
  (mg_set_edge a b (graph_after ops) = None <-> node_value ops a = None \/ node_value ops b = None) /\
  (mg_set_edge a b (graph_after ops) = None -> graph_after (ops ++ [OEdge a b]) = graph_after ops).
Proof.
  intros T ops a b. destruct (graph_after_means ops) as [_ Hn _ _]. split.
  - rewrite <- !Hn. unfold mg_set_edge. destruct (mg_get_node a (graph_after ops)), (mg_get_node b (graph_after ops));
      split; auto; try discriminate; intros [H | H]; discriminate.
  - intros H. unfold graph_after in *. rewrite fold_left_app. cbn [fold_left graph_step]. rewrite H. reflexivity.
Qed.

Example C46_example : let ops := [ONode "a" 1; OEdge "a" "b"; ONode "b" 2; OEdge "a" "b"; ONode "b" 3; OEdge "a" "a"] in
  mg_successors "a" (graph_after ops) = [("a", Some 1); ("b", Some 3)] /\ mg_ancestors "b" (graph_after ops) = [("a", Some 1)].
Proof. vm_compute. auto. Qed.

Print Assumptions C38_order_irrelevant.
Print Assumptions C38_contents.
Print Assumptions C39_types.
Print Assumptions C39_unambiguous.
Print Assumptions C46_successors_ancestors.
Print Assumptions C46_values.
Print Assumptions C46_missing_endpoint.
Print Assumptions C47_optional_expression_refuted.
