(** Properties of policies given as YAML documents: C38, C71, C72, C73. *)
From Coq Require Import Permutation.
From Verif Require Import Base Domain Lexer Parser Validate Store Search Explain Yaml Service Dump MapGraph Api YamlDoc
  SpecGrammar SpecPolicy SpecStore SpecMisc SpecYaml Fixtures BaseFacts ValidateFacts StoreFacts PolicyFacts MiscFacts YamlFacts YamlDocFacts PropsMisc.

(** Requests with the one text do what requests with the other do. *)
Definition interchangeable (E : env) (docs docs' : list ynode) : Prop :=
  (forall now app s, answer E (QCreatePolicy now (policy_yaml docs) app) s = answer E (QCreatePolicy now (policy_yaml docs') app) s /\
    after E (QCreatePolicy now (policy_yaml docs) app) s = after E (QCreatePolicy now (policy_yaml docs') app) s) /\
  (forall app s, answer E (QUpdatePolicy (policy_yaml docs) app) s = answer E (QUpdatePolicy (policy_yaml docs') app) s /\
    after E (QUpdatePolicy (policy_yaml docs) app) s = after E (QUpdatePolicy (policy_yaml docs') app) s).

(** No request with the text succeeds. *)
Definition rejected (E : env) (docs : list ynode) : Prop :=
  (forall now app s, failed (answer E (QCreatePolicy now (policy_yaml docs) app) s)) /\
  (forall app s, failed (answer E (QUpdatePolicy (policy_yaml docs) app) s)).

(** [stored_from E s docs p]: a request with the text succeeds, and [p] is what it stores under the id of [p]. *)
Inductive stored_from (E : env) (s : store) (docs : list ynode) : policy -> Prop :=
| sf_create now app rec rec' :
    answer E (QCreatePolicy now (policy_yaml docs) app) s = Ok (ACreated rec') ->
    answer E (QGetPolicy (p_id (pr_policy rec'))) (after E (QCreatePolicy now (policy_yaml docs) app) s) = Ok (APolicy (Some rec)) ->
    stored_from E s docs (pr_policy rec)
| sf_update app id rec :
    answer E (QUpdatePolicy (policy_yaml docs) app) s = Ok AUpdated ->
    (forall d, hd_error docs = Some d -> text_at d ["id"] id) ->
    answer E (QGetPolicy id) (after E (QUpdatePolicy (policy_yaml docs) app) s) = Ok (APolicy (Some rec)) ->
    stored_from E s docs (pr_policy rec).

Lemma same_interchangeable E docs docs' : decode_stream docs = decode_stream docs' -> interchangeable E docs docs'.
Proof. intros H. unfold interchangeable, policy_yaml. rewrite H. auto. Qed.

Lemma undecoded_rejected E docs : decode_stream docs = None -> rejected E docs.
Proof.
  intros H. unfold rejected, policy_yaml. rewrite H. split.
  - intros now app s a Ha. assert (Hx : exists a, answer E (QCreatePolicy now (Some (DYaml None)) app) s = Ok a) by eauto.
    apply create_accepts in Hx as (p & Hd & _). inversion Hd.
  - intros app s a Ha. assert (Hx : exists a, answer E (QUpdatePolicy (Some (DYaml None)) app) s = Ok a) by eauto.
    apply update_accepts in Hx as (p & r & Hd & _). inversion Hd.
Qed.

Lemma create_decodes E now docs app s a : answer E (QCreatePolicy now (policy_yaml docs) app) s = Ok a -> exists y d rest, docs = d :: rest /\ decode_stream docs = Some y.
Proof.
  intros Ha. destruct (decode_stream docs) as [y |] eqn:Hd; [| destruct (proj1 (undecoded_rejected E docs Hd) now app s a Ha)].
  destruct docs as [| d rest]; [discriminate |]. eauto.
Qed.

Lemma update_decodes E docs app s a : answer E (QUpdatePolicy (policy_yaml docs) app) s = Ok a -> exists y d rest, docs = d :: rest /\ decode_stream docs = Some y.
Proof.
  intros Ha. destruct (decode_stream docs) as [y |] eqn:Hd; [| destruct (proj2 (undecoded_rejected E docs Hd) app s a Ha)].
  destruct docs as [| d rest]; [discriminate |]. eauto.
Qed.

Lemma stored_decoded E s docs p : stored_from E s docs p -> exists y d rest, docs = d :: rest /\ decode_stream docs = Some y /\ p = map_policy_definition y.
Proof.
  intros [now app rec rec' Ha Hg | app id rec Ha Hid Hg].
  - destruct (create_decodes E now docs app s _ Ha) as (y & d & rest & -> & Hd). exists y, d, rest. split; [reflexivity |]. split; [exact Hd |].
    rewrite answer_get_policy in Hg. injection Hg as Hg. unfold policy_yaml in *. rewrite Hd in *.
    destruct (create_cases E now (Some (DYaml (Some y))) app s) as [(q & Hq & _ & _ & Ha' & Hs) | [(q & r & _ & _ & Hf & _) | (_ & Hf & _)]]; try congruence.
    + rewrite Ha' in Ha. injection Ha as <-. cbn [pr_policy] in Hg. rewrite Hs, policies_put in Hg. inversion Hq; subst. cbn in Hg. unfold put in Hg. cbn in Hg.
      rewrite String.eqb_refl in Hg. injection Hg as <-. reflexivity.
  - destruct (update_decodes E docs app s _ Ha) as (y & d & rest & -> & Hd). exists y, d, rest. split; [reflexivity |]. split; [exact Hd |].
    specialize (Hid d eq_refl). rewrite answer_get_policy in Hg. injection Hg as Hg. unfold policy_yaml in *.
    pose proof (paths_unique d rest y Hd) as (Hu & _). pose proof (tr_id _ _ (decoded_transcribes d rest y Hd)) as Hid'. pose proof (text_unique d _ _ _ (Hu "id") Hid Hid') as ->.
    rewrite Hd in *. destruct (update_effect E (Some (DYaml (Some y))) app s Ha) as (q & r & Hq & _ & _ & Hs).
    rewrite Hs, policies_put in Hg. inversion Hq; subst. cbn in Hg. unfold put in Hg. cbn in Hg. rewrite String.eqb_refl in Hg. injection Hg as <-. reflexivity.
Qed.

(** ** C38 Documents that differ in key order only are interchangeable *)

Theorem C38_documents : forall E d d' rest rest', reordered d d' -> interchangeable E (d :: rest) (d' :: rest').
Proof. intros. apply same_interchangeable. apply stream_reordered. assumption. Qed.

(** ** C71 A policy stored from a YAML document says what the document says *)

Theorem C71_transcribes : forall E s docs p, stored_from E s docs p ->
  exists d rest, docs = d :: rest /\ transcribes d p /\ in_order p /\
    (** and it is the only one *)
    forall q, transcribes d q -> in_order q -> q = p.
Proof.
  intros E s docs p H. destruct (stored_decoded E s docs p H) as (y & d & rest & -> & Hd & ->). exists d, rest. split; [reflexivity |].
  pose proof (decoded_transcribes d rest y Hd) as Ht. pose proof (decoded_in_order d rest y Hd) as Ho. split; [exact Ht |]. split; [exact Ho |].
  intros q Hq Hoq. eapply transcribed_unique; eauto.
Qed.

(** The id under which a document is stored is the one that it has; what CreatePolicy returns is what it stores. *)
Theorem C71_created : forall E s docs now app rec, answer E (QCreatePolicy now (policy_yaml docs) app) s = Ok (ACreated rec) ->
  stored_from E s docs (pr_policy rec).
Proof.
  intros E s docs now app rec Ha. apply (sf_create E s docs now app rec rec Ha).
  destruct (create_cases E now (policy_yaml docs) app s) as [(q & _ & _ & _ & Ha' & Hs) | [(q & r & _ & _ & Hf & _) | (_ & Hf & _)]]; try congruence.
  rewrite Ha' in Ha. injection Ha as <-. rewrite answer_get_policy, Hs, policies_put. cbn. unfold put. cbn. rewrite String.eqb_refl. reflexivity.
Qed.

Theorem C71_updated : forall E s docs app, answer E (QUpdatePolicy (policy_yaml docs) app) s = Ok AUpdated ->
  exists d rest id rec, docs = d :: rest /\ text_at d ["id"] id /\
    answer E (QGetPolicy id) (after E (QUpdatePolicy (policy_yaml docs) app) s) = Ok (APolicy (Some rec)) /\ stored_from E s docs (pr_policy rec).
Proof.
  intros E s docs app Ha. destruct (update_decodes E docs app s _ Ha) as (y & d & rest & -> & Hd).
  destruct (update_effect E _ app s Ha) as (q & r & Hq & _ & _ & Hs).
  assert (Hqy : q = map_policy_definition y) by (unfold policy_yaml in Hq; rewrite Hd in Hq; inversion Hq; reflexivity). subst q.
  pose proof (tr_id _ _ (decoded_transcribes d rest y Hd)) as Hid.
  assert (Hg : answer E (QGetPolicy (p_id (map_policy_definition y))) (after E (QUpdatePolicy (policy_yaml (d :: rest)) app) s)
    = Ok (APolicy (Some (mkPRec (map_policy_definition y) app (pr_created r))))).
  { rewrite answer_get_policy, Hs, policies_put. unfold put. cbn. rewrite String.eqb_refl. reflexivity. }
  exists d, rest. eexists. eexists. split; [reflexivity |]. split; [exact Hid |]. split; [exact Hg |].
  eapply (sf_update E s (d :: rest) app); [exact Ha | | exact Hg]. intros d' [= <-]. exact Hid.
Qed.

(** Every definition can be written as a document. *)
Theorem C71_written : forall y, ordered_definition y -> exists d, forall rest, policy_yaml (d :: rest) = yaml y.
Proof. intros y H. exists (write_def y). intros rest. unfold policy_yaml, yaml. rewrite (def_written y rest H). reflexivity. Qed.

(** A stream without a document, and one whose first document is not a mapping, is rejected. *)
Theorem C71_mapping : forall E docs, (forall d, hd_error docs = Some d -> exists t, d = YScalar false t \/ exists l, d = YSeq l) -> rejected E docs.
Proof.
  intros E docs H. apply undecoded_rejected. destruct docs as [| d rest]; [reflexivity |].
  destruct (H d eq_refl) as (t & [-> | (l & ->)]); reflexivity.
Qed.

(** The document of doc2 in PropsMisc, with a list of types that has a null element and a number as attribute. *)
Definition text1 : ynode :=
  YMap [(yt "name", yt "name"); (yt "id", yt "p"); (yt "doc", yt "about");
        (yt "resources", YMap [
           (yt "user", ynull);
           (yt "group", YMap [(yt "relations", YMap [(yt "member", YMap [(yt "types", YSeq [yt "*"]); (yt "expr", yt "_this")])])]);
           (yt "file", YMap [(yt "doc", yt "files"); (yt "relations", YMap [
              (yt "owner", YMap [(yt "doc", yt "who made it"); (yt "expr", yt "_this"); (yt "types", YSeq [yt "user"])]);
              (yt "reader", YMap [(yt "expr", yt "_this + owner"); (yt "doc", ynull); (yt "types", YSeq [yt "user"; YScalar true "~"; yt "group:member"])])])])]);
        (yt "attributes", YMap [(yt "k", yt "v")])].

Example C71_example : exists p, stored_from E0 empty_store [text1] p /\ p = map_policy_definition doc1.
Proof. eexists. split; [apply C71_created with (now := 1%N) (app := "app"); vm_compute; reflexivity | reflexivity]. Qed.

Example C38_example_documents : reordered text1
  match text1 with YMap l => YMap (rev l) | n => n end.
Proof.
  eapply re_map; [apply Permutation_rev |].
  assert (H : forall n, reordered n n).
  { fix IH 1. intros [b t | l | l].
    - constructor.
    - eapply re_map; [reflexivity |]. induction l as [| [k v] l IHl]; constructor; [split; [reflexivity | apply IH] | exact IHl].
    - constructor. induction l as [| v l IHl]; constructor; [apply IH | exact IHl]. }
  induction (rev _) as [| x l IHl]; constructor; auto.
Qed.

(** ** C72 No part of a YAML policy is ignored: false *)

(** What an accepted document can have: keys that are known fields, each once, or null. *)
Theorem C72_known_fields_partial : forall E s docs p, stored_from E s docs p ->
  exists d rest, docs = d :: rest /\ only_fields policy_fields d /\
    (forall rs v, holds d ["resources"; rs] v -> only_fields resource_fields v) /\
    (forall rs rl v, holds d ["resources"; rs; "relations"; rl] v -> only_fields relation_fields v).
Proof.
  intros E s docs p H. destruct (stored_decoded E s docs p H) as (y & d & rest & -> & Hd & ->). exists d, rest.
  destruct (shape d rest y Hd) as (H1 & _ & _ & H2 & _ & H3). auto.
Qed.

(** Entries with a null key and documents after the first are ignored without an error. *)
Theorem C72_no_part_ignored_refuted : forall E l l' t v rest, (forall b w, ~ In (YScalar b t, w) (l ++ l')) ->
  interchangeable E (YMap (l ++ (YScalar true t, v) :: l') :: rest) [YMap (l ++ l')].
Proof. intros. apply same_interchangeable. apply null_key_dropped. assumption. Qed.

(** So a second document that takes away what the first grants, and a relation under an empty key, have no effect. *)
Example C72_example :
  let hidden := (ynull, YMap [(yt "owner", YMap [(yt "expr", yt "not even an expression")])]) in
  match text1 with
  | YMap l => answer E0 (QCreatePolicy 1%N (policy_yaml [YMap (l ++ [hidden]); YSeq [yt "anything"]]) "app") empty_store
      = answer E0 (QCreatePolicy 1%N (policy_yaml [text1]) "app") empty_store /\
    exists rec, answer E0 (QCreatePolicy 1%N (policy_yaml [text1]) "app") empty_store = Ok (ACreated rec)
  | _ => False
  end.
Proof. cbn -[answer]. split; [vm_compute; reflexivity | eexists; vm_compute; reflexivity]. Qed.

(** ** C73 A document that follows the reference is accepted: false *)

Theorem C73_reference_refuted : forall E d rest,
  (exists k v, In k documented_only /\ holds d [k] v) \/ (exists rs v, holds d ["resources"; rs; "permissions"] v) ->
  rejected E (d :: rest).
Proof.
  intros E d rest H. apply undecoded_rejected. destruct (decode_stream (d :: rest)) as [y |] eqn:Hd; [| reflexivity]. exfalso.
  destruct (shape d rest y Hd) as (H1 & _ & _ & H2 & _).
  assert (Hof : forall fields n k v, only_fields fields n -> holds n [k] v -> In k fields).
  { intros fields n k v [Hn | (l & -> & _ & Hf)] Hv; [destruct (holds_null n k [] v Hn Hv) |]. inversion Hv; subst. eauto. }
  destruct H as [(k & v & Hk & Hv) | (rs & v & Hv)].
  - apply (Hof _ _ _ _ H1) in Hv. cbn in Hk, Hv. destruct Hk as [<- | [<- | [<- | []]]]; repeat destruct Hv as [Hv | Hv]; try discriminate; destruct Hv.
  - destruct (holds_app ["resources"; rs] d ["permissions"] v Hv) as (w & Hw & Hv'). apply (Hof _ _ _ _ (H2 rs w Hw)) in Hv'.
    cbn in Hv'. repeat destruct Hv' as [Hv' | Hv']; try discriminate; destruct Hv'.
Qed.

(** The example of the reference, shortened. *)
Example C73_example : answer E0 (QCreatePolicy 1%N (policy_yaml [YMap [
    (yt "version", yt "0.1"); (yt "name", yt "Decentralized Pastebin");
    (yt "resources", YMap [(yt "snippet", YMap [(yt "doc", yt "A text snippet")])])]]) "") empty_store = Err EYaml
  /\ exists rec, answer E0 (QCreatePolicy 1%N (policy_yaml [YMap [
    (yt "id", yt "p"); (yt "name", yt "Decentralized Pastebin");
    (yt "resources", YMap [(yt "snippet", YMap [(yt "doc", yt "A text snippet")])])]]) "") empty_store = Ok (ACreated rec).
Proof. split; [| eexists]; vm_compute; reflexivity. Qed.

Print Assumptions C38_documents.
Print Assumptions C71_transcribes.
Print Assumptions C71_created.
Print Assumptions C71_updated.
Print Assumptions C71_written.
Print Assumptions C71_mapping.
Print Assumptions C72_known_fields_partial.
Print Assumptions C72_no_part_ignored_refuted.
Print Assumptions C73_reference_refuted.
