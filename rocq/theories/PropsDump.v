(** Properties of DumpRelationships: C37. *)
From Verif Require Import Base Domain Lexer Parser Validate Store Search Explain Yaml Service Dump Api
  SpecGrammar SpecPolicy SpecStore SpecDump Fixtures BaseFacts ValidateFacts StoreFacts PolicyFacts DumpFacts.

(** ** C37 DumpRelationships shows every relationship: only without cycles *)

Lemma answer_dump E n pid s rec : store_ok E s -> answer E (QGetPolicy pid) s = Ok (APolicy (Some rec)) ->
  exists L x, ids_of E (map rel_ends (relationships s pid)) L /\ (forall a b, edge_in L a b <-> points E s pid a b) /\
    length L = length (relationships s pid) /\ walk E (map rel_ends (relationships s pid)) = Ok x /\
    answer E (QDumpRelationships n pid true) s = wrap ADumped (dump_dot n x).
Proof.
  intros H Hp. destruct (stored_ids E s pid H) as (L & HL & Hin & Hlen). destruct (walk_ok E _ L HL) as (f & roots & Hw & _).
  exists L, (f, roots). repeat (split; [assumption |]). rewrite answer_get_policy in Hp. injection Hp as Hp. unfold policies in Hp.
  serve_eq. rewrite run_dump, Hp, (stored_edges E s pid H), Hw. reflexivity.
Qed.

Lemma leads_ext R R' a b : (forall x y, R x y <-> R' x y) -> leads R a b -> leads R' a b.
Proof. intros H. induction 1 as [x y Hx | x y z Hx _ IH]; [constructor 1; apply H, Hx | econstructor 2; [apply H, Hx | exact IH]]. Qed.

(** Without cycles the graph is complete and exact. *)
Theorem C37_acyclic_partial : forall E s pid rec n, reachable E s ->
  answer E (QGetPolicy pid) s = Ok (APolicy (Some rec)) ->
  acyclic (points E s pid) -> length (relationships s pid) < n ->
  exists l, answer E (QDumpRelationships n pid true) s = Ok (ADumped l) /\ shows (points E s pid) l /\ labelled E s pid l.
Proof.
  intros E s pid rec n H Hp Ha Hn. apply reachable_ok in H.
  destruct (answer_dump E n pid s rec H Hp) as (L & x & HL & Hin & Hlen & Hw & Hans). rewrite Hans.
  assert (Ha' : acyclic (edge_in L)) by (intros a Hc; apply (Ha a); eapply leads_ext; [exact Hin | exact Hc]).
  rewrite <- Hlen in Hn. destruct (dump_acyclic E _ L n HL Ha' Hn) as (x' & l & Hw' & Hd & [S1 S2 S3 S4] & Hlab).
  rewrite Hw in Hw'. injection Hw' as <-. rewrite Hd. exists l. split; [reflexivity |]. split.
  - split.
    + intros a b. rewrite S1. apply Hin.
    + intros b. rewrite S2. unfold top. setoid_rewrite Hin. reflexivity.
    + exact S3.
    + intros a. rewrite S4. setoid_rewrite Hin. reflexivity.
  - intros a nd Hnd. destruct (Hlab a nd Hnd) as [Hx | (y & i & -> & -> & (e & He & Hy) & Hid)]; [auto |]. right.
    apply in_map_iff in He as (r & <- & Hr). exists r, y. repeat (split; [auto |]). eauto.
Qed.

(** With a cycle below a node without incoming relationships the request never ends. *)
Theorem C37_endless_refuted : forall E s pid rec n t c, reachable E s ->
  answer E (QGetPolicy pid) s = Ok (APolicy (Some rec)) ->
  top (points E s pid) t -> leads (points E s pid) t c -> leads (points E s pid) c c ->
  answer E (QDumpRelationships n pid true) s = Fuel.
Proof.
  intros E s pid rec n t c H Hp Ht Htc Hc. apply reachable_ok in H.
  destruct (answer_dump E n pid s rec H Hp) as (L & x & HL & Hin & Hlen & Hw & Hans). rewrite Hans.
  assert (Hin' : forall a b, points E s pid a b <-> edge_in L a b) by (intros; symmetry; apply Hin).
  destruct (dump_no_panic E _ L n x HL Hw) as [(l & Hl) | ->]; [| reflexivity]. exfalso.
  assert (Ht' : top (edge_in L) t) by (destruct Ht as [(y & Hy) Ht]; split; [exists y; apply Hin, Hy | intros b Hb; apply (Ht b), Hin, Hb]).
  exact (dump_diverges E _ L n x t c HL Hw Ht' (leads_ext _ _ _ _ Hin' Htc) (leads_ext _ _ _ _ Hin' Hc) l Hl).
Qed.

(** With any cycle the graph is incomplete, if there is one. *)
Theorem C37_incomplete_refuted : forall E s pid rec n c l, reachable E s ->
  answer E (QGetPolicy pid) s = Ok (APolicy (Some rec)) ->
  leads (points E s pid) c c -> answer E (QDumpRelationships n pid true) s = Ok (ADumped l) ->
  exists b, points E s pid c b /\ ~ In (DotEdge (Some c) (Some b)) l.
Proof.
  intros E s pid rec n c l H Hp Hc Ha. apply reachable_ok in H.
  destruct (answer_dump E n pid s rec H Hp) as (L & x & HL & Hin & Hlen & Hw & Hans). rewrite Hans in Ha.
  assert (Hin' : forall a b, points E s pid a b <-> edge_in L a b) by (intros; symmetry; apply Hin).
  destruct (dump_dot n x) as [l' | | |] eqn:Hd; try discriminate. injection Ha as ->.
  assert (Hb : exists b, points E s pid c b) by (inversion Hc; subst; eauto). destruct Hb as (b & Hb). exists b. split; [exact Hb |].
  exact (dump_cycle E _ L n x l c HL Hw Hd (leads_ext _ _ _ _ Hin' Hc) b).
Qed.

Lemma top_ext R R' a : (forall x y, R x y <-> R' x y) -> top R a -> top R' a.
Proof. intros H [(y & Hy) Ht]. split; [exists y; apply H, Hy | intros b Hb; apply (Ht b), H, Hb]. Qed.

Lemma under_ext R R' a : (forall x y, R x y <-> R' x y) -> under_top R a -> under_top R' a.
Proof. intros H (t & Ht & Hta). exists t. split; [eapply top_ext; eassumption |]. destruct Hta as [-> | Hta]; [auto | right; eapply leads_ext; eassumption]. Qed.

(** Every graph that is answered, cycles or not, shows exactly what is under the top nodes, with their labels. *)
Theorem C37_shown_exactly : forall E s pid rec n l, reachable E s ->
  answer E (QGetPolicy pid) s = Ok (APolicy (Some rec)) ->
  answer E (QDumpRelationships n pid true) s = Ok (ADumped l) ->
  shows_tops (points E s pid) l /\ labelled E s pid l.
Proof.
  intros E s pid rec n l H Hp Ha. apply reachable_ok in H.
  destruct (answer_dump E n pid s rec H Hp) as (L & x & HL & Hin & Hlen & Hw & Hans). rewrite Hans in Ha.
  assert (Hin' : forall a b, points E s pid a b <-> edge_in L a b) by (intros; symmetry; apply Hin).
  destruct (dump_dot n x) as [l' | | |] eqn:Hd; try discriminate. injection Ha as ->.
  destruct (dump_shows E _ L n x l HL Hw Hd) as [S1 S2 S3 S4]. split.
  - split.
    + intros a b. rewrite S1, Hin. split; intros [H1 H2]; (split; [exact H1 | eapply under_ext; [| exact H2]; assumption]).
    + intros b. rewrite S2. split; intros H1; (eapply top_ext; [| exact H1]); assumption.
    + exact S3.
    + intros a. rewrite S4. split; intros H1; (eapply under_ext; [| exact H1]); assumption.
  - intros a nd Hnd. destruct (dump_labels E _ L n x l HL Hw Hd a nd Hnd) as [Hx | (y & i & -> & -> & (e & He & Hy) & Hid)]; [auto |]. right.
    apply in_map_iff in He as (r & <- & Hr). exists r, y. repeat (split; [auto |]). eauto.
Qed.

(** The request ends exactly when no cycle is under a top node; as many steps as there are relationships then suffice. *)
Theorem C37_ends_exactly : forall E s pid rec, reachable E s ->
  answer E (QGetPolicy pid) s = Ok (APolicy (Some rec)) ->
  let safe := forall c, under_top (points E s pid) c -> ~ leads (points E s pid) c c in
  ((exists n l, answer E (QDumpRelationships n pid true) s = Ok (ADumped l)) <-> safe) /\
  (safe -> forall n, length (relationships s pid) < n -> exists l, answer E (QDumpRelationships n pid true) s = Ok (ADumped l)).
Proof.
  intros E s pid rec H Hp safe. pose proof (reachable_ok E s H) as Hs.
  assert (G : safe -> forall n, length (relationships s pid) < n -> exists l, answer E (QDumpRelationships n pid true) s = Ok (ADumped l)).
  { intros Hsafe n Hn. destruct (answer_dump E n pid s rec Hs Hp) as (L & x & HL & Hin & Hlen & Hw & Hans). rewrite Hans.
    rewrite <- Hlen in Hn. destruct (dump_ends E _ L n x HL Hw Hn) as (l & ->); [| exists l; reflexivity].
    intros c Hc Hcc. apply (Hsafe c); [eapply under_ext; [exact Hin | exact Hc] | eapply leads_ext; [exact Hin | exact Hcc]]. }
  split; [| exact G]. split.
  - intros (n & l & Hl) c (t & Ht & Htc) Hcc.
    assert (Hlead : leads (points E s pid) t c).
    { destruct Htc as [-> | Htc]; [exact Hcc | exact Htc]. }
    rewrite (C37_endless_refuted E s pid rec n t c H Hp Ht Hlead Hcc) in Hl. discriminate.
  - intros Hsafe. destruct (G Hsafe _ (PeanoNat.Nat.lt_succ_diag_r _)) as (l & Hl). eauto.
Qed.

(** An answered graph is complete exactly when there are no cycles. *)
Theorem C37_complete_exactly : forall E s pid rec n l, reachable E s ->
  answer E (QGetPolicy pid) s = Ok (APolicy (Some rec)) ->
  answer E (QDumpRelationships n pid true) s = Ok (ADumped l) ->
  (shows (points E s pid) l <-> acyclic (points E s pid)).
Proof.
  intros E s pid rec n l H Hp Ha. split.
  - intros [S1 _ _ _] c Hc. destruct (C37_incomplete_refuted E s pid rec n c l H Hp Hc Ha) as (b & Hb & Hn). apply Hn, S1, Hb.
  - intros Hac. destruct (C37_shown_exactly E s pid rec n l H Hp Ha) as [S _].
    destruct (C37_acyclic_partial E s pid rec _ H Hp Hac (PeanoNat.Nat.lt_succ_diag_r _)) as (l' & Ha' & S' & _).
    destruct (C37_shown_exactly E s pid rec _ l' H Hp Ha') as [S'' _].
    destruct S as [S1 S2 S3 S4], S' as [T1 T2 T3 T4], S'' as [U1 U2 U3 U4]. split.
    + intros a b. rewrite S1, <- U1. apply T1.
    + exact S2.
    + exact S3.
    + intros a. rewrite S4, <- U4. apply T4.
Qed.

Definition dump_store (rs : list relationship) : store := after_all E0 (create "p" :: map (set "p") rs) empty_store.

Lemma dump_sequential rs : sequential E0 (dump_store rs).
Proof. eexists. reflexivity. Qed.

(** A group that is a member of itself, with a file shared with it and without. *)
Example C37_example_endless : exists s rec t c, sequential E0 s /\ answer E0 (QGetPolicy "p") s = Ok (APolicy (Some rec)) /\
  top (points E0 s "p") t /\ leads (points E0 s "p") t c /\ leads (points E0 s "p") c c.
Proof.
  exists (dump_store [tup "group" "g" "member" (members "g"); tup "file" "f" "reader" (members "g")]).
  eexists. exists "file/f/reader"%string, "group/g/member"%string. split; [apply dump_sequential |]. split; [vm_compute; reflexivity |].
  assert (Hr : forall r, In r (relationships (dump_store [tup "group" "g" "member" (members "g"); tup "file" "f" "reader" (members "g")]) "p") <->
     r = tup "file" "f" "reader" (members "g") \/ r = tup "group" "g" "member" (members "g")).
  { intros r. vm_compute. split; [intros [H | [H | []]] | intros [H | H]]; auto. }
  repeat split.
  - exists "group/g/member"%string. eexists. split; [apply Hr; left; reflexivity |]. split; reflexivity.
  - intros b (r & Hin & _ & Hb). apply Hr in Hin as [-> | ->]; discriminate.
  - constructor 1. eexists. split; [apply Hr; left; reflexivity |]. split; reflexivity.
  - constructor 1. eexists. split; [apply Hr; right; reflexivity |]. split; reflexivity.
Qed.

Example C37_example_incomplete :
  answer E0 (QDumpRelationships 20 "p" true) (dump_store [tup "group" "g" "member" (members "g")]) = Ok (ADumped [DotNode None None]).
Proof. vm_compute. reflexivity. Qed.

(** A group that is a member of itself and a file shared with another group: only the file and that group are shown. *)
Example C37_example_partly :
  let s := dump_store [tup "group" "g" "member" (members "g"); tup "file" "f" "reader" (members "h")] in
  exists l, answer E0 (QDumpRelationships 20 "p" true) s = Ok (ADumped l) /\
    filter (fun d => match d with DotEdge _ _ => true | _ => false end) l =
      [DotEdge None (Some "file/f/reader"); DotEdge (Some "file/f/reader") (Some "group/h/member")]%string /\
    length (relationships s "p") = 2.
Proof. eexists. split; [vm_compute; reflexivity |]. split; vm_compute; reflexivity. Qed.

(** Two files shared with a group with one member: the edge to the member is written twice. *)
Example C37_example_repeated :
  exists l, answer E0 (QDumpRelationships 20 "p" true)
    (dump_store [tup "group" "g" "member" (user "u"); tup "file" "f" "reader" (members "g"); tup "file" "h" "reader" (members "g")]) = Ok (ADumped l) /\
  exists l1 l2 l3, l = l1 ++ DotEdge (Some "group/g/member") (Some "user/u/") :: l2 ++ DotEdge (Some "group/g/member") (Some "user/u/") :: l3.
Proof.
  eexists. split; [vm_compute; reflexivity |].
  eexists [_; _; _; _; _; _], [_; _; _; _; _], []. reflexivity.
Qed.

(** That store has no cycle. *)
Example C37_example_acyclic : acyclic (points E0
  (dump_store [tup "group" "g" "member" (user "u"); tup "file" "f" "reader" (members "g"); tup "file" "h" "reader" (members "g")]) "p").
Proof.
  set (rank := fun a => if prefix "file" a then 2 else if prefix "group" a then 1 else 0).
  set (st := dump_store _).
  assert (Hd : forall a b, points E0 st "p" a b -> rank b < rank a).
  { intros a b (r & Hin & Ha & Hb). vm_compute in Hin.
    destruct Hin as [<- | [<- | [<- | []]]]; injection Ha as <-; injection Hb as <-; vm_compute; auto. }
  assert (Hl : forall a b, leads (points E0 st "p") a b -> rank b < rank a).
  { induction 1 as [a b H | a b c H _ IH]; [apply Hd, H |]. eapply PeanoNat.Nat.lt_trans; [exact IH | apply Hd, H]. }
  intros a H. exact (PeanoNat.Nat.lt_irrefl _ (Hl a a H)).
Qed.

Print Assumptions C37_acyclic_partial.
Print Assumptions C37_endless_refuted.
Print Assumptions C37_incomplete_refuted.
Print Assumptions C37_shown_exactly.
Print Assumptions C37_ends_exactly.
Print Assumptions C37_complete_exactly.
