(** Properties of the size of dumps: C67. *)
From Verif Require Import Base Domain Lexer Parser Validate Store Search Explain Yaml Service Dump Api
  SpecGrammar SpecPolicy SpecStore SpecDump SpecSize Fixtures BaseFacts NameFacts LexerFacts ValidateFacts StoreFacts PolicyFacts RelFacts CrashFacts DotFacts DumpFacts PropsDump.
From Coq Require Import Lia.

(** ** C67 The size of a dump is proportional to the number of relationships: refuted *)

Lemma path_cons R a p : path R (a :: p) <-> p = [] \/ exists b q, p = b :: q /\ R a b /\ path R p.
Proof.
  split.
  - intros H. inversion H; subst; [auto |]. right. eauto.
  - intros [-> | (b & q & -> & H & Hp)]; constructor; assumption.
Qed.

Lemma heads_nodup (P : list (list string)) (Q : list (list string)) a :
  NoDup P -> NoDup Q -> (forall p, In p P -> exists q, p = a :: q) -> (forall q, In q Q -> ~ exists q', q = a :: q') -> NoDup (P ++ Q).
Proof.
  intros HP HQ H1 H2. induction HP as [| p P Hn HP IH]; [exact HQ |]. cbn. constructor.
  - intros Hin. apply in_app_iff in Hin as [Hin | Hin]; [contradiction |]. apply (H2 p Hin), H1. left. reflexivity.
  - apply IH. intros q Hq. apply H1. right. exact Hq.
Qed.

(** The paths behind the statements written for a list of nodes. *)
Lemma forest_paths (g : string -> res (list dot_stmt)) (Q : string -> list string -> Prop) (D : Prop) :
  (forall a l, g a = Ok l -> exists P, (forall p, In p P <-> exists q, p = a :: q /\ Q a p) /\ length l = 2 * length P /\ (D -> NoDup P)) ->
  forall ks bs, map_res g ks = Ok bs ->
  exists P, (forall p, In p P <-> exists a q, In a ks /\ p = a :: q /\ Q a p) /\ length (concat bs) = 2 * length P /\
    (D -> NoDup ks -> NoDup P).
Proof.
  intros Hg. induction ks as [| a ks IH]; intros bs H; cbn [map_res] in H.
  - injection H as <-. exists []. split; [| split; [reflexivity | constructor]]. intros p. split; [intros [] | intros (a & q & [] & _)].
  - destruct (g a) as [l | | |] eqn:Ha; try discriminate. cbn [bind] in H. destruct (map_res g ks) as [bs' | | |]; try discriminate.
    cbn [bind] in H. injection H as <-. destruct (IH bs' eq_refl) as (P' & HP' & Hl' & Hd'). destruct (Hg a l Ha) as (P & HP & Hl & Hd).
    exists (P ++ P'). split; [| split].
    + intros p. rewrite in_app_iff, HP, HP'. split.
      * intros [(q & H) | (b & q & Hb & H)]; [exists a, q; cbn; auto | exists b, q; cbn; auto].
      * intros (b & q & [<- | Hb] & H); [left; eauto | right; eauto].
    + cbn [concat]. rewrite !app_length, Hl, Hl'. lia.
    + intros HD Hn. inversion Hn as [| ? ? Hna Hnk]; subst. apply (heads_nodup _ _ a); auto.
      * intros p Hp. apply HP in Hp as (q & Hp & _). eauto.
      * intros q Hq (q' & ->). apply HP' in Hq as (b & q & Hb & [= <- _] & _). contradiction.
Qed.

Lemma kids_nodup L a : NoDup L -> NoDup (kids L a).
Proof.
  intros H. unfold kids. induction H as [| [x y] L Hn H IH]; [constructor |]. cbn [filter fst]. destruct (String.eqb_spec x a) as [-> | Hx]; [| exact IH].
  cbn [map snd]. constructor; [| exact IH]. intros Hin. apply Hn. apply kids_in. exact Hin.
Qed.

Lemma handle_paths E es L f : forest_of E es L f -> forall n p id l, handle_node n f p id = Ok l ->
  exists P, (forall q, In q P <-> exists q', q = id :: q' /\ path (edge_in L) q) /\ length l = 2 * length P /\ (NoDup L -> NoDup P).
Proof.
  intros Hf. induction n as [| n IH]; intros p id l H; [discriminate |]. cbn [handle_node] in H.
  pose proof (Hf id) as Hid. destruct (kv_get scmp id f) as [[nd cs] |]; [| discriminate]. destruct Hid as (_ & -> & _).
  destruct (map_res (handle_node n f (Some id)) (kids L id)) as [bs | | |] eqn:Hm; try discriminate. cbn [bind] in H. injection H as <-.
  destruct (forest_paths _ (fun _ => path (edge_in L)) (NoDup L) (fun a l => IH (Some id) a l) _ _ Hm) as (P & HP & Hl & Hd).
  exists ([id] :: map (cons id) P). split; [| split].
  - intros q. cbn [In]. rewrite in_map_iff. split.
    + intros [<- | (q' & <- & Hq)]; [exists []; split; [reflexivity | constructor] |]. exists q'. split; [reflexivity |].
      apply HP in Hq as (a & q0 & Ha & -> & Hp). apply kids_in in Ha. constructor; assumption.
    + intros (q' & -> & Hp). apply path_cons in Hp as [-> | (b & q & -> & Hb & Hp)]; [auto |]. right. exists (b :: q). split; [reflexivity |].
      apply HP. exists b, q. split; [apply kids_in; exact Hb | auto].
  - cbn [length]. rewrite map_length, Hl. lia.
  - intros HL. constructor.
    + intros Hin. apply in_map_iff in Hin as (q & [= ->] & Hq). apply HP in Hq as (a & q & _ & Hd' & _). discriminate.
    + apply FinFun.Injective_map_NoDup; [intros x y [= ->]; reflexivity |]. apply Hd; [exact HL | apply kids_nodup, HL].
Qed.

Lemma roots_nodup E es f roots : walk E es = Ok (f, roots) -> NoDup roots.
Proof.
  unfold walk. destruct (orphan_candidates E es []) as [o | | |] eqn:Ho; try discriminate. cbn [bind].
  destruct (walk_edges E es [] o) as [[f' o'] | | |] eqn:He; try discriminate. cbn. intros [= -> <-].
  apply (sorted_nodup scmp scmp_ok). eapply edges_sorted; [exact (candidates_sorted E es [] o I Ho) | exact He].
Qed.

Lemma ids_nodup E rels L : ids_of E (map rel_ends rels) L -> NoDup rels ->
  (forall r r', In r rels -> In r' rels -> node_id E (source_node r) = node_id E (source_node r') ->
     node_id E (target_node r) = node_id E (target_node r') -> r = r') -> NoDup L.
Proof.
  revert L. induction rels as [| r rels IH]; intros L HL Hn Hd; inversion HL as [| e i es L' [H1 H2] HL' Heq]; subst; [constructor |].
  inversion Hn as [| ? ? Hr Hn']; subst. constructor.
  - intros Hin.
    assert (Hx : exists r', In r' rels /\ node_id E (source_node r') = Ok (fst i) /\ node_id E (target_node r') = Ok (snd i)).
    { clear - HL' Hin. revert L' HL' Hin. induction rels as [| r' rels IH]; intros L' HL Hin; inversion HL as [| e0 i0 es0 L0 [G1 G2] HL0 Heq]; subst; [contradiction |].
      destruct Hin as [<- | Hin]; [exists r'; unfold rel_ends in G1, G2; cbn [fst snd] in G1, G2; cbn [In]; auto |]. destruct (IH L0 HL0 Hin) as (r0 & ? & ? & ?). exists r0. cbn [In]. auto. }
    destruct Hx as (r' & Hin' & G1 & G2). unfold rel_ends in H1, H2. cbn [fst snd] in H1, H2. apply Hr.
    assert (r = r') as -> by (apply Hd; [left; reflexivity | right; exact Hin' | congruence | congruence]). exact Hin'.
  - apply IH; [exact HL' | exact Hn' |]. intros a b Ha Hb. apply Hd; right; assumption.
Qed.

Lemma path_ext R R' p : (forall x y, R x y <-> R' x y) -> path R p -> path R' p.
Proof. intros H. induction 1 as [a | a b p Hab _ IH]; constructor; [apply H, Hab | exact IH]. Qed.

(** A dump has one node and one edge for every path from a top node, besides the artificial root. *)
Theorem C67_size_partial : forall E s pid rec n l, reachable E s ->
  answer E (QGetPolicy pid) s = Ok (APolicy (Some rec)) ->
  answer E (QDumpRelationships n pid true) s = Ok (ADumped l) ->
  exists P, (forall p, In p P <-> from_top (points E s pid) p) /\ length l = 1 + 2 * length P /\ (distinct_ends E s pid -> NoDup P).
Proof.
  intros E s pid rec n l H Hp Ha. apply reachable_ok in H.
  destruct (answer_dump E n pid s rec H Hp) as (L & [f0 roots0] & HL & Hin & _ & Hw & Hans). rewrite Hans in Ha.
  destruct (walk_ok E _ L HL) as (f & roots & Hw' & Hf & Hr). rewrite Hw in Hw'. injection Hw' as -> ->.
  destruct (dump_dot n (f, roots)) as [l' | | |] eqn:Hd; try discriminate. injection Ha as ->. unfold dump_dot in Hd. cbn [fst snd] in Hd.
  destruct (map_res (handle_node n f None) roots) as [bs | | |] eqn:Hm; try discriminate. cbn [bind] in Hd. injection Hd as <-.
  destruct (forest_paths _ (fun _ => path (edge_in L)) (NoDup L) (fun a l => handle_paths E _ L f Hf n None a l) _ _ Hm) as (P & HP & Hl & HN).
  exists P. split; [| split].
  - intros p. rewrite HP. unfold from_top.
    assert (Htop : forall a, top (edge_in L) a <-> top (points E s pid) a) by (intros a; unfold top; setoid_rewrite Hin; reflexivity).
    split.
    + intros (a & q & Ha & -> & Hpa). split; [eapply path_ext; [exact Hin | exact Hpa] |]. exists a, q. split; [reflexivity |]. apply Htop, Hr, Ha.
    + intros (Hpa & a & q & -> & Ht). exists a, q. split; [apply Hr, Htop, Ht |]. split; [reflexivity |].
      eapply path_ext; [| exact Hpa]. intros x y. symmetry. apply Hin.
  - cbn [length]. rewrite Hl. reflexivity.
  - intros Hde. apply HN; [| exact (roots_nodup E _ _ _ Hw)]. eapply ids_nodup; [exact HL | apply (relationships_nodup E), H | exact Hde].
Qed.

(** So it has at least as many as there are different paths. *)
Theorem C67_least_partial : forall E s pid rec n l P, reachable E s ->
  answer E (QGetPolicy pid) s = Ok (APolicy (Some rec)) ->
  answer E (QDumpRelationships n pid true) s = Ok (ADumped l) ->
  NoDup P -> (forall p, In p P -> from_top (points E s pid) p) -> 1 + 2 * length P <= length l.
Proof.
  intros E s pid rec n l P H Hp Ha Hn HP. destruct (C67_size_partial E s pid rec n l H Hp Ha) as (P' & HP' & -> & _).
  assert (length P <= length P') by (apply NoDup_incl_length; [exact Hn | intros p Hi; apply HP', HP, Hi]). lia.
Qed.

Fixpoint xs (n : nat) : string := match n with 0 => "" | S n => String "x" (xs n) end.

Definition rung (c : ascii) (n : nat) : string := String c (xs n).

(** Two ways from each group to the group two steps below it. *)
Fixpoint ladder (n : nat) : list relationship :=
  match n with
  | 0 => [tup "group" (rung "c" 0) "member" (user "u")]
  | S n =>
      [tup "group" (rung "c" (2 * S n)) "member" (members (rung "a" (2 * n + 1)));
       tup "group" (rung "c" (2 * S n)) "member" (members (rung "b" (2 * n + 1)));
       tup "group" (rung "a" (2 * n + 1)) "member" (members (rung "c" (2 * n)));
       tup "group" (rung "b" (2 * n + 1)) "member" (members (rung "c" (2 * n)))] ++ ladder n
  end.

(** Memberships of groups. *)
Definition grouped (r : relationship) : Prop := exists x u, r = tup "group" x "member" u /\ (u = user "u" \/ exists y, u = members y).

Lemma grouped_key r r' : grouped r -> grouped r' -> rel_key E0 r = rel_key E0 r' -> r = r'.
Proof.
  intros (x & u & -> & Hu) (x' & u' & -> & Hu') H.
  assert (Hsuf : forall a b, ("group" +++ a +++ "member" = "group" +++ b +++ "member")%string -> a = b).
  { intros a b Hab. apply append_inj in Hab. apply (append_same_length a b) in Hab as [Hab _]; [exact Hab | reflexivity]. }
  destruct Hu as [-> | (y & ->)], Hu' as [-> | (y' & ->)]; unfold rel_key, edge_key, node_key in H; cbn [to_internal] in H.
  all: cbn -[append] in H; pose proof (f_equal fst H) as H1; pose proof (f_equal snd H) as H2; cbn -[append] in H1, H2; try discriminate H2.
  all: apply Hsuf in H1 as ->; try reflexivity. apply Hsuf in H2 as ->. reflexivity.
Qed.

Lemma grouped_admissible r : grouped r -> admissible (pol "p") r.
Proof.
  intros (x & u & -> & Hu).
  assert (Hg : relation_of (pol "p") "group" (rl "member" (XTree (TRule RThis)) (SRSet [REntity "user"; REntitySet "group" "member"]))).
  { exists (rs "group" [rl "member" (XTree (TRule RThis)) (SRSet [REntity "user"; REntitySet "group" "member"])]). repeat split; cbn; auto. }
  exists (ent "group" x), u, (rl "member" (XTree (TRule RThis)) (SRSet [REntity "user"; REntitySet "group" "member"])).
  repeat (split; [first [reflexivity | exact Hg] |]).
  destruct Hu as [-> | (y & ->)]; (split; [| cbn; auto]).
  - exists (rs "user" []). cbn. auto.
  - eexists. split; [exact Hg | reflexivity].
Qed.

Lemma ladder_grouped n r : In r (ladder n) -> grouped r.
Proof.
  induction n as [| n IH]; cbn [ladder app In].
  - intros [<- | []]. eexists _, _. split; [reflexivity | auto].
  - intros [<- | [<- | [<- | [<- | H]]]]; [.. | exact (IH H)]; eexists _, _; (split; [reflexivity | eauto]).
Qed.

Lemma sets_grouped : forall rs s rec, store_ok E0 s -> policies s "p" = Some rec -> pr_policy rec = pol "p" ->
  (forall r, In r rs \/ In r (relationships s "p") -> grouped r) ->
  let s' := after_all E0 (map (set "p") rs) s in
  (forall r, In r (relationships s' "p") <-> In r rs \/ In r (relationships s "p")) /\ policies s' "p" = Some rec.
Proof.
  induction rs as [| r0 rs IH]; intros s rec H Hp Hpol Hg; [cbn; split; [tauto | exact Hp] |]. cbn [map after_all fold_left].
  assert (Hr0 : grouped r0) by (apply Hg; left; left; reflexivity).
  assert (Hal : allowed_relationship (pr_policy rec) (Some r0) = Ok tt).
  { destruct (so_policy _ _ H "p"%string rec Hp) as [_ Hw]. apply wf_unique in Hw. apply (allowed_ok _ _ Hw). rewrite Hpol. apply grouped_admissible, Hr0. }
  assert (exists e, to_internal (Some r0) = Ok e) as (e & He) by (destruct Hr0 as (x & u & -> & [-> | (y & ->)]); eexists; reflexivity).
  pose proof (after_set E0 2%N "p" (Some r0) "data" s rec e Hp Hal He) as Hs.
  assert (Hi : edge_image e) by (exists r0; exact He). pose proof (from_to_internal _ _ He) as Hfe.
  assert (Hin : forall r, In r (relationships (after E0 (set "p" r0) s) "p") <-> r = r0 \/ In r (relationships s "p")).
  { intros r. unfold set. rewrite Hs, (relationships_put E0 "p" "p" e _ s r H Hi), Hfe. split.
    - intros [[_ ->] | [Hr _]]; auto.
    - intros [-> | Hr]; [auto |]. destruct (relationship_dec r r0) as [-> | Hn]; [auto |]. right. split; [exact Hr |].
      intros [_ Hk]. apply Hn, grouped_key; [apply Hg; auto | apply Hg; left; left; reflexivity |]. rewrite Hk. unfold rel_key. rewrite He. reflexivity. }
  destruct (IH (after E0 (set "p" r0) s) rec) as [IH1 IH2].
  - apply after_ok, H.
  - unfold set. rewrite Hs. exact Hp.
  - exact Hpol.
  - intros r [Hr | Hr]; [apply Hg; cbn; auto |]. apply Hin in Hr as [-> | Hr]; apply Hg; cbn; auto.
  - split; [| exact IH2]. intros r. rewrite IH1, Hin. cbn [In]. split; [intros [? | [-> | ?]] | intros [[<- | ?] | ?]]; auto.
Qed.

Lemma ladder_stored n : (forall r, In r (relationships (dump_store (ladder n)) "p") <-> In r (ladder n)) /\
  exists rec, answer E0 (QGetPolicy "p") (dump_store (ladder n)) = Ok (APolicy (Some rec)).
Proof.
  unfold dump_store. cbn [after_all fold_left].
  destruct (sets_grouped (ladder n) (after E0 (create "p") empty_store) (mkPRec (pol "p") "app" 1%N)) as [H1 H2].
  - apply after_ok, empty_ok.
  - vm_compute. reflexivity.
  - reflexivity.
  - intros r [Hr | Hr]; [apply (ladder_grouped n), Hr | vm_compute in Hr; contradiction].
  - split; [| eexists; rewrite answer_get_policy; unfold after_all in H2; rewrite H2; reflexivity].
    intros r. unfold after_all in H1. rewrite H1. split; [intros [Hr | Hr]; [exact Hr | vm_compute in Hr; contradiction] | auto].
Qed.

Definition gid (x : string) : string := "group/" +++ x +++ "/member".

Definition gives (l : list relationship) (a b : string) : Prop :=
  exists r, In r l /\ node_id E0 (source_node r) = Ok a /\ node_id E0 (target_node r) = Ok b.

Lemma xs_length n : String.length (xs n) = n.
Proof. induction n as [| n IH]; [reflexivity |]. cbn. rewrite IH. reflexivity. Qed.

Lemma gid_length x : String.length (gid x) = 13 + String.length x.
Proof. unfold gid. rewrite !length_app_s. cbn [String.length]. lia. Qed.

Lemma rung_length c n : String.length (gid (rung c n)) = 14 + n.
Proof. rewrite gid_length. unfold rung. cbn [String.length]. rewrite xs_length. lia. Qed.

Lemma ladder_gives n a b : gives (ladder n) a b -> String.length b < String.length a <= 14 + 2 * n.
Proof.
  assert (Hm : forall c d k m, node_id E0 (source_node (tup "group" (rung c k) "member" (members (rung d m)))) = Ok a ->
    node_id E0 (target_node (tup "group" (rung c k) "member" (members (rung d m)))) = Ok b ->
    String.length a = 14 + k /\ String.length b = 14 + m).
  { intros c d k m [= <-] [= <-]. split; [exact (rung_length c k) | exact (rung_length d m)]. }
  induction n as [| n IH]; intros (r & Hin & Ha & Hb).
  - destruct Hin as [<- | []]. injection Ha as <-. injection Hb as <-. cbn. lia.
  - cbn [ladder app In] in Hin.
    destruct Hin as [<- | [<- | [<- | [<- | Hin]]]]; [destruct (Hm _ _ _ _ Ha Hb); lia .. |].
    assert (gives (ladder n) a b) as Hg by (exists r; auto). specialize (IH Hg). lia.
Qed.

Fixpoint ways (n : nat) : list (list string) :=
  match n with
  | 0 => [[gid (rung "c" 0)]]
  | S n => map (fun p => gid (rung "c" (2 * S n)) :: gid (rung "a" (2 * n + 1)) :: p) (ways n) ++
           map (fun p => gid (rung "c" (2 * S n)) :: gid (rung "b" (2 * n + 1)) :: p) (ways n)
  end.

Lemma ways_length n : length (ways n) = 2 ^ n.
Proof. induction n as [| n IH]; [reflexivity |]. cbn [ways Nat.pow]. rewrite app_length, !map_length, IH. lia. Qed.

Lemma ways_nodup n : NoDup (ways n).
Proof.
  induction n as [| n IH]; [constructor; [intros [] | constructor] |]. cbn [ways].
  assert (Hab : gid (rung "a" (2 * n + 1)) <> gid (rung "b" (2 * n + 1))) by discriminate.
  assert (Hdis : forall p, In p (map (fun p => gid (rung "c" (2 * S n)) :: gid (rung "a" (2 * n + 1)) :: p) (ways n)) ->
    ~ In p (map (fun p => gid (rung "c" (2 * S n)) :: gid (rung "b" (2 * n + 1)) :: p) (ways n))).
  { intros p H1 H2. apply in_map_iff in H1 as (q1 & <- & _). apply in_map_iff in H2 as (q2 & Heq & _).
    apply (f_equal (fun l => hd ""%string (tl l))) in Heq. cbn [hd tl] in Heq. apply Hab. symmetry. exact Heq. }
  assert (Hmap : forall a b, NoDup (map (fun p => a :: b :: p) (ways n) : list (list string))).
  { intros a b. apply FinFun.Injective_map_NoDup; [intros x y Hxy; apply (f_equal (fun l => tl (tl l))) in Hxy; exact Hxy | exact IH]. }
  pose proof (Hmap (gid (rung "c" (2 * S n))) (gid (rung "b" (2 * n + 1)))) as H2. pose proof (Hmap (gid (rung "c" (2 * S n))) (gid (rung "a" (2 * n + 1)))) as H1.
  induction H1 as [| p P Hn H1 IHP]; [exact H2 |]. cbn [app]. constructor.
  - intros Hin. apply in_app_iff in Hin as [Hin | Hin]; [contradiction |]. apply (Hdis p); [left; reflexivity | exact Hin].
  - apply IHP. intros q Hq. apply Hdis. right. exact Hq.
Qed.

Lemma ways_paths n (R : string -> string -> Prop) : (forall a b, gives (ladder n) a b -> R a b) ->
  forall p, In p (ways n) -> path R p /\ exists q, p = gid (rung "c" (2 * n)) :: q.
Proof.
  induction n as [| n IH]; intros HR p Hp.
  - destruct Hp as [<- | []]. split; [constructor | eexists; reflexivity].
  - assert (Hstep : forall d q, In q (ways n) ->
      In (tup "group" (rung "c" (2 * S n)) "member" (members (rung d (2 * n + 1)))) (ladder (S n)) ->
      In (tup "group" (rung d (2 * n + 1)) "member" (members (rung "c" (2 * n)))) (ladder (S n)) ->
      path R (gid (rung "c" (2 * S n)) :: gid (rung d (2 * n + 1)) :: q)).
    { intros d q Hq H1 H2. destruct (IH (fun a b H => HR a b (match H with ex_intro _ r (conj Hr Hx) => ex_intro _ r (conj (in_or_app _ _ _ (or_intror Hr)) Hx) end)) q Hq) as [Hpa (q' & ->)].
      constructor; [apply HR; eexists; split; [exact H1 | split; reflexivity] |].
      constructor; [apply HR; eexists; split; [exact H2 | split; reflexivity] | exact Hpa]. }
    cbn [ways] in Hp. apply in_app_iff in Hp as [Hp | Hp]; apply in_map_iff in Hp as (q & <- & Hq);
      (split; [| eexists; reflexivity]); apply Hstep; try exact Hq; cbn [ladder app In]; auto.
Qed.

Lemma ladder_length n : length (ladder n) = 4 * n + 1.
Proof. induction n as [| n IH]; [reflexivity |]. cbn [ladder app length]. rewrite IH. lia. Qed.

(** Stores with at most 4n+1 relationships and dumps with more than 2^n statements. *)
Theorem C67_refuted : forall n, exists s l, sequential E0 s /\ length (relationships s "p") <= 4 * n + 1 /\
  acyclic (points E0 s "p") /\ answer E0 (QDumpRelationships (4 * n + 2) "p" true) s = Ok (ADumped l) /\ 2 * 2 ^ n < length l.
Proof.
  intros n. destruct (ladder_stored n) as [Hin (rec & Hrec)]. set (s := dump_store (ladder n)) in *.
  assert (Hseq : sequential E0 s) by apply dump_sequential. assert (Hre : reachable E0 s) by apply sequential_reachable, Hseq.
  assert (Hlen : length (relationships s "p") <= 4 * n + 1).
  { rewrite <- (ladder_length n). apply NoDup_incl_length; [apply (relationships_nodup E0), reachable_ok, Hre | intros r Hr; apply Hin, Hr]. }
  assert (Hp : forall a b, points E0 s "p" a b <-> gives (ladder n) a b) by (intros a b; unfold points, gives; setoid_rewrite Hin; reflexivity).
  assert (Hac : acyclic (points E0 s "p")).
  { assert (Hd : forall a b, leads (points E0 s "p") a b -> String.length b < String.length a).
    { induction 1 as [a b H | a b c H _ IH]; apply Hp, ladder_gives in H; lia. }
    intros a Ha. apply Hd in Ha. lia. }
  destruct (C37_acyclic_partial E0 s "p" rec (4 * n + 2) Hre Hrec Hac) as (l & Hl & _); [lia |].
  exists s, l. split; [exact Hseq |]. split; [exact Hlen |]. split; [exact Hac |]. split; [exact Hl |].
  assert (Hall : forall p, In p (ways n) -> from_top (points E0 s "p") p).
  { intros p Hpn. destruct (ways_paths n (points E0 s "p") (fun a b H => proj2 (Hp a b) H) p Hpn) as [Hpa (q & ->)]. split; [exact Hpa |].
    eexists _, _. split; [reflexivity |]. split.
    - destruct n as [| n].
      + eexists. apply Hp. eexists. split; [left; reflexivity |]. split; reflexivity.
      + eexists. apply Hp. eexists. split; [left; reflexivity |]. split; reflexivity.
    - intros b Hb. apply Hp, ladder_gives in Hb. rewrite rung_length in Hb. lia. }
  pose proof (C67_least_partial E0 s "p" rec _ l (ways n) Hre Hrec Hl (ways_nodup n) Hall) as Hle. rewrite ways_length in Hle. lia.
Qed.

(** Five relationships, two paths to the lowest group. *)
Example C67_example : exists s l, sequential E0 s /\ relationships s "p" <> [] /\
  answer E0 (QDumpRelationships 9 "p" true) s = Ok (ADumped l) /\ length l = 15 /\ length (relationships s "p") = 5.
Proof. exists (dump_store (ladder 1)). eexists. split; [apply dump_sequential |]. split; [vm_compute; discriminate |]. vm_compute. auto. Qed.

Print Assumptions C67_size_partial.
Print Assumptions C67_least_partial.
Print Assumptions C67_refuted.
