(** Properties of searches beside requests that change nothing they consult: C103. *)
From Verif Require Import Base Domain Lexer Parser Validate Store Search Explain Yaml Service Dump Api
  SpecGrammar SpecPolicy SpecStore SpecSearch SpecExtend SpecConc SpecTouch SpecApart Fixtures BaseFacts ParserFacts ValidateFacts StoreFacts PolicyFacts RelFacts
  SearchRun SearchFacts SearchSem SearchTerm ReadFacts GraphFacts NameFacts ConcFacts ConcSearch TouchFacts ApartFacts PropsSearch PropsExplain.

(** ** C103 A search beside requests that change nothing it consults answers as if alone *)

(** The answer is that of the first moment, if at each of its steps the policy and the relationships that it consults are
    those of the first moment. *)
Theorem C103_beside : forall E s qs sched i q pid root rec x, reachable E s ->
  nth_error qs i = Some q -> search_request pid root q ->
  answer E (QGetPolicy pid) s = Ok (APolicy (Some rec)) ->
  (forall k, acts E qs s sched i k ->
     answer E (QGetPolicy pid) (moment E qs s sched k) = Ok (APolicy (Some rec)) /\
     same_consulted E (pr_policy rec) pid root s (moment E qs s sched k)) ->
  answered (interleave sched (start E qs s)) i = Some x -> x = answer E q s.
Proof.
  intros E s qs sched i q pid root rec x H Hi Hq Hp Hk Ha. apply reachable_ok in H. apply known_policy in Hp.
  apply (one_answer E s H pid rec Hp root (during E qs s sched i)); [| exact Hq | apply request_outcome; assumption].
  intros s' Hs. split; [eapply during_ok; eassumption |]. destruct Hs as (k & Hact & ->). destruct (Hk k Hact) as [Hp' Hc].
  apply known_policy in Hp'. auto.
Qed.

(** In particular beside requests that keep away from what it consults. *)
Theorem C103_writers : forall E s qs sched i q pid root rec x, reachable E s ->
  nth_error qs i = Some q -> search_request pid root q ->
  answer E (QGetPolicy pid) s = Ok (APolicy (Some rec)) ->
  (forall q', In q' qs -> keeps_away E (pr_policy rec) (relationships s pid) pid root q') ->
  answered (interleave sched (start E qs s)) i = Some x -> x = answer E q s.
Proof.
  intros E s qs sched i q pid root rec x H Hi Hq Hp Hw Ha.
  apply (C103_beside E s qs sched i q pid root rec x H Hi Hq Hp); [| exact Ha].
  intros k _. pose proof (reachable_ok _ _ H) as Hok. pose proof (moment_ok E qs s Hok sched k) as Hok'.
  set (W := fun y => exists q', In q' qs /\ may_write E q' y).
  assert (HW : forall y, ~ W y -> same_at y s (moment E qs s sched k)).
  { intros y Hy. apply (unwritten E qs W); [intros q' z Hin Hz; exists q'; auto | exact Hy | eapply ok_sorted; exact Hok]. }
  split.
  - apply known_policy. apply known_policy in Hp. unfold policies in *. rewrite <- Hp. symmetry. apply (HW (AtPolicy pid)).
    intros (q' & Hin & Hq'). exact (proj1 (Hw q' Hin) Hq').
  - intros r Hr. apply unwritten_relationship with (E := E); [exact Hok | exact Hok' |]. intros key Hkey. apply HW.
    intros (q' & Hin & Hq'). apply (proj2 (Hw q' Hin) key Hq'). rewrite Hkey. exact Hr.
Qed.

(** Alone: two histories that agree on the policy and on what the search consults give the same answer. *)
Theorem C103_alone : forall E s s' q pid root rec, reachable E s -> reachable E s' -> search_request pid root q ->
  answer E (QGetPolicy pid) s = Ok (APolicy (Some rec)) -> answer E (QGetPolicy pid) s' = Ok (APolicy (Some rec)) ->
  same_consulted E (pr_policy rec) pid root s s' -> answer E q s' = answer E q s.
Proof.
  intros E s s' q pid root rec H H' Hq Hp Hp' Hc. apply reachable_ok in H, H'. apply known_policy in Hp, Hp'.
  apply (one_answer E s H pid rec Hp root (eq s')); [| exact Hq |].
  - intros s1 <-. auto.
  - assert (Hrun : forall A (p : prog A), reads p -> outcome (eq s') p (fst (run p s'))).
    { intros A p Hr. induction Hr; cbn [run]; try constructor; eapply oc_step; try reflexivity; auto. }
    unfold answer. apply Hrun. apply reads_serve. destruct Hq; exact Logic.I.
Qed.

(** By name, with enclosed object ids and no hash collisions: the others set and delete relationships of objects and relations
    that the search cannot reach. *)
Theorem C103_delimited : forall E c s qs sched i q pid o rel rec rels x, reachable E s -> collision_free E ->
  nth_error qs i = Some q -> search_request pid (NSet (Some o) rel) q ->
  answer E (QGetPolicy pid) s = Ok (APolicy (Some rec)) ->
  delimited_ids c (pr_policy rec) (rels ++ relationships s pid) -> delimited c (e_id o) ->
  (forall q', In q' qs -> writes_only E pid rels q') ->
  (forall r o1 rel1 rel2, In r rels ->
     reach E (pr_policy rec) (stored_subject (relationships s pid)) (NSet (Some o) rel) (NSet (Some o1) rel1) ->
     looks_up E (pr_policy rec) o1 rel1 rel2 -> ~ (r_object r = Some o1 /\ r_relation r = rel2)) ->
  answered (interleave sched (start E qs s)) i = Some x -> x = answer E q s.
Proof.
  intros E c s qs sched i q pid o rel rec rels x H Hc Hi Hq Hp Hd Ho Hw Hfree Ha.
  apply (C103_writers E s qs sched i q pid (NSet (Some o) rel) rec x H Hi Hq Hp); [| exact Ha].
  apply known_policy in Hp. pose proof (proj2 (so_policy _ _ (reachable_ok _ _ H) pid rec Hp)) as Hwf.
  assert (Hd' : delimited_ids c (pr_policy rec) (relationships s pid)).
  { destruct Hd as [D1 D2 D3 D4]. split; auto; intros; [eapply D3 | eapply D4]; eauto; apply in_or_app; right; assumption. }
  pose proof (delimited_unaliased E c _ _ o rel Hc Hwf Hd' Ho) as Hun.
  assert (Hone : forall r k, In r rels -> stored_under E (Some r) k ->
            ~ consults E (pr_policy rec) (relationships s pid) (NSet (Some o) rel) (fst k)).
  { intros r k Hin (e & He & ->) (o1 & rel1 & rel2 & Hr & Hl & Hk). apply (reach_keyed E _ _ _ Hun) in Hr.
    apply (Hfree r o1 rel1 rel2 Hin Hr Hl).
    eapply (delimited_look E c (pr_policy rec) (rels ++ relationships s pid)); eauto.
    - exact (reach_delimited E c _ _ o rel _ Hd' Ho Hr).
    - apply in_or_app. left. exact Hin.
    - rewrite <- Hk. destruct (dst_subject _ _ He) as (o' & u & Ho' & _ & _ & Hs). unfold edge_key. cbn [fst].
      unfold node_key. rewrite Hs. cbn. unfold object_text. rewrite Ho'. reflexivity. }
  intros q' Hin. destruct (Hw q' Hin) as [Hw1 Hw2]. split; [exact Hw1 |]. intros k Hk.
  destruct q'; try (exfalso; exact (Hw2 k Hk)); destruct r as [r |]; try (exfalso; exact (Hw2 k Hk));
    cbn [may_write writes_at] in Hk; destruct Hk as [Hpid Hk]; exact (Hone r k (Hw2 (eq_sym Hpid)) Hk).
Qed.

(** The store of C26: group:c and folder:z are beyond the reach of file:f#reader. *)
Definition below_keys : list string :=
  ["filefreader"; "filefowner"; "filefparent"; "folderdviewer"; "groupamember"; "groupbmember"].

Lemma below_consults k : consults E0 (pol "p") (relationships cyclic_store "p") (NSet (Some (ent "file" "f")) "reader") k -> In k below_keys.
Proof.
  intros (o & rel & rel' & Hr & (t & Hw & Hl) & ->).
  apply (covers_reach_ok _ _ _ _ _ _ (stored_edges _ _ _ cyclic_ok) (wf_unique _ _ cyclic_wf) below_reader_covers) in Hr.
  apply (rewrites_node E0 (pol "p") o rel t (wf_unique _ _ cyclic_wf)) in Hw as (l & Hl' & Hg).
  destruct Hr as [Hr | [Hr | [Hr | [Hr | [Hr | [Hr | [Hr | []]]]]]]]; try discriminate Hr; injection Hr as <- <-;
    vm_compute in Hl'; injection Hl' as <-; vm_compute in Hg; injection Hg as <-;
    (destruct Hl as [[_ ->] | [cu Hcu]]; [vm_compute; tauto |]);
    repeat match goal with H : occurs _ (TOp _ _ _) |- _ => inversion H; clear H; subst | H : occurs _ (TRule _) |- _ => inversion H; clear H; subst end;
    vm_compute; tauto.
Qed.

Definition away : list request :=
  [QCheck 20 "p" (asks (ent "file" "f") "reader" (ent "user" "eve"));
   set "p" (tup "group" "c" "member" (user "eve"));
   QDeleteRelationship "p" (Some (tup "file" "g" "reader" (members "a")));
   QDeleteRelationships "p" (Some (mkSel (Some (OSObject (Some (ent "folder" "z")))) (Some LSWild) (Some USWild)));
   QDeletePolicy "q"].

Example C103_away : forall q, In q away -> keeps_away E0 (pol "p") (relationships cyclic_store "p") "p" (NSet (Some (ent "file" "f")) "reader") q.
Proof.
  assert (Hk : forall k, (forall k', In k' below_keys -> k <> k') ->
            ~ consults E0 (pol "p") (relationships cyclic_store "p") (NSet (Some (ent "file" "f")) "reader") k).
  { intros k H Hc. exact (H k (below_consults k Hc) eq_refl). }
  intros q [<- | [<- | [<- | [<- | [<- | []]]]]]; (split; [cbn; try tauto; discriminate |]); intros k Hw; cbn in Hw.
  - contradiction.
  - destruct Hw as (_ & e & He & ->). injection He as <-. apply Hk. intros k' H. repeat (destruct H as [<- | H]; [vm_compute; discriminate |]). contradiction.
  - destruct Hw as (_ & e & He & ->). injection He as <-. apply Hk. intros k' H. repeat (destruct H as [<- | H]; [vm_compute; discriminate |]). contradiction.
  - destruct Hw as (_ & r & (o & l & u & Ho & _ & _ & Hso & _) & e & He & ->). injection Ho as <-. cbn in Hso.
    destruct r as [[ro |] rl [ru |]]; cbn in Hso; try discriminate. injection Hso as ->. destruct ru as [x | [x |] y | x |]; cbn in He; try discriminate;
      injection He as <-; apply Hk; intros k' H; repeat (destruct H as [<- | H]; [vm_compute; discriminate |]); contradiction.
  - discriminate Hw.
Qed.

Example C103_example : let c := interleave [0; 1; 0; 2; 1; 1; 3; 0; 1; 1; 2; 0; 3; 4; 4; 2; 2; 0; 0; 4; 0; 1; 0; 0; 3; 0; 0; 0] (start E0 away cyclic_store) in
  answered c 0 = Some (Ok (ADecision true)) /\ answer E0 (nth 0 away QListPolicyIds) cyclic_store = Ok (ADecision true) /\
  length (relationships (snd c) "p") = S (length (relationships cyclic_store "p")) /\
  (forall x, answered c 0 = Some x -> x = answer E0 (nth 0 away QListPolicyIds) cyclic_store).
Proof.
  split; [vm_compute; reflexivity |]. split; [vm_compute; reflexivity |]. split; [vm_compute; reflexivity |].
  intros x. apply (C103_writers E0 cyclic_store away _ 0 _ "p" (NSet (Some (ent "file" "f")) "reader") (mkPRec (pol "p") "app" 1%N)).
  - apply sequential_reachable. eexists. reflexivity.
  - reflexivity.
  - constructor.
  - vm_compute. reflexivity.
  - exact C103_away.
Qed.

Print Assumptions C103_beside.
Print Assumptions C103_writers.
Print Assumptions C103_alone.
Print Assumptions C103_delimited.
