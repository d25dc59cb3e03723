(** C93: clients that use policies of their own are undisturbed by each other. *)
From Verif Require Import Base Domain Lexer Parser Validate Store Search Explain Yaml Service Dump Api
  SpecGrammar SpecPolicy SpecStore SpecConc SpecTouch SpecSearch SpecSafe SpecErrors SpecAccount SpecExpand SpecDump Fixtures
  BaseFacts ParserFacts ValidateFacts StoreFacts PolicyFacts RelFacts ConcFacts TouchFacts PropsStore SpecRefine RefineFacts IdealFacts
  PropsRefine SpecSessions SessionFacts.

Lemma named_filed E cs s : reachable E s -> all_filed E (named cs s) s.
Proof.
  intros H pid k e Hk. apply reachable_ok in H. destruct (so_edge E s H pid k e Hk) as [Hi ->].
  exists (from_internal e). split; [| split; [apply to_from_internal; exact Hi | reflexivity]].
  left. apply (relationships_in E); [exact H |]. exists e. split; [apply to_from_internal; exact Hi | exact Hk].
Qed.

(** Whatever the schedule, a client hears the answers it would hear alone, and leaves its policies and relationships as
    it would alone. *)
Theorem C93_alone : forall E owner cs s sched i qs xs, reachable E s ->
  (forall j rs, nth_error cs j = Some rs -> Forall (own_policy owner j) rs) -> keys_apart E owner (named cs s) ->
  nth_error cs i = Some qs -> heard (play sched (open E cs s)) i = Some xs ->
  xs = answers E qs s /\
  forall pid, owner pid = i ->
    policies (snd (play sched (open E cs s))) pid = policies (after_all E qs s) pid /\
    relationships (snd (play sched (open E cs s))) pid = relationships (after_all E qs s) pid.
Proof.
  intros E owner cs s sched i qs xs Hr Hown Hk Hq Hh.
  assert (HU : forall qs q pid r, In qs cs -> In q qs -> mentions q pid r -> named cs s pid r) by (intros; right; eauto).
  assert (Hs : sorted_store s) by (eapply ok_sorted, reachable_ok, Hr).
  pose proof (peaceful_play E owner (named cs s) Hk cs s Hs (named_filed E cs s Hr) Hown HU sched) as Hp.
  destruct (heard_alone E owner (named cs s) Hk cs s Hs (named_filed E cs s Hr) Hown HU sched i qs xs Hq Hh) as [H1 H2].
  rewrite run_client in H1, H2. cbn [snd] in H1, H2. injection H1 as H1. split; [exact H1 |]. intros pid Ho.
  assert (Ht : sorted_store (after_all E qs s)) by (apply (ok_sorted E), after_all_ok, reachable_ok, Hr).
  split; [exact (H2 (AtPolicy pid) Ho) |]. unfold relationships. f_equal.
  apply edges_ext; [apply Hp | apply Ht |]. intros k. exact (H2 (AtEdge pid k) Ho).
Qed.

Lemma play_length sched : forall c, length (fst (play sched c)) = length (fst c).
Proof.
  induction sched as [| i sched IH]; intros c; cbn [play fold_left]; [reflexivity |]. unfold play in IH. rewrite IH. unfold turn.
  destruct (nth_error (fst c) i); [| reflexivity]. destruct (step1 _ _) as [[]|]; [| reflexivity]. cbn [fst]. apply replace_length.
Qed.

Lemma play_alone p : forall i ts s, nth_error ts i = Some p -> exists k, heard (play (repeat i k) (ts, s)) i = Some (fst (run p s)).
Proof.
  induction p; intros i ts s Hi;
    try (match goal with
         | |- exists k, heard _ _ = Some (fst (run ?p s)) =>
             destruct (step1 p s) as [[p' s'] |] eqn:Hs; [| discriminate Hs];
             assert (Hx : exists k, heard (play (repeat i k) (replace i p' ts, s')) i = Some (fst (run p' s')))
               by (injection Hs as <- <-; match goal with IH : _ |- _ => apply IH; eapply replace_same; exact Hi end);
             destruct Hx as [m Hm]; exists (S m); cbn [repeat play fold_left]; unfold turn at 2; cbn [fst snd]; rewrite Hi, Hs;
             rewrite (step_run _ _ _ _ Hs); exact Hm
         end).
  exists 0. cbn. unfold heard. cbn [fst]. rewrite Hi. reflexivity.
Qed.

(** Nobody waits for anybody: turns of one client alone bring it to its answers. *)
Theorem C93_no_waiting : forall E cs s sched i, i < length cs ->
  exists k, heard (play (sched ++ repeat i k) (open E cs s)) i <> None.
Proof.
  intros E cs s sched i Hi. destruct (nth_error (fst (play sched (open E cs s))) i) as [p |] eqn:Hp.
  2: { apply nth_error_None in Hp. rewrite play_length in Hp. cbn [open fst] in Hp. rewrite map_length in Hp. lia. }
  destruct (play sched (open E cs s)) as [ts s'] eqn:Hc. destruct (play_alone p i ts s' Hp) as [k Hk]. exists k.
  unfold play in *. rewrite fold_left_app, Hc, Hk. discriminate.
Qed.

Lemma budget_mentions n q pid r : mentions (budget n q) pid r -> mentions q pid r.
Proof. destruct q; cbn; intros H; try exact H; inversion H. Qed.

Lemma budget_own owner i n q : own_policy owner i q -> own_policy owner i (budget n q).
Proof. destruct q; cbn; auto. Qed.

Lemma common_bound E R cs : collision_free E -> (forall qs, In qs cs -> Forall (tidy E R) qs) ->
  exists N, forall n, N <= n -> forall qs, In qs cs -> exists S',
    ideal_history E nothing (map (budget n) qs) (answers E (map (budget n) qs) empty_store) S'.
Proof.
  intros Hf. induction cs as [| qs cs IH]; intros Hq; [exists 0; intros n _ qs [] |].
  destruct IH as [N HN]; [intros; apply Hq; right; assumption |].
  destruct (C92_refines E R qs Hf) as [M HM]; [apply Hq; left; reflexivity |].
  exists (N + M). intros n Hn qs' [<- | Hin]; [apply HM; lia | apply HN; [lia | exact Hin]].
Qed.

(** Clients within the rules of C92, each with policies of its own, each see an ideal service of their own. *)
Theorem C93_ideal : forall E R owner cs, collision_free E ->
  (forall i qs, nth_error cs i = Some qs -> Forall (tidy E R) qs /\ Forall (own_policy owner i) qs) ->
  exists N, forall n, N <= n -> forall sched i qs xs, nth_error cs i = Some qs ->
    heard (play sched (open E (map (map (budget n)) cs) empty_store)) i = Some xs ->
    exists S', ideal_history E nothing (map (budget n) qs) xs S'.
Proof.
  intros E R owner cs Hf H. destruct (common_bound E R cs Hf) as [N HN].
  { intros qs Hin. apply In_nth_error in Hin as [i Hi]. apply (H i qs Hi). }
  exists N. intros n Hn sched i qs xs Hi Hh.
  destruct (C93_alone E owner (map (map (budget n)) cs) empty_store sched i (map (budget n) qs) xs) as [-> _].
  - constructor.
  - intros j rs Hj. rewrite nth_error_map in Hj. destruct (nth_error cs j) as [l |] eqn:Hl; [| discriminate]. injection Hj as <-.
    apply Forall_map. eapply Forall_impl; [intros q; apply budget_own | apply (H j l Hl)].
  - assert (Hn' : forall pid r, named (map (map (budget n)) cs) empty_store pid r -> tidy_relationship R pid r).
    { intros pid r [[] | (l & q & Hl & Hq & Hm)]. apply in_map_iff in Hl as (l' & <- & Hl). apply in_map_iff in Hq as (q' & <- & Hq).
      apply In_nth_error in Hl as [j Hj]. apply (tidy_mentions E R q'); [| eapply budget_mentions, Hm].
      destruct (H j l' Hj) as [Ht _]. rewrite Forall_forall in Ht. apply Ht, Hq. }
    intros pid pid' r r' Hr Hr' Hc Hc' Hk. f_equal. apply (tidy_inj E R pid pid' r r'); auto. apply same_key_iff; assumption.
  - rewrite nth_error_map, Hi. reflexivity.
  - exact Hh.
  - apply HN; [exact Hn | eapply nth_error_In, Hi].
Qed.

(** Without the condition on keys a client loses the record of a relationship to a client of another policy. *)
Theorem C93_keys_needed : forall E, exists owner cs sched qs xs,
  (forall j rs, nth_error cs j = Some rs -> Forall (own_policy owner j) rs) /\
  nth_error cs 0 = Some qs /\ heard (play sched (open E cs empty_store)) 0 = Some xs /\ xs <> answers E qs empty_store.
Proof.
  intros E. set (r := tup "file" "f" "owner" (user "bob")).
  exists (fun id => if String.eqb id "p" then 0 else 1),
    [[create "p"; set "p" r; QGetRelationship "p" (Some r)]; [create "q"; set "q" r; QDeleteRelationship "q" (Some r)]],
    (repeat 0 7 ++ repeat 1 20 ++ repeat 0 20).
  do 2 eexists. split; [| split; [reflexivity | split]].
  - intros [| [| [| j]]] l Hl; try discriminate Hl; injection Hl as <-; repeat constructor; cbn; intros id [= <-]; reflexivity.
  - cbv -[pcmp sha]. rewrite ?(cmp_refl _ pcmp_ok). reflexivity.
  - cbv -[pcmp sha]. rewrite ?(cmp_refl _ pcmp_ok). intros H. discriminate H.
Qed.

(** ** Two clients at work at the same time *)

Definition twins : rules := mkRules "|" (eq "parent"%string)
  (fun r => match r_object r with Some o => if String.eqb (e_id o) "|g|" then "q"%string else "p"%string | None => "p"%string end)
  (fun _ p => p = pol "p" \/ p = pol "q").

Definition shares (pid f : string) (who other : string) : list request :=
  [create pid; set pid (tup "file" f "owner" (user who)); set pid (tup "file" f "reader" (user other));
   QCheck 0 pid (asks (ent "file" f) "reader" (ent "user" other)); QDeleteRelationship pid (Some (tup "file" f "reader" (user other)));
   QCheck 0 pid (asks (ent "file" f) "reader" (ent "user" other)); QCheck 0 pid (asks (ent "file" f) "reader" (ent "user" who));
   QDeletePolicy pid; QGetPolicy pid].

Definition pair_of_clients : list (list request) := [shares "p" "|f|" "|bob|" "|amy|"; shares "q" "|g|" "|amy|" "|bob|"].

Definition first_or_second (id : string) : nat := if String.eqb id "p" then 0 else 1.

Lemma twins_policies id : id = "p"%string \/ id = "q"%string -> tidy_policy E0 twins (pol id).
Proof.
  intros Hid. constructor.
  - intros n l (r & Hr & _ & Hl). each_relation Hr Hl; (split; [discriminate |]); intros t [= <-]; constructor.
  - intros n l (r & Hr & _ & Hl). each_relation Hr Hl; discriminate.
  - intros n l t (r & Hr & _ & Hl) Hx. apply expression_get in Hx as [Hx _].
    each_relation Hr Hl; vm_compute in Hx; injection Hx as <-; cbn; tauto.
  - intros op (n & l & t & (r & Hr & _ & Hl) & Hx & Hu). apply expression_get in Hx as [Hx _].
    each_relation Hr Hl; vm_compute in Hx; injection Hx as <-;
      repeat match goal with H : uses _ (TOp _ _ _) |- _ => inversion H; clear H; subst; try reflexivity
                           | H : uses _ (TRule _) |- _ => inversion H end.
  - intros n (r & Hr & <-). cbn in Hr. repeat destruct Hr as [<- | Hr]; try contradiction; split; lacking.
  - intros n m (l & (r & Hr & _ & Hl) & <-). each_relation Hr Hl; (split; [split; lacking | discriminate]).
  - intros n l l' t ts cu (r & Hr & Hn & Hl) Hx Ho (r' & Hr' & Hn' & Hl') Hts. apply expression_get in Hx as [Hx _].
    assert (Hcu : (ts = "parent" /\ cu = "viewer")%string).
    { each_relation Hr Hl; vm_compute in Hx; injection Hx as <-;
        repeat match goal with H : occurs _ (TOp _ _ _) |- _ => inversion H; clear H; subst
                             | H : occurs _ (TRule _) |- _ => inversion H; clear H; subst end; auto. }
    destruct Hcu as [-> ->]. exists [REntity "folder"]. split.
    + each_relation Hr' Hl'; try discriminate; reflexivity.
    + intros x [<- | []]. eexists. split; [exists (Fixtures.rs "folder" [Fixtures.rl "viewer" (XExpr "_this") SRUniversal]) |];
        [split; [cbn; auto | split; [reflexivity | left; reflexivity]] | reflexivity].
  - intros ts (n & l & t & cu & (r & Hr & _ & Hl) & Hx & Ho). apply expression_get in Hx as [Hx _].
    each_relation Hr Hl; vm_compute in Hx; injection Hx as <-;
        repeat match goal with H : occurs _ (TOp _ _ _) |- _ => inversion H; clear H; subst
                             | H : occurs _ (TRule _) |- _ => inversion H; clear H; subst end; reflexivity.
  - cbn. destruct Hid as [-> | ->]; auto.
Qed.

Example C93_example_rules : forall i qs, nth_error pair_of_clients i = Some qs ->
  Forall (tidy E0 twins) qs /\ Forall (own_policy first_or_second i) qs.
Proof.
  assert (He : forall n m, tidy_name twins n -> lacks "/" (String "|" (m +++ "|")) -> tidy_entity twins (ent n (String "|" (m +++ "|")))).
  { intros n m H1 H2. split; [exact H1 |]. split; [| exact H2]. right. exists m. reflexivity. }
  assert (Hf : tidy_entity twins (ent "file" "|f|")) by (apply (He "file" "f")%string; [split; lacking | lacking]).
  assert (Hg : tidy_entity twins (ent "file" "|g|")) by (apply (He "file" "g")%string; [split; lacking | lacking]).
  assert (Hb : tidy_entity twins (ent "user" "|bob|")) by (apply (He "user" "bob")%string; [split; lacking | lacking]).
  assert (Ha : tidy_entity twins (ent "user" "|amy|")) by (apply (He "user" "amy")%string; [split; lacking | lacking]).
  intros [| [| [| i]]] l Hl; try discriminate Hl; injection Hl as <-; (split; [| repeat constructor; cbn; intros id [= <-]; reflexivity]);
    repeat apply Forall_cons; try apply Forall_nil; cbn [tidy set create]; try exact Logic.I;
    try (do 3 eexists; split; [reflexivity | assumption]);
    try (eexists; split; [constructor | apply twins_policies; auto]);
    (eexists; split; [reflexivity |]; constructor; [reflexivity | do 2 eexists; split; [reflexivity |]; split; [reflexivity |]; split; [assumption |] | split; [split; lacking | discriminate]]);
    cbn [tidy_subject user tup r_relation]; assumption.
Qed.

Definition decisions (x : option (list (res response))) : option (list (option bool)) :=
  option_map (map (fun y => match y with Ok (ADecision b) => Some b | _ => None end)) x.

Example C93_example_heard :
  let c := play (concat (repeat [0; 1] 200)) (open E0 (map (map (budget 40)) pair_of_clients) empty_store) in
  decisions (heard c 0) = Some [None; None; None; Some true; None; Some false; Some true; None; None] /\
  decisions (heard c 1) = Some [None; None; None; Some true; None; Some false; Some true; None; None].
Proof. vm_compute. split; reflexivity. Qed.

Print Assumptions C93_alone.
Print Assumptions C93_no_waiting.
Print Assumptions C93_ideal.
Print Assumptions C93_keys_needed.
