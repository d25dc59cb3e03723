(** C92: clients that keep to a few rules see an ideal authorisation service. *)
From Verif Require Import Base Domain Lexer Parser Validate Store Search Explain Yaml Service Dump Api
  SpecGrammar SpecPolicy SpecStore SpecSearch SpecSafe SpecErrors SpecAccount SpecExpand SpecDump Fixtures
  BaseFacts ParserFacts ValidateFacts StoreFacts PolicyFacts RelFacts PropsStore SpecRefine RefineFacts IdealFacts.

(** Every answer to a history within the rules is one the ideal service gives, for all large enough step bounds. *)
Theorem C92_refines : forall E R qs, collision_free E -> Forall (tidy E R) qs ->
  exists N, forall n, N <= n -> exists S',
    ideal_history E nothing (map (budget n) qs) (answers E (map (budget n) qs) empty_store) S'.
Proof. intros E R qs Hf Hq. exact (history E R Hf qs empty_store nothing (sim_start E R) Hq). Qed.

(** The ideal service leaves no choice: its answers and its state are determined by the requests. *)
Theorem C92_ideal_determined : forall E qs xs ys S' T', Forall (fun q => ~ draws q) qs ->
  ideal_history E nothing qs xs S' -> ideal_history E nothing qs ys T' -> Forall2 alike xs ys /\ same_service S' T'.
Proof.
  intros E qs xs ys S' T' Hq H1 H2. eapply histories_unique; [exact Hq | | | exact H1 | exact H2].
  - intros id rec [=].
  - split; reflexivity.
Qed.

Lemma ideal_set_answer E S now pid r app b S' : ideal E S (QSetRelationship now pid (Some r) app) (Ok (ASet b)) S' ->
  b = present (granted S pid r) /\ updated (granted S) pid r (Some (app, now)) (granted S').
Proof. intros H. inversion H; subst. auto. Qed.

(** Without the rule on ids the server is no such service: a second relationship overwrites a first one. *)
Theorem C92_rule_on_ids_needed : forall E, exists qs, Forall (fun q => ~ draws q) qs /\
  forall S', ~ ideal_history E nothing qs (answers E qs empty_store) S'.
Proof.
  intros E. exists [QCreatePolicy 1%N (Some (DPolicy alias_policy)) "";
    set "p" (tup "file" "s1" "reader" (SEntity (ent "file" "x")));
    set "p" (tup "files" "1" "reader" (SEntity (ent "file" "x")))].
  split; [repeat constructor; intros [] |]. intros S' H.
  remember (answers E _ empty_store) as xs eqn:Hx.
  assert (Ha : nth 2 xs Fuel = Ok (ASet true)).
  { rewrite Hx. cbn. unfold ecmp. cbn. rewrite (cmp_refl _ pcmp_ok). reflexivity. }
  assert (Hb : nth 1 xs Fuel = Ok (ASet false)) by (rewrite Hx; reflexivity). clear Hx.
  inversion H as [| ? ? ? S1 ? ? ? Hq1 Ht1]; subst. inversion Ht1 as [| ? ? ? S2 ? ? ? Hq2 Ht2]; subst. inversion Ht2 as [| ? ? ? S3 ? ? ? Hq3 Ht3]; subst.
  cbn in Ha, Hb. subst.
  assert (H1 : granted S1 = granted nothing) by (inversion Hq1; reflexivity).
  apply ideal_set_answer in Hq2 as [_ [_ Hu]]. apply ideal_set_answer in Hq3 as [Hf _].
  rewrite Hu, H1 in Hf by (right; discriminate). discriminate.
Qed.

(** ** A concrete history: a policy, its second version with writers, and ids within bars *)

Definition v2 : policy :=
  mkPolicy "p" "n" "d"
    [ rs "user" [];
      rs "group" [rl "member" (XTree (TRule RThis)) (SRSet [REntity "user"; REntitySet "group" "member"])];
      rs "folder" [rl "viewer" (XExpr "_this") SRUniversal];
      rs "file" [rl "owner" (XExpr "_this") (SRSet [REntity "user"]);
                 rl "parent" (XExpr "_this") (SRSet [REntity "folder"]);
                 rl "reader" (XExpr "_this + owner + parent->viewer") SRUniversal;
                 rl "writer" (XExpr "_this + owner") (SRSet [REntity "user"])] ] [].

Definition bars : rules := mkRules "|" (eq "parent"%string) (fun _ => "p"%string) (fun _ p => p = pol "p" \/ p = v2).

Definition may_read (who : string) : request := QCheck 0 "p" (asks (ent "file" "|f|") "reader" (ent "user" who)).

Definition example_history : list request :=
  [create "p"; set "p" (tup "file" "|f|" "owner" (user "|bob|")); set "p" (tup "file" "|f|" "reader" (members "|eng|"));
   set "p" (tup "group" "|eng|" "member" (user "|amy|")); may_read "|amy|"; may_read "|eve|";
   QUpdatePolicy (Some (DPolicy v2)) "app"; set "p" (tup "file" "|f|" "writer" (user "|amy|"));
   set "p" (tup "folder" "|d|" "viewer" (SResourceSet "user")); may_read "|eve|";
   set "p" (tup "file" "|f|" "parent" (SEntity (ent "folder" "|d|"))); may_read "|eve|";
   QExpand 0 "p" (Some (NSet (Some (ent "file" "|f|")) "writer")) FSpew; QDumpRelationships 0 "p" true;
   QFindRelationshipRecords "p" (Some all_relationships_selector);
   QDeleteRelationship "p" (Some (tup "file" "|f|" "parent" (SEntity (ent "folder" "|d|")))); may_read "|eve|";
   QDeletePolicy "p"; may_read "|amy|"].

Ltac each_relation Hr Hl :=
  cbn in Hr; repeat destruct Hr as [<- | Hr]; try contradiction; cbn in Hl; repeat destruct Hl as [<- | Hl]; try contradiction.

Ltac lacking := cbn; repeat split; discriminate.

Lemma example_policies p : p = pol "p" \/ p = v2 -> tidy_policy E0 bars p.
Proof.
  intros Hp. constructor.
  - intros rs l (r & Hr & _ & Hl). destruct Hp as [-> | ->]; each_relation Hr Hl; (split; [discriminate |]); intros t [= <-]; constructor.
  - intros rs l (r & Hr & _ & Hl). destruct Hp as [-> | ->]; each_relation Hr Hl; discriminate.
  - intros rs l t (r & Hr & _ & Hl) Hx. apply expression_get in Hx as [Hx _].
    destruct Hp as [-> | ->]; each_relation Hr Hl; vm_compute in Hx; injection Hx as <-; cbn; tauto.
  - intros op (rs & l & t & (r & Hr & _ & Hl) & Hx & Hu). apply expression_get in Hx as [Hx _].
    destruct Hp as [-> | ->]; each_relation Hr Hl; vm_compute in Hx; injection Hx as <-;
      repeat match goal with H : uses _ (TOp _ _ _) |- _ => inversion H; clear H; subst; try reflexivity
                           | H : uses _ (TRule _) |- _ => inversion H end.
  - intros rs (r & Hr & <-). destruct Hp as [-> | ->]; cbn in Hr; repeat destruct Hr as [<- | Hr]; try contradiction; split; lacking.
  - intros rs rl (l & (r & Hr & _ & Hl) & <-). destruct Hp as [-> | ->]; each_relation Hr Hl; (split; [split; lacking | discriminate]).
  - intros rs l l' t ts cu (r & Hr & Hn & Hl) Hx Ho (r' & Hr' & Hn' & Hl') Hts. apply expression_get in Hx as [Hx _].
    assert (Hcu : (ts = "parent" /\ cu = "viewer")%string).
    { destruct Hp as [-> | ->]; each_relation Hr Hl; vm_compute in Hx; injection Hx as <-;
        repeat match goal with H : occurs _ (TOp _ _ _) |- _ => inversion H; clear H; subst
                             | H : occurs _ (TRule _) |- _ => inversion H; clear H; subst end; auto. }
    destruct Hcu as [-> ->]. exists [REntity "folder"]. split.
    + destruct Hp as [-> | ->]; each_relation Hr' Hl'; try discriminate; reflexivity.
    + intros x [<- | []]. eexists. split; [exists (Fixtures.rs "folder" [Fixtures.rl "viewer" (XExpr "_this") SRUniversal]) |];
        [split; [destruct Hp as [-> | ->]; cbn; auto | split; [reflexivity | left; reflexivity]] | reflexivity].
  - intros ts (rs & l & t & cu & (r & Hr & _ & Hl) & Hx & Ho). apply expression_get in Hx as [Hx _].
    destruct Hp as [-> | ->]; each_relation Hr Hl; vm_compute in Hx; injection Hx as <-;
        repeat match goal with H : occurs _ (TOp _ _ _) |- _ => inversion H; clear H; subst
                             | H : occurs _ (TRule _) |- _ => inversion H; clear H; subst end; reflexivity.
  - exact Hp.
Qed.

Ltac kept n :=
  exists (nth n (p_resources v2) (Fixtures.rs "" [])); repeat split; solve [reflexivity | cbn; tauto].

Lemma example_versions p' r : p' = pol "p" \/ p' = v2 -> admissible p' r -> admissible v2 r.
Proof.
  intros [-> | ->]; [| auto]. intros (o & u & l & Ho & Hu & Hl & Hn & Hd & Ha).
  assert (Hrel : forall rs l, relation_of (pol "p") rs l -> relation_of v2 rs l).
  { intros rs0 l0 (r0 & Hr & <- & Hl0). cbn in Hr. repeat destruct Hr as [<- | Hr]; try contradiction; cbn in Hl0;
      repeat destruct Hl0 as [<- | Hl0]; try contradiction; first [kept 1 | kept 2 | kept 3]. }
  assert (Hres : forall rs, declares_resource (pol "p") rs -> declares_resource v2 rs).
  { intros rs0 (r0 & Hr & <-). cbn in Hr. repeat destruct Hr as [<- | Hr]; try contradiction; first [kept 0 | kept 1 | kept 2 | kept 3]. }
  exists o, u, l. repeat (split; auto). destruct u as [e | [e |] rel | rs0 |]; cbn in *; auto.
  destruct Hd as (l0 & Hl0 & Hn0). exists l0. auto.
Qed.

Example C92_example_tidy : collision_free E0 /\ Forall (tidy E0 bars) example_history.
Proof.
  split; [intros x y H; exact H |].
  assert (He : forall rs m, tidy_name bars rs -> lacks "/" (String "|" (m +++ "|")) -> tidy_entity bars (ent rs (String "|" (m +++ "|")))).
  { intros rs0 m H1 H2. split; [exact H1 |]. split; [| exact H2]. right. exists m. reflexivity. }
  assert (Hf : tidy_entity bars (ent "file" "|f|")) by (apply (He "file" "f")%string; [split; lacking | lacking]).
  assert (Hd : tidy_entity bars (ent "folder" "|d|")) by (apply (He "folder" "d")%string; [split; lacking | lacking]).
  assert (Hg : tidy_entity bars (ent "group" "|eng|")) by (apply (He "group" "eng")%string; [split; lacking | lacking]).
  assert (Hb : tidy_entity bars (ent "user" "|bob|")) by (apply (He "user" "bob")%string; [split; lacking | lacking]).
  assert (Ha : tidy_entity bars (ent "user" "|amy|")) by (apply (He "user" "amy")%string; [split; lacking | lacking]).
  repeat apply Forall_cons; try apply Forall_nil; cbn [tidy set create may_read];
    try exact Logic.I; try (do 3 eexists; split; [reflexivity | exact Hf]);
    try (eexists; split; [reflexivity |]; constructor; [reflexivity | do 2 eexists; split; [reflexivity |]; split; [reflexivity |]; split; [assumption |] | split; [split; lacking | discriminate]]).
  all: cbn [tidy_subject user members tup r_relation].
  all: try assumption.
  - eexists. split; [constructor | apply example_policies; auto].
  - split; [exact Hg |]. split; [split; lacking | discriminate].
  - eexists. split; [constructor |]. split; [apply example_policies; auto |]. apply example_versions.
  - split; [split; lacking |]. cbn. discriminate.
  - split; [do 2 eexists; split; [reflexivity | exact Hf] | left; reflexivity].
  - reflexivity.
  - eexists. split; [reflexivity |]. split; [split; [| split]; eexists; repeat split; discriminate |].
    split; [split; intros; discriminate | discriminate].
Qed.

Example C92_example_answers : map (fun x => match x with Ok (ADecision b) => Some b | _ => None end)
    (answers E0 (map (budget 40) example_history) empty_store) =
  [None; None; None; None; Some true; Some false; None; None; None; Some false; None; Some true; None; None; None; None; Some false; None; None].
Proof. vm_compute. reflexivity. Qed.

Print Assumptions C92_refines.
Print Assumptions C92_ideal_determined.
Print Assumptions C92_rule_on_ids_needed.
