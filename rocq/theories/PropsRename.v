(** C84: decisions under other ids. *)
From Verif Require Import Base Domain Lexer Parser Validate Store Search Explain Yaml Service Dump Api
  SpecGrammar SpecPolicy SpecStore SpecSearch SpecWays SpecRename Fixtures BaseFacts StoreFacts PolicyFacts SearchRun SearchFacts
  SearchSem RelFacts ValidateFacts SearchTerm GraphFacts WayFacts CrashFacts NameFacts DotFacts RenameFacts PropsStore PropsSearch PropsWays PropsAlike.

(** ** C84 Decisions do not depend on what entities are called *)

(** Policies with unions only. *)
Theorem C84_unions_partial : forall f E s s' pid pid' rec rec' n n' o rel a b b', one_to_one f -> reachable E s -> reachable E s' ->
  answer E (QGetPolicy pid) s = Ok (APolicy (Some rec)) -> answer E (QGetPolicy pid') s' = Ok (APolicy (Some rec')) ->
  pr_policy rec' = pr_policy rec -> union_only E (pr_policy rec) ->
  renamed f (relationships s pid) (relationships s' pid') ->
  unaliased E (pr_policy rec) (relationships s pid) (NSet (Some o) rel) ->
  unaliased E (pr_policy rec) (relationships s' pid') (NSet (Some (rename_entity f o)) rel) ->
  distinct_ids E (pr_policy rec) (stored_subject (relationships s pid)) (NSet (Some o) rel) ->
  distinct_ids E (pr_policy rec) (stored_subject (relationships s' pid')) (NSet (Some (rename_entity f o)) rel) ->
  answer E (QCheck n pid (asks o rel a)) s = Ok (ADecision b) ->
  answer E (QCheck n' pid' (asks (rename_entity f o) rel (rename_entity f a))) s' = Ok (ADecision b') -> b = b'.
Proof.
  intros f E s s' pid pid' rec rec' n n' o rel a b b' Hf H H' Hp Hp' He Hu Hr Hn Hn' Hd Hd' Hc Hc'.
  pose proof (C26_decides_partial E s pid rec n o rel a b H Hp Hu Hn Hd Hc) as Q.
  rewrite <- He in Hu, Hn', Hd'.
  pose proof (C26_decides_partial E s' pid' rec' n' _ rel _ b' H' Hp' Hu Hn' Hd' Hc') as Q'. rewrite He in Q'.
  rewrite (member_ren f Hf E (pr_policy rec) (stored_subject (relationships s pid))) in Q'.
  - destruct b, b'; try reflexivity; [symmetry; apply Q', Q | apply Q, Q']; reflexivity.
  - intros x l u. apply renamed_subject; assumption.
Qed.

(** All operators, when there is only one way to every node. *)
Theorem C84_single_ways_partial : forall f E s s' pid pid' rec rec' n n' o rel a b b', one_to_one f -> reachable E s -> reachable E s' ->
  answer E (QGetPolicy pid) s = Ok (APolicy (Some rec)) -> answer E (QGetPolicy pid') s' = Ok (APolicy (Some rec')) ->
  pr_policy rec' = pr_policy rec -> renamed f (relationships s pid) (relationships s' pid') ->
  single_ways E (pr_policy rec) (stored_subject (relationships s pid)) (NSet (Some o) rel) ->
  unaliased E (pr_policy rec) (relationships s pid) (NSet (Some o) rel) ->
  unaliased E (pr_policy rec) (relationships s' pid') (NSet (Some (rename_entity f o)) rel) ->
  distinct_ids E (pr_policy rec) (stored_subject (relationships s pid)) (NSet (Some o) rel) ->
  distinct_ids E (pr_policy rec) (stored_subject (relationships s' pid')) (NSet (Some (rename_entity f o)) rel) ->
  answer E (QCheck n pid (asks o rel a)) s = Ok (ADecision b) ->
  answer E (QCheck n' pid' (asks (rename_entity f o) rel (rename_entity f a))) s' = Ok (ADecision b') -> b = b'.
Proof.
  intros f E s s' pid pid' rec rec' n n' o rel a b b' Hf H H' Hp Hp' He Hr Hs Hn Hn' Hd Hd' Hc Hc'.
  assert (Hal : forall x l u, stored_subject (relationships s' pid') (rename_entity f x) l u <->
    exists v, u = rename_subject f v /\ stored_subject (relationships s pid) x l v) by (intros; apply renamed_subject; assumption).
  destruct (C77_exact_by_name E s pid rec n o rel a b H Hp Hn Hd Hs Hc) as ((M & HM) & Q). specialize (Q M HM).
  pose proof (single_ren f Hf E (pr_policy rec) _ _ Hal _ Hs) as Hs'. cbn [rename_node option_map] in Hs'.
  pose proof (solution_ren f Hf E (pr_policy rec) _ _ Hal a o rel M HM) as HM'.
  rewrite <- He in Hn', Hd', Hs', HM'.
  destruct (C77_exact_by_name E s' pid' rec' n' _ rel _ b' H' Hp' Hn' Hd' Hs' Hc') as (_ & Q'). specialize (Q' _ HM'). cbv beta in Q'.
  assert (b' = true <-> M o rel) as Q''.
  { rewrite Q'. split; [| eauto]. intros (y & Hy & Hm). apply (ren_inj f Hf) in Hy as <-. exact Hm. }
  destruct b, b'; try reflexivity; [symmetry; apply Q'', Q | apply Q, Q'']; reflexivity.
Qed.

(** Two groups are direct readers of the file; bob is in the one, all users are in the other, and bob is in all of the file. *)
Definition swap_policy : policy :=
  mkPolicy "p" "" "" [rs "user" []; rs "group" [rl "member" (XTree (TRule RThis)) SRUniversal];
    rs "file" [rl "direct" (XTree (TRule RThis)) SRUniversal; rl "all" (XTree (TRule RThis)) SRUniversal;
               rl "both" (XTree (TOp (TRule (RCu "direct")) OpInter (TRule (RCu "all")))) SRUniversal]] [].
Definition swap_rels (g h : string) : list relationship :=
  [tup "file" "1" "direct" (members "g"); tup "file" "1" "direct" (members "h");
   tup "group" g "member" (user "bob"); tup "group" h "member" (SResourceSet "user"); tup "file" "1" "all" (user "bob")].
Definition swap_store (E : env) (g h : string) : store :=
  after_all E (QCreatePolicy 1%N (Some (DPolicy swap_policy)) "" :: map (set "p") (swap_rels g h)) empty_store.

Definition group_pair (g h : string) : Prop := (g = "g" /\ h = "h") \/ (g = "h" /\ h = "g").

Lemma swap_stored E g h : collision_free E -> group_pair g h ->
  (forall r, In r (relationships (swap_store E g h) "p") <-> In r (swap_rels g h)) /\
  policies (swap_store E g h) "p" = Some (mkPRec swap_policy "" 1%N) /\ store_ok E (swap_store E g h).
Proof.
  intros Hc Hgh.
  destruct (sets_stored E "p" (swap_rels g h) (after E (QCreatePolicy 1%N (Some (DPolicy swap_policy)) "") empty_store) (mkPRec swap_policy "" 1%N)) as [H1 H2].
  - apply after_ok, empty_ok.
  - reflexivity.
  - intros r Hr. destruct Hgh as [[-> ->] | [-> ->]]; repeat (destruct Hr as [<- | Hr]; [reflexivity |]); destruct Hr.
  - intros r r' [Hr | Hr] [Hr' | Hr'] Hk; try (cbn in Hr; contradiction); try (cbn in Hr'; contradiction).
    assert (Hk1 : object_text r = object_text r').
    { destruct Hgh as [[-> ->] | [-> ->]]; repeat (destruct Hr as [<- | Hr]; [repeat (destruct Hr' as [<- | Hr']; [
        apply (f_equal fst), Hc in Hk; first [discriminate Hk | reflexivity] |]); destruct Hr' |]); destruct Hr. }
    destruct Hgh as [[-> ->] | [-> ->]]; repeat (destruct Hr as [<- | Hr]; [repeat (destruct Hr' as [<- | Hr']; [
        first [reflexivity | discriminate Hk1 | apply (f_equal snd), Hc in Hk; discriminate Hk] |]); destruct Hr' |]); destruct Hr.
  - split; [| split; [exact H2 | apply after_all_ok, empty_ok]]. intros r. change (swap_store E g h) with (after_all E (map (set "p") (swap_rels g h)) (after E (QCreatePolicy 1%N (Some (DPolicy swap_policy)) "") empty_store)).
    rewrite H1. cbn. tauto.
Qed.

Definition gm (x : string) : rnode := NSet (Some (ent "group" x)) "member".
Definition bob : rnode := NEntity (Some (ent "user" "bob")).

Definition holds (E : env) (s : store) (g h : string) : Prop :=
  store_ok E s /\ forall r, In r (relationships s "p") <-> In r (swap_rels g h).

Lemma swap_successors E s g h o rel : collision_free E -> holds E s g h -> exists ns,
  get_successors E (edges_of "p" s) (Some o) rel = Ok ns /\ NoDup ns /\
  forall x, In x ns <-> exists r u, In r (swap_rels g h) /\ r_subject r = Some u /\ object_text r = e_res o +++ e_id o +++ rel /\ x = subject_node u.
Proof.
  intros Hc (Hok & Hin). destruct (stored_edges E s "p" Hok o rel) as (ns & Hns & Hx).
  exists ns. split; [exact Hns |]. split; [eapply successors_nodup; eauto |]. intros x. rewrite Hx. split.
  - intros (u & (r & Hr & Hu & Hk) & ->). apply Hin in Hr. apply Hc in Hk. eauto 6.
  - intros (r & u & Hr & Hu & Hk & ->). exists u. split; [| reflexivity]. exists r. rewrite Hk. split; [apply Hin, Hr | auto].
Qed.

Ltac pick := repeat match goal with
  | H : In _ (swap_rels _ _) |- _ => unfold swap_rels in H
  | H : In _ (_ :: _) |- _ => destruct H as [<- | H]
  | H : In _ [] |- _ => destruct H
  end.

Lemma swap_edges E s g h : collision_free E -> group_pair g h -> holds E s g h ->
  let es := edges_of "p" s in
  get_successors E es (Some (ent "group" g)) "member" = Ok [bob] /\
  get_successors E es (Some (ent "group" h)) "member" = Ok [NWild "user"] /\
  get_successors E es (Some (ent "file" "1")) "all" = Ok [bob] /\
  (get_successors E es (Some (ent "file" "1")) "direct" = Ok [gm "g"; gm "h"] \/
   get_successors E es (Some (ent "file" "1")) "direct" = Ok [gm "h"; gm "g"]).
Proof.
  intros Hc Hgh Hs es. subst es. split; [| split; [| split]].
  - destruct (swap_successors E s g h (ent "group" g) "member" Hc Hs) as (ns & -> & Hd & H). f_equal. apply one_element; [exact Hd |].
    intros x. rewrite H. split.
    + intros (r & u & Hr & Hu & Hk & ->). destruct Hgh as [[-> ->] | [-> ->]]; pick; try discriminate Hk; injection Hu as <-; reflexivity.
    + intros ->. exists (tup "group" g "member" (user "bob")), (user "bob"). cbn. auto 10.
  - destruct (swap_successors E s g h (ent "group" h) "member" Hc Hs) as (ns & -> & Hd & H). f_equal. apply one_element; [exact Hd |].
    intros x. rewrite H. split.
    + intros (r & u & Hr & Hu & Hk & ->). destruct Hgh as [[-> ->] | [-> ->]]; pick; try discriminate Hk; injection Hu as <-; reflexivity.
    + intros ->. exists (tup "group" h "member" (SResourceSet "user")), (SResourceSet "user"). cbn. auto 10.
  - destruct (swap_successors E s g h (ent "file" "1") "all" Hc Hs) as (ns & -> & Hd & H). f_equal. apply one_element; [exact Hd |].
    intros x. rewrite H. split.
    + intros (r & u & Hr & Hu & Hk & ->). destruct Hgh as [[-> ->] | [-> ->]]; pick; try discriminate Hk; injection Hu as <-; reflexivity.
    + intros ->. exists (tup "file" "1" "all" (user "bob")), (user "bob"). cbn. auto 10.
  - destruct (swap_successors E s g h (ent "file" "1") "direct" Hc Hs) as (ns & -> & Hd & H).
    destruct (two_elements ns (gm "g") (gm "h")) as [-> | ->]; [discriminate | exact Hd | | auto | auto]. intros x. rewrite H. split.
    + intros (r & u & Hr & Hu & Hk & ->). destruct Hgh as [[-> ->] | [-> ->]]; pick; try discriminate Hk; injection Hu as <-; auto.
    + intros [-> | ->]; [exists (tup "file" "1" "direct" (members "g")), (members "g") | exists (tup "file" "1" "direct" (members "h")), (members "h")]; cbn; auto 10.
Qed.

(** The first group searched decides whether bob is seen before the right operand. *)
Lemma swap_search E es g h first second : collision_free E -> group_pair g h -> group_pair first second ->
  get_successors E es (Some (ent "group" g)) "member" = Ok [bob] ->
  get_successors E es (Some (ent "group" h)) "member" = Ok [NWild "user"] ->
  get_successors E es (Some (ent "file" "1")) "all" = Ok [bob] ->
  get_successors E es (Some (ent "file" "1")) "direct" = Ok [gm first; gm second] ->
  (let* t := search E swap_policy es 20 (NSet (Some (ent "file" "1")) "both") (GoalEntity (Some (ent "user" "bob"))) in
   Ok (ADecision (is_success (get_result t)))) = Ok (ADecision (negb (String.eqb first g))).
Proof.
  intros Hc Hgh Hfs H1 H2 H3 H4.
  assert (Hn : forall x y, x <> y -> String.eqb (sha E x) (sha E y) = false).
  { intros x y Hxy. apply String.eqb_neq. intros H. apply Hc in H. contradiction. }
  unfold gm, bob, ent in *. destruct Hgh as [[-> ->] | [-> ->]], Hfs as [[-> ->] | [-> ->]]; unfold search;
  repeat (cbn -[get_successors search_path]; try unfold build_goal_for_rule; try unfold evaluate;
    match goal with
    | |- context [String.eqb (sha E ?x) (sha E ?y)] =>
        first [rewrite (String.eqb_refl (sha E x)) | rewrite (Hn x y) by discriminate]
    | |- context [get_successors] => first [rewrite H1 | rewrite H2 | rewrite H3 | rewrite H4]
    | |- context [search_path _ _ _ _ _ _ _ _] => rewrite search_path_S
    end); reflexivity.
Qed.

(** The same two groups in both stores, in the same order. *)
Lemma swap_filter E s s' g h g' h' : collision_free E -> group_pair g h -> holds E s g h -> holds E s' g' h' -> forall k e,
  In (k, e) (filter (fun x => String.eqb (fst (fst x)) (sha E "file1direct")) (edges_of "p" s)) ->
  In (k, e) (filter (fun x => String.eqb (fst (fst x)) (sha E "file1direct")) (edges_of "p" s')).
Proof.
  intros Hc Hgh (Hok & Hi) (Hok' & Hi') k e Hin.
  apply filter_In in Hin as [Hin Hk]. apply filter_In. split; [| exact Hk]. cbn [fst] in Hk. apply String.eqb_eq in Hk.
  destruct (edges_of_edge E _ _ _ _ Hok Hin) as [Him ->]. apply (edges_of_in E) in Hin; [| exact Hok]. apply (edges_of_in E); [exact Hok' |].
  assert (Hr : In (from_internal e) (swap_rels g h)).
  { apply Hi, (relationships_in E); [exact Hok |]. exists e. split; [apply to_from_internal, Him | exact Hin]. }
  assert (Hr' : In (from_internal e) (swap_rels g' h')).
  { remember (from_internal e) as r eqn:Hre. pose proof (to_from_internal e Him) as He. rewrite <- Hre in He. clear Hre.
    destruct Hgh as [[-> ->] | [-> ->]]; pick; cbn in He; injection He as <-; apply Hc in Hk; try discriminate Hk; cbn; auto. }
  apply Hi', (relationships_in E) in Hr' as (e' & He' & Hg); [| exact Hok'].
  rewrite (to_from_internal e Him) in He'. injection He' as <-. exact Hg.
Qed.

Lemma swap_order E s s' : collision_free E -> holds E s "g" "h" -> holds E s' "h" "g" ->
  get_successors E (edges_of "p" s) (Some (ent "file" "1")) "direct" =
  get_successors E (edges_of "p" s') (Some (ent "file" "1")) "direct".
Proof.
  intros Hc C D. assert (A : group_pair "g" "h") by (left; auto). assert (B : group_pair "h" "g") by (right; auto).
  pose proof (proj1 C) as Hok. pose proof (proj1 D) as Hok'. unfold get_successors. cbn [from_public_node bind]. do 2 f_equal. unfold node_key. cbn [i_res i_id i_rel ent e_res e_id].
  change ("file" +++ "1" +++ "direct") with "file1direct".
  pose proof (filter_sorted pcmp (fun x : (string * string) * edge => String.eqb (fst (fst x)) (sha E "file1direct")) _ (edges_of_sorted _ "p" (so_edges _ _ Hok))) as S1.
  pose proof (filter_sorted pcmp (fun x : (string * string) * edge => String.eqb (fst (fst x)) (sha E "file1direct")) _ (edges_of_sorted _ "p" (so_edges _ _ Hok'))) as S2.
  apply (sorted_ext pcmp pcmp_ok); [exact S1 | exact S2 |]. intros k.
  match goal with |- kv_get _ _ ?x = kv_get _ _ ?y => destruct (kv_get pcmp k x) as [e |] eqn:Q1; destruct (kv_get pcmp k y) as [e' |] eqn:Q2 end.
  - apply (get_iff pcmp pcmp_ok _ _ _ S1) in Q1. apply (swap_filter E s s' "g" "h" "h" "g" Hc A C D) in Q1. apply (get_iff pcmp pcmp_ok _ _ _ S2) in Q1. congruence.
  - apply (get_iff pcmp pcmp_ok _ _ _ S1) in Q1. apply (swap_filter E s s' "g" "h" "h" "g" Hc A C D) in Q1. apply (get_iff pcmp pcmp_ok _ _ _ S2) in Q1. congruence.
  - apply (get_iff pcmp pcmp_ok _ _ _ S2) in Q2. apply (swap_filter E s' s "h" "g" "g" "h" Hc B D C) in Q2. apply (get_iff pcmp pcmp_ok _ _ _ S1) in Q2. congruence.
  - reflexivity.
Qed.

(** Exchanging the names of the two groups, everywhere. *)
Definition exchange (rs id : string) : string :=
  if String.eqb rs "group" then if String.eqb id "g" then "h" else if String.eqb id "h" then "g" else id else id.

Lemma exchange_one : one_to_one exchange.
Proof.
  intros r i j. unfold exchange. destruct (String.eqb r "group"); [| auto].
  destruct (String.eqb_spec i "g"), (String.eqb_spec j "g"), (String.eqb_spec i "h"), (String.eqb_spec j "h"); congruence.
Qed.

(** Without hash collisions, whatever the hash is: exchanging the names of two groups changes the decision. *)
Theorem C84_intersection_refuted : forall E, collision_free E -> exists f s s' rec n o rel a b, one_to_one f /\ sequential E s /\ sequential E s' /\
  answer E (QGetPolicy "p") s = Ok (APolicy (Some rec)) /\ answer E (QGetPolicy "p") s' = Ok (APolicy (Some rec)) /\
  renamed f (relationships s "p") (relationships s' "p") /\ rename_entity f o = o /\ rename_entity f a = a /\
  answer E (QCheck n "p" (asks o rel a)) s = Ok (ADecision b) /\
  answer E (QCheck n "p" (asks o rel a)) s' = Ok (ADecision (negb b)).
Proof.
  intros E Hc. assert (A : group_pair "g" "h") by (left; auto). assert (B : group_pair "h" "g") by (right; auto).
  destruct (swap_stored E "g" "h" Hc A) as (Hi & Hp & Hok). destruct (swap_stored E "h" "g" Hc B) as (Hi' & Hp' & Hok').
  pose proof (conj Hok Hi : holds E (swap_store E "g" "h") "g" "h") as C. pose proof (conj Hok' Hi' : holds E (swap_store E "h" "g") "h" "g") as D.
  assert (Q1 : sequential E (swap_store E "g" "h")) by (eexists; reflexivity). assert (Q2 : sequential E (swap_store E "h" "g")) by (eexists; reflexivity).
  generalize dependent (swap_store E "g" "h"). generalize dependent (swap_store E "h" "g"). intros s' Hi' Hp' Hok' D Q2 s Hi Hp Hok C Q1.
  destruct (swap_edges E s "g" "h" Hc A C) as (S1 & S2 & S3 & S4). destruct (swap_edges E s' "h" "g" Hc B D) as (T1 & T2 & T3 & _). cbn zeta in *.
  pose proof (swap_order E s s' Hc C D) as Hord.
  assert (exists x y, group_pair x y /\ get_successors E (edges_of "p" s) (Some (ent "file" "1")) "direct" = Ok [gm x; gm y]) as (x & y & Hxy & Hg).
  { destruct S4 as [S4 | S4]; eauto. }
  exists exchange, s, s', (mkPRec swap_policy "" 1%N), 20, (ent "file" "1"), "both", (ent "user" "bob"), (negb (String.eqb x "g")).
  split; [exact exchange_one |]. split; [exact Q1 |]. split; [exact Q2 |].
  split; [rewrite answer_get_policy, Hp; reflexivity |]. split; [rewrite answer_get_policy, Hp'; reflexivity |].
  split; [| split; [reflexivity |]; split; [reflexivity |]; split].
  - intros r'. rewrite Hi'. split.
    + intros Hr. assert (exists r, In r (swap_rels "g" "h") /\ r' = rename exchange r) as (r & Hr0 & ->).
      { cbn in Hr. destruct Hr as [<- | [<- | [<- | [<- | [<- | []]]]]];
          [exists (tup "file" "1" "direct" (members "h")) | exists (tup "file" "1" "direct" (members "g")) | exists (tup "group" "g" "member" (user "bob"))
          | exists (tup "group" "h" "member" (SResourceSet "user")) | exists (tup "file" "1" "all" (user "bob"))]; (split; [cbn; auto 10 | reflexivity]). }
      exists r. split; [apply Hi, Hr0 | reflexivity].
    + intros (r & Hr & ->). apply Hi in Hr. cbn in Hr. destruct Hr as [<- | [<- | [<- | [<- | [<- | []]]]]]; cbn; auto 10.
  - unfold asks. rewrite answer_check. unfold check_tree. rewrite Hp. cbn [pr_policy].
    apply (swap_search E _ "g" "h" x y); assumption.
  - unfold asks. rewrite answer_check. unfold check_tree. rewrite Hp'. cbn [pr_policy]. rewrite Hord in Hg.
    rewrite (swap_search E _ "h" "g" x y Hc B Hxy T1 T2 T3 Hg). destruct Hxy as [[-> ->] | [-> ->]]; reflexivity.
Qed.

(** With unions only: a user who gets the empty id hides all users (C26). *)
Definition named_store (E : env) (x : string) : store := after_all E (hidden_before ++ [set "p" (tup "file" "1" "owner" (user x))]) empty_store.

Definition vanish (rs id : string) : string :=
  if String.eqb rs "user" then if String.eqb id "carol" then "" else if String.eqb id "" then "carol" else id else id.

Lemma vanish_one : one_to_one vanish.
Proof.
  intros r i j. unfold vanish. destruct (String.eqb r "user"); [| auto].
  destruct (String.eqb_spec i "carol"), (String.eqb_spec j "carol"), (String.eqb_spec i ""), (String.eqb_spec j ""); congruence.
Qed.

Lemma named_check E : collision_free E ->
  answer E (asked (ent "file" "1") "reader" (ent "user" "alice")) (named_store E "carol") = Ok (ADecision true).
Proof.
  intros Hc. assert (Hn : forall x y, x <> y -> String.eqb (sha E x) (sha E y) = false).
  { intros x y Hxy. apply String.eqb_neq. intros H. apply Hc in H. contradiction. }
  unfold asked, asks. rewrite answer_check. unfold check_tree.
  assert (policies (named_store E "carol") "p" = Some (mkPRec hidden_policy "" 1%N)) as -> by reflexivity.
  cbn. by_order Hc; settle Hn E; reflexivity.
Qed.

Lemma named_stored E x r : collision_free E -> (In r (relationships (named_store E x) "p") <->
  r = tup "file" "1" "reader" (SResourceSet "user") \/ r = tup "file" "1" "owner" (user x)).
Proof.
  intros Hc. unfold named_store, relationships, edges_of. cbn. by_order Hc; cbn; intuition (subst; auto).
Qed.

Theorem C84_unions_refuted : forall E, collision_free E -> exists f s s' rec n o rel a, one_to_one f /\ sequential E s /\ sequential E s' /\
  answer E (QGetPolicy "p") s = Ok (APolicy (Some rec)) /\ answer E (QGetPolicy "p") s' = Ok (APolicy (Some rec)) /\ union_only E (pr_policy rec) /\
  renamed f (relationships s "p") (relationships s' "p") /\ rename_entity f o = o /\ rename_entity f a = a /\
  answer E (QCheck n "p" (asks o rel a)) s = Ok (ADecision true) /\
  answer E (QCheck n "p" (asks o rel a)) s' = Ok (ADecision false).
Proof.
  intros E Hc. exists vanish, (named_store E "carol"), (named_store E ""), (mkPRec hidden_policy "" 1%N), 20, (ent "file" "1"), "reader", (ent "user" "alice").
  split; [exact vanish_one |]. split; [eexists; reflexivity |]. split; [eexists; reflexivity |]. split; [reflexivity |]. split; [reflexivity |].
  split; [apply hidden_union |]. split; [| split; [reflexivity |]; split; [reflexivity |]; split; [apply named_check, Hc | apply hidden_check, Hc]].
  intros r'. rewrite named_stored by exact Hc. split.
  - intros [-> | ->]; [exists (tup "file" "1" "reader" (SResourceSet "user")) | exists (tup "file" "1" "owner" (user "carol"))];
      (split; [apply named_stored; auto | reflexivity]).
  - intros (r & Hr & ->). apply named_stored in Hr as [-> | ->]; [.. | exact Hc]; [left | right]; reflexivity.
Qed.

(** Files and groups with other ids: nested groups, folders and all. *)
Example C84_case :
  let f := fun rs id => (rs +++ id +++ "!")%string in
  let rels := [tup "group" "a" "member" (members "b"); tup "group" "b" "member" (user "bob"); tup "folder" "d" "viewer" (members "a");
               tup "file" "1" "parent" (SEntity (ent "folder" "d"))] in
  let s := after_all E0 (create "p" :: map (set "p") rels) empty_store in
  let s' := after_all E0 (create "p" :: map (set "p") (map (rename f) rels)) empty_store in
  one_to_one f /\ relationships s' "p" <> relationships s "p" /\
  answer E0 (asked (ent "file" "1") "reader" (ent "user" "bob")) s = Ok (ADecision true) /\
  answer E0 (asked (rename_entity f (ent "file" "1")) "reader" (rename_entity f (ent "user" "bob"))) s' = Ok (ADecision true) /\
  answer E0 (asked (rename_entity f (ent "file" "1")) "reader" (ent "user" "bob")) s' = Ok (ADecision false).
Proof.
  cbn zeta. split.
  - intros r i j H. apply append_inj in H. apply append_same_length in H as [H _]; [exact H | reflexivity].
  - split; [| split; [| split]]; vm_compute; (reflexivity || discriminate).
Qed.

Print Assumptions C84_unions_partial.
Print Assumptions C84_single_ways_partial.
Print Assumptions C84_intersection_refuted.
Print Assumptions C84_unions_refuted.
