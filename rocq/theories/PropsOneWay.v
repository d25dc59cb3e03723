(** Properties of checks while relationships are only added, or only removed: C104. *)
From Verif Require Import Base Domain Lexer Parser Validate Store Search Explain Yaml Service Dump Api
  SpecGrammar SpecPolicy SpecStore SpecSearch SpecConc SpecTouch SpecApart SpecOneWay Fixtures BaseFacts ParserFacts ValidateFacts StoreFacts PolicyFacts RelFacts
  SearchFacts SearchSem SearchTerm ReadFacts GraphFacts NameFacts ConcFacts ConcSearch TouchFacts ApartFacts OneWayFacts PropsSearch PropsExplain PropsConcSearch.

Section OneWay.
  Variable E : env.
  Variable s : store.
  Hypothesis H : reachable E s.
  Variable qs : list request.
  Variable sched : list nat.
  Variable pid : string.
  Variable rec : policy_record.
  Hypothesis Hun : union_only E (pr_policy rec).
  Hypothesis Hpol : forall k, answer E (QGetPolicy pid) (moment E qs s sched k) = Ok (APolicy (Some rec)).

  Let keyed k := key_subject E (relationships (moment E qs s sched k) pid).

  Lemma no_diff : ~ policy_uses E (pr_policy rec) OpDiff.
  Proof. intros Hd. specialize (Hun _ Hd). discriminate. Qed.

  (** An authorisation holds at a moment that has all that its steps could read. *)
  Lemma granted_then i n o rel a k1 : nth_error qs i = Some (QCheck n pid (asks o rel a)) ->
    answered (interleave sched (start E qs s)) i = Some (Ok (ADecision true)) ->
    (forall k r, acts E qs s sched i k -> In r (relationships (moment E qs s sched k) pid) -> In r (relationships (moment E qs s sched k1) pid)) ->
    member E (pr_policy rec) (keyed k1) a o rel.
  Proof.
    intros Hq Ha Hin. destruct (C50_justified E s qs sched i n pid o rel a H Hq Ha) as (k & rec' & Hk & Hp & Hm).
    rewrite Hpol in Hp. injection Hp as <-. apply (member_mono E (pr_policy rec) (sometimes E qs s sched i pid)); [exact no_diff | | exact (Hm no_diff)].
    intros o' rel' u (j & Hj & r & Hr & Hu & Hs). exists r. split; [exact (Hin j r Hj Hr) | auto].
  Qed.

  (** Whatever holds at a moment whose relationships are there at all of its steps is authorised. *)
  Lemma held_then i n o rel a b k0 k1 : nth_error qs i = Some (QCheck n pid (asks o rel a)) ->
    answered (interleave sched (start E qs s)) i = Some (Ok (ADecision b)) ->
    (forall k r, acts E qs s sched i k -> In r (relationships (moment E qs s sched k0) pid) -> In r (relationships (moment E qs s sched k) pid)) ->
    (forall k r, acts E qs s sched i k -> In r (relationships (moment E qs s sched k) pid) -> In r (relationships (moment E qs s sched k1) pid)) ->
    distinct_ids E (pr_policy rec) (keyed k1) (NSet (Some o) rel) ->
    member E (pr_policy rec) (keyed k0) a o rel -> b = true.
  Proof.
    intros Hq Ha H0 H1 Hd Hm. apply (C51_complete E s qs sched i n pid o rel a b H Hq Ha). intros k Hk. exists rec.
    split; [apply Hpol |]. split; [exact Hun |]. split.
    - intros x y Hx Hy. apply Hd; (eapply reach_mono; [| eassumption]); intros o' rel' u (j & Hj & r & Hr & Hu & Hs); exists r; (split; [exact (H1 j r Hj Hr) | auto]).
    - apply (member_mono E (pr_policy rec) (keyed k0)); [exact no_diff | | exact Hm].
      intros o' rel' u (r & Hr & Hu & Hs) j Hj. exists r. split; [exact (H0 j r Hj Hr) | auto].
  Qed.

  (** Some step is taken by every request that is answered with a decision. *)
  Lemma some_step i n o rel a b : nth_error qs i = Some (QCheck n pid (asks o rel a)) ->
    answered (interleave sched (start E qs s)) i = Some (Ok (ADecision b)) -> exists k, acts E qs s sched i k.
  Proof.
    intros Hq Ha. pose proof (request_outcome E qs s sched i _ _ Hq Ha) as Ho.
    destruct (check_path E qs s sched i n pid o rel a _ Ho) as (k & _ & _ & _ & _ & Hk & _). eauto.
  Qed.
End OneWay.

(** ** C104 While relationships are only added, or only removed, checks answer as at one moment *)

Lemma moment_decides E s qs sched i pid rec o rel a b k : reachable E s -> union_only E (pr_policy rec) ->
  answer E (QGetPolicy pid) (moment E qs s sched k) = Ok (APolicy (Some rec)) -> acts E qs s sched i k ->
  distinct_ids E (pr_policy rec) (key_subject E (relationships (moment E qs s sched k) pid)) (NSet (Some o) rel) ->
  (b = true <-> member E (pr_policy rec) (key_subject E (relationships (moment E qs s sched k) pid)) a o rel) ->
  as_at_one_moment E qs s sched i pid (pr_policy rec) o rel a b.
Proof.
  intros H Hu Hp Hk Hd Hb. exists k. split; [exact Hk |]. split; [exact Hb |]. intros n b' Ha.
  assert (Hr : reachable E (moment E qs s sched k)) by (apply re_serve; exact H).
  pose proof (C26_decides_by_key E _ pid rec n o rel a b' Hr Hp Hu Hd Ha) as Hb'.
  destruct b, b'; try reflexivity.
  - destruct Hb as [Hb _], Hb' as [_ Hb']. apply Hb', Hb. reflexivity.
  - destruct Hb as [_ Hb], Hb' as [Hb' _]. symmetry. apply Hb, Hb'. reflexivity.
Qed.

Theorem C104_growing : forall E s qs sched i n pid rec o rel a b, reachable E s ->
  nth_error qs i = Some (QCheck n pid (asks o rel a)) ->
  (forall k, answer E (QGetPolicy pid) (moment E qs s sched k) = Ok (APolicy (Some rec))) -> union_only E (pr_policy rec) ->
  growing E qs s sched pid ->
  (forall k, distinct_ids E (pr_policy rec) (key_subject E (relationships (moment E qs s sched k) pid)) (NSet (Some o) rel)) ->
  answered (interleave sched (start E qs s)) i = Some (Ok (ADecision b)) ->
  as_at_one_moment E qs s sched i pid (pr_policy rec) o rel a b.
Proof.
  intros E s qs sched i n pid rec o rel a b H Hq Hp Hu Hg Hd Ha. destruct (some_step E s qs sched pid i n o rel a b Hq Ha) as [k Hk].
  destruct (first_step _ _ _ _ _ _ Hk) as (k0 & Hk0 & Hfirst), (last_step _ _ _ _ _ _ Hk) as (k1 & Hk1 & Hlast).
  assert (Hup : forall k r, acts E qs s sched i k -> In r (relationships (moment E qs s sched k0) pid) -> In r (relationships (moment E qs s sched k) pid))
    by (intros j r Hj; apply Hg, Hfirst, Hj).
  assert (Hdown : forall k r, acts E qs s sched i k -> In r (relationships (moment E qs s sched k) pid) -> In r (relationships (moment E qs s sched k1) pid))
    by (intros j r Hj; apply Hg, Hlast, Hj).
  destruct b.
  - apply (moment_decides E s qs sched i pid rec o rel a true k1); auto. split; [intros _ | auto].
    eapply granted_then; eauto.
  - apply (moment_decides E s qs sched i pid rec o rel a false k0); auto. split; [discriminate |].
    intros Hm. eapply held_then; eauto.
Qed.

Theorem C104_shrinking : forall E s qs sched i n pid rec o rel a b, reachable E s ->
  nth_error qs i = Some (QCheck n pid (asks o rel a)) ->
  (forall k, answer E (QGetPolicy pid) (moment E qs s sched k) = Ok (APolicy (Some rec))) -> union_only E (pr_policy rec) ->
  shrinking E qs s sched pid ->
  (forall k, distinct_ids E (pr_policy rec) (key_subject E (relationships (moment E qs s sched k) pid)) (NSet (Some o) rel)) ->
  answered (interleave sched (start E qs s)) i = Some (Ok (ADecision b)) ->
  as_at_one_moment E qs s sched i pid (pr_policy rec) o rel a b.
Proof.
  intros E s qs sched i n pid rec o rel a b H Hq Hp Hu Hg Hd Ha. destruct (some_step E s qs sched pid i n o rel a b Hq Ha) as [k Hk].
  destruct (first_step _ _ _ _ _ _ Hk) as (k0 & Hk0 & Hfirst), (last_step _ _ _ _ _ _ Hk) as (k1 & Hk1 & Hlast).
  assert (Hup : forall k r, acts E qs s sched i k -> In r (relationships (moment E qs s sched k1) pid) -> In r (relationships (moment E qs s sched k) pid))
    by (intros j r Hj; apply Hg, Hlast, Hj).
  assert (Hdown : forall k r, acts E qs s sched i k -> In r (relationships (moment E qs s sched k) pid) -> In r (relationships (moment E qs s sched k0) pid))
    by (intros j r Hj; apply Hg, Hfirst, Hj).
  destruct b.
  - apply (moment_decides E s qs sched i pid rec o rel a true k0); auto. split; [intros _ | auto].
    eapply granted_then; eauto.
  - apply (moment_decides E s qs sched i pid rec o rel a false k1); auto. split; [discriminate |].
    intros Hm. eapply held_then; eauto.
Qed.

(** ** As conditions on the other requests *)

Lemma policy_kept E s qs sched pid rec : reachable E s -> answer E (QGetPolicy pid) s = Ok (APolicy (Some rec)) ->
  (forall q, In q qs -> ~ writes_at E q (AtPolicy pid)) ->
  forall k, answer E (QGetPolicy pid) (moment E qs s sched k) = Ok (APolicy (Some rec)).
Proof.
  intros H Hp Hw k. apply known_policy. apply known_policy in Hp. pose proof (reachable_ok _ _ H) as Hok. unfold policies in *. rewrite <- Hp. symmetry.
  apply (unwritten E qs (fun x => x <> AtPolicy pid)) with (x := AtPolicy pid); [| congruence | eapply ok_sorted; exact Hok].
  intros q x Hq Hx ->. apply (Hw q Hq). destruct q as [| | | | | | | | | ? [|] | | | |]; exact Hx.
Qed.

(** Nobody deletes relationships of the policy, and no two relationships that are stored or set share a key. *)
Theorem C104_adding : forall E s qs sched i n pid rec rels o rel a b, reachable E s ->
  nth_error qs i = Some (QCheck n pid (asks o rel a)) ->
  answer E (QGetPolicy pid) s = Ok (APolicy (Some rec)) -> union_only E (pr_policy rec) ->
  (forall q, In q qs -> ~ writes_at E q (AtPolicy pid) /\ ~ may_remove q pid) ->
  (forall r, In r (relationships s pid) -> In r rels) -> (forall q r, In q qs -> may_add q pid r -> In r rels) ->
  own_keys E (fun r => In r rels) -> distinct_ids E (pr_policy rec) (key_subject E rels) (NSet (Some o) rel) ->
  answered (interleave sched (start E qs s)) i = Some (Ok (ADecision b)) ->
  as_at_one_moment E qs s sched i pid (pr_policy rec) o rel a b.
Proof.
  intros E s qs sched i n pid rec rels o rel a b H Hq Hp Hu Hw H0 H1 Hown Hd Ha.
  assert (Hall : forall r, In r (relationships s pid) \/ (exists q, In q qs /\ may_add q pid r) -> In r rels) by (intros r [Hr | (q & Hr & Hr')]; eauto).
  apply (C104_growing E s qs sched i n); auto.
  - apply policy_kept; auto. intros q Hin. apply Hw, Hin.
  - apply grows; [apply reachable_ok, H | intros q Hin; apply Hw, Hin |]. intros r r' k Hr Hr'. apply Hown; apply Hall; assumption.
  - intros k x y Hx Hy. apply Hd; (eapply reach_mono; [| eassumption]); intros o' rel' u (r & Hr & Hu' & Hk); exists r;
      (split; [apply Hall, (stored_or_added E qs s (reachable_ok _ _ H) sched pid k r Hr) | auto]).
Qed.

(** Nobody sets relationships of the policy. *)
Theorem C104_removing : forall E s qs sched i n pid rec o rel a b, reachable E s ->
  nth_error qs i = Some (QCheck n pid (asks o rel a)) ->
  answer E (QGetPolicy pid) s = Ok (APolicy (Some rec)) -> union_only E (pr_policy rec) ->
  (forall q, In q qs -> ~ writes_at E q (AtPolicy pid) /\ forall r, ~ may_add q pid r) ->
  distinct_ids E (pr_policy rec) (key_subject E (relationships s pid)) (NSet (Some o) rel) ->
  answered (interleave sched (start E qs s)) i = Some (Ok (ADecision b)) ->
  as_at_one_moment E qs s sched i pid (pr_policy rec) o rel a b.
Proof.
  intros E s qs sched i n pid rec o rel a b H Hq Hp Hu Hw Hd Ha.
  assert (Hs : shrinking E qs s sched pid) by (apply shrinks; [apply reachable_ok, H | intros q r Hin; apply Hw, Hin]).
  apply (C104_shrinking E s qs sched i n); auto.
  - apply policy_kept; auto. intros q Hin. apply Hw, Hin.
  - intros k x y Hx Hy. apply Hd; (eapply reach_mono; [| eassumption]); intros o' rel' u (r & Hr & Hu' & Hk); exists r;
      (split; [apply (Hs 0 k r (Nat.le_0_l k)); exact Hr | auto]).
Qed.

(** ** Decisions do not flip back *)

(** While relationships are only added, what was authorised stays authorised: the steps of check [j] come after those of check [i]. *)
Theorem C104_stays_granted : forall E s qs sched i j n m pid rec o rel a b, reachable E s ->
  nth_error qs i = Some (QCheck n pid (asks o rel a)) -> nth_error qs j = Some (QCheck m pid (asks o rel a)) ->
  (forall k, answer E (QGetPolicy pid) (moment E qs s sched k) = Ok (APolicy (Some rec))) -> union_only E (pr_policy rec) ->
  growing E qs s sched pid ->
  (forall k, distinct_ids E (pr_policy rec) (key_subject E (relationships (moment E qs s sched k) pid)) (NSet (Some o) rel)) ->
  (forall k k', acts E qs s sched i k -> acts E qs s sched j k' -> k <= k') ->
  answered (interleave sched (start E qs s)) i = Some (Ok (ADecision true)) ->
  answered (interleave sched (start E qs s)) j = Some (Ok (ADecision b)) -> b = true.
Proof.
  intros E s qs sched i j n m pid rec o rel a b H Hi Hj Hp Hu Hg Hd Hij Ha Hb.
  destruct (some_step E s qs sched pid i n o rel a true Hi Ha) as [ki Hki]. destruct (last_step _ _ _ _ _ _ Hki) as (k0 & Hk0 & Hlast).
  destruct (some_step E s qs sched pid j m o rel a b Hj Hb) as [kj Hkj]. destruct (last_step _ _ _ _ _ _ Hkj) as (k1 & Hk1 & Hlast1).
  apply (held_then E s H qs sched pid rec Hu Hp j m o rel a b k0 k1); auto.
  - intros k r Hk. apply Hg, Hij; assumption.
  - intros k r Hk. apply Hg, Hlast1, Hk.
  - apply (granted_then E s H qs sched pid rec Hu Hp i n); auto. intros k r Hk. apply Hg, Hlast, Hk.
Qed.

(** While relationships are only removed, what was refused stays refused. *)
Theorem C104_stays_refused : forall E s qs sched i j n m pid rec o rel a b, reachable E s ->
  nth_error qs i = Some (QCheck n pid (asks o rel a)) -> nth_error qs j = Some (QCheck m pid (asks o rel a)) ->
  (forall k, answer E (QGetPolicy pid) (moment E qs s sched k) = Ok (APolicy (Some rec))) -> union_only E (pr_policy rec) ->
  shrinking E qs s sched pid ->
  (forall k, distinct_ids E (pr_policy rec) (key_subject E (relationships (moment E qs s sched k) pid)) (NSet (Some o) rel)) ->
  (forall k k', acts E qs s sched i k -> acts E qs s sched j k' -> k <= k') ->
  answered (interleave sched (start E qs s)) i = Some (Ok (ADecision false)) ->
  answered (interleave sched (start E qs s)) j = Some (Ok (ADecision b)) -> b = false.
Proof.
  intros E s qs sched i j n m pid rec o rel a b H Hi Hj Hp Hu Hg Hd Hij Ha Hb. destruct b; [| reflexivity]. exfalso.
  destruct (some_step E s qs sched pid i n o rel a false Hi Ha) as [ki Hki].
  destruct (first_step _ _ _ _ _ _ Hki) as (k0 & Hk0 & Hfirst), (last_step _ _ _ _ _ _ Hki) as (k1 & Hk1 & Hlast).
  assert (Hm : member E (pr_policy rec) (key_subject E (relationships (moment E qs s sched k1) pid)) a o rel).
  { apply (granted_then E s H qs sched pid rec Hu Hp j m); auto. intros k r Hk. apply Hg, Hij; assumption. }
  assert (Hf : false = true); [| discriminate Hf].
  apply (held_then E s H qs sched pid rec Hu Hp i n o rel a false k1 k0); auto.
  - intros k r Hk. apply Hg, Hlast, Hk.
  - intros k r Hk. apply Hg, Hfirst, Hk.
Qed.

(** ** Examples *)

(** The folder's viewers and a group's member are added while eve's access is checked. *)
Definition fewer : store :=
  after_all E0 [create "p"; set "p" (tup "group" "a" "member" (members "b")); set "p" (tup "group" "b" "member" (members "a"));
                set "p" (tup "file" "f" "reader" (members "a")); set "p" (tup "file" "f" "parent" (SEntity (ent "folder" "d")))] empty_store.
Definition adders : list request :=
  [QCheck 20 "p" (asks (ent "file" "f") "reader" (ent "user" "eve")); set "p" (tup "folder" "d" "viewer" (SResourceSet "user"));
   set "p" (tup "group" "b" "member" (user "bob")); QCheck 20 "p" (asks (ent "file" "f") "reader" (ent "user" "eve"))].
Definition adders_sched (n : nat) : list nat := repeat 0 n ++ repeat 1 9 ++ repeat 2 9 ++ repeat 0 20 ++ repeat 3 20.

Example C104_example_adding :
  answered (interleave (adders_sched 1) (start E0 adders fewer)) 0 = Some (Ok (ADecision true)) /\
  answered (interleave (adders_sched 19) (start E0 adders fewer)) 0 = Some (Ok (ADecision false)) /\
  answered (interleave (adders_sched 19) (start E0 adders fewer)) 3 = Some (Ok (ADecision true)) /\
  forall sched b, answered (interleave sched (start E0 adders fewer)) 0 = Some (Ok (ADecision b)) ->
    as_at_one_moment E0 adders fewer sched 0 "p" (pol "p") (ent "file" "f") "reader" (ent "user" "eve") b.
Proof.
  split; [vm_compute; reflexivity |]. split; [vm_compute; reflexivity |]. split; [vm_compute; reflexivity |]. intros sched b Ha.
  apply (C104_adding E0 fewer adders sched 0 20 "p" (mkPRec (pol "p") "app" 1%N) (relationships cyclic_store "p")).
  - apply sequential_reachable. eexists. reflexivity.
  - reflexivity.
  - vm_compute. reflexivity.
  - exact C26_example_union.
  - intros q [<- | [<- | [<- | [<- | []]]]]; cbn; intuition discriminate.
  - vm_compute. tauto.
  - intros q r [<- | [<- | [<- | [<- | []]]]]; cbn [may_add adders set]; try tauto; intros [_ <-]; vm_compute; tauto.
  - intros r r' k Hr Hr' (e & He & ->) (e' & He' & Hk). vm_compute in Hr, Hr'.
    repeat (destruct Hr as [<- | Hr]); try contradiction; repeat (destruct Hr' as [<- | Hr']); try contradiction; try reflexivity;
      exfalso; injection He as <-; injection He' as <-; vm_compute in Hk; discriminate Hk.
  - exact C26_example_distinct.
  - exact Ha.
Qed.

(** The same relationships are removed again. *)
Definition removers : list request :=
  [QCheck 20 "p" (asks (ent "file" "f") "reader" (ent "user" "eve"));
   QDeleteRelationship "p" (Some (tup "folder" "d" "viewer" (SResourceSet "user")));
   QDeleteRelationships "p" (Some (mkSel (Some OSWild) (Some (LSName "member")) (Some USWild)))].

Example C104_example_removing :
  answered (interleave (repeat 0 19 ++ repeat 1 9 ++ repeat 2 9) (start E0 removers cyclic_store)) 0 = Some (Ok (ADecision true)) /\
  answered (interleave (repeat 0 1 ++ repeat 1 9 ++ repeat 0 20) (start E0 removers cyclic_store)) 0 = Some (Ok (ADecision false)) /\
  forall sched b, answered (interleave sched (start E0 removers cyclic_store)) 0 = Some (Ok (ADecision b)) ->
    as_at_one_moment E0 removers cyclic_store sched 0 "p" (pol "p") (ent "file" "f") "reader" (ent "user" "eve") b.
Proof.
  split; [vm_compute; reflexivity |]. split; [vm_compute; reflexivity |]. intros sched b Ha.
  apply (C104_removing E0 cyclic_store removers sched 0 20 "p" (mkPRec (pol "p") "app" 1%N)).
  - apply sequential_reachable. eexists. reflexivity.
  - reflexivity.
  - vm_compute. reflexivity.
  - exact C26_example_union.
  - intros q [<- | [<- | [<- | []]]]; cbn; intuition discriminate.
  - exact C26_example_distinct.
  - exact Ha.
Qed.

Print Assumptions C104_growing.
Print Assumptions C104_shrinking.
Print Assumptions C104_adding.
Print Assumptions C104_removing.
Print Assumptions C104_stays_granted.
Print Assumptions C104_stays_refused.
