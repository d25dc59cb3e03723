(** Properties of policies that change while relationships are stored: C64. *)
From Verif Require Import Base Domain Lexer Parser Validate Store Search Explain Yaml Service Dump Api
  SpecGrammar SpecPolicy SpecStore SpecSearch SpecStale Fixtures BaseFacts ParserFacts ValidateFacts StoreFacts PolicyFacts RelFacts.

(** ** C64 Every stored relationship is one that its policy admits: false *)

(** UpdatePolicy replaces the policy whatever is stored, and leaves everything that the new policy does not admit. *)
Theorem C64_refuted : forall E s d p app old r, reachable E s -> defines d p -> well_formed E p ->
  answer E (QGetPolicy (p_id p)) s = Ok (APolicy (Some old)) -> In r (relationships s (p_id p)) -> ~ admissible p r ->
  let s' := after E (QUpdatePolicy d app) s in
  answer E (QUpdatePolicy d app) s = Ok AUpdated /\ In r (relationships s' (p_id p)) /\
  answer E (QGetPolicy (p_id p)) s' = Ok (APolicy (Some (mkPRec p app (pr_created old)))) /\
  (forall now app', failed (answer E (QSetRelationship now (p_id p) (Some r) app') s')).
Proof.
  intros E s d p app old r H Hd Hw Hp Hin Hn s'. rewrite answer_get_policy in Hp. injection Hp as Hp.
  destruct (update_cases E d app s) as [(p' & old' & Hd' & Ho & _ & Ha & Hs) | [(p' & Hd' & Ho & _) | (Hb & _)]].
  - assert (p' = p) as -> by (apply defines_ok in Hd, Hd'; congruence). rewrite Hp in Ho. injection Ho as <-.
    assert (Hg : answer E (QGetPolicy (p_id p)) s' = Ok (APolicy (Some (mkPRec p app (pr_created old))))).
    { rewrite answer_get_policy. unfold s'. rewrite Hs, policies_put. unfold put. cbn [pr_policy]. rewrite String.eqb_refl. reflexivity. }
    split; [exact Ha |]. split; [unfold s'; rewrite Hs; exact Hin |]. split; [exact Hg |].
    intros now app' a Hx. apply reachable_after with (q := QUpdatePolicy d app) in H as H'. apply reachable_ok in H'.
    destruct (proj1 (set_accepts E now (p_id p) r app' s' H') (ex_intro _ _ Hx)) as (rec & Hrec & Hadm).
    rewrite answer_get_policy in Hg. injection Hg as Hg. rewrite Hrec in Hg. injection Hg as ->. contradiction.
  - exfalso. assert (p' = p) as -> by (apply defines_ok in Hd, Hd'; congruence). congruence.
  - exfalso. apply (Hb p Hd). exact Hw.
Qed.

(** The policy of the fixtures, when groups may no longer be members of groups, and when there are no groups. *)
Definition narrow (id : string) : policy :=
  mkPolicy id "n" "d"
    [ rs "user" [];
      rs "group" [rl "member" (XTree (TRule RThis)) (SRSet [REntity "user"])];
      rs "file" [rl "owner" (XExpr "_this") (SRSet [REntity "user"])] ] [].
Definition update (p : policy) : request := QUpdatePolicy (Some (DPolicy p)) "app".
Definition nested : relationship := tup "group" "a" "member" (members "b").
Definition inner : relationship := tup "group" "b" "member" (user "bob").
Definition stored : list request := [create "p"; set "p" nested; set "p" inner].
Definition may_bob : request := QCheck 9 "p" (asks (ent "group" "a") "member" (ent "user" "bob")).

(** A restriction that is tightened does not end the access that rests on what it now forbids. *)
Theorem C64_access_refuted : exists s r, sequential E0 s /\ In r (relationships s "p") /\
  answer E0 (update (narrow "p")) s = Ok AUpdated /\ ~ admissible (narrow "p") r /\
  answer E0 may_bob (after E0 (update (narrow "p")) s) = Ok (ADecision true) /\
  answer E0 may_bob (after E0 (QDeleteRelationship "p" (Some r)) (after E0 (update (narrow "p")) s)) = Ok (ADecision false).
Proof.
  exists (after_all E0 stored empty_store), nested. split; [eexists; reflexivity |]. split; [vm_compute; auto |].
  split; [vm_compute; reflexivity |]. split; [| split; vm_compute; reflexivity].
  intros (o & u & l & Ho & Hu & (x & Hx & Hr & Hl) & Hn & _ & Hadm). injection Ho as <-. injection Hu as <-. cbn in Hr, Hn.
  destruct Hx as [<- | [<- | [<- | []]]]; try discriminate. destruct Hl as [<- | []]. destruct Hadm as [Hadm | []]. discriminate.
Qed.

(** Taking a relation out of the policy and putting it back restores the access, although nothing was granted since. *)
Definition bare (id : string) : policy := mkPolicy id "n" "d" [rs "user" []; rs "group" []] [].

Theorem C64_back_again_refuted : exists s, sequential E0 s /\
  answer E0 may_bob s = Ok (ADecision true) /\
  answer E0 may_bob (after_all E0 [update (bare "p")] s) <> Ok (ADecision true) /\
  answer E0 may_bob (after_all E0 [update (bare "p"); update (pol "p")] s) = Ok (ADecision true).
Proof.
  exists (after_all E0 stored empty_store). split; [eexists; reflexivity |]. split; [vm_compute; reflexivity |].
  split; [vm_compute; discriminate | vm_compute; reflexivity].
Qed.

(** It holds as long as every update widens the policy. *)
Definition fits (s : store) : Prop :=
  forall pid r rec, policies s pid = Some rec -> In r (relationships s pid) -> admissible (pr_policy rec) r.

Lemma after_fits E q s : store_ok E s -> owned s -> fits s ->
  (forall d app p old, q = QUpdatePolicy d app -> defines d p ->
     answer E (QGetPolicy (p_id p)) s = Ok (APolicy (Some old)) -> widens (pr_policy old) p) -> fits (after E q s).
Proof.
  intros H Ho Hf Hu. destruct q; try (rewrite after_read by exact I; exact Hf).
  - destruct (create_cases E now d app s) as
      [(p & Hd & Hn & Hw & Ha & Hs) | [(p & r & Hd & Hn & Ha & Hs) | (Hb & _ & Hs)]]; rewrite Hs; try exact Hf.
    intros pid r rec Hp Hin. change (In r (relationships s pid)) in Hin. rewrite policies_put in Hp. unfold put in Hp. cbn [pr_policy] in Hp.
    destruct (String.eqb_spec pid (p_id p)) as [-> |]; [exfalso; exact (Ho _ _ Hin Hn) | eapply Hf; eassumption].
  - destruct (update_cases E d app s) as
      [(p & old & Hd & Hn & Hw & Ha & Hs) | [(p & Hd & Hn & Ha & Hs) | (Hb & _ & Hs)]]; rewrite Hs; try exact Hf.
    intros pid r rec Hp Hin. change (In r (relationships s pid)) in Hin. rewrite policies_put in Hp. unfold put in Hp. cbn [pr_policy] in Hp.
    destruct (String.eqb_spec pid (p_id p)) as [-> |]; [| eapply Hf; eassumption].
    injection Hp as <-. cbn [pr_policy]. apply (Hu d app p old eq_refl Hd); [rewrite answer_get_policy, Hn; reflexivity |].
    eapply Hf; eassumption.
  - serve_eq. rewrite run_delete_policy. destruct (kv_get scmp id (st_pol s)); [| exact Hf]. cbn [snd].
    intros pid r rec Hp Hin. apply (relationships_drop_keys E) in Hin as [Hin Hn]; [| apply drop_policy_ok; exact H].
    change (In r (relationships s pid)) in Hin.
    unfold policies in Hp. rewrite drop_keys_pol in Hp. fold (policies (drop_policy id s) pid) in Hp. rewrite policies_drop in Hp. unfold put in Hp.
    destruct (String.eqb pid id); [discriminate | eapply Hf; eassumption].
  - destruct r as [r |].
    + destruct (answer E (QSetRelationship now pid (Some r) app) s) as [a | | |] eqn:Ha.
      * assert (exists b, a = ASet b) as [b ->].
        { revert Ha. serve_eq. destruct (fst (run (set_relationship E now pid (Some r) app) s)); cbn; try discriminate.
          intros [= <-]. eauto. }
        destruct (set_effect _ _ _ _ _ _ _ H Ha) as (rec & e & Hrec & Hadm & He & _ & ->).
        intros pid' x rec' Hp Hin. change (policies s pid' = Some rec') in Hp. apply (relationships_put E) in Hin; [| exact H | exists r; exact He].
        destruct Hin as [[-> ->] | [Hin _]]; [| eapply Hf; eassumption]. rewrite (from_to_internal r e He). congruence.
      * rewrite failed_unchanged; [exact Hf |]. rewrite Ha. discriminate.
      * rewrite failed_unchanged; [exact Hf |]. rewrite Ha. discriminate.
      * rewrite failed_unchanged; [exact Hf |]. rewrite Ha. discriminate.
    + rewrite failed_unchanged; [exact Hf |]. serve_eq. rewrite run_set_rel.
      destruct (kv_get scmp pid (st_pol s)); discriminate.
  - serve_eq. rewrite run_delete_rel. destruct (to_internal r); try exact Hf. cbn [snd]. rewrite drop_key_keys.
    intros pid' x rec Hp Hin. apply (relationships_drop_keys E) in Hin as [Hin _]; [| exact H]. eapply Hf; [| exact Hin].
    unfold policies in Hp. rewrite drop_keys_pol in Hp. exact Hp.
  - serve_eq. rewrite run_delete_rels. destruct (new_selector_spec s0); try exact Hf. cbn [snd].
    intros pid' x rec Hp Hin. apply (relationships_drop_keys E) in Hin as [Hin _]; [| exact H]. eapply Hf; [| exact Hin].
    unfold policies in Hp. rewrite drop_keys_pol in Hp. exact Hp.
Qed.

Theorem C64_widening_partial : forall E qs pid r rec, only_widening E empty_store qs ->
  answer E (QGetPolicy pid) (after_all E qs empty_store) = Ok (APolicy (Some rec)) ->
  In r (relationships (after_all E qs empty_store) pid) -> admissible (pr_policy rec) r.
Proof.
  intros E qs pid r rec Hw Hp Hin. rewrite answer_get_policy in Hp. injection Hp as Hp. revert Hp Hin.
  cut (forall s, store_ok E s -> owned s -> fits s -> only_widening E s qs -> fits (after_all E qs s)).
  - intros Hc. apply (Hc empty_store); [apply empty_ok | intros ? ? [] | intros ? ? ? _ [] | exact Hw].
  - clear Hw. induction qs as [| q qs IH]; intros s H Ho Hf Hw; [exact Hf |]. destruct Hw as [Hq Hw].
    apply IH; [apply after_ok, H | apply after_owned; assumption | apply after_fits; assumption | exact Hw].
Qed.

(** A policy that keeps its declarations and restrictions widens. *)
Theorem C64_keeping_partial : forall p p', keeps p p' -> widens p p'.
Proof.
  intros p p' [Hr Hl] r (o & u & l & Ho & Hu & Hrel & Hn & Hs & Ha).
  destruct (Hl _ _ Hrel) as (l' & Hrel' & Hn' & Hres). exists o, u, l'. rewrite Hres, Hn'. repeat (split; [assumption |]).
  split; [| exact Ha]. destruct u as [e | [e |] rel | x |]; cbn in Hs |- *; auto.
  destruct Hs as (l2 & H2 & Hn2). destruct (Hl _ _ H2) as (l3 & H3 & Hn3 & _). exists l3. split; [exact H3 | congruence].
Qed.

(** The update of the example takes nothing away. *)
Example C64_example : only_widening E0 empty_store (stored ++ [update (mkPolicy "p" "n" "d" (p_resources (pol "p") ++ [rs "team" []]) [])]) /\
  relationships (after_all E0 (stored ++ [update (mkPolicy "p" "n" "d" (p_resources (pol "p") ++ [rs "team" []]) [])]) empty_store) "p" = [nested; inner].
Proof.
  split; [| vm_compute; reflexivity].
  split; [discriminate |]. split; [discriminate |]. split; [discriminate |]. split; [| exact I].
  intros d app p old [= <- <-] Hd Hp. inversion Hd; subst. vm_compute in Hp. injection Hp as <-. cbn [pr_policy].
  apply C64_keeping_partial. split.
  - intros x (y & Hy & Hn). exists y. split; [| exact Hn]. apply (in_or_app (p_resources (pol "p"))). left. exact Hy.
  - intros x l (y & Hy & Hn & Hl). exists l. split; [| auto]. exists y. split; [| auto]. apply (in_or_app (p_resources (pol "p"))). left. exact Hy.
Qed.

Print Assumptions C64_refuted.
Print Assumptions C64_access_refuted.
Print Assumptions C64_back_again_refuted.
Print Assumptions C64_widening_partial.
Print Assumptions C64_keeping_partial.
