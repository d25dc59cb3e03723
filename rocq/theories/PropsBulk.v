(** C96: requests about many relationships do what the requests about one of them do. *)
From Verif Require Import Base Domain Lexer Parser Validate Store Search Explain Yaml Service Dump Api
  SpecGrammar SpecPolicy SpecStore SpecConc SpecTouch Fixtures
  BaseFacts ValidateFacts StoreFacts PolicyFacts RelFacts TouchFacts PropsStore PropsUndo.

(** [l] are the relationships of the policy that the selector selects, in some order. *)
Definition selected (s : store) (pid : string) (sel : selector) (l : list relationship) : Prop :=
  NoDup l /\ forall r, In r l <-> In r (relationships s pid) /\ selects sel r.

Definition one_by_one (pid : string) (l : list relationship) : list request := map (fun r => QDeleteRelationship pid (Some r)) l.

Lemma deletes_run E pid l : forall s, (forall r, In r l -> complete_relationship r) -> after_all E (one_by_one pid l) s = drop_keys pid (map (rel_key E) l) s.
Proof.
  induction l as [| r l IH]; intros s Hc; [reflexivity |]. cbn [one_by_one map]. unfold after_all, drop_keys. cbn [fold_left].
  destruct (proj1 (to_internal_complete r)) as [e He]; [apply Hc; left; reflexivity |].
  rewrite (after_delete E pid r e s He).
  assert (rel_key E r = edge_key E e) as -> by (unfold rel_key; rewrite He; reflexivity).
  apply IH. intros x Hx. apply Hc. right. exact Hx.
Qed.

Lemma drop_keys_same E pid ks ks' s : store_ok E s -> (forall k, In k ks <-> In k ks') -> drop_keys pid ks s = drop_keys pid ks' s.
Proof.
  intros H Hk. apply same_everywhere; try (eapply ok_sorted, drop_keys_ok, H). intros [id | pid' k | k]; cbn.
  - rewrite !drop_keys_pol. reflexivity.
  - rewrite !drop_keys_edges. destruct (string_dec pid' pid); [| reflexivity].
    destruct (in_dec key_dec k ks) as [Hi | Hi], (in_dec key_dec k ks') as [Hi' | Hi']; try reflexivity; exfalso; firstorder.
  - rewrite !drop_keys_data.
    destruct (in_dec key_dec k ks) as [Hi | Hi], (in_dec key_dec k ks') as [Hi' | Hi']; try reflexivity; exfalso; firstorder.
Qed.

Lemma deletes_found E pid l : forall s, store_ok E s -> NoDup l -> (forall r, In r l -> In r (relationships s pid)) ->
  answers E (one_by_one pid l) s = map (fun _ => Ok (ADeleted true)) l.
Proof.
  induction l as [| r l IH]; intros s H Hn Hl; [reflexivity |]. cbn [one_by_one map answers]. inversion Hn as [| ? ? Hr Hn']; subst.
  assert (Hin : In r (relationships s pid)) by (apply Hl; left; reflexivity).
  destruct (proj1 (relationships_in E s pid r H) Hin) as (e & He & Hk).
  f_equal.
  - serve_eq. rewrite run_delete_rel, He. cbn [fst]. rewrite Hk. reflexivity.
  - apply IH; [apply after_ok, H | exact Hn' |]. intros x Hx.
    rewrite (after_delete E pid r e s He), drop_key_keys. apply (relationships_drop_keys E); [exact H |].
    split; [apply Hl; right; exact Hx |]. intros [_ [Hq | []]].
    destruct (proj1 (relationships_in E s pid x H) (Hl x (or_intror Hx))) as (e' & He' & Hk').
    assert (rel_key E x = edge_key E e') as Hx' by (unfold rel_key; rewrite He'; reflexivity). rewrite Hx' in Hq. rewrite <- Hq, Hk in Hk'.
    injection Hk' as <-. rewrite <- (from_to_internal r e He), (from_to_internal x e He') in Hr. contradiction.
Qed.

(** DeleteRelationships is DeleteRelationship of each selected relationship, in any order. *)
Theorem C96_delete : forall E s pid sel l, reachable E s -> parts_set sel -> selected s pid sel l ->
  answer E (QDeleteRelationships pid (Some sel)) s = Ok (ACount (length l)) /\
  answers E (one_by_one pid l) s = map (fun _ => Ok (ADeleted true)) l /\
  after E (QDeleteRelationships pid (Some sel)) s = after_all E (one_by_one pid l) s.
Proof.
  intros E s pid sel l H ([o Ho] & [rl Hrl] & [u Hu]) [Hn Hl]. apply reachable_ok in H.
  assert (Hsp : exists sp, new_selector_spec (Some sel) = Ok sp).
  { destruct sel as [o' l' u']. cbn in *. destruct Ho as [-> Ho], Hrl as [-> Hrl], Hu as [-> Hu].
    destruct o, rl, u; try congruence; eexists; reflexivity. }
  destruct Hsp as [sp Hsp].
  assert (Hm : forall r, In r (matching s pid sp) <-> In r l) by (intros r; rewrite (matching_in sel) by exact Hsp; symmetry; apply Hl).
  assert (Hc : forall r, In r l -> complete_relationship r) by (intros r Hr; apply (stored_complete E s pid); [exact H | apply Hl, Hr]).
  split; [| split].
  - serve_eq. rewrite run_delete_rels, Hsp. cbn [fst wrap]. f_equal. f_equal.
    apply Permutation.Permutation_length, Permutation.NoDup_Permutation; [apply (matching_nodup E), H | exact Hn | exact Hm].
  - apply deletes_found; [exact H | exact Hn |]. intros r Hr. apply Hl, Hr.
  - rewrite deletes_run by exact Hc. serve_eq. rewrite run_delete_rels, Hsp. cbn [snd]. apply (drop_keys_same E); [exact H |].
    intros k. rewrite !in_map_iff. split; intros (r & Hr & Hi); exists r; split; auto; apply Hm, Hi.
Qed.

(** DeletePolicy is the removal of the policy and DeleteRelationship of all its relationships, in any order. *)
Theorem C96_delete_policy : forall E s pid rec l, reachable E s -> answer E (QGetPolicy pid) s = Ok (APolicy (Some rec)) ->
  NoDup l -> (forall r, In r l <-> In r (relationships s pid)) ->
  answer E (QDeletePolicy pid) s = Ok (ADeletedPolicy true (length l)) /\
  after E (QDeletePolicy pid) s = after_all E (one_by_one pid l ++ [QDeletePolicy pid]) s.
Proof.
  intros E s pid rec l H Hp Hn Hl. apply reachable_ok in H.
  assert (Hp' : kv_get scmp pid (st_pol s) = Some rec) by (revert Hp; unfold answer; cbn; intros [= ->]; reflexivity).
  assert (Hc : forall r, In r l -> complete_relationship r) by (intros r Hr; apply (stored_complete E s pid); [exact H | apply Hl, Hr]).
  split.
  - serve_eq. rewrite run_delete_policy, Hp'. cbn [fst wrap]. f_equal. f_equal.
    apply Permutation.Permutation_length, Permutation.NoDup_Permutation; [| exact Hn | intros r; symmetry; apply Hl].
    rewrite <- matching_all. apply (matching_nodup E), H.
  - unfold after_all. rewrite fold_left_app. fold (after_all E (one_by_one pid l) s). rewrite deletes_run by exact Hc. cbn [fold_left].
    set (s' := drop_keys pid (map (rel_key E) l) s).
    assert (H' : store_ok E s') by (apply drop_keys_ok, H).
    assert (Hnone : relationships s' pid = []).
    { destruct (relationships s' pid) as [| r ?] eqn:Hr; [reflexivity |]. exfalso.
      assert (Hin : In r (relationships s' pid)) by (rewrite Hr; left; reflexivity).
      apply (relationships_drop_keys E) in Hin as [Hin Hno]; [| exact H]. apply Hno. split; [reflexivity |]. apply in_map, Hl, Hin. }
    unfold after. cbn [serve]. rewrite !after_respond, !run_delete_policy. unfold s' at 1. rewrite drop_keys_pol, Hp'. cbn [snd]. rewrite Hnone. cbn [map].
    change (drop_keys pid [] (drop_policy pid s')) with (drop_policy pid s'). unfold s'.
    rewrite (drop_keys_same E pid (map (rel_key E) (relationships s pid)) (map (rel_key E) l)).
    + clear. generalize (map (rel_key E) l). intros ks. revert s. induction ks as [| k ks IH]; intros s; [reflexivity |].
      unfold drop_keys in *. cbn [fold_left]. rewrite <- IH. reflexivity.
    + apply drop_policy_ok, H.
    + intros k. rewrite !in_map_iff. split; intros (r & Hr & Hi); exists r; split; auto; apply Hl, Hi.
Qed.

(** ** Two of three relationships are selected *)

Definition three : list request :=
  [create "p"; set "p" (tup "file" "f" "owner" (user "bob")); set "p" (tup "file" "g" "owner" (user "amy")); set "p" (tup "file" "h" "owner" (user "bob"))].
Definition bobs : list relationship := [tup "file" "h" "owner" (user "bob"); tup "file" "f" "owner" (user "bob")].
Definition by_bob : selector := mkSel (Some OSWild) (Some (LSName "owner")) (Some (USSubject (Some (user "bob")))).

Example C96_example : let s := after_all E0 three empty_store in
  answers E0 (one_by_one "p" bobs) s = [Ok (ADeleted true); Ok (ADeleted true)] /\
  answer E0 (QDeleteRelationships "p" (Some by_bob)) s = Ok (ACount 2) /\
  after E0 (QDeleteRelationships "p" (Some by_bob)) s = after_all E0 (one_by_one "p" bobs) s /\
  answer E0 (QDeletePolicy "p") s = Ok (ADeletedPolicy true 3).
Proof. vm_compute. repeat split. Qed.

Example C96_example_selected : selected (after_all E0 three empty_store) "p" by_bob bobs.
Proof.
  split; [repeat constructor; cbn; intuition discriminate |]. intros r. change (relationships (after_all E0 three empty_store) "p") with
    [tup "file" "f" "owner" (user "bob"); tup "file" "g" "owner" (user "amy"); tup "file" "h" "owner" (user "bob")].
  split.
  - intros [<- | [<- | []]]; (split; [cbn; tauto |]); do 3 eexists; repeat split.
  - intros [[<- | [<- | [<- | []]]] (o & l & u & [= <-] & [= <-] & [= <-] & _ & _ & Hu)]; cbn in *; try tauto. discriminate.
Qed.

Print Assumptions C96_delete.
Print Assumptions C96_delete_policy.
