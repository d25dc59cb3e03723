(** C89: the flat key layout keeps policies apart. *)
From Verif Require Import Base Domain Lexer Parser Validate Store Search Explain Yaml Service Dump Api SpecStore SpecConc SpecLayout Layout Fixtures
  BaseFacts NameFacts ValidateFacts StoreFacts PolicyFacts RelFacts SearchRun ConcFacts LayoutFacts.

(** ** C89 Relationships of different policies never meet in the flat store: false for ids that continue each other *)

(** Lives of the typed server are exactly its reachable stores. *)
Theorem C89_lives : forall E s, reachable E s <-> exists h, s = typed_life E h empty_store.
Proof.
  intros E s. split.
  - induction 1 as [| s qs sched _ [h ->]]; [exists []; reflexivity |]. exists (h ++ [(qs, sched)]). unfold typed_life. rewrite fold_left_app. reflexivity.
  - intros [h ->]. induction h as [| [qs sched] h IH] using rev_ind; [constructor |]. unfold typed_life in *. rewrite fold_left_app. cbn. constructor. exact IH.
Qed.

(** If all hashes have the same length and the ids in use are apart, the flat server answers every request in every
    schedule, after every life, as the typed server does. *)
Theorem C89_same_answers_partial : forall E sep L U h qs sched, hashes_to E L -> apart sep U ->
  (forall x, In x h -> about_only U (fst x)) -> about_only U qs ->
  forall i, flat_answered (flat_interleave sep L sched (map (serve E) qs, flat_life E sep L h [])) i =
            answered (interleave sched (start E qs (typed_life E h empty_store))) i.
Proof.
  intros E sep L U h qs sched HL HU Hh Hq i. unfold flat_answered, answered, start.
  pose proof (laid_life sep L U HU E h HL Hh [] empty_store (laid_empty sep L U)) as H.
  destruct (laid_interleave sep L U HU sched (map (serve E) qs) _ _ H) as [-> _]; [| reflexivity].
  intros p Hp. eapply fits_all; eauto.
Qed.

(** Ids of one length are apart; so are ids without the first byte of the separator. *)
Theorem C89_apart : forall sep (U : string -> Prop),
  ((exists n, forall p, U p -> String.length p = n) -> apart sep U) /\
  (forall c t, sep = String c t -> (forall p, U p -> forall a b, p <> a +++ String c b) -> apart sep U).
Proof.
  intros sep U. split.
  - intros [n Hn] p q t Hp Hq H. rewrite app_assoc_s in H. apply app_same_length in H as [H _]; [exact H |]. rewrite (Hn p Hp), (Hn q Hq). reflexivity.
  - intros c t -> Hc p q u Hp Hq H. rewrite app_assoc_s in H.
    assert (Hp' := Hc p Hp). assert (Hq' := Hc q Hq). clear Hc Hp Hq. revert q H Hp' Hq'.
    induction p as [| x p IH]; intros [| y q] H Hp' Hq'; cbn in H; [reflexivity | | |].
    + injection H as -> _. destruct (Hq' "" q). reflexivity.
    + injection H as -> _. destruct (Hp' "" p). reflexivity.
    + injection H as -> H. f_equal. apply IH; [exact H | |].
      * intros a b ->. apply (Hp' (String y a) b). reflexivity.
      * intros a b ->. apply (Hq' (String y a) b). reflexivity.
Qed.

Lemma flat_run_pbind sep L {A B} (p : prog A) (f : A -> prog B) : forall m, flat_run sep L (pbind p f) m = flat_run sep L (f (fst (flat_run sep L p m))) (snd (flat_run sep L p m)).
Proof. induction p; intros m; cbn [pbind flat_run]; auto. Qed.

Lemma flat_run_rbind sep L {A B} (p : prog (res A)) (f : A -> prog (res B)) m a m' : flat_run sep L p m = (Ok a, m') -> flat_run sep L (rbind p f) m = flat_run sep L (f a) m'.
Proof. intros H. unfold rbind. rewrite flat_run_pbind, H. reflexivity. Qed.

Lemma to_from_some e : exists e', to_internal (Some (from_internal e)) = Ok e'.
Proof. unfold to_internal, from_internal. cbn. destruct (i_type (ed_dst e)); cbn; eauto. Qed.

Lemma flat_records E sep L pid m : forall es, exists l,
  flat_run sep L (map_prog (fun r => repo_get_relationship E pid (Some r)) (map (fun x : (string * string) * edge => from_internal (snd x)) es)) m = (Ok l, m) /\
  forall k e d, In (k, e) es -> edge_image e -> data_at (edge_key E e) m = Some d -> In (Some (from_internal_record pid e d)) l.
Proof.
  induction es as [| [k e] es [l [IH Hin]]].
  - exists []. split; [reflexivity |]. intros k e d [].
  - cbn [map map_prog snd]. destruct (to_from_some e) as [e' He'].
    assert (Hr : exists o, flat_run sep L (repo_get_relationship E pid (Some (from_internal e))) m = (Ok o, m) /\
      o = match data_at (edge_key E e') m with None => None | Some d => Some (from_internal_record pid e' d) end).
    { unfold repo_get_relationship, rbind, lift. rewrite He'. cbn. eauto. }
    destruct Hr as (o & Hr & Ho). exists (o :: l). split.
    + rewrite (flat_run_rbind _ _ _ _ _ _ _ Hr). rewrite (flat_run_rbind _ _ _ _ _ _ _ IH). reflexivity.
    + intros k' e0 d [[= -> ->] | H] Hi Hd; [left | right; eauto].
      rewrite (to_from_internal _ Hi) in He'. injection He' as <-. rewrite Ho, Hd. reflexivity.
Qed.

Definition any : selector := mkSel (Some OSWild) (Some LSWild) (Some USWild).

(** Whatever the separator is, an id that continues [p] with the separator and anything gives its relationships away:
    FindRelationshipRecords of [p] returns them, as relationships of [p]. *)
Theorem C89_seen_refuted : forall E sep L m p x k e d rec,
  policy_at p m = Some rec -> In (relationship_key sep (p +++ sep +++ x) k, VEdge e) m -> edge_image e -> data_at (edge_key E e) m = Some d ->
  exists l, flat_answer E sep L (QFindRelationshipRecords p (Some any)) m = Ok (ARecords l) /\ In (Some (from_internal_record p e d)) l.
Proof.
  intros E sep L m p x k e d rec Hp Hin Hi Hd.
  assert (He : exists k', In (k', e) (edges_in sep L p m)).
  { exists (split_at L ((x +++ sep) +++ fst k +++ snd k)). unfold edges_in. apply in_flat_map. eexists. split; [exact Hin |]. cbn [fst snd].
    rewrite (proj2 (rest_after_iff (policy_prefix sep p) _ ((x +++ sep) +++ fst k +++ snd k))); [left; reflexivity |].
    unfold relationship_key, policy_prefix. cbn. rewrite !app_assoc_s. reflexivity. }
  destruct He as [k' He]. destruct (flat_records E sep L p m (edges_in sep L p m)) as (l & Hl & Hin').
  exists l. split; [| eapply Hin'; eauto]. unfold flat_answer. cbn [serve]. unfold respond.
  assert (Hf : flat_run sep L (find_relationship_records E p (Some any)) m = (Ok l, m)).
  { unfold find_relationship_records, repo_get_policy. cbn [pbind flat_run]. rewrite Hp.
    assert (Hv : valid_selector (pr_policy rec) (Some any) = Ok tt) by reflexivity.
    unfold lift. rewrite Hv. unfold rbind at 1. cbn [pbind].
    unfold repo_find_relationship_records, repo_find_relationships.
    erewrite flat_run_rbind; [exact Hl |]. cbn [flat_run lift]. unfold lift. cbn [flat_run]. f_equal. unfold bind. cbn. f_equal.
    generalize (edges_in sep L p m). intros es. induction es as [| y es IH]; cbn; [reflexivity |]. rewrite IH. reflexivity. }
  rewrite (flat_run_rbind _ _ _ _ _ _ _ Hf). reflexivity.
Qed.

(** And an id that continues [p] with the separator and the key of a node adds successors to that node in [p]. *)
Theorem C89_forged_refuted : forall E sep L m p o rel x k e, hashes_to E L ->
  In (relationship_key sep (p +++ sep +++ node_key E (mkINode (e_res o) (e_id o) rel TyObjectSet) +++ x) k, VEdge e) m ->
  exists ns, get_successors E (edges_in sep L p m) (Some o) rel = Ok ns /\ In (to_public_node (ed_dst e)) ns.
Proof.
  intros E sep L m p o rel x k e HL Hin. eexists. split; [reflexivity |].
  apply in_map_iff. exists ((node_key E (mkINode (e_res o) (e_id o) rel TyObjectSet), (x +++ sep) +++ fst k +++ snd k), e). split; [reflexivity |].
  apply filter_In. split; [| cbn [fst]; apply String.eqb_refl].
  unfold edges_in. apply in_flat_map. eexists. split; [exact Hin |]. cbn [fst snd].
  rewrite (proj2 (rest_after_iff (policy_prefix sep p) _ (node_key E (mkINode (e_res o) (e_id o) rel TyObjectSet) +++ (x +++ sep) +++ fst k +++ snd k))).
  - left. rewrite split_at_app; [reflexivity | apply HL].
  - unfold relationship_key, policy_prefix. cbn. rewrite !app_assoc_s. reflexivity.
Qed.

(** *** A hash of 16 bytes *)

Definition dots : string := "................".
Definition E16 : env := mkEnv (fun t => fst (split_at 16 (t +++ dots))) (fun _ => ClOther).

Lemma split_at_length L : forall s, L <= String.length s -> String.length (fst (split_at L s)) = L.
Proof.
  induction L as [| L IH]; intros [| c s] H; cbn in *; try lia. specialize (IH s ltac:(lia)). destruct (split_at L s) as [a b]. cbn in *. lia.
Qed.

Lemma E16_hashes : hashes_to E16 16.
Proof. intros t. cbn [sha E16]. apply split_at_length. rewrite length_app. cbn. lia. Qed.

(** Policies "p" and "q" on the flat store with a separator that no id contains: as in the typed store. *)
Example C89_apart_case :
  let h := [([create "p"; create "q"; set "q" (tup "file" "1" "owner" (user "eve"))], [0; 1; 0; 1; 0; 1; 0; 1; 2; 2; 2; 2; 2])] in
  let q := QCheck 9 "p" (Some (mkAccess (Some (ent "file" "1")) "owner" (Some (ent "user" "eve")))) in
  apart "/" (fun id => id = "p" \/ id = "q") /\
  flat_answer E16 "/" 16 q (flat_life E16 "/" 16 h []) = Ok (ADecision false) /\
  flat_answer E16 "/" 16 (QFindRelationshipRecords "q" (Some any)) (flat_life E16 "/" 16 h []) =
    Ok (ARecords [Some (mkRRec "q" (tup "file" "1" "owner" (user "eve")) 2%N "data")]).
Proof.
  cbn zeta. split; [| split; vm_compute; reflexivity].
  apply (proj1 (C89_apart _ _)). exists 1. intros p [-> | ->]; reflexivity.
Qed.

(** Policy "p/": its owner of file 1 is seen in "p".  A policy named after the key of a node of "p" makes eve an owner in "p",
    although "p" has no relationship at all. *)
Example C89_case :
  let eve := QCheck 9 "p" (Some (mkAccess (Some (ent "file" "1")) "owner" (Some (ent "user" "eve")))) in
  let m := flat_after_all E16 "/" 16 [create "p"; create "p/"; set "p/" (tup "file" "1" "owner" (user "eve"))] [] in
  let q := "p/file1owner......" in
  let m' := flat_after_all E16 "/" 16 [create "p"; create q; set q (tup "file" "2" "owner" (user "eve"))] [] in
  let s' := after_all E16 [create "p"; create q; set q (tup "file" "2" "owner" (user "eve"))] empty_store in
  flat_answer E16 "/" 16 (QFindRelationshipRecords "p" (Some any)) m = Ok (ARecords [Some (mkRRec "p" (tup "file" "1" "owner" (user "eve")) 2%N "data")]) /\
  flat_answer E16 "/" 16 eve m = Ok (ADecision false) /\
  flat_answer E16 "/" 16 eve m' = Ok (ADecision true) /\
  answer E16 eve s' = Ok (ADecision false) /\
  ~ apart "/" (fun id => id = "p" \/ id = q).
Proof.
  cbn zeta. do 4 (split; [vm_compute; reflexivity |]). intros H.
  specialize (H "p/file1owner......" "p" "file1owner....../" (or_intror eq_refl) (or_introl eq_refl) eq_refl). discriminate.
Qed.

Print Assumptions C89_lives.
Print Assumptions C89_same_answers_partial.
Print Assumptions C89_apart.
Print Assumptions C89_seen_refuted.
Print Assumptions C89_forged_refuted.
