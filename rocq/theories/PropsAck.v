(** Properties of checks that begin when other requests have been answered: C62 and C63. *)
From Verif Require Import Base Domain Lexer Parser Validate Store Search Explain Yaml Service Dump Api
  SpecGrammar SpecPolicy SpecStore SpecSearch SpecConc SpecTouch SpecAck Fixtures BaseFacts ParserFacts ValidateFacts StoreFacts PolicyFacts RelFacts
  SearchFacts SearchSem SearchTerm ReadFacts GraphFacts ConcFacts ConcSearch PropsConcSearch TouchFacts AckFacts.

(** ** C62 A Check sees the grants that were acknowledged before it began *)

(** An acknowledged grant is stored and stays, if no other request in progress since the grant began takes it away. *)
Theorem C62_acknowledged : forall E s qs sched m0 m j q x pid r, reachable E s ->
  nth_error qs j = Some q -> begins_after E qs s sched j m0 -> m0 <= m ->
  answered (interleave (firstn m sched) (start E qs s)) j = Some x -> grants q x pid r ->
  (forall j' q', j' <> j -> running E qs s sched m0 j' q' -> ~ may_remove E q' pid r) ->
  lasting E qs s sched m pid r.
Proof. intros E s qs sched m0 m j q x pid r H. apply acknowledged_set, reachable_ok, H. Qed.

(** A Check that begins later authorises whatever follows from the relationships that are stored by then and that
    nobody takes away. *)
Theorem C62_seen : forall E s qs sched i m n pid o rel a b rec, reachable E s ->
  nth_error qs i = Some (QCheck n pid (asks o rel a)) -> begins_after E qs s sched i m ->
  answered (interleave sched (start E qs s)) i = Some (Ok (ADecision b)) ->
  answer E (QGetPolicy pid) (moment E qs s sched m) = Ok (APolicy (Some rec)) ->
  (forall j q, running E qs s sched m j q -> ~ may_redefine q pid) ->
  union_only E (pr_policy rec) ->
  distinct_ids E (pr_policy rec) (subject_among E (possible E qs s sched m pid)) (NSet (Some o) rel) ->
  member E (pr_policy rec) (subject_among E (lasting E qs s sched m pid)) a o rel ->
  b = true.
Proof.
  intros E s qs sched i m n pid o rel a b rec H Hq Hb Ha Hp Hn Hu Hd Hm. apply reachable_ok in H as Hok.
  assert (Hnd : ~ policy_uses E (pr_policy rec) OpDiff) by (intros Hx; specialize (Hu _ Hx); discriminate).
  apply (C51_complete E s qs sched i n pid o rel a b H Hq Ha). intros k Hk. exists rec. split; [| split; [exact Hu | split]].
  - rewrite answer_get_policy in Hp |- *. injection Hp as Hp. rewrite (policy_lasts E qs s sched m pid (Some rec) Hn Hp k (Hb k Hk)). reflexivity.
  - intros x y Hx Hy. apply Hd; (eapply reach_mono; [| eassumption]); intros o' rel' u (j & Hj & r & Hr & Hs & Ho'); exists r;
      (split; [apply (later_possible E qs s Hok sched m j pid r (Hb j Hj) Hr) | auto]).
  - apply (member_mono E _ (subject_among E (lasting E qs s sched m pid))); [exact Hnd | | exact Hm].
    intros o' rel' u (r & Hr & Hs & Ho') j Hj. exists r. split; [| auto].
    exact (lasting_lasts E qs s Hok sched m pid r Hr j (Hb j Hj)).
Qed.

(** Bob enters group b while somebody else leaves group c; the check begins when bob's entry is acknowledged. *)
Definition other : relationship := tup "group" "c" "member" (user "bob").
Definition entry : list request := [asked; set "p" enter; QDeleteRelationship "p" (Some other)].
Definition before_entry : store := after_all E0 [create "p"; set "p" link; set "p" other] empty_store.
Definition entry_sched : list nat := [1; 2; 1; 1; 2; 1; 1; 0; 0; 2; 2; 2; 0; 0; 0; 0].

Lemma before_entry_reachable : reachable E0 before_entry.
Proof. apply sequential_reachable. eexists. reflexivity. Qed.

Lemma asked_begins : begins_after E0 entry before_entry entry_sched 0 7.
Proof. intros k [Hk _]. do 7 (destruct k as [| k]; [discriminate |]). lia. Qed.

Lemma entry_lasts : lasting E0 entry before_entry entry_sched 7 "p" enter.
Proof.
  apply (C62_acknowledged E0 before_entry entry entry_sched 0 7 1 (set "p" enter) (Ok (ASet false)) "p" enter).
  - exact before_entry_reachable.
  - reflexivity.
  - intros k _. lia.
  - lia.
  - vm_compute. reflexivity.
  - split; reflexivity.
  - intros j' q' Hj [Hq _]. destruct j' as [| [| [| j']]]; [injection Hq as <-; exact (fun H => H) | contradiction | | destruct j'; discriminate].
    injection Hq as <-. intros [_ (k & (e1 & He1 & Hk1) & e2 & He2 & Hk2)]. injection He1 as <-. injection He2 as <-.
    subst k. vm_compute in Hk2. discriminate.
Qed.

Lemma link_lasts : lasting E0 entry before_entry entry_sched 7 "p" link.
Proof.
  split; [vm_compute; auto |]. intros j' q' [Hq Ha]. destruct j' as [| [| [| j']]]; [injection Hq as <-; exact (fun H => H) | vm_compute in Ha; discriminate | | destruct j'; discriminate].
  injection Hq as <-. intros [_ (k & (e1 & He1 & Hk1) & e2 & He2 & Hk2)]. injection He1 as <-. injection He2 as <-.
  subst k. vm_compute in Hk2. discriminate.
Qed.

(** What the theorem asks for holds of this case, and the answer is as it says. *)
Example C62_example :
  member E0 (pol "p") (subject_among E0 (lasting E0 entry before_entry entry_sched 7 "p")) (ent "user" "bob") (ent "group" "a") "member" /\
  answered (interleave entry_sched (start E0 entry before_entry)) 0 = Some (Ok (ADecision true)).
Proof.
  split; [| vm_compute; reflexivity].
  assert (Hr : forall g, rewrites E0 (pol "p") (ent "group" g) "member" (TRule RThis)).
  { intros g. eexists. split; [eexists; split; [right; left; reflexivity | split; [reflexivity | left; reflexivity]] |]. split; [reflexivity |]. apply ex_tree; [reflexivity | constructor]. }
  intros M HM. apply (HM _ _ _ (Hr "a")). exists (members "b"). split; [exists link; split; [exact link_lasts | auto] |].
  apply (HM _ _ _ (Hr "b")). exists (user "bob"). split; [exists enter; split; [exact entry_lasts | auto] | reflexivity].
Qed.

(** ** C63 A Check does not use what was revoked before it began *)

(** An acknowledged revocation is final, if no other request in progress since the revocation began sets the
    relationship. *)
Theorem C63_acknowledged : forall E s qs sched m0 m j q x pid r, reachable E s ->
  nth_error qs j = Some q -> begins_after E qs s sched j m0 -> m0 <= m ->
  answered (interleave (firstn m sched) (start E qs s)) j = Some x -> revokes q x pid r ->
  (forall j' q', j' <> j -> running E qs s sched m0 j' q' -> ~ may_add q' pid r) ->
  ~ possible E qs s sched m pid r.
Proof. intros E s qs sched m0 m j q x pid r H. apply acknowledged_delete, reachable_ok, H. Qed.

(** A Check that begins later authorises only what follows from the relationships that are stored by then or that
    somebody sets. *)
Theorem C63_seen : forall E s qs sched i m n pid o rel a, reachable E s ->
  nth_error qs i = Some (QCheck n pid (asks o rel a)) -> begins_after E qs s sched i m ->
  answered (interleave sched (start E qs s)) i = Some (Ok (ADecision true)) ->
  exists k rec, acts E qs s sched i k /\
    answer E (QGetPolicy pid) (moment E qs s sched k) = Ok (APolicy (Some rec)) /\
    (~ policy_uses E (pr_policy rec) OpDiff -> member E (pr_policy rec) (subject_among E (possible E qs s sched m pid)) a o rel).
Proof.
  intros E s qs sched i m n pid o rel a H Hq Hb Ha. apply reachable_ok in H as Hok.
  destruct (C50_justified E s qs sched i n pid o rel a H Hq Ha) as (k & rec & Hk & Hp & Hm). exists k, rec.
  split; [exact Hk |]. split; [exact Hp |]. intros Hnd. apply (member_mono E _ (sometimes E qs s sched i pid)); [exact Hnd | | exact (Hm Hnd)].
  intros o' rel' u (j & Hj & r & Hr & Hs & Ho'). exists r. split; [| auto].
  exact (later_possible E qs s Hok sched m j pid r (Hb j Hj) Hr).
Qed.

(** ... by the policy that was stored then, if nobody replaces it. *)
Theorem C63_same_policy : forall E s qs sched i m n pid o rel a rec, reachable E s ->
  nth_error qs i = Some (QCheck n pid (asks o rel a)) -> begins_after E qs s sched i m ->
  answered (interleave sched (start E qs s)) i = Some (Ok (ADecision true)) ->
  answer E (QGetPolicy pid) (moment E qs s sched m) = Ok (APolicy (Some rec)) ->
  (forall j q, running E qs s sched m j q -> ~ may_redefine q pid) -> ~ policy_uses E (pr_policy rec) OpDiff ->
  member E (pr_policy rec) (subject_among E (possible E qs s sched m pid)) a o rel.
Proof.
  intros E s qs sched i m n pid o rel a rec H Hq Hb Ha Hp Hn Hnd.
  destruct (C63_seen E s qs sched i m n pid o rel a H Hq Hb Ha) as (k & rec' & Hk & Hp' & Hm).
  rewrite answer_get_policy in Hp, Hp'. injection Hp as Hp. injection Hp' as Hp'.
  rewrite (policy_lasts E qs s sched m pid (Some rec) Hn Hp k (Hb k Hk)) in Hp'. injection Hp' as <-. auto.
Qed.

(** Bob leaves group b; the check begins when that is acknowledged, while somebody else enters group c. *)
Definition leave : list request := [asked; QDeleteRelationships "p" (Some (mkSel (Some (OSResource "group")) (Some LSWild) (Some (USSubject (Some (user "bob")))))); set "p" (tup "group" "c" "member" (user "eve"))].
Definition leave_sched : list nat := [1; 2; 1; 1; 2; 1; 1; 0; 0; 2; 2; 2; 0; 0; 0; 0].

Example C63_example : let s := after_all E0 [create "p"; set "p" link; set "p" enter] empty_store in
  ~ possible E0 leave s leave_sched 7 "p" enter /\
  answered (interleave leave_sched (start E0 leave s)) 0 = Some (Ok (ADecision false)) /\ answer E0 asked s = Ok (ADecision true).
Proof.
  cbv zeta. split; [| vm_compute; auto].
  eapply (C63_acknowledged E0 _ leave leave_sched 0 7 1 _ (Ok (ACount 1)) "p" enter).
  - apply sequential_reachable. eexists. reflexivity.
  - reflexivity.
  - intros k _. lia.
  - lia.
  - vm_compute. reflexivity.
  - split; [reflexivity |]. exists (OSResource "group"), LSWild, (USSubject (Some (user "bob"))). repeat split. exists (ent "group" "b"). auto.
  - intros j' q' Hj [Hq _]. destruct j' as [| [| [| j']]]; [injection Hq as <-; exact (fun H => H) | contradiction | | destruct j'; discriminate].
    injection Hq as <-. intros [_ H]. discriminate.
Qed.

Print Assumptions C62_acknowledged.
Print Assumptions C62_seen.
Print Assumptions C63_acknowledged.
Print Assumptions C63_seen.
Print Assumptions C63_same_policy.
