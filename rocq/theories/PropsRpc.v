(** Properties of calls over gRPC: C100. *)
From Coq Require Import Sorted Permutation.
From Verif Require Import Base Domain Lexer Parser Validate Store Search Explain Yaml Service Dump Api Fault Wire SpecStore SpecPolicy SpecConc SpecWire Rpc SpecRpc Fixtures
  BaseFacts ValidateFacts StoreFacts PolicyFacts RelFacts ConcFacts WireFacts WireServe RpcFacts RpcServe PropsPolicy PropsFault PropsWire.
Local Open Scope N_scope.

(** ** C100 A remote client sees what a client in the same process sees *)

(** A call is encoded, and decoded to itself by the server. *)
Theorem C100_request : forall lim ord c, (9 <= lim)%nat -> (forall l, Permutation (ord l) l) -> proper lim c ->
  exists b, marshal_call ord c = Some b /\ (short b -> unmarshal_call (method_of c) lim b = Some c).
Proof.
  intros lim ord c Hl Ho Hc. exists (put_fields (fs_call ord c)). unfold marshal_call. rewrite all_utf8_forallb by apply Hc. split; [reflexivity |].
  intros Hs. apply call_round; assumption.
Qed.

(** Whatever bytes a server decodes, the result is such a call. *)
Theorem C100_received : forall m lim b c, unmarshal_call m lim b = Some c -> method_of c = m /\ proper lim c.
Proof. intros m lim b c. apply call_recv. Qed.

Lemma message_image {A B} (h : A -> B) (step : nat -> A -> field -> option A) (step' : nat -> B -> field -> option B) :
  (forall d x f, step' d (h x) f = omap h (step d x f)) -> forall d a b, message step' d (h a) b = omap h (message step d a b).
Proof.
  intros H [| d] a b; [reflexivity |]. cbn [message]. destruct (get_fields b) as [fs |]; [| reflexivity].
  revert a. induction fs as [| f fs IH]; intros a; cbn [fold_opt]; [reflexivity |]. rewrite H. destruct (step d a f); [apply IH | reflexivity].
Qed.

Lemma definition_image L d x b : message (step_definition (t_yaml L)) d (def_of L x) b = omap (def_of L) (message step_sent d x b).
Proof.
  apply message_image. clear. intros d x f. fields f; try reflexivity; cbn [step_definition step_sent def_of].
  - unfold text. destruct (utf8_valid s); reflexivity.
  - replace (match def_of L x with DPolicy p => p | _ => no_policy end) with (match x with SentPolicy p => p | _ => no_policy end) by (destruct x; reflexivity).
    destruct (message step_policy d _ s); reflexivity.
Qed.

Definition create_of (L : libs) (x : option sent_def * string) : option policy_def * string := (omap (def_of L) (fst x), snd x).

Lemma create_image L d x f : step_policy_request (t_yaml L) d (create_of L x) f = omap (create_of L) (step_create d x f).
Proof.
  fields f; try reflexivity; cbn [step_policy_request step_create create_of fst snd].
  replace (or_else (omap (def_of L) (fst x)) DUnset) with (def_of L (or_else (fst x) SentUnset)) by (destruct (fst x); reflexivity).
  rewrite definition_image. destruct (message step_sent d _ s); reflexivity.
Qed.

Lemma update_image L d x f : step_policy_request (t_yaml L) d (create_of L (fst x)) f = omap (fun x => create_of L (fst x)) (step_enum 3 step_create d x f).
Proof.
  rewrite create_image. unfold step_enum. destruct f as [j []]; try (destruct (step_create d (fst x) _); reflexivity).
  destruct (N.eqb_spec j 3) as [-> |]; [reflexivity | destruct (step_create d (fst x) _); reflexivity].
Qed.

(** The requests that C98 is about are those that a server decodes: from whatever bytes, and no others. *)
Theorem C100_arrives : forall L now n m lim b c, unmarshal_call m lim b = Some c -> arrives (t_yaml L) lim (request_of L now n c).
Proof.
  intros L now n m lim b c H. destruct m; cbn [unmarshal_call] in H;
    match type of H with omap _ ?x = _ => destruct x as [y |] eqn:Hy; [cbn [omap] in H; injection H as <- | discriminate H] end; try exact I.
  - exists b. unfold unmarshal_policy_request. change (@None policy_def, ""%string) with (create_of L (None, ""%string)).
    rewrite (message_image (create_of L) _ _ (create_image L)), Hy. reflexivity.
  - exists b. unfold unmarshal_policy_request. change (@None policy_def, ""%string) with (create_of L (fst (@None sent_def, ""%string, 0))).
    rewrite (message_image _ _ _ (update_image L)), Hy. reflexivity.
  - exists b. rewrite Hy. destruct y as [[? ?] ?]. reflexivity.
Qed.

Theorem C100_arrives_only : forall L lim now d app, arrives (t_yaml L) lim (QCreatePolicy now d app) ->
  exists b c d', unmarshal_call MCreatePolicy lim b = Some c /\ c = KCreatePolicy d' app /\ d = omap (def_of L) d' /\
    exists strategy, unmarshal_call MUpdatePolicy lim b = Some (KUpdatePolicy d' app strategy).
Proof.
  intros L lim now d app (b & Hb). unfold unmarshal_policy_request in Hb. change (@None policy_def, ""%string) with (create_of L (None, ""%string)) in Hb.
  rewrite (message_image (create_of L) _ _ (create_image L)) in Hb. destruct (message step_create lim (None, ""%string) b) as [[d' app'] |] eqn:Hm; [| discriminate].
  injection Hb as <- <-. exists b, (KCreatePolicy d' app'), d'. cbn [unmarshal_call]. rewrite Hm. split; [reflexivity |]. split; [reflexivity |]. split; [reflexivity |].
  assert (Hf : forall d x f, step_create d (fst x) f = omap fst (step_enum 3 step_create d x f)).
  { clear. intros d x f. unfold step_enum. destruct f as [j []]; try (destruct (step_create d (fst x) _); reflexivity).
    destruct (N.eqb_spec j 3) as [-> |]; [reflexivity | destruct (step_create d (fst x) _); reflexivity]. }
  pose proof (message_image fst _ _ Hf lim (@None sent_def, ""%string, 0) b) as Hi. cbn [fst] in Hi. rewrite Hm in Hi.
  destruct (message (step_enum 3 step_create) lim (None, ""%string, 0) b) as [[x v] |]; [| discriminate]. cbn [omap fst] in Hi. injection Hi as <-. exists v. reflexivity.
Qed.

Lemma start_gives E L lim xs : (9 <= lim)%nat -> texts_ok L -> Forall (acceptable E L lim) xs ->
  forall i p, nth_error (map (fun x => serve E (as_request L x)) xs) i = Some p ->
    gives lim (fun a => forall x, nth_error xs i = Some x -> ok (good_response L lim (snd x)) a) p.
Proof.
  intros Hl HL Hx i p Hp. rewrite nth_error_map in Hp. destruct (nth_error xs i) as [x |] eqn:Hi; [| discriminate]. injection Hp as <-.
  rewrite Forall_forall in Hx. eapply gives_mono; [| apply serve_good; [exact Hl | exact HL | exact (Hx x (nth_error_In _ _ Hi))]].
  intros a Ha y [= <-]. exact Ha.
Qed.

Lemma fits_all E L lim xs : (9 <= lim)%nat -> texts_ok L -> Forall (acceptable E L lim) xs -> Forall (fits_request E lim) (map (as_request L) xs).
Proof. intros Hl HL H. apply Forall_map. eapply Forall_impl; [| exact H]. intros x. apply acceptable_fits; assumption. Qed.

Lemma remote_typed E L lim b : (9 <= lim)%nat -> texts_ok L -> remote_reachable E L lim b -> exists s, reachable E s /\ stands_for lim b s /\ good_store lim s.
Proof.
  intros Hl HL H. induction H as [| b xs es H (s & Hs & Hb & Hg) Hx Hw].
  - exists empty_store. split; [constructor |]. split; [split; [constructor | split; constructor] |]. split; [| split]; intros ? ? [].
  - exists (snd (interleave (map fst es) (start E (map (as_request L) xs) s))). split; [constructor; exact Hs |].
    pose proof (C98_same_answers E lim (map (as_request L) xs) es b s 0 ltac:(lia) (fits_all E L lim xs Hl HL Hx) Hw Hb) as [_ H2]. rewrite map_map in H2. split; [exact H2 |].
    unfold start. rewrite map_map. apply (gives_interleave lim (fun i a => forall x, nth_error xs i = Some x -> ok (good_response L lim (snd x)) a)); [| exact Hg]. apply start_gives; assumption.
Qed.

(** On every store that remote clients can bring about, calls at the same time are answered as on the typed store, and the
    answers arrive. *)
Theorem C100_answers : forall E L lim ord b, (9 <= lim)%nat -> texts_ok L -> (forall l, Permutation (ord l) l) -> remote_reachable E L lim b ->
  exists s, reachable E s /\ stands_for lim b s /\
    forall xs es i x a, Forall (acceptable E L lim) xs -> walks es -> nth_error xs i = Some x ->
      byte_answered (byte_interleave lim es (map (fun x => serve E (as_request L x)) xs, b)) i = Some a ->
      answered (interleave (map fst es) (start E (map (as_request L) xs) s)) i = Some a /\
      (outcome_fits ord (local_outcome L (snd x) a) -> deliver L lim ord (snd x) a = seen (local_outcome L (snd x) a)).
Proof.
  intros E L lim ord b Hl HL Ho Hb. destruct (remote_typed E L lim b Hl HL Hb) as (s & H1 & H2 & H3). exists s. split; [exact H1 |]. split; [exact H2 |].
  intros xs es i x a Hx Hw Hi Ha.
  pose proof (C98_same_answers E lim (map (as_request L) xs) es b s i ltac:(lia) (fits_all E L lim xs Hl HL Hx) Hw H2) as [H4 _].
  rewrite map_map in H4. rewrite H4 in Ha. split; [exact Ha |]. apply deliver_good; [exact Hl | exact Ho |].
  pose proof (gives_interleave lim (fun i a => forall x, nth_error xs i = Some x -> ok (good_response L lim (snd x)) a) (map fst es)
    (map (fun x => serve E (as_request L x)) xs) s (start_gives E L lim xs Hl HL Hx) H3) as [H5 _].
  unfold answered, start in Ha. rewrite map_map in Ha. specialize (H5 i).
  match type of Ha with match ?y with _ => _ end = _ => destruct y as [[a' | | | | | | | | | | | |] |]; try discriminate end. injection Ha as ->. exact (H5 _ eq_refl x Hi).
Qed.

(** A client that is alone sees, call by call, what it would see in the same process. *)
Theorem C100_history : forall E L lim ord xs, (9 <= lim)%nat -> texts_ok L -> (forall l, Permutation (ord l) l) ->
  Forall (acceptable E L lim) xs -> Forall (call_fits ord) xs -> Forall (outcome_fits ord) (fst (local_all E L xs empty_store)) ->
  fst (remote_all E L lim ord xs empty_bytes) = map seen (fst (local_all E L xs empty_store)).
Proof.
  intros E L lim ord xs Hl HL Ho.
  assert (H : forall b s, stands_for lim b s -> good_store lim s -> Forall (acceptable E L lim) xs -> Forall (call_fits ord) xs -> Forall (outcome_fits ord) (fst (local_all E L xs s)) ->
    fst (remote_all E L lim ord xs b) = map seen (fst (local_all E L xs s))).
  { induction xs as [| [[now n] c] xs IH]; intros b s Hb Hg Hx Hc Hf; [reflexivity |]. inversion Hx as [| ? ? Hx1 Hx2]; subst. inversion Hc as [| ? ? Hc1 Hc2]; subst.
    cbn [local_all remote_all] in *. unfold remote, local in *.
    destruct (C100_request lim ord c Hl Ho (proj1 Hx1)) as (m & Hm & Hu). rewrite Hm.
    assert (Hs : short m). { unfold marshal_call in Hm. destruct (forallb _ _); [| discriminate]. injection Hm as <-. exact Hc1. }
    rewrite (Hu Hs). pose proof (serve_writable E lim _ (acceptable_fits E L lim _ Hl HL Hx1)) as Hd.
    pose proof (serve_good E L lim _ Hl HL Hx1) as Hgv. unfold as_request in Hd, Hgv. cbn [fst snd] in Hd, Hgv.
    destruct (byte_run_ok lim ord _ ltac:(lia) Ho b s Hd Hb) as [H1 H2]. destruct (gives_run lim _ _ s Hgv Hg) as [H3 H4].
    destruct (run (serve E (request_of L now n c)) s) as [a s1]. destruct (byte_run lim ord (serve E (request_of L now n c)) b) as [a' b1]. cbn [fst snd] in *. subst a'.
    destruct (local_all E L xs s1) as [os s2] eqn:Hls. destruct (remote_all E L lim ord xs b1) as [os' b2] eqn:Hlr. cbn [fst map] in *.
    inversion Hf as [| ? ? Hf1 Hf2]; subst. f_equal; [apply deliver_good; assumption |].
    specialize (IH b1 s1 H2 H4 Hx2 Hc2). rewrite Hls, Hlr in IH. exact (IH Hf2). }
  apply H; [split; [constructor | split; constructor] | split; [| split]; intros ? ? []].
Qed.

(** The views differ in nothing but missing records of lists. *)
Theorem C100_same : forall E L lim ord xs, (9 <= lim)%nat -> texts_ok L -> (forall l, Permutation (ord l) l) ->
  Forall (acceptable E L lim) xs -> Forall (call_fits ord) xs -> Forall (outcome_fits ord) (fst (local_all E L xs empty_store)) ->
  Forall complete (fst (local_all E L xs empty_store)) ->
  fst (remote_all E L lim ord xs empty_bytes) = fst (local_all E L xs empty_store).
Proof.
  intros E L lim ord xs Hl HL Ho Hx Hc Hf Hn. rewrite C100_history by assumption. clear -Hn. induction Hn as [| o os H Hn IH]; [reflexivity |]. cbn [map]. f_equal; [| exact IH].
  destruct o as [r | | | |]; try reflexivity. destruct r as [| | | | | | | | [l |] | | | | |]; try reflexivity. cbn [seen as_received]. do 3 f_equal. specialize (H l eq_refl).
  induction l as [| [x |] l IHl]; cbn [map or_else]; [reflexivity | | exfalso; apply H; left; reflexivity]. f_equal. apply IHl. intros Hi. apply H. right. exact Hi.
Qed.

(** *** A client and its calls *)

Definition shop : ydef := mkYDef "y" "shop" "" [("shop", Some (mkYRes "" [("owner", Some (mkYRel "" "_this" ["user"]))])); ("user", None)] [("k", "v")].
Definition L0 : libs :=
  mkLibs (fun s => if String.eqb s "id: y" then Some shop else None)
    (fun f _ => match f with FSpew => "spew" | FDot => "dot" | _ => "json" end) (fun _ => "dump").
Definition keep (l : list (string * string)) : list (string * string) := l.

Lemma L0_ok : texts_ok L0.
Proof.
  split; [| split; [intros [| | |] t _; reflexivity | reflexivity]]. intros s y H. cbn [L0 t_yaml] in H. destruct (String.eqb s "id: y"); [| discriminate]. injection H as <-. split.
  - apply forallb_all_utf8. vm_compute. reflexivity.
  - repeat constructor.
Qed.
Lemma keep_ok l : Permutation (keep l) l.
Proof. apply Permutation_refl. Qed.

Lemma limit_ok : (9 <= recursion_limit)%nat.
Proof. apply Nat.leb_le. vm_compute. reflexivity. Qed.

Definition k_create (id : string) : served := (1, 9%nat, KCreatePolicy (Some (SentPolicy (pol id))) "app").
Definition k_set (pid : string) (r : relationship) : served := (2, 9%nat, KSetRelationship pid (Some r) "data").
Definition everything : option selector := Some (mkSel (Some OSWild) (Some LSWild) (Some USWild)).

Lemma pol_ok id : utf8_valid id = true -> policy_ok (pol id) /\ (nest_policy (pol id) <= 7)%nat /\ all_utf8 (policy_texts (pol id)).
Proof.
  intros Hi. split; [| split; [apply Nat.leb_le; vm_compute; reflexivity |]].
  - split; [| constructor]. intros r l Hr Hl. cbn in Hr. repeat (destruct Hr as [<- | Hr]; [cbn in Hl; repeat (destruct Hl as [<- | Hl]; [first [exact I | split; [discriminate | exact I]] |]) |]); contradiction.
  - apply all_cons; [exact Hi |]. apply forallb_all_utf8. vm_compute. reflexivity.
Qed.

Lemma record_short id a t : (String.length id <= 10)%nat -> slen a < 1000 -> short (put_fields (fs_policy_record (mkPRec (pol id) a t) [])).
Proof.
  intros Hi Ha. unfold short. eapply N.le_lt_trans; [apply slen_record |]. cbn [pr_policy pr_app].
  assert (H : slen (put_fields (fs_policy (pol id) [])) <= 1000); [| lia].
  unfold fs_policy. rewrite put_fields_app, slen_app. pose proof (slen_str 1 (p_id (pol id))) as H1. change (p_id (pol id)) with id in *. unfold slen in H1 at 2.
  match goal with |- _ + ?x <= _ => assert (H2 : x <= 800) by (vm_compute; discriminate) end. lia.
Qed.

Lemma create_ok id : utf8_valid id = true -> (String.length id <= 10)%nat -> acceptable E0 L0 recursion_limit (k_create id).
Proof.
  intros Hi Hn. destruct (pol_ok id Hi) as (H1 & H2 & H3). split.
  - split; [exact H3 |]. split; [exact H1 |]. eapply Nat.le_trans; [exact H2 |]. apply Nat.leb_le. vm_compute. reflexivity.
  - split; [vm_compute; reflexivity |]. intros p t attrs [= <-] Ht Hp. apply Permutation_sym, Permutation_nil in Hp as ->. apply record_short; [exact Hn | reflexivity].
Qed.

Definition k_update (id app : string) : served := (4, 9%nat, KUpdatePolicy (Some (SentPolicy (pol id))) app 1).
Lemma update_ok id ap : utf8_valid id = true -> (String.length id <= 10)%nat -> slen ap < 1000 -> acceptable E0 L0 recursion_limit (k_update id ap).
Proof.
  intros Hi Hn Ha. destruct (pol_ok id Hi) as (H1 & H2 & H3). split.
  - split; [exact H3 |]. split; [| vm_compute; reflexivity]. split; [exact H1 |]. eapply Nat.le_trans; [exact H2 |]. apply Nat.leb_le. vm_compute. reflexivity.
  - intros p t attrs [= <-] Ht Hp. apply Permutation_sym, Permutation_nil in Hp as ->. apply record_short; [exact Hn | exact Ha].
Qed.

Definition k_yaml : served := (5, 9%nat, KCreatePolicy (Some (SentYaml "id: y")) "").
Lemma yaml_create_ok : acceptable E0 L0 recursion_limit k_yaml.
Proof.
  split; [split; [apply forallb_all_utf8; vm_compute; reflexivity | exact I] |]. split; [vm_compute; reflexivity |].
  intros p t attrs Hp Ht Ha. assert (He : p = map_policy_definition shop) by (injection Hp as <-; reflexivity). clear Hp. subst p.
  apply Permutation_sym, Permutation_length_1_inv in Ha as ->. unfold short. eapply N.le_lt_trans; [apply slen_record |]. cbn [pr_policy pr_app].
  assert (H : slen (put_fields (fs_policy (map_policy_definition shop) [("k", "v")])) <= 1000) by (vm_compute; discriminate). change (slen "") with 0. lia.
Qed.

Definition file_owner : relationship := tup "file" "f" "owner" (user "bob").
Lemma owner_ok pid : utf8_valid pid = true -> acceptable E0 L0 recursion_limit (k_set pid file_owner).
Proof.
  intros Hi. split.
  - split; [| exact I]. apply all_cons; [exact Hi |]. apply forallb_all_utf8. vm_compute. reflexivity.
  - split; [vm_compute; reflexivity |]. intros e [= <-]. split; vm_compute; reflexivity.
Qed.

Definition ask (c : call) : served := (3, 9%nat, c).
Definition bob_reads : option access_request := Some (mkAccess (Some (ent "file" "f")) "reader" (Some (ent "user" "bob"))).

Ltac texts :=
  lazymatch goal with
  | |- acceptable _ _ _ (k_create _) => apply create_ok; [reflexivity | cbn; lia]
  | |- acceptable _ _ _ (k_update _ _) => apply update_ok; [reflexivity | cbn; lia | reflexivity]
  | |- acceptable _ _ _ k_yaml => exact yaml_create_ok
  | |- acceptable _ _ _ (k_set _ _) => apply owner_ok; reflexivity
  | _ => split; [split; [apply forallb_all_utf8; vm_compute; reflexivity | try exact I] | exact I]
  end.

(** Every method over gRPC, on a store that starts empty: all hypotheses hold, and this is what is seen. *)
Definition tour : list served :=
  [k_create "p"; k_set "p" file_owner; k_update "p" "new"; ask (KGetPolicy "p"); k_yaml; ask (KGetPolicy "y");
   ask (KCheck "p" bob_reads); ask (KExplainCheck "p" bob_reads FDot); ask (KExplainCheck "p" bob_reads FJson); ask (KExpand "p" (Some (NSet (Some (ent "file" "f")) "owner")) FDot);
   ask (KGetRelationship "p" (Some file_owner)); ask (KFindRelationshipRecords "p" everything); ask (KDumpRelationships "p" 0); ask (KDumpRelationships "p" 1);
   ask (KCheck "none" bob_reads); ask KListPolicyIds; ask (KDeleteRelationship "p" (Some file_owner));
   ask (KDeleteRelationship "p" (Some file_owner)); k_set "p" file_owner; k_set "p" file_owner; ask (KDeleteRelationships "p" everything); k_set "p" file_owner; ask (KDeletePolicy "p");
   ask (KDeletePolicy "p"); ask (KGetPolicy "p")].

Example C100_tour :
  Forall (acceptable E0 L0 recursion_limit) tour /\ Forall (call_fits keep) tour /\ Forall (outcome_fits keep) (fst (local_all E0 L0 tour empty_store)) /\
  Forall complete (fst (local_all E0 L0 tour empty_store)) /\
  fst (remote_all E0 L0 recursion_limit keep tour empty_bytes) =
    [Got (PCreated (Some (mkPRec (pol "p") "app" 1))); Got (PSet false); Got PUpdated; Got (PPolicy (Some (mkPRec (pol "p") "new" 1)));
     Got (PCreated (Some (mkPRec (map_policy_definition shop) "" 5))); Got (PPolicy (Some (mkPRec (map_policy_definition shop) "" 5)));
     Got (PDecision (Some true)); Got (PExplained "dot" true FSpew); Told ESerialize; Got (PExpanded "dot" FDot);
     Got (PRecord (Some (mkRRec "p" file_owner 2 "data"))); Got (PRecords (Some [Some (mkRRec "p" file_owner 2 "data")])); Got (PDumped (Some "dump")); Told EInvalidVariant;
     Told EPolicyNotFound; Got (PPolicyIds ["p"; "y"]); Got (PDeleted true);
     Got (PDeleted false); Got (PSet false); Got (PSet true); Got (PCount 1); Got (PSet false); Got (PDeletedPolicy true 1); Got (PDeletedPolicy false 0); Got (PPolicy None)].
Proof.
  split; [unfold tour; repeat (apply Forall_cons || apply Forall_nil); texts; try (vm_compute; reflexivity); split; discriminate |].
  split; [unfold tour; repeat (apply Forall_cons || apply Forall_nil); vm_compute; reflexivity |].
  assert (H : fst (local_all E0 L0 tour empty_store) =
    [Got (PCreated (Some (mkPRec (pol "p") "app" 1))); Got (PSet false); Got PUpdated; Got (PPolicy (Some (mkPRec (pol "p") "new" 1)));
     Got (PCreated (Some (mkPRec (map_policy_definition shop) "" 5))); Got (PPolicy (Some (mkPRec (map_policy_definition shop) "" 5)));
     Got (PDecision (Some true)); Got (PExplained "dot" true FSpew); Told ESerialize; Got (PExpanded "dot" FDot);
     Got (PRecord (Some (mkRRec "p" file_owner 2 "data"))); Got (PRecords (Some [Some (mkRRec "p" file_owner 2 "data")])); Got (PDumped (Some "dump")); Told EInvalidVariant;
     Told EPolicyNotFound; Got (PPolicyIds ["p"; "y"]); Got (PDeleted true);
     Got (PDeleted false); Got (PSet false); Got (PSet true); Got (PCount 1); Got (PSet false); Got (PDeletedPolicy true 1); Got (PDeletedPolicy false 0); Got (PPolicy None)]) by (vm_compute; reflexivity).
  split; [rewrite H; repeat (apply Forall_cons || apply Forall_nil); cbn [outcome_fits]; try exact I; split; try (vm_compute; reflexivity); exact I |].
  split; [rewrite H; clear H | vm_compute; reflexivity]. repeat (apply Forall_cons; [intros l; try discriminate |]); [| apply Forall_nil]. intros [= <-] [Hi | []]; discriminate.
Qed.

(** Three clients at the same time. *)
Example C100_together :
  let xs := [k_create "p"; k_set "p" file_owner; ask (KCheck "p" bob_reads)] in
  let es := repeat (0%nat, @rev (string * string)) 5 ++ repeat (1%nat, @rev (string * string)) 5 ++ repeat (2%nat, @rev (string * string)) 40 in
  let c := byte_interleave recursion_limit es (map (fun x => serve E0 (as_request L0 x)) xs, empty_bytes) in
  map (fun i => match nth_error xs i, byte_answered c i with Some x, Some a => deliver L0 recursion_limit keep (snd x) a | _, _ => Waiting end) [0; 1; 2]%nat =
    [Got (PCreated (Some (mkPRec (pol "p") "app" 1))); Got (PSet false); Got (PDecision (Some true))].
Proof. vm_compute. reflexivity. Qed.

(** The policy of the limit's depth, under a small limit. *)
Example C100_deep_example :
  let b := snd (byte_run 20 keep (serve E0 (QCreatePolicy 1 (Some (DPolicy (deep_policy 6))) "")) empty_bytes) in
  fst (byte_run 20 keep (serve E0 (QGetPolicy "p")) b) = Ok (APolicy (Some (mkPRec (deep_policy 6) "" 1))) /\
  fst (remote E0 L0 20 keep 1 0 (KGetPolicy "p") b) = Garbled /\
  fst (remote E0 L0 21 keep 1 0 (KGetPolicy "p") b) = Got (PPolicy (Some (mkPRec (deep_policy 6) "" 1))).
Proof. vm_compute. auto. Qed.

(** *** Where the views differ *)

(** Two policies share a relationship and one of them deletes it: the other's list has a record that is missing (nil) in the
    same process and empty over gRPC.  So the views are not the same in general. *)
Definition shared : list served :=
  [k_create "p"; k_create "q"; k_set "p" file_owner; k_set "q" file_owner; ask (KDeleteRelationship "p" (Some file_owner)); ask (KFindRelationshipRecords "q" everything)].

Theorem C100_same_view_refuted :
  ~ forall E L lim ord xs, (9 <= lim)%nat -> texts_ok L -> (forall l, Permutation (ord l) l) ->
      Forall (acceptable E L lim) xs -> Forall (call_fits ord) xs -> Forall (outcome_fits ord) (fst (local_all E L xs empty_store)) ->
      fst (remote_all E L lim ord xs empty_bytes) = fst (local_all E L xs empty_store).
Proof.
  intros H. specialize (H E0 L0 recursion_limit keep shared limit_ok L0_ok keep_ok).
  assert (Hl : fst (local_all E0 L0 shared empty_store) =
    [Got (PCreated (Some (mkPRec (pol "p") "app" 1))); Got (PCreated (Some (mkPRec (pol "q") "app" 1))); Got (PSet false); Got (PSet false); Got (PDeleted true);
     Got (PRecords (Some [None]))]) by (vm_compute; reflexivity).
  assert (Hr : nth_error (fst (remote_all E0 L0 recursion_limit keep shared empty_bytes)) 5 = Some (Got (PRecords (Some [Some no_record])))) by (vm_compute; reflexivity).
  assert (Hx : fst (remote_all E0 L0 recursion_limit keep shared empty_bytes) = fst (local_all E0 L0 shared empty_store)); [apply H; clear H Hr |].
  - unfold shared. repeat (apply Forall_cons || apply Forall_nil); texts. split; discriminate.
  - unfold shared. repeat (apply Forall_cons || apply Forall_nil); vm_compute; reflexivity.
  - rewrite Hl. repeat (apply Forall_cons || apply Forall_nil); split; try (vm_compute; reflexivity); exact I.
  - remember (fst (remote_all E0 L0 recursion_limit keep shared empty_bytes)) as x. rewrite Hx, Hl in Hr. clear -Hr. discriminate.
Qed.

Lemma record_deep_any d r0 r attrs : policy_ok (pr_policy r) -> (d <= nest_policy (pr_policy r))%nat ->
  short (put_fields (fs_policy_record r attrs)) -> message step_policy_record d r0 (put_fields (fs_policy_record r attrs)) = None.
Proof.
  intros Ho Hd Hs. destruct d as [| d]; [reflexivity |].
  assert (Hin : In (1, WLen (put_fields (fs_policy (pr_policy r) attrs))) (fs_policy_record r attrs)) by (left; reflexivity).
  apply (message_none _ _ _ _ _ _ (simple_record r attrs) Hs Hin). intros a. cbn [step_policy_record].
  rewrite policy_deep; [reflexivity | exact Ho | exact Hd |]. inner Hs. exact Hin.
Qed.

(** A policy whose tree is as deep as can be stored: a client in the same process creates and reads it; a remote client cannot
    read it.  10000, the limit of protobuf-go, is such a limit. *)
Theorem C100_deep_policy_refuted : forall E L ord now app n, let lim := (2 * n + 8)%nat in
  (1 <= n)%nat -> N.of_nat n < 2 ^ 50 -> slen app < 2 ^ 50 -> (forall l, Permutation (ord l) l) -> time_ok now ->
  exists p b, well_formed E p /\ policy_ok p /\ all_utf8 (policy_texts p) /\
    byte_run lim ord (serve E (QCreatePolicy now (Some (DPolicy p)) app)) empty_bytes = (Ok (ACreated (mkPRec p app now)), b) /\
    byte_run lim ord (serve E (QGetPolicy (p_id p))) b = (Ok (APolicy (Some (mkPRec p app now))), b) /\
    remote E L lim ord now 0 (KGetPolicy (p_id p)) b = (Garbled, b).
Proof.
  intros E L ord now ap n lim Hn Hs1 Hs2 Ho Ht. assert (Hlim : lim = (2 * n + 8)%nat) by reflexivity. clearbody lim. destruct (ok_deep_policy n) as (H1 & H2 & H3).
  assert (Hnil : ord [] = []) by (apply Permutation_nil, Permutation_sym, Ho).
  pose (rec := mkPRec (deep_policy n) ap now). pose (v := put_fields (fs_policy_record rec [])).
  assert (Hsh : short v).
  { unfold short, v. eapply N.le_lt_trans; [apply slen_record |]. cbn [rec pr_policy pr_app]. pose proof (slen_deep_policy n). change (2 ^ 50) with 1125899906842624 in *. lia. }
  assert (Hu : unmarshal_policy lim v = Some rec).
  { apply record_round; [| exact Ht | apply Permutation_refl | exact Hsh]. split; [exact H2 |]. split; [exact H1 |]. cbn [rec pr_policy]. rewrite H3. lia. }
  assert (Hr : read (unmarshal_policy lim) (kv_get scmp "p" [("p", v)]) = Some (Some rec)).
  { change (kv_get scmp "p" [("p", v)]) with (Some v). unfold read. rewrite Hu. reflexivity. }
  assert (Hget : byte_run lim ord (serve E (QGetPolicy "p")) (mkBytes [("p", v)] [] []) = (Ok (APolicy (Some rec)), mkBytes [("p", v)] [] [])).
  { cbn [serve]. unfold get_policy, repo_get_policy, respond, rbind. cbn [pbind byte_run b_pol]. rewrite Hr. reflexivity. }
  exists (deep_policy n), (mkBytes [("p", v)] [] []). split; [apply verify_ok, verify_deep |]. split; [exact H1 |]. split; [exact H2 |]. split; [| split; [exact Hget |]].
  - cbn [serve]. unfold create_policy, respond, lift, rbind. cbn [pbind get_policy_from_definition]. unfold repo_get_policy. cbn [pbind byte_run empty_bytes b_pol kv_get read].
    rewrite verify_deep. cbn [pbind]. unfold repo_set_policy. cbn [pbind byte_run pr_policy]. unfold marshal_policy. cbn [pr_policy].
    rewrite (all_utf8_forallb _ H2). change (p_attrs (deep_policy n)) with (@nil (string * string)). rewrite Hnil. reflexivity.
  - unfold remote. change (p_id (deep_policy n)) with "p".
    assert (Hp : proper lim (KGetPolicy "p")) by (split; [apply utf8_one; reflexivity | exact I]).
    destruct (C100_request lim ord (KGetPolicy "p") ltac:(lia) Ho Hp) as (m & Hm & Hc). rewrite Hm. rewrite Hc; [| injection Hm as <-; vm_compute; reflexivity].
    cbn [request_of]. rewrite Hget. cbn [fst snd]. f_equal. cbn [deliver reply_of method_of]. unfold marshal_reply. cbn [reply_texts opt_texts rec pr_policy]. rewrite (all_utf8_forallb _ H2).
    cbn [unmarshal_reply fs_reply f_opt rec pr_policy]. change (p_attrs (deep_policy n)) with (@nil (string * string)). rewrite Hnil.
    change (f_msg 1 (fs_policy_record (mkPRec (deep_policy n) ap now) [])) with [(1, WLen v)].
    replace lim with (S (2 * n + 7)) by lia.
    rewrite (message_none _ _ None [(1, WLen v)] 1 v); [reflexivity | | | left; reflexivity |].
    + apply (simple_msg 1 (fs_policy_record rec [])). lia.
    + unfold short. cbn [put_fields]. rewrite slen_app, slen_nil. pose proof (slen_len 1 v). eapply N.le_lt_trans; [apply N.add_le_mono_r; exact H |]. eapply N.le_lt_trans; [apply N.add_le_mono_r, N.add_le_mono_r, (slen_record rec []) |].
      cbn [rec pr_policy pr_app]. pose proof (slen_deep_policy n). change (2 ^ 50) with 1125899906842624 in *. lia.
    + intros a. cbn [step_one]. unfold v. rewrite record_deep_any; [reflexivity | exact H1 | cbn [rec pr_policy]; lia | exact Hsh].
Qed.

Print Assumptions C100_request.
Print Assumptions C100_received.
Print Assumptions C100_arrives.
Print Assumptions C100_arrives_only.
Print Assumptions C100_answers.
Print Assumptions C100_history.
Print Assumptions C100_same.
Print Assumptions C100_same_view_refuted.
Print Assumptions C100_deep_policy_refuted.
