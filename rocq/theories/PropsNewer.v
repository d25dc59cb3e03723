(** Properties of messages from programs with a later version of the protobuf definitions. *)
From Coq Require Import Permutation.
From Verif Require Import Base Domain Lexer Store Yaml Service Api Wire SpecWire WireFacts Rpc SpecRpc RpcFacts SpecNewer NewerFacts Fixtures.
Local Open Scope N_scope.

(** ** C108 *)

(** Further fields in a request, at any level, and another order of the fields of any of its messages, change nothing that the
    server reads. *)
Theorem C108_request : forall m lim fs gs, extended (request_kind m) fs gs -> unmarshal_call m lim (put_fields gs) = unmarshal_call m lim (put_fields fs).
Proof. intros m lim fs gs H. symmetry. apply call_extended. exact H. Qed.
Print Assumptions C108_request.

(** Nor do they in a response change what a client reads. *)
Theorem C108_response : forall m lim fs gs, extended (response_kind m) fs gs -> unmarshal_reply m lim (put_fields gs) = unmarshal_reply m lim (put_fields fs).
Proof. intros m lim fs gs H. symmetry. apply reply_extended. exact H. Qed.
Print Assumptions C108_response.

(** Nor do they in a stored record change what an earlier version of the server reads. *)
Theorem C108_stored : forall lim fs gs,
  (extended PolicyRecord fs gs -> unmarshal_policy lim (put_fields gs) = unmarshal_policy lim (put_fields fs)) /\
  (extended Edge fs gs -> unmarshal_edge lim (put_fields gs) = unmarshal_edge lim (put_fields fs)) /\
  (extended Data fs gs -> unmarshal_data lim (put_fields gs) = unmarshal_data lim (put_fields fs)).
Proof.
  intros lim fs gs. split; [| split]; intros H; symmetry; (eapply message_extended; [| exact H]); intros d.
  - apply agrees_policy_record.
  - apply agrees_edge.
  - apply agrees_data.
Qed.
Print Assumptions C108_stored.

(** A client may write the fields of a request in any order. *)
Theorem C108_order : forall m lim fs gs, Forall well_formed fs -> NoDup (map fst fs) -> Permutation fs gs ->
  unmarshal_call m lim (put_fields gs) = unmarshal_call m lim (put_fields fs).
Proof. intros m lim fs gs Hw Hn Hp. apply C108_request, permuted_extended; try assumption. destruct m; reflexivity. Qed.
Print Assumptions C108_order.

(** Nor does the order of the fields of a stored record matter. *)
Theorem C108_stored_order : forall lim fs gs, Forall well_formed fs -> NoDup (map fst fs) -> Permutation fs gs ->
  unmarshal_policy lim (put_fields gs) = unmarshal_policy lim (put_fields fs) /\
  unmarshal_edge lim (put_fields gs) = unmarshal_edge lim (put_fields fs) /\
  unmarshal_data lim (put_fields gs) = unmarshal_data lim (put_fields fs).
Proof.
  intros lim fs gs Hw Hn Hp. split; [| split]; apply (C108_stored lim fs gs); apply permuted_extended; auto.
Qed.
Print Assumptions C108_stored_order.

(** A client may also write the empty texts of a request. *)
Theorem C108_empty : forall m lim n fs, In n (request_texts m) -> Forall well_formed fs ->
  unmarshal_call m lim (put_fields ((n, WLen "") :: fs)) = unmarshal_call m lim (put_fields fs).
Proof.
  intros m lim n fs Hn Hw. assert (Hz : 0 < n <= 15) by (destruct m; cbn in Hn; lia). destruct lim as [| lim]; [destruct m; reflexivity |].
  destruct m; cbn [request_texts In] in Hn; repeat destruct Hn as [<- | Hn]; try contradiction; cbn [unmarshal_call]; unfold unmarshal_set_request;
    apply (f_equal (omap _)); cbn [message]; rewrite (get_put_all _ (well_empty _ _ Hz Hw)), (get_put_all _ Hw); reflexivity.
Qed.
Print Assumptions C108_empty.

Lemma simple_well fs : Forall simple fs -> short (put_fields fs) -> Forall well_formed fs.
Proof.
  intros Hf Hs. rewrite Forall_forall in *. intros [n v] Hi. specialize (Hf _ Hi). destruct Hf as [Hn Hv]. cbn [fst snd] in *. split; [cbn [fst]; lia |].
  destruct v as [x | s | s]; cbn [snd carried]; [exact Hv | | destruct Hv]. pose proof (short_in fs n s Hs Hi) as H. unfold short in H. lia.
Qed.

Lemma call_numbers ord c : NoDup (map fst (fs_call ord c)).
Proof.
  pose (nums := fun fs : list field => map fst fs). change (NoDup (nums (fs_call ord c))).
  assert (Happ : forall l1 l2, nums (l1 ++ l2) = nums l1 ++ nums l2) by (intros; apply map_app).
  assert (Hnil : nums [] = []) by reflexivity.
  assert (Hstr : forall n s, nums (f_str n s) = [] \/ nums (f_str n s) = [n]) by (intros n [| x s]; auto).
  assert (Hopt : forall A n (g : A -> list field) o, nums (f_opt n g o) = [] \/ nums (f_opt n g o) = [n]) by (intros A n g [x |]; auto).
  assert (Hint : forall n v, nums (f_int n v) = [] \/ nums (f_int n v) = [n]) by (intros n v; unfold f_int; destruct (v =? 0); auto).
  clearbody nums.
  destruct c; cbn [fs_call]; unfold fs_about; rewrite ?Happ, ?Hnil;
    repeat match goal with
    | |- context [nums (f_str ?n ?s)] => destruct (Hstr n s) as [-> | ->]
    | |- context [nums (f_opt ?n ?g ?o)] => destruct (Hopt _ n g o) as [-> | ->]
    | |- context [nums (f_int ?n ?v)] => destruct (Hint n v) as [-> | ->]
    end; cbn [Datatypes.app]; repeat (first [apply NoDup_nil | apply NoDup_cons]); cbn [In]; intros H;
    repeat match goal with H : _ \/ _ |- _ => destruct H as [H | H] end; first [destruct H; fail | discriminate H].
Qed.

(** So a call arrives as it was made, from a client that writes its fields in another order and writes more fields. *)
Theorem C108_arrives : forall lim ord c fs gs, (9 <= lim)%nat -> (forall l, Permutation (ord l) l) -> proper lim c -> short (put_fields (fs_call ord c)) ->
  Permutation (fs_call ord c) fs -> extended (request_kind (method_of c)) fs gs ->
  unmarshal_call (method_of c) lim (put_fields gs) = Some c.
Proof.
  intros lim ord c fs gs Hl Ho Hc Hs Hp He. rewrite (C108_request _ _ _ _ He), (C108_order _ _ (fs_call ord c) fs).
  - apply call_round; assumption.
  - apply simple_well; [eapply simple_call; exact Hc | exact Hs].
  - apply call_numbers.
  - exact Hp.
Qed.
Print Assumptions C108_arrives.

(** A request to set a relationship, and the same from a client whose entities have a number of eight bytes, whose relationships
    have one of four, and whose requests have a number and a text; then in another order. *)
Definition bytes (l : list N) : string := fold_right (fun n s => String (ascii_of_N n) s) "" l.

Example C108_case :
  let object := [(1, WLen "f")] in
  let object' := [(1, WLen "f"); (18, WFixed (bytes [1; 2; 3; 4; 5; 6; 7; 8]))] in
  let rel := [(1, WLen (put_fields object)); (2, WLen "ll")] in
  let rel' := [(1, WLen (put_fields object')); (2, WLen "ll"); (17, WFixed (bytes [1; 2; 3; 4]))] in
  let fs := [(1, WLen "p"); (2, WLen (put_fields rel))] in
  let gs := [(1, WLen "p"); (2, WLen (put_fields rel')); (16, WVarint 7); (19, WLen (bytes [9; 9]))] in
  let c := KSetRelationship "p" (Some (mkRel (Some (mkEntity "f" "")) "ll" None)) "" in
  extended (request_kind MSetRelationship) fs gs /\
  put_fields fs = bytes [10; 1; 112; 18; 9; 10; 3; 10; 1; 102; 18; 2; 108; 108] /\
  put_fields gs = bytes [10; 1; 112; 18; 25; 10; 13; 10; 1; 102; 145; 1; 1; 2; 3; 4; 5; 6; 7; 8; 18; 2; 108; 108; 141; 1; 1; 2; 3; 4;
    128; 1; 7; 154; 1; 2; 9; 9] /\
  map (fun l => unmarshal_call MSetRelationship recursion_limit (put_fields l)) [fs; gs; rev gs] = [Some c; Some c; Some c].
Proof.
  assert (W : forall n v, 0 < n <= 536870911 -> carried v -> well_formed (n, v)) by (intros; split; assumption).
  assert (F : forall n v, 15 < n <= 536870911 -> carried v -> foreign (n, v)) by (intros n v H1 H2; split; [split; [cbn [fst]; lia | assumption] | cbn [fst]; lia]).
  cbv zeta. split; [| vm_compute; auto]. cbn [request_kind].
  apply ext_same; [apply W; [lia | reflexivity] |].
  apply ext_inner with (i := Relationship); [left; reflexivity | | apply W; [lia | reflexivity] | apply W; [lia | reflexivity] |].
  - apply ext_inner with (i := Flat); [left; reflexivity | | apply W; [lia | reflexivity] | apply W; [lia | reflexivity] |].
    + apply ext_same; [apply W; [lia | reflexivity] |]. apply ext_more; [apply F; [lia | right; reflexivity] |]. constructor.
    + apply ext_same; [apply W; [lia | reflexivity] |]. apply ext_more; [apply F; [lia | left; reflexivity] |]. constructor.
  - apply ext_more; [apply F; [lia | reflexivity] |]. apply ext_more; [apply F; [lia | reflexivity] |]. constructor.
Qed.

(** Nanoseconds before seconds, the time before the application data, and a relation before its object: read as in the usual order. *)
Example C108_order_case :
  let time := [(1, WVarint 5); (2, WVarint 7)] in
  let data := [(2, WLen (put_fields time)); (3, WLen "x")] in
  let data' := [(3, WLen "x"); (2, WLen (put_fields (rev time)))] in
  let object := [(1, WLen "f"); (2, WLen "a")] in
  let rel := [(1, WLen (put_fields object)); (2, WLen "ll")] in
  let rel' := [(2, WLen "ll"); (1, WLen (put_fields (rev object)))] in
  extended Data data data' /\ extended Relationship rel rel' /\
  map (fun l => unmarshal_data recursion_limit (put_fields l)) [data; data'] = [Some (mkData "x" 5000000007); Some (mkData "x" 5000000007)] /\
  map (fun l => unmarshal_call MSetRelationship recursion_limit (put_fields [(2, WLen (put_fields l))])) [rel; rel'] =
    [Some (KSetRelationship "" (Some (mkRel (Some (mkEntity "f" "a")) "ll" None)) ""); Some (KSetRelationship "" (Some (mkRel (Some (mkEntity "f" "a")) "ll" None)) "")].
Proof.
  assert (W : forall n v, 0 < n <= 536870911 -> carried v -> well_formed (n, v)) by (intros; split; assumption).
  assert (A : forall k n m, choice k = [] -> n <> m -> apart k n m) by (intros k n m Hk Hn; split; [exact Hn | rewrite Hk; intros [[] _]]).
  cbv zeta. split; [| split; [| vm_compute; auto]].
  - eapply ext_then; [| apply ext_swap; [apply A; [reflexivity | discriminate] | apply W; [lia | reflexivity] | apply W; [lia | reflexivity] | apply ext_nil]].
    eapply ext_inner with (i := Flat); [left; reflexivity | | apply W; [lia | reflexivity] | apply W; [lia | reflexivity] | apply ext_same; [apply W; [lia | reflexivity] | apply ext_nil]].
    apply ext_swap; [apply A; [reflexivity | discriminate] | apply W; [lia | reflexivity] | apply W; [lia | reflexivity] | apply ext_nil].
  - eapply ext_then; [| apply ext_swap; [apply A; [reflexivity | discriminate] | apply W; [lia | reflexivity] | apply W; [lia | reflexivity] | apply ext_nil]].
    eapply ext_inner with (i := Flat); [left; reflexivity | | apply W; [lia | reflexivity] | apply W; [lia | reflexivity] | apply ext_same; [apply W; [lia | reflexivity] | apply ext_nil]].
    apply ext_swap; [apply A; [reflexivity | discriminate] | apply W; [lia | reflexivity] | apply W; [lia | reflexivity] | apply ext_nil].
Qed.

(** Attributes without their empty value, and one without its empty key, from a client that leaves out what is empty. *)
Example C108_empty_case :
  let entry (k v : string) : field := (5, WLen (put_fields [(1, WLen k); (2, WLen v)])) in
  let policy := [(1, WLen "p"); entry "a" ""; entry "" "x"] in
  let policy' := [(1, WLen "p"); (5, WLen (put_fields [(1, WLen "a")])); (5, WLen (put_fields [(2, WLen "x")]))] in
  let request (l : list field) := put_fields [(1, WLen (put_fields [(1, WLen (put_fields l))]))] in
  extended Policy policy policy' /\
  map (fun l => unmarshal_call MCreatePolicy recursion_limit (request l)) [policy; policy'] =
    let c := Some (KCreatePolicy (Some (SentPolicy (mkPolicy "p" "" "" [] [("", "x"); ("a", "")]))) "") in [c; c].
Proof.
  assert (W : forall n v, 0 < n <= 536870911 -> carried v -> well_formed (n, v)) by (intros; split; assumption).
  cbv zeta. split; [| vm_compute; reflexivity]. apply ext_same; [apply W; [lia | reflexivity] |].
  assert (S : forall gs hs, extended Policy gs hs -> extended Policy ((5, WLen (put_fields [(1, WLen "a"); (2, WLen "")])) :: gs) ((5, WLen (put_fields [(2, WLen ""); (1, WLen "a")])) :: hs)).
  { intros gs hs H. apply ext_inner with (i := Flat); [right; left; reflexivity | | apply W; [lia | reflexivity] | apply W; [lia | reflexivity] | exact H].
    apply ext_swap; [split; [discriminate | intros [[] _]] | apply W; [lia | reflexivity] | apply W; [lia | reflexivity] | apply ext_nil]. }
  eapply ext_then; [apply S | apply ext_left_out with (l := [1; 2])].
  - apply ext_left_out with (l := [1; 2]); [right; left; reflexivity | left; reflexivity | | apply W; [lia | reflexivity] | apply W; [lia | reflexivity] | apply ext_nil].
    constructor; [apply W; [lia | reflexivity] | constructor].
  - right; left; reflexivity.
  - right; left; reflexivity.
  - constructor; [apply W; [lia | reflexivity] | constructor].
  - apply W; [lia | reflexivity].
  - apply W; [lia | reflexivity].
  - apply ext_same; [apply W; [lia | reflexivity] | apply ext_nil].
Qed.

(** Of two members of a oneof the last one counts, so their order matters: a subject that is a user and a resource. *)
Example C108_oneof_case :
  let user := (1, WLen (put_fields [(1, WLen "user"); (2, WLen "bob")])) in
  let all := (3, WLen (put_fields [(1, WLen "user")])) in
  map (fun l => unmarshal_call MSetRelationship recursion_limit (put_fields [(2, WLen (put_fields [(3, WLen (put_fields l))]))])) [[user; all]; [all; user]] =
    [Some (KSetRelationship "" (Some (mkRel None "" (Some (SResourceSet "user")))) "");
     Some (KSetRelationship "" (Some (mkRel None "" (Some (SEntity (mkEntity "user" "bob"))))) "")].
Proof. vm_compute. reflexivity. Qed.

(** Numbers that are cut off, and a wire type that there is not. *)
Example C108_cut :
  map (unmarshal_call MGetPolicy recursion_limit)
    [bytes [10; 1; 112; 141; 1; 1; 2; 3]; bytes [10; 1; 112; 145; 1; 1; 2; 3; 4; 5; 6; 7]; bytes [10; 1; 112; 142; 1; 1; 2; 3; 4];
     bytes [10; 1; 112; 141; 1; 1; 2; 3; 4]] = [None; None; None; Some (KGetPolicy "p")].
Proof. vm_compute. reflexivity. Qed.
