(** Properties of requests as JSON: C114, C115, C116, C117. *)
From Coq Require Import ZArith Permutation Sorted.
From Verif Require Import Base BaseFacts Domain Lexer Parser Validate Store Search Explain Yaml Service Dump Api Fault Wire SpecStore SpecPolicy SpecConc SpecWire WireFacts
  Rpc SpecRpc RpcFacts Fixtures Cli SpecCli CliFacts PropsRpc PropsCli Json SpecJson JsonFacts JsonReads JsonRecv.
Local Open Scope N_scope.

(** ** C114: JSON carries every request *)

(** What any writer makes of a request is read as that request. *)
Theorem C114_written : forall d st lim c, plain st -> proper lim c -> read_call d (method_of c) (json_call st c) = Some c.
Proof. intros d st lim c Hs Hc. exact (call_json d st Hs lim c Hc). Qed.

(** The document that follows the .proto files is what a writer makes that writes all fields. *)
Definition full : style := mkStyle f_json (fun _ => true).
Lemma full_plain : plain full.
Proof. intros f. left. reflexivity. Qed.
Lemma full_text f s : w_text full f s = [(f, JStr s)].
Proof. destruct s; reflexivity. Qed.
Lemma full_bytes f s : w_bytes full f s = [(f, JStr (base64 s))].
Proof. apply full_text. Qed.
Lemma full_opt A (w : A -> json) f o : w_opt full w f o = [(f, maybe w o)].
Proof. destruct o; reflexivity. Qed.
Lemma full_list A (w : A -> json) f l : w_list full w f l = [(f, JArr (map w l))].
Proof. destruct l; reflexivity. Qed.
Lemma full_map f l : w_map full f l = [(f, JObj (map (fun x => (fst x, JStr (snd x))) l))].
Proof. destruct l; reflexivity. Qed.
Lemma full_enum t f n : w_enum full t f n = [(f, enum_json t n)].
Proof. unfold w_enum. destruct (N.eqb_spec n 0) as [-> |]; reflexivity. Qed.
Lemma maybe_ext A (f g : A -> json) o : (forall x, f x = g x) -> maybe f o = maybe g o.
Proof. intros H. destruct o; [apply H | reflexivity]. Qed.
Ltac full := unfold two_texts, one_text, member, no_members, json_entity_set, json_about;
  rewrite ?full_text, ?full_bytes, ?full_opt, ?full_list, ?full_map, ?full_enum; unfold object; cbn [map app fst snd];
  repeat match goal with |- context [st_name full ?x] => let y := eval vm_compute in (f_json x) in change (st_name full x) with y end.

Lemma full_entity e : json_entity full e = doc_entity e.
Proof. unfold json_entity. full. reflexivity. Qed.
Lemma full_subject u : json_subject full u = doc_subject u.
Proof. destruct u; unfold json_subject; full; rewrite ?full_entity, ?(maybe_ext _ _ _ _ full_entity); reflexivity. Qed.
Lemma full_relationship r : json_relationship full r = doc_relationship r.
Proof. unfold json_relationship. full. rewrite (maybe_ext _ _ _ _ full_entity), (maybe_ext _ _ _ _ full_subject). reflexivity. Qed.
Lemma full_selector x : json_selector full x = doc_selector x.
Proof.
  destruct x as [o r u]. unfold json_selector. full. unfold doc_selector. cbn [s_obj s_rel s_subj].
  destruct o as [[[e |] | | |] |]; destruct r as [[| |] |]; destruct u as [[[u |] | | |] |]; cbn [maybe json_obj_selector json_rel_selector json_subj_selector]; full;
    rewrite ?full_entity, ?full_subject; reflexivity.
Qed.
Lemma full_access a : json_access full a = doc_access a.
Proof. unfold json_access. full. rewrite !(maybe_ext _ _ _ _ full_entity). reflexivity. Qed.
Lemma full_rnode n : json_rnode full n = doc_rnode n.
Proof. destruct n; unfold json_rnode; full; rewrite ?(maybe_ext _ _ _ _ full_entity); reflexivity. Qed.
Lemma full_rule r : json_rule full r = doc_rule r.
Proof. destruct r; unfold json_rule; full; reflexivity. Qed.

Lemma full_op o : op_ok o -> enum_json operator_names (op_code o) = doc_operator o.
Proof.
  destruct o as [| | | n]; try reflexivity. intros H. unfold enum_json, op_code. replace (by_number operator_names n) with (@None string); [reflexivity |].
  unfold by_number, operator_names. cbn [find snd omap]. cbn in H. destruct (N.eqb_spec 0 n); [lia |]. destruct (N.eqb_spec 1 n); [lia |]. destruct (N.eqb_spec 2 n); [lia | reflexivity].
Qed.
Lemma full_tree t : tree_ok t -> json_tree full t = doc_tree t.
Proof.
  induction t as [| | r | l IHl o r IHr]; intros H; cbn [json_tree doc_tree]; try (full; rewrite ?full_rule; reflexivity).
  destruct H as (Hl & Ho & Hr). full. rewrite (full_op o Ho). rewrite <- (IHl Hl), <- (IHr Hr). destruct l; destruct r; reflexivity.
Qed.
Lemma full_relation r : relation_ok r -> json_relation full r = doc_relation r.
Proof.
  intros H.
  assert (E1 : maybe (json_relexpr full) (rl_expr r) = maybe doc_relexpr (rl_expr r)).
  { destruct r as [n dc [[s | t |] |] rs]; cbn [rl_expr maybe json_relexpr doc_relexpr] in *; full; try reflexivity. rewrite full_tree; [reflexivity |]. apply H. }
  assert (E2 : maybe (json_subj_restriction full) (rl_restr r) = maybe doc_subj_restriction (rl_restr r)).
  { destruct (rl_restr r) as [[| l |] |]; cbn [maybe json_subj_restriction doc_subj_restriction]; full; try reflexivity.
    rewrite (map_ext (json_restriction full) doc_restriction); [reflexivity |]. intros x. destruct x; unfold json_restriction; full; reflexivity. }
  unfold json_relation. full. rewrite E1, E2. reflexivity.
Qed.
Lemma full_policy p : policy_ok p -> json_policy full p = doc_policy p.
Proof.
  intros [H _]. unfold json_policy. full. rewrite (map_ext_in (json_resource full) doc_resource); [reflexivity |]. intros r Hr. unfold json_resource. full.
  rewrite (map_ext_in (json_relation full) doc_relation); [reflexivity |]. intros x Hx. apply full_relation. exact (H r x Hr Hx).
Qed.
Lemma full_definition lim d : when (sent_ok lim) d -> maybe (json_sent full) d = maybe doc_definition d.
Proof. destruct d as [[p | s |] |]; cbn [when sent_ok maybe json_sent doc_definition]; intros H; full; try reflexivity. rewrite full_policy; [reflexivity | apply H]. Qed.
Lemma full_format f : format_ok f -> enum_json format_names (format_code f) = doc_format f.
Proof.
  destruct f as [| | | n]; try reflexivity. intros H. unfold enum_json, format_code. replace (by_number format_names n) with (@None string); [reflexivity |].
  unfold by_number, format_names. cbn [find snd omap]. cbn in H. destruct (N.eqb_spec 0 n); [lia |]. destruct (N.eqb_spec 1 n); [lia |]. destruct (N.eqb_spec 2 n); [lia | reflexivity].
Qed.
Lemma full_one s k : enum_json [(s, 0)] k = if k =? 0 then JStr s else doc_number k.
Proof. unfold enum_json, by_number. cbn [find snd]. rewrite N.eqb_sym. destruct (k =? 0); reflexivity. Qed.

Lemma full_call lim c : proper lim c -> json_call full c = doc_call c.
Proof.
  intros [_ H]. destruct c; cbn [json_call doc_call]; unfold strategy_names, dump_names; full; try reflexivity;
    rewrite ?(maybe_ext _ _ _ _ full_relationship), ?(maybe_ext _ _ _ _ full_selector), ?(maybe_ext _ _ _ _ full_access), ?(maybe_ext _ _ _ _ full_rnode), ?full_one;
    try reflexivity; try (rewrite (full_format _ H); reflexivity).
  - rewrite (full_definition lim); [reflexivity | exact H].
  - rewrite (full_definition lim); [reflexivity | apply H].
Qed.

(** The document that follows the .proto files is read as the request. *)
Theorem C114_document : forall d lim c, proper lim c -> read_call d (method_of c) (doc_call c) = Some c.
Proof. intros d lim c Hc. rewrite <- (full_call lim c Hc). exact (C114_written d full lim c full_plain Hc). Qed.

(** What is read is a request that can come over gRPC. *)
Theorem C114_received : forall d m j c, read_call d m j = Some c -> method_of c = m /\ exists lim, proper lim c.
Proof. intros d m j c. apply call_inv. Qed.

Definition usual : style := mkStyle f_json (fun _ => false).
Lemma usual_plain : plain usual.
Proof. intros f. left. reflexivity. Qed.

Lemma proper_more lim lim' c : (lim <= lim')%nat -> proper lim c -> proper lim' c.
Proof.
  intros Hl [H1 H2]. split; [exact H1 |]. destruct c; try exact H2;
    (try destruct H2 as [H2 H3]); try split; try exact H3; destruct d as [[p | s |] |]; cbn [when sent_ok] in *; try exact I; (destruct H2; split; [assumption | lia]).
Qed.

(** JSON and the binary encoding carry the same requests. *)
Theorem C114_same_requests : forall d m c, 
  (exists j, read_call d m j = Some c) <-> (exists lim b, unmarshal_call m lim b = Some c) \/
    (method_of c = m /\ exists lim b, proper lim c /\ marshal_call (fun l => l) c = Some b /\ ~ short b).
Proof.
  intros d m c. split.
  - intros (j & Hj). apply C114_received in Hj as (Hm & lim & Hc). assert (Hl : (lim <= 9 + lim)%nat) by lia.
    pose proof (proper_more lim (9 + lim) c Hl Hc) as Hc'. destruct (C100_request (9 + lim) (fun l => l) c ltac:(lia) (fun l => Permutation_refl l) Hc') as (b & Hb & Hu).
    destruct (N.ltb_spec (slen b) 9223372036854775808) as [Hs | Hs].
    + left. exists (9 + lim)%nat, b. rewrite <- Hm. apply Hu. exact Hs.
    + right. split; [exact Hm |]. exists (9 + lim)%nat, b. split; [exact Hc' |]. split; [exact Hb |]. unfold short. lia.
  - intros [(lim & b & Hb) | (Hm & lim & b & Hc & _)].
    + apply C100_received in Hb as [<- Hc]. exists (json_call usual c). eapply C114_written; [apply usual_plain | exact Hc].
    + rewrite <- Hm. exists (json_call usual c). eapply C114_written; [apply usual_plain | exact Hc].
Qed.

(** Application data may be written with either alphabet, and with or without padding. *)
Lemma url_round x : undigit true (if Ascii.eqb (digit x) "+" then "-"%char else if Ascii.eqb (digit x) "/" then "_"%char else digit x) = Some x.
Proof. destruct x as [[[[[[] []] []] []] []] []]; vm_compute; reflexivity. Qed.
Lemma digit_facts x : Ascii.eqb (digit x) "=" = false.
Proof. destruct x as [[[[[[] []] []] []] []] []]; vm_compute; reflexivity. Qed.

Lemma url_same s : for_urls (url_digits s) = false -> url_digits s = s.
Proof.
  induction s as [| c s IH]; [reflexivity |]. cbn [url_digits for_urls]. intros H. apply orb_false_elim in H as [H1 H2]. rewrite (IH H2).
  destruct (Ascii.eqb c "+"); [discriminate |]. destruct (Ascii.eqb c "/"); [discriminate | reflexivity].
Qed.
Lemma url_length s : String.length (url_digits s) = String.length s.
Proof. induction s as [| c s IH]; [reflexivity |]. cbn [url_digits String.length]. rewrite IH. reflexivity. Qed.
Lemma url_breaks s : without_breaks s = s -> without_breaks (url_digits s) = url_digits s.
Proof.
  assert (Hl : forall s, (String.length (without_breaks s) <= String.length s)%nat).
  { clear. induction s as [| c s IH]; cbn [without_breaks String.length]; [lia |]. destruct (_ || _); cbn [String.length]; lia. }
  induction s as [| c s IH]; [reflexivity |]. cbn [url_digits without_breaks]. destruct (_ || _) eqn:E.
  - intros H. pose proof (Hl s). rewrite H in *. cbn [String.length] in *. lia.
  - intros [= H]. rewrite (IH H). destruct (Ascii.eqb c "+"); [reflexivity |]. destruct (Ascii.eqb c "/"); [reflexivity |]. rewrite E. reflexivity.
Qed.
Lemma url_decode s : unbase64 true true (url_digits (base64 s)) = Some s.
Proof.
  induction s as [| a | a b | a b c s IH] using string3; [reflexivity | | |];
    repeat match goal with a : ascii |- _ => destruct a end; cbn [base64 url_digits unbase64]; rewrite !url_round; [reflexivity | reflexivity |].
  rewrite IH. reflexivity.
Qed.
Lemma unpadded_decode s : unbase64 false false (unpadded (base64 s)) = Some s /\
  (exists n, String.length (unpadded (base64 s)) = n * 4 /\ unpadded (base64 s) = base64 s \/ String.length (unpadded (base64 s)) = n * 4 + 2 \/ String.length (unpadded (base64 s)) = n * 4 + 3)%nat /\
  without_breaks (unpadded (base64 s)) = unpadded (base64 s) /\ for_urls (unpadded (base64 s)) = false.
Proof.
  induction s as [| a | a b | a b c s IH] using string3;
    [repeat split; exists 0%nat; left; split; reflexivity | | |];
    repeat match goal with a : ascii |- _ => destruct a end; cbn [base64 unpadded Ascii.eqb Bool.eqb]; rewrite !digit_facts;
    change (unpadded "==") with ""%string; change (unpadded "=") with ""%string; cbn [unbase64]; rewrite !digit_round; cbn [String.length without_breaks for_urls].
  - repeat match goal with |- context [digit ?x] => let H := fresh in pose proof (digit_plain x) as (H & -> & ->); rewrite H; clear H; generalize (digit x); intros ? end.
    repeat split. exists 0%nat. auto.
  - repeat match goal with |- context [digit ?x] => let H := fresh in pose proof (digit_plain x) as (H & -> & ->); rewrite H; clear H; generalize (digit x); intros ? end.
    repeat split. exists 0%nat. auto.
  - destruct IH as (-> & (n & Hn) & -> & ->).
    repeat match goal with |- context [digit ?x] => let H := fresh in pose proof (digit_plain x) as (H & -> & ->); rewrite H; clear H; generalize (digit x); intros ? end.
    repeat split. exists (S n). destruct Hn as [[Hn He] | [Hn | Hn]]; [left; split; [lia | rewrite He; reflexivity] | right; left; lia | right; right; lia].
Qed.

Theorem C114_bytes : forall s, read_bytes (JStr (base64 s)) = Some s /\ read_bytes (JStr (url_digits (base64 s))) = Some s /\
  read_bytes (JStr (unpadded (base64 s))) = Some s.
Proof.
  intros s. split; [apply bytes_round |]. destruct (base64_clean s) as (H1 & H2 & n & H3). split.
  - unfold read_bytes. rewrite url_length, H3, Nat.mod_mul, (url_breaks _ H2) by discriminate. destruct (for_urls (url_digits (base64 s))) eqn:E; [apply url_decode |].
    rewrite (url_same _ E). apply base64_round.
  - unfold read_bytes. destruct (unpadded_decode s) as (K1 & (k & K2) & -> & ->). destruct K2 as [[K2 K3] | [K2 | K2]]; rewrite K2.
    + rewrite Nat.mod_mul by discriminate. cbn [Nat.eqb]. rewrite K3. apply base64_round.
    + rewrite Nat.add_comm, Nat.mod_add by discriminate. exact K1.
    + rewrite Nat.add_comm, Nat.mod_add by discriminate. exact K1.
Qed.

(** What is written is base64 as RFC 4648 has it. *)
Lemma digit_letter x : digit x = letter (sextet_value x).
Proof. destruct x as [[[[[[] []] []] []] []] []]; vm_compute; reflexivity. Qed.
Lemma byte_parts c : let '(Ascii b0 b1 b2 b3 b4 b5 b6 b7) := c in
  N_of_ascii c / 4 = sextet_value (b7, b6, b5, b4, b3, b2) /\ N_of_ascii c mod 4 * 16 = sextet_value (b1, b0, false, false, false, false) /\
  N_of_ascii c / 16 = sextet_value (false, false, b7, b6, b5, b4) /\ N_of_ascii c mod 16 * 4 = sextet_value (b3, b2, b1, b0, false, false) /\
  N_of_ascii c / 64 = sextet_value (false, false, false, false, b7, b6) /\ N_of_ascii c mod 64 = sextet_value (b5, b4, b3, b2, b1, b0).
Proof. destruct c as [[] [] [] [] [] [] [] []]; vm_compute; auto 10. Qed.
Lemma sextet_split2 a b c d e f : sextet_value (a, b, false, false, false, false) + sextet_value (false, false, c, d, e, f) = sextet_value (a, b, c, d, e, f).
Proof. destruct a, b, c, d, e, f; reflexivity. Qed.
Lemma sextet_split4 a b c d e f : sextet_value (a, b, c, d, false, false) + sextet_value (false, false, false, false, e, f) = sextet_value (a, b, c, d, e, f).
Proof. destruct a, b, c, d, e, f; reflexivity. Qed.

Theorem C114_base64 : forall s, base64 s = base64_text s.
Proof.
  intros s. induction s as [| a | a b | a b c s IH] using string3; [reflexivity | | |]; cbn [base64 base64_text]; cbv zeta.
  - pose proof (byte_parts a) as Ha. destruct a. destruct Ha as (-> & -> & _). rewrite !digit_letter. reflexivity.
  - pose proof (byte_parts a) as Ha. pose proof (byte_parts b) as Hb. destruct a, b. destruct Ha as (-> & -> & _). destruct Hb as (_ & _ & -> & -> & _).
    rewrite sextet_split2, !digit_letter. reflexivity.
  - pose proof (byte_parts a) as Ha. pose proof (byte_parts b) as Hb. pose proof (byte_parts c) as Hc. destruct a, b, c.
    destruct Ha as (-> & -> & _). destruct Hb as (_ & _ & -> & -> & _). destruct Hc as (_ & _ & _ & _ & -> & ->).
    rewrite sextet_split2, sextet_split4, !digit_letter, IH. reflexivity.
Qed.

(** A relationship is set: the document, and one with the names of the .proto file, explicit nulls and unset fields. *)
Example C114_example :
  read_call false MSetRelationship (JObj
    [("policyId", JStr "p");
     ("relationship", JObj [("object", JObj [("resource", JStr "file"); ("id", JStr "readme")]); ("relation", JStr "owner");
                            ("subject", JObj [("entity", JObj [("resource", JStr "user"); ("id", JStr "u1")])])]);
     ("appData", JStr "aGk=")]) =
  Some (KSetRelationship "p" (Some (mkRel (Some (ent "file" "readme")) "owner" (Some (SEntity (ent "user" "u1"))))) "hi") /\
  read_call false MSetRelationship (JObj
    [("app_data", JStr "aGk");
     ("relationship", JObj [("subject", JObj [("entity_set", JNull); ("entity", JObj [("resource", JStr "user"); ("id", JStr "u1")])]); ("relation", JStr "owner");
                            ("object", JObj [("resource", JStr "file"); ("id", JStr "readme")])]);
     ("policy_id", JStr "p")]) =
  Some (KSetRelationship "p" (Some (mkRel (Some (ent "file" "readme")) "owner" (Some (SEntity (ent "user" "u1"))))) "hi").
Proof. split; vm_compute; reflexivity. Qed.

(** The test vectors of RFC 4648. *)
Example C114_example_base64 : map base64 [""; "f"; "fo"; "foo"; "foob"; "fooba"; "foobar"] =
  [""; "Zg=="; "Zm8="; "Zm9v"; "Zm9vYg=="; "Zm9vYmE="; "Zm9vYmFy"]%string.
Proof. vm_compute. reflexivity. Qed.

(** Refused: a digit after padding, padding inside, missing or too much padding, other characters, one digit, digits of both alphabets, no text. *)
Example C114_example_malformed :
  map read_bytes [JStr "QQ=x"; JStr "QQ==QQ=="; JStr "QUI=QQ=="; JStr "Q==="; JStr "===="; JStr "QQ="; JStr "QUI=="; JStr "Q"; JStr "QUJDQ"; JStr "Q=Q=";
   JStr "Q Q="; JStr "+-+-"; JStr "_/"; JStr "QQ=Q"; JStr "=QQQ"; JNum 1; JBool true; JArr []; JObj []; JFloat; JNull] = repeat None 21.
Proof. vm_compute. reflexivity. Qed.

(** Line breaks are ignored, but count when it is decided whether there must be padding. *)
Example C114_example_breaks : let nl := String (ascii_of_N 10) "" in
  read_bytes (JStr ("aG" +++ nl +++ "k=" +++ nl +++ nl +++ nl)) = Some "hi"%string /\ read_bytes (JStr ("aGk=" +++ nl)) = None /\ read_bytes (JStr ("aGk" +++ nl)) = None.
Proof. vm_compute. auto. Qed.

(** ** C115: what does not matter in a document, and what is refused *)

(** The order of the members of objects, at any level. *)
Theorem C115_order : forall d m j j', reordered j j' -> read_call d m j = read_call d m j'.
Proof. intros d m j j' H. exact (g_order _ _ _ (good_call d (depth j) m) j j' (le_n _) H). Qed.

(** Members that are null may be left out, at every level. *)
Theorem C115_nulls : forall d m j c, read_call d m j = Some c -> read_call d m (without_nulls j) = Some c.
Proof. intros d m j c H. exact (g_nulls _ _ _ (good_call d (depth j) m) j c (le_n _) H). Qed.

(** A reader that does not ignore unknown members refuses a document in which any object has two members of the same name. *)
Theorem C115_once : forall m j c, read_call false m j = Some c -> no_repeats j.
Proof. intros m j c H. exact (g_once _ _ _ (good_call false (depth j) m) eq_refl j c (le_n _) H). Qed.

(** No reader accepts a request that gives a part twice, under one name or under two. *)
Theorem C115_twice : forall d m p k1 v1 k2 v2 l l' l'', In p (parts m) -> names p k1 -> names p k2 ->
  read_call d m (JObj (l ++ (k1, v1) :: l' ++ (k2, v2) :: l'')) = None.
Proof.
  intros d m p k1 v1 k2 v2 l l' l'' Hp H1 H2.
  assert (K : forall (A : Type) t (set : N -> json -> A -> option A) new, (exists f, find_field t k1 = Some f /\ find_field t k2 = Some f) ->
    read_message d t set new (JObj (l ++ (k1, v1) :: l' ++ (k2, v2) :: l'')) = None).
  { intros A t set new (f & E1 & E2). cbn [read_message]. eapply two_members; [exact E1 | exact E2 |]. left. reflexivity. }
  destruct m; cbn [parts] in Hp; cbn in Hp; repeat match type of Hp with _ \/ _ => destruct Hp as [<- | Hp] end; try (destruct Hp; fail);
    unfold read_call; (rewrite K; [reflexivity |]); destruct H1 as [-> | ->]; destruct H2 as [-> | ->]; eexists; split; vm_compute; reflexivity.
Qed.

(** No reader accepts a definition that is both a policy and a YAML text. *)
Theorem C115_two_definitions : forall d m k k1 v1 k2 v2 top top' l l' l'', m = MCreatePolicy \/ m = MUpdatePolicy ->
  names "policy_definition" k -> names "policy" k1 -> names "policy_yaml" k2 -> v1 <> JNull -> v2 <> JNull ->
  read_call d m (JObj (top ++ (k, JObj (l ++ (k1, v1) :: l' ++ (k2, v2) :: l'')) :: top')) = None /\
  read_call d m (JObj (top ++ (k, JObj (l ++ (k2, v2) :: l' ++ (k1, v1) :: l'')) :: top')) = None.
Proof.
  intros d m k k1 v1 k2 v2 top top' l l' l'' Hm Hk H1 H2 N1 N2.
  assert (D : read_sent d (JObj (l ++ (k1, v1) :: l' ++ (k2, v2) :: l'')) = None /\ read_sent d (JObj (l ++ (k2, v2) :: l' ++ (k1, v1) :: l'')) = None).
  { unfold read_sent. cbn [read_message]. destruct H1 as [-> | ->]; destruct H2 as [-> | ->]; split; (eapply two_members; [vm_compute; reflexivity | vm_compute; reflexivity |]);
      right; repeat split; assumption. }
  destruct D as [D1 D2].
  assert (K : forall t x, find_field t k = Some x -> f_num x = 1 -> forall v, read_sent d v = None -> v <> JNull -> forall new, read_message d t (set_create d) new (JObj (top ++ (k, v) :: top')) = None).
  { intros t x E En v Hv Hn new. cbn [read_message]. eapply bad_member; [exact E | exact Hn |]. intros a. rewrite En. cbn [set_create]. rewrite Hv. reflexivity. }
  destruct Hm as [-> | ->]; unfold read_call; destruct Hk as [-> | ->]; split;
    (erewrite K; [reflexivity | vm_compute; reflexivity | reflexivity | assumption | discriminate]).
Qed.

Lemma unknown_name m k : ~ known m k -> forall t, t = match m with
  | MCreatePolicy => t_create | MUpdatePolicy => t_update | MDeletePolicy | MGetPolicy => t_id | MListPolicyIds => []
  | MSetRelationship => t_set_rel | MDeleteRelationship | MGetRelationship => t_rel
  | MFindRelationshipRecords | MDeleteRelationships => t_sel | MCheck => t_check | MExplainCheck => t_explain | MExpand => t_expand
  | MDumpRelationships => t_dump
  end -> find_field t k = None.
Proof.
  intros H t ->.
  assert (K : forall t, (forall f, In f t -> In (f_proto f) (parts m) /\ f_json f = camel (f_proto f)) -> find_field t k = None).
  { intros t Ht. destruct (find_field t k) as [f |] eqn:E; [exfalso | reflexivity]. apply H. unfold find_field in E.
    destruct (find (fun f => String.eqb (f_json f) k) t) as [g |] eqn:G.
    - apply find_some in G as [G1 G2]. apply String.eqb_eq in G2. destruct (Ht g G1) as [K1 K2]. exists (f_proto g). split; [exact K1 |]. right. congruence.
    - apply find_some in E as [E1 E2]. apply String.eqb_eq in E2. destruct (Ht f E1) as [K1 K2]. exists (f_proto f). split; [exact K1 |]. left. congruence. }
  destruct m; apply K; intros f Hf; cbn in Hf; repeat (destruct Hf as [<- | Hf]; [split; [cbn; tauto | reflexivity] |]); destruct Hf.
Qed.

(** A member that names no part of the request is ignored or refused, as the reader was told. *)
Theorem C115_unknown : forall m k v l l', ~ known m k ->
  read_call true m (JObj (l ++ (k, v) :: l')) = read_call true m (JObj (l ++ l')) /\ read_call false m (JObj (l ++ (k, v) :: l')) = None.
Proof.
  intros m k v l l' H. pose proof (unknown_name m k H) as E.
  destruct m; specialize (E _ eq_refl); unfold read_call, read_empty; rewrite unknown_skipped, unknown_refused by exact E; split; reflexivity.
Qed.

(** A reader that ignores unknown members reads what the other reads, as the same request. *)
Theorem C115_lenient : forall m j c, read_call false m j = Some c -> read_call true m j = Some c.
Proof. intros m j c. apply covers_call. Qed.

(** The JSON names of all fields are made from their names in the .proto files. *)
Theorem C115_names : forall t f, In t [t_entity; t_entity_set; t_resource_set; t_subject; t_relationship; t_obj_selector; t_rel_selector; t_subj_selector; t_selector;
    t_access; t_set_node; t_entity_node; t_wild_node; t_rnode; t_cu; t_ttu; t_rule; t_op_node; t_node; t_relexpr; t_entity_restriction; t_set_restriction;
    t_restriction; t_restrictions; t_subj_restriction; t_relation; t_resource; t_policy; t_definition; t_create; t_update; t_id; t_set_rel; t_rel; t_sel;
    t_check; t_explain; t_expand; t_dump] -> In f t ->
  f_json f = camel (f_proto f) /\ find_field t (f_proto f) = Some f /\ find_field t (camel (f_proto f)) = Some f.
Proof.
  intros t f Ht. cbn in Ht. repeat (destruct Ht as [<- | Ht]; [intros Hf; cbn in Hf; repeat (destruct Hf as [<- | Hf]; [repeat split; vm_compute; reflexivity |]); destruct Hf |]).
  destruct Ht.
Qed.

(** With the binary encoding the last of two fields counts; as JSON the request is refused. *)
Example C115_example_twice :
  unmarshal_call MGetPolicy 9 (put_fields [(1, WLen "p"); (1, WLen "q")]) = Some (KGetPolicy "q") /\
  read_call true MGetPolicy (JObj [("id", JStr "p"); ("id", JStr "q")]) = None /\
  read_call true MCheck (JObj [("policyId", JStr "p"); ("policy_id", JNull)]) = None.
Proof. vm_compute. auto. Qed.

Example C115_example_order :
  let e := JObj [("id", JStr "u1"); ("resource", JStr "user")] in let e' := JObj [("resource", JStr "user"); ("id", JStr "u1")] in
  reordered (JObj [("policyId", JStr "p"); ("accessRequest", JObj [("object", JNull); ("subject", e)])])
    (JObj [("accessRequest", JObj [("subject", e'); ("object", JNull)]); ("policyId", JStr "p")]) /\
  read_call false MCheck (JObj [("accessRequest", JObj [("subject", e'); ("object", JNull)]); ("policyId", JStr "p")]) =
    Some (KCheck "p" (Some (mkAccess None "" (Some (ent "user" "u1"))))).
Proof.
  split; [| vm_compute; reflexivity].
  eapply ro_object; [| apply perm_swap]. constructor; [split; [reflexivity | apply ro_same] |]. constructor; [split; [reflexivity |] | constructor]. cbn [snd].
  eapply ro_object; [| apply perm_swap]. constructor; [split; [reflexivity | apply ro_same] |]. constructor; [split; [reflexivity |] | constructor]. cbn [snd].
  eapply ro_object; [| apply perm_swap]. repeat (constructor; [split; [reflexivity | apply ro_same] |]). constructor.
Qed.

Example C115_example_unknown : known MCheck "policy_id" /\ known MCheck "policyId" /\ ~ known MCheck "PolicyId" /\
  read_call true MCheck (JObj [("PolicyId", JStr "p")]) = Some (KCheck "" None).
Proof.
  repeat split; try (exists "policy_id"%string; cbn; tauto); try (vm_compute; reflexivity).
  intros (p & [<- | [<- | []]] & [H | H]); revert H; vm_compute; discriminate.
Qed.

(** ** C116: requests that are given to zanzi-cli as JSON *)

Lemma proper_decoded lim c : proper lim c -> decoded c.
Proof. intros [_ H]. destruct c; try exact I; cbn [decoded] in *; intros k ->; apply H. Qed.

Lemma proper_filled lim c : proper lim c -> proper lim (filled c).
Proof.
  intros [H1 H2]. split.
  - clear H2. intros s Hs. assert (K : In s (call_texts c) \/ s = ""%string); [clear H1 | destruct K as [K | ->]; [exact (H1 s K) | reflexivity]].
    destruct c as [df ap | df ap k | i | i | | pid r ap | pid r | pid r | pid x | pid x | pid a | pid a f | pid n f | pid f]; cbn [filled call_texts] in *; auto;
      try (destruct df as [x |]; [left; exact Hs | destruct Hs]);
      try (destruct n as [n |]; [left; exact Hs | cbn in Hs |- *; tauto]);
      (destruct Hs as [<- | Hs]; [left; left; reflexivity |]);
      try (destruct r as [[[[o1 o2] |] rel [u |]] |]); try (destruct x as [[[o |] [r |] [u |]] |]); try (destruct a as [[[[o1 o2] |] rel [[u1 u2] |]] |]);
      cbn -[subject_texts] in *; change (subject_texts SUnset) with (@nil string) in *; cbn -[subject_texts] in Hs; intuition auto.
  - clear H1. destruct c as [df ap | df ap k | i | i | | pid r ap | pid r | pid r | pid x | pid x | pid a | pid a f | pid n f | pid f]; cbn [filled] in *; try exact H2;
      try (destruct df; exact H2); unfold selector_ok in *; destruct x as [[[o |] r [u |]] |]; cbn in *; intuition discriminate.
Qed.

(** The requests that a JSON document without flags can make zanzi-cli send are those that have their parts; each of them can be given. *)
Theorem C116_every_request : forall d m c,
  (exists j, command_json d m (Some j) [] = Some c) <-> method_of c = m /\ filled c = c /\ exists lim, proper lim c.
Proof.
  intros d m c. split.
  - intros (j & H). unfold command_json in H. destruct (read_call d m j) as [i |] eqn:E; [| discriminate]. apply C114_received in E as (<- & lim & Hi).
    pose proof (C113_parts _ _ _ _ H eq_refl) as Hf. rewrite (C113_no_flags i (proper_decoded lim i Hi)) in H. injection H as <-.
    split; [destruct i; reflexivity |]. split; [exact Hf |]. exists lim. apply proper_filled. exact Hi.
  - intros (<- & Hf & lim & Hc). exists (json_call usual c). unfold command_json. rewrite (C114_written d usual lim c usual_plain Hc).
    rewrite (C113_no_flags c (proper_decoded lim c Hc)). congruence.
Qed.

(** A request without some of its parts is sent with empty ones. *)
Theorem C116_filled : forall d st lim c, plain st -> proper lim c -> command_json d (method_of c) (Some (json_call st c)) [] = Some (filled c).
Proof.
  intros d st lim c Hs Hc. unfold command_json. rewrite (C114_written d st lim c Hs Hc). apply C113_no_flags. exact (proper_decoded lim c Hc).
Qed.

(** The order of members does not matter with flags either. *)
Theorem C116_order : forall d m j j' l, reordered j j' -> command_json d m (Some j) l = command_json d m (Some j') l.
Proof. intros d m j j' l H. unfold command_json. rewrite (C115_order d m j j' H). reflexivity. Qed.

(** No input is the same as the empty document. *)
Theorem C116_no_input : forall d m l, command_json d m None l = command_json d m (Some (JObj [])) l.
Proof. intros d m l. unfold command_json. destruct m; reflexivity. Qed.

(** A selector with wildcards, which flags cannot give (C112). *)
Example C116_example :
  command_json false MDeleteRelationships (Some (JObj [("selector", JObj [("objectSelector", JObj [("wildcard", JObj [])]); ("relationSelector", JObj [("wildcard", JObj [])]);
    ("subjectSelector", JObj [("resourceSpec", JStr "user")])])])) [FId "p"] =
  Some (KDeleteRelationships "p" (Some (mkSel (Some OSWild) (Some LSWild) (Some (USResource "user"))))).
Proof. vm_compute. reflexivity. Qed.

(** ** C117: the REST gateway *)

(** Each method has one path. *)
Theorem C117_routes : forall p m, route p = Some m <-> p = path_of m.
Proof.
  intros p m. split.
  - intros H. apply find_some in H as [_ H]. apply String.eqb_eq in H. congruence.
  - intros ->. destruct m; vm_compute; reflexivity.
Qed.

(** The paths, written out: policy_service.pb.gw.go:894-914, relation_graph.pb.gw.go:408-416. *)
Theorem C117_paths : forall m, path_of m = match m with
  | MCreatePolicy => "/sourcenetwork.zanzi.api.PolicyService/CreatePolicy"
  | MUpdatePolicy => "/sourcenetwork.zanzi.api.PolicyService/UpdatePolicy"
  | MDeletePolicy => "/sourcenetwork.zanzi.api.PolicyService/DeletePolicy"
  | MGetPolicy => "/sourcenetwork.zanzi.api.PolicyService/GetPolicy"
  | MListPolicyIds => "/sourcenetwork.zanzi.api.PolicyService/ListPolicyIds"
  | MSetRelationship => "/sourcenetwork.zanzi.api.PolicyService/SetRelationship"
  | MDeleteRelationship => "/sourcenetwork.zanzi.api.PolicyService/DeleteRelationship"
  | MGetRelationship => "/sourcenetwork.zanzi.api.PolicyService/GetRelationship"
  | MFindRelationshipRecords => "/sourcenetwork.zanzi.api.PolicyService/FindRelationshipRecords"
  | MDeleteRelationships => "/sourcenetwork.zanzi.api.PolicyService/DeleteRelationships"
  | MCheck => "/sourcenetwork.zanzi.api.RelationGraph/Check"
  | MExplainCheck => "/sourcenetwork.zanzi.api.RelationGraph/ExplainCheck"
  | MExpand => "/sourcenetwork.zanzi.api.RelationGraph/Expand"
  | MDumpRelationships => "/sourcenetwork.zanzi.api.RelationGraph/DumpRelationships"
  end%string.
Proof. intros []; reflexivity. Qed.

(** A request that is posted to its path reaches the server as it is. *)
Theorem C117_posted : forall E L now n st lim c s, plain st -> proper lim c ->
  handle E L now n (path_of (method_of c)) (Some (json_call st c)) s = (HAnswer (fst (local E L now n c s)), snd (local E L now n c s)).
Proof.
  intros E L now n st lim c s Hs Hc. unfold handle, post. rewrite (proj2 (C117_routes _ _) eq_refl), (C114_written true st lim c Hs Hc).
  destruct (local E L now n c s). reflexivity.
Qed.

(** Whatever is posted: nothing happens, or a request is served that could have come over gRPC. *)
Theorem C117_effect : forall E L now n p b s, snd (handle E L now n p b s) = s /\ (fst (handle E L now n p b s) = HNotFound \/ fst (handle E L now n p b s) = HBadRequest) \/
  exists c lim, proper lim c /\ p = path_of (method_of c) /\ handle E L now n p b s = (HAnswer (fst (local E L now n c s)), snd (local E L now n c s)).
Proof.
  intros E L now n p b s. unfold handle, post. destruct (route p) as [m |] eqn:Hr; [| left; auto]. apply C117_routes in Hr. destruct b as [j |].
  - destruct (read_call true m j) as [c |] eqn:Hc; [| left; auto]. apply C114_received in Hc as (Hm & lim & Hc). right. exists c, lim. rewrite Hm.
    split; [exact Hc |]. split; [exact Hr |]. destruct (local E L now n c s). reflexivity.
  - right. exists (empty_call m), 0%nat. split; [destruct m; (split; [intros t Ht; cbn in Ht; repeat destruct Ht as [<- | Ht]; try reflexivity; destruct Ht | cbn; try exact I; unfold enum_ok; lia]) |].
    split; [destruct m; exact Hr |]. destruct (local E L now n (empty_call m) s). reflexivity.
Qed.

(** The client is told which of both is wrong: there is no such path, or the body is no request of its method. *)
Theorem C117_refused : forall E L now n p b s,
  (fst (handle E L now n p b s) = HNotFound <-> forall m, p <> path_of m) /\
  (fst (handle E L now n p b s) = HBadRequest <-> exists m j, p = path_of m /\ b = Some j /\ read_call true m j = None).
Proof.
  intros E L now n p b s. unfold handle, post. destruct (route p) as [m |] eqn:Hr.
  - apply C117_routes in Hr as ->. assert (Hm : forall m', path_of m = path_of m' -> m = m').
    { intros m' H. apply C117_routes in H. rewrite (proj2 (C117_routes (path_of m) m) eq_refl) in H. congruence. }
    destruct b as [j |]; [destruct (read_call true m j) as [c |] eqn:Hc |].
    + destruct (local E L now n c s). cbn [fst]. split; split; try discriminate.
      * intros H. destruct (H m eq_refl).
      * intros (m' & j' & H1 & H2 & H3). apply Hm in H1 as <-. injection H2 as <-. congruence.
    + cbn [fst]. split; split; try discriminate.
      * intros H. destruct (H m eq_refl).
      * intros _. exists m, j. auto.
      * reflexivity.
    + destruct (local E L now n (empty_call m) s). cbn [fst]. split; split; try discriminate.
      * intros H. destruct (H m eq_refl).
      * intros (m' & j' & _ & H2 & _). discriminate.
  - cbn [fst]. split; split; try discriminate; try reflexivity.
    + intros _ m ->. rewrite (proj2 (C117_routes (path_of m) m) eq_refl) in Hr. discriminate.
    + intros (m & j & -> & _). rewrite (proj2 (C117_routes (path_of m) m) eq_refl) in Hr. discriminate.
Qed.

(** No body is the same as an empty document. *)
Theorem C117_no_body : forall E L now n p s, handle E L now n p None s = handle E L now n p (Some (JObj [])) s.
Proof. intros E L now n p s. unfold handle, post. destruct (route p) as [m |]; [| reflexivity]. destruct m; reflexivity. Qed.

Example C117_example :
  path_of MExpand = "/sourcenetwork.zanzi.api.RelationGraph/Expand"%string /\
  post "/sourcenetwork.zanzi.api.PolicyService/GetPolicy" (Some (JObj [("id", JStr "p"); ("verbose", JBool true)])) = Passed (KGetPolicy "p") /\
  post "/sourcenetwork.zanzi.api.PolicyService/GetPolicy" (Some (JObj [("id", JNum 1)])) = BadRequest /\
  post "/sourcenetwork.zanzi.api.PolicyService/Check" (Some (JObj [])) = NotFound.
Proof. vm_compute. auto. Qed.

Print Assumptions C114_written.
Print Assumptions C114_document.
Print Assumptions C114_received.
Print Assumptions C114_same_requests.
Print Assumptions C114_bytes.
Print Assumptions C114_base64.
Print Assumptions C115_order.
Print Assumptions C115_nulls.
Print Assumptions C115_once.
Print Assumptions C115_twice.
Print Assumptions C115_two_definitions.
Print Assumptions C115_unknown.
Print Assumptions C115_lenient.
Print Assumptions C115_names.
Print Assumptions C116_every_request.
Print Assumptions C116_filled.
Print Assumptions C116_order.
Print Assumptions C116_no_input.
Print Assumptions C117_routes.
Print Assumptions C117_paths.
Print Assumptions C117_posted.
Print Assumptions C117_effect.
Print Assumptions C117_refused.
Print Assumptions C117_no_body.
