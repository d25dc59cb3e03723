(** Lemmas about the commands of the client. *)
From Coq Require Import Sorted Permutation.
From Verif Require Import Base Domain Lexer Store Search Explain Yaml Service Dump Api Wire Rpc Cli
  SpecWire SpecRpc SpecCli BaseFacts WireFacts RpcFacts.
Local Open Scope N_scope.

(** ** Flags *)

Lemma last_said_app {F A} (says : F -> option A) l1 l2 : last_said says (l1 ++ l2) = match last_said says l2 with Some x => Some x | None => last_said says l1 end.
Proof. induction l1 as [| f l1 IH]; cbn [app last_said]; [destruct (last_said says l2); reflexivity |]. rewrite IH. destruct (last_said says l2); reflexivity. Qed.

Lemma last_said_map {F A B} (g : A -> B) (says : F -> option A) (says' : F -> option B) l : (forall f, says' f = omap g (says f)) ->
  last_said says' l = omap g (last_said says l).
Proof. intros H. induction l as [| f l IH]; cbn [last_said]; [reflexivity |]. rewrite IH, H. destruct (last_said says l); reflexivity. Qed.

Lemma last_said_of {F A} (says : F -> option F) (says' : F -> option A) l f x :
  (forall g y, says g = Some y -> y = g) -> (forall g, says g = None -> says' g = None) ->
  last_said says l = Some f -> says' f = Some x -> last_said says' l = Some x.
Proof.
  intros H1 H2. revert f. induction l as [| g l IH]; cbn [last_said]; intros f H Hx; [discriminate |].
  destruct (last_said says l) as [y |] eqn:Hl.
  - injection H as ->. rewrite (IH f eq_refl Hx). reflexivity.
  - apply H1 in H as Hg. subst f. assert (Hn : last_said says' l = None).
    { clear -Hl H2. induction l as [| g l IH]; cbn [last_said] in *; [reflexivity |]. destruct (last_said says l); [discriminate |]. rewrite IH by reflexivity. apply H2, Hl. }
    rewrite Hn. exact Hx.
Qed.

Lemma fold_part {F V G W} (set : F -> V -> V) (proj : V -> W) (about : F -> option G) (setw : G -> W -> W) :
  (forall f v, proj (set f v) = match about f with Some g => setw g (proj v) | None => proj v end) ->
  forall l v, proj (fold_left (fun v f => set f v) l v) = fold_left (fun w g => setw g w) (part about l) (proj v).
Proof.
  intros H. induction l as [| f l IH]; intros v; cbn [fold_left part flat_map]; [reflexivity |]. rewrite IH, H.
  destruct (about f); reflexivity.
Qed.

Lemma fold_said {F V A} (set : F -> V -> V) (proj : V -> A) (says : F -> option A) :
  (forall f v, proj (set f v) = or_else (says f) (proj v)) ->
  forall l v, proj (fold_left (fun v f => set f v) l v) = or_else (last_said says l) (proj v).
Proof.
  intros H. induction l as [| f l IH]; intros v; cbn [fold_left last_said]; [reflexivity |]. rewrite IH, H.
  destruct (last_said says l); reflexivity.
Qed.

Ltac proj_tac := intros f v; destruct f; try destruct v; reflexivity.

Lemma entity_flags l : fold_left (fun v f => set_entity f v) l no_entity = meant_entity l.
Proof.
  unfold meant_entity, said.
  rewrite <- (fold_said set_entity e_res (fun f => match f with EfResource s => Some s | _ => None end)) with (v := no_entity) by proj_tac.
  rewrite <- (fold_said set_entity e_id (fun f => match f with EfId s => Some s | _ => None end)) with (v := no_entity) by proj_tac.
  destruct (fold_left _ l no_entity). reflexivity.
Qed.

Definition member_of (f : subject_flag) : subject_member :=
  match f with
  | UfEntity _ | UfEntityPart _ => UmEntity
  | UfEntitySet _ | UfEntitySetEntity _ | UfEntitySetRelation _ => UmEntitySet
  | UfResourceSet _ | UfResourceName _ => UmResourceSet
  end.

Lemma subject_flags l : subject_at (fold_left (fun v f => set_subject f v) l new_subject) = meant_subject l.
Proof.
  unfold subject_at, meant_subject, said.
  rewrite (fold_said set_subject uv_member (fun f => Some (member_of f))) by proj_tac.
  rewrite (fold_part set_subject uv_entity (fun f => match f with UfEntityPart g => Some g | _ => None end) set_entity) by proj_tac.
  rewrite (fold_part set_subject uv_set_entity (fun f => match f with UfEntitySetEntity g => Some g | _ => None end) set_entity) by proj_tac.
  rewrite (fold_said set_subject uv_set_relation (fun f => match f with UfEntitySetRelation s => Some s | _ => None end)) by proj_tac.
  rewrite (fold_said set_subject uv_resource (fun f => match f with UfResourceName s => Some s | _ => None end)) by proj_tac.
  cbn [new_subject uv_entity uv_set_entity uv_set_relation uv_resource uv_member]. rewrite !entity_flags.
  rewrite (last_said_map member_of Some) by reflexivity. destruct (last_said Some l) as [[] |]; reflexivity.
Qed.

Lemma relationship_flags l : relationship_at (fold_left (fun v f => set_relationship_flag f v) l new_relationship) = meant_relationship l.
Proof.
  unfold relationship_at, meant_relationship, said.
  rewrite (fold_part set_relationship_flag tv_object (fun f => match f with TfObject g => Some g | _ => None end) set_entity) by proj_tac.
  rewrite (fold_said set_relationship_flag tv_relation (fun f => match f with TfRelation s => Some s | _ => None end)) by proj_tac.
  rewrite (fold_part set_relationship_flag tv_subject (fun f => match f with TfSubject g => Some g | _ => None end) set_subject) by proj_tac.
  cbn [new_relationship tv_object tv_relation tv_subject]. rewrite entity_flags, subject_flags. reflexivity.
Qed.

Definition object_member (f : selector_flag) : selector_member := match f with LfObject _ | LfObjectPart _ => LmSpec | LfObjectResource _ => LmResource | _ => LmNone end.
Definition subject_part_member (f : selector_flag) : selector_member := match f with LfSubject _ | LfSubjectPart _ => LmSpec | LfSubjectResource _ => LmResource | _ => LmNone end.

Lemma selector_flags l : selector_at (fold_left (fun v f => set_selector f v) l new_selector) = meant_selector l.
Proof.
  unfold selector_at, meant_selector.
  set (os := fun f : selector_flag => match f with LfObject _ | LfObjectPart _ | LfObjectResource _ => Some f | _ => None end).
  set (us := fun f : selector_flag => match f with LfSubject _ | LfSubjectPart _ | LfSubjectResource _ => Some f | _ => None end).
  rewrite (fold_said set_selector lv_object_member (fun f => omap object_member (os f))) by proj_tac.
  rewrite (fold_said set_selector lv_subject_member (fun f => omap subject_part_member (us f))) by proj_tac.
  rewrite (fold_part set_selector lv_object (fun f => match f with LfObjectPart g => Some g | _ => None end) set_entity) by proj_tac.
  rewrite (fold_said set_selector lv_object_resource (fun f => match f with LfObjectResource s => Some s | _ => None end)) by proj_tac.
  rewrite (fold_said set_selector lv_relation (fun f => match f with LfRelation s => Some (Some s) | _ => None end)) by proj_tac.
  rewrite (fold_part set_selector lv_subject (fun f => match f with LfSubjectPart g => Some g | _ => None end) set_subject) by proj_tac.
  rewrite (fold_said set_selector lv_subject_resource (fun f => match f with LfSubjectResource s => Some s | _ => None end)) by proj_tac.
  cbn [new_selector lv_object lv_object_resource lv_object_member lv_relation lv_subject lv_subject_resource lv_subject_member].
  rewrite entity_flags, subject_flags.
  rewrite (last_said_map object_member os) by reflexivity. rewrite (last_said_map subject_part_member us) by reflexivity.
  rewrite (last_said_map Some (fun f => match f with LfRelation s => Some s | _ => None end)) by (intros []; reflexivity).
  assert (Hid : forall (says : selector_flag -> option selector_flag), says = os \/ says = us -> forall g y, says g = Some y -> y = g).
  { intros says [-> | ->] [] y H; cbn in H; congruence. }
  f_equal; f_equal.
  - destruct (last_said os l) as [f |] eqn:H; cbn [omap or_else]; [| reflexivity].
    destruct f; try reflexivity. cbn [object_member]. f_equal.
    rewrite (last_said_of os _ l _ s (Hid os (or_introl eq_refl))) with (2 := H); [reflexivity | | reflexivity].
    intros [] Hg; cbn in Hg; congruence.
  - destruct (last_said _ l); reflexivity.
  - destruct (last_said us l) as [f |] eqn:H; cbn [omap or_else]; [| reflexivity].
    destruct f; try reflexivity. cbn [subject_part_member]. f_equal.
    rewrite (last_said_of us _ l _ s (Hid us (or_intror eq_refl))) with (2 := H); [reflexivity | | reflexivity].
    intros [] Hg; cbn in Hg; congruence.
Qed.

Lemma access_flags l : access_at (fold_left (fun v f => set_access f v) l new_access) = meant_access l.
Proof.
  unfold access_at, meant_access, said.
  rewrite (fold_part set_access av_object (fun f => match f with AfObject g => Some g | _ => None end) set_entity) by proj_tac.
  rewrite (fold_said set_access av_relation (fun f => match f with AfRelation s => Some s | _ => None end)) by proj_tac.
  rewrite (fold_part set_access av_subject (fun f => match f with AfSubject g => Some g | _ => None end) set_entity) by proj_tac.
  cbn [new_access av_object av_relation av_subject]. rewrite !entity_flags. reflexivity.
Qed.

Definition root_member_of (f : root_flag) : root_member :=
  match f with
  | RfEntitySet _ | RfEntitySetObject _ | RfEntitySetRelation _ => RmEntitySet
  | RfEntity _ | RfEntityObject _ => RmEntity
  | RfWildcard _ | RfWildcardResource _ => RmWildcard
  end.

Lemma root_flags l : root_at (fold_left (fun v f => set_root f v) l new_root) = meant_root l.
Proof.
  unfold root_at, meant_root, said.
  rewrite (fold_said set_root rv_member (fun f => Some (root_member_of f))) by proj_tac.
  rewrite (fold_part set_root rv_set_object (fun f => match f with RfEntitySetObject g => Some g | _ => None end) set_entity) by proj_tac.
  rewrite (fold_said set_root rv_set_relation (fun f => match f with RfEntitySetRelation s => Some s | _ => None end)) by proj_tac.
  rewrite (fold_part set_root rv_object (fun f => match f with RfEntityObject g => Some g | _ => None end) set_entity) by proj_tac.
  rewrite (fold_said set_root rv_resource (fun f => match f with RfWildcardResource s => Some s | _ => None end)) by proj_tac.
  cbn [new_root rv_set_object rv_set_relation rv_object rv_resource rv_member]. rewrite !entity_flags.
  rewrite (last_said_map root_member_of Some) by reflexivity. destruct (last_said Some l) as [[] |]; reflexivity.
Qed.

(** Attributes *)
Lemma scmp_same x y : match scmp x y with Eq => true | _ => false end = String.eqb x y.
Proof.
  destruct (String.eqb_spec x y) as [-> | Hne]; [rewrite (cmp_refl _ scmp_ok); reflexivity |].
  destruct (scmp x y) eqn:Hc; auto. apply (cmp_eq _ scmp_ok) in Hc. contradiction.
Qed.

Lemma get_set_all k l : forall m, kv_get scmp k (set_all l m) =
  match last_said (fun x : string * string => if String.eqb (fst x) k then Some (snd x) else None) l with Some v => Some v | None => kv_get scmp k m end.
Proof.
  induction l as [| [k' v'] l IH]; intros m; [reflexivity |]. cbn [set_all fold_left last_said fst snd].
  change (fold_left _ l ?m0) with (set_all l m0). rewrite IH.
  destruct (last_said _ l); [reflexivity |]. rewrite (get_set scmp scmp_ok), String.eqb_sym, <- scmp_same. destruct (scmp k k'); reflexivity.
Qed.

Lemma sorted_set_all l m : kv_sorted scmp m -> kv_sorted scmp (set_all l m).
Proof. apply set_all_sorted. Qed.

Lemma set_all_same l : kv_sorted scmp l -> set_all l [] = l.
Proof. intros H. apply attrs_round; [exact H | apply Permutation_refl]. Qed.

Definition definition_member_of (f : definition_flag) : definition_member := match f with DfYaml _ => DmYaml | _ => DmPolicy end.

Lemma fold_resources l : forall v, p_resources (dv_policy (fold_left (fun v f => set_definition f v) l v)) =
  p_resources (dv_policy v) ++ flat_map (fun f => match f with DfResources r => r | _ => [] end) l.
Proof.
  induction l as [| f l IH]; intros v; cbn [fold_left flat_map]; [rewrite app_nil_r; reflexivity |]. rewrite IH.
  destruct f; try reflexivity. cbn. rewrite app_assoc. reflexivity.
Qed.

Lemma fold_attributes l : forall v, p_attrs (dv_policy (fold_left (fun v f => set_definition f v) l v)) =
  set_all (flat_map (fun f => match f with DfAttributes a => a | _ => [] end) l) (p_attrs (dv_policy v)).
Proof.
  induction l as [| f l IH]; intros v; cbn [fold_left flat_map]; [reflexivity |]. rewrite IH.
  destruct f; try reflexivity. cbn. symmetry. apply fold_left_app.
Qed.

Lemma policy_flags l : means_policy l (dv_policy (fold_left (fun v f => set_definition f v) l new_definition)).
Proof.
  unfold means_policy, said. repeat split.
  - rewrite (fold_said set_definition (fun v => p_id (dv_policy v)) (fun f => match f with DfId s => Some s | _ => None end)) by proj_tac. reflexivity.
  - rewrite (fold_said set_definition (fun v => p_name (dv_policy v)) (fun f => match f with DfName s => Some s | _ => None end)) by proj_tac. reflexivity.
  - rewrite (fold_said set_definition (fun v => p_desc (dv_policy v)) (fun f => match f with DfDescription s => Some s | _ => None end)) by proj_tac. reflexivity.
  - rewrite fold_resources. reflexivity.
  - intros k. rewrite fold_attributes, get_set_all. unfold attribute_said. destruct (last_said _ _); reflexivity.
Qed.

Lemma definition_flags l : means_definition l (definition_at (fold_left (fun v f => set_definition f v) l new_definition)).
Proof.
  unfold means_definition, definition_at.
  rewrite (fold_said set_definition dv_member (fun f => Some (definition_member_of f))) by proj_tac.
  rewrite (last_said_map definition_member_of Some) by reflexivity.
  destruct (last_said Some l) as [f |] eqn:H; cbn [omap or_else new_definition dv_member]; [| reflexivity].
  destruct f; cbn [definition_member_of]; try (eexists; split; [reflexivity | apply policy_flags]).
  f_equal. rewrite (fold_said set_definition dv_yaml (fun f => match f with DfYaml s => Some s | _ => None end)) by proj_tac.
  rewrite (last_said_of Some _ l _ s) with (3 := H); [reflexivity | congruence | discriminate | reflexivity].
Qed.

(** The attributes of a definition made by flags are a map. *)
Lemma definition_map l : map_definition (definition_at (fold_left (fun v f => set_definition f v) l new_definition)).
Proof.
  intros p. unfold definition_at. destruct (dv_member _); [discriminate | | discriminate]. intros [= <-].
  apply kv_sorted_strong. rewrite fold_attributes. apply sorted_set_all. exact I.
Qed.

Lemma flags_means m l c : flags_request m l = Some c -> means m l c.
Proof.
  unfold flags_request. destruct (forallb _ _); [| discriminate]. intros [= <-]. unfold means, request_at.
  assert (Hid : v_id (fold_left (fun v f => set_flag f v) l new_vars) = said "" (fun f => match f with FId s => Some s | _ => None end) l).
  { unfold said. rewrite (fold_said set_flag v_id (fun f => match f with FId s => Some s | _ => None end)) by proj_tac. reflexivity. }
  assert (Hap : v_app (fold_left (fun v f => set_flag f v) l new_vars) = said "" (fun f => match f with FAppData s => Some s | _ => None end) l).
  { unfold said. rewrite (fold_said set_flag v_app (fun f => match f with FAppData s => Some s | _ => None end)) by proj_tac. reflexivity. }
  assert (Hst : v_strategy (fold_left (fun v f => set_flag f v) l new_vars) = said 0 (fun f => match f with FStrategy s => Some s | _ => None end) l).
  { unfold said. rewrite (fold_said set_flag v_strategy (fun f => match f with FStrategy s => Some s | _ => None end)) by proj_tac. reflexivity. }
  assert (Hfo : v_format (fold_left (fun v f => set_flag f v) l new_vars) = said 0 (fun f => match f with FFormat s => Some s | _ => None end) l).
  { unfold said. rewrite (fold_said set_flag v_format (fun f => match f with FFormat s => Some s | _ => None end)) by proj_tac. reflexivity. }
  rewrite (fold_part set_flag v_def (fun f => match f with FDefinition g => Some g | _ => None end) set_definition) by proj_tac.
  rewrite (fold_part set_flag v_rel (fun f => match f with FRelationship g => Some g | _ => None end) set_relationship_flag) by proj_tac.
  rewrite (fold_part set_flag v_sel (fun f => match f with FSelector g => Some g | _ => None end) set_selector) by proj_tac.
  rewrite (fold_part set_flag v_acc (fun f => match f with FAccess g => Some g | _ => None end) set_access) by proj_tac.
  rewrite (fold_part set_flag v_root (fun f => match f with FRoot g => Some g | _ => None end) set_root) by proj_tac.
  cbn [new_vars v_def v_rel v_sel v_acc v_root]. rewrite Hid, Hap, Hst, Hfo.
  rewrite relationship_flags, selector_flags, access_flags, root_flags.
  destruct m; try reflexivity; eexists; (split; [apply definition_flags | reflexivity]).
Qed.

(** ** Describable requests *)

Lemma flags_describable m l c : flags_request m l = Some c -> describable c /\ method_of c = m.
Proof.
  intros H. pose proof (flags_means _ _ _ H) as Hm. split; [| destruct m; cbn in Hm; subst; try reflexivity; destruct Hm as (d & _ & ->); reflexivity].
  assert (Hf : forall n, one_number (format_of n)).
  { intros n k. unfold format_of. destruct n as [| [q | q |]]; try discriminate; [| destruct q]; intros [= <-]; lia. }
  assert (Hu : forall g, whole_subject (meant_subject g)). { intros g rel. unfold meant_subject. destruct (last_said Some g) as [[] |]; discriminate. }
  assert (Hr : forall g, whole_relationship (meant_relationship g)). { intros g. split; eexists; [reflexivity | split; [reflexivity | apply Hu]]. }
  assert (Hs : forall g, flag_selector (meant_selector g)).
  { intros g. unfold meant_selector, flag_selector. cbn [s_obj s_rel s_subj]. repeat split; eexists; (split; [reflexivity |]).
    - destruct (last_said _ g) as [[] |]; split; discriminate.
    - destruct (last_said _ g) as [|]; discriminate.
    - destruct (last_said _ g) as [[] |]; (split; [discriminate |]); (split; [discriminate |]); intros y; try discriminate; intros [= <-]; apply Hu. }
  assert (Ha : forall g, whole_request (meant_access g)). { intros g. split; eexists; reflexivity. }
  assert (Hn : forall g, whole_root (meant_root g)). { intros g. unfold meant_root. destruct (last_said Some g) as [[] |]; exact I. }
  destruct m; cbn in Hm; subst; cbn [describable]; try exact I; try (eexists; split; [reflexivity | auto; fail]);
    try (split; [eexists; split; [reflexivity | auto; fail] | apply Hf]).
  - unfold flags_request in H. destruct (forallb _ _); [| discriminate]. injection H as <-. cbn [describable request_at].
    eexists. split; [reflexivity |].
    rewrite (fold_part set_flag v_def (fun f => match f with FDefinition g => Some g | _ => None end) set_definition) by proj_tac. apply definition_map.
  - unfold flags_request in H. destruct (forallb _ _); [| discriminate]. injection H as <-. cbn [describable request_at].
    eexists. split; [reflexivity |].
    rewrite (fold_part set_flag v_def (fun f => match f with FDefinition g => Some g | _ => None end) set_definition) by proj_tac. apply definition_map.
Qed.

(** Flags for a message. *)
Definition flags_of_entity (e : entity) : list entity_flag := [EfResource (e_res e); EfId (e_id e)].
Definition flags_of_subject (x : subject) : list subject_flag :=
  match x with
  | SEntity e => map UfEntityPart (flags_of_entity e)
  | SEntitySet o r => map UfEntitySetEntity (flags_of_entity (or_else o no_entity)) ++ [UfEntitySetRelation r]
  | SResourceSet r => [UfResourceName r]
  | SUnset => []
  end.
Definition flags_of_relationship (r : relationship) : list relationship_flag :=
  map TfObject (flags_of_entity (or_else (r_object r) no_entity)) ++ [TfRelation (r_relation r)] ++ map TfSubject (flags_of_subject (or_else (r_subject r) SUnset)).
Definition flags_of_selector (x : selector) : list selector_flag :=
  match s_obj x with
  | Some (OSObject (Some e)) => map LfObjectPart (flags_of_entity e)
  | Some (OSResource s) => [LfObjectResource s]
  | _ => []
  end ++
  match s_rel x with Some (LSName s) => [LfRelation s] | _ => [] end ++
  match s_subj x with
  | Some (USSubject (Some u)) => LfSubject true :: map LfSubjectPart (flags_of_subject u)
  | Some (USResource s) => [LfSubjectResource s]
  | _ => []
  end.
Definition flags_of_access (a : access_request) : list access_flag :=
  map AfObject (flags_of_entity (or_else (a_object a) no_entity)) ++ [AfRelation (a_relation a)] ++ map AfSubject (flags_of_entity (or_else (a_subject a) no_entity)).
Definition flags_of_root (n : rnode) : list root_flag :=
  match n with
  | NSet o r => map RfEntitySetObject (flags_of_entity (or_else o no_entity)) ++ [RfEntitySetRelation r]
  | NEntity o => map RfEntityObject (flags_of_entity (or_else o no_entity))
  | NWild r => [RfWildcardResource r]
  | NUnset => []
  end.
Definition flags_of_definition (d : sent_def) : list definition_flag :=
  match d with
  | SentPolicy p => [DfId (p_id p); DfName (p_name p); DfDescription (p_desc p); DfResources (p_resources p); DfAttributes (p_attrs p)]
  | SentYaml s => [DfYaml s]
  | SentUnset => []
  end.

Definition flags_of (c : call) : list cflag :=
  match c with
  | KCreatePolicy d x => map FDefinition (flags_of_definition (or_else d SentUnset)) ++ [FAppData x]
  | KUpdatePolicy d x s => map FDefinition (flags_of_definition (or_else d SentUnset)) ++ [FAppData x; FStrategy s]
  | KDeletePolicy i | KGetPolicy i => [FId i]
  | KListPolicyIds => []
  | KSetRelationship i r x => map FRelationship (flags_of_relationship (or_else r no_relationship)) ++ [FId i; FAppData x]
  | KDeleteRelationship i r | KGetRelationship i r => map FRelationship (flags_of_relationship (or_else r no_relationship)) ++ [FId i]
  | KFindRelationshipRecords i s | KDeleteRelationships i s => map FSelector (flags_of_selector (or_else s (mkSel None None None))) ++ [FId i]
  | KCheck i a => map FAccess (flags_of_access (or_else a (mkAccess None "" None))) ++ [FId i]
  | KExplainCheck i a f => map FAccess (flags_of_access (or_else a (mkAccess None "" None))) ++ [FId i; FFormat (format_code f)]
  | KExpand i n f => map FRoot (flags_of_root (or_else n NUnset)) ++ [FId i; FFormat (format_code f)]
  | KDumpRelationships i f => [FId i; FFormat f]
  end.

Lemma code_of f : one_number f -> format_of (format_code f) = f.
Proof.
  intros H. destruct f as [| | | n]; try reflexivity. specialize (H n eq_refl). cbn [format_code]. unfold format_of.
  destruct n as [| [q | q |]]; try reflexivity; [lia | | lia]. destruct q; try reflexivity. lia.
Qed.

Lemma forallb_map {A B} (f : B -> bool) (g : A -> B) l : (forall x, f (g x) = true) -> forallb f (map g l) = true.
Proof. intros H. induction l; cbn; [reflexivity |]. rewrite H. assumption. Qed.

Lemma describable_flags c : describable c -> flags_request (method_of c) (flags_of c) = Some c.
Proof.
  intros H. unfold flags_request.
  assert (Hh : forallb (has_flag (method_of c)) (flags_of c) = true).
  { destruct c; cbn [flags_of method_of]; rewrite ?forallb_app; try reflexivity; rewrite forallb_map by reflexivity; reflexivity. }
  rewrite Hh. clear Hh. f_equal.
  destruct c as [d x | d x s | i | i | | i r x | i r | i r | i s | i s | i a | i a f | i n f | i f]; cbn [describable] in H; try reflexivity.
  - destruct H as (y & -> & H). destruct y as [p | t |]; try reflexivity. destruct p as [pi pn pd pr pa]. specialize (H _ eq_refl). apply sorted_kv in H. cbn [p_attrs] in H.
    cbn. rewrite set_all_same by exact H. reflexivity.
  - destruct H as (y & -> & H). destruct y as [p | t |]; try reflexivity. destruct p as [pi pn pd pr pa]. specialize (H _ eq_refl). apply sorted_kv in H. cbn [p_attrs] in H.
    cbn. rewrite set_all_same by exact H. reflexivity.
  - destruct H as (y & -> & (o & Ho) & u & Hu & Hw). destruct y as [yo yr yu]. cbn in Ho, Hu. subst. destruct o, u as [[] | [[] |] | |]; try reflexivity. destruct (Hw _ eq_refl).
  - destruct H as (y & -> & (o & Ho) & u & Hu & Hw). destruct y as [yo yr yu]. cbn in Ho, Hu. subst. destruct o, u as [[] | [[] |] | |]; try reflexivity. destruct (Hw _ eq_refl).
  - destruct H as (y & -> & (o & Ho) & u & Hu & Hw). destruct y as [yo yr yu]. cbn in Ho, Hu. subst. destruct o, u as [[] | [[] |] | |]; try reflexivity. destruct (Hw _ eq_refl).
  - destruct H as (y & -> & (o & Ho & Ho1 & Ho2) & (q & Hq & Hq1) & u & Hu & Hu1 & Hu2 & Hu3). destruct y as [yo yr yu]. cbn in Ho, Hq, Hu. subst.
    destruct o as [[[] |] | | |]; try congruence; destruct q; try congruence; destruct u as [[[[] | [[] |] | |] |] | | |]; try congruence; try reflexivity; destruct (Hu3 _ eq_refl _ eq_refl).
  - destruct H as (y & -> & (o & Ho & Ho1 & Ho2) & (q & Hq & Hq1) & u & Hu & Hu1 & Hu2 & Hu3). destruct y as [yo yr yu]. cbn in Ho, Hq, Hu. subst.
    destruct o as [[[] |] | | |]; try congruence; destruct q; try congruence; destruct u as [[[[] | [[] |] | |] |] | | |]; try congruence; try reflexivity; destruct (Hu3 _ eq_refl _ eq_refl).
  - destruct H as (y & -> & (o & Ho) & u & Hu). destruct y. cbn in Ho, Hu. subst. destruct o, u. reflexivity.
  - destruct H as ((y & -> & (o & Ho) & u & Hu) & Hf). destruct y. cbn in Ho, Hu. subst. destruct o, u. cbn. rewrite code_of by exact Hf. reflexivity.
  - destruct H as ((y & -> & Hy) & Hf). destruct y as [[[] |] r | [[] |] | r |]; try contradiction; cbn; rewrite code_of by exact Hf; reflexivity.
Qed.
