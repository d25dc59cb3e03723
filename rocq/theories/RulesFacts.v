(** Facts about creations, for C81. *)
From Verif Require Import Base Domain Lexer Parser Validate Store Search Explain Yaml Service Dump Api
  SpecGrammar SpecPolicy SpecStore SpecRules Fixtures BaseFacts ValidateFacts StoreFacts PolicyFacts TouchFacts PropsPolicy PropsStore PropsConc.

Lemma create_only E now p app s a : answer E (QCreatePolicy now (Some (DPolicy p)) app) s = Ok a ->
  policies s (p_id p) = None /\ well_formed E p.
Proof.
  intros H. destruct (create_cases E now (Some (DPolicy p)) app s) as
    [(p' & Hd & Hn & Hw & Ha & Hs) | [(p' & r & Hd & Hs & Ha & _) | (Hb & Hf & _)]].
  - inversion Hd; subst p'. auto.
  - rewrite Ha in H. discriminate.
  - exfalso. apply (Hf a). exact H.
Qed.

Lemma create_creates E now p app s : policies s (p_id p) = None -> well_formed E p ->
  answer E (QCreatePolicy now (Some (DPolicy p)) app) s = Ok (ACreated (mkPRec p app now)) /\
  answer E (QGetPolicy (p_id p)) (after E (QCreatePolicy now (Some (DPolicy p)) app) s) = Ok (APolicy (Some (mkPRec p app now))).
Proof.
  intros Hn Hw. destruct (create_cases E now (Some (DPolicy p)) app s) as
    [(p' & Hd & _ & _ & Ha & Hs) | [(p' & r & Hd & Hs & Ha & _) | (Hb & Hf & _)]].
  - inversion Hd; subst p'. split; [exact Ha |]. rewrite Hs, answer_get_policy. unfold policies, put_policy. cbn [st_pol pr_policy].
    rewrite get_set_same; [reflexivity | apply scmp_ok].
  - inversion Hd; subst p'. congruence.
  - destruct (Hb p) as [_ Hx]; [constructor |]. contradiction.
Qed.
