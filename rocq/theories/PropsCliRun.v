(** C123: a user of zanzi-cli sees what a client in the same process sees. *)
From Coq Require Import ZArith Permutation Sorted.
From Verif Require Import Base BaseFacts Domain Lexer Parser Validate Store Search Explain Yaml Service Dump Api Fault Wire SpecStore SpecPolicy SpecConc SpecWire WireFacts
  Rpc SpecRpc RpcFacts RpcServe WireServe Fixtures Cli SpecCli CliFacts PropsRpc PropsCli Json SpecJson JsonFacts JsonReads JsonRecv PropsJson JsonReply SpecReply ReplyFacts ReplyRound
  PropsReply CliRun SpecCliRun.
Local Open Scope N_scope.

Lemma received_good lim r : good_reply lim r -> good_reply lim (as_received r).
Proof.
  destruct r as [| | | | | | | | [l |] | | | | |]; cbn [as_received]; try (intros H; exact H). cbn [good_reply when]. intros H o Ho.
  apply in_map_iff in Ho as ([x |] & <- & Hx); cbn [or_else when]; [exact (H _ Hx) |].
  split; [intros s Hs; revert s Hs; apply Forall_forall; repeat constructor | vm_compute; repeat split; try reflexivity; discriminate].
Qed.

Lemma received_twice r : as_received (as_received r) = as_received r.
Proof. destruct r as [| | | | | | | | [l |] | | | | |]; try reflexivity. cbn [as_received]. rewrite map_map. do 2 f_equal. Qed.

Lemma received_answers r : answers (as_received r) = answers r.
Proof. destruct r as [| | | | | | | | [l |] | | | | |]; reflexivity. Qed.

Lemma received_timely r : timely r -> timely (as_received r).
Proof.
  destruct r as [| | | | | | | | [l |] | | | | |]; cbn [as_received]; try (intros H; exact H). unfold timely. cbn [reply_times]. intros H t Ht.
  apply in_flat_map in Ht as (o & Ho & Ht). apply in_map_iff in Ho as ([x |] & <- & Hx); cbn [or_else] in Ht.
  - apply H. apply in_flat_map. exists (Some x). split; assumption.
  - destruct Ht as [<- | []]. vm_compute. discriminate.
Qed.

Lemma received_counts r : counts_fit r -> counts_fit (as_received r).
Proof. destruct r as [| | | | | | | | [l |] | | | | |]; cbn [as_received]; intros H; exact H. Qed.

(** Outcomes of calls that can be sent are fit to be written. *)
Definition writable (lim : nat) (x : served) (o : outcome) : Prop :=
  match o with Got r => good_reply lim r /\ answers r = method_of (snd x) | _ => True end.

Lemma local_writable E L lim xs : (9 <= lim)%nat -> texts_ok L -> forall s, good_store lim s -> Forall (acceptable E L lim) xs ->
  Forall2 (writable lim) xs (fst (local_all E L xs s)).
Proof.
  intros Hl HL. induction xs as [| [[now n] c] xs IH]; intros s Hg Hx; [constructor |]. inversion Hx as [| ? ? Hx1 Hx2]; subst. cbn [local_all].
  pose proof (serve_good E L lim _ Hl HL Hx1) as Hgv. unfold as_request in Hgv. cbn [fst snd] in Hgv. destruct (gives_run lim _ _ s Hgv Hg) as [H3 H4].
  unfold local. destruct (run (serve E (request_of L now n c)) s) as [x s1]. cbn [fst snd] in *. specialize (IH _ H4 Hx2).
  destruct (local_all E L xs s1) as [os s2]. cbn [fst] in *. constructor; [| exact IH]. destruct x as [a | e | |]; try exact I. exact H3.
Qed.

(** What the user gets for an outcome. *)
Definition shown (st : style) (o : outcome) : cli_out :=
  match o with
  | Got r => match json_reply st r with Some j => Printed j | None => Failed end
  | Told _ | Broken | Garbled => Failed
  | Waiting => Hangs
  end.

Lemma shown_tells lim st x o : plain st -> writable lim x o -> outcome_timely o -> tells (method_of (snd x)) o (shown st (seen o)).
Proof.
  intros Hst Hw Ht. destruct o as [r | | | |]; try reflexivity. destruct Hw as [Hg Ha]. destruct Ht as [Ht Hc]. cbn [seen shown tells].
  apply received_good in Hg. apply received_timely in Ht. apply received_counts in Hc.
  rewrite (writes _ st (good_reply_texts lim _ Hg) Ht). eexists. split; [reflexivity |]. intros d. rewrite <- Ha, <- received_answers.
  rewrite (reply_json d st Hst lim _ Hg Ht Hc). rewrite received_twice. reflexivity.
Qed.

(** The outputs, command by command, and the store of the server. *)
Inductive outputs (d : bool) (st : style) : list typed -> list outcome -> list cli_out -> Prop :=
| ou_nil : outputs d st [] [] []
| ou_refused t ts os outs : command_json d (ty_method t) (ty_input t) (ty_flags t) = None -> outputs d st ts os outs -> outputs d st (t :: ts) os (Failed :: outs)
| ou_sent t c ts o os outs : command_json d (ty_method t) (ty_input t) (ty_flags t) = Some c -> outputs d st ts os outs -> outputs d st (t :: ts) (o :: os) (shown st o :: outs).

Lemma cli_outputs d E L lim ord st ts : forall b,
  outputs d st ts (fst (remote_all E L lim ord (meant d ts) b)) (fst (cli_all d E L lim ord st ts b)) /\
  snd (cli_all d E L lim ord st ts b) = snd (remote_all E L lim ord (meant d ts) b).
Proof.
  induction ts as [| t ts IH]; intros b; [split; [constructor | reflexivity] |]. cbn [cli_all]. unfold meant. cbn [flat_map]. fold (meant d ts). unfold cli_run.
  destruct (command_json d (ty_method t) (ty_input t) (ty_flags t)) as [c |] eqn:Hc.
  - cbn [Datatypes.app remote_all]. destruct (remote E L lim ord (ty_now t) (ty_bound t) c b) as [o b1]. destruct (IH b1) as [H1 H2].
    destruct (cli_all d E L lim ord st ts b1) as [outs b2], (remote_all E L lim ord (meant d ts) b1) as [os b3]. cbn [fst snd] in *.
    split; [| exact H2]. apply ou_sent with (c := c); assumption.
  - cbn [Datatypes.app]. destruct (IH b) as [H1 H2]. destruct (cli_all d E L lim ord st ts b) as [outs b2]. cbn [fst snd] in *.
    split; [apply ou_refused; assumption | exact H2].
Qed.

(** Command by command, whoever reads the output finds the response that a client in the same process gets, and the commands change the data of the
    server as their calls do. *)
Theorem C123_session : forall d E L lim ord st ts, (9 <= lim)%nat -> texts_ok L -> (forall l, Permutation (ord l) l) -> plain st ->
  Forall (acceptable E L lim) (meant d ts) -> Forall (call_fits ord) (meant d ts) ->
  Forall (outcome_fits ord) (fst (local_all E L (meant d ts) empty_store)) -> Forall outcome_timely (fst (local_all E L (meant d ts) empty_store)) ->
  tells_all d ts (fst (local_all E L (meant d ts) empty_store)) (fst (cli_all d E L lim ord st ts empty_bytes)) /\
  snd (cli_all d E L lim ord st ts empty_bytes) = snd (remote_all E L lim ord (meant d ts) empty_bytes).
Proof.
  intros d E L lim ord st ts Hl HL Ho Hst Hx Hc Hf Ht. destruct (cli_outputs d E L lim ord st ts empty_bytes) as [H1 H2]. split; [| exact H2].
  rewrite (C100_history E L lim ord (meant d ts) Hl HL Ho Hx Hc Hf) in H1.
  assert (Hg : good_store lim empty_store) by (split; [| split]; intros ? ? []).
  pose proof (local_writable E L lim (meant d ts) Hl HL empty_store Hg Hx) as Hw. clear Hx Hc Hf H2 Hg.
  revert Ht Hw H1. generalize (fst (local_all E L (meant d ts) empty_store)) as os. generalize (fst (cli_all d E L lim ord st ts empty_bytes)) as outs.
  induction ts as [| t ts IH]; intros outs os Ht Hw H1.
  - inversion Hw; subst. inversion H1; subst. constructor.
  - unfold meant in Hw. cbn [flat_map] in Hw. fold (meant d ts) in Hw. inversion H1 as [| ? ? ? ? He Hr | ? c ? o ? ? He Hr]; subst.
    + rewrite He in Hw. apply ta_refused; [exact He |]. apply IH; assumption.
    + rewrite He in Hw. cbn [Datatypes.app] in Hw. destruct os as [| o1 os]; [discriminate |].
      match goal with H : _ :: _ = map seen (_ :: _) |- _ => cbn [map] in H; injection H as -> -> end.
      inversion Hw; subst. inversion Ht; subst. apply ta_sent with (c := c); [exact He | | apply IH; assumption].
      change c with (snd (ty_now t, ty_bound t, c)). eapply shown_tells; eassumption.
Qed.

(** A script can rely on the status: it is 0 exactly for the commands that the server answered. *)
Theorem C123_status : forall m o out, tells m o out -> (exit_status out = Some 0%nat <-> exists r, o = Got r).
Proof.
  intros m o out H. destruct o as [r | e | | |]; cbn [tells] in H; try (subst out; split; [discriminate | intros (r & Hr); discriminate]).
  destruct H as (j & -> & _). split; [intros _; exists r; reflexivity | reflexivity].
Qed.

(** A policy is created from a document and asked for with flags; a document with an unknown member is refused; a relationship is set with
    a document and a flag; a policy that exists is not created again. *)
Definition session : list typed :=
  [mkTyped 1 9 MCreatePolicy (Some (json_call usual (KCreatePolicy (Some (SentPolicy (pol "p"))) "app"))) [];
   mkTyped 2 9 MListPolicyIds None [];
   mkTyped 3 9 MGetPolicy (Some (JObj [("ident", JStr "p")])) [];
   mkTyped 4 9 MSetRelationship (Some (json_call usual (KSetRelationship "" (Some file_owner) "data"))) [FId "p"];
   mkTyped 5 9 MGetRelationship (Some (json_call usual (KGetRelationship "" (Some file_owner)))) [FId "p"];
   mkTyped 6 9 MCreatePolicy (Some (json_call usual (KCreatePolicy (Some (SentPolicy (pol "p"))) "app"))) []].
Example C123_example :
  length (meant false session) = 5%nat /\
  map exit_status (fst (cli_all false E0 L0 recursion_limit keep usual session empty_bytes)) = map Some [0; 0; 1; 0; 0; 1]%nat /\
  nth_error (fst (cli_all false E0 L0 recursion_limit keep usual session empty_bytes)) 1 = Some (Printed (JObj [("records", JArr [JObj [("id", JStr "p")]])])).
Proof. repeat split; vm_compute; reflexivity. Qed.

(** Every method, given as a document: the hypotheses hold, and the user sees every outcome. *)
Definition typed_tour : list typed := map (fun x => mkTyped (fst (fst x)) (snd (fst x)) (method_of (snd x)) (Some (json_call usual (snd x))) []) tour.
Example C123_tour :
  meant false typed_tour = tour /\
  tells_all false typed_tour (fst (local_all E0 L0 tour empty_store)) (fst (cli_all false E0 L0 recursion_limit keep usual typed_tour empty_bytes)).
Proof.
  assert (Hm : meant false typed_tour = tour) by (vm_compute; reflexivity). split; [exact Hm |].
  pose proof (C123_session false E0 L0 recursion_limit keep usual typed_tour limit_ok L0_ok keep_ok usual_plain) as H. rewrite Hm in H.
  destruct C100_tour as (H1 & H2 & H3 & _). destruct C120_tour as (_ & H4 & _). exact (proj1 (H H1 H2 H3 H4)).
Qed.

Print Assumptions C123_session.
Print Assumptions C123_status.
