(** The lexer channel: invariant, progress and termination. *)
From Coq Require Import Lia.
From Verif Require Import Base Lexer Chan.

Definition chan_inv (cap : nat) (ts : list tok) (c : chan_state) : Prop :=
  c_got c ++ c_buf c ++ c_todo c = ts /\ length (c_buf c) <= cap /\
  (c_closed c = true -> c_todo c = []) /\
  (c_done c = true -> c_todo c = [] /\ c_buf c = [] /\ c_closed c = true).

Lemma chan_inv_init cap ts : chan_inv cap ts (chan_init ts).
Proof. repeat split; cbn; try lia; discriminate. Qed.

Lemma chan_inv_step cap ts a b : chan_inv cap ts a -> chan_step cap a b -> chan_inv cap ts b.
Proof.
  intros (H1 & H2 & H3 & H4) Hs. destruct Hs; unfold chan_inv in *; cbn in *.
  - repeat split; try discriminate.
    + rewrite <- H1, <- !app_assoc. reflexivity.
    + rewrite app_length. cbn. lia.
  - repeat split; auto; discriminate.
  - repeat split; auto; try discriminate; try lia. rewrite <- H1, <- !app_assoc. reflexivity.
  - repeat split; auto.
Qed.

Lemma chan_inv_steps cap ts a b : chan_steps cap a b -> chan_inv cap ts a -> chan_inv cap ts b.
Proof. induction 1; eauto using chan_inv_step. Qed.

Theorem chan_progress cap ts c : 0 < cap -> chan_steps cap (chan_init ts) c ->
  c_done c = false -> exists c', chan_step cap c c'.
Proof.
  intros Hcap Hs Hd. apply (chan_inv_steps _ ts) in Hs as (H1 & H2 & H3 & H4); [| apply chan_inv_init].
  destruct c as [todo buf cl got dn]; cbn in *. subst dn. destruct buf as [| t buf].
  - destruct todo as [| t todo].
    + destruct cl; eexists; constructor.
    + destruct cl; [specialize (H3 eq_refl); discriminate |]. eexists. apply step_send. cbn. lia.
  - eexists. apply step_recv.
Qed.

Theorem chan_delivers cap ts c : chan_steps cap (chan_init ts) c ->
  (exists rest, ts = c_got c ++ rest) /\ length (c_buf c) <= cap /\ (c_done c = true -> c_got c = ts).
Proof.
  intros Hs. apply (chan_inv_steps _ ts) in Hs as (H1 & H2 & H3 & H4); [| apply chan_inv_init].
  split; [eauto |]. split; [exact H2 |]. intros Hd. destruct (H4 Hd) as (Ht & Hb & _).
  rewrite Ht, Hb, !app_nil_r in H1. exact H1.
Qed.

Definition chan_measure (c : chan_state) : nat :=
  2 * length (c_todo c) + length (c_buf c) + (if c_closed c then 0 else 1) + (if c_done c then 0 else 1).

Lemma chan_measure_step cap a b : chan_step cap a b -> chan_measure b < chan_measure a.
Proof.
  destruct 1; unfold chan_measure; cbn [c_todo c_buf c_closed c_done length];
    rewrite ?app_length; cbn [length]; lia.
Qed.

Theorem chan_terminates cap ts (trace : nat -> chan_state) :
  trace 0 = chan_init ts -> ~ (forall i, chan_step cap (trace i) (trace (S i))).
Proof.
  intros _ H. assert (forall i, chan_measure (trace i) + i <= chan_measure (trace 0)) as Hm.
  { induction i as [| i IH]; [lia |]. specialize (H i). apply chan_measure_step in H. lia. }
  specialize (Hm (S (chan_measure (trace 0)))). lia.
Qed.
