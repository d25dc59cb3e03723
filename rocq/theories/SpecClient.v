(** Specification of the builders. *)
From Verif Require Import Base Domain SpecStore Explain Client.

Definition object_step (x : build_step) : Prop := match x with BAnyObject | BWithObject _ => True | _ => False end.
Definition relation_step (x : build_step) : Prop := match x with BAnyRelation | BWithRelation _ => True | _ => False end.
Definition subject_step (x : build_step) : Prop := match x with BAnySubject | BWithSubject _ => True | _ => False end.

(** [x] is the last call of its kind, and no Reset comes after it. *)
Definition last_call (kind : build_step -> Prop) (xs : list build_step) (x : build_step) : Prop :=
  exists before later, xs = before ++ x :: later /\ kind x /\ forall y, In y later -> ~ kind y /\ y <> BReset.

(** What the calls ask for: the method comments of selector.go. *)
Definition asks_for (x : build_step) (r : relationship) : Prop :=
  match x with
  | BAnyObject | BAnyRelation | BAnySubject => True
  | BWithObject e => r_object r = Some e
  | BWithRelation n => r_relation r = n
  | BWithSubject u => r_subject r = Some u
  | BReset => False
  end.
