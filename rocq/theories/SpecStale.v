(** Specification of policies that change while relationships are stored. *)
From Verif Require Import Base Domain Lexer Store Search Explain Yaml Service Dump Api SpecPolicy SpecStore.

(** Every relationship that [p] admits is admitted by [p']. *)
Definition widens (p p' : policy) : Prop := forall r, admissible p r -> admissible p' r.

(** [p'] declares what [p] declares, with the same restrictions. *)
Definition keeps (p p' : policy) : Prop :=
  (forall rs, declares_resource p rs -> declares_resource p' rs) /\
  (forall rs l, relation_of p rs l -> exists l', relation_of p' rs l' /\ rl_name l' = rl_name l /\ rl_restr l' = rl_restr l).

(** Every update in a history of requests widens the policy it replaces. *)
Fixpoint only_widening (E : env) (s : store) (qs : list request) : Prop :=
  match qs with
  | [] => True
  | q :: qs =>
      (forall d app p old, q = QUpdatePolicy d app -> defines d p ->
         answer E (QGetPolicy (p_id p)) s = Ok (APolicy (Some old)) -> widens (pr_policy old) p) /\
      only_widening E (after E q s) qs
  end.
