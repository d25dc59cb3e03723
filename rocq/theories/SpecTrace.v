(** Specification of histories in which some requests concern one policy. *)
From Verif Require Import Base Domain Lexer Store Search Explain Yaml Service Dump Api SpecPolicy SpecStore SpecConc.

(** The requests of a history that do not concern the policy. *)
Definition about_policy (id : string) (q : request) : bool :=
  match concerns q with Some id' => String.eqb id' id | None => false end.

Definition without (id : string) (qs : list request) : list request := filter (fun q => negb (about_policy id q)) qs.

(** Relationships the history names in the policy have storage keys of their own. *)
Definition keys_of_its_own (E : env) (id : string) (qs : list request) : Prop :=
  forall q q' pid r r', In q qs -> In q' qs -> mentions q id r -> mentions q' pid r' ->
    complete_relationship r -> complete_relationship r' -> same_key E r r' -> pid = id.
