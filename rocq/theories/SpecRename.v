(** Specification of renaming: giving the entities of every resource other ids. *)
From Verif Require Import Base Domain.

Section Rename.
  (** The new id of an entity of a resource. *)
  Variable f : string -> string -> string.

  (** Different entities of a resource get different ids. *)
  Definition one_to_one : Prop := forall rs i j, f rs i = f rs j -> i = j.

  Definition rename_entity (e : entity) : entity := mkEntity (e_res e) (f (e_res e) (e_id e)).

  Definition rename_subject (u : subject) : subject :=
    match u with
    | SEntity e => SEntity (rename_entity e)
    | SEntitySet e rel => SEntitySet (option_map rename_entity e) rel
    | SResourceSet rs => SResourceSet rs
    | SUnset => SUnset
    end.

  Definition rename (r : relationship) : relationship :=
    mkRel (option_map rename_entity (r_object r)) (r_relation r) (option_map rename_subject (r_subject r)).

  (** The second relationships are those of the first with the new ids. *)
  Definition renamed (rels rels' : list relationship) : Prop :=
    forall r', In r' rels' <-> exists r, In r rels /\ r' = rename r.
End Rename.
