(** Specification of changes to policies. *)
From Verif Require Import Base Domain Lexer Store Search Explain Yaml Service Dump Api SpecGrammar SpecPolicy SpecStore SpecSearch.

(** A search of the policy [pid] that starts at [root]. *)
Inductive search_request (pid : string) : rnode -> request -> Prop :=
| sq_check n o rel a : search_request pid (NSet o rel) (QCheck n pid (Some (mkAccess o rel a)))
| sq_explain n o rel a f : search_request pid (NSet o rel) (QExplainCheck n pid (Some (mkAccess o rel a)) f)
| sq_expand n root f : search_request pid root (QExpand n pid (Some root) f).

(** Every relation of [P] has the same expression in [P']. *)
Definition extended (E : env) (P P' : policy) : Prop :=
  forall o rel t, rewrites E P o rel t -> rewrites E P' o rel t.

(** The relations reached from [root] are the same in [P] and [P']. *)
Definition same_reached (E : env) (P P' : policy) (succ : entity -> string -> subject -> Prop) (root : rnode) : Prop :=
  forall o rel t, reach E P succ root (NSet (Some o) rel) -> (rewrites E P o rel t <-> rewrites E P' o rel t).

(** Every rule of a relation of [P] is a rule of that relation in [P']. *)
Definition keeps_rules (E : env) (P P' : policy) : Prop :=
  forall o rel t ru, rewrites E P o rel t -> occurs ru t -> exists t', rewrites E P' o rel t' /\ occurs ru t'.

(** [t'] is [t] with further alternatives. *)
Inductive widened : tree -> tree -> Prop :=
| wd_same t : widened t t
| wd_left t x : widened t (TOp x OpUnion t)
| wd_right t x : widened t (TOp t OpUnion x)
| wd_union l l' r r' : widened l l' -> widened r r' -> widened (TOp l OpUnion r) (TOp l' OpUnion r')
| wd_inter l l' r r' : widened l l' -> widened r r' -> widened (TOp l OpInter r) (TOp l' OpInter r').

Definition widened_policy (E : env) (P P' : policy) : Prop :=
  forall o rel t, rewrites E P o rel t -> exists t', rewrites E P' o rel t' /\ widened t t'.
