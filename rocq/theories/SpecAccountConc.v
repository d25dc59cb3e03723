(** Specification of what an explanation may claim that is made while other requests write. *)
From Verif Require Import Base Domain Lexer Store Search SpecGrammar SpecPolicy SpecStore SpecSearch SpecAccount.

Section Account.
  Variable E : env.
  Variable P : policy.
  (** The moments at which the request read, and the subjects stored at each moment. *)
  Variable during : nat -> Prop.
  Variable succ : nat -> entity -> string -> subject -> Prop.
  (** The subject asked for; an expansion asks for none. *)
  Variable a : option entity.

  (** [x] has the form of the expression [t] of the relation [rel] of [o]; a rule is drawn as one alternative
      for each node it led to at one of the moments. *)
  Fixpoint drawn_once (t : tree) (o : entity) (rel : string) (x : gtree) : Prop :=
    match t with
    | TRule ru => exists k r ps, during k /\ x = GOr r ps /\
        (forall n, (exists r' sub why, In (GPath r' n sub why) ps) <-> yields (succ k) ru o rel n) /\
        forall p, In p ps -> exists r' n sub, p = GPath r' n sub (rule_name ru)
    | TOp t1 OpUnion t2 => exists r y z, x = GOr r [y; z] /\ drawn_once t1 o rel y /\ drawn_once t2 o rel z
    | TOp t1 OpInter t2 => exists r y z, x = GAnd r [y; z] /\ drawn_once t1 o rel y /\ drawn_once t2 o rel z
    | TOp t1 OpDiff t2 => exists r y z, x = GDiff r y z /\ drawn_once t1 o rel y /\ drawn_once t2 o rel z
    | TOp _ (OpOther _) _ | TNil | TUnset => False
    end.

  (** One step is right: its result follows from the results of its parts, its parts are those of the expression
      of its node, and alternatives count as failed only when they failed or were [visited] elsewhere. *)
  Definition right_then (visited : rnode -> Prop) (x : gtree) : Prop :=
    match x with
    | GPath RSuccess n None _ => meets a n
    | GPath RFailure n None _ => (forall o rel, n <> NSet o rel) /\ ~ meets a n
    | GPath RUnknown _ sub _ => sub = None
    | GPath r n (Some y) _ => get_result y = r /\
        exists o rel t, n = NSet (Some o) rel /\ rewrites E P o rel t /\ drawn_once t o rel y
    | GOr RSuccess ps => exists p, In p ps /\ get_result p = RSuccess
    | GOr RFailure ps => forall p, In p ps -> get_result p = RFailure \/
        exists n why, p = GPath RUnknown n None why /\ visited n
    | GAnd RSuccess ps => forall p, In p ps -> get_result p = RSuccess
    | GAnd RFailure ps => exists p, In p ps /\ get_result p = RFailure
    | GDiff RSuccess l r => get_result l = RSuccess /\ get_result r = RFailure
    | GDiff RFailure l r => get_result l = RFailure \/ get_result r = RSuccess
    | GOr RUnknown ps | GAnd RUnknown ps => forall p, In p ps -> get_result p = RUnknown
    | GDiff RUnknown l r => get_result l = RUnknown /\ get_result r = RUnknown
    end.

  (** The explanation of a request about [root]. *)
  Definition honest_then (root : rnode) (x : gtree) : Prop :=
    (exists r sub, x = GPath r root sub "Request") /\ forall y, within y x -> right_then (shown_in E x) y.
End Account.
