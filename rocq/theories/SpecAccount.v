(** Specification of what an explanation may claim. *)
From Verif Require Import Base Domain Lexer Store Search SpecGrammar SpecPolicy SpecStore SpecSearch.

(** The text that names a rule in an explanation. *)
Definition rule_name (r : rule) : string :=
  match r with
  | RThis => "Rule This"
  | RCu rel => "Rule Computed Userset: " +++ rel
  | RTtu ts cu => "Rule Tuple To Userset: " +++ ts +++ " " +++ cu
  | RUnset => ""
  end.

Section Account.
  Variable E : env.
  Variable P : policy.
  Variable succ : entity -> string -> subject -> Prop.
  (** The subject asked for; an expansion asks for none. *)
  Variable a : option entity.

  (** The node is the subject, or all entities of its resource. *)
  Definition meets (n : rnode) : Prop :=
    match a, n with
    | Some a', NEntity (Some e) => e = a'
    | Some a', NWild rs => rs = e_res a'
    | _, _ => False
    end.

  (** [x] has the form of the expression [t] of the relation [rel] of [o]; a rule is drawn as one alternative
      for each node it leads to, which names the rule. *)
  Fixpoint drawn (t : tree) (o : entity) (rel : string) (x : gtree) : Prop :=
    match t with
    | TRule ru => exists r ps, x = GOr r ps /\
        (forall n, (exists r' sub why, In (GPath r' n sub why) ps) <-> yields succ ru o rel n) /\
        forall p, In p ps -> exists r' n sub, p = GPath r' n sub (rule_name ru)
    | TOp t1 OpUnion t2 => exists r y z, x = GOr r [y; z] /\ drawn t1 o rel y /\ drawn t2 o rel z
    | TOp t1 OpInter t2 => exists r y z, x = GAnd r [y; z] /\ drawn t1 o rel y /\ drawn t2 o rel z
    | TOp t1 OpDiff t2 => exists r y z, x = GDiff r y z /\ drawn t1 o rel y /\ drawn t2 o rel z
    | TOp _ (OpOther _) _ | TNil | TUnset => False
    end.

  (** One step is right: its result follows from the results of its parts, its parts are those of the expression
      of its node, and alternatives count as failed only when they failed or were [visited] elsewhere. *)
  Definition right_step (visited : rnode -> Prop) (x : gtree) : Prop :=
    match x with
    | GPath RSuccess n None _ => meets n
    | GPath RFailure n None _ => (forall o rel, n <> NSet o rel) /\ ~ meets n
    | GPath RUnknown _ sub _ => sub = None
    | GPath r n (Some y) _ => get_result y = r /\
        exists o rel t, n = NSet (Some o) rel /\ rewrites E P o rel t /\ drawn t o rel y
    | GOr RSuccess ps => exists p, In p ps /\ get_result p = RSuccess
    | GOr RFailure ps => forall p, In p ps -> get_result p = RFailure \/
        exists n why, p = GPath RUnknown n None why /\ visited n
    | GAnd RSuccess ps => forall p, In p ps -> get_result p = RSuccess
    | GAnd RFailure ps => exists p, In p ps /\ get_result p = RFailure
    | GDiff RSuccess l r => get_result l = RSuccess /\ get_result r = RFailure
    | GDiff RFailure l r => get_result l = RFailure \/ get_result r = RSuccess
    | GOr RUnknown ps | GAnd RUnknown ps => forall p, In p ps -> get_result p = RUnknown
    | GDiff RUnknown l r => get_result l = RUnknown /\ get_result r = RUnknown
    end.

  (** A node with the search identity of [n] is shown as evaluated in [x]. *)
  Definition shown_in (x : gtree) (n : rnode) : Prop :=
    exists m, In m (evaluated x) /\ sha E (id_text m) = sha E (id_text n).

  (** The explanation of a request about [root]. *)
  Definition honest (root : rnode) (x : gtree) : Prop :=
    (exists r sub, x = GPath r root sub "Request") /\ forall y, within y x -> right_step (shown_in x) y.
End Account.
