(** Specification of what Check decides for all operators: the first way to the subject decides. *)
From Verif Require Import Base Domain Lexer Store Search SpecGrammar SpecPolicy SpecStore SpecSearch.

(** The subjects of the relationships of [o] and [rel], in the order in which they are listed. *)
Definition subjects_of (rels : list relationship) (o : entity) (rel : string) : list subject :=
  flat_map (fun r => match r_object r, r_subject r with
                     | Some o', Some u => if entity_eqb o' o && String.eqb (r_relation r) rel then [u] else []
                     | _, _ => []
                     end) rels.

(** The subjects of the relationships whose source has the storage key of [o] and [rel]. *)
Definition subjects_keyed (E : env) (rels : list relationship) (o : entity) (rel : string) : list subject :=
  flat_map (fun r => match r_subject r with
                     | Some u => if String.eqb (sha E (object_text r)) (sha E (e_res o +++ e_id o +++ rel)) then [u] else []
                     | None => []
                     end) rels.

Section Exact.
  Variable E : env.
  Variable P : policy.
  (** The subjects of an object and relation, in order. *)
  Variable subs : entity -> string -> list subject.
  (** The subject asked for. *)
  Variable a : entity.

  (** The nodes a rule leads to, in order. *)
  Definition rule_steps (ru : rule) (o : entity) (rel : string) : list rnode :=
    match ru with
    | RThis => map subject_node (subs o rel)
    | RCu c => [NSet (Some o) c]
    | RTtu ts cu => map (fun u => NSet (subject_object u) cu) (subs o ts)
    | RUnset => []
    end.

  (** The nodes an expression leads to, in order; [true] where finding the subject makes the expression hold,
      [false] where it makes it fail.  Nobody passes [l & r]; of [l - r], whoever comes through [r] is refused. *)
  Fixpoint steps (o : entity) (rel : string) (t : tree) : list (bool * rnode) :=
    match t with
    | TRule ru => map (fun n => (true, n)) (rule_steps ru o rel)
    | TOp l OpUnion r => steps o rel l ++ steps o rel r
    | TOp l OpInter r => map (fun x => (false, snd x)) (steps o rel l)
    | TOp l OpDiff r => steps o rel l ++ map (fun x => (false, snd x)) (steps o rel r)
    | TOp _ (OpOther _) _ | TNil | TUnset => []
    end.

  Inductive offers : rnode -> list (bool * rnode) -> Prop :=
  | of_set o rel t : rewrites E P o rel t -> offers (NSet (Some o) rel) (steps o rel t).

  (** The node is the subject, or all entities of its resource. *)
  Definition stands_for (n : rnode) : Prop := n = NEntity (Some a) \/ n = NWild (e_res a).

  (** Some way leads from the node to the subject without meeting the nodes to avoid. *)
  Inductive finds (avoid : list rnode) : rnode -> Prop :=
  | fi_here n : stands_for n -> ~ In n avoid -> finds avoid n
  | fi_step n l b m : ~ In n avoid -> offers n l -> In (b, m) l -> finds avoid m -> finds avoid n.

  (** The first way to the subject, in the order of the steps and without meeting a node twice, takes only steps
      that make the expressions hold.  [above] are the nodes on the way so far. *)
  Inductive passes (above : list rnode) : rnode -> Prop :=
  | pa_here n : stands_for n -> ~ In n above -> passes above n
  | pa_step n before m after : ~ In n above -> offers n (before ++ (true, m) :: after) ->
      (forall b x, In (b, x) before -> ~ finds (n :: above) x) -> passes (n :: above) m -> passes above n.

  (** The first way to the subject takes a step that makes an expression fail. *)
  Inductive refused (above : list rnode) : rnode -> Prop :=
  | rf_now n before m after : ~ In n above -> offers n (before ++ (false, m) :: after) ->
      (forall b x, In (b, x) before -> ~ finds (n :: above) x) -> finds (n :: above) m -> refused above n
  | rf_later n before m after : ~ In n above -> offers n (before ++ (true, m) :: after) ->
      (forall b x, In (b, x) before -> ~ finds (n :: above) x) -> refused (n :: above) m -> refused above n.
End Exact.

(** The subject is reached either by name or as one of all entities of its resource, not both. *)
Definition reached_once (E : env) (P : policy) (succ : entity -> string -> subject -> Prop) (a : entity) (origin : rnode) : Prop :=
  ~ (reach E P succ origin (NEntity (Some a)) /\ reach E P succ origin (NWild (e_res a))).
