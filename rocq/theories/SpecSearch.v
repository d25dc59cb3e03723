(** Specification of membership, reachability and explanations, independent of the search. *)
From Verif Require Import Base Domain Lexer Store Search Explain Service SpecGrammar SpecPolicy SpecStore.

(** May [a] use [rel] of [o]? *)
Definition asks (o : entity) (rel : string) (a : entity) : option access_request :=
  Some (mkAccess (Some o) rel (Some a)).

(** ** Subjects of an object and relation *)

(** The subjects of the stored relationships of an object and relation. *)
Definition stored_subject (rels : list relationship) (o : entity) (rel : string) (u : subject) : Prop :=
  In (mkRel (Some o) rel (Some u)) rels.

(** The subjects of the stored relationships whose source has the storage key of an object and relation. *)
Definition key_subject (E : env) (rels : list relationship) (o : entity) (rel : string) (u : subject) : Prop :=
  exists r, In r rels /\ r_subject r = Some u /\ sha E (object_text r) = sha E (e_res o +++ e_id o +++ rel).

Definition subject_node (u : subject) : rnode :=
  match u with
  | SEntity e => NEntity (Some e)
  | SEntitySet e rel => NSet e rel
  | SResourceSet rs => NWild rs
  | SUnset => NUnset
  end.

(** The object a tuple-to-userset continues with. *)
Definition subject_object (u : subject) : option entity :=
  match u with
  | SEntity e => Some e
  | SEntitySet e _ => e
  | SResourceSet _ | SUnset => None
  end.

(** [t] is the rewrite expression of the relation [rel] of the object [o]. *)
Definition rewrites (E : env) (P : policy) (o : entity) (rel : string) (t : tree) : Prop :=
  exists l, relation_of P (e_res o) l /\ rl_name l = rel /\ expression E l t.

(** ** Operators used by a policy *)

Inductive uses (op : operator) : tree -> Prop :=
| us_here l r : uses op (TOp l op r)
| us_left l o r : uses op l -> uses op (TOp l o r)
| us_right l o r : uses op r -> uses op (TOp l o r).

Definition policy_uses (E : env) (P : policy) (op : operator) : Prop :=
  exists rs l t, relation_of P rs l /\ expression E l t /\ uses op t.

Definition union_only (E : env) (P : policy) : Prop := forall op, policy_uses E P op -> op = OpUnion.

Section Semantics.
  Variable E : env.
  Variable P : policy.
  Variable succ : entity -> string -> subject -> Prop.

  (** ** Reachability *)

  (** Nodes a rule leads to. *)
  Inductive yields : rule -> entity -> string -> rnode -> Prop :=
  | yl_this o rel u : succ o rel u -> yields RThis o rel (subject_node u)
  | yl_cu o rel c : yields (RCu c) o rel (NSet (Some o) c)
  | yl_ttu o rel ts cu u : succ o ts u -> yields (RTtu ts cu) o rel (NSet (subject_object u) cu).

  Inductive leads : rnode -> rnode -> Prop :=
  | le_rule o rel t ru n :
      rewrites E P o rel t -> occurs ru t -> yields ru o rel n -> leads (NSet (Some o) rel) n.

  Inductive reach (origin : rnode) : rnode -> Prop :=
  | re_here : reach origin origin
  | re_step x y : reach origin x -> leads x y -> reach origin y.

  (** The relations of an object whose relationships the rewrite expression consults. *)
  Definition looks_up (o : entity) (rel rel' : string) : Prop :=
    exists t, rewrites E P o rel t /\
      ((occurs RThis t /\ rel' = rel) \/ exists cu, occurs (RTtu rel' cu) t).

  (** ** Set semantics *)

  (** The subject asked for. *)
  Variable a : entity.

  (** [a] is among the entities of a subject, when [M] says which relations hold it. *)
  Definition covers (M : entity -> string -> Prop) (u : subject) : Prop :=
    match u with
    | SEntity e => e = a
    | SEntitySet (Some o) rel => M o rel
    | SResourceSet rs => rs = e_res a
    | SEntitySet None _ | SUnset => False
    end.

  Fixpoint eval (M : entity -> string -> Prop) (o : entity) (rel : string) (t : tree) : Prop :=
    match t with
    | TRule RThis => exists u, succ o rel u /\ covers M u
    | TRule (RCu c) => M o c
    | TRule (RTtu ts cu) => exists u o', succ o ts u /\ subject_object u = Some o' /\ M o' cu
    | TOp l OpUnion r => eval M o rel l \/ eval M o rel r
    | TOp l OpInter r => eval M o rel l /\ eval M o rel r
    | TOp l OpDiff r => eval M o rel l /\ ~ eval M o rel r
    | TOp _ (OpOther _) _ | TRule RUnset | TNil | TUnset => False
    end.

  (** [M] contains everything the rewrite rules derive from it. *)
  Definition closed (M : entity -> string -> Prop) : Prop :=
    forall o rel t, rewrites E P o rel t -> eval M o rel t -> M o rel.

  (** Membership: the least set closed under the rewrite rules (for policies without difference). *)
  Definition member (o : entity) (rel : string) : Prop := forall M, closed M -> M o rel.

  (** [M] satisfies the equations of the policy (for all policies; there may be none or several). *)
  Definition solution (M : entity -> string -> Prop) : Prop :=
    forall o rel, M o rel <-> exists t, rewrites E P o rel t /\ eval M o rel t.
End Semantics.

(** ** Policies and relationships that a search can follow *)

(** Trees built from rules with the three operators. *)
Fixpoint standard_tree (t : tree) : Prop :=
  match t with
  | TRule _ => True
  | TOp l (OpUnion | OpInter | OpDiff) r => standard_tree l /\ standard_tree r
  | TOp _ (OpOther _) _ | TNil | TUnset => False
  end.

Definition standard (E : env) (P : policy) : Prop :=
  forall rs l t, relation_of P rs l -> expression E l t -> standard_tree t.

(** The node has its object. *)
Definition has_object (n : rnode) : Prop := match n with NSet None _ | NEntity None => False | _ => True end.

(** Every subject a tuple-to-userset meets from [origin] on is an object (or a set of an object), not a whole resource. *)
Definition ttu_objects (E : env) (P : policy) (succ : entity -> string -> subject -> Prop) (origin : rnode) : Prop :=
  forall o rel t ts cu u, reach E P succ origin (NSet (Some o) rel) -> rewrites E P o rel t -> occurs (RTtu ts cu) t ->
    succ o ts u -> exists o', subject_object u = Some o'.

(** ... and its resource declares the computed relation. *)
Definition ttu_declared (E : env) (P : policy) (succ : entity -> string -> subject -> Prop) (origin : rnode) : Prop :=
  forall o rel t ts cu u, reach E P succ origin (NSet (Some o) rel) -> rewrites E P o rel t -> occurs (RTtu ts cu) t ->
    succ o ts u -> exists o', subject_object u = Some o' /\ declares P (e_res o') cu.

(** The restrictions of every tupleset relation admit only resources with the computed relation. *)
Definition ttu_restricted (E : env) (P : policy) : Prop :=
  forall rs l l' t ts cu, relation_of P rs l -> expression E l t -> occurs (RTtu ts cu) t ->
    relation_of P rs l' -> rl_name l' = ts ->
    exists xs, rl_restr l' = Some (SRSet xs) /\
      forall x, In x xs -> match x with
                         | REntity rs' | REntitySet rs' _ => declares P rs' cu
                         | RRUnset => True
                         end.

(** ** Keys and identities *)

(** No relationship is stored under the key of a relation that a check from [origin] consults unless it
    is a relationship of that relation. *)
Definition unaliased (E : env) (P : policy) (rels : list relationship) (origin : rnode) : Prop :=
  forall o rel rel' r, reach E P (stored_subject rels) origin (NSet (Some o) rel) ->
    looks_up E P o rel rel' -> In r rels ->
    sha E (object_text r) = sha E (e_res o +++ e_id o +++ rel') ->
    r_object r = Some o /\ r_relation r = rel'.

(** The text hashed for the identity of a node in a search. *)
Definition id_text (n : rnode) : string :=
  match n with
  | NSet (Some o) rel => e_res o +++ "/" +++ e_id o +++ "/" +++ rel
  | NEntity (Some o) => e_res o +++ "/" +++ e_id o +++ "/"
  | NWild rs => rs +++ "//"
  | _ => ""
  end.

(** Different nodes reached from [origin] have different identities. *)
Definition distinct_ids (E : env) (P : policy) (succ : entity -> string -> subject -> Prop) (origin : rnode) : Prop :=
  forall x y, reach E P succ origin x -> reach E P succ origin y ->
    sha E (id_text x) = sha E (id_text y) -> x = y.

(** The character [c] does not occur in [s]. *)
Fixpoint lacks (c : ascii) (s : string) : Prop :=
  match s with
  | EmptyString => True
  | String d s' => d <> c /\ lacks c s'
  end.

(** Nodes without slashes and without empty relation names and ids. *)
Definition plain_node (n : rnode) : Prop :=
  match n with
  | NSet (Some o) rel => lacks "/" (e_res o) /\ lacks "/" (e_id o) /\ lacks "/" rel /\ rel <> ""
  | NEntity (Some o) => lacks "/" (e_res o) /\ lacks "/" (e_id o) /\ e_id o <> ""
  | NWild rs => lacks "/" rs
  | NSet None _ | NEntity None | NUnset => False
  end.

(** sha256 without collisions. *)
Definition collision_free (E : env) : Prop := forall x y, sha E x = sha E y -> x = y.

(** The id starts and ends with [c]. *)
Definition delimited (c : ascii) (id : string) : Prop :=
  id = String c "" \/ exists m, id = String c (m +++ String c "").

(** Resource and relation names do not contain [c], object ids start and end with it. *)
Record delimited_ids (c : ascii) (P : policy) (rels : list relationship) : Prop := {
  di_resources : forall rs, declares_resource P rs -> lacks c rs;
  di_relations : forall rs rl, declares P rs rl -> lacks c rl;
  di_objects : forall r o, In r rels -> r_object r = Some o ->
    lacks c (e_res o) /\ lacks c (r_relation r) /\ delimited c (e_id o);
  di_subjects : forall r u o, In r rels -> r_subject r = Some u -> subject_object u = Some o -> delimited c (e_id o) }.

(** ** Explanations *)

Inductive within (t : gtree) : gtree -> Prop :=
| wi_here : within t t
| wi_or r ps p : In p ps -> within t p -> within t (GOr r ps)
| wi_and r ps p : In p ps -> within t p -> within t (GAnd r ps)
| wi_left r x y : within t x -> within t (GDiff r x y)
| wi_right r x y : within t y -> within t (GDiff r x y)
| wi_path r n x why : within t x -> within t (GPath r n (Some x) why).

(** The result of the tree rests on evaluated nodes only: success on one succeeding branch of an OR, on both
    of an AND, and so on; a failing OR needs all its branches. *)
Inductive certified : gtree -> Prop :=
| ce_leaf r n why : r <> RUnknown -> certified (GPath r n None why)
| ce_path n t why : certified t -> certified (GPath (get_result t) n (Some t) why)
| ce_or_success ps p : In p ps -> get_result p = RSuccess -> certified p -> certified (GOr RSuccess ps)
| ce_or_failure ps : (forall p, In p ps -> certified p) -> certified (GOr RFailure ps)
| ce_and_failure ps p : In p ps -> get_result p = RFailure -> certified p -> certified (GAnd RFailure ps)
| ce_and_success ps : (forall p, In p ps -> certified p) -> certified (GAnd RSuccess ps)
| ce_diff_success l r : certified l -> certified r -> certified (GDiff RSuccess l r)
| ce_diff_left l r : get_result l = RFailure -> certified l -> certified (GDiff RFailure l r)
| ce_diff_right l r : get_result r = RSuccess -> certified r -> certified (GDiff RFailure l r).

(** Nodes shown as evaluated, and nodes shown as skipped, in an explanation. *)
Fixpoint evaluated (t : gtree) : list rnode :=
  match t with
  | GOr _ ps | GAnd _ ps => flat_map evaluated ps
  | GDiff _ l r => evaluated l ++ evaluated r
  | GPath RUnknown _ _ _ => []
  | GPath _ n None _ => [n]
  | GPath _ n (Some t') _ => n :: evaluated t'
  end.

Fixpoint skipped (t : gtree) : list rnode :=
  match t with
  | GOr _ ps | GAnd _ ps => flat_map skipped ps
  | GDiff _ l r => skipped l ++ skipped r
  | GPath RUnknown n _ _ => [n]
  | GPath _ _ None _ => []
  | GPath _ _ (Some t') _ => skipped t'
  end.
