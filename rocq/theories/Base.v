(** Base: Go values used by the model.
    Strings are Go strings, that is byte strings. *)
From Coq Require Export String Ascii List Bool Arith NArith Lia.
Export ListNotations.
Open Scope string_scope.
Open Scope list_scope.

(** ** Errors, panics and fuel *)

(** The sentinel errors of internal/policy/errors.go, internal/relation_graph/errors.go
    (ErrWildcardGoal, ErrInvalidRequest), pkg/domain/errors.go (ErrInvalidVariant) and the
    unnamed errors of the parser, the YAML mapper, the serializers and the storage.  Error texts are not modelled:
    an error value is the sentinel it wraps. *)
Inductive err :=
| EInvalidVariant
| EPolicyExists
| EPolicyNotFound
| EResourceNotFound
| ERelationNotFound
| ERelExpTree
| EDuplicateDefinition
| ESubjectRestriction
| ESubjectNotAllowed
| EWildcardGoal
| EInvalidRequest
| EParse
| EYaml
| ESerialize
| EStorage.

(** Outcome of a Go call: a value, a returned error, a panic (nil dereference),
    or [Fuel] when the model ran out of its recursion budget.  Go has no [Fuel]: the
    theorems show that it does not occur when the budget is large enough. *)
Inductive res (A : Type) :=
| Ok (a : A)
| Err (e : err)
| Panic
| Fuel.
Arguments Ok {A} a.
Arguments Err {A} e.
Arguments Panic {A}.
Arguments Fuel {A}.

Definition bind {A B} (x : res A) (f : A -> res B) : res B :=
  match x with
  | Ok a => f a
  | Err e => Err e
  | Panic => Panic
  | Fuel => Fuel
  end.

Declare Scope res_scope.
Notation "'let*' x := e 'in' f" := (bind e (fun x => f))
  (at level 200, x name, e at level 100, f at level 200, right associativity) : res_scope.
Open Scope res_scope.

(** internal/utils/utils.go:14-26 MapSliceErr: stops at the first error. *)
Fixpoint map_res {A B} (f : A -> res B) (l : list A) : res (list B) :=
  match l with
  | [] => Ok []
  | a :: l' =>
      let* b := f a in
      let* bs := map_res f l' in
      Ok (b :: bs)
  end.

(** A Go [for _, x := range l] loop whose body returns an error or continues. *)
Fixpoint for_each {A} (f : A -> res unit) (l : list A) : res unit :=
  match l with
  | [] => Ok tt
  | a :: l' => let* _ := f a in for_each f l'
  end.

(** ** Ordered keys *)

(** Byte-wise lexicographic order of Go strings (bytes.Compare). *)
Fixpoint scmp (a b : string) : comparison :=
  match a, b with
  | EmptyString, EmptyString => Eq
  | EmptyString, String _ _ => Lt
  | String _ _, EmptyString => Gt
  | String x a', String y b' =>
      match N.compare (N_of_ascii x) (N_of_ascii y) with
      | Eq => scmp a' b'
      | c => c
      end
  end.

(** Lexicographic order of pairs of strings. *)
Definition pcmp (a b : string * string) : comparison :=
  match scmp (fst a) (fst b) with
  | Eq => scmp (snd a) (snd b)
  | c => c
  end.

(** ** Key-value stores *)

(** A key-value store holds its entries in key order, as the raccoondb memory and LevelDB
    stores iterate.  raccoondb is not part of /repo: Get, Set, Delete and List are
    modelled as the operations of an ordered map. *)
Section KV.
  Context {K V : Type}.
  Variable cmp : K -> K -> comparison.

  Fixpoint kv_get (k : K) (m : list (K * V)) : option V :=
    match m with
    | [] => None
    | (k', v) :: m' => match cmp k k' with Eq => Some v | _ => kv_get k m' end
    end.

  Fixpoint kv_set (k : K) (v : V) (m : list (K * V)) : list (K * V) :=
    match m with
    | [] => [(k, v)]
    | (k', v') :: m' =>
        match cmp k k' with
        | Lt => (k, v) :: m
        | Eq => (k, v) :: m'
        | Gt => (k', v') :: kv_set k v m'
        end
    end.

  Fixpoint kv_del (k : K) (m : list (K * V)) : list (K * V) :=
    match m with
    | [] => []
    | (k', v') :: m' =>
        match cmp k k' with
        | Eq => kv_del k m'
        | _ => (k', v') :: kv_del k m'
        end
    end.
End KV.
