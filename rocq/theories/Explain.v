(** Explain: internal/relation_graph/goal_tree_serializer.go *)
From Coq Require Import DecimalString.
From Verif Require Import Base Domain Lexer Parser Validate Store Search.

(** relation_graph.proto ExplainFormat: an open enum. *)
Inductive format := FSpew | FJson | FDot | FOther (n : N).

(** goal_tree_serializer.go:187-198 SerializerFactory *)
Definition serializer_factory (f : format) : res unit :=
  match f with
  | FSpew | FJson | FDot => Ok tt
  | FOther _ => Err EInvalidVariant
  end.

(** The goal tree as Go objects: an object is addressed by the list of child
    indices that leads to it from the root (last step first). *)
Definition addr := list nat.

(** Fields of a goal tree object that hold other goal trees: Path, Paths, Left, Right. *)
Definition children (t : gtree) : list gtree :=
  match t with
  | GOr _ ps | GAnd _ ps => ps
  | GDiff _ l r => [l; r]
  | GPath _ _ (Some c) _ => [c]
  | GPath _ _ None _ => []
  end.

Fixpoint subtree (root : gtree) (a : addr) : option gtree :=
  match a with
  | [] => Some root
  | i :: a' => match subtree root a' with Some t => nth_error (children t) i | None => None end
  end.

(** Parent pointers (types.go SetParent, called by searcher.go on every child it keeps): the
    parent of a child is the object that holds it; the root has a nil parent.  (Below a branch that the search
    did not enter the parents are nil; the encoder meets the parent of the root's child before that.) *)
Definition parent (a : addr) : option addr :=
  match a with
  | [] => None
  | _ :: a' => Some a'
  end.

(** Pointers an object holds in exported fields, in field order: Parent comes first. *)
Definition pointers (root : gtree) (a : addr) : list addr :=
  match parent a with Some p => [p] | None => [] end
  ++ match subtree root a with
     | Some t => map (fun i => i :: a) (seq 0 (length (children t)))
     | None => []
     end.

Definition addr_eqb (a b : addr) : bool := if list_eq_dec Nat.eq_dec a b then true else false.

(** encoding/json on a pointer graph: follows every pointer in exported fields and returns an error
    when it meets a pointer that is already on its stack.  (The Go encoder starts to
    compare pointers at depth 1000: that delays the error but does not avoid it.) *)
Fixpoint json_visit (n : nat) (root : gtree) (stack : list addr) (a : addr) : res unit :=
  match n with
  | O => Fuel
  | S n' =>
      if existsb (addr_eqb a) stack then Err ESerialize
      else for_each (json_visit n' root (a :: stack)) (pointers root a)
  end.

(** ** DOT *)

(** pkg/domain/relation_graph.go:65-86 PrettyString: nil objects panic. *)
Definition pretty (n : rnode) : res string :=
  match n with
  | NSet None _ | NEntity None => Panic
  | NSet (Some o) rel =>
      Ok ("(" +++ e_res o +++ ":" +++ e_id o +++ (if String.eqb rel "" then "" else ", " +++ rel) +++ ")")
  | NEntity (Some o) => Ok ("(" +++ e_res o +++ ":" +++ e_id o +++ ")")
  | NWild rs => Ok ("(" +++ rs +++ ":*)")
  | NUnset => Ok "(:)"
  end.

(** types.go:75-87 SearchResult.String *)
Definition result_text (r : sresult) : string :=
  match r with RUnknown => "UNKNOWN" | RSuccess => "SUCCESS" | RFailure => "FAILURE" end.

Definition newline : string := String "010" EmptyString.
Definition quote : string := String """" EmptyString.

(** goal_tree_serializer.go:181-185 sprintf, relation_tree_serializer.go:70-72 wrap: quotes around the text *)
Definition wrap_quotes (s : string) : string := quote +++ s +++ quote.

(** goal_tree_serializer.go:71, 92, 119, 146: the labels *)
Definition goal_label (t : gtree) : res string :=
  match t with
  | GPath r n _ reason =>
      let* p := pretty n in
      Ok (wrap_quotes ("PathNode" +++ newline +++ "relation node: " +++ p +++ newline
            +++ "reason: " +++ reason +++ newline +++ "result: " +++ result_text r))
  | GOr r _ => Ok (wrap_quotes ("ORNode" +++ newline +++ "result: " +++ result_text r))
  | GAnd r _ => Ok (wrap_quotes ("ANDNode" +++ newline +++ "result: " +++ result_text r))
  | GDiff r _ _ => Ok (wrap_quotes ("DifferenceNode" +++ newline +++ "result: " +++ result_text r))
  end.

(** Statements added to the gographviz graph: AddNode and AddEdge.  They do not fail here: gographviz only
    refuses unknown attribute names and unknown parent graphs. *)
Inductive goal_stmt :=
| GNode (id : string) (label : option string)
| GEdge (src dst : string).

(** goal_tree_serializer.go:175-179 nextId, for the value [c] of the counter *)
Definition goal_id (c : nat) : string := wrap_quotes (NilEmpty.string_of_uint (Nat.to_uint c)).

(** goal_tree_serializer.go:108-113, 135-140 the loops over Paths *)
Definition dot_loop (f : gtree -> nat -> res (list goal_stmt * nat)) :=
  fix loop (ps : list gtree) (c : nat) : res (list goal_stmt * nat) :=
    match ps with
    | [] => Ok ([], c)
    | p :: ps' =>
        let* x := f p c in
        let* y := loop ps' (snd x) in
        Ok (fst x ++ fst y, snd y)
    end.

(** goal_tree_serializer.go:51-173 handleGoalTree, handlePathNode, handleORNode, handleANDNode and
    handleDifferenceNode.  [c] is the counter. *)
Fixpoint dot_goal (parent : string) (t : gtree) (c : nat) : res (list goal_stmt * nat) :=
  let id := goal_id c in
  let* l := goal_label t in
  let* x := match t with
            | GOr _ ps | GAnd _ ps => dot_loop (dot_goal id) ps (S c)
            | GDiff _ a b =>
                let* x := dot_goal id a (S c) in
                let* y := dot_goal id b (snd x) in
                Ok (fst x ++ fst y, snd y)
            | GPath _ _ (Some p) _ => dot_goal id p (S c)
            | GPath _ _ None _ => Ok ([], S c)
            end in
  Ok (GNode id (Some l) :: GEdge parent id :: fst x, snd x).

(** goal_tree_serializer.go:33-49 Serialize *)
Definition goal_dot (t : gtree) : res (list goal_stmt) :=
  let* x := dot_goal "root" t 0 in
  Ok (GNode "root" None :: fst x).

(** goal_tree_serializer.go:14-49: spew always produces text (it marks pointers already shown), which
    is not modelled; the text of DOT is gographviz's rendering of the statements in [goal_dot]. *)
Definition serialize (n : nat) (f : format) (t : gtree) : res unit :=
  match f with
  | FSpew => Ok tt
  | FDot => let* _ := goal_dot t in Ok tt
  | FJson => json_visit n t [] []
  | FOther _ => Err EInvalidVariant
  end.
