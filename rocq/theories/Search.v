(** Search: internal/relation_graph searcher.go, goal_tree.go, rule_evaluator.go *)
From Verif Require Import Base Domain Lexer Parser Validate Store.

(** types.go:61-74 SearchResult *)
Inductive sresult := RUnknown | RSuccess | RFailure.

(** types.go:27-109 GoalTree: ORNode, ANDNode, DifferenceNode and PathNode.
    Parent pointers are left out here (see Explain.v). *)
Inductive gtree :=
| GOr (r : sresult) (paths : list gtree)
| GAnd (r : sresult) (paths : list gtree)
| GDiff (r : sresult) (left right : gtree)
| GPath (r : sresult) (n : rnode) (path : option gtree) (reason : string).

(** types.go GetResult methods *)
Definition get_result (t : gtree) : sresult :=
  match t with
  | GOr r _ => r
  | GAnd r _ => r
  | GDiff r _ _ => r
  | GPath r _ _ _ => r
  end.

Definition is_success (r : sresult) : bool := match r with RSuccess => true | _ => false end.
Definition is_failure (r : sresult) : bool := match r with RFailure => true | _ => false end.

(** types.go:107-109 Goal.  Check uses an entity target, Expand none; no caller passes
    another kind of target. *)
Inductive goal :=
| GoalNone
| GoalEntity (o : option entity).

(** pkg/domain/relation_graph.go:36-63 RelationNode.Id, without the base64 encoding.
    Nil objects panic. *)
Definition node_id (E : env) (n : rnode) : res string :=
  match n with
  | NSet None _ => Panic
  | NSet (Some o) rel => Ok (sha E (e_res o +++ "/" +++ e_id o +++ "/" +++ rel))
  | NEntity None => Panic
  | NEntity (Some o) => Ok (sha E (e_res o +++ "/" +++ e_id o +++ "/"))
  | NWild rs => Ok (sha E (rs +++ "/" +++ "/"))
  | NUnset => Ok (sha E "")
  end.

(** pkg/domain/relation_graph.go:27-33 IsTerminalNode *)
Definition is_terminal (n : rnode) : bool := match n with NSet _ _ => false | _ => true end.

(** searcher.go:223-258 GoalFoundSpec.Found: nil objects panic when compared. *)
Definition goal_found (n : rnode) (g : goal) : res bool :=
  match g with
  | GoalNone => Ok false
  | GoalEntity ge =>
      match n with
      | NEntity pe =>
          match ge, pe with
          | Some a, Some b => Ok (String.eqb (e_res a) (e_res b) && String.eqb (e_id a) (e_id b))
          | _, _ => Panic
          end
      | NSet _ _ => Ok false
      | NWild rs => match ge with Some a => Ok (String.eqb rs (e_res a)) | None => Panic end
      | NUnset => Ok false
      end
  end.

Definition conditional (b : bool) : sresult := if b then RSuccess else RFailure.

(** goal_tree.go:219-230 reasonBuilder *)
Definition reason_builder (r : rule) : string :=
  match r with
  | RThis => "Rule This"
  | RTtu ts cu => "Rule Tuple To Userset: " +++ ts +++ " " +++ cu
  | RCu t => "Rule Computed Userset: " +++ t
  | RUnset => ""
  end.

(** rule_evaluator.go:108-130 buildTupleToUsersetNode: a wildcard gives a nil object. *)
Definition build_ttu_node (computed : string) (n : rnode) : res rnode :=
  match n with
  | NSet o _ => Ok (NSet o computed)
  | NEntity o => Ok (NSet o computed)
  | NWild _ => Ok (NSet None computed)
  | NUnset => Err EInvalidVariant
  end.

(** ** The search as the server runs it

    Every evaluation of a rule reads the store, so other requests can write between two reads. *)
Section Program.
  Variable E : env.
  Variable P : policy.
  (** The id under which relationships are read. *)
  Variable pid : string.

  (** node_repository.go:26-44 GetSucessors: one read *)
  Definition successors_prog (o : option entity) (rel : string) : prog (res (list rnode)) :=
    EdgeList pid (fun es => lift (get_successors E es o rel)).

  (** rule_evaluator.go:29-106 Evaluate, evaluateThis, evaluateComputedUserset,
      evaluateTupleToUserset *)
  Definition evaluate_prog (r : rule) (o : option entity) (rel : string) : prog (res (list rnode)) :=
    match r with
    | RThis => successors_prog o rel
    | RTtu ts cu => rbind (successors_prog o ts) (fun ns => lift (map_res (build_ttu_node cu) ns))
    | RCu t => lift (Ok [NSet o t])
    | RUnset => lift (Err EInvalidVariant)
    end.

  (** goal_tree.go:85-99 buildGoalTree, 101-130 buildGoalForRule, relationNodeToPathNode and
      132-183 buildGoalForOpNode: a nil tree panics. *)
  Fixpoint build_goal_tree_prog (t : tree) (o : option entity) (rel : string) : prog (res gtree) :=
    match t with
    | TNil => lift Panic
    | TUnset => lift (Err EInvalidVariant)
    | TRule r =>
        rbind (evaluate_prog r o rel) (fun ns =>
          lift (Ok (GOr RUnknown (map (fun n => GPath RUnknown n None (reason_builder r)) ns))))
    | TOp l op r =>
        rbind (build_goal_tree_prog l o rel) (fun a =>
          rbind (build_goal_tree_prog r o rel) (fun b =>
            lift match op with
                 | OpUnion => Ok (GOr RUnknown [a; b])
                 | OpInter => Ok (GAnd RUnknown [a; b])
                 | OpDiff => Ok (GDiff RUnknown a b)
                 | OpOther _ => Err EInvalidVariant
                 end))
    end.

  (** goal_tree.go:32-83 Build, handleTerminalNodes and handleEntitySet *)
  Definition build_prog (n : rnode) : prog (res gtree) :=
    match n with
    | NSet None _ => lift Panic
    | NSet (Some e) rel =>
        match lut_get_relation P (e_res e) rel with
        | None => lift (Err ERelationNotFound)
        | Some rl =>
            rbind (lift (get_expression_tree E rl)) (fun t => build_goal_tree_prog t (Some e) rel)
        end
    | NEntity _ | NWild _ => lift (Ok (GPath RUnknown n None ""))
    | NUnset => lift (Err EInvalidVariant)
    end.

  (** searcher.go:120-131 the loop of searchOR: stops at the first success; the paths after it stay
      as they were built. *)
  Definition or_loop_prog (f : gtree -> list string -> prog (res (gtree * list string))) :=
    fix loop (ps : list gtree) (seen : list string) : prog (res (bool * list gtree * list string)) :=
      match ps with
      | [] => lift (Ok (false, [], seen))
      | p :: ps' =>
          rbind (f p seen) (fun x =>
            if is_success (get_result (fst x)) then lift (Ok (true, fst x :: ps', snd x))
            else rbind (loop ps' (snd x)) (fun y =>
              let '(b, qs, seen') := y in lift (Ok (b, fst x :: qs, seen'))))
      end.

  (** searcher.go:87-99 the loop of searchAND: stops at the first failure. *)
  Definition and_loop_prog (f : gtree -> list string -> prog (res (gtree * list string))) :=
    fix loop (ps : list gtree) (seen : list string) : prog (res (bool * list gtree * list string)) :=
      match ps with
      | [] => lift (Ok (true, [], seen))
      | p :: ps' =>
          rbind (f p seen) (fun x =>
            if is_failure (get_result (fst x)) then lift (Ok (false, fst x :: ps', snd x))
            else rbind (loop ps' (snd x)) (fun y =>
              let '(b, qs, seen') := y in lift (Ok (b, fst x :: qs, seen'))))
      end.

  (** searcher.go:56-175 search, searchAND, searchOR and searchDifference.
      [sp] is searchPath.  [seen] is the seenNodes map of the Searcher. *)
  Fixpoint search_tree_prog (sp : rnode -> string -> list string -> prog (res (gtree * list string)))
      (t : gtree) (seen : list string) : prog (res (gtree * list string)) :=
    match t with
    | GOr _ ps =>
        rbind (or_loop_prog (search_tree_prog sp) ps seen) (fun x =>
          let '(b, qs, seen') := x in lift (Ok (GOr (conditional b) qs, seen')))
    | GAnd _ ps =>
        rbind (and_loop_prog (search_tree_prog sp) ps seen) (fun x =>
          let '(b, qs, seen') := x in lift (Ok (GAnd (conditional b) qs, seen')))
    | GDiff _ l r =>
        rbind (search_tree_prog sp l seen) (fun x =>
          rbind (search_tree_prog sp r (snd x)) (fun y =>
            let found := is_success (get_result (fst x)) && is_failure (get_result (fst y)) in
            lift (Ok (GDiff (conditional found) (fst x) (fst y), snd y))))
    | GPath _ n _ reason => sp n reason seen
    end.

  (** searcher.go:177-221 searchPath.  [n] bounds the depth of nested paths. *)
  Fixpoint search_path_prog (g : goal) (n : nat) (nd : rnode) (reason : string) (seen : list string)
      : prog (res (gtree * list string)) :=
    match n with
    | O => lift Fuel
    | S n' =>
        rbind (lift (node_id E nd)) (fun id =>
          if existsb (String.eqb id) seen then lift (Ok (GPath RUnknown nd None reason, seen))
          else
            let seen1 := id :: seen in
            rbind (lift (goal_found nd g)) (fun found =>
              if found || is_terminal nd then lift (Ok (GPath (conditional found) nd None reason, seen1))
              else
                rbind (build_prog nd) (fun t =>
                  rbind (search_tree_prog (search_path_prog g n') t seen1) (fun x =>
                    lift (Ok (GPath (get_result (fst x)) nd (Some (fst x)) reason, snd x))))))
    end.

  (** searcher.go:30-54 Search *)
  Definition search_prog (n : nat) (origin : rnode) (g : goal) : prog (res gtree) :=
    rbind (search_path_prog g n origin "Request" []) (fun x => lift (Ok (fst x))).
End Program.

(** ** The search when nobody writes

    The same functions with all reads answered by the list [es].  SearchRun.v proves that an uninterrupted run of the
    programs above computes them. *)
Section Graph.
  Variable E : env.
  Variable P : policy.
  Variable es : list ((string * string) * edge).

  (** ** rule_evaluator.go *)

  (** rule_evaluator.go:29-106 Evaluate, evaluateThis, evaluateComputedUserset,
      evaluateTupleToUserset *)
  Definition evaluate (r : rule) (o : option entity) (rel : string) : res (list rnode) :=
    match r with
    | RThis => get_successors E es o rel
    | RTtu ts cu =>
        let* ns := get_successors E es o ts in
        map_res (build_ttu_node cu) ns
    | RCu t => Ok [NSet o t]
    | RUnset => Err EInvalidVariant
    end.

  (** ** goal_tree.go *)

  (** goal_tree.go:101-130 buildGoalForRule and relationNodeToPathNode *)
  Definition build_goal_for_rule (r : rule) (o : option entity) (rel : string) : res gtree :=
    let* ns := evaluate r o rel in
    Ok (GOr RUnknown (map (fun n => GPath RUnknown n None (reason_builder r)) ns)).

  (** goal_tree.go:85-99 buildGoalTree and 132-183 buildGoalForOpNode: a nil tree panics. *)
  Fixpoint build_goal_tree (t : tree) (o : option entity) (rel : string) : res gtree :=
    match t with
    | TNil => Panic
    | TUnset => Err EInvalidVariant
    | TRule r => build_goal_for_rule r o rel
    | TOp l op r =>
        let* a := build_goal_tree l o rel in
        let* b := build_goal_tree r o rel in
        match op with
        | OpUnion => Ok (GOr RUnknown [a; b])
        | OpInter => Ok (GAnd RUnknown [a; b])
        | OpDiff => Ok (GDiff RUnknown a b)
        | OpOther _ => Err EInvalidVariant
        end
    end.

  (** goal_tree.go:64-83 handleEntitySet *)
  Definition handle_entity_set (o : option entity) (rel : string) : res gtree :=
    match o with
    | None => Panic
    | Some e =>
        match lut_get_relation P (e_res e) rel with
        | None => Err ERelationNotFound
        | Some rl =>
            let* t := get_expression_tree E rl in
            build_goal_tree t o rel
        end
    end.

  (** goal_tree.go:32-61 Build and handleTerminalNodes *)
  Definition build (n : rnode) : res gtree :=
    match n with
    | NSet o rel => handle_entity_set o rel
    | NEntity _ | NWild _ => Ok (GPath RUnknown n None "")
    | NUnset => Err EInvalidVariant
    end.

  (** ** searcher.go *)

  (** searcher.go:120-131 the loop of searchOR: stops at the first success; the paths after it stay
      as they were built. *)
  Definition or_loop (f : gtree -> list string -> res (gtree * list string)) :=
    fix loop (ps : list gtree) (seen : list string) : res (bool * list gtree * list string) :=
      match ps with
      | [] => Ok (false, [], seen)
      | p :: ps' =>
          let* x := f p seen in
          if is_success (get_result (fst x)) then Ok (true, fst x :: ps', snd x)
          else
            let* y := loop ps' (snd x) in
            let '(b, qs, seen') := y in
            Ok (b, fst x :: qs, seen')
      end.

  (** searcher.go:87-99 the loop of searchAND: stops at the first failure. *)
  Definition and_loop (f : gtree -> list string -> res (gtree * list string)) :=
    fix loop (ps : list gtree) (seen : list string) : res (bool * list gtree * list string) :=
      match ps with
      | [] => Ok (true, [], seen)
      | p :: ps' =>
          let* x := f p seen in
          if is_failure (get_result (fst x)) then Ok (false, fst x :: ps', snd x)
          else
            let* y := loop ps' (snd x) in
            let '(b, qs, seen') := y in
            Ok (b, fst x :: qs, seen')
      end.

  (** searcher.go:56-175 search, searchAND, searchOR and searchDifference.
      [sp] is searchPath.  [seen] is the seenNodes map of the Searcher. *)
  Fixpoint search_tree (sp : rnode -> string -> list string -> res (gtree * list string))
      (t : gtree) (seen : list string) : res (gtree * list string) :=
    match t with
    | GOr _ ps =>
        let* x := or_loop (search_tree sp) ps seen in
        let '(b, qs, seen') := x in
        Ok (GOr (conditional b) qs, seen')
    | GAnd _ ps =>
        let* x := and_loop (search_tree sp) ps seen in
        let '(b, qs, seen') := x in
        Ok (GAnd (conditional b) qs, seen')
    | GDiff _ l r =>
        let* x := search_tree sp l seen in
        let* y := search_tree sp r (snd x) in
        let found := is_success (get_result (fst x)) && is_failure (get_result (fst y)) in
        Ok (GDiff (conditional found) (fst x) (fst y), snd y)
    | GPath _ n _ reason => sp n reason seen
    end.

  (** searcher.go:177-221 searchPath.  [n] bounds the depth of nested paths. *)
  Fixpoint search_path (g : goal) (n : nat) (nd : rnode) (reason : string) (seen : list string)
      : res (gtree * list string) :=
    match n with
    | O => Fuel
    | S n' =>
        let* id := node_id E nd in
        if existsb (String.eqb id) seen then Ok (GPath RUnknown nd None reason, seen)
        else
          let seen1 := id :: seen in
          let* found := goal_found nd g in
          if found || is_terminal nd then Ok (GPath (conditional found) nd None reason, seen1)
          else
            let* t := build nd in
            let* x := search_tree (search_path g n') t seen1 in
            Ok (GPath (get_result (fst x)) nd (Some (fst x)) reason, snd x)
    end.

  (** searcher.go:30-54 Search *)
  Definition search (n : nat) (origin : rnode) (g : goal) : res gtree :=
    let* x := search_path g n origin "Request" [] in
    Ok (fst x).
End Graph.
