(** Store: internal/store/kv_store (model.go, mapper.go, policy_repository.go, node_repository.go) *)
From Verif Require Import Base Domain Lexer Parser Validate.

(** ** Internal messages (kv_store/model.pb.go) *)

(** RelationType *)
Inductive rtype := TyUnknown | TyObject | TyObjectSet | TyResourceSet.

(** RelationNode *)
Record inode := mkINode { i_res : string; i_id : string; i_rel : string; i_type : rtype }.

(** Relationship: source and destination *)
Record edge := mkEdge { ed_src : inode; ed_dst : inode }.

(** RelationshipData (its id is the key it is stored under) *)
Record rdata := mkData { d_app : string; d_created : N }.

(** model.go:25-31 relationNodeKeyer.Key: sha256 of the three fields written one after the other;
    no separator, and the type is not part of the key. *)
Definition node_key (E : env) (n : inode) : string :=
  sha E (i_res n +++ i_id n +++ i_rel n).

(** Key of a relationship: the keys of its two nodes (raccoondb edge keyer; both have the
    fixed length of a sha256 sum, so the pair can be read back from the bytes). *)
Definition edge_key (E : env) (e : edge) : string * string :=
  (node_key E (ed_src e), node_key E (ed_dst e)).

(** ** The store

    Policies are keyed by id, relationships by policy id and key (kv_store.go:47-57), data only by the
    relationship key (kv_store.go:59-65 does not use its policyId argument). *)
Record store := mkStore {
  st_pol : list (string * policy_record);
  st_edges : list ((string * (string * string)) * edge);
  st_data : list ((string * string) * rdata) }.

Definition empty_store : store := mkStore [] [] [].

Definition ecmp (a b : string * (string * string)) : comparison :=
  match scmp (fst a) (fst b) with
  | Eq => pcmp (snd a) (snd b)
  | c => c
  end.

(** Relationships of one policy, in key order, with their keys. *)
Definition edges_of (pid : string) (s : store) : list ((string * string) * edge) :=
  map (fun x => (snd (fst x), snd x))
    (filter (fun x => String.eqb (fst (fst x)) pid) (st_edges s)).

(** ** Programs over atomic storage operations

    A Go method is a program: a tree of storage operations whose continuations receive the
    operation's result.  Each operation is atomic.  A storage error ends the method
    without further effect, which is the same store as a crash before that operation. *)
Inductive prog (A : Type) :=
| Ret (a : A)
| PolGet (id : string) (k : option policy_record -> prog A)
| PolHas (id : string) (k : bool -> prog A)
| PolSet (id : string) (r : policy_record) (k : prog A)
| PolDel (id : string) (k : prog A)
| PolIds (k : list string -> prog A)
| EdgeGet (pid : string) (key : string * string) (k : option edge -> prog A)
| EdgeSet (pid : string) (key : string * string) (e : edge) (k : prog A)
| EdgeDel (pid : string) (key : string * string) (k : prog A)
| EdgeList (pid : string) (k : list ((string * string) * edge) -> prog A)
| DataGet (key : string * string) (k : option rdata -> prog A)
| DataSet (key : string * string) (d : rdata) (k : prog A)
| DataDel (key : string * string) (k : prog A).
Arguments Ret {A} a.
Arguments PolGet {A} id k.
Arguments PolHas {A} id k.
Arguments PolSet {A} id r k.
Arguments PolDel {A} id k.
Arguments PolIds {A} k.
Arguments EdgeGet {A} pid key k.
Arguments EdgeSet {A} pid key e k.
Arguments EdgeDel {A} pid key k.
Arguments EdgeList {A} pid k.
Arguments DataGet {A} key k.
Arguments DataSet {A} key d k.
Arguments DataDel {A} key k.

Fixpoint pbind {A B} (p : prog A) (f : A -> prog B) : prog B :=
  match p with
  | Ret a => f a
  | PolGet id k => PolGet id (fun x => pbind (k x) f)
  | PolHas id k => PolHas id (fun x => pbind (k x) f)
  | PolSet id r k => PolSet id r (pbind k f)
  | PolDel id k => PolDel id (pbind k f)
  | PolIds k => PolIds (fun x => pbind (k x) f)
  | EdgeGet pid key k => EdgeGet pid key (fun x => pbind (k x) f)
  | EdgeSet pid key e k => EdgeSet pid key e (pbind k f)
  | EdgeDel pid key k => EdgeDel pid key (pbind k f)
  | EdgeList pid k => EdgeList pid (fun x => pbind (k x) f)
  | DataGet key k => DataGet key (fun x => pbind (k x) f)
  | DataSet key d k => DataSet key d (pbind k f)
  | DataDel key k => DataDel key (pbind k f)
  end.

(** Sequencing of programs that may fail. *)
Definition rbind {A B} (p : prog (res A)) (f : A -> prog (res B)) : prog (res B) :=
  pbind p (fun x =>
    match x with
    | Ok a => f a
    | Err e => Ret (Err e)
    | Panic => Ret Panic
    | Fuel => Ret Fuel
    end).

(** A pure computation inside a program. *)
Definition lift {A} (x : res A) : prog (res A) := Ret x.

(** One storage operation. *)
Definition step1 {A} (p : prog A) (s : store) : option (prog A * store) :=
  match p with
  | Ret _ => None
  | PolGet id k => Some (k (kv_get scmp id (st_pol s)), s)
  | PolHas id k =>
      Some (k (match kv_get scmp id (st_pol s) with Some _ => true | None => false end), s)
  | PolSet id r k => Some (k, mkStore (kv_set scmp id r (st_pol s)) (st_edges s) (st_data s))
  | PolDel id k => Some (k, mkStore (kv_del scmp id (st_pol s)) (st_edges s) (st_data s))
  | PolIds k => Some (k (map fst (st_pol s)), s)
  | EdgeGet pid key k => Some (k (kv_get ecmp (pid, key) (st_edges s)), s)
  | EdgeSet pid key e k =>
      Some (k, mkStore (st_pol s) (kv_set ecmp (pid, key) e (st_edges s)) (st_data s))
  | EdgeDel pid key k =>
      Some (k, mkStore (st_pol s) (kv_del ecmp (pid, key) (st_edges s)) (st_data s))
  | EdgeList pid k => Some (k (edges_of pid s), s)
  | DataGet key k => Some (k (kv_get pcmp key (st_data s)), s)
  | DataSet key d k => Some (k, mkStore (st_pol s) (st_edges s) (kv_set pcmp key d (st_data s)))
  | DataDel key k => Some (k, mkStore (st_pol s) (st_edges s) (kv_del pcmp key (st_data s)))
  end.

(** Uninterrupted execution. *)
Fixpoint run {A} (p : prog A) (s : store) : A * store :=
  match p with
  | Ret a => (a, s)
  | PolGet id k => run (k (kv_get scmp id (st_pol s))) s
  | PolHas id k =>
      run (k (match kv_get scmp id (st_pol s) with Some _ => true | None => false end)) s
  | PolSet id r k => run k (mkStore (kv_set scmp id r (st_pol s)) (st_edges s) (st_data s))
  | PolDel id k => run k (mkStore (kv_del scmp id (st_pol s)) (st_edges s) (st_data s))
  | PolIds k => run (k (map fst (st_pol s))) s
  | EdgeGet pid key k => run (k (kv_get ecmp (pid, key) (st_edges s))) s
  | EdgeSet pid key e k =>
      run k (mkStore (st_pol s) (kv_set ecmp (pid, key) e (st_edges s)) (st_data s))
  | EdgeDel pid key k =>
      run k (mkStore (st_pol s) (kv_del ecmp (pid, key) (st_edges s)) (st_data s))
  | EdgeList pid k => run (k (edges_of pid s)) s
  | DataGet key k => run (k (kv_get pcmp key (st_data s))) s
  | DataSet key d k => run k (mkStore (st_pol s) (st_edges s) (kv_set pcmp key d (st_data s)))
  | DataDel key k => run k (mkStore (st_pol s) (st_edges s) (kv_del pcmp key (st_data s)))
  end.

(** The store after a crash that let the first [n] operations through. *)
Fixpoint crash {A} (n : nat) (p : prog A) (s : store) : store :=
  match n with
  | O => s
  | S n' =>
      match step1 p s with
      | None => s
      | Some (p', s') => crash n' p' s'
      end
  end.

(** ** Mapper (mapper.go) *)

(** mapper.go:9-44 ToInternal: nil relationship, object, subject or set entity panic.
    The subject is read first. *)
Definition to_internal (r : option relationship) : res edge :=
  match r with
  | None => Panic
  | Some r =>
      let* dst :=
        match r_subject r with
        | None => Panic
        | Some (SEntity e) => Ok (mkINode (e_res e) (e_id e) "" TyObject)
        | Some (SEntitySet None _) => Panic
        | Some (SEntitySet (Some e) rel) => Ok (mkINode (e_res e) (e_id e) rel TyObjectSet)
        | Some (SResourceSet rs) => Ok (mkINode rs "" "" TyResourceSet)
        | Some SUnset => Ok (mkINode "" "" "" TyUnknown)
        end in
      match r_object r with
      | None => Panic
      | Some o => Ok (mkEdge (mkINode (e_res o) (e_id o) (r_relation r) TyObjectSet) dst)
      end
  end.

(** mapper.go:46-83 FromInternal *)
Definition from_internal (e : edge) : relationship :=
  let s := ed_src e in
  let d := ed_dst e in
  mkRel (Some (mkEntity (i_res s) (i_id s))) (i_rel s)
    (Some match i_type d with
          | TyObject => SEntity (mkEntity (i_res d) (i_id d))
          | TyObjectSet => SEntitySet (Some (mkEntity (i_res d) (i_id d))) (i_rel d)
          | TyResourceSet => SResourceSet (i_res d)
          | TyUnknown => SUnset
          end).

(** mapper.go:85-112 FromPublicRelationNode: nil objects panic. *)
Definition from_public_node (n : rnode) : res inode :=
  match n with
  | NEntity None => Panic
  | NEntity (Some o) => Ok (mkINode (e_res o) (e_id o) "" TyObject)
  | NSet None _ => Panic
  | NSet (Some o) rel => Ok (mkINode (e_res o) (e_id o) rel TyObjectSet)
  | NWild rs => Ok (mkINode rs "" "" TyResourceSet)
  | NUnset => Ok (mkINode "" "" "" TyUnknown)
  end.

(** mapper.go:114-146 ToPublicRelationNode *)
Definition to_public_node (n : inode) : rnode :=
  match i_type n with
  | TyObject => NEntity (Some (mkEntity (i_res n) (i_id n)))
  | TyObjectSet => NSet (Some (mkEntity (i_res n) (i_id n))) (i_rel n)
  | TyResourceSet => NWild (i_res n)
  | TyUnknown => NUnset
  end.

(** mapper.go:148-156 FromInternalRecord *)
Definition from_internal_record (pid : string) (e : edge) (d : rdata) : rel_record :=
  mkRRec pid (from_internal e) (d_created d) (d_app d).

(** ** policyRepository (policy_repository.go) *)

(** policy_repository.go:33-47 SetPolicy *)
Definition repo_set_policy (r : policy_record) : prog bool :=
  PolHas (p_id (pr_policy r)) (fun has => PolSet (p_id (pr_policy r)) r (Ret has)).

(** policy_repository.go:49-60 GetPolicy *)
Definition repo_get_policy (id : string) : prog (option policy_record) := PolGet id Ret.

(** policy_repository.go:62-78 DeletePolicy *)
Definition repo_delete_policy (id : string) : prog bool :=
  PolHas id (fun found => if found then PolDel id (Ret true) else Ret false).

(** policy_repository.go:80-90 ListPolicyIds *)
Definition repo_list_policy_ids : prog (list string) := PolIds Ret.

Definition is_some {A} (o : option A) : bool := match o with Some _ => true | None => false end.

(** policy_repository.go:92-121 SetRelationship *)
Definition repo_set_relationship (E : env) (pid : string) (r : option relationship)
    (d : rdata) : prog (res bool) :=
  rbind (lift (to_internal r)) (fun e =>
    EdgeGet pid (edge_key E e) (fun opt =>
      EdgeSet pid (edge_key E e) e
        (DataSet (edge_key E e) d (Ret (Ok (is_some opt)))))).

(** policy_repository.go:123-148 DeleteRelationship *)
Definition repo_delete_relationship (E : env) (pid : string) (r : option relationship)
    : prog (res bool) :=
  rbind (lift (to_internal r)) (fun e =>
    EdgeGet pid (edge_key E e) (fun opt =>
      EdgeDel pid (edge_key E e)
        (DataDel (edge_key E e) (Ret (Ok (is_some opt)))))).

(** policy_repository.go:150-169 FindRelationships: lists first, then builds the predicate. *)
Definition repo_find_relationships (pid : string) (s : option selector)
    : prog (res (list relationship)) :=
  EdgeList pid (fun es =>
    lift (let* sp := new_selector_spec s in
          Ok (filter (selector_satisfies sp) (map (fun x => from_internal (snd x)) es)))).

(** policy_repository.go:171-185 GetRelationship: reads the data store only. *)
Definition repo_get_relationship (E : env) (pid : string) (r : option relationship)
    : prog (res (option rel_record)) :=
  rbind (lift (to_internal r)) (fun e =>
    DataGet (edge_key E e) (fun opt =>
      Ret (Ok (match opt with
               | None => None
               | Some d => Some (from_internal_record pid e d)
               end)))).

(** internal/utils/utils.go:14-26 MapSliceErr over programs *)
Fixpoint map_prog {A B} (f : A -> prog (res B)) (l : list A) : prog (res (list B)) :=
  match l with
  | [] => Ret (Ok [])
  | a :: l' => rbind (f a) (fun b => rbind (map_prog f l') (fun bs => Ret (Ok (b :: bs))))
  end.

(** policy_repository.go:187-201 FindRelationshipRecords *)
Definition repo_find_relationship_records (E : env) (pid : string) (s : option selector)
    : prog (res (list (option rel_record))) :=
  rbind (repo_find_relationships pid s) (fun rs =>
    map_prog (fun r => repo_get_relationship E pid (Some r)) rs).

(** policy_repository.go:203-218 DeleteRelationships: the count is the number of matches. *)
Definition repo_delete_relationships (E : env) (pid : string) (s : option selector)
    : prog (res nat) :=
  rbind (repo_find_relationships pid s) (fun rs =>
    rbind (map_prog (fun r => repo_delete_relationship E pid (Some r)) rs) (fun founds =>
      Ret (Ok (length founds)))).

(** node_repository.go:26-44 GetSucessors, on the listed relationships of the policy:
    the destinations of the relationships stored under the source key, in key order. *)
Definition get_successors (E : env) (es : list ((string * string) * edge)) (o : option entity)
    (rel : string) : res (list rnode) :=
  let* n := from_public_node (NSet o rel) in
  Ok (map (fun x => to_public_node (ed_dst (snd x)))
        (filter (fun x => String.eqb (fst (fst x)) (node_key E n)) es)).

(** node_repository.go:46-60 ListEdges *)
Definition list_edges (es : list ((string * string) * edge)) : list (rnode * rnode) :=
  map (fun x => (to_public_node (ed_src (snd x)), to_public_node (ed_dst (snd x)))) es.
