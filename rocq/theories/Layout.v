(** Layout: internal/store/kv_store/kv_store.go over one flat store of byte keys *)
From Verif Require Import Base Domain Lexer Store Search Explain Yaml Service Dump Api.

(** What is stored under a key.  The protobuf encoding is left out; the prefix of the key decides which message it is. *)
Inductive value :=
| VPolicy (r : policy_record)
| VEdge (e : edge)
| VData (d : rdata).

(** kv_store.go:25-31 baseKV: all keys of the server in byte order. *)
Definition flat := list (string * value).

(** kv_store.go:14-19 the prefixes.  rcdb.NewWrapperKV puts its prefix before every key; raccoondb is not part of /repo,
    so this is an assumption.  Prefix "4" is never used. *)
Definition policy_key (id : string) : string := "1" +++ id.

(** kv_store.go:47-57 getRelationshipStore: the raw policy id is a second prefix.  [sep] stands for the bytes, the same for
    all policies, that raccoondb may put between that prefix and the keys of the two nodes (unknown here).
    raccoondb's second index of the same relationships is left out. *)
Definition policy_prefix (sep pid : string) : string := "2" +++ pid +++ sep.
Definition relationship_key (sep pid : string) (k : string * string) : string := policy_prefix sep pid +++ fst k +++ snd k.

(** kv_store.go:59-65 getRelationshipDataStore; model.go:57-61: the id is the key of the relationship. *)
Definition record_key (k : string * string) : string := "3" +++ fst k +++ snd k.

(** The rest of [s] after [p]. *)
Fixpoint rest_after (p s : string) : option string :=
  match p, s with
  | EmptyString, _ => Some s
  | String c p', String d s' => if Ascii.eqb c d then rest_after p' s' else None
  | _, _ => None
  end.

(** A node key is as long as a sha256 sum (model.go:12-14), here [L] bytes. *)
Fixpoint split_at (L : nat) (s : string) : string * string :=
  match L, s with
  | S L', String c s' => let (a, b) := split_at L' s' in (String c a, b)
  | _, _ => (EmptyString, s)
  end.

(** Iteration over a prefix. *)
Definition policies_in (m : flat) : list (string * policy_record) :=
  flat_map (fun x => match rest_after "1" (fst x), snd x with
                     | Some id, VPolicy r => [(id, r)]
                     | _, _ => []
                     end) m.

(** The relationships found under a policy's prefix; those of one source node are the ones whose rest begins with its key. *)
Definition edges_in (sep : string) (L : nat) (pid : string) (m : flat) : list ((string * string) * edge) :=
  flat_map (fun x => match rest_after (policy_prefix sep pid) (fst x), snd x with
                     | Some r, VEdge e => [(split_at L r, e)]
                     | _, _ => []
                     end) m.

Definition policy_at (id : string) (m : flat) : option policy_record :=
  match kv_get scmp (policy_key id) m with Some (VPolicy r) => Some r | _ => None end.
Definition edge_at (sep pid : string) (k : string * string) (m : flat) : option edge :=
  match kv_get scmp (relationship_key sep pid k) m with Some (VEdge e) => Some e | _ => None end.
Definition data_at (k : string * string) (m : flat) : option rdata :=
  match kv_get scmp (record_key k) m with Some (VData d) => Some d | _ => None end.

(** One storage operation on the flat store (compare [step1]). *)
Definition flat_step (sep : string) (L : nat) {A} (p : prog A) (m : flat) : option (prog A * flat) :=
  match p with
  | Ret _ => None
  | PolGet id k => Some (k (policy_at id m), m)
  | PolHas id k => Some (k (match policy_at id m with Some _ => true | None => false end), m)
  | PolSet id r k => Some (k, kv_set scmp (policy_key id) (VPolicy r) m)
  | PolDel id k => Some (k, kv_del scmp (policy_key id) m)
  | PolIds k => Some (k (map fst (policies_in m)), m)
  | EdgeGet pid key k => Some (k (edge_at sep pid key m), m)
  | EdgeSet pid key e k => Some (k, kv_set scmp (relationship_key sep pid key) (VEdge e) m)
  | EdgeDel pid key k => Some (k, kv_del scmp (relationship_key sep pid key) m)
  | EdgeList pid k => Some (k (edges_in sep L pid m), m)
  | DataGet key k => Some (k (data_at key m), m)
  | DataSet key d k => Some (k, kv_set scmp (record_key key) (VData d) m)
  | DataDel key k => Some (k, kv_del scmp (record_key key) m)
  end.

(** Requests served at the same time on the flat store (compare [advance], [interleave]). *)
Definition flat_config := (list (prog (res response)) * flat)%type.

Definition flat_advance (sep : string) (L : nat) (c : flat_config) (i : nat) : flat_config :=
  match nth_error (fst c) i with
  | None => c
  | Some p =>
      match flat_step sep L p (snd c) with
      | None => c
      | Some (p', m') => (replace i p' (fst c), m')
      end
  end.

Definition flat_interleave (sep : string) (L : nat) (sched : list nat) (c : flat_config) : flat_config :=
  fold_left (flat_advance sep L) sched c.

(** A life of the server: each time some requests arrive and a schedule runs them, possibly not to the end; then the
    server stops and starts again with what is stored. *)
Definition life := list (list request * list nat).

Definition flat_life (E : env) (sep : string) (L : nat) (h : life) (m : flat) : flat :=
  fold_left (fun m x => snd (flat_interleave sep L (snd x) (map (serve E) (fst x), m))) h m.

Definition typed_life (E : env) (h : life) (s : store) : store :=
  fold_left (fun s x => snd (interleave (snd x) (start E (fst x) s))) h s.

Definition flat_answered (c : flat_config) (i : nat) : option (res response) :=
  match nth_error (fst c) i with
  | Some (Ret a) => Some a
  | _ => None
  end.

(** Uninterrupted execution on the flat store. *)
Fixpoint flat_run (sep : string) (L : nat) {A} (p : prog A) (m : flat) : A * flat :=
  match p with
  | Ret a => (a, m)
  | PolGet id k => flat_run sep L (k (policy_at id m)) m
  | PolHas id k => flat_run sep L (k (match policy_at id m with Some _ => true | None => false end)) m
  | PolSet id r k => flat_run sep L k (kv_set scmp (policy_key id) (VPolicy r) m)
  | PolDel id k => flat_run sep L k (kv_del scmp (policy_key id) m)
  | PolIds k => flat_run sep L (k (map fst (policies_in m))) m
  | EdgeGet pid key k => flat_run sep L (k (edge_at sep pid key m)) m
  | EdgeSet pid key e k => flat_run sep L k (kv_set scmp (relationship_key sep pid key) (VEdge e) m)
  | EdgeDel pid key k => flat_run sep L k (kv_del scmp (relationship_key sep pid key) m)
  | EdgeList pid k => flat_run sep L (k (edges_in sep L pid m)) m
  | DataGet key k => flat_run sep L (k (data_at key m)) m
  | DataSet key d k => flat_run sep L k (kv_set scmp (record_key key) (VData d) m)
  | DataDel key k => flat_run sep L k (kv_del scmp (record_key key) m)
  end.

Definition flat_answer (E : env) (sep : string) (L : nat) (q : request) (m : flat) : res response := fst (flat_run sep L (serve E q) m).
Definition flat_after (E : env) (sep : string) (L : nat) (q : request) (m : flat) : flat := snd (flat_run sep L (serve E q) m).
Definition flat_after_all (E : env) (sep : string) (L : nat) (qs : list request) (m : flat) : flat :=
  fold_left (fun m q => flat_after E sep L q m) qs m.
