(** The cached database: db/src/core/cached_db.rs over db/src/core/core_db.rs, and the key and value formats of its users. *)
From Verif Require Import Base Trie_Model.

(** What callers ask for and get back, and the crash of the process. The methods of db/src/core/cached_db.rs:94-173: get_entry, put_entry, delete_entry, write_batch and commit of a batch. *)
Inductive op {K V : Type} := Get (k : K) | Put (k : K) (v : V) | Delete (k : K) | Batch (ws : list (K * option V)).
Arguments op : clear implicits.
(** What the methods of db/src/core/cached_db.rs:94-173 return. *)
Inductive res {V : Type} := Value (o : option V) | Done | Failed | BadValue.
Arguments res : clear implicits.
(** Histories of calls of db/src/core/cached_db.rs:94-173; the model's own bookkeeping. *)
Inductive event {K V : Type} := Call (i : nat) (o : op K V) | Ret (i : nat) (o : op K V) (r : res V) | Crash.
Arguments event : clear implicits.

Section CachedDb.
  (** [key] is [DBKey::as_db_key], [enc] and [dec] are [CacheItem::into_db_value] and [from_db_kv]; no value type's [from_db_kv] looks at the key. *)
  Context {K V : Type} (eqK : forall a b : K, {a = b} + {a <> b}) (key : K -> bytes) (enc : V -> bytes) (dec : bytes -> option V).

  (** core_db.rs: one column family of RocksDB, a map from bytes to bytes. The latest entry counts; [None] is a tombstone. db/src/core/core_db.rs:19-22. *)
  Definition rdb := list (bytes * option bytes).
  (** get_entry at db/src/core/core_db.rs:57-67. *)
  Definition rget (d : rdb) (k : bytes) : option bytes := match find (fun e => bytes_eqb (fst e) k) d with Some (_, o) => o | None => None end.
  (** put_cf and delete_cf at db/src/core/core_db.rs:70-130. *)
  Definition rput (d : rdb) (k : bytes) (o : option bytes) : rdb := (k, o) :: d.
  (** The writes of an operation: [put_cf] or [delete_cf]; in batches (callers such as state/src/manager.rs:829-836, block/src/header_db.rs:149-165 and
      merkle_change_set.rs build the RocksDB batch and the list for the cache from the same entries in the same order). *)
  Definition writes_of (o : op K V) : list (K * option V) :=
    match o with Get _ => [] | Put k v => [(k, Some v)] | Delete k => [(k, None)] | Batch ws => ws end.
  (** core_db.rs:70-141: one atomic write of RocksDB. *)
  Definition rwrite (d : rdb) (ws : list (K * option V)) : rdb := fold_left (fun d w => rput d (key (fst w)) (option_map enc (snd w))) ws d.

  (** mini_moka's cache: a concurrent map that may drop any entry at any time. The field cache of db/src/core/cached_db.rs:81-92. *)
  Definition cmap := list (K * option V).
  (** mini_moka's get, insert and invalidate as used at db/src/core/cached_db.rs:112-170. *)
  Definition cget (c : cmap) (k : K) : option V := match find (fun e => if eqK (fst e) k then true else false) c with Some (_, o) => o | None => None end.
  (** mini_moka's get, insert and invalidate as used at db/src/core/cached_db.rs:112-170. *)
  Definition cset (c : cmap) (k : K) (o : option V) : cmap := (k, o) :: c.

  (** Where a call that has not returned is: before its database access; a read after it, with the value read; a write after it, with the cache updates
      still to be made. A call suspended at an await or between two calls of db/src/core/cached_db.rs:94-173. *)
  Inductive point := Begun | Fetched (o : option V) | Written (rest : list (K * option V)).
  (** A call suspended at an await or between two calls of db/src/core/cached_db.rs:94-173. *)
  Record job := mk_job { j_id : nat; j_op : op K V; j_at : point }.
  (** db/src/core/cached_db.rs:81-92 and the calls in flight. *)
  Record cdb := mk_cdb { c_db : rdb; c_cache : cmap; c_jobs : list job; c_next : nat }.
  (** A new database: db/src/core/cached_db.rs:94-106. *)
  Definition fresh : cdb := mk_cdb [] [] [] 0.

  (** The scheduler's choices: a new call, one step of a call, a failing write or read of RocksDB, an eviction, a crash followed by a restart. The environment of db/src/core/cached_db.rs:94-173; not in the code. *)
  Inductive action := Start (o : op K V) | Step (i : nat) | FailWrite (i : nat) | FailRead (i : nat) | Evict (k : K) | Restart.
  (** Bookkeeping of the calls in flight of db/src/core/cached_db.rs:94-173; not in the code. *)
  Definition find_job (s : cdb) (i : nat) : option job := find (fun j => Nat.eqb (j_id j) i) (c_jobs s).
  (** Bookkeeping of the calls in flight of db/src/core/cached_db.rs:94-173; not in the code. *)
  Definition drop_job (s : cdb) (i : nat) : list job := filter (fun j => negb (Nat.eqb (j_id j) i)) (c_jobs s).
  (** Bookkeeping of the calls in flight of db/src/core/cached_db.rs:94-173; not in the code. *)
  Definition move_job (s : cdb) (i : nat) (p : point) : list job := map (fun j => if Nat.eqb (j_id j) i then mk_job i (j_op j) p else j) (c_jobs s).
  (** Bookkeeping of the calls in flight of db/src/core/cached_db.rs:94-173; not in the code. *)
  Definition set_jobs (s : cdb) (js : list job) : cdb := mk_cdb (c_db s) (c_cache s) js (c_next s).
  (** Bookkeeping of the calls in flight of db/src/core/cached_db.rs:94-173; not in the code. *)
  Definition finish (s : cdb) (j : job) (r : res V) : cdb * list (event K V) := (set_jobs s (drop_job s (j_id j)), [Ret (j_id j) (j_op j) r]).

  (** cached_db.rs:112-116: a read looks at the cache first. Other calls begin with their database access. *)
  Definition start (s : cdb) (o : op K V) : cdb * list (event K V) :=
    let i := c_next s in
    let miss := (mk_cdb (c_db s) (c_cache s) (mk_job i o Begun :: c_jobs s) (S i), [Call i o]) in
    match o with
    | Get k => match cget (c_cache s) k with
               | Some v => (mk_cdb (c_db s) (c_cache s) (c_jobs s) (S i), [Call i o; Ret i o (Value (Some v))])
               | None => miss
               end
    | _ => miss
    end.
  (** One step of a call: db/src/core/cached_db.rs:108-173. *)
  Definition run_job (s : cdb) (j : job) : cdb * list (event K V) :=
    match j_at j, j_op j with
    | Begun, Get k =>
        (** cached_db.rs:119-124 *)
        match rget (c_db s) (key k) with
        | None => (set_jobs s (move_job s (j_id j) (Fetched None)), [])
        | Some bs => match dec bs with Some v => (set_jobs s (move_job s (j_id j) (Fetched (Some v))), []) | None => finish s j BadValue end
        end
    | Fetched (Some v), Get k =>
        (** cached_db.rs:127-131 *)
        finish (mk_cdb (c_db s) (cset (c_cache s) k (Some v)) (c_jobs s) (c_next s)) j (Value (Some v))
    | Fetched None, _ => finish s j (Value None)
    | Begun, o =>
        (** cached_db.rs:136-142, 149-151, 161 *)
        (mk_cdb (rwrite (c_db s) (writes_of o)) (c_cache s) (move_job s (j_id j) (Written (writes_of o))) (c_next s), [])
    | Written ((k, w) :: rest), _ =>
        (** cached_db.rs:144, 152, 163-170 *)
        (mk_cdb (c_db s) (cset (c_cache s) k w) (move_job s (j_id j) (Written rest)) (c_next s), [])
    | Written [], _ => finish s j Done
    | Fetched (Some _), _ => (s, [])
    end.
  (** One choice of the scheduler over db/src/core/cached_db.rs:94-173. *)
  Definition act (s : cdb) (a : action) : cdb * list (event K V) :=
    match a with
    | Start o => start s o
    | Step i => match find_job s i with Some j => run_job s j | None => (s, []) end
    | FailWrite i =>
        match find_job s i with
        | Some j => match j_at j, j_op j with Begun, Get _ => (s, []) | Begun, _ => finish s j Failed | _, _ => (s, []) end
        | None => (s, [])
        end
    | FailRead i =>
        (** core_db.rs:57-67: [.ok()?] turns an error of RocksDB into [None]. *)
        match find_job s i with
        | Some j => match j_at j, j_op j with Begun, Get _ => (set_jobs s (move_job s i (Fetched None)), []) | _, _ => (s, []) end
        | None => (s, [])
        end
    | Evict k => (mk_cdb (c_db s) (cset (c_cache s) k None) (c_jobs s) (c_next s), [])
    | Restart => (mk_cdb (c_db s) [] [] (c_next s), [Crash])
    end.
  (** The events of a schedule, and the state after it. A history over db/src/core/cached_db.rs:94-173. *)
  Fixpoint exec (s : cdb) (l : list action) : cdb * list (event K V) :=
    match l with [] => (s, []) | a :: l' => let '(s1, e1) := act s a in let '(s2, e2) := exec s1 l' in (s2, e1 ++ e2) end.
End CachedDb.

(** cached_db.rs:38-46: byte-array keys are their own database keys. *)
Definition array_key (k : bytes) : bytes := k.
(** db/src/core/cached_db.rs:38-46. *)
Definition array_from_key (n : nat) (b : bytes) : option bytes := if Nat.eqb (length b) n then Some b else None.
(** cached_db.rs:57-79: byte vectors and 32-byte hashes as values. *)
Definition vec_enc (v : bytes) : bytes := v.
(** db/src/core/cached_db.rs:57-79. *)
Definition vec_dec (b : bytes) : option bytes := Some b.
(** db/src/core/cached_db.rs:57-79. *)
Definition hash_enc (v : bytes) : bytes := v.
(** db/src/core/cached_db.rs:57-79. *)
Definition hash_dec (b : bytes) : option bytes := if Nat.eqb (length b) 32 then Some b else None.
(** state-merkle-v2/src/types.rs:352-398: paths as keys and as values. [String::from_utf8] accepts at least the ASCII strings written; any other string
    gives an error, in [from_utf8] or at its first character that is not a digit. *)
Definition path_key (p : path) : bytes := db_key p.
(** state/state-merkle-v2/src/types.rs:352-398. *)
Fixpoint path_dec (b : bytes) : option path :=
  match b with
  | [] => Some []
  | x :: b' => match (if (x =? 49)%N then Some true else if (x =? 48)%N then Some false else None), path_dec b' with Some c, Some p => Some (c :: p) | _, _ => None end
  end.
(** types.rs:277-305: trie nodes as values. *)
Definition node_enc (n : node) : bytes := encode n.
(** state/state-merkle-v2/src/types.rs:277-305. *)
Definition node_dec (b : bytes) : option node := match decode b with Ok n => Some n | _ => None end.
