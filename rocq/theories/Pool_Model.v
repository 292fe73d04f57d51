(** Model of the pool of unprocessed extrinsics (extrinsics/src/pool/mod.rs) and of the calls that threads make on it, lock by lock.
    Simplifications: a hash and a kind of extrinsic are numbers; the hash map and the index are lists of pairs; [RwLock] is neither fair nor poisoned; [remove_extrinsic]
    (mod.rs:116-118) is [unimplemented!]. *)
From Verif Require Import Base.

(** extrinsics/src/pool/mod.rs:37-41 *)
Record entry := mk_entry { e_hash : N; e_data : bytes; e_kind : N }.
(** extrinsics/src/pool/mod.rs:13-14, 53-59; the index holds a list of hashes for a kind and a slot *)
Record pool := mk_pool { p_map : list (N * entry); p_index : list ((N * N) * list N) }.
(** extrinsics/src/pool/mod.rs:62-68 *)
Definition empty_pool : pool := mk_pool [] [].
(** HashMap::get, used at extrinsics/src/pool/mod.rs:109 *)
Fixpoint map_get (m : list (N * entry)) (h : N) : option entry := match m with [] => None | (k, e) :: r => if N.eqb k h then Some e else map_get r h end.
(** HashMap::insert, used at extrinsics/src/pool/mod.rs:84 *)
Fixpoint map_set (m : list (N * entry)) (h : N) (e : entry) : list (N * entry) :=
  match m with [] => [(h, e)] | (k, x) :: r => if N.eqb k h then (k, e) :: r else (k, x) :: map_set r h e end.
(** Equality of the index' keys, extrinsics/src/pool/mod.rs:14 *)
Definition same_key (a b : N * N) : bool := (N.eqb (fst a) (fst b) && N.eqb (snd a) (snd b))%bool.
(** BTreeMap::get, used at extrinsics/src/pool/mod.rs:104-105 *)
Fixpoint index_get (m : list ((N * N) * list N)) (k : N * N) : option (list N) := match m with [] => None | (j, l) :: r => if same_key j k then Some l else index_get r k end.
(** entry, or_default and push, extrinsics/src/pool/mod.rs:87-90 *)
Fixpoint index_push (m : list ((N * N) * list N)) (k : N * N) (h : N) : list ((N * N) * list N) :=
  match m with [] => [(k, [h])] | (j, l) :: r => if same_key j k then (j, l ++ [h]) :: r else (j, l) :: index_push r k h end.
(** The entries of some hashes that are in the map, extrinsics/src/pool/mod.rs:106-111 *)
Definition found (m : list (N * entry)) (hs : list N) : list entry := flat_map (fun h => match map_get m h with Some e => [e] | None => [] end) hs.

(** extrinsics/src/pool/mod.rs:71-93; [max]: max_size; false: the pool is full *)
Definition add (max : nat) (e : entry) (slot : N) (p : pool) : pool * bool :=
  if Nat.leb max (length (p_map p)) then (p, false) else (mk_pool (map_set (p_map p) (e_hash e) e) (index_push (p_index p) (e_kind e, slot) (e_hash e)), true).
(** extrinsics/src/pool/mod.rs:96-113 *)
Definition get (kind slot : N) (p : pool) : list entry := match index_get (p_index p) (kind, slot) with Some hs => found (p_map p) hs | None => [] end.

(** ** Threads *)
(** A call of add_extrinsic (mod.rs:71) or of the getter (mod.rs:96) *)
Inductive call := Add (e : entry) (slot : N) | Get (kind slot : N).
(** The results of mod.rs:75 and mod.rs:100 *)
Inductive answer := Added (ok : bool) | Got (l : list entry).
(** Where a thread is: before the call; holding the first lock; holding both; between the two accesses (a reader with the hashes it read); back, both locks released.
    add_extrinsic locks the map, then the index, for writing (mod.rs:76-77); the getter locks the index, then the map, for reading (mod.rs:101-102). *)
Inductive place := Begin | One | Two | Half (hs : list N) | Back (a : answer).
(** A thread in the middle of mod.rs:71-113 *)
Definition thread : Type := call * place.
(** The map's lock is held for writing: add_extrinsic after mod.rs:76 *)
Definition writes_map (t : thread) : bool := match t with (Add _ _, One) | (Add _ _, Two) | (Add _ _, Half _) => true | _ => false end.
(** The index' lock is held for writing: add_extrinsic after mod.rs:77 *)
Definition writes_index (t : thread) : bool := match t with (Add _ _, Two) | (Add _ _, Half _) => true | _ => false end.
(** The index' lock is held for reading: the getter after mod.rs:101 *)
Definition reads_index (t : thread) : bool := match t with (Get _ _, One) | (Get _ _, Two) | (Get _ _, Half _) => true | _ => false end.
(** The map's lock is held for reading: the getter after mod.rs:102 *)
Definition reads_map (t : thread) : bool := match t with (Get _ _, Two) | (Get _ _, Half _) => true | _ => false end.
(** One step of a thread, when the others are as given: mod.rs:71-93 and 96-113. None: it waits for a lock, or has returned. *)
Definition advance (max : nat) (others : list thread) (p : pool) (t : thread) : option (pool * thread) :=
  match t with
  | (Add e s, Begin) => if existsb (fun o => writes_map o || reads_map o)%bool others then None else Some (p, (Add e s, One))
  | (Add e s, One) => if existsb (fun o => writes_index o || reads_index o)%bool others then None else Some (p, (Add e s, Two))
  | (Add e s, Two) => if Nat.leb max (length (p_map p)) then Some (p, (Add e s, Back (Added false))) else Some (mk_pool (map_set (p_map p) (e_hash e) e) (p_index p), (Add e s, Half []))
  | (Add e s, Half _) => Some (mk_pool (p_map p) (index_push (p_index p) (e_kind e, s) (e_hash e)), (Add e s, Back (Added true)))
  | (Get k s, Begin) => if existsb writes_index others then None else Some (p, (Get k s, One))
  | (Get k s, One) => if existsb writes_map others then None else Some (p, (Get k s, Two))
  | (Get k s, Two) => Some (p, (Get k s, Half (match index_get (p_index p) (k, s) with Some hs => hs | None => [] end)))
  | (Get k s, Half hs) => Some (p, (Get k s, Back (Got (found (p_map p) hs))))
  | (_, Back _) => None
  end.
(** A step of the program: some thread advances; with the call and its answer if it returns. Interleaves extrinsics/src/pool/mod.rs:71-113. *)
Inductive moves (max : nat) : pool * list thread -> list (call * answer) -> pool * list thread -> Prop :=
| move : forall p l t r p' t', advance max (l ++ r) p t = Some (p', t') -> moves max (p, l ++ t :: r) (match t' with (c, Back a) => [(c, a)] | _ => [] end) (p', l ++ t' :: r).
(** Any number of steps of extrinsics/src/pool/mod.rs:71-113, with the calls in the order in which they return *)
Inductive reaches (max : nat) : pool * list thread -> list (call * answer) -> pool * list thread -> Prop :=
| here : forall s, reaches max s [] s
| further : forall s log t log' u, reaches max s log t -> moves max t log' u -> reaches max s (log ++ log') u.
