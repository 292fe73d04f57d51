(** Model of state/src/cache.rs and of the generic entry accessors of state/src/manager.rs, over the trie store of Trie_Model.
    Simplifications: the typed state components are one type [V] with an encoding and, per key, a decoder (each key is always used with one component type,
    so [UnexpectedEntryType] does not arise); an operation is one step, except that a read that misses the cache is also available as two
    ([Fetch], [Fill]), with anything in between; the order in which the dirty-key hash set is iterated is a parameter of the commit.
    [Evict] is the cache library dropping an entry on its own. *)
From Verif Require Import Base Trie_Model.

Section Cache.
  Context (H : bytes -> bytes) {V : Type} (enc : V -> bytes) (dec : path -> bytes -> option V).

  (** state_utils.rs, StateEntryType: a typed component or the raw octets. state/src/state_utils.rs:97-140. *)
  Inductive cval := Typed (v : V) | Raw (b : bytes).
  (** state/src/state_utils.rs:97-140, encoded at state/src/manager.rs:772-800. *)
  Definition cenc (c : cval) : bytes := match c with Typed v => enc v | Raw b => b end.
  (** cache.rs:19-34; the statuses are those of Trie_Model *)
  Record centry := mk_ce { c_clean : cval; c_value : cval; c_status : status }.
  (** manager.rs errors, as far as a caller tells them apart. state/src/error.rs:11-48. *)
  Inductive merr := EExists | EAbsent | EDecode | EMissing | ETrie (e : terr) | EClosure.
  (** state/src/cache.rs:65-70. *)
  Definition cache := list (path * centry).
  (** Operations of the concurrent map in state/src/cache.rs:65-120. *)
  Definition cget (c : cache) (k : path) : option centry := option_map snd (find (fun e => path_eqb (fst e) k) c).
  (** Operations of the concurrent map in state/src/cache.rs:65-120. *)
  Definition cdel (c : cache) (k : path) : cache := filter (fun e => negb (path_eqb (fst e) k)) c.
  (** Operations of the concurrent map in state/src/cache.rs:65-120. *)
  Definition cput (c : cache) (k : path) (e : centry) : cache := (k, e) :: cdel c k.
  (** The manager: cache, dirty keys (a set), and the databases. state/src/manager.rs:128-134. *)
  Record sm := mk_sm { m_cache : cache; m_dirty : list path; m_store : store }.
  (** state/src/cache.rs:45-47. *)
  Definition is_dirty (e : centry) : bool := match c_status e with SClean => false | _ => true end.
  (** The set of dirty keys, state/src/cache.rs:110-120. *)
  Definition mark (l : list path) (k : path) : list path := if in_dec (list_eq_dec Bool.bool_dec) k l then l else k :: l.
  (** cache.rs:110-115 *)
  Definition insert_entry_c (s : sm) (k : path) (e : centry) : sm :=
    mk_sm (cput (m_cache s) k e) (if is_dirty e then mark (m_dirty s) k else m_dirty s) (m_store s).
  (** cache.rs:36-43, manager.rs:640-649 *)
  Definition insert_clean (s : sm) (k : path) (v : V) : sm := insert_entry_c s k (mk_ce (Typed v) (Typed v) SClean).

  (** manager.rs:742-768 *)
  Definition retrieve (s : sm) (k : path) : result merr (option bytes) := match store_read (m_store s) k with Ok o => Ok o | _ => Err EMissing end.
  (** manager.rs:917-952 in two halves: the answer, and whether it has to be inserted into the cache *)
  Definition lookup (s : sm) (k : path) : result merr (option V * bool) :=
    match cget (m_cache s) k with
    | Some e =>
        match c_status e with
        | SRemove => Ok (None, false)
        | _ => match c_value e with
               | Raw b => match dec k b with Some v => Ok (Some v, true) | None => Err EDecode end
               | Typed v => Ok (Some v, false)
               end
        end
    | None => match retrieve s k with
              | Ok None => Ok (None, false)
              | Ok (Some b) => match dec k b with Some v => Ok (Some v, true) | None => Err EDecode end
              | Err x => Err x
              | Panic => Panic
              end
    end.
  (** Part of manager.rs:917-952. *)
  Definition finish (s : sm) (k : path) (r : option V * bool) : sm := match r with (Some v, true) => insert_clean s k v | _ => s end.
  (** Part of manager.rs:917-952. *)
  Definition get (s : sm) (k : path) : sm * result merr (option V) :=
    match lookup s k with Ok r => (finish s k r, Ok (fst r)) | Err x => (s, Err x) | Panic => (s, Panic) end.
  (** manager.rs:612-623, 894-915 *)
  Definition get_clean (s : sm) (k : path) : sm * result merr (option V) :=
    match match cget (m_cache s) k with Some e => match c_clean e with Typed v => Some v | Raw _ => None end | None => None end with
    | Some v => (s, Ok (Some v))
    | None => match retrieve s k with
              | Ok None => (s, Ok None)
              | Ok (Some b) => match dec k b with Some v => (insert_clean s k v, Ok (Some v)) | None => (s, Err EDecode) end
              | Err x => (s, Err x)
              | Panic => (s, Panic)
              end
    end.
  (** cache.rs:122-162: the closure works on the value of the entry; an entry pending as added stays so when updated *)
  Definition with_mut_entry (s : sm) (k : path) (st : status) (f : V -> option V) : sm * result merr unit :=
    match cget (m_cache s) k with
    | None => (s, Err EAbsent)
    | Some e =>
        match c_value e with
        | Raw _ => (s, Err EDecode)
        | Typed v =>
            match f v with
            | None => (s, Err EClosure)
            | Some v' =>
                match c_status e, st with
                | SAdd, SUpdate => (mk_sm (cput (m_cache s) k (mk_ce (c_clean e) (Typed v') SAdd)) (m_dirty s) (m_store s), Ok tt)
                | _, _ => (mk_sm (cput (m_cache s) k (mk_ce (c_clean e) (Typed v') st)) (mark (m_dirty s) k) (m_store s), Ok tt)
                end
            end
        end
    end.
  (** manager.rs:954-982 *)
  Definition with_mut (s : sm) (k : path) (st : status) (f : V -> option V) : sm * result merr unit :=
    match get s k with
    | (s1, Ok None) => (s1, Err EAbsent)
    | (s1, Ok (Some _)) => with_mut_entry s1 k st f
    | (s1, Err x) => (s1, Err x)
    | (s1, Panic) => (s1, Panic)
    end.
  (** manager.rs:984-1019: the added value is also the clean snapshot *)
  Definition add (s : sm) (k : path) (v : V) : sm * result merr unit :=
    match get s k with
    | (s1, Ok (Some _)) => (s1, Err EExists)
    | (s1, Ok None) => (insert_entry_c s1 k (mk_ce (Typed v) (Typed v) SAdd), Ok tt)
    | (s1, Err x) => (s1, Err x)
    | (s1, Panic) => (s1, Panic)
    end.
  (** manager.rs:528-540 *)
  Definition get_raw (s : sm) (k : path) : result merr (option bytes) :=
    match cget (m_cache s) k with Some (mk_ce _ (Raw b) _) => Ok (Some b) | _ => retrieve s k end.
  (** manager.rs:549-571 *)
  Definition add_raw (s : sm) (k : path) (b : bytes) : sm * result merr unit :=
    match retrieve s k with
    | Ok (Some _) => (s, Err EExists)
    | Ok None => (insert_entry_c s k (mk_ce (Raw b) (Raw b) SAdd), Ok tt)
    | Err x => (s, Err x) | Panic => (s, Panic)
    end.
  (** manager.rs:573-591 *)
  Definition update_raw (s : sm) (k : path) (b : bytes) : sm * result merr unit :=
    match retrieve s k with
    | Ok (Some old) => (insert_entry_c s k (mk_ce (Raw old) (Raw b) SUpdate), Ok tt)
    | Ok None => (s, Err EAbsent)
    | Err x => (s, Err x) | Panic => (s, Panic)
    end.
  (** manager.rs:593-611 *)
  Definition remove_raw (s : sm) (k : path) : sm * result merr unit :=
    match retrieve s k with
    | Ok (Some old) => (insert_entry_c s k (mk_ce (Raw old) (Raw []) SRemove), Ok tt)
    | Ok None => (s, Err EAbsent)
    | Err x => (s, Err x) | Panic => (s, Panic)
    end.

  (** cache.rs:178-184, with the keys in the order [ord] *)
  Definition collect_dirty (s : sm) (ord : list path -> list path) : list (path * centry) :=
    flat_map (fun k => match cget (m_cache s) k with Some e => [(k, e)] | None => [] end) (ord (m_dirty s)).
  (** state/src/cache.rs:178-184, state/src/manager.rs:841-869. *)
  Definition to_entry (x : path * centry) : entry := mk_entry (fst x) (c_status (snd x)) (cenc (c_value (snd x))).
  (** cache.rs:54-58 *)
  Definition snapshot (e : centry) : centry := mk_ce (c_value e) (c_value e) SClean.
  (** cache.rs:189-202 *)
  Definition direct_one (c : cache) (x : path * centry) : cache :=
    match c_status (snd x) with
    | SRemove => cdel c (fst x)
    | _ => match cget c (fst x) with Some e => cput c (fst x) (snapshot e) | None => c end
    end.
  (** manager.rs:841-869 *)
  Definition commit_cache (s : sm) (ord : list path -> list path) : sm * result merr unit :=
    match collect_dirty s ord with
    | [] => (s, Ok tt)
    | es => match store_commit H (m_store s) (map to_entry es) with
            | (st, Ok _) => (mk_sm (fold_left direct_one es (m_cache s)) [] st, Ok tt)
            | (st, Err x) => (mk_sm (m_cache s) (m_dirty s) st, Err (ETrie x))
            | (st, Panic) => (mk_sm (m_cache s) (m_dirty s) st, Panic)
            end
    end.
  (** cache.rs:236-268 *)
  Definition rollback_one (c : cache) (k : path) : cache :=
    match cget c k with
    | None => c
    | Some e => match c_status e with
                | SAdd => cdel c k
                | SUpdate | SRemove => cput c k (mk_ce (c_clean e) (c_clean e) SClean)
                | SClean => c
                end
    end.
  (** Part of cache.rs:236-268. *)
  Definition rollback (s : sm) : sm := mk_sm (fold_left rollback_one (m_dirty s) (m_cache s)) [] (m_store s).

  (** manager.rs, StateCommitArtifact. state/src/manager.rs:49-52. *)
  Record artifact := mk_art { a_ws : write_set; a_entries : list (path * centry) }.
  (** manager.rs:772-800 *)
  Definition prepare (s : sm) (ord : list path -> list path) : sm * result merr (option artifact) :=
    match collect_dirty s ord with
    | [] => (s, Ok None)
    | es => match prepare_commit H (s_mgr (m_store s)) (map to_entry es) with
            | (g, Ok (Some w)) => (rollback (mk_sm (m_cache s) (m_dirty s) (mk_store g (s_db (m_store s)))), Ok (Some (mk_art w es)))
            | (g, Ok None) => (mk_sm (m_cache s) (m_dirty s) (mk_store g (s_db (m_store s))), Ok None)
            | (g, Err x) => (mk_sm (m_cache s) (m_dirty s) (mk_store g (s_db (m_store s))), Err (ETrie x))
            | (g, Panic) => (mk_sm (m_cache s) (m_dirty s) (mk_store g (s_db (m_store s))), Panic)
            end
    end.
  (** cache.rs:208-231 *)
  Definition deferred_one (c : cache) (x : path * centry) : cache :=
    match c_status (snd x) with
    | SRemove => cdel c (fst x)
    | SAdd | SUpdate => cput c (fst x) (snapshot (snd x))
    | SClean => cput c (fst x) (snd x)
    end.
  (** manager.rs:803-835 *)
  Definition apply_artifact (s : sm) (a : artifact) : sm :=
    mk_sm (fold_left deferred_one (a_entries a) (m_cache s)) (m_dirty s)
      (mk_store (apply_commit (s_mgr (m_store s)) (a_ws a)) (rev (w_state (a_ws a)) ++ s_db (m_store s))).

  (** What callers do. The methods of state/src/manager.rs:528-1019 as operations. *)
  Inductive op :=
  | Get (k : path) | GetClean (k : path) | Add (k : path) (v : V) | Update (k : path) (f : V -> option V) | Remove (k : path)
  | GetRaw (k : path) | AddRaw (k : path) (b : bytes) | UpdateRaw (k : path) (b : bytes) | RemoveRaw (k : path)
  | Commit (ord : list path -> list path) | Rollback | Prepare (ord : list path -> list path) | Apply | ReadRoot
  | Evict (k : path) | Fetch (k : path) | Fill (k : path).
  (** The methods of state/src/manager.rs:528-1019 as operations. *)
  Inductive answer := Value (o : option V) | Octets (o : option bytes) | Done | Root (o : option bytes) | Failed.
  (** The manager, the artifact prepared last, and the reads in flight. The model's own bookkeeping for histories of the methods of state/src/manager.rs:528-1019. *)
  Record world := mk_w { x_sm : sm; x_art : option artifact; x_reads : list (path * (option V * bool)) }.
  (** The model's own bookkeeping for histories of the methods of state/src/manager.rs:528-1019. *)
  Definition start : world := mk_w (mk_sm [] [] empty_store) None [].
  (** The model's own bookkeeping for histories of the methods of state/src/manager.rs:528-1019. *)
  Definition ret (w : world) (s : sm) (a : answer) : world * answer := (mk_w s (x_art w) (x_reads w), a).
  (** The model's own bookkeeping for histories of the methods of state/src/manager.rs:528-1019. *)
  Definition val (r : result merr (option V)) : answer := match r with Ok o => Value o | _ => Failed end.
  (** The model's own bookkeeping for histories of the methods of state/src/manager.rs:528-1019. *)
  Definition unit_answer (r : result merr unit) : answer := match r with Ok _ => Done | _ => Failed end.
  (** The model's own bookkeeping for histories of the methods of state/src/manager.rs:528-1019. *)
  Definition rget (l : list (path * (option V * bool))) (k : path) : option (option V * bool) := option_map snd (find (fun e => path_eqb (fst e) k) l).
  (** The model's own bookkeeping for histories of the methods of state/src/manager.rs:528-1019. *)
  Definition rdel (l : list (path * (option V * bool))) (k : path) := filter (fun e => negb (path_eqb (fst e) k)) l.
  (** Histories of the methods of state/src/manager.rs:528-1019. *)
  Definition step (w : world) (o : op) : world * answer :=
    let s := x_sm w in
    match o with
    | Get k => let (s', r) := get s k in ret w s' (val r)
    | GetClean k => let (s', r) := get_clean s k in ret w s' (val r)
    | Add k v => let (s', r) := add s k v in ret w s' (unit_answer r)
    | Update k f => let (s', r) := with_mut s k SUpdate f in ret w s' (unit_answer r)
    | Remove k => let (s', r) := with_mut s k SRemove Some in ret w s' (unit_answer r)
    | GetRaw k => ret w s match get_raw s k with Ok b => Octets b | _ => Failed end
    | AddRaw k b => let (s', r) := add_raw s k b in ret w s' (unit_answer r)
    | UpdateRaw k b => let (s', r) := update_raw s k b in ret w s' (unit_answer r)
    | RemoveRaw k => let (s', r) := remove_raw s k in ret w s' (unit_answer r)
    | Commit ord => let (s', r) := commit_cache s ord in ret w s' (unit_answer r)
    | Rollback => ret w (rollback s) Done
    | Prepare ord => match prepare s ord with
                     | (s', Ok a) => (mk_w s' a (x_reads w), Root (option_map (fun a => w_root (a_ws a)) a))
                     | (s', _) => (mk_w s' None (x_reads w), Failed)
                     end
    | Apply => match x_art w with None => (w, Failed) | Some a => (mk_w (apply_artifact s a) None (x_reads w), Done) end
    | ReadRoot => ret w s (Root (Some (store_root (m_store s))))
    | Evict k => ret w (mk_sm (cdel (m_cache s) k) (m_dirty s) (m_store s)) Done
    | Fetch k => match lookup s k with Ok r => (mk_w s (x_art w) ((k, r) :: rdel (x_reads w) k), Done) | _ => (w, Failed) end
    | Fill k => match rget (x_reads w) k with None => (w, Failed) | Some r => (mk_w (finish s k r) (x_art w) (rdel (x_reads w) k), Value (fst r)) end
    end.
  (** Histories of the methods of state/src/manager.rs:528-1019. *)
  Fixpoint run (w : world) (l : list op) : world * list answer :=
    match l with
    | [] => (w, [])
    | o :: l' => let (w1, a) := step w o in let (w2, r) := run w1 l' in (w2, a :: r)
    end.
End Cache.
Arguments Get {V}. Arguments GetClean {V}. Arguments Add {V}. Arguments Update {V}. Arguments Remove {V}. Arguments GetRaw {V}. Arguments AddRaw {V}. Arguments UpdateRaw {V}. Arguments RemoveRaw {V}.
Arguments Commit {V}. Arguments Rollback {V}. Arguments Prepare {V}. Arguments Apply {V}. Arguments ReadRoot {V}. Arguments Evict {V}. Arguments Fetch {V}. Arguments Fill {V}.
Arguments Value {V}. Arguments Octets {V}. Arguments Done {V}. Arguments Root {V}. Arguments Failed {V}. Arguments Typed {V}. Arguments Raw {V}.
