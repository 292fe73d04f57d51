(** The state Merkle trie: state/state-merkle-v2/src (types.rs, utils.rs, merkle_db.rs, merkle_change_set.rs) and
    state/src/merkle_interface/manager.rs. State keys are given as their 248 bits ([bits] of the 31 bytes, a bijection). *)
From Verif Require Import Base.

Notation path := (list bool).
(** state/state-merkle-v2/src/types.rs:328, derived equality. *)
Definition path_eqb (a b : path) : bool := if list_eq_dec Bool.bool_dec a b then true else false.

(** utils.rs:6-13: MSB-first bits of bytes, and back. [BitVec::into_vec] is only used on whole bytes. *)
Definition byte_bits (b : N) : list bool := map (N.testbit b) [7; 6; 5; 4; 3; 2; 1; 0]%N.
(** state/state-merkle-v2/src/utils.rs:6-13. *)
Definition bits (bs : bytes) : list bool := flat_map byte_bits bs.
(** state/state-merkle-v2/src/utils.rs:6-13. *)
Definition byte_of (l : list bool) : N := fold_left (fun a (b : bool) => (2 * a + if b then 1 else 0)%N) l 0%N.
(** state/state-merkle-v2/src/utils.rs:6-13. *)
Fixpoint unbits_from (n : nat) (l : list bool) : bytes :=
  match n, l with S n', _ :: _ => byte_of (firstn 8 l) :: unbits_from n' (skipn 8 l) | _, _ => [] end.
(** state/state-merkle-v2/src/utils.rs:6-13. *)
Definition unbits (l : list bool) : bytes := unbits_from (length l) l.

(** types.rs:63-76, 158-164, 261-265 *)
Inductive ldata := Embedded (v : bytes) | Regular (h : bytes).
(** state/state-merkle-v2/src/types.rs:63-76, 158-164, 261-265. *)
Record leaf := mk_leaf { lf_key : path; lf_data : ldata }.
(** state/state-merkle-v2/src/types.rs:63-76, 158-164, 261-265. *)
Record branch := mk_branch { br_left : list bool; br_right : list bool }.
(** state/state-merkle-v2/src/types.rs:63-76, 158-164, 261-265. *)
Inductive node := NLeaf (l : leaf) | NBranch (b : branch).
(** types.rs:21-60, and CachedDB's InvalidCacheItemValue for [from_db_kv]. *)
Inductive terr := EDataLength | ENodeType | ESliceRange | EHashLength | EPathUnknown | ENotInitialized | EAffectedPath | EBranchStructure | EMissingRoot
  | ERemovingRoot | ELeafNotFound | EItemValue.

(** state/state-merkle-v2/src/types.rs:89-113. *)
Definition NODE_BITS : nat := 512.
(** state/state-merkle-v2/src/types.rs:89-113. *)
Definition zeros (n : nat) : list bool := repeat false n.
(** types.rs:89-113. The length is encoded in one byte. *)
Definition leaf_bits (l : leaf) : list bool :=
  match lf_data l with
  | Embedded v => let b := true :: false :: skipn 2 (byte_bits (N.of_nat (length v) mod 256)) ++ lf_key l ++ bits v in b ++ zeros (NODE_BITS - length b)
  | Regular h => true :: true :: zeros 6 ++ lf_key l ++ bits h
  end.
(** types.rs:217-222 *)
Definition branch_bits (b : branch) : list bool := false :: br_left b ++ br_right b.
(** types.rs:311-316 *)
Definition node_bits (n : node) : list bool := match n with NLeaf l => leaf_bits l | NBranch b => branch_bits b end.
(** state/state-merkle-v2/src/types.rs:311-316. *)
Definition encode (n : node) : bytes := unbits (node_bits n).
(** utils.rs:15-24: a range of a bit vector. *)
Definition slice (l : list bool) (a b : nat) : result terr (list bool) := if Nat.leb a b && Nat.leb b (length l) then Ok (firstn (b - a) (skipn a l)) else Err ESliceRange.
(** utils.rs:26-33 *)
Definition to_hash (l : list bool) : result terr bytes := let bs := unbits l in if Nat.eqb (length bs) 32 then Ok bs else Err EHashLength.
(** types.rs:115-156 *)
Definition leaf_decode (l : list bool) : result terr leaf :=
  if negb (Nat.eqb (length l) NODE_BITS) then Err EDataLength else
  match nth_error l 0, nth_error l 1 with
  | Some true, Some true =>
      let! h := slice l 256 (length l) in let! k := slice l 8 256 in let! hash := to_hash h in Ok (mk_leaf k (Regular hash))
  | Some true, Some false =>
      let! lb := slice l 2 8 in let n := N.to_nat (byte_of (false :: false :: lb)) in
      let! v := slice l 256 (256 + n * 8) in let! k := slice l 8 256 in Ok (mk_leaf k (Embedded (unbits v)))
  | _, _ => Err ENodeType
  end.
(** types.rs:224-244 *)
Definition branch_decode (l : list bool) : result terr branch :=
  if negb (Nat.eqb (length l) NODE_BITS) then Err EDataLength else
  match nth_error l 0 with
  | None => Panic
  | Some true => Err ENodeType
  | Some false => let! a := slice l 1 256 in let! b := slice l 256 (length l) in Ok (mk_branch a b)
  end.
(** types.rs:277-299 [from_db_kv] *)
Definition decode (bs : bytes) : result terr node :=
  let l := bits bs in
  match nth_error l 0 with
  | Some true => match leaf_decode l with Ok x => Ok (NLeaf x) | Err _ => Err EItemValue | Panic => Panic end
  | Some false => match branch_decode l with Ok x => Ok (NBranch x) | Err _ => Err EItemValue | Panic => Panic end
  | None => Err EItemValue
  end.
(** types.rs:187-197, 199-209: a branch from the hashes of its children. A 32-byte hash always has a first bit to drop. *)
Definition new_branch (l r : bytes) : branch := mk_branch (skipn 1 (bits l)) (bits r).

(** types.rs:352-360 [as_db_key]: '0' and '1' for the bits. *)
Definition db_key (p : path) : bytes := map (fun b : bool => if b then 49%N else 48%N) p.
(** The order of RocksDB's keys; used by the iterator of state/state-merkle-v2/src/merkle_db.rs:47-91. *)
Fixpoint bytes_ltb (a b : bytes) : bool :=
  match a, b with
  | _, [] => false
  | [], _ => true
  | x :: a', y :: b' => (x <? y)%N || ((x =? y)%N && bytes_ltb a' b')
  end.
(** types.rs:409-425 *)
Definition sibling (p : path) : option path := match p with [] => None | _ => Some (removelast p ++ [negb (last p false)]) end.
(** types.rs:427-443 *)
Definition child (p : path) (b : bool) : option path := if Nat.leb NODE_BITS (length p) then None else Some (p ++ [b]).
(** types.rs:447-457 *)
Fixpoint paths_from (n : nat) (p : path) : list path := match n with O => [[]] | S n' => firstn n p :: paths_from n' p end.
(** Part of types.rs:447-457. *)
Definition all_paths_to_root (p : path) : list path := paths_from (length p) p.
(** Used at state/state-merkle-v2/src/merkle_db.rs:47-91 and state/src/merkle_interface/manager.rs:83-129. *)
Fixpoint starts_with (l p : list bool) : bool := match p, l with [], _ => true | x :: p', y :: l' => Bool.eqb x y && starts_with l' p' | _, [] => false end.
(** utils.rs:37-47: both keys up to and including the first differing bit; the slices panic when the keys are equal. *)
Fixpoint common (a b : list bool) : nat := match a, b with x :: a', y :: b' => if Bool.eqb x y then S (common a' b') else 0 | _, _ => 0 end.
(** Part of utils.rs:37-47. *)
Definition upto (l : list bool) (n : nat) : result terr path := if Nat.leb n (length l) then Ok (firstn n l) else Panic.
(** Part of utils.rs:37-47. *)
Definition derive_final_leaf_paths (a b : path) : result terr (path * path) :=
  let n := common a b in let! x := upto a (n + 1) in let! y := upto b (n + 1) in Ok (x, y).

(** A RocksDB column family of nodes: its entries in the order of their keys. Used by state/state-merkle-v2/src/merkle_db.rs:17-171. *)
Definition odb := list (path * node).
(** Used by state/state-merkle-v2/src/merkle_db.rs:17-171. *)
Fixpoint oget (d : odb) (p : path) : option node := match d with [] => None | (q, n) :: d' => if path_eqb q p then Some n else oget d' p end.
(** Used by state/state-merkle-v2/src/merkle_db.rs:17-171. *)
Fixpoint oput (d : odb) (p : path) (n : node) : odb :=
  match d with
  | [] => [(p, n)]
  | (q, x) :: d' => if path_eqb q p then (p, n) :: d' else if bytes_ltb (db_key p) (db_key q) then (p, n) :: d else (q, x) :: oput d' p n
  end.
(** Used by state/state-merkle-v2/src/merkle_db.rs:17-171. *)
Definition odel (d : odb) (p : path) : odb := filter (fun e => negb (path_eqb (fst e) p)) d.
(** Maps whose order does not matter: the latest entry of a key counts. Used for the maps of state/state-merkle-v2/src/merkle_db.rs:17-36 and state/state-merkle-v2/src/merkle_change_set.rs:23-76. *)
Definition amap A := list (path * A).
(** Used for the maps of state/state-merkle-v2/src/merkle_db.rs:17-36 and state/state-merkle-v2/src/merkle_change_set.rs:23-76. *)
Definition aget {A} (m : amap A) (p : path) : option A := option_map snd (find (fun e => path_eqb (fst e) p) m).

(** merkle_db.rs:17-36. Reads go through a cache that is transparent (C36). *)
Record mdb := mk_mdb { d_nodes : odb; d_lpaths : amap (option path); d_root : bytes }.
(** state/state-merkle-v2/src/merkle_db.rs:24-36. *)
Definition zero_hash : bytes := repeat 0%N 32.
(** state/state-merkle-v2/src/merkle_db.rs:24-36. *)
Definition empty_mdb : mdb := mk_mdb [] [] zero_hash.
(** merkle_db.rs:47-91: from the first bit of the key onwards, until a larger key is met. *)
Fixpoint scan (d : odb) (key best : path) : path :=
  match d with
  | [] => best
  | (q, _) :: d' => if bytes_ltb (db_key key) (db_key q) then best else scan d' key (if starts_with key q then q else best)
  end.
(** Part of merkle_db.rs:47-91. *)
Definition db_longest_prefix (d : odb) (key : path) : path :=
  scan (filter (fun e => negb (bytes_ltb (db_key (fst e)) (db_key (firstn 1 key)))) d) key [].
(** Part of merkle_db.rs:47-91. *)
Definition db_leaf_path (d : mdb) (k : path) : option path := match aget (d_lpaths d) k with Some o => o | None => None end.
(** merkle_db.rs:115-125 *)
Definition db_leaf (d : mdb) (k : path) : option leaf :=
  match db_leaf_path d k with
  | Some p => match oget (d_nodes d) p with Some (NLeaf l) => Some l | _ => None end
  | None => None
  end.

(** manager.rs:19-29 and merkle_change_set.rs:23-28, 67-76 *)
Record mgr := mk_mgr { g_db : mdb; g_nodes : amap (option node); g_lpaths : amap (option path); g_aff : list path; g_state : list (bytes * bytes); g_writes : list (path * option node) }.
(** state/src/merkle_interface/manager.rs:19-29. *)
Definition new_mgr (d : mdb) : mgr := mk_mgr d [] [] [] [] [].
(** state/state-merkle-v2/src/merkle_change_set.rs:78-135. *)
Definition insert_node (m : mgr) (p : path) (w : option node) : mgr := mk_mgr (g_db m) ((p, w) :: g_nodes m) (g_lpaths m) (g_aff m) (g_state m) (g_writes m).
(** state/state-merkle-v2/src/merkle_change_set.rs:78-135. *)
Definition insert_leaf_path (m : mgr) (k : path) (w : option path) : mgr := mk_mgr (g_db m) (g_nodes m) ((k, w) :: g_lpaths m) (g_aff m) (g_state m) (g_writes m).
(** merkle_change_set.rs:108-117 *)
Definition extend_affected (m : mgr) (p : path) : mgr := mk_mgr (g_db m) (g_nodes m) (g_lpaths m) (all_paths_to_root p ++ g_aff m) (g_state m) (g_writes m).
(** state/state-merkle-v2/src/merkle_change_set.rs:78-135. *)
Definition insert_affected (m : mgr) (p : path) : mgr := mk_mgr (g_db m) (g_nodes m) (g_lpaths m) (p :: g_aff m) (g_state m) (g_writes m).
(** state/state-merkle-v2/src/merkle_change_set.rs:78-135. *)
Definition insert_state_write (m : mgr) (w : option (bytes * bytes)) : mgr :=
  match w with Some x => mk_mgr (g_db m) (g_nodes m) (g_lpaths m) (g_aff m) (g_state m ++ [x]) (g_writes m) | None => m end.
(** manager.rs:136-147, 154-165 *)
Definition get_node (m : mgr) (p : path) : option node := match aget (g_nodes m) p with Some w => w | None => oget (d_nodes (g_db m)) p end.
(** Part of manager.rs:136-147, 154-165. *)
Definition get_leaf_path (m : mgr) (k : path) : option path := match aget (g_lpaths m) k with Some w => w | None => db_leaf_path (g_db m) k end.
(** manager.rs:83-129. The candidates are a hash set; the outcome does not depend on their order ([longest_order]). *)
Definition longest (cs : amap (option node)) (cands : list path) : path :=
  fold_left (fun lcp c => if Nat.ltb (length lcp) (length c) then match aget cs c with Some None => lcp | _ => c end else lcp) cands [].
(** Part of manager.rs:83-129. *)
Definition find_longest_prefix (m : mgr) (k : path) : path :=
  longest (g_nodes m) (all_paths_to_root (db_longest_prefix (d_nodes (g_db m)) k) ++ filter (starts_with k) (map fst (g_nodes m))).
(** manager.rs:168-182 *)
Definition longest_common (m : mgr) (k : path) : result terr (option node * path) :=
  let p := find_longest_prefix m k in
  match get_node m p, p with
  | None, [] => Ok (None, p)
  | None, _ => Err ENotInitialized
  | Some n, _ => Ok (Some n, p)
  end.

(** cache.rs:13-24: the status of a dirty cache entry, and its encoded value. *)
Inductive status := SAdd | SUpdate | SRemove | SClean.
(** Part of cache.rs:13-24. *)
Record entry := mk_entry { e_key : path; e_status : status; e_value : bytes }.

Section Hash.
  (** Blake2b-256. *)
  Context (H : bytes -> bytes).
  (** state/state-merkle-v2/src/types.rs:247-250; used at state/src/merkle_interface/manager.rs:184-204, 536-607. *)
  Definition node_hash (n : node) : bytes := H (encode n).
  (** state/state-merkle-v2/src/types.rs:247-250; used at state/src/merkle_interface/manager.rs:184-204, 536-607. *)
  Definition hash_or_zero (o : option node) : bytes := match o with Some n => node_hash n | None => zero_hash end.
  (** manager.rs:184-204 *)
  Definition entry_leaf (k : path) (v : bytes) : leaf * option (bytes * bytes) :=
    if Nat.ltb 32 (length v) then (mk_leaf k (Regular (H v)), Some (H v, v)) else (mk_leaf k (Embedded v), None).

  (** manager.rs:297-338: the branches from the parent of the new leaf up to the place of the leaf that was there. *)
  Fixpoint raise (fuel : nat) (m : mgr) (bp : path) (lo : nat) (l r : bytes) : result terr mgr :=
    if Nat.ltb (length bp) lo then Ok m else
    match fuel with
    | O => Ok m
    | S f =>
        let b := NBranch (new_branch l r) in
        let m1 := insert_node m bp (Some b) in
        match bp with
        | [] => Ok m1
        | _ => match sibling bp with
               | None => Err EBranchStructure
               | Some sp =>
                   let sh := hash_or_zero (get_node m1 sp) in
                   let '(l', r') := if last bp false then (sh, node_hash b) else (node_hash b, sh) in
                   raise f m1 (removelast bp) lo l' r'
               end
        end
    end.
  (** manager.rs:431-472: up through branches with one child; the paths of the branches that collapse. *)
  Fixpoint promote (fuel : nat) (m : mgr) (p : path) (acc : list path) : result terr (path * list path) :=
    match p, fuel with
    | [], _ | _, O => Ok (p, acc)
    | _, S f =>
        let q := removelast p in
        match get_node m q with
        | Some (NBranch _) =>
            let none b := match get_node m (q ++ [b]) with None => true | Some _ => false end in
            if xorb (none false) (none true) then promote f m q (acc ++ [p]) else Ok (p, acc)
        | _ => Err EBranchStructure
        end
    end.
  (** manager.rs:218-374 *)
  Definition add_entry (m : mgr) (k : path) (v : bytes) : result terr mgr :=
    let! (n, lcp) := longest_common m k in
    let '(l, w) := entry_leaf k v in
    match n with
    | Some (NBranch _) =>
        let! lp := upto k (length lcp + 1) in
        Ok (insert_state_write (insert_leaf_path (insert_node (extend_affected m lp) lp (Some (NLeaf l))) k (Some lp)) w)
    | Some (NLeaf s) =>
        let! (sp, np) := derive_final_leaf_paths (lf_key s) k in
        let m1 := insert_affected (extend_affected m np) sp in
        let m2 := insert_node (insert_node m1 np (Some (NLeaf l))) sp (Some (NLeaf s)) in
        match np with
        | [] => Err EBranchStructure
        | _ =>
            let lh := node_hash (NLeaf l) in let sh := node_hash (NLeaf s) in
            let '(lf, rt) := if last np false then (sh, lh) else (lh, sh) in
            let! m3 := raise (length np) m2 (removelast np) (length lcp) lf rt in
            Ok (insert_state_write (insert_leaf_path (insert_leaf_path m3 k (Some np)) (lf_key s) (Some sp)) w)
        end
    | None => Ok (insert_state_write (insert_leaf_path (insert_node (extend_affected m []) [] (Some (NLeaf l))) k (Some [])) w)
    end.
  (** manager.rs:375-396 *)
  Definition update_entry (m : mgr) (k : path) (v : bytes) : result terr mgr :=
    match get_leaf_path m k with
    | None => Err EPathUnknown
    | Some lp => let '(l, w) := entry_leaf k v in Ok (insert_state_write (insert_node (extend_affected m lp) lp (Some (NLeaf l))) w)
    end.
  (** manager.rs:397-502 *)
  Definition remove_entry (m : mgr) (k : path) : result terr mgr :=
    match get_leaf_path m k with
    | None => Err EPathUnknown
    | Some lp =>
        match sibling lp with
        | None => Err ENotInitialized
        | Some sp =>
            match get_node m sp with
            | None => Err ENotInitialized
            | Some (NBranch _) => Ok (insert_leaf_path (insert_node (extend_affected m lp) lp None) k None)
            | Some (NLeaf s) =>
                let! (pp, collapsed) := promote (length sp) m (removelast sp) [] in
                let m1 := insert_leaf_path (insert_node (extend_affected m lp) lp None) k None in
                let m2 := insert_leaf_path (insert_node (insert_affected m1 sp) sp None) (lf_key s) (Some pp) in
                let m3 := fold_left (fun x p => insert_node x p None) collapsed m2 in
                Ok (insert_node m3 pp (Some (NLeaf s)))
            end
        end
    end.
  (** manager.rs:210-217: an error or a panic comes before the entry has changed anything. *)
  Definition insert_entry (m : mgr) (e : entry) : result terr mgr :=
    match e_status e with
    | SAdd => add_entry m (e_key e) (e_value e)
    | SUpdate => update_entry m (e_key e) (e_value e)
    | SRemove => remove_entry m (e_key e)
    | SClean => Ok m
    end.
  (** manager.rs:508-517: the manager keeps what the entries before a failing one did. *)
  Fixpoint insert_entries (m : mgr) (es : list entry) : mgr * result terr unit :=
    match es with
    | [] => (m, Ok tt)
    | e :: es' => match insert_entry m e with Ok m' => insert_entries m' es' | Err x => (m, Err x) | Panic => (m, Panic) end
    end.

  (** merkle_change_set.rs:136-157: without duplicates, longest first, then by the last differing bit, descending. *)
  Fixpoint rev_leb (a b : list bool) : bool := match a, b with x :: a', y :: b' => if Bool.eqb x y then rev_leb a' b' else x | _, _ => true end.
  (** state/state-merkle-v2/src/merkle_change_set.rs:136-157. *)
  Definition before (a b : path) : bool :=
    if Nat.ltb (length b) (length a) then true else if Nat.eqb (length a) (length b) then rev_leb (rev a) (rev b) else false.
  (** state/state-merkle-v2/src/merkle_change_set.rs:136-157. *)
  Fixpoint insert_sorted (p : path) (l : list path) : list path := match l with [] => [p] | q :: l' => if before p q then p :: l else q :: insert_sorted p l' end.
  (** state/state-merkle-v2/src/merkle_change_set.rs:136-157. *)
  Definition sort_paths (l : list path) : list path := fold_right insert_sorted [] (nodup (list_eq_dec Bool.bool_dec) l).

  (** state/src/merkle_interface/manager.rs:536-607. *)
  Definition push_write (m : mgr) (p : path) (w : option node) : mgr := mk_mgr (g_db m) (g_nodes m) (g_lpaths m) (g_aff m) (g_state m) (g_writes m ++ [(p, w)]).
  (** manager.rs:563-602: the child hashes that changed. *)
  Definition refresh (m : mgr) (b : branch) (lp rp : path) : branch :=
    let l := match aget (g_nodes m) lp with Some w => skipn 1 (bits (hash_or_zero w)) | None => br_left b end in
    let r := match aget (g_nodes m) rp with Some w => bits (hash_or_zero w) | None => br_right b end in
    mk_branch l r.
  (** manager.rs:536-607, one affected path *)
  Definition recompute_at (m : mgr) (p : path) : result terr mgr :=
    let branch_case :=
      match get_node m p with
      | None => Err EAffectedPath
      | Some (NLeaf _) => Err ELeafNotFound
      | Some (NBranch b) =>
          match child p false, child p true with
          | Some lp, Some rp => let n := Some (NBranch (refresh m b lp rp)) in Ok (push_write (insert_node m p n) p n)
          | _, _ => Err EBranchStructure
          end
      end in
    match aget (g_nodes m) p with
    | Some None => Ok (push_write m p None)
    | Some (Some (NLeaf l)) => Ok (push_write m p (Some (NLeaf l)))
    | _ => branch_case
    end.
  (** state/src/merkle_interface/manager.rs:523-622. *)
  Fixpoint recompute (m : mgr) (l : list path) : mgr * result terr unit :=
    match l with
    | [] => (m, Ok tt)
    | p :: l' => match recompute_at m p with Ok m' => recompute m' l' | Err x => (m, Err x) | Panic => (m, Panic) end
    end.
  (** state/src/merkle_interface/manager.rs:523-622. *)
  Definition take_affected (m : mgr) : mgr := mk_mgr (g_db m) (g_nodes m) (g_lpaths m) [] (g_state m) (g_writes m).
  (** manager.rs:523-622 *)
  Definition prepare_node_writes (m : mgr) : mgr * result terr (option bytes) :=
    match sort_paths (g_aff m) with
    | [] => (take_affected m, Ok None)
    | l => match recompute (take_affected m) l with
           | (m1, Ok _) => (m1, match aget (g_nodes m1) [] with None => Err EMissingRoot | Some None => Err ERemovingRoot | Some (Some n) => Ok (Some (node_hash n)) end)
           | (m1, Err x) => (m1, Err x)
           | (m1, Panic) => (m1, Panic)
           end
    end.
  (** manager.rs:19-24, merkle_change_set.rs:23-28 *)
  Record write_set := mk_ws { w_root : bytes; w_state : list (bytes * bytes); w_nodes : list (path * option node); w_lpaths : amap (option path) }.
  (** manager.rs:691-735. After an error the change set stays in the manager. *)
  Definition prepare_commit (m : mgr) (es : list entry) : mgr * result terr (option write_set) :=
    match es with
    | [] => (m, Ok None)
    | _ =>
        match insert_entries m es with
        | (m1, Err x) => (m1, Err x)
        | (m1, Panic) => (m1, Panic)
        | (m1, Ok _) =>
            match prepare_node_writes m1 with
            | (m2, Err x) => (m2, Err x)
            | (m2, Panic) => (m2, Panic)
            | (m2, Ok None) => (new_mgr (g_db m2), Ok None)
            | (m2, Ok (Some root)) => (new_mgr (g_db m2), Ok (Some (mk_ws root (g_state m2) (g_writes m2) (g_lpaths m2))))
            end
        end
    end.
  (** merkle_db.rs:158-171: two batches, one after the other. The leaf paths of the change set are a map, so the latest entry of a key is written. *)
  Definition write_nodes (d : odb) (ws : list (path * option node)) : odb :=
    fold_left (fun d w => match snd w with Some n => oput d (fst w) n | None => odel d (fst w) end) ws d.
  (** Part of merkle_db.rs:158-171. *)
  Definition commit_nodes (d : mdb) (w : write_set) : mdb := mk_mdb (write_nodes (d_nodes d) (w_nodes w)) (d_lpaths d) (d_root d).
  (** Part of merkle_db.rs:158-171. *)
  Definition commit_lpaths (d : mdb) (w : write_set) : mdb := mk_mdb (d_nodes d) (w_lpaths w ++ d_lpaths d) (d_root d).
  (** manager.rs:737-757 *)
  Definition apply_commit (m : mgr) (w : write_set) : mgr :=
    let d := commit_lpaths (commit_nodes (g_db m) w) w in
    mk_mgr (mk_mdb (d_nodes d) (d_lpaths d) (w_root w)) (g_nodes m) (g_lpaths m) (g_aff m) (g_state m) (g_writes m).
  (** manager.rs:765-777: the new manager and the writes for the state database. *)
  Definition commit (m : mgr) (es : list entry) : mgr * result terr (list (bytes * bytes)) :=
    match prepare_commit m es with
    | (m1, Ok (Some w)) => (apply_commit m1 w, Ok (w_state w))
    | (m1, Ok None) => (m1, Ok [])
    | (m1, Err x) => (m1, Err x)
    | (m1, Panic) => (m1, Panic)
    end.

  (** The state database (state_db.rs, content-addressed) beside the trie, as the state manager uses them. state/src/state_db.rs:1-38 as used at state/src/manager.rs:742-858. *)
  Record store := mk_store { s_mgr : mgr; s_db : list (bytes * bytes) }.
  (** state/src/state_db.rs:1-38 as used at state/src/manager.rs:742-858. *)
  Definition bytes_eqb (a b : bytes) : bool := if list_eq_dec N.eq_dec a b then true else false.
  (** state/src/state_db.rs:1-38 as used at state/src/manager.rs:742-858. *)
  Definition sget (d : list (bytes * bytes)) (h : bytes) : option bytes := option_map snd (find (fun e => bytes_eqb (fst e) h) d).
  (** state/src/state_db.rs:1-38 as used at state/src/manager.rs:742-858. *)
  Definition empty_store : store := mk_store (new_mgr empty_mdb) [].
  (** state/src/manager.rs:829-858: the trie first, then the state database. *)
  Definition store_commit (s : store) (es : list entry) : store * result terr unit :=
    match commit (s_mgr s) es with
    | (m, Ok ws) => (mk_store m (rev ws ++ s_db s), Ok tt)
    | (m, Err x) => (mk_store m (s_db s), Err x)
    | (m, Panic) => (mk_store m (s_db s), Panic)
    end.
  (** state/src/manager.rs:742-768; [Err] when the state database misses the entry. *)
  Definition store_read (s : store) (k : path) : result unit (option bytes) :=
    match db_leaf (g_db (s_mgr s)) k with
    | None => Ok None
    | Some l => match lf_data l with
                | Embedded v => Ok (Some v)
                | Regular h => match sget (s_db s) h with Some v => Ok (Some v) | None => Err tt end
                end
    end.
  (** state/src/manager.rs:655-657. *)
  Definition store_root (s : store) : bytes := d_root (g_db (s_mgr s)).
  (** merkle_db.rs:24-36: a restarted node has the stored nodes and leaf paths; the root starts as the default hash. *)
  Definition reopen (d : mdb) : mgr := new_mgr (mk_mdb (d_nodes d) (d_lpaths d) zero_hash).
  (** Part of merkle_db.rs:24-36. *)
  Definition restart (s : store) : store := mk_store (reopen (g_db (s_mgr s))) (s_db s).
  (** A crash between the two batches of merkle_db.rs:158-171, and a restart. *)
  Definition crash_between (s : store) (es : list entry) : store :=
    match prepare_commit (s_mgr s) es with
    | (m, Ok (Some w)) => mk_store (reopen (commit_nodes (g_db m) w)) (s_db s)
    | (m, _) => mk_store (reopen (g_db m)) (s_db s)
    end.
  (** A crash after both, before the state database is written (state/src/manager.rs:836-853). *)
  Definition crash_before_state (s : store) (es : list entry) : store := mk_store (reopen (g_db (fst (commit (s_mgr s) es)))) (s_db s).
End Hash.
