(** Binary Merkle trees and Merkle mountain ranges (merkle/src). Blobs and hashes are byte lists; the hash
    function is a parameter (the generic [H: Hasher] of the code). *)
From Verif Require Import Base.

(** common/src/types/mod.rs:20. *)
Definition zero_hash : bytes := repeat 0%N 32.                              (* Hash32::default() *)
Definition NODE : bytes := [110; 111; 100; 101]%N.                           (* b"node", common.rs:48 *)
Definition LEAF : bytes := [108; 101; 97; 102]%N.                            (* b"leaf", constant_depth_tree.rs:17 *)
Definition PEAK : bytes := [112; 101; 97; 107]%N.                            (* b"peak", mmr.rs:148 *)

(** [usize::div_ceil(_, 2)]. Used at merkle/src/common.rs:47-107. *)
Definition half (n : nat) : nat := (n + 1) / 2.

Section Tree.
  Variable H : bytes -> bytes.

  (** common.rs:47-61 [node]. The Rust recursion is on slices half as long; the first argument bounds its depth and
      [node] starts it at the length, which is always enough ([node_eq] in Merkle_Proofs). *)
  Fixpoint node_f (fuel : nat) (data : list bytes) : bytes :=
    match fuel with
    | 0 => zero_hash
    | S f =>
        match data with
        | [] => zero_hash
        | [d] => d
        | _ =>
            let m := half (length data) in
            H (NODE ++ node_f f (firstn m data) ++ node_f f (skipn m data))
        end
    end.
  (** Part of common.rs:47-61. *)
  Definition node (data : list bytes) : bytes := node_f (length data) data.

  (** common.rs:67-74 [split_and_select]. *)
  Definition split_and_select (data : list bytes) (idx : nat) (select_idx_side : bool) : list bytes :=
    let mid := half (length data) in
    if Bool.eqb (Nat.ltb idx mid) select_idx_side then firstn mid data else skipn mid data.

  (** common.rs:78-85. *)
  Definition merkle_index_offset (data : list bytes) (idx : nat) : nat :=
    let mid := half (length data) in if Nat.ltb idx mid then 0 else mid.

  (** common.rs:90-107 [trace]. *)
  Fixpoint trace_f (fuel : nat) (data : list bytes) (idx : nat) : list bytes :=
    match fuel with
    | 0 => []
    | S f =>
        if Nat.leb (length data) 1 then []
        else node (split_and_select data idx false)
             :: trace_f f (split_and_select data idx true) (idx - merkle_index_offset data idx)
    end.
  (** Part of common.rs:90-107. *)
  Definition trace (data : list bytes) (idx : nat) : list bytes := trace_f (length data) data idx.

  (** well_balanced_tree.rs:15-24. [Hash32::decode] takes the first 32 bytes of the root blob. *)
  Definition wb_root (data : list bytes) : bytes :=
    match data with
    | [] => zero_hash
    | [d] => H d
    | _ => firstn 32 (node data)
    end.

  (** [usize::next_power_of_two]: the smallest power of two that is at least n; 1 for 0. Used at merkle/src/constant_depth_tree.rs:16-33. *)
  Definition next_pow2 (n : nat) : nat := 2 ^ Nat.log2_up n.

  (** constant_depth_tree.rs:16-33; [Vec::resize] to a length that is not below the current one. *)
  Definition constancy_preprocess (data : list bytes) : list bytes :=
    match data with
    | [] => [zero_hash]
    | _ => map (fun item : bytes => H (LEAF ++ item)) data ++ repeat zero_hash (next_pow2 (length data) - length data)
    end.

  (** constant_depth_tree.rs:36-46. *)
  Definition cd_root (data : list bytes) : bytes :=
    match data with
    | [] => zero_hash
    | _ => firstn 32 (node (constancy_preprocess data))
    end.

  (** [Vec::resize]. Used at merkle/src/constant_depth_tree.rs:50-63. *)
  Definition resize (n : nat) (d : bytes) (l : list bytes) : list bytes := firstn n l ++ repeat d (n - length l).

  (** constant_depth_tree.rs:50-63. *)
  Definition single_page_justification (data : list bytes) (page_idx page_depth : nat) : list bytes :=
    let tr := trace (constancy_preprocess data) (2 ^ page_depth * page_idx) in
    let whole_tree_depth := Nat.log2 (next_pow2 (length data)) in
    resize (whole_tree_depth - page_depth) zero_hash tr.

  (** constant_depth_tree.rs:66-82; slicing [start..end] panics when start > end. *)
  Definition subtree_page_leaf_hashes (data : list bytes) (page_idx page_depth : nat) : result unit (list bytes) :=
    let page_size := 2 ^ page_depth in
    let start_idx := page_size * page_idx in
    let end_idx := Nat.min (length data) (start_idx + page_size) in
    if Nat.ltb end_idx start_idx then Panic
    else Ok (map (fun item : bytes => H (LEAF ++ item)) (firstn (end_idx - start_idx) (skipn start_idx data))).

  (** mmr.rs: peaks. merkle/src/mmr.rs:83-138. *)
  Fixpoint set_peak (l : list (option bytes)) (i : nat) (x : option bytes) : list (option bytes) :=
    match l, i with
    | [], _ => []
    | _ :: l', 0 => x :: l'
    | y :: l', S i' => y :: set_peak l' i' x
    end.

  (** mmr.rs:83-115: the loop. [fuel] bounds the iterations; the index grows each time and the loop leaves when it
      reaches the length, so length + 1 is enough. *)
  Fixpoint append_loop (fuel : nat) (peaks : list (option bytes)) (index : nat) (curr_root : bytes)
    : list (option bytes) :=
    match fuel with
    | 0 => peaks
    | S f =>
        if Nat.leb (length peaks) index then peaks ++ [Some curr_root]
        else match nth_error peaks index with
             | Some (Some old_root) =>
                 append_loop f (set_peak peaks index None) (index + 1) (H (old_root ++ curr_root))
             | _ => set_peak peaks index (Some curr_root)
             end
    end.
  (** Part of mmr.rs:83-115. *)
  Definition mmr_append (peaks : list (option bytes)) (leaf : bytes) : list (option bytes) :=
    append_loop (S (length peaks)) peaks 0 leaf.

  (** mmr.rs:119-138: the recursive variant (called with index 0 by its users). *)
  Fixpoint append_recursive_f (fuel : nat) (peaks : list (option bytes)) (curr_root : bytes) (index : nat)
    : list (option bytes) :=
    match fuel with
    | 0 => peaks
    | S f =>
        if Nat.leb (length peaks) index then peaks ++ [Some curr_root]
        else match nth_error peaks index with
             | Some (Some old_root) =>
                 let new_root := H (old_root ++ curr_root) in
                 append_recursive_f f (set_peak peaks index None) new_root (index + 1)
             | _ => set_peak peaks index (Some curr_root)
             end
    end.
  (** Part of mmr.rs:119-138. *)
  Definition mmr_append_recursive (peaks : list (option bytes)) (curr_root : bytes) (index : nat) : list (option bytes) :=
    append_recursive_f (S (length peaks)) peaks curr_root index.
End Tree.

(** mmr.rs:141-154: K is Keccak. *)
Fixpoint somes (l : list (option bytes)) : list bytes :=
  match l with [] => [] | Some x :: t => x :: somes t | None :: t => somes t end.
(** Part of mmr.rs:141-154. *)
Definition super_peak (K : bytes -> bytes) (peaks : list (option bytes)) : bytes :=
  match somes peaks with
  | [] => zero_hash
  | p :: ps => fold_left (fun result peak => K (PEAK ++ result ++ peak)) ps p
  end.
(** mmr.rs:30-36 PartialEq. *)
Definition mmr_eq (K : bytes -> bytes) (a b : list (option bytes)) : Prop := super_peak K a = super_peak K b.
