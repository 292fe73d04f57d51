(** State keys: state/src/state_utils.rs. *)
From Verif Require Import Base.

(** state_utils.rs:313-340: chapters have the keys [i, 0, 0, ...] for [i] from 1 to 16. The table of 16 keys is indexed with [i - 1]. *)
Definition construct_state_key (i : N) : bytes := i :: repeat 0%N 30.
(** Part of state_utils.rs:313-340. *)
Definition STATE_KEYS : list bytes := map construct_state_key [1; 2; 3; 4; 5; 6; 7; 8; 9; 10; 11; 12; 13; 14; 15; 16]%N.
(** Part of state_utils.rs:313-340. *)
Definition simple_key (i : N) : bytes := nth (N.to_nat i - 1) STATE_KEYS [].
(** Assigning one byte of an array. The array written at state/src/state_utils.rs:342-368. *)
Fixpoint upd (l : bytes) (i : nat) (b : N) : bytes := match l, i with [], _ => [] | _ :: l', O => b :: l' | x :: l', S i' => x :: upd l' i' b end.
(** The array written at state/src/state_utils.rs:342-368. *)
Definition key0 : bytes := repeat 0%N 31.
(** state_utils.rs:342-351 *)
Definition metadata_key (s : N) : bytes :=
  let e := le_bytes 4 s in
  upd (upd (upd (upd (upd key0 0 255%N) 1 (nth 0 e 0%N)) 3 (nth 1 e 0%N)) 5 (nth 2 e 0%N)) 7 (nth 3 e 0%N).
Section Hash.
  (** Blake2b-256, which does not fail. *)
  Context (H : bytes -> bytes).
  (** state_utils.rs:353-368 *)
  Definition item_key (s : N) (x : bytes) : bytes :=
    let e := le_bytes 4 s in let h := H x in
    let k := fold_left (fun k i => upd (upd k (i * 2) (nth i e 0%N)) (i * 2 + 1) (nth i h 0%N)) [0; 1; 2; 3] key0 in
    firstn 8 k ++ firstn 23 (skipn 4 h).
  (** state_utils.rs:370-378 *)
  Definition storage_key (s : N) (k : bytes) : bytes := item_key s (le_bytes 4 (2 ^ 32 - 1) ++ k).
  (** state_utils.rs:380-388 *)
  Definition preimage_key (s : N) (h : bytes) : bytes := item_key s (le_bytes 4 (2 ^ 32 - 2) ++ h).
  (** state_utils.rs:390-399 *)
  Definition lookups_key (s : N) (h : bytes) (l : N) : bytes := item_key s (le_bytes 4 l ++ h).
End Hash.
