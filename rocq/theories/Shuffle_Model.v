(** Fisher-Yates shuffle (extrinsics/src/utils/shuffle.rs) and guarantor rotation
    (extrinsics/src/utils/guarantor_rotation.rs). *)
From Verif Require Import Base.

Section Shuffle.
  Context {T : Type}.
  Variable dflt : T.   (* only for the total [nth]; never read, indices are in range Assigning to an element, extrinsics/src/utils/shuffle.rs:21-34. *)

  Fixpoint set_nth (l : list T) (i : nat) (x : T) : list T :=
    match l, i with
    | [], _ => []
    | _ :: l', 0 => x :: l'
    | y :: l', S i' => y :: set_nth l' i' x
    end.

  (** shuffle.rs:21-34: the loop over the randoms with the counter i; [elems] is mutated in place. *)
  Fixpoint shuffle_loop (elems_len : nat) (elems : list T) (i : nat) (randoms : list N) : list T :=
    match randoms with
    | [] => []
    | random :: rs =>
        if Nat.leb elems_len i then []
        else
          let range := elems_len - i in
          let idx := N.to_nat (random mod N.of_nat range) in
          let out := nth idx elems dflt in
          let elems' := if Nat.ltb i (elems_len - 1) then set_nth elems idx (nth (range - 1) elems dflt) else elems in
          out :: shuffle_loop elems_len elems' (i + 1) rs
    end.

  (** shuffle.rs:13-37. *)
  Definition shuffle (elems : list T) (randoms : list N) : list T :=
    match elems with
    | [] => []
    | _ => shuffle_loop (length elems) elems 0 randoms
    end.
End Shuffle.

Section WithHash.
  Variable H : bytes -> bytes.   (* Blake2b-256 *)

  (** shuffle.rs:46-76; the hash never fails in the model. *)
  Definition random_at (h : bytes) (i : nat) : N :=
    let new_hash := H (h ++ le_bytes 4 (N.of_nat (i / 8))) in
    let start := (4 * i) mod 32 in
    le_val (firstn 4 (skipn start new_hash)).
  (** Part of shuffle.rs:46-76. *)
  Definition hash_to_randoms (h : bytes) (output_len : nat) : list N := map (random_at h) (seq 0 output_len).

  (** shuffle.rs:40-44. *)
  Definition shuffle_with_hash (elems : list nat) (h : bytes) : list nat :=
    shuffle 0 elems (hash_to_randoms h (length elems)).

  Variables (V C : nat).        (* VALIDATOR_COUNT, CORE_COUNT *)
  Variables (E R : N).          (* EPOCH_LENGTH, GUARANTOR_ROTATION_PERIOD *)

  (** guarantor_rotation.rs:35-40. The u16 sum is below CORE_COUNT + EPOCH_LENGTH / ROTATION and does not wrap. *)
  Definition rotate_validator_indices (indices : list nat) (shift : nat) : list nat :=
    map (fun index => (index + shift) mod C) indices.

  (** guarantor_rotation.rs:43-58. *)
  Definition permute_validator_indices (entropy : bytes) (slot : N) : list nat :=
    let indices := map (fun i => C * i / V) (seq 0 V) in
    let shuffled := shuffle_with_hash indices entropy in
    let rotation_shift := N.to_nat ((slot mod E) / R) in
    rotate_validator_indices shuffled rotation_shift.

  (** guarantor_rotation.rs:61-80 and 83-116: core index of each validator now, and in the previous rotation. *)
  Definition current_core_indices (entropy2 : bytes) (slot : N) : list nat := permute_validator_indices entropy2 slot.
  (** Part of guarantor_rotation.rs:61-80. *)
  Definition previous_core_indices (entropy2 entropy3 : bytes) (slot : N) : list nat :=
    let prev := (slot - R)%N in   (* saturating_sub *)
    let within_same_epoch := (prev / E =? slot / E)%N in
    permute_validator_indices (if within_same_epoch then entropy2 else entropy3) prev.
End WithHash.
