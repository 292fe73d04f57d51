(** What the state trie should compute: a finite map from 248-bit keys to byte strings, and its Merkle root as the Graypaper
    (appendix D.2) defines it. From the model only [bits]/[unbits] (bytes to bits, most significant first), [entry] and [store] are used. *)
From Verif Require Import Base Trie_Model.

Definition KEY_BITS : nat := 248.
Definition smap := path -> option bytes.
Definition no_state : smap := fun _ => None.
Definition set (m : smap) (k : path) (o : option bytes) : smap := fun x => if list_eq_dec Bool.bool_dec x k then o else m x.
(** What one entry of a batch means. *)
Definition apply_entry (m : smap) (e : entry) : smap :=
  match e_status e with SAdd | SUpdate => set m (e_key e) (Some (e_value e)) | SRemove => set m (e_key e) None | SClean => m end.
Definition apply_batch (m : smap) (es : list entry) : smap := fold_left apply_entry es m.
(** An entry that makes sense for the map: additions are of new keys, updates and removals of present ones. *)
Definition fits (m : smap) (e : entry) : Prop :=
  length (e_key e) = KEY_BITS /\
  match e_status e with SAdd => m (e_key e) = None | SUpdate | SRemove => m (e_key e) <> None | SClean => True end.
(** A batch has one entry per key, and does not remove every key that was there. *)
Definition batch_ok (m : smap) (es : list entry) : Prop :=
  NoDup (map e_key es) /\ Forall (fits m) es /\
  ((forall e, In e es -> e_status e <> SRemove) \/ exists k, m k <> None /\ forall e, In e es -> e_status e = SRemove -> e_key e <> k).
Fixpoint history_ok (m : smap) (bs : list (list entry)) : Prop :=
  match bs with [] => True | es :: r => batch_ok m es /\ history_ok (apply_batch m es) r end.
Definition history_map (bs : list (list entry)) : smap := fold_left apply_batch bs no_state.
(** [d] lists the map. *)
Definition lists (d : list (path * bytes)) (m : smap) : Prop := NoDup (map fst d) /\ forall k v, In (k, v) d <-> m k = Some v.

Section Root.
  Context (H : bytes -> bytes).
  Definition spec_leaf (k : path) (v : bytes) : list bool :=
    if Nat.leb (length v) 32
    then [true; false] ++ skipn 2 (bits [N.of_nat (length v)]) ++ k ++ bits v ++ repeat false (8 * (32 - length v))
    else [true; true; false; false; false; false; false; false] ++ k ++ bits (H v).
  Definition spec_branch (l r : bytes) : list bool := [false] ++ tl (bits l) ++ bits r.
  (** [n] is the index of the bit that divides [d]. *)
  Fixpoint merkle (fuel n : nat) (d : list (path * bytes)) : bytes :=
    match d with
    | [] => repeat 0%N 32
    | [(k, v)] => H (unbits (spec_leaf k v))
    | _ => match fuel with
           | O => repeat 0%N 32
           | S f => H (unbits (spec_branch (merkle f (S n) (filter (fun e => negb (nth n (fst e) false)) d)) (merkle f (S n) (filter (fun e => nth n (fst e) false) d))))
           end
    end.
  Definition state_root (d : list (path * bytes)) : bytes := merkle KEY_BITS 0 d.

  (** Everything that is hashed to compute the root of [d]: its nodes, and the values too long for a leaf. *)
  Fixpoint hash_inputs (fuel n : nat) (d : list (path * bytes)) : list bytes :=
    match d with
    | [] => []
    | [(k, v)] => unbits (spec_leaf k v) :: (if Nat.leb (length v) 32 then [] else [v])
    | _ => match fuel with
           | O => []
           | S f => let l := filter (fun e => negb (nth n (fst e) false)) d in let r := filter (fun e => nth n (fst e) false) d in
                    unbits (spec_branch (merkle f (S n) l) (merkle f (S n) r)) :: hash_inputs f (S n) l ++ hash_inputs f (S n) r
           end
    end.
  Definition root_inputs (d : list (path * bytes)) : list bytes := hash_inputs KEY_BITS 0 d.
  (** Two different strings of [xs] and [ys] whose hashes agree in all but the first bit, or one whose hash is zero but for the first bit. *)
  Definition clash (xs ys : list bytes) : Prop :=
    (exists x y, In x xs /\ In y ys /\ x <> y /\ tl (bits (H x)) = tl (bits (H y))) \/
    (exists x, (In x xs \/ In x ys) /\ tl (bits (H x)) = repeat false 255).
  (** A state: distinct 248-bit keys and byte strings. *)
  Definition state_ok (d : list (path * bytes)) : Prop :=
    NoDup (map fst d) /\ forall k v, In (k, v) d -> length k = KEY_BITS /\ Bytes v.

  (** The store after a history, if every commit succeeds. *)
  Fixpoint run_history (s : store) (bs : list (list entry)) : option store :=
    match bs with
    | [] => Some s
    | es :: r => match store_commit H s es with (s', Ok _) => run_history s' r | _ => None end
    end.
  (** The values a history writes that are too long for a leaf. *)
  Definition hashed_values (bs : list (list entry)) (v : bytes) : Prop :=
    exists es e, In es bs /\ In e es /\ e_value e = v /\ 32 < length v.
  Definition no_collision (P : bytes -> Prop) : Prop := forall v w, P v -> P w -> H v = H w -> v = w.
End Root.
