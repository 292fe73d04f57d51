(** C08, C09, C10: Merkle trees, page justifications, mountain ranges. [H] is any hash with 32-byte output. *)
From Verif Require Import Base Merkle_Model Merkle_Spec Merkle_Proofs.

(** a concrete 32-byte "hash" for the examples *)
Definition toyH (x : bytes) : bytes := le_bytes 32 (N.of_nat (length x) * 257 + fold_left (fun a b => (3 * a + b) mod 1000003) x 7)%N.
Lemma toyH32 : forall x, length (toyH x) = 32.
Proof. intros. unfold toyH. apply Base_Proofs.le_bytes_length. Qed.

(** * C08 *)
Theorem wb_root_is_tree : forall H, (forall x, length (H x) = 32) -> forall items, 2 <= length items ->
  tree H items (wb_root H items).
Proof. exact wb_root_tree. Qed.
Theorem wb_root_small : forall H item, wb_root H [] = repeat 0%N 32 /\ wb_root H [item] = H item.
Proof. intros. split; reflexivity. Qed.
(** The proof produced for any position verifies against the root, *)
Theorem merkle_trace_verifies : forall H items i item, nth_error items i = Some item ->
  exists root hashed, tree H items root /\ climbs H (length items) i item (trace H items i) root hashed.
Proof.
  intros H items i item Hn. destruct (trace_climbs H items i item Hn) as [hs Hc].
  exists (node H items), hs. split; [|exact Hc]. apply node_tree. intros ->. destruct i; discriminate.
Qed.
(** has logarithmic length, *)
Theorem merkle_trace_log_length : forall H items i, length (trace H items i) <= Nat.log2_up (length items).
Proof. exact trace_length_log. Qed.
(** and is sound: whatever item verifies at position i is the item at position i, unless the verifier hashed a string
    that collides with one hashed in the tree. *)
Theorem merkle_proof_sound : forall H, (forall x, length (H x) = 32) ->
  forall n i item siblings root hashed items,
  climbs H n i item siblings root hashed -> tree H items root -> length items = n -> length item = 32 ->
  Forall (fun d => length d = 32) items -> Forall (fun d => length d = 32) siblings ->
  nth_error items i = Some item \/ exists s t, In s hashed /\ tree_hashes H items t /\ collision H s t.
Proof. intros H H32 n i item sibs root hs items C. exact (climbs_sound H H32 n i item sibs root hs C items). Qed.
(** The root commits to a sequence of fixed-size items of known length. *)
Theorem wb_root_commits : forall H, (forall x, length (H x) = 32) -> forall (d1 d2 : list bytes) L,
  length d1 = length d2 -> Forall (fun d => length d = L) d1 -> Forall (fun d => length d = L) d2 ->
  wb_root H d1 = wb_root H d2 ->
  d1 = d2 \/ exists s t, wb_hashes H d1 s /\ wb_hashes H d2 t /\ collision H s t.
Proof. exact wb_binding. Qed.
(** Without the fixed size, or without the length, it does not (finding): for every hash function. *)
Theorem wb_root_variable_size_refuted : exists d1 d2, d1 <> d2 /\ length d1 = length d2 /\
  forall H, wb_root H d1 = wb_root H d2.
Proof. exists [[1]; [2; 3]]%N, [[1; 2]; [3]]%N. split; [discriminate|]. split; reflexivity. Qed.
Theorem wb_root_length_refuted : exists d1 d2, length d1 <> length d2 /\
  forall H, (forall x, length (H x) = 32) -> wb_root H d1 = wb_root H d2.
Proof.
  exists [node_tag ++ [1; 2]]%N, [[1]; [2]]%N. split; [discriminate|]. intros H H32.
  cbn [wb_root]. rewrite firstn_all2; [reflexivity|]. cbn [node_f node length firstn skipn half].
  unfold node. cbn. rewrite H32. lia.
Qed.
Example merkle_ex : let items := map (fun k => repeat k 32) [1; 2; 3; 4; 5]%N in
  nth_error items 3 = Some (repeat 4%N 32) /\ length (trace toyH items 3) = 2 /\ length (trace toyH items 0) = 3 /\
  Forall (fun d => length d = 32) items.
Proof. cbn zeta. split; [reflexivity|]. split; [vm_compute; reflexivity|]. split; [vm_compute; reflexivity|].
  repeat constructor. Qed.
Print Assumptions wb_root_is_tree.
Print Assumptions wb_root_small.
Print Assumptions merkle_trace_verifies.
Print Assumptions merkle_trace_log_length.
Print Assumptions merkle_proof_sound.
Print Assumptions wb_root_commits.
Print Assumptions wb_root_variable_size_refuted.
Print Assumptions wb_root_length_refuted.

(** * C09 *)
(** The leaves of a constant-depth tree: tagged item hashes, then zero hashes up to the next power of two. *)
Theorem cd_leaves : forall H items i, items <> [] ->
  nth_error (constancy_preprocess H items) i =
    match nth_error items i with
    | Some item => Some (H (leaf_tag ++ item))
    | None => if Nat.ltb i (2 ^ Nat.log2_up (length items)) then Some (repeat 0%N 32) else None
    end.
Proof. exact preprocess_nth. Qed.
Theorem cd_root_is_tree : forall H, (forall x, length (H x) = 32) -> forall items,
  tree H (constancy_preprocess H items) (cd_root H items).
Proof. exact cd_root_tree. Qed.
(** For every page that starts inside the data: the page's leaf hashes, padded, have a root which climbs by the page
    justification to the root of the whole tree. *)
Theorem page_proof_verifies : forall H, (forall x, length (H x) = 32) -> forall items page depth,
  depth <= Nat.log2_up (length items) -> page < 2 ^ (Nat.log2_up (length items) - depth) ->
  2 ^ depth * page < length items ->
  exists leaves page_root hashed,
    subtree_page_leaf_hashes H items page depth = Ok leaves /\
    tree H (leaves ++ repeat (repeat 0%N 32) (2 ^ depth - length leaves)) page_root /\
    climbs H (2 ^ (Nat.log2_up (length items) - depth)) page page_root
      (single_page_justification H items page depth) (cd_root H items) hashed /\
    length (single_page_justification H items page depth) = Nat.log2_up (length items) - depth.
Proof. exact page_justification. Qed.
(** A page that starts beyond the data panics instead of failing. *)
Theorem page_out_of_range_refuted : exists H items page depth, subtree_page_leaf_hashes H items page depth = Panic.
Proof. exists toyH, [[1%N]], 1, 1. reflexivity. Qed.
Example page_ex : let items := map (fun k => [k]) [1; 2; 3; 4; 5]%N in
  1 <= Nat.log2_up (length items) /\ 2 < 2 ^ (Nat.log2_up (length items) - 1) /\ 2 ^ 1 * 2 < length items /\
  length (single_page_justification toyH items 2 1) = 2.
Proof. vm_compute. repeat split; repeat constructor. Qed.
Print Assumptions cd_leaves.
Print Assumptions cd_root_is_tree.
Print Assumptions page_proof_verifies.
Print Assumptions page_out_of_range_refuted.

(** * C10 *)
(** After appending any sequence, slot i is occupied exactly when binary digit i of the count is one, and then holds
    the root of the perfect tree over the run of 2^i leaves at the position given by the higher digits. *)
Theorem mmr_peaks_are_digits : forall H leaves i,
  let n := length leaves in let peaks := fold_left (mmr_append H) leaves [] in
  (Nat.testbit n i = true ->
     nth_error peaks i = Some (Some (perfect H i (firstn (2 ^ i) (skipn (n / 2 ^ S i * 2 ^ S i) leaves))))) /\
  (Nat.testbit n i = false -> i < length peaks -> nth_error peaks i = Some None) /\
  (0 < n -> length peaks = S (Nat.log2 n)) /\ (n = 0 -> peaks = []).
Proof. exact mmr_peaks. Qed.
Theorem mmr_recursive_same : forall H peaks leaf, mmr_append_recursive H peaks leaf 0 = mmr_append H peaks leaf.
Proof. exact append_recursive_same. Qed.
(** The super-peak is what it should be, and nothing else is. *)
Theorem super_peak_is : forall K P r, peaked K P r <-> r = super_peak K P.
Proof. exact super_peak_peaked. Qed.
Example super_peak_case : super_peak toyH [Some (repeat 1%N 32); None; Some (repeat 2%N 32); Some (repeat 3%N 32)] =
  toyH (peak_tag ++ toyH (peak_tag ++ repeat 1%N 32 ++ repeat 2%N 32) ++ repeat 3%N 32).
Proof. vm_compute. reflexivity. Qed.
Print Assumptions super_peak_is.
(** The super-peak commits to the sequence of occupied peaks, *)
Theorem super_peak_commits : forall K, (forall x, length (K x) = 32) -> forall P Q p ps q qs,
  somes P = p :: ps -> somes Q = q :: qs -> length ps = length qs ->
  Forall (fun d => length d = 32) (p :: ps) -> Forall (fun d => length d = 32) (q :: qs) ->
  super_peak K P = super_peak K Q ->
  somes P = somes Q \/ exists s t, In s (peak_hashes K p ps) /\ In t (peak_hashes K q qs) /\ collision K s t.
Proof. exact super_peak_binding. Qed.
(** but not to their slots: equality of ranges (defined as equality of super-peaks) identifies ranges over different
    numbers of leaves, whatever the hash (finding). *)
Theorem mmr_eq_refuted : exists P Q : list (option bytes), P <> Q /\ length P <> length Q /\ forall K, mmr_eq K P Q.
Proof. exists [Some [1%N]], [None; Some [1%N]]. repeat split; discriminate. Qed.
Example mmr_ex : let leaves := map (fun k => repeat k 32) [1; 2; 3; 4; 5; 6]%N in
  let P := fold_left (mmr_append toyH) leaves [] in
  map (fun o => match o with Some _ => true | None => false end) P = [false; true; true] /\
  nth_error P 1 = Some (Some (toyH (repeat 5%N 32 ++ repeat 6%N 32))) /\ length (somes P) = 2.
Proof. vm_compute. auto. Qed.
Print Assumptions mmr_peaks_are_digits.
Print Assumptions mmr_recursive_same.
Print Assumptions super_peak_commits.
Print Assumptions mmr_eq_refuted.
