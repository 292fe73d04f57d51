(** C12, C13: the Fisher-Yates shuffle and the guarantor rotation. [H] is any hash function. *)
From Verif Require Import Base Shuffle_Model Shuffle_Spec Shuffle_Proofs.
From Coq Require Import Permutation.

(** * C12 *)
(** The in-place loop computes the Graypaper's recursion, which has one result. *)
Theorem shuffle_is_fisher_yates : forall (T : Type) (dflt : T) elems randoms, length elems <= length randoms ->
  forall out, fisher_yates elems randoms out <-> out = shuffle dflt elems randoms.
Proof.
  intros T dflt elems randoms Hl out. pose proof (shuffle_is_fy dflt elems randoms Hl) as F. split.
  - intros F'. eapply fy_fun; eauto.
  - intros ->. exact F.
Qed.
Theorem shuffle_is_permutation : forall (T : Type) (dflt : T) elems randoms, length elems <= length randoms ->
  Permutation (shuffle dflt elems randoms) elems.
Proof. exact (fun T => @shuffle_perm T). Qed.
Theorem shuffle_with_hash_is_permutation : forall H elems entropy,
  Permutation (shuffle_with_hash H elems entropy) elems.
Proof. exact shuffle_with_hash_perm. Qed.
(** The numbers that decide are drawn from the seed as the Graypaper says, *)
Lemma le_four : forall (h : bytes) n, 32 <= length h -> n + 4 <= 32 -> le_val (firstn 4 (skipn n h)) = (nth n h 0 + 256 * nth (n + 1) h 0 + 65536 * nth (n + 2) h 0 + 16777216 * nth (n + 3) h 0)%N.
Proof.
  intros h n L B. assert (S : forall k, nth (n + k) h 0%N = nth k (skipn n h) 0%N).
  { intro k. rewrite <- (firstn_skipn n h) at 1. rewrite app_nth2; rewrite firstn_length_le by lia; [f_equal; lia|lia]. }
  rewrite <- (Nat.add_0_r n) at 2. rewrite !S. assert (K : 4 <= length (skipn n h)) by (rewrite skipn_length; lia).
  destruct (skipn n h) as [|a [|b [|c [|d r]]]]; cbn in K; try lia. cbn [firstn le_val nth]. lia.
Qed.
Lemma le_bytes_four : forall b, (b < 2 ^ 32)%N -> le_bytes 4 b = [b mod 256; b / 256 mod 256; b / 65536 mod 256; b / 16777216 mod 256]%N.
Proof. intros b B. cbn [le_bytes]. rewrite !N.div_div by lia. reflexivity. Qed.
Theorem randoms_drawn : forall H seed n, (forall x, length (H x) = 32) -> (N.of_nat n < 2 ^ 32)%N ->
  length (hash_to_randoms H seed n) = n /\ drawn H seed (hash_to_randoms H seed n).
Proof.
  intros H seed n L B. unfold hash_to_randoms. split; [rewrite map_length, seq_length; reflexivity|]. intros block j x J E. cbv zeta.
  assert (K : 8 * block + j < n). { rewrite <- (seq_length n 0), <- (map_length (random_at H seed)). apply nth_error_Some. congruence. }
  rewrite nth_error_map, (nth_error_nth' _ 0), seq_nth in E by (rewrite ?seq_length; lia). rewrite Nat.add_0_l in E.
  assert (X : random_at H seed (8 * block + j) = x) by (cbn [option_map] in E; congruence). rewrite <- X. clear E X. unfold random_at. cbv zeta.
  assert (Q : (8 * block + j) / 8 = block) by (symmetry; apply (Nat.div_unique _ 8 block j); lia). rewrite Q.
  assert (M : (4 * (8 * block + j)) mod 32 = 4 * j) by (symmetry; apply (Nat.mod_unique _ 32 block (4 * j)); lia). rewrite M.
  rewrite le_bytes_four by lia. apply le_four; [rewrite L; lia|lia].
Qed.
(** and the assignment of an epoch's entropy at a slot is the Graypaper's: validators to cores in proportion, shuffled with those numbers, moved on by one core per rotation period. *)
Theorem rotation_by_entropy : forall H V C E R entropy slot, (forall x, length (H x) = 32) -> (N.of_nat V < 2 ^ 32)%N -> 0 < V ->
  exists rs out, length rs = V /\ drawn H entropy rs /\ fisher_yates (map (fun v => C * v / V) (seq 0 V)) rs out /\
    permute_validator_indices H V C E R entropy slot = map (fun core => (core + N.to_nat (slot mod E / R)) mod C) out.
Proof.
  intros H V C E R entropy slot L B P. destruct (randoms_drawn H entropy V L B) as (L1 & D).
  exists (hash_to_randoms H entropy V), (shuffle_with_hash H (map (fun v => C * v / V) (seq 0 V)) entropy). split; [exact L1|]. split; [exact D|]. split; [|reflexivity].
  unfold shuffle_with_hash. rewrite map_length, seq_length. apply (shuffle_is_fisher_yates nat 0); [rewrite L1, map_length, seq_length; lia|reflexivity].
Qed.
(** Positions are chosen by the randoms only: relabelling the elements commutes with the shuffle. *)
Theorem shuffle_value_independent : forall (A B : Type) (f : A -> B) (dflt : A) elems randoms,
  shuffle (f dflt) (map f elems) randoms = map f (shuffle dflt elems randoms).
Proof. exact shuffle_map. Qed.
(** Every permutation is the result for some 32-bit randoms, *)
Theorem shuffle_reaches_every_permutation : forall (T : Type) (dflt : T) elems out, Permutation out elems ->
  (N.of_nat (length elems) <= 2 ^ 32)%N ->
  exists randoms, length randoms = length elems /\ Forall (fun r => r < 2 ^ 32)%N randoms /\ shuffle dflt elems randoms = out.
Proof.
  intros T dflt elems out P Hl. destruct (fy_reach out elems P Hl) as (rs & L & Fb & F). exists rs. repeat split; auto.
  symmetry. eapply shuffle_is_fisher_yates; [lia|exact F].
Qed.
(** by exactly one sequence of residues. *)
Theorem shuffle_residues_unique : forall (T : Type) (dflt : T) elems rs1 rs2, NoDup elems ->
  length rs1 = length elems -> length rs2 = length elems -> shuffle dflt elems rs1 = shuffle dflt elems rs2 ->
  forall i, i < length elems ->
  (nth i rs1 0 mod N.of_nat (length elems - i) = nth i rs2 0 mod N.of_nat (length elems - i))%N.
Proof.
  intros T dflt elems rs1 rs2 ND L1 L2 E i Hi.
  eapply (fy_unique elems rs1 (shuffle dflt elems rs1)); auto.
  - apply shuffle_is_fy. lia.
  - rewrite E. apply shuffle_is_fy. lia.
Qed.

(** * C13 *)
(** With V = C * k validators: one core in range for each validator, k validators for each core, *)
Theorem rotation_balanced : forall H C k E R entropy slot, 0 < C -> 0 < k ->
  let assignment := permute_validator_indices H (C * k) C E R entropy slot in
  length assignment = C * k /\ Forall (fun core => core < C) assignment /\
  (forall core, core < C -> count_occ Nat.eq_dec assignment core = k).
Proof. exact rot_spec. Qed.
(** and the assignment at any slot is the one at its epoch's first slot, moved on by one core per rotation period. *)
Theorem rotation_is_shift_of_epoch_start : forall H V C E R entropy slot, 0 < C -> (0 < E)%N -> (0 < R)%N ->
  permute_validator_indices H V C E R entropy slot =
  map (fun core => (core + N.to_nat (slot mod E / R)) mod C)
      (permute_validator_indices H V C E R entropy (E * (slot / E))%N).
Proof. exact rot_is_rotation. Qed.
(** The previous assignment is the one that the same function gave one rotation earlier. *)
Theorem previous_rotation : forall H V C E R entropy2 entropy3 slot, (0 < E)%N -> (R <= E)%N -> (R <= slot)%N ->
  previous_core_indices H V C E R entropy2 entropy3 slot =
    current_core_indices H V C E R (if (slot mod E <? R)%N then entropy3 else entropy2) (slot - R)%N.
Proof. exact prev_rot. Qed.

Example shuffle_case : shuffle 0 [10; 20; 30; 40; 50] [7; 1; 5; 0; 9]%N = [30; 20; 50; 10; 40].
Proof. reflexivity. Qed.
Example rotation_case :
  permute_validator_indices (fun x => x ++ repeat 3%N 32) (2 * 3) 2 12 4 (map N.of_nat (seq 5 32)) 9 = [1; 0; 0; 1; 1; 0].
Proof. reflexivity. Qed.

Example drawn_case : let H := fun x : bytes => map (fun i => (N.of_nat i + nth 32 x 0 * 7)%N) (seq 0 32) in
  (forall x, length (H x) = 32) /\ map (fun i => nth i (hash_to_randoms H (repeat 1%N 32) 12) 0%N) [0; 1; 7; 8; 9] = [50462976; 117835012; 522067228; 168364039; 235736075]%N.
Proof. cbn zeta. split; [intro x; rewrite map_length, seq_length; reflexivity|vm_compute; reflexivity]. Qed.

Print Assumptions randoms_drawn.
Print Assumptions rotation_by_entropy.
Print Assumptions shuffle_is_fisher_yates.
Print Assumptions shuffle_is_permutation.
Print Assumptions shuffle_with_hash_is_permutation.
Print Assumptions shuffle_value_independent.
Print Assumptions shuffle_reaches_every_permutation.
Print Assumptions shuffle_residues_unique.
Print Assumptions rotation_balanced.
Print Assumptions rotation_is_shift_of_epoch_start.
Print Assumptions previous_rotation.
