(** C97: a node handles every slot once, at its beginning. *)
From Verif Require Import Base Clock_Model Clock_Spec Clock_Proofs.
Open Scope N_scope.

(** The wait before the first tick ends exactly at the end of the slot, if both readings of the clock fall into that slot. *)
Theorem boundary_exact_partial : forall ms ms' slot, slot_at ms slot -> slot_at ms' slot -> slot < 2 ^ 32 ->
  exists m, until_boundary ms (ms' / 1000) = Some m /\ 0 < m <= 6000 /\ ms + m = 1735732800000 + (slot + 1) * 6000.
Proof.
  intros ms ms' slot A A' S. unfold until_boundary, millis_since_era. rewrite (timeslot_slot_at _ _ A'). rewrite N.mod_small by exact S. destruct A as [A B]. change (ce * 1000) with 1735732800000.
  assert (Z : (ms <? 1735732800000) = false) by (apply N.ltb_ge; lia). rewrite Z. unfold checked_sub, slot_secs. replace (slot * 6 * 1000) with (slot * 6000) by lia. change (6 * 1000) with 6000.
  assert (Z1 : (slot * 6000 <=? ms - 1735732800000) = true) by (apply N.leb_le; lia). rewrite Z1.
  assert (Z2 : (ms - 1735732800000 - slot * 6000 <=? 6000) = true) by (apply N.leb_le; lia). rewrite Z2. eexists. split; [reflexivity|]. split; lia.
Qed.
Print Assumptions boundary_exact_partial.

(** Every later slot is handled once, in order, when both first readings fall into one slot and each tick is noticed less than a slot after its deadline (counting how late the
    interval was made, at [i]); the clock runs evenly. *)
Theorem every_slot_once_partial : forall ms ms' slot i m ws, slot_at ms slot -> slot_at ms' slot -> slot + N.of_nat (List.length ws) < 2 ^ 32 -> ms <= i ->
  until_boundary ms (ms' / 1000) = Some m ->
  (forall k w, nth_error ws k = Some w -> deadline i m k <= w < deadline ms m k + 6000) ->
  schedule ms (ms' / 1000) ws = map (fun k => Some (slot + 1 + N.of_nat k)) (seq 0 (List.length ws)).
Proof.
  intros ms ms' slot i m ws A A' S I M W. unfold schedule. rewrite M. destruct (boundary_exact_partial ms ms' slot A A' ltac:(lia)) as [m' [M' [_ E]]]. rewrite M in M'. inversion M'; subst m'.
  assert (G : forall k w, nth_error ws k = Some w -> tick w = Some (slot + 1 + N.of_nat k)).
  { intros k w N. specialize (W k w N). unfold deadline, slot_secs in W. unfold tick. assert (K : (k < List.length ws)%nat) by (apply nth_error_Some; congruence).
    rewrite (timeslot_slot_at w (slot + 1 + N.of_nat k)); [|unfold slot_at; lia]. rewrite N.mod_small by lia. reflexivity. }
  clear - G. revert G. generalize (slot + 1) as b. clear slot. induction ws as [|w ws IH]; intros b G; [reflexivity|]. cbn [map List.length seq]. f_equal; [apply (G 0%nat w); reflexivity|].
  rewrite (IH (b + 1)); [rewrite <- seq_shift, map_map; apply map_ext; intro k; f_equal; lia|]. intros k x N. rewrite (G (S k) x N). f_equal. lia.
Qed.
Print Assumptions every_slot_once_partial.
Example ticks_case : slot_at 1735732807123 1 /\ until_boundary 1735732807123 1735732807 = Some 4877 /\
  schedule 1735732807123 1735732807 [1735732812001; 1735732818000; 1735732829999] = [Some 2; Some 3; Some 4].
Proof. split; [split; vm_compute; congruence|split; vm_compute; reflexivity]. Qed.

(** The two readings of the clock may fall into two slots: then there is no boundary to wait for, and the node never handles a slot. *)
Theorem boundary_crossed_refuted : exists ms ms', ms < ms' /\ slot_at ms 1 /\ slot_at ms' 2 /\ until_boundary ms (ms' / 1000) = None /\ forall ws, schedule ms (ms' / 1000) ws = [].
Proof. exists 1735732811999, 1735732812000. split; [reflexivity|]. split; [split; vm_compute; congruence|]. split; [split; vm_compute; congruence|]. split; [reflexivity|]. intro ws. reflexivity. Qed.
Print Assumptions boundary_crossed_refuted.
(** A tick noticed a slot late is not given up: its slot is skipped, and the next slot is handled twice. *)
Theorem late_tick_refuted : exists ms m ws, slot_at ms 1 /\ until_boundary ms (ms / 1000) = Some m /\ List.length ws = 3%nat /\
  (forall k w, nth_error ws k = Some w -> deadline ms m k <= w < deadline ms m k + 6002) /\ schedule ms (ms / 1000) ws = [Some 3; Some 3; Some 4].
Proof.
  exists 1735732807123, 4877, [1735732818001; 1735732818001; 1735732824001]. split; [split; vm_compute; congruence|]. split; [reflexivity|]. split; [reflexivity|]. split; [|reflexivity].
  intros [|[|[|k]]] w N; cbn in N; try (destruct k; discriminate); inversion N; subst w; split; vm_compute; congruence.
Qed.
Print Assumptions late_tick_refuted.
(** A clock that is set back by a millisecond after the start makes the node handle the slot before, again and again. *)
Theorem clock_set_back_refuted : exists ms m ws, slot_at ms 1 /\ until_boundary ms (ms / 1000) = Some m /\ (forall k w, nth_error ws k = Some w -> w + 1 = deadline ms m k) /\ schedule ms (ms / 1000) ws = [Some 1; Some 2].
Proof.
  exists 1735732807123, 4877, [1735732811999; 1735732817999]. split; [split; vm_compute; congruence|]. split; [reflexivity|]. split; [|reflexivity].
  intros [|[|k]] w N; cbn in N; try (destruct k; discriminate); inversion N; reflexivity.
Qed.
Print Assumptions clock_set_back_refuted.
(** After 2^32 slots the number starts again at 0, and there is no next boundary. *)
Theorem slot_wraps_refuted : exists ms, slot_at ms (2 ^ 32) /\ timeslot_now (ms / 1000) = Some 0 /\ until_boundary ms (ms / 1000) = None.
Proof. exists (1735732800000 + 2 ^ 32 * 6000). split; [split; vm_compute; congruence|]. split; reflexivity. Qed.
Print Assumptions slot_wraps_refuted.
