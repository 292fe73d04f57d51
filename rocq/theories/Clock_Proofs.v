(** Lemmas for Clock_Props.v. *)
From Verif Require Import Base Clock_Model Clock_Spec.
Open Scope N_scope.

Lemma slot_at_unique : forall ms a b, slot_at ms a -> slot_at ms b -> a = b.
Proof. unfold slot_at. intros ms a b A B. assert (a < b + 1) by lia. assert (b < a + 1) by lia. lia. Qed.
Lemma timeslot_slot_at : forall ms slot, slot_at ms slot -> timeslot_now (ms / 1000) = Some (slot mod 2 ^ 32).
Proof.
  intros ms slot [A B]. unfold timeslot_now, seconds_since_era, ce, slot_secs.
  assert (L : 1735732800 + slot * 6 <= ms / 1000) by (apply N.div_le_lower_bound; lia). assert (U : ms / 1000 < 1735732800 + (slot + 1) * 6) by (apply N.div_lt_upper_bound; lia).
  set (q := ms / 1000) in *. assert (Z : (q <? 1735732800) = false) by (apply N.ltb_ge; lia). rewrite Z. do 2 f_equal. symmetry. apply (N.div_unique _ _ _ (q - 1735732800 - slot * 6)); lia.
Qed.
