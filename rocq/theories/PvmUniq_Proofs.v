(** The specification of the arithmetic instructions determines their result. *)
From Coq Require Import Lia ZArith ZifyBool.
From Verif Require Import Base Base_Proofs PvmMem_Model PvmProg_Model PvmStep_Model PvmStep_Spec PvmAlu_Proofs.
Open Scope N_scope.

Lemma bits_ext n x y : x < 2 ^ n -> y < 2 ^ n -> (forall i, i < n -> N.testbit x i = N.testbit y i) -> x = y.
Proof.
  intros Hx Hy H. apply N.bits_inj. intros i. destruct (N.lt_ge_cases i n) as [Hi|Hi]; [now apply H|].
  assert (Z : forall z, z < 2 ^ n -> N.testbit z i = false).
  { intros z Hz. rewrite <- (N.mod_small z (2 ^ n)) by exact Hz. apply N.mod_pow2_bits_high. exact Hi. }
  rewrite !Z by assumption. reflexivity.
Qed.
Lemma bits64_uniq f r r' : bits64 f r -> bits64 f r' -> r = r'.
Proof. intros [H1 H2] [H1' H2']. apply (bits_ext 64); auto. intros i Hi. now rewrite H2, H2'. Qed.
Lemma turned_uniq w x k y y' : turned w x k y -> turned w x k y' -> y = y'.
Proof. intros [H1 H2] [H1' H2']. apply (bits_ext w); auto. intros i Hi. now rewrite H2, H2'. Qed.
(** Turning by [k] places can be undone. *)
Lemma turned_inj w x x' k y : 0 < w -> x < 2 ^ w -> x' < 2 ^ w -> turned w x k y -> turned w x' k y -> x = x'.
Proof.
  intros Hw Hx Hx' [_ H] [_ H']. apply (bits_ext w); auto. intros i Hi.
  set (j := (i + (w - k mod w)) mod w). assert (Hj : j < w) by (apply N.mod_upper_bound; lia).
  assert (E : (j + k) mod w = i).
  { unfold j. rewrite <- N.add_mod_idemp_r, N.add_mod_idemp_l by lia.
    replace (i + (w - k mod w) + k mod w) with (i + 1 * w) by (pose proof (N.mod_upper_bound k w); lia). rewrite N.mod_add by lia. now apply N.mod_small. }
  rewrite <- E at 1 2. rewrite <- H, <- H' by exact Hj. reflexivity.
Qed.
Lemma top_zeros_uniq w x r r' : top_zeros w x r -> top_zeros w x r' -> r = r'.
Proof.
  intros (A & B & C) (A' & B' & C'). destruct (N.lt_trichotomy r r') as [L|[L|L]]; [|exact L|].
  - assert (N.testbit x (w - r - 1) = false) by (apply B'; lia). rewrite C in H by lia. discriminate.
  - assert (N.testbit x (w - r' - 1) = false) by (apply B; lia). rewrite C' in H by lia. discriminate.
Qed.
Lemma low_zeros_uniq w x r r' : low_zeros w x r -> low_zeros w x r' -> r = r'.
Proof.
  intros (A & B & C) (A' & B' & C'). destruct (N.lt_trichotomy r r') as [L|[L|L]]; [|exact L|].
  - assert (N.testbit x r = false) by (apply B'; lia). rewrite C in H by lia. discriminate.
  - assert (N.testbit x r' = false) by (apply B; lia). rewrite C' in H by lia. discriminate.
Qed.
Lemma byte_at_bit x i : N.testbit x i = N.testbit (byte_at (i / 8) x) (i mod 8).
Proof.
  unfold byte_at. pose proof (N.mod_upper_bound i 8). change 256 with (2 ^ 8). rewrite N.mod_pow2_bits_low by lia. rewrite N.div_pow2_bits. f_equal.
  pose proof (N.div_mod i 8). lia.
Qed.
Lemma bytes_uniq x y : x < 2 ^ 64 -> y < 2 ^ 64 -> (forall i, i < 8 -> byte_at i x = byte_at i y) -> x = y.
Proof.
  intros Hx Hy H. apply (bits_ext 64); auto. intros i Hi. rewrite (byte_at_bit x), (byte_at_bit y), H; [reflexivity|]. apply N.div_lt_upper_bound; lia.
Qed.
Theorem meaning_uniq op a b d r r' : meaning op a b d r -> meaning op a b d r' -> r = r'.
Proof.
  intros M M'. destruct op; cbn [meaning] in M, M'; try contradiction;
    repeat match type of M with context [if ?c then _ else _] => destruct c end;
    try congruence; try (now apply (word_uniq _ r r') in M); try (eapply bits64_uniq; eassumption); try (eapply turned_uniq; eassumption);
    try (eapply top_zeros_uniq; eassumption); try (eapply low_zeros_uniq; eassumption); try (unfold truth, popcount in M, M'; congruence).
  all: first
    [ destruct M as (y & T & W), M' as (y' & T' & W'); assert (y = y') as -> by (eapply turned_uniq; eassumption); eapply word_uniq; eassumption
    | destruct M as (y & L & T & W), M' as (y' & L' & T' & W'); assert (y = y') as -> by (eapply (turned_inj 32); eauto; reflexivity); eapply word_uniq; eassumption
    | destruct M as [L T], M' as [L' T']; eapply (turned_inj 64); eauto; reflexivity
    | destruct M as [H1 H2], M' as [H1' H2']; apply bytes_uniq; auto; intros i Hi; now rewrite H2, H2' ].
Qed.
