(** The instruction results of the model meet [meaning]. *)
From Verif Require Import Base Base_Proofs PvmMem_Model PvmProg_Model PvmStep_Model PvmStep_Spec.
From Coq Require Import Lia ZArith Znumtheory ZifyBool.
Open Scope Z_scope.

Definition P32 : Z := 4294967296.
Definition P64 : Z := 18446744073709551616.
Lemma p32 : 2 ^ 32 = 4294967296. Proof. reflexivity. Qed.
Lemma p31 : 2 ^ 31 = 2147483648. Proof. reflexivity. Qed.
Lemma p64 : 2 ^ 64 = 18446744073709551616. Proof. reflexivity. Qed.
Lemma p63 : 2 ^ 63 = 9223372036854775808. Proof. reflexivity. Qed.
Lemma n32 : (2 ^ 32 = 4294967296)%N. Proof. reflexivity. Qed.
Lemma n31 : (2 ^ 31 = 2147483648)%N. Proof. reflexivity. Qed.
Lemma n64 : (2 ^ 64 = 18446744073709551616)%N. Proof. reflexivity. Qed.
Lemma n63 : (2 ^ 63 = 9223372036854775808)%N. Proof. reflexivity. Qed.
Ltac pows := rewrite ?p32, ?p31, ?p64, ?p63, ?n32, ?n31, ?n64, ?n63 in *.

Lemma sgn32 z : sgn 32 z = (z + 2 ^ 31) mod 2 ^ 32 - 2 ^ 31. Proof. reflexivity. Qed.
Lemma sgn64 z : sgn 64 z = (z + 2 ^ 63) mod 2 ^ 64 - 2 ^ 63. Proof. reflexivity. Qed.
Lemma sgn32_range z : - 2 ^ 31 <= sgn 32 z < 2 ^ 31.
Proof. rewrite sgn32. pose proof (Z.mod_pos_bound (z + 2 ^ 31) (2 ^ 32) eq_refl). pows. lia. Qed.
Lemma sgn64_range z : - 2 ^ 63 <= sgn 64 z < 2 ^ 63.
Proof. rewrite sgn64. pose proof (Z.mod_pos_bound (z + 2 ^ 63) (2 ^ 64) eq_refl). pows. lia. Qed.
Lemma sgn_mod k z w : 0 < 2 ^ k -> z mod 2 ^ k = w mod 2 ^ k -> sgn k z = sgn k w.
Proof. intros Hk H. unfold sgn. f_equal. rewrite <- (Z.add_mod_idemp_l z), <- (Z.add_mod_idemp_l w) by lia. now rewrite H. Qed.
Lemma sgn_cong k z : 0 < 2 ^ k -> sgn k z mod 2 ^ k = z mod 2 ^ k.
Proof. intro Hk. unfold sgn. rewrite Zminus_mod_idemp_l. f_equal. lia. Qed.
Lemma sgn64_word z r : word (sgn 64 z) r <-> word z r.
Proof. unfold word. rewrite sgn_cong by reflexivity. tauto. Qed.
Lemma sgn32_small z : - 2 ^ 31 <= z < 2 ^ 31 -> sgn 32 z = z.
Proof. intro. rewrite sgn32. rewrite Z.mod_small; pows; lia. Qed.
Lemma sgn64_small z : - 2 ^ 63 <= z < 2 ^ 63 -> sgn 64 z = z.
Proof. intro. rewrite sgn64. rewrite Z.mod_small; pows; lia. Qed.

Lemma zof_lo32 a : Z.of_N (lo32 a) = Z.of_N a mod 2 ^ 32.
Proof. unfold lo32. rewrite N2Z.inj_mod. reflexivity. Qed.
Lemma lo32_lt a : (lo32 a < 2 ^ 32)%N. Proof. apply N.mod_upper_bound. discriminate. Qed.
Lemma zof_u64 a : Z.of_N (u64 a) = Z.of_N a mod 2 ^ 64.
Proof. unfold u64. rewrite N2Z.inj_mod. reflexivity. Qed.
Lemma u64_lt a : (u64 a < 2 ^ 64)%N. Proof. apply N.mod_upper_bound. discriminate. Qed.
Lemma zof_u64_of z : Z.of_N (u64_of z) = z mod 2 ^ 64.
Proof. unfold u64_of. rewrite Z2N.id; [reflexivity|]. apply Z.mod_pos_bound. reflexivity. Qed.
Lemma word_u64_of z : word z (u64_of z). Proof. apply zof_u64_of. Qed.
Lemma word_small a : (a < 2 ^ 64)%N -> word (Z.of_N a) a.
Proof. intro. unfold word. rewrite Z.mod_small; [reflexivity|]. pows. lia. Qed.
Lemma word_lt z r : word z r -> (r < 2 ^ 64)%N.
Proof. unfold word. intro H. pose proof (Z.mod_pos_bound z (2 ^ 64) eq_refl). pows. lia. Qed.
Lemma word_uniq z r r' : word z r -> word z r' -> r = r'.
Proof. unfold word. lia. Qed.

Lemma mod_mod_64_32 z : z mod 2 ^ 64 mod 2 ^ 32 = z mod 2 ^ 32.
Proof. symmetry. apply Zmod_div_mod; [reflexivity | reflexivity | exists (2 ^ 32); reflexivity]. Qed.
Lemma i32_sgn a : (a < 2 ^ 32)%N -> i32_of a = sgn 32 (Z.of_N a).
Proof.
  intro H. unfold i32_of. rewrite sgn32.
  destruct (N.ltb_spec a (2 ^ 31)).
  - rewrite Z.mod_small; pows; lia.
  - rewrite <- (Z_mod_plus_full (Z.of_N a + 2 ^ 31) (-1)). rewrite Z.mod_small; pows; lia.
Qed.
Lemma i32_lo a : i32_of (lo32 a) = sgn 32 (Z.of_N a).
Proof. rewrite i32_sgn by apply lo32_lt. apply sgn_mod; [reflexivity|]. rewrite zof_lo32. apply Z.mod_mod. discriminate. Qed.
Lemma i64_sgn a : (a < 2 ^ 64)%N -> i64_of a = sgn 64 (Z.of_N a).
Proof.
  intro H. unfold i64_of. rewrite sgn64.
  destruct (N.ltb_spec a (2 ^ 63)).
  - rewrite Z.mod_small; pows; lia.
  - rewrite <- (Z_mod_plus_full (Z.of_N a + 2 ^ 63) (-1)). rewrite Z.mod_small; pows; lia.
Qed.
Lemma testbit_top k v : (v < 2 ^ (k + 1))%N -> N.testbit v k = (2 ^ k <=? v)%N.
Proof.
  intro H. rewrite N.add_1_r, N.pow_succ_r' in H.
  rewrite N.testbit_eqb. destruct (N.leb_spec (2 ^ k) v) as [L|L].
  - assert (v / 2 ^ k = 1)%N as ->; [|reflexivity].
    symmetry. apply (N.div_unique _ _ _ (v - 2 ^ k)); lia.
  - rewrite N.div_small by lia. reflexivity.
Qed.
Lemma sext_word v n : (0 < n <= 8)%N -> (v < 2 ^ (8 * n))%N -> word (sgn (8 * Z.of_N n) (Z.of_N v)) (sext v n).
Proof.
  intros Hn Hv. unfold sext. rewrite (proj2 (N.eqb_neq n 0)) by lia.
  rewrite testbit_top by (replace (8 * n - 1 + 1)%N with (8 * n)%N by lia; exact Hv).
  assert (E : (2 ^ (8 * n) = 2 * 2 ^ (8 * n - 1))%N) by (rewrite <- N.pow_succ_r'; f_equal; lia).
  assert (L : (2 ^ (8 * n) <= 2 ^ 64)%N) by (apply N.pow_le_mono_r; lia).
  assert (Ez : 2 ^ (8 * Z.of_N n - 1) = Z.of_N (2 ^ (8 * n - 1))) by (rewrite N2Z.inj_pow; f_equal; lia).
  assert (Ez2 : 2 ^ (8 * Z.of_N n) = Z.of_N (2 ^ (8 * n))) by (rewrite N2Z.inj_pow; f_equal; lia).
  unfold word, sgn. rewrite Ez, Ez2.
  generalize dependent (2 ^ (8 * n - 1))%N. intros h E Ez.
  generalize dependent (2 ^ (8 * n))%N. intros m Hv L Em Ez2.
  destruct (N.leb_spec h v) as [C|C]; rewrite zof_u64.
  - rewrite <- (Z_mod_plus_full (Z.of_N v + Z.of_N h) (-1)). rewrite (Z.mod_small (_ + -1 * _)) by lia.
    rewrite <- (Z_mod_plus_full (_ - _) 1). f_equal. pows. lia.
  - f_equal. rewrite Z.mod_small by lia. lia.
Qed.
Lemma sext4 v : (v < 2 ^ 32)%N -> word (sgn 32 (Z.of_N v)) (sext v 4).
Proof. intro. apply (sext_word v 4); [lia | exact H]. Qed.
Lemma sext4' v z : (v < 2 ^ 32)%N -> Z.of_N v mod 2 ^ 32 = z mod 2 ^ 32 -> word (sgn 32 z) (sext v 4).
Proof. intros H E. rewrite <- (sgn_mod 32 (Z.of_N v) z) by (reflexivity || exact E). now apply sext4. Qed.
Lemma sext_lo v z : Z.of_N v mod 2 ^ 32 = z mod 2 ^ 32 -> word (sgn 32 z) (sext (lo32 v) 4).
Proof. intro E. apply sext4'; [apply lo32_lt|]. rewrite zof_lo32, Z.mod_mod by discriminate. exact E. Qed.
Lemma sext8 v : (v < 2 ^ 64)%N -> word (Z.of_N v) (sext v 8).
Proof. intro H. apply sgn64_word. apply (sext_word v 8); [lia | exact H]. Qed.
Lemma to_signed_sgn v n : (0 < n <= 8)%N -> (v < 2 ^ (8 * n))%N -> to_signed v n = sgn (8 * Z.of_N n) (Z.of_N v).
Proof.
  intros Hn Hv. unfold to_signed, sgn.
  assert (E : (2 ^ (8 * n) = 2 * 2 ^ (8 * n - 1))%N) by (rewrite <- N.pow_succ_r'; f_equal; lia).
  assert (Ez : 2 ^ (8 * Z.of_N n - 1) = Z.of_N (2 ^ (8 * n - 1))) by (rewrite N2Z.inj_pow; f_equal; lia).
  assert (Ez2 : 2 ^ (8 * Z.of_N n) = Z.of_N (2 ^ (8 * n))) by (rewrite N2Z.inj_pow; f_equal; lia).
  rewrite Ez, Ez2. generalize dependent (2 ^ (8 * n - 1))%N. intros h E Ez.
  generalize dependent (2 ^ (8 * n))%N. intros m Hv Em Ez2.
  destruct (N.ltb_spec v h).
  - rewrite Z.mod_small by lia. lia.
  - rewrite <- (Z_mod_plus_full (Z.of_N v + Z.of_N h) (-1)). rewrite (Z.mod_small (_ + -1 * _)) by lia. lia.
Qed.

Lemma zof_wadd a b : Z.of_N (wadd a b) = (Z.of_N a + Z.of_N b) mod 2 ^ 64.
Proof. unfold wadd. now rewrite zof_u64, N2Z.inj_add. Qed.
Lemma zof_wmul a b : Z.of_N (wmul a b) = (Z.of_N a * Z.of_N b) mod 2 ^ 64.
Proof. unfold wmul. now rewrite zof_u64, N2Z.inj_mul. Qed.
Lemma zof_wsub a b : (b < 2 ^ 64)%N -> Z.of_N (wsub a b) = (Z.of_N a - Z.of_N b) mod 2 ^ 64.
Proof.
  intro H. unfold wsub. rewrite zof_u64, N2Z.inj_add, N2Z.inj_sub by lia.
  rewrite <- (Z_mod_plus_full (Z.of_N a - Z.of_N b) 1). f_equal. pows. lia.
Qed.
Lemma zof_shiftl a k : Z.of_N (N.shiftl a k) = Z.of_N a * 2 ^ Z.of_N k.
Proof. rewrite N.shiftl_mul_pow2, N2Z.inj_mul, N2Z.inj_pow. reflexivity. Qed.
Lemma zof_shiftr a k : Z.of_N (N.shiftr a k) = Z.of_N a / 2 ^ Z.of_N k.
Proof. rewrite N.shiftr_div_pow2, N2Z.inj_div, N2Z.inj_pow. reflexivity. Qed.
Lemma shiftr_le a k : (N.shiftr a k <= a)%N.
Proof. rewrite N.shiftr_div_pow2. apply N.div_le_upper_bound; [apply N.pow_nonzero; discriminate|]. pose proof (N.pow_nonzero 2 k). nia. Qed.
Lemma zof_mod_small a k : Z.of_N (a mod N.pos k) = Z.of_N a mod Z.pos k. Proof. rewrite N2Z.inj_mod. reflexivity. Qed.

Lemma as_i32_sgn z : as_i32 z = sgn 32 z. Proof. reflexivity. Qed.
Lemma as_i64_sgn z : as_i64 z = sgn 64 z. Proof. reflexivity. Qed.

(** *** Bits *)
Lemma testbit_lt x w i : (x < 2 ^ w)%N -> (w <= i)%N -> N.testbit x i = false.
Proof.
  intros H L. destruct (N.eq_dec x 0) as [->|Hx]; [apply N.bits_0|].
  apply N.bits_above_log2. apply (N.lt_le_trans _ w); [|exact L]. now apply N.log2_lt_pow2; [lia|].
Qed.
Lemma lt_of_bits x w : (forall i, (w <= i)%N -> N.testbit x i = false) -> (x < 2 ^ w)%N.
Proof.
  intro H. destruct (N.eq_dec x 0) as [->|Hx]; [apply N.neq_0_lt_0; apply N.pow_nonzero; discriminate|].
  apply N.log2_lt_pow2; [lia|]. destruct (N.lt_ge_cases (N.log2 x) w) as [L|L]; [exact L|].
  exfalso. specialize (H _ L). rewrite N.bit_log2 in H by exact Hx. discriminate.
Qed.
Lemma not64_bit x i : (i < 64)%N -> N.testbit (not64 x) i = negb (N.testbit x i).
Proof.
  intro H. unfold not64. rewrite N.lxor_spec. replace (2 ^ 64 - 1)%N with (N.ones 64) by reflexivity.
  rewrite N.ones_spec_low by exact H. destruct (N.testbit x i); reflexivity.
Qed.
Lemma not64_lt x : (x < 2 ^ 64)%N -> (not64 x < 2 ^ 64)%N.
Proof.
  intro H. apply lt_of_bits. intros i L. unfold not64. rewrite N.lxor_spec, (testbit_lt x 64) by assumption.
  replace (2 ^ 64 - 1)%N with (N.ones 64) by reflexivity. rewrite N.ones_spec_high by exact L. reflexivity.
Qed.
Lemma rotr_spec w x r : (0 < w)%N -> (x < 2 ^ w)%N -> turned w x r (rotr w x r).
Proof.
  intros Hw Hx. unfold rotr. set (k := (r mod w)%N). assert (Hk : (k < w)%N) by (apply N.mod_upper_bound; lia).
  split.
  - apply lt_of_bits. intros i Hi. rewrite N.lor_spec, N.shiftr_spec' , (testbit_lt x w) by (assumption || lia).
    rewrite N.mod_pow2_bits_high by exact Hi. reflexivity.
  - intros i Hi. rewrite N.lor_spec, N.shiftr_spec'. rewrite N.mod_pow2_bits_low by exact Hi.
    assert (E : ((i + r) mod w = (i + k) mod w)%N) by (unfold k; now rewrite N.add_mod_idemp_r by lia).
    rewrite E. destruct (N.lt_ge_cases (i + k) w) as [L|L].
    + rewrite (N.mod_small (i + k)) by exact L. rewrite N.shiftl_spec_low by lia. apply orb_false_r.
    + rewrite (testbit_lt x w (i + k)) by assumption. rewrite N.shiftl_spec_high' by lia. cbn [orb].
      f_equal. apply (N.mod_unique _ _ 1); lia.
Qed.
Lemma rotl_spec w x r : (0 < w)%N -> (x < 2 ^ w)%N -> (rotl w x r < 2 ^ w)%N /\ turned w (rotl w x r) r x.
Proof.
  intros Hw Hx. unfold rotl. set (k := (r mod w)%N). assert (Hk : (k < w)%N) by (apply N.mod_upper_bound; lia).
  assert (L : (N.lor (N.shiftl x k mod 2 ^ w) (N.shiftr x (w - k)) < 2 ^ w)%N).
  { apply lt_of_bits. intros i Hi. rewrite N.lor_spec, N.shiftr_spec', (testbit_lt x w (i + (w - k))) by (assumption || lia).
    rewrite N.mod_pow2_bits_high by exact Hi. reflexivity. }
  split; [exact L|]. split; [exact Hx|]. intros i Hi.
  assert (E : ((i + r) mod w = (i + k) mod w)%N) by (unfold k; now rewrite N.add_mod_idemp_r by lia).
  rewrite E, N.lor_spec, N.shiftr_spec'. destruct (N.lt_ge_cases (i + k) w) as [C|C].
  - rewrite (N.mod_small (i + k)) by exact C. rewrite N.mod_pow2_bits_low by exact C.
    rewrite N.shiftl_spec_high' by lia. rewrite (testbit_lt x w (i + k + (w - k))) by (assumption || lia).
    rewrite orb_false_r. f_equal. lia.
  - assert (Em : ((i + k) mod w = i + k - w)%N) by (symmetry; apply (N.mod_unique _ _ 1); lia).
    rewrite Em. rewrite N.mod_pow2_bits_low by lia. rewrite N.shiftl_spec_low by lia. cbn [orb]. f_equal. lia.
Qed.
Lemma turned_mod w x k k' y : (0 < w)%N -> (k mod w = k' mod w)%N -> turned w x k y -> turned w x k' y.
Proof.
  intros Hw E [L H]. split; [exact L|]. intros i Hi. rewrite H by exact Hi.
  f_equal. rewrite <- (N.add_mod_idemp_r i k), E, N.add_mod_idemp_r by lia. reflexivity.
Qed.
Lemma turned_low w x k y : (0 < w)%N -> turned w (x mod 2 ^ w) k y -> turned w x k y.
Proof.
  intros Hw [L H]. split; [exact L|]. intros i Hi. rewrite H by exact Hi.
  apply N.mod_pow2_bits_low. apply N.mod_upper_bound. lia.
Qed.
Lemma lo32_mod k w : (w = 32 \/ w = 64)%N -> (lo32 k mod w = k mod w)%N.
Proof.
  intro H. unfold lo32. destruct H as [-> | ->].
  - rewrite (N.div_mod k (2 ^ 32)) at 2 by discriminate. rewrite n32.
    replace (4294967296 * (k / 4294967296) + k mod 4294967296)%N with (k mod 4294967296 + (134217728 * (k / 4294967296)) * 32)%N by lia.
    rewrite N.mod_add by discriminate. reflexivity.
  - rewrite (N.div_mod k (2 ^ 32)) at 2 by discriminate. rewrite n32.
    replace (4294967296 * (k / 4294967296) + k mod 4294967296)%N with (k mod 4294967296 + (67108864 * (k / 4294967296)) * 64)%N by lia.
    rewrite N.mod_add by discriminate. reflexivity.
Qed.

(** *** Counting *)
Lemma filter_map_len {A B} (f : B -> bool) (g : A -> B) l : length (filter f (map g l)) = length (filter (fun x => f (g x)) l).
Proof. induction l as [|x l IH]; [reflexivity|]. cbn. destruct (f (g x)); cbn; now rewrite IH. Qed.
Lemma ones_spec p : forall w, (N.pos p < 2 ^ N.of_nat w)%N -> ones p = N.of_nat (length (filter (fun i => N.testbit (N.pos p) (N.of_nat i)) (seq 0 w))).
Proof.
  induction p as [p IH|p IH|]; intros w H.
  - destruct w as [|w]; [cbn in H; lia|]. rewrite Nat2N.inj_succ, N.pow_succ_r' in H.
    cbn [seq filter]. change (N.testbit (N.pos p~1) (N.of_nat 0)) with true. cbn [length ones].
    rewrite (IH w) by lia. rewrite <- seq_shift, filter_map_len. rewrite Nat2N.inj_succ. rewrite <- N.add_1_l. f_equal. f_equal. f_equal.
    apply filter_ext. intro i. rewrite Nat2N.inj_succ. change (N.pos p~1) with (2 * N.pos p + 1)%N. rewrite N.testbit_odd_succ by lia. reflexivity.
  - destruct w as [|w]; [cbn in H; lia|]. rewrite Nat2N.inj_succ, N.pow_succ_r' in H.
    cbn [seq filter]. change (N.testbit (N.pos p~0) (N.of_nat 0)) with false. cbn [length ones].
    rewrite (IH w) by lia. rewrite <- seq_shift, filter_map_len. f_equal. f_equal.
    apply filter_ext. intro i. rewrite Nat2N.inj_succ. change (N.pos p~0) with (2 * N.pos p)%N. rewrite N.testbit_even_succ by lia. reflexivity.
  - destruct w as [|w]; [cbn in H; lia|]. cbn [seq filter]. change (N.testbit 1 (N.of_nat 0)) with true. cbn [length ones].
    rewrite <- seq_shift, filter_map_len.
    assert (E : forall l, length (filter (fun x => N.testbit 1 (N.of_nat (S x))) l) = 0%nat); [|now rewrite E].
    intro l. induction l as [|x l IHl]; [reflexivity|]. cbn [filter].
    replace (N.testbit 1 (N.of_nat (S x))) with false; [exact IHl|].
    rewrite Nat2N.inj_succ. change 1%N with (2 * 0 + 1)%N. rewrite N.testbit_odd_succ by lia. symmetry. apply N.bits_0.
Qed.
Lemma count_ones_spec x w : (x < 2 ^ N.of_nat w)%N -> popcount w x (count_ones x).
Proof.
  intro H. unfold popcount, count_ones. destruct x as [|p].
  - assert (E : forall l, length (filter (fun x => N.testbit 0 (N.of_nat x)) l) = 0%nat); [|now rewrite E].
    intro l. induction l as [|x l IHl]; [reflexivity|]. cbn [filter]. rewrite N.bits_0. exact IHl.
  - now apply ones_spec.
Qed.
Lemma popcount_low w x r : popcount w (x mod 2 ^ N.of_nat w) r -> popcount w x r.
Proof.
  unfold popcount. intros ->. f_equal. f_equal. apply filter_ext_in. intros i Hi. apply in_seq in Hi. apply N.mod_pow2_bits_low. lia.
Qed.
Lemma leading_zeros_spec w x : (x < 2 ^ w)%N -> top_zeros w x (leading_zeros w x).
Proof.
  intro H. unfold top_zeros, leading_zeros. destruct (N.eq_dec x 0) as [->|Hx].
  - cbn [N.size]. split; [lia|]. split; [intros; apply N.bits_0 | lia].
  - assert (E : N.size x = N.succ (N.log2 x)) by (apply N.size_log2; exact Hx).
    assert (L : (N.log2 x < w)%N) by (apply N.log2_lt_pow2; [lia | exact H]).
    rewrite E. split; [lia|]. split.
    + intros i Hi Hj. apply N.bits_above_log2. lia.
    + intros _. replace (w - (w - N.succ (N.log2 x)) - 1)%N with (N.log2 x) by lia. now apply N.bit_log2.
Qed.
Lemma top_zeros_low w x r : top_zeros w (x mod 2 ^ w) r -> top_zeros w x r.
Proof.
  intros [A [B C]]. split; [exact A|]. split.
  - intros i Hi Hj. rewrite <- (N.mod_pow2_bits_low x w) by exact Hi. now apply B.
  - intro Hr. rewrite <- (N.mod_pow2_bits_low x w) by lia. now apply C.
Qed.
Lemma ctz_spec p : (forall i, (i < ctz p)%N -> N.testbit (N.pos p) i = false) /\ N.testbit (N.pos p) (ctz p) = true.
Proof.
  induction p as [p IH|p IH|]; cbn [ctz].
  - split; [lia | reflexivity].
  - destruct IH as [A B]. change (N.pos p~0) with (2 * N.pos p)%N. split.
    + intros i Hi. destruct (N.eq_dec i 0) as [->|Hz]; [apply N.testbit_even_0|].
      replace i with (N.succ (i - 1)) by lia. rewrite N.testbit_even_succ by lia. apply A. lia.
    + rewrite N.add_1_l, N.testbit_even_succ by lia. exact B.
  - split; [lia | reflexivity].
Qed.
Lemma trailing_zeros_spec w x : (x < 2 ^ w)%N -> low_zeros w x (trailing_zeros w x).
Proof.
  intro H. unfold low_zeros, trailing_zeros. destruct x as [|p].
  - split; [lia|]. split; [intros; apply N.bits_0 | lia].
  - destruct (ctz_spec p) as [A B].
    assert (L : (ctz p < w)%N).
    { destruct (N.lt_ge_cases (ctz p) w) as [L|L]; [exact L|]. rewrite (testbit_lt _ w) in B by assumption. discriminate. }
    split; [lia|]. split; [exact A | intros _; exact B].
Qed.
Lemma low_zeros_low w x r : low_zeros w (x mod 2 ^ w) r -> low_zeros w x r.
Proof.
  intros [A [B C]]. split; [exact A|]. split.
  - intros i Hi. rewrite <- (N.mod_pow2_bits_low x w) by lia. now apply B.
  - intro Hr. rewrite <- (N.mod_pow2_bits_low x w) by lia. now apply C.
Qed.

(** *** Byte reversal *)
Lemma byte_le_val l : forall i, (Forall (fun b => b < 256) l)%N -> (i < length l)%nat -> byte_at (N.of_nat i) (le_val l) = nth i l 0%N.
Proof.
  induction l as [|b l IH]; intros i F Hi; [cbn in Hi; lia|].
  inversion F as [|? ? Fb Fl]; subst. destruct i as [|i].
  - unfold byte_at. cbn [nth le_val]. change (2 ^ (8 * N.of_nat 0))%N with 1%N. rewrite N.div_1_r.
    replace (b + 256 * le_val l)%N with (b + le_val l * 256)%N by lia. rewrite N.mod_add by discriminate. now apply N.mod_small.
  - cbn [nth]. rewrite <- IH by (assumption || cbn in Hi; lia). unfold byte_at. cbn [le_val].
    rewrite Nat2N.inj_succ. replace (8 * N.succ (N.of_nat i))%N with (8 + 8 * N.of_nat i)%N by lia.
    rewrite N.pow_add_r. rewrite <- N.div_div by (try apply N.pow_nonzero; discriminate). f_equal. f_equal.
    change (2 ^ 8)%N with 256%N. symmetry. apply (N.div_unique _ _ _ b); lia.
Qed.
Lemma nth_le_bytes n : forall x i, (i < n)%nat -> nth i (le_bytes n x) 0%N = byte_at (N.of_nat i) x.
Proof.
  induction n as [|n IH]; intros x i Hi; [lia|]. cbn [le_bytes]. destruct i as [|i].
  - unfold byte_at. change (2 ^ (8 * N.of_nat 0))%N with 1%N. now rewrite N.div_1_r.
  - cbn [nth]. rewrite IH by lia. unfold byte_at. rewrite Nat2N.inj_succ.
    replace (8 * N.succ (N.of_nat i))%N with (8 + 8 * N.of_nat i)%N by lia.
    rewrite N.pow_add_r. rewrite <- N.div_div by (try apply N.pow_nonzero; discriminate). reflexivity.
Qed.
Lemma le_bytes_lt n : forall x, (Forall (fun b => b < 256) (le_bytes n x))%N.
Proof. induction n as [|n IH]; intro x; cbn; constructor; [apply N.mod_upper_bound; discriminate | apply IH]. Qed.
Lemma le_bytes_len n : forall x, length (le_bytes n x) = n.
Proof. induction n as [|n IH]; intro x; cbn; [reflexivity | now rewrite IH]. Qed.
Lemma le_val_lt l : (Forall (fun b => b < 256) l)%N -> (le_val l < 2 ^ (8 * N.of_nat (length l)))%N.
Proof.
  induction l as [|b l IH]; intro F; [reflexivity|]. inversion F as [|? ? Fb Fl]; subst.
  cbn [le_val length]. rewrite Nat2N.inj_succ. replace (8 * N.succ (N.of_nat (length l)))%N with (8 + 8 * N.of_nat (length l))%N by lia.
  rewrite N.pow_add_r. change (2 ^ 8)%N with 256%N. specialize (IH Fl). nia.
Qed.
Lemma reverse_spec a : (le_val (rev (le_bytes 8 a)) < 2 ^ 64)%N /\ forall i, (i < 8)%N -> byte_at i (le_val (rev (le_bytes 8 a))) = byte_at (7 - i) a.
Proof.
  assert (F : (Forall (fun b => b < 256) (rev (le_bytes 8 a)))%N) by (apply Forall_rev, le_bytes_lt).
  assert (L : length (rev (le_bytes 8 a)) = 8%nat) by (rewrite rev_length; apply le_bytes_len).
  split; [pose proof (le_val_lt _ F) as H; rewrite L in H; exact H|].
  intros i Hi. rewrite <- (N2Nat.id i) at 1. rewrite byte_le_val by (assumption || (rewrite L; lia)).
  rewrite rev_nth by (rewrite le_bytes_len; lia). rewrite le_bytes_len, nth_le_bytes by lia. f_equal. lia.
Qed.

(** *** Division *)
Lemma quot_range x y m : 0 < m -> - m <= x < m -> y <> 0 -> ~ (x = - m /\ y = -1) -> - m <= Z.quot x y < m.
Proof.
  intros Hm Hx Hy Hn. destruct (Z.eq_dec (Z.abs y) 1) as [E|E].
  - assert (y = 1 \/ y = -1) as [-> | ->] by lia.
    + rewrite Z.quot_1_r. exact Hx.
    + change (-1) with (Z.opp 1). rewrite Z.quot_opp_r, Z.quot_1_r by lia. lia.
  - assert (A : Z.abs (Z.quot x y) < m); [|lia].
    rewrite <- Z.quot_abs by exact Hy. rewrite Z.quot_div_nonneg by lia.
    apply Z.div_lt_upper_bound; nia.
Qed.
Lemma smod_rem wrap m x y : 0 < m ->
  (forall z, 0 <= z < m -> wrap z = z) -> wrap m = - m ->
  - m <= x < m -> - m <= y < m -> y <> 0 -> (x <> - m \/ Z.rem (- m) y = 0) -> smod wrap x y = Z.rem x y.
Proof.
  intros Hm W1 W2 Hx Hy Hy0 Hb. unfold smod. rewrite (proj2 (Z.eqb_neq y 0)) by exact Hy0. cbn zeta.
  assert (Ey : forall u, Z.rem u (wrap (Z.abs y)) = Z.rem u y).
  { intro u. destruct (Z.eq_dec y (- m)) as [->|].
    - replace (Z.abs (- m)) with m by lia. now rewrite W2.
    - rewrite W1 by lia. apply Z.rem_abs_r. exact Hy0. }
  rewrite Ey. destruct (Z.eq_dec x (- m)) as [->|Nx].
  - destruct Hb as [Hb|Hb]; [congruence|]. replace (Z.abs (- m)) with m by lia. rewrite W2, Hb. lia.
  - rewrite (W1 (Z.abs x)) by lia. destruct (Z.ltb_spec 0 x).
    + rewrite Z.abs_eq by lia. lia.
    + destruct (Z.eq_dec x 0) as [->|]; [rewrite Z.rem_0_l by exact Hy0; reflexivity|].
      rewrite Z.abs_neq by lia. rewrite Z.rem_opp_l by exact Hy0. lia.
Qed.

(** *** The families of results *)
Section Families.
  Context (a b d : N) (Ha : (a < 2 ^ 64)%N) (Hb : (b < 2 ^ 64)%N).
  Lemma f_add32 : word (sgn 32 (Z.of_N a + Z.of_N b)) (sext (lo32 (wadd a b)) 4).
  Proof. apply sext_lo. now rewrite zof_wadd, mod_mod_64_32. Qed.
  Lemma f_mul32 : word (sgn 32 (Z.of_N a * Z.of_N b)) (sext (lo32 (wmul a b)) 4).
  Proof. apply sext_lo. now rewrite zof_wmul, mod_mod_64_32. Qed.
  Lemma f_sub32' c : (c < 2 ^ 64)%N -> Z.of_N c mod 2 ^ 32 = Z.of_N b mod 2 ^ 32 -> word (sgn 32 (Z.of_N a - Z.of_N b)) (sext (lo32 (wsub (wadd a (2 ^ 32)) c)) 4).
  Proof.
    intros Hc E. apply sext_lo. rewrite zof_wsub by exact Hc. rewrite mod_mod_64_32, zof_wadd.
    rewrite <- Zminus_mod_idemp_l, mod_mod_64_32, Zminus_mod_idemp_l.
    replace (Z.of_N a + Z.of_N (2 ^ 32) - Z.of_N c) with (Z.of_N a - Z.of_N c + 1 * 2 ^ 32) by (pows; lia).
    rewrite Z_mod_plus_full. rewrite <- (Zminus_mod_idemp_r _ (Z.of_N c)), E. apply Zminus_mod_idemp_r.
  Qed.
  Lemma f_add64 : word (Z.of_N a + Z.of_N b) (wadd a b). Proof. apply zof_wadd. Qed.
  Lemma f_mul64 : word (Z.of_N a * Z.of_N b) (wmul a b). Proof. apply zof_wmul. Qed.
  Lemma f_sub64 : word (Z.of_N a - Z.of_N b) (wsub a b). Proof. now apply zof_wsub. Qed.
  Lemma f_shl32 : word (sgn 32 (Z.of_N a * 2 ^ (Z.of_N b mod 32))) (sext (lo32 (u64 (N.shiftl a (b mod 32)))) 4).
  Proof. apply sext_lo. now rewrite zof_u64, mod_mod_64_32, zof_shiftl, zof_mod_small. Qed.
  Lemma f_shr32 : word (sgn 32 (Z.of_N a mod 2 ^ 32 / 2 ^ (Z.of_N b mod 32))) (sext (N.shiftr (lo32 a) (b mod 32)) 4).
  Proof. apply sext4'; [eapply N.le_lt_trans; [apply shiftr_le | apply lo32_lt]|]. now rewrite zof_shiftr, zof_mod_small, zof_lo32. Qed.
  Lemma f_sar32 : word (sgn 32 (Z.of_N a) / 2 ^ (Z.of_N b mod 32)) (u64_of (Z.shiftr (i32_of (lo32 a)) (Z.of_N (b mod 32)))).
  Proof. rewrite i32_lo, Z.shiftr_div_pow2, zof_mod_small by lia. apply word_u64_of. Qed.
  Lemma f_shl64 : word (Z.of_N a * 2 ^ (Z.of_N b mod 64)) (u64 (N.shiftl a (b mod 64))).
  Proof. unfold word. now rewrite zof_u64, zof_shiftl, zof_mod_small. Qed.
  Lemma f_shl64x : word (Z.of_N a * 2 ^ (Z.of_N b mod 64)) (sext (u64 (N.shiftl a (b mod 64))) 8).
  Proof.
    pose proof (sext8 (u64 (N.shiftl a (b mod 64))) (u64_lt _)) as H. unfold word in *. rewrite H, zof_u64, Z.mod_mod by discriminate.
    now rewrite zof_shiftl, zof_mod_small.
  Qed.
  Lemma shr64_lt k : (N.shiftr a k < 2 ^ 64)%N. Proof. eapply N.le_lt_trans; [apply shiftr_le | exact Ha]. Qed.
  Lemma f_shr64 : word (Z.of_N a / 2 ^ (Z.of_N b mod 64)) (N.shiftr a (b mod 64)).
  Proof. pose proof (word_small _ (shr64_lt (b mod 64))) as H. unfold word in *. rewrite zof_shiftr, zof_mod_small in *. exact H. Qed.
  Lemma f_shr64x : word (Z.of_N a / 2 ^ (Z.of_N b mod 64)) (sext (N.shiftr a (b mod 64)) 8).
  Proof. pose proof (sext8 _ (shr64_lt (b mod 64))) as H. rewrite zof_shiftr, zof_mod_small in H. exact H. Qed.
  Lemma f_sar64 : word (sgn 64 (Z.of_N a) / 2 ^ (Z.of_N b mod 64)) (u64_of (Z.shiftr (i64_of a) (Z.of_N (b mod 64)))).
  Proof. rewrite i64_sgn, Z.shiftr_div_pow2, zof_mod_small by (assumption || lia). apply word_u64_of. Qed.
  Lemma f_rotr64 : turned 64 a b (rotr 64 a (lo32 b)).
  Proof. apply (turned_mod _ _ (lo32 b)); [lia | apply lo32_mod; now right |]. apply rotr_spec; [lia | exact Ha]. Qed.
  Lemma f_rotr32 : exists y, turned 32 a b y /\ word (sgn 32 (Z.of_N y)) (sext (rotr 32 (lo32 a) (lo32 b)) 4).
  Proof.
    assert (T : turned 32 (lo32 a) (lo32 b) (rotr 32 (lo32 a) (lo32 b))) by (apply rotr_spec; [lia | apply lo32_lt]).
    exists (rotr 32 (lo32 a) (lo32 b)). split.
    - apply turned_low; [lia|]. apply (turned_mod _ _ (lo32 b)); [lia | apply lo32_mod; now left | exact T].
    - apply sext4. apply T.
  Qed.
  Lemma f_rotl64 : (rotl 64 a (lo32 b) < 2 ^ 64)%N /\ turned 64 (rotl 64 a (lo32 b)) b a.
  Proof.
    destruct (rotl_spec 64 a (lo32 b)) as [L T]; [lia | exact Ha |]. split; [exact L|].
    apply (turned_mod _ _ (lo32 b)); [lia | apply lo32_mod; now right | exact T].
  Qed.
  Lemma f_rotl32 : exists y, (y < 2 ^ 32)%N /\ turned 32 y b (a mod 2 ^ 32) /\ word (sgn 32 (Z.of_N y)) (sext (rotl 32 (lo32 a) (lo32 b)) 4).
  Proof.
    destruct (rotl_spec 32 (lo32 a) (lo32 b)) as [L T]; [lia | apply lo32_lt |].
    exists (rotl 32 (lo32 a) (lo32 b)). split; [exact L|]. split; [|now apply sext4].
    apply (turned_mod _ _ (lo32 b)); [lia | apply lo32_mod; now left | exact T].
  Qed.
  Lemma bits_lt f r : (forall i, N.testbit r i = f i) -> (forall i, (64 <= i)%N -> f i = false) -> bits64 f r.
  Proof. intros E L. split; [apply lt_of_bits; intros i Hi; rewrite E; now apply L | intros i _; apply E]. Qed.
  Lemma hi_a i : (64 <= i)%N -> N.testbit a i = false. Proof. now apply testbit_lt. Qed.
  Lemma hi_b i : (64 <= i)%N -> N.testbit b i = false. Proof. now apply testbit_lt. Qed.
  Lemma f_and : bits64 (fun i => N.testbit a i && N.testbit b i) (N.land a b).
  Proof. apply bits_lt; intros i; [apply N.land_spec | intro L; now rewrite hi_a]. Qed.
  Lemma f_or : bits64 (fun i => N.testbit a i || N.testbit b i) (N.lor a b).
  Proof. apply bits_lt; intros i; [apply N.lor_spec | intro L; now rewrite hi_a, hi_b]. Qed.
  Lemma f_xor : bits64 (fun i => xorb (N.testbit a i) (N.testbit b i)) (N.lxor a b).
  Proof. apply bits_lt; intros i; [apply N.lxor_spec | intro L; now rewrite hi_a, hi_b]. Qed.
  Lemma f_andinv : bits64 (fun i => N.testbit a i && negb (N.testbit b i)) (N.land a (not64 b)).
  Proof.
    split; [apply lt_of_bits; intros i Hi; rewrite N.land_spec, hi_a by exact Hi; reflexivity|].
    intros i Hi. now rewrite N.land_spec, not64_bit.
  Qed.
  Lemma f_orinv : bits64 (fun i => N.testbit a i || negb (N.testbit b i)) (N.lor a (not64 b)).
  Proof.
    split; [apply lt_of_bits; intros i Hi; rewrite N.lor_spec, hi_a by exact Hi; apply (testbit_lt _ 64); [now apply not64_lt | exact Hi]|].
    intros i Hi. now rewrite N.lor_spec, not64_bit.
  Qed.
  Lemma f_xnor : bits64 (fun i => Bool.eqb (N.testbit a i) (N.testbit b i)) (not64 (N.lxor a b)).
  Proof.
    split.
    - apply not64_lt. apply lt_of_bits. intros i Hi. now rewrite N.lxor_spec, hi_a, hi_b.
    - intros i Hi. rewrite not64_bit, N.lxor_spec by exact Hi. now destruct (N.testbit a i), (N.testbit b i).
  Qed.
  Lemma f_ltu : truth (Z.of_N a <? Z.of_N b) (b2n (a <? b)%N).
  Proof. unfold truth, b2n. now replace (Z.of_N a <? Z.of_N b) with (a <? b)%N by lia. Qed.
  Lemma f_lts : truth (sgn 64 (Z.of_N a) <? sgn 64 (Z.of_N b)) (b2n (i64_of a <? i64_of b)).
  Proof. now rewrite !i64_sgn. Qed.
  Lemma f_divu32 : if (Z.of_N b mod 2 ^ 32 =? 0) then word (-1) (if (lo32 b =? 0)%N then 2 ^ 64 - 1 else sext (lo32 a / lo32 b) 4)%N
    else word (sgn 32 (Z.of_N a mod 2 ^ 32 / (Z.of_N b mod 2 ^ 32))) (if (lo32 b =? 0)%N then 2 ^ 64 - 1 else sext (lo32 a / lo32 b) 4)%N.
  Proof.
    rewrite <- !zof_lo32. pose proof (lo32_lt a) as La. generalize dependent (lo32 a). intros x La. generalize (lo32 b). intro y.
    destruct (N.eqb_spec y 0) as [->|N0]; [reflexivity|].
    rewrite (proj2 (Z.eqb_neq _ _)) by lia. rewrite <- N2Z.inj_div. apply sext4.
    apply (N.le_lt_trans _ x); [|exact La]. apply N.div_le_upper_bound; [exact N0|]. nia.
  Qed.
  Lemma f_remu32 : if (Z.of_N b mod 2 ^ 32 =? 0) then word (sgn 32 (Z.of_N a)) (if (lo32 b =? 0)%N then sext (lo32 a) 4 else sext (lo32 a mod lo32 b) 4)%N
    else word (sgn 32 (Z.of_N a mod 2 ^ 32 mod (Z.of_N b mod 2 ^ 32))) (if (lo32 b =? 0)%N then sext (lo32 a) 4 else sext (lo32 a mod lo32 b) 4)%N.
  Proof.
    rewrite (sgn_mod 32 (Z.of_N a) (Z.of_N (lo32 a))) by (reflexivity || (rewrite zof_lo32, Z.mod_mod; [reflexivity | discriminate])).
    rewrite <- !zof_lo32. pose proof (lo32_lt a) as La. generalize dependent (lo32 a). intros x La. generalize (lo32 b). intro y.
    destruct (N.eqb_spec y 0) as [->|N0]; [now apply sext4|].
    rewrite (proj2 (Z.eqb_neq _ _)) by lia. rewrite <- N2Z.inj_mod. apply sext4.
    apply (N.le_lt_trans _ x); [|exact La]. apply N.mod_le. exact N0.
  Qed.
  Lemma f_divs32 : let r := (let x := i32_of (lo32 a) in let y := i32_of (lo32 b) in
      if (y =? 0) then (2 ^ 64 - 1)%N else if (x =? - 2 ^ 31) && (y =? -1) then u64_of x else u64_of (Z.quot x y)) in
    if sgn 32 (Z.of_N b) =? 0 then word (-1) r else word (sgn 32 (Z.quot (sgn 32 (Z.of_N a)) (sgn 32 (Z.of_N b)))) r.
  Proof.
    cbn zeta. rewrite !i32_lo. pose proof (sgn32_range (Z.of_N a)) as Rx. generalize dependent (sgn 32 (Z.of_N a)). intros x Rx.
    pose proof (sgn32_range (Z.of_N b)) as Ry. generalize dependent (sgn 32 (Z.of_N b)). intros y Ry.
    destruct (Z.eqb_spec y 0) as [->|N0]; [reflexivity|].
    destruct (Z.eqb_spec x (- 2 ^ 31)) as [->|Nx]; cbn [andb].
    - destruct (Z.eqb_spec y (-1)) as [->|Ny]; cbn [andb].
      + exact (word_u64_of _).
      + rewrite sgn32_small; [apply word_u64_of|]. apply quot_range; [reflexivity | exact Rx | exact N0 | lia].
    - rewrite sgn32_small; [apply word_u64_of|]. apply quot_range; [reflexivity | exact Rx | exact N0 | lia].
  Qed.
  Lemma sgn64_zero c : (c < 2 ^ 64)%N -> sgn 64 (Z.of_N c) = 0 -> c = 0%N.
  Proof. intros H E. rewrite <- i64_sgn in E by exact H. unfold i64_of in E. destruct (N.ltb_spec c (2 ^ 63)); pows; lia. Qed.
  Lemma f_divs64 : let r := (let x := i64_of a in let y := i64_of b in
      if (y =? 0) then (2 ^ 64 - 1)%N else if (x =? - 2 ^ 63) && (y =? -1) then a else u64_of (Z.quot x y)) in
    if Z.of_N b =? 0 then word (-1) r else word (Z.quot (sgn 64 (Z.of_N a)) (sgn 64 (Z.of_N b))) r.
  Proof.
    cbn zeta. rewrite !i64_sgn by assumption.
    destruct (Z.eqb_spec (Z.of_N b) 0) as [E|N0].
    - replace (sgn 64 (Z.of_N b)) with 0 by (rewrite E; reflexivity). reflexivity.
    - destruct (Z.eqb_spec (sgn 64 (Z.of_N b)) 0) as [E|_]; [apply sgn64_zero in E; [lia | exact Hb]|].
      destruct (Z.eqb_spec (sgn 64 (Z.of_N a)) (- 2 ^ 63)) as [Ex|Nx]; cbn [andb]; [|apply word_u64_of].
      destruct (Z.eqb_spec (sgn 64 (Z.of_N b)) (-1)) as [Ey|Ny]; cbn [andb]; [|apply word_u64_of].
      rewrite Ex, Ey. rewrite <- i64_sgn in Ex by exact Ha. unfold i64_of in Ex.
      assert (a = 2 ^ 63)%N as -> by (destruct (N.ltb_spec a (2 ^ 63)); pows; lia). reflexivity.
  Qed.
  Lemma f_rems32 : ~ (sgn 32 (Z.of_N a) = - 2 ^ 31 /\ Z.rem (- 2 ^ 31) (sgn 32 (Z.of_N b)) <> 0 /\ sgn 32 (Z.of_N b) <> 0) ->
    let r := (let x := i32_of (lo32 a) in let y := i32_of (lo32 b) in
      if (x =? - 2 ^ 31) && (y =? -1) then 0%N else u64_of (smod as_i32 x y)) in
    if sgn 32 (Z.of_N b) =? 0 then word (sgn 32 (Z.of_N a)) r else word (Z.rem (sgn 32 (Z.of_N a)) (sgn 32 (Z.of_N b))) r.
  Proof.
    cbn zeta. rewrite !i32_lo. pose proof (sgn32_range (Z.of_N a)) as Rx. generalize dependent (sgn 32 (Z.of_N a)). intros x Rx.
    pose proof (sgn32_range (Z.of_N b)) as Ry. generalize dependent (sgn 32 (Z.of_N b)). intros y Ry Hbad.
    destruct (Z.eqb_spec y 0) as [->|N0].
    - rewrite andb_false_r. unfold smod. rewrite Z.eqb_refl. apply word_u64_of.
    - destruct ((x =? - 2 ^ 31) && (y =? -1)) eqn:E.
      + apply andb_prop in E. destruct E as [Ex Ey]. apply Z.eqb_eq in Ex, Ey. subst. reflexivity.
      + rewrite (smod_rem as_i32 (2 ^ 31)); [apply word_u64_of | reflexivity | | reflexivity | exact Rx | exact Ry | exact N0 |].
        * intros z Hz. rewrite as_i32_sgn. apply sgn32_small. lia.
        * destruct (Z.eq_dec x (- 2 ^ 31)) as [Ex|]; [right | now left].
          destruct (Z.eq_dec (Z.rem (- 2 ^ 31) y) 0) as [|Nr]; [assumption|]. exfalso. apply Hbad. split; [exact Ex | split; assumption].
  Qed.
  Lemma f_rems64 : ~ (sgn 64 (Z.of_N a) = - 2 ^ 63 /\ Z.rem (- 2 ^ 63) (sgn 64 (Z.of_N b)) <> 0 /\ b <> 0%N) ->
    let r := (let x := i64_of a in let y := i64_of b in
      if (x =? - 2 ^ 63) && (y =? -1) then 0%N else u64_of (smod as_i64 x y)) in
    if Z.of_N b =? 0 then word (Z.of_N a) r else word (Z.rem (sgn 64 (Z.of_N a)) (sgn 64 (Z.of_N b))) r.
  Proof.
    cbn zeta. intro Hbad. rewrite !i64_sgn by assumption.
    destruct (Z.eqb_spec (Z.of_N b) 0) as [E|N0].
    - replace (sgn 64 (Z.of_N b)) with 0 by (rewrite E; reflexivity). rewrite andb_false_r. unfold smod. rewrite Z.eqb_refl.
      apply sgn64_word. apply word_u64_of.
    - assert (Ny : sgn 64 (Z.of_N b) <> 0) by (intro E; apply sgn64_zero in E; [lia | exact Hb]).
      pose proof (sgn64_range (Z.of_N a)) as Rx. pose proof (sgn64_range (Z.of_N b)) as Ry.
      destruct ((sgn 64 (Z.of_N a) =? - 2 ^ 63) && (sgn 64 (Z.of_N b) =? -1)) eqn:E.
      + apply andb_prop in E. destruct E as [Ex Ey]. apply Z.eqb_eq in Ex, Ey. rewrite Ex, Ey. reflexivity.
      + rewrite (smod_rem as_i64 (2 ^ 63)); [apply word_u64_of | reflexivity | | reflexivity | exact Rx | exact Ry | exact Ny |].
        * intros z Hz. rewrite as_i64_sgn. apply sgn64_small. lia.
        * destruct (Z.eq_dec (sgn 64 (Z.of_N a)) (- 2 ^ 63)) as [Ex|]; [right | now left].
          destruct (Z.eq_dec (Z.rem (- 2 ^ 63) (sgn 64 (Z.of_N b))) 0) as [|Nr]; [assumption|]. exfalso. apply Hbad.
          split; [exact Ex | split; [exact Nr | lia]].
  Qed.
  Lemma f_divu64 : if Z.of_N b =? 0 then word (-1) (if (b =? 0)%N then 2 ^ 64 - 1 else a / b)%N
    else word (Z.of_N a / Z.of_N b) (if (b =? 0)%N then 2 ^ 64 - 1 else a / b)%N.
  Proof.
    destruct (N.eqb_spec b 0) as [->|N0]; [reflexivity|]. rewrite (proj2 (Z.eqb_neq _ _)) by lia.
    rewrite <- N2Z.inj_div. apply word_small. apply (N.le_lt_trans _ a); [|exact Ha]. apply N.div_le_upper_bound; [exact N0|]. nia.
  Qed.
  Lemma f_remu64 : if Z.of_N b =? 0 then word (Z.of_N a) (if (b =? 0)%N then a else a mod b)%N
    else word (Z.of_N a mod Z.of_N b) (if (b =? 0)%N then a else a mod b)%N.
  Proof.
    destruct (N.eqb_spec b 0) as [->|N0]; [now apply word_small|]. rewrite (proj2 (Z.eqb_neq _ _)) by lia.
    rewrite <- N2Z.inj_mod. apply word_small. apply (N.le_lt_trans _ a); [|exact Ha]. now apply N.mod_le.
  Qed.
  Lemma f_muhu : word (Z.of_N a * Z.of_N b / 2 ^ 64) (u64 (N.shiftr (a * b) 64)).
  Proof. unfold word. now rewrite zof_u64, zof_shiftr, N2Z.inj_mul. Qed.
  Lemma f_muhs : word (sgn 64 (Z.of_N a) * sgn 64 (Z.of_N b) / 2 ^ 64) (u64_of (as_i64 (Z.shiftr (i64_of a * i64_of b) 64))).
  Proof. rewrite ?(i64_sgn a Ha), ?(i64_sgn b Hb), Z.shiftr_div_pow2 by discriminate. match goal with |- context [as_i64 ?z] => change (as_i64 z) with (sgn 64 z) end. apply sgn64_word. apply word_u64_of. Qed.
  Lemma f_muhsu : word (sgn 64 (Z.of_N a) * Z.of_N b / 2 ^ 64) (u64_of (as_i64 (Z.shiftr (i64_of a * Z.of_N b) 64))).
  Proof. rewrite ?(i64_sgn a Ha), ?(i64_sgn b Hb), Z.shiftr_div_pow2 by discriminate. match goal with |- context [as_i64 ?z] => change (as_i64 z) with (sgn 64 z) end. apply sgn64_word. apply word_u64_of. Qed.
  Lemma u64_of_i64 c : (c < 2 ^ 64)%N -> u64_of (i64_of c) = c.
  Proof. intro H. apply (word_uniq (Z.of_N c)); [|now apply word_small]. apply sgn64_word. rewrite <- i64_sgn by exact H. apply word_u64_of. Qed.
  Lemma f_max : u64_of (Z.max (i64_of a) (i64_of b)) = if sgn 64 (Z.of_N a) <? sgn 64 (Z.of_N b) then b else a.
  Proof.
    rewrite <- !i64_sgn by assumption. destruct (Z.ltb_spec (i64_of a) (i64_of b)).
    - rewrite Z.max_r by lia. now apply u64_of_i64.
    - rewrite Z.max_l by lia. now apply u64_of_i64.
  Qed.
  Lemma f_min : u64_of (Z.min (i64_of a) (i64_of b)) = if sgn 64 (Z.of_N a) <? sgn 64 (Z.of_N b) then a else b.
  Proof.
    rewrite <- !i64_sgn by assumption. destruct (Z.ltb_spec (i64_of a) (i64_of b)).
    - rewrite Z.min_l by lia. now apply u64_of_i64.
    - rewrite Z.min_r by lia. now apply u64_of_i64.
  Qed.
  Lemma f_sgnk n : (0 < n <= 8)%N -> word (sgn (8 * Z.of_N n) (Z.of_N a)) (u64_of (to_signed (a mod 2 ^ (8 * n)) n)).
  Proof.
    intro Hn. assert (L : (a mod 2 ^ (8 * n) < 2 ^ (8 * n))%N) by (apply N.mod_upper_bound, N.pow_nonzero; discriminate).
    rewrite to_signed_sgn by assumption.
    assert (E2 : Z.of_N (2 ^ (8 * n)) = 2 ^ (8 * Z.of_N n)) by (rewrite N2Z.inj_pow, N2Z.inj_mul; reflexivity).
    assert (P : 0 < 2 ^ (8 * Z.of_N n)) by (apply Z.pow_pos_nonneg; lia).
    rewrite (sgn_mod _ (Z.of_N a) (Z.of_N (a mod 2 ^ (8 * n)))); [apply word_u64_of | exact P |].
    rewrite N2Z.inj_mod, E2. rewrite Z.mod_mod by lia. reflexivity.
  Qed.
End Families.

Theorem alu1_meaning op a d r : (a < 2 ^ 64)%N -> alu1 op a = Some r -> meaning op a 0 d r.
Proof.
  intros Ha E. destruct op; try discriminate E; injection E as <-; cbn [meaning].
  - reflexivity.
  - now apply count_ones_spec.
  - apply popcount_low. apply count_ones_spec. apply lo32_lt.
  - now apply leading_zeros_spec.
  - apply top_zeros_low. apply leading_zeros_spec. apply lo32_lt.
  - now apply trailing_zeros_spec.
  - apply low_zeros_low. apply trailing_zeros_spec. apply lo32_lt.
  - apply f_sgnk with (b := 0%N) (n := 1%N); (assumption || lia).
  - apply f_sgnk with (b := 0%N) (n := 2%N); (assumption || lia).
  - replace (Z.of_N a mod 2 ^ 16) with (Z.of_N (a mod 2 ^ 16)) by (rewrite N2Z.inj_mod; reflexivity).
    apply word_small. pose proof (N.mod_upper_bound a (2 ^ 16)). pows. change (2 ^ 16)%N with 65536%N in *. lia.
  - apply reverse_spec.
Qed.
Lemma zeqb0 a : (Z.of_N a =? 0) = (a =? 0)%N. Proof. lia. Qed.
Theorem alu2_meaning op a b d r : (a < 2 ^ 64)%N -> (b < 2 ^ 64)%N -> alu2 op a b d = Some r -> meaning op a b d r.
Proof.
  intros Ha Hb E. destruct op; try discriminate E; injection E as <-; cbn [meaning].
  - now apply f_add32.
  - now apply f_and.
  - now apply f_xor.
  - now apply f_or.
  - now apply f_mul32.
  - now apply f_ltu.
  - now apply f_lts.
  - now apply f_shl32.
  - now apply f_shr32.
  - now apply f_sar32.
  - apply f_sub32' with (c := a); (assumption || reflexivity).
  - now apply f_ltu.
  - now apply f_lts.
  - now apply f_shl32.
  - now apply f_shr32.
  - now apply f_sar32.
  - now rewrite zeqb0.
  - rewrite zeqb0. now destruct (N.eqb a 0).
  - now apply f_add64.
  - now apply f_mul64.
  - now apply f_shl64x.
  - now apply f_shr64x.
  - now apply f_sar64.
  - now apply f_sub64.
  - now apply f_shl64.
  - now apply f_shr64.
  - now apply f_sar64.
  - now apply f_rotr64.
  - now apply f_rotr64.
  - now apply f_rotr32.
  - now apply f_rotr32.
Qed.
Lemma some_inj {A} (x y : A) : Some x = Some y -> x = y.
Proof. congruence. Qed.
Theorem alu3_meaning op a b d r : (a < 2 ^ 64)%N -> (b < 2 ^ 64)%N -> ~ rem_s_bad op a b -> alu3 op a b d = Some r -> meaning op a b d r.
Proof.
  intros Ha Hb Hbad E. destruct op; try discriminate E; apply some_inj in E; subst r; unfold rem_s_bad in Hbad; cbn [meaning].
  - now apply f_add32.
  - apply f_sub32' with (c := lo32 b); try assumption; [eapply N.lt_trans; [apply lo32_lt | reflexivity]|]. rewrite zof_lo32. apply Z.mod_mod. discriminate.
  - now apply f_mul32.
  - now apply f_divu32.
  - now apply f_divs32.
  - now apply f_remu32.
  - now apply f_rems32.
  - now apply f_shl32.
  - now apply f_shr32.
  - now apply f_sar32.
  - now apply f_add64.
  - now apply f_sub64.
  - now apply f_mul64.
  - now apply f_divu64.
  - now apply f_divs64.
  - now apply f_remu64.
  - now apply f_rems64.
  - now apply f_shl64.
  - now apply f_shr64.
  - now apply f_sar64.
  - now apply f_and.
  - now apply f_xor.
  - now apply f_or.
  - now apply f_muhs.
  - now apply f_muhu.
  - now apply f_muhsu.
  - now apply f_ltu.
  - now apply f_lts.
  - now rewrite zeqb0.
  - rewrite zeqb0. now destruct (N.eqb b 0).
  - now apply f_rotl64.
  - now apply f_rotl32.
  - now apply f_rotr64.
  - now apply f_rotr32.
  - now apply f_andinv.
  - now apply f_orinv.
  - now apply f_xnor.
  - now apply f_max.
  - unfold N.max. destruct (N.compare_spec a b), (Z.ltb_spec (Z.of_N a) (Z.of_N b)); lia.
  - now apply f_min.
  - unfold N.min. destruct (N.compare_spec a b), (Z.ltb_spec (Z.of_N a) (Z.of_N b)); lia.
Qed.
