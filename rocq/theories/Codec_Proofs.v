From Verif Require Import Base Base_Proofs Codec_Model Codec_Spec.
Open Scope N_scope.
Ltac Zify.zify_post_hook ::= Z.div_mod_to_equations.

(** * Bit arithmetic *)

Lemma land_low_shift : forall a b k, a < 2 ^ k -> N.land a (N.shiftl b k) = 0.
Proof.
  intros a b k Ha. apply N.bits_inj. intros i. rewrite N.land_spec, N.bits_0.
  destruct (N.lt_ge_cases i k) as [Hi|Hi].
  - rewrite N.shiftl_spec_low by assumption. apply andb_false_r.
  - assert (Hf : N.testbit a i = false); [|now rewrite Hf].
    destruct (N.eq_dec a 0) as [->|Hn]; [apply N.bits_0|].
    apply N.bits_above_log2. apply N.lt_le_trans with k; [|assumption].
    apply N.log2_lt_pow2; lia.
Qed.

Lemma lor_shift_add : forall a b k, a < 2 ^ k -> N.lor a (N.shiftl b k) = a + b * 2 ^ k.
Proof.
  intros a b k Ha. rewrite <- N.lxor_lor by now apply land_low_shift.
  rewrite <- N.add_nocarry_lxor by now apply land_low_shift.
  now rewrite N.shiftl_mul_pow2.
Qed.

Lemma land_255 : forall x, N.land x 255 = x mod 256.
Proof. intros. change 255 with (N.ones 8). now rewrite N.land_ones. Qed.

Lemma le_bytes_map : forall n x,
  le_bytes n x = map (fun i => N.land (N.shiftr x (8 * N.of_nat i)) 255) (seq 0 n).
Proof.
  intros n. induction n as [|n IH]; intros x; [reflexivity|].
  cbn [le_bytes]. rewrite IH. cbn [seq map]. f_equal.
  - rewrite land_255, N.mul_0_r, N.shiftr_0_r. reflexivity.
  - rewrite <- seq_shift, map_map. apply map_ext. intros i.
    rewrite !land_255, !N.shiftr_div_pow2.
    replace (8 * N.of_nat (S i)) with (8 + 8 * N.of_nat i) by lia.
    rewrite N.pow_add_r. change (2 ^ 8) with 256.
    rewrite N.div_div; [reflexivity|lia|apply N.pow_nonzero; lia].
Qed.

(** * Fixed-width integers *)

Lemma decode_fixed_loop_ok : forall bs i v rest, v < 2 ^ (8 * i) -> Bytes bs ->
  decode_fixed_loop (length bs) i v (bs ++ rest) = Ok (v + le_val bs * 2 ^ (8 * i), rest).
Proof.
  induction bs as [|b bs IH]; intros i v rest Hv HB.
  - simpl. now rewrite N.add_0_r.
  - cbn [length decode_fixed_loop app read_byte bind]. inversion_clear HB as [|? ? Hb HB'].
    unfold is_byte in Hb. rewrite lor_shift_add by assumption.
    assert (Hp : 2 ^ (8 * (i + 1)) = 256 * 2 ^ (8 * i)).
    { rewrite N.mul_add_distr_l, N.pow_add_r. change (2 ^ (8 * 1)) with 256. lia. }
    rewrite IH; [|rewrite Hp; nia|assumption].
    rewrite Hp. cbn [le_val]. f_equal. f_equal. lia.
Qed.

Lemma decode_fixed_loop_inv : forall n i v inp x rest, v < 2 ^ (8 * i) -> Bytes inp ->
  decode_fixed_loop n i v inp = Ok (x, rest) ->
  exists bs, length bs = n /\ inp = bs ++ rest /\ x = v + le_val bs * 2 ^ (8 * i).
Proof.
  induction n as [|n IH]; intros i v inp x rest Hv HB H; cbn [decode_fixed_loop] in H.
  - inversion H; subst. exists []. repeat split. simpl. lia.
  - destruct inp as [|b r]; cbn [read_byte bind] in H; [discriminate|].
    inversion_clear HB as [|? ? Hb HB']. unfold is_byte in Hb.
    rewrite lor_shift_add in H by assumption.
    assert (Hp : 2 ^ (8 * (i + 1)) = 256 * 2 ^ (8 * i)).
    { rewrite N.mul_add_distr_l, N.pow_add_r. change (2 ^ (8 * 1)) with 256. lia. }
    apply IH in H as (bs & Hl & -> & ->); [|rewrite Hp; nia|assumption].
    exists (b :: bs). cbn [length le_val app]. repeat split; [lia|]. rewrite Hp. lia.
Qed.

Lemma decode_fixed_loop_no_panic : forall n i v inp, decode_fixed_loop n i v inp <> Panic.
Proof.
  induction n as [|n IH]; intros i v [|b r]; cbn; try discriminate. apply IH.
Qed.

Lemma encode_fixed_ok_iff : forall x n bs,
  encode_fixed x n = Ok bs <-> (n <= 8)%nat /\ x < 2 ^ (8 * N.of_nat n) /\ bs = le_bytes n x.
Proof.
  intros x n bs. unfold encode_fixed.
  assert (Hfirst : forall m k y, (k <= m)%nat -> firstn k (le_bytes m y) = le_bytes k y).
  { induction m as [|m IH]; intros [|k] y Hk; cbn; try reflexivity; [lia|]. f_equal. apply IH. lia. }
  rewrite N.mul_comm. assert (H0 : 2 ^ (8 * N.of_nat n) <> 0) by (apply N.pow_nonzero; lia).
  destruct (Nat.ltb_spec 8 n) as [Hn|Hn].
  { split; [discriminate|]. lia. }
  destruct (N.ltb_spec (2 ^ (8 * N.of_nat n) - 1) x) as [Hx|Hx].
  { split; [discriminate|]. lia. }
  rewrite Hfirst by assumption. split.
  - intros H; inversion H; subst. repeat split; lia.
  - intros (_ & _ & ->). reflexivity.
Qed.

Lemma decode_fixed_ok : forall w n x rest, w <= 64 -> 8 * N.of_nat n <= w -> x < 2 ^ (8 * N.of_nat n) ->
  decode_fixed w n (le_bytes n x ++ rest) = Ok (x, rest).
Proof.
  intros w n x rest Hw Hn Hx. unfold decode_fixed.
  destruct (N.ltb_spec (w / 8) (N.of_nat n)) as [Hs|Hs]; [lia|].
  rewrite <- (le_bytes_length n x) at 1.
  rewrite decode_fixed_loop_ok; [|simpl; lia|apply le_bytes_Bytes].
  cbn [bind]. rewrite N.mul_0_r, N.add_0_l, N.pow_0_r, N.mul_1_r.
  rewrite le_val_le_bytes_small by (rewrite <- pow2_8; assumption).
  unfold try_from. assert (x < 2 ^ w).
  { apply N.lt_le_trans with (2 ^ (8 * N.of_nat n)); [assumption|]. apply N.pow_le_mono_r; lia. }
  destruct (N.ltb_spec x (2 ^ w)); [reflexivity|lia].
Qed.

Lemma decode_fixed_inv : forall w n inp x rest, Bytes inp -> decode_fixed w n inp = Ok (x, rest) ->
  N.of_nat n <= w / 8 /\ inp = le_bytes n x ++ rest /\ x < 2 ^ (8 * N.of_nat n) /\ x < 2 ^ w.
Proof.
  intros w n inp x rest HB H. unfold decode_fixed in H.
  destruct (N.ltb_spec (w / 8) (N.of_nat n)) as [Hs|Hs]; [discriminate|].
  destruct (decode_fixed_loop n 0 0 inp) as [[v r]| |] eqn:E; cbn [bind] in H; try discriminate.
  apply decode_fixed_loop_inv in E as (bs & Hl & -> & ->); [|simpl; lia|assumption].
  rewrite N.mul_0_r, N.add_0_l, N.pow_0_r, N.mul_1_r in H.
  unfold try_from in H. destruct (N.ltb_spec (le_val bs) (2 ^ w)) as [Hv|Hv]; [|discriminate].
  cbn [bind] in H. inversion H; subst.
  assert (HBs : Bytes bs) by (apply Forall_app in HB; tauto).
  repeat split; try assumption.
  - f_equal. symmetry. now apply le_bytes_le_val.
  - rewrite pow2_8. now apply le_val_bound.
Qed.

(** * Compact integers *)

Lemma sweep_first_byte : forall l q, l < 8 -> q < 2 ^ (7 - l) -> (l = 0 -> q <> 0) ->
  let first := N.lor ((if l =? 0 then 0 else 2 ^ 8 - 2 ^ (8 - l)) mod 256) (q mod 256) in
  first = 2 ^ 8 - 2 ^ (8 - l) + q /\ first < 256 /\ first <> 0 /\ leading_ones first = l /\
  N.land first (if 7 <=? l then 0 else N.shiftr 255 (l + 1)) = q.
Proof.
  intros l q Hl Hq H0.
  assert (S : forallb (fun l => forallb (fun q =>
     implb ((q <? 2 ^ (7 - l)) && negb ((l =? 0) && (q =? 0)))
     (let first := N.lor ((if l =? 0 then 0 else 2 ^ 8 - 2 ^ (8 - l)) mod 256) (q mod 256) in
      (first =? 2 ^ 8 - 2 ^ (8 - l) + q) && (first <? 256) && negb (first =? 0) && (leading_ones first =? l) &&
      (N.land first (if 7 <=? l then 0 else N.shiftr 255 (l + 1)) =? q))) (Nrange 128)) (Nrange 8) = true)
    by (vm_compute; reflexivity).
  pose proof (Nrange_forallb _ _ S l ltac:(lia)) as S1. cbv beta in S1.
  assert (q < 128). { apply N.lt_le_trans with (2 ^ (7 - l)); [assumption|].
    change 128 with (2 ^ 7). apply N.pow_le_mono_r; lia. }
  pose proof (Nrange_forallb _ _ S1 q ltac:(lia)) as S2. cbv beta in S2.
  assert (Hc : (q <? 2 ^ (7 - l)) && negb ((l =? 0) && (q =? 0)) = true).
  { destruct (N.ltb_spec q (2 ^ (7 - l))); [|lia]. simpl.
    destruct (N.eqb_spec l 0) as [->|]; [|reflexivity]. simpl.
    destruct (N.eqb_spec q 0); [|reflexivity]. exfalso. apply H0; auto. }
  rewrite Hc in S2. cbn [implb] in S2.
  set (first := N.lor _ _) in *. cbv zeta in S2.
  repeat (apply andb_prop in S2; destruct S2 as [S2 ?]).
  cbv zeta. repeat split; lia.
Qed.

Lemma class_small : forall x, 0 < x -> x < 2 ^ 56 ->
  let l := N.log2 x / 7 in l < 8 /\ 2 ^ (7 * l) <= x < 2 ^ (7 * (l + 1)).
Proof.
  intros x H0 H56 l.
  assert (Hlog : N.log2 x < 56) by (apply N.log2_lt_pow2; lia).
  pose proof (N.log2_spec x H0) as [Hlo Hhi].
  assert (l < 8) by (subst l; lia). split; [assumption|].
  split.
  - apply N.le_trans with (2 ^ N.log2 x); [|assumption]. apply N.pow_le_mono_r; subst l; lia.
  - apply N.lt_le_trans with (2 ^ N.succ (N.log2 x)); [assumption|]. apply N.pow_le_mono_r; subst l; lia.
Qed.

Lemma class_unique : forall l m x, 2 ^ (7 * l) <= x < 2 ^ (7 * (l + 1)) ->
  2 ^ (7 * m) <= x < 2 ^ (7 * (m + 1)) -> l = m.
Proof.
  assert (W : forall l m x, 2 ^ (7 * l) <= x < 2 ^ (7 * (l + 1)) ->
    2 ^ (7 * m) <= x < 2 ^ (7 * (m + 1)) -> l <= m).
  { intros l m x [Ha Hb] [Hc Hd]. destruct (N.le_gt_cases l m) as [|Hgt]; [assumption|].
    assert (2 ^ (7 * (m + 1)) <= 2 ^ (7 * l)) by (apply N.pow_le_mono_r; lia). lia. }
  intros l m x H1 H2. apply N.le_antisymm; eauto.
Qed.

Lemma class_quotient : forall l x, l < 8 -> 2 ^ (7 * l) <= x < 2 ^ (7 * (l + 1)) ->
  x / 2 ^ (8 * l) < 2 ^ (7 - l) /\ (l = 0 -> x / 2 ^ (8 * l) <> 0).
Proof.
  intros l x Hl [Hlo Hhi]. split.
  - apply N.div_lt_upper_bound; [apply N.pow_nonzero; lia|].
    rewrite <- N.pow_add_r. replace (8 * l + (7 - l)) with (7 * (l + 1)) by lia. assumption.
  - intros ->. simpl in *. rewrite N.div_1_r. lia.
Qed.

Lemma integer_encode_small : forall l x, l < 8 -> 2 ^ (7 * l) <= x < 2 ^ (7 * (l + 1)) ->
  integer_encode x = (2 ^ 8 - 2 ^ (8 - l) + x / 2 ^ (8 * l)) :: le_bytes (N.to_nat l) (x mod 2 ^ (8 * l)).
Proof.
  intros l x Hl Hx. unfold integer_encode.
  assert (0 < x). { assert (2 ^ (7 * l) <> 0) by (apply N.pow_nonzero; lia). lia. }
  assert (x < 2 ^ 56). { apply N.lt_le_trans with (2 ^ (7 * (l + 1))); [lia|]. apply N.pow_le_mono_r; lia. }
  destruct (N.eqb_spec x 0); [lia|]. destruct (N.ltb_spec x (2 ^ 56)); [|lia].
  pose proof (class_small x ltac:(lia) ltac:(lia)) as Hc. cbv zeta in Hc. destruct Hc as [Hl' Hx'].
  rewrite <- (class_unique _ _ _ Hx Hx'). cbv zeta.
  destruct (class_quotient l x Hl Hx) as [Hq Hq0].
  destruct (sweep_first_byte l _ Hl Hq Hq0) as (Hf & _). cbv zeta in Hf. rewrite Hf.
  f_equal. now rewrite le_bytes_map.
Qed.

Lemma integer_encode_big : forall x, 2 ^ 56 <= x -> integer_encode x = 255 :: le_bytes 8 x.
Proof.
  intros x Hx. unfold integer_encode. assert (2 ^ 56 <> 0) by (apply N.pow_nonzero; lia).
  destruct (N.eqb_spec x 0); [lia|]. destruct (N.ltb_spec x (2 ^ 56)); [lia|reflexivity].
Qed.

Lemma int_cases : forall x, x < 2 ^ 64 ->
  x = 0 \/ (exists l, l < 8 /\ 2 ^ (7 * l) <= x < 2 ^ (7 * (l + 1))) \/ 2 ^ 56 <= x.
Proof.
  intros x Hx. destruct (N.eq_dec x 0) as [->|Hn]; [now left|right].
  destruct (N.lt_ge_cases x (2 ^ 56)) as [Hs|Hs]; [left|now right].
  exists (N.log2 x / 7). apply class_small; lia.
Qed.

Lemma integer_encode_spec : forall x, x < 2 ^ 64 -> gp_int x (integer_encode x).
Proof.
  intros x Hx. destruct (int_cases x Hx) as [->|[(l & Hl & Hc)|Hb]].
  - constructor.
  - rewrite (integer_encode_small l x) by assumption. now constructor.
  - rewrite integer_encode_big by assumption. constructor. lia.
Qed.

Lemma gp_int_fun : forall x bs, gp_int x bs -> bs = integer_encode x.
Proof.
  intros x bs H. destruct H as [|l x Hl Hc|x Hb].
  - reflexivity.
  - symmetry. now apply integer_encode_small.
  - symmetry. apply integer_encode_big. lia.
Qed.

Lemma integer_encode_len : forall x, x < 2 ^ 64 -> gp_int_len x (N.of_nat (length (integer_encode x))).
Proof.
  intros x Hx. destruct (int_cases x Hx) as [->|[(l & Hl & Hc)|Hb]].
  - constructor.
  - rewrite (integer_encode_small l x) by assumption. cbn [length]. rewrite le_bytes_length.
    replace (N.of_nat (S (N.to_nat l))) with (l + 1) by lia. now constructor.
  - rewrite integer_encode_big by assumption. constructor. lia.
Qed.

Lemma gp_int_len_fun : forall x n m, gp_int_len x n -> gp_int_len x m -> n = m.
Proof.
  assert (Z7 : forall l, 2 ^ (7 * l) <> 0) by (intros; apply N.pow_nonzero; lia).
  assert (Hbig : forall l, l < 8 -> 2 ^ (7 * (l + 1)) <= 2 ^ 56) by (intros; apply N.pow_le_mono_r; lia).
  intros x n m H1 H2. destruct H1 as [|l x Hl Hc|x Hb]; inversion H2 as [Hz|l' x' Hl' Hc'|x' Hb']; subst;
    try reflexivity; try (f_equal; eapply class_unique; eassumption); exfalso;
    repeat match goal with
    | H : ?l < 8 |- _ => pose proof (Z7 l); pose proof (Hbig l H); clear H
    end; change (2 ^ 56) with 72057594037927936 in *; lia.
Qed.

Lemma integer_size_hint_spec : forall x, x < 2 ^ 64 -> gp_int_len x (integer_size_hint x).
Proof.
  intros x Hx. unfold integer_size_hint.
  destruct (N.eqb_spec x 0) as [->|]; [constructor|].
  destruct (N.ltb_spec x (2 ^ 56)).
  - destruct (class_small x ltac:(lia) ltac:(lia)) as [Hl Hc]. now constructor.
  - constructor. lia.
Qed.

Lemma integer_size_hint_length : forall x, x < 2 ^ 64 ->
  integer_size_hint x = N.of_nat (length (integer_encode x)).
Proof.
  intros. eapply gp_int_len_fun; [now apply integer_size_hint_spec|now apply integer_encode_len].
Qed.

Lemma integer_encode_Bytes : forall x, x < 2 ^ 64 -> Bytes (integer_encode x).
Proof.
  intros x Hx. destruct (int_cases x Hx) as [->|[(l & Hl & Hc)|Hb]].
  - repeat constructor.
  - rewrite (integer_encode_small l x) by assumption. constructor; [|apply le_bytes_Bytes].
    destruct (class_quotient l x Hl Hc) as [Hq Hq0].
    destruct (sweep_first_byte l _ Hl Hq Hq0) as (Hf & Hb & _). cbv zeta in *. rewrite <- Hf.
    exact Hb.
  - rewrite integer_encode_big by assumption. constructor; [|apply le_bytes_Bytes]. now unfold is_byte.
Qed.

Lemma integer_encode_nonempty : forall x, integer_encode x <> [].
Proof.
  intros x. unfold integer_encode. destruct (x =? 0); [discriminate|].
  destruct (x <? 2 ^ 56); cbv zeta; discriminate.
Qed.

Lemma integer_roundtrip : forall w x rest, w <= 64 -> x < 2 ^ w ->
  integer_decode w (integer_encode x ++ rest) = Ok (x, rest).
Proof.
  intros w x rest Hw Hx.
  assert (Hx64 : x < 2 ^ 64). { apply N.lt_le_trans with (2 ^ w); [assumption|]. apply N.pow_le_mono_r; lia. }
  assert (Htf : try_from w x = Ok x).
  { unfold try_from. destruct (N.ltb_spec x (2 ^ w)); [reflexivity|lia]. }
  destruct (int_cases x Hx64) as [->|[(l & Hl & Hc)|Hb]].
  - cbn [integer_encode N.eqb app integer_decode read_byte bind]. now rewrite Htf.
  - rewrite (integer_encode_small l x) by assumption.
    cbn [app integer_decode]. unfold integer_decode at 1. cbn [read_byte bind].
    destruct (class_quotient l x Hl Hc) as [Hq Hq0].
    destruct (sweep_first_byte l _ Hl Hq Hq0) as (Hf & Hb & Hn0 & Hlo & Hm). cbv zeta in *.
    rewrite Hf in *. set (first := 2 ^ 8 - 2 ^ (8 - l) + x / 2 ^ (8 * l)) in *.
    destruct (N.eqb_spec first 0); [contradiction|].
    rewrite Hlo. destruct (N.eqb_spec l 8); [lia|]. rewrite Hm.
    rewrite decode_fixed_ok; [|lia|lia|].
    2:{ rewrite N2Nat.id. apply N.mod_lt, N.pow_nonzero; lia. }
    cbn [bind]. rewrite N.lor_comm, lor_shift_add by (apply N.mod_lt, N.pow_nonzero; lia).
    replace (x mod 2 ^ (8 * l) + x / 2 ^ (8 * l) * 2 ^ (8 * l)) with x.
    2:{ rewrite (N.div_mod x (2 ^ (8 * l))) at 1 by (apply N.pow_nonzero; lia). lia. }
    now rewrite Htf.
  - rewrite integer_encode_big by assumption. cbn [app integer_decode].
    unfold integer_decode at 1. cbn [read_byte bind]. change (leading_ones 255) with 8.
    cbn [N.eqb Pos.eqb].
    rewrite decode_fixed_ok by (simpl; lia). cbn [bind]. now rewrite Htf.
Qed.

(** Every accepted string decodes to an in-range value, and the decoder looks only at what it consumed. *)
Lemma leading_ones_le8 : forall b, leading_ones b <= 8.
Proof.
  assert (H : forall k b, leading_ones_from k b <= N.of_nat k).
  { induction k as [|k IH]; intros b; cbn [leading_ones_from]; [lia|].
    destruct (N.testbit b (N.of_nat k)); [specialize (IH b); lia|lia]. }
  intros b. apply (H 8%nat).
Qed.

Lemma decode_fixed_loop_local : forall n i v inp x rest,
  decode_fixed_loop n i v inp = Ok (x, rest) ->
  exists used, inp = used ++ rest /\ forall r, decode_fixed_loop n i v (used ++ r) = Ok (x, r).
Proof.
  induction n as [|n IH]; intros i v inp x rest H; cbn [decode_fixed_loop] in H.
  - inversion H; subst. exists []. split; reflexivity.
  - destruct inp as [|b r]; cbn [read_byte bind] in H; [discriminate|].
    apply IH in H as (used & -> & Hu). exists (b :: used). split; [reflexivity|].
    intros r'. cbn. apply Hu.
Qed.

Lemma decode_fixed_local : forall w n inp x rest, decode_fixed w n inp = Ok (x, rest) ->
  exists used, inp = used ++ rest /\ forall r, decode_fixed w n (used ++ r) = Ok (x, r).
Proof.
  intros w n inp x rest H. unfold decode_fixed in *. destruct (w / 8 <? N.of_nat n); [discriminate|].
  destruct (decode_fixed_loop n 0 0 inp) as [[v r]| |] eqn:E; cbn [bind] in H; try discriminate.
  apply decode_fixed_loop_local in E as (used & -> & Hu).
  destruct (try_from w v) as [v'| |] eqn:Et; cbn [bind] in H; try discriminate.
  inversion H; subst. exists used. split; [reflexivity|]. intros r'. rewrite Hu. cbn [bind].
  rewrite Et. reflexivity.
Qed.

Lemma integer_decode_local : forall w inp x rest, integer_decode w inp = Ok (x, rest) ->
  exists used, used <> [] /\ inp = used ++ rest /\ forall r, integer_decode w (used ++ r) = Ok (x, r).
Proof.
  intros w inp x rest H. destruct inp as [|b r0]; [discriminate|].
  unfold integer_decode in H. cbn [read_byte bind] in H.
  destruct (b =? 0) eqn:Eb.
  { destruct (try_from w 0) as [v| |] eqn:Et; cbn [bind] in H; try discriminate. inversion H; subst.
    exists [b]. split; [discriminate|]. split; [reflexivity|]. intros r. unfold integer_decode.
    cbn [app read_byte bind]. rewrite Eb, Et. reflexivity. }
  destruct (leading_ones b =? 8) eqn:E8.
  - destruct (decode_fixed 64 8 r0) as [[v r']| |] eqn:Ed; cbn [bind] in H; try discriminate.
    apply decode_fixed_local in Ed as (used & -> & Hu).
    destruct (try_from w v) as [v'| |] eqn:Et; cbn [bind] in H; try discriminate. inversion H; subst.
    exists (b :: used). split; [discriminate|]. split; [reflexivity|]. intros r. unfold integer_decode.
    cbn [app read_byte bind]. rewrite Eb, E8, Hu. cbn [bind]. rewrite Et. reflexivity.
  - destruct (decode_fixed 64 (N.to_nat (leading_ones b)) r0) as [[v r']| |] eqn:Ed;
      cbn [bind] in H; try discriminate.
    apply decode_fixed_local in Ed as (used & -> & Hu).
    match type of H with context [try_from w ?y] => destruct (try_from w y) as [v'| |] eqn:Et end;
      cbn [bind] in H; try discriminate. inversion H; subst.
    exists (b :: used). split; [discriminate|]. split; [reflexivity|]. intros r. unfold integer_decode.
    cbn [app read_byte bind]. rewrite Eb, E8, Hu. cbn [bind]. rewrite Et. reflexivity.
Qed.

Lemma integer_decode_range : forall w inp x rest, integer_decode w inp = Ok (x, rest) -> x < 2 ^ w.
Proof.
  intros w inp x rest H. destruct inp as [|b r0]; [discriminate|].
  unfold integer_decode in H. cbn [read_byte bind] in H.
  assert (T : forall v v', try_from w v = Ok v' -> v' < 2 ^ w).
  { unfold try_from. intros v v'. destruct (N.ltb_spec v (2 ^ w)); [|discriminate]. now inversion 1; subst. }
  destruct (b =? 0).
  { destruct (try_from w 0) as [v| |] eqn:Et; cbn [bind] in H; try discriminate. inversion H; subst. eauto. }
  destruct (leading_ones b =? 8).
  - destruct (decode_fixed 64 8 r0) as [[v r']| |] eqn:Ed; cbn [bind] in H; try discriminate.
    destruct (try_from w v) as [v'| |] eqn:Et; cbn [bind] in H; try discriminate. inversion H; subst. eauto.
  - destruct (decode_fixed 64 (N.to_nat (leading_ones b)) r0) as [[v r']| |] eqn:Ed;
      cbn [bind] in H; try discriminate.
    match type of H with context [try_from w ?y] => destruct (try_from w y) as [v'| |] eqn:Et end;
      cbn [bind] in H; try discriminate. inversion H; subst. eauto.
Qed.

Lemma integer_prefix_free : forall x y r, x < 2 ^ 64 -> y < 2 ^ 64 ->
  integer_encode x = integer_encode y ++ r -> x = y /\ r = [].
Proof.
  intros x y r Hx Hy H.
  pose proof (integer_roundtrip 64 x [] ltac:(lia) Hx) as E1. rewrite app_nil_r in E1.
  rewrite H, (integer_roundtrip 64 y r ltac:(lia) Hy) in E1. inversion E1; auto.
Qed.

(** The encoder's output is never longer than any other accepted form of the same integer. *)
Lemma integer_encode_minimal : forall w inp x rest, w <= 64 -> Bytes inp ->
  integer_decode w inp = Ok (x, rest) ->
  (length (integer_encode x) + length rest <= length inp)%nat.
Proof.
  intros w inp x rest Hw HB H. pose proof (integer_decode_range _ _ _ _ H) as Hr.
  assert (Hx64 : x < 2 ^ 64). { apply N.lt_le_trans with (2 ^ w); [assumption|]. apply N.pow_le_mono_r; lia. }
  assert (T : forall v v', try_from w v = Ok v' -> v' = v).
  { unfold try_from. intros v v'. destruct (v <? 2 ^ w); [|discriminate]. now inversion 1; subst. }
  destruct inp as [|b r0]; [discriminate|].
  unfold integer_decode in H. cbn [read_byte bind] in H.
  inversion_clear HB as [|? ? Hb HB'].
  destruct (N.eqb_spec b 0).
  { destruct (try_from w 0) as [v| |] eqn:Et; cbn [bind] in H; try discriminate. inversion H; subst.
    apply T in Et; subst. simpl. lia. }
  destruct (N.eqb_spec (leading_ones b) 8).
  - destruct (decode_fixed 64 8 r0) as [[v r']| |] eqn:Ed; cbn [bind] in H; try discriminate.
    apply decode_fixed_inv in Ed as (_ & -> & _ & _); [|assumption].
    destruct (try_from w v) as [v'| |] eqn:Et; cbn [bind] in H; try discriminate. inversion H; subst.
    cbn [length]. rewrite app_length, le_bytes_length.
    assert (length (integer_encode x) <= 9)%nat; [|lia].
    destruct (int_cases x Hx64) as [->|[(l & Hl & Hc)|Hbig]]; [simpl; lia| |].
    + rewrite (integer_encode_small l x) by assumption. cbn [length]. rewrite le_bytes_length. lia.
    + rewrite integer_encode_big by assumption. reflexivity.
  - pose proof (leading_ones_le8 b) as H8. set (l := leading_ones b) in *.
    destruct (decode_fixed 64 (N.to_nat l) r0) as [[v r']| |] eqn:Ed; cbn [bind] in H; try discriminate.
    apply decode_fixed_inv in Ed as (_ & -> & Hv & _); [|assumption].
    rewrite N2Nat.id in Hv.
    match type of H with context [try_from w ?y] => destruct (try_from w y) as [v'| |] eqn:Et end;
      cbn [bind] in H; try discriminate.
    apply T in Et. injection H as Hv1 Hr1. rewrite Hv1 in Et. subst r'.
    rewrite N.lor_comm, lor_shift_add in Et by assumption.
    set (q := N.land b _) in Et.
    assert (Hq : q < 2 ^ (7 - l)).
    { assert (S : forallb (fun b => implb (negb (leading_ones b =? 8))
         (N.land b (if 7 <=? leading_ones b then 0 else N.shiftr 255 (leading_ones b + 1)) <? 2 ^ (7 - leading_ones b)))
         (Nrange 256) = true) by (vm_compute; reflexivity).
      pose proof (Nrange_forallb _ _ S b Hb) as S1. cbv beta in S1. fold l in S1.
      destruct (N.eqb_spec l 8); [lia|]. cbn [negb implb] in S1. fold q in S1. now apply N.ltb_lt. }
    assert (Hx : x < 2 ^ (7 * (l + 1))).
    { subst x. replace (7 * (l + 1)) with ((7 - l) + 8 * l) by lia. rewrite N.pow_add_r.
      assert (2 ^ (8 * l) <> 0) by (apply N.pow_nonzero; lia). nia. }
    cbn [length]. rewrite app_length, le_bytes_length.
    assert (N.of_nat (length (integer_encode x)) <= l + 1); [|lia].
    destruct (int_cases x Hx64) as [->|[(m & Hm & Hc)|Hbig]]; [simpl; lia| |].
    + rewrite (integer_encode_small m x) by assumption. cbn [length]. rewrite le_bytes_length.
      assert (m <= l); [|lia].
      destruct (N.le_gt_cases m l) as [|Hgt]; [assumption|exfalso].
      assert (2 ^ (7 * (l + 1)) <= 2 ^ (7 * m)) by (apply N.pow_le_mono_r; lia). lia.
    + exfalso. assert (2 ^ (7 * (l + 1)) <= 2 ^ 56) by (apply N.pow_le_mono_r; lia). lia.
Qed.

(** Among all accepted forms of an integer the encoder's is the only shortest one. *)
Lemma integer_shortest_unique : forall w inp x rest, w <= 64 -> Bytes inp ->
  integer_decode w inp = Ok (x, rest) ->
  length inp = (length (integer_encode x) + length rest)%nat -> inp = integer_encode x ++ rest.
Proof.
  intros w inp x rest Hw HB H Hlen. pose proof (integer_decode_range _ _ _ _ H) as Hr.
  assert (Hx64 : x < 2 ^ 64). { apply N.lt_le_trans with (2 ^ w); [assumption|]. apply N.pow_le_mono_r; lia. }
  assert (T : forall v v', try_from w v = Ok v' -> v' = v).
  { unfold try_from. intros v v'. destruct (v <? 2 ^ w); [|discriminate]. now inversion 1; subst. }
  destruct inp as [|b r0]; [discriminate|].
  unfold integer_decode in H. cbn [read_byte bind] in H.
  inversion_clear HB as [|? ? Hb HB'].
  destruct (N.eqb_spec b 0).
  { destruct (try_from w 0) as [v| |] eqn:Et; cbn [bind] in H; try discriminate. inversion H; subst.
    apply T in Et; subst. reflexivity. }
  destruct (N.eqb_spec (leading_ones b) 8) as [E8|E8].
  - assert (b = 255).
    { assert (S : forallb (fun b => implb (leading_ones b =? 8) (b =? 255)) (Nrange 256) = true)
        by (vm_compute; reflexivity).
      pose proof (Nrange_forallb _ _ S b Hb) as S1. cbv beta in S1. rewrite E8 in S1. now apply N.eqb_eq. }
    destruct (decode_fixed 64 8 r0) as [[v r']| |] eqn:Ed; cbn [bind] in H; try discriminate.
    apply decode_fixed_inv in Ed as (_ & -> & _ & _); [|assumption].
    destruct (try_from w v) as [v'| |] eqn:Et; cbn [bind] in H; try discriminate.
    apply T in Et. inversion H; subst. cbn [length] in Hlen. rewrite app_length, le_bytes_length in Hlen.
    destruct (int_cases x Hx64) as [->|[(l & Hl & Hc)|Hbig]]; [simpl in Hlen; lia| |].
    + rewrite (integer_encode_small l x) in Hlen by assumption. cbn [length] in Hlen.
      rewrite le_bytes_length in Hlen. lia.
    + rewrite integer_encode_big by assumption. reflexivity.
  - pose proof (leading_ones_le8 b) as H8. set (l := leading_ones b) in *.
    destruct (decode_fixed 64 (N.to_nat l) r0) as [[v r']| |] eqn:Ed; cbn [bind] in H; try discriminate.
    apply decode_fixed_inv in Ed as (_ & -> & Hv & _); [|assumption].
    rewrite N2Nat.id in Hv.
    match type of H with context [try_from w ?y] => destruct (try_from w y) as [v'| |] eqn:Et end;
      cbn [bind] in H; try discriminate.
    apply T in Et. injection H as Hv1 Hr1. rewrite Hv1 in Et. subst r'.
    rewrite N.lor_comm, lor_shift_add in Et by assumption.
    set (q := N.land b _) in Et.
    assert (Hq : b = 2 ^ 8 - 2 ^ (8 - l) + q).
    { assert (S : forallb (fun b => implb (negb (leading_ones b =? 8))
         (b =? 2 ^ 8 - 2 ^ (8 - leading_ones b) +
            N.land b (if 7 <=? leading_ones b then 0 else N.shiftr 255 (leading_ones b + 1))))
         (Nrange 256) = true) by (vm_compute; reflexivity).
      pose proof (Nrange_forallb _ _ S b Hb) as S1. cbv beta in S1. fold l in S1.
      destruct (N.eqb_spec l 8); [lia|]. cbn [negb implb] in S1. fold q in S1. now apply N.eqb_eq. }
    assert (H0 : 2 ^ (8 * l) <> 0) by (apply N.pow_nonzero; lia).
    assert (Hxq : x / 2 ^ (8 * l) = q).
    { subst x. rewrite N.div_add by assumption. rewrite N.div_small by assumption. lia. }
    assert (Hxr : x mod 2 ^ (8 * l) = v).
    { subst x. rewrite N.mod_add by assumption. now apply N.mod_small. }
    cbn [length] in Hlen. rewrite app_length, le_bytes_length in Hlen.
    destruct (int_cases x Hx64) as [Hz|[(m & Hm & Hc)|Hbig]].
    + rewrite Hz in Hlen. cbn [integer_encode N.eqb length] in Hlen.
      assert (l = 0) by lia. exfalso. rewrite Hz in Hxq. rewrite N.div_0_l in Hxq by assumption.
      rewrite <- Hxq, H in Hq. change (2 ^ 8 - 2 ^ (8 - 0) + 0) with 0 in Hq. contradiction.
    + rewrite (integer_encode_small m x) in * by assumption. cbn [length] in Hlen.
      rewrite le_bytes_length in Hlen. assert (m = l) by lia. subst m.
      rewrite Hxq, Hxr, <- Hq. reflexivity.
    + rewrite integer_encode_big in Hlen by assumption. cbn [length] in Hlen.
      rewrite le_bytes_length in Hlen. lia.
Qed.
