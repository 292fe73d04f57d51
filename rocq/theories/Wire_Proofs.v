(** Blocks and work packages are written in the Graypaper's octets. *)
From Verif Require Import Base Base_Proofs Codec_Model Codec_Spec Codec_Proofs Codec2_Proofs Codec3_Proofs Block_Model Comp_Spec Comp_Proofs Wire_Spec.
From Coq Require Import Lia.
Open Scope N_scope.

(** ** Bits *)
Lemma pack_at : forall l i x, nth_error (pack_bits l) (i / 8) = Some x -> N.testbit x (N.of_nat (i mod 8)) = nth i l false.
Proof.
  intros l. remember (length l) as n eqn:En. revert l En. induction n as [n IH] using lt_wf_ind. intros l -> i x Hx.
  assert (Cell : forall c, (length c <= 8)%nat -> forall k, (k < 8)%nat -> N.testbit (byte_of c) (N.of_nat k) = nth k c false).
  { clear. intros c Hc k Hk. destruct c as [|b0 [|b1 [|b2 [|b3 [|b4 [|b5 [|b6 [|b7 [|? c]]]]]]]]]; cbn [length] in Hc; try lia;
      do 8 (destruct k as [|k]; [repeat match goal with b : bool |- _ => destruct b end; reflexivity|]); lia. }
  assert (M : (i mod 8 < 8)%nat) by (apply Nat.mod_upper_bound; discriminate).
  destruct (Nat.le_gt_cases 8 (length l)) as [H8|H8].
  - assert (X : exists c r, l = c ++ r /\ length c = 8%nat) by (exists (firstn 8 l), (skipn 8 l); split; [symmetry; apply firstn_skipn|rewrite firstn_length; lia]).
    destruct X as (c & r & -> & Hl). destruct (pack_chunk c r Hl) as (E & _). rewrite E in Hx.
    destruct (Nat.lt_ge_cases i 8) as [Hi|Hi].
    + rewrite Nat.div_small in Hx by exact Hi. cbn [nth_error] in Hx. assert (X : x = byte_of c) by congruence. rewrite X, Nat.mod_small by exact Hi.
      rewrite Cell by (try exact Hi; rewrite Hl; constructor). rewrite app_nth1 by lia. reflexivity.
    + replace i with ((i - 8) + 1 * 8)%nat in Hx by lia. rewrite Nat.div_add in Hx by discriminate. rewrite Nat.add_1_r in Hx. cbn [nth_error] in Hx.
      specialize (IH (length r) ltac:(rewrite app_length; lia) r eq_refl (i - 8)%nat x Hx).
      replace (i mod 8)%nat with ((i - 8) mod 8)%nat by (replace i with ((i - 8) + 1 * 8)%nat at 2 by lia; rewrite Nat.mod_add by discriminate; reflexivity).
      rewrite IH. rewrite app_nth2 by lia. rewrite Hl. reflexivity.
  - destruct l as [|b l']; [destruct (i / 8)%nat; discriminate Hx|]. destruct (pack_partial (b :: l')) as (E & _); [cbn [length] in *; lia|]. rewrite E in Hx.
    destruct (i / 8)%nat as [|k] eqn:K; [|cbn in Hx; destruct k; discriminate Hx]. cbn [nth_error] in Hx. assert (X : x = byte_of (b :: l')) by congruence. rewrite X.
    assert (Hi : (i < 8)%nat) by (pose proof (Nat.div_mod i 8 ltac:(discriminate)); lia). rewrite Nat.mod_small by exact Hi. apply Cell; [lia|exact Hi].
Qed.
Lemma w_bits : forall n l o, writes (TBitsFix n) l o -> bits l o.
Proof.
  intros n l o E. unfold writes in E. cbn [encode] in E. unfold encode_bits_fixed in E. destruct (N.eqb_spec (N.of_nat (length l)) n); [|discriminate E].
  apply ok_inj in E. subst o. split; [apply pack_bits_length|]. split; [apply pack_bits_Bytes|]. intros. apply pack_at. assumption.
Qed.
Lemma uniq_bits : forall l, uniq (bits l).
Proof.
  intros l a b (La & Ba & Ta) (Lb & Bb & Tb). apply (nth_ext _ _ 0 0); [congruence|]. intros k Hk.
  assert (Ka : nth_error a k = Some (nth k a 0)) by (apply nth_error_nth'; exact Hk).
  assert (Kb : nth_error b k = Some (nth k b 0)) by (apply nth_error_nth'; rewrite Lb, <- La; exact Hk).
  assert (Sa : nth k a 0 < 2 ^ 8) by (apply (proj1 (Forall_forall _ _) Ba); apply nth_In; exact Hk).
  assert (Sb : nth k b 0 < 2 ^ 8) by (apply (proj1 (Forall_forall _ _) Bb); apply nth_In; rewrite Lb, <- La; exact Hk).
  apply N.bits_inj. intro j. destruct (N.lt_ge_cases j 8) as [Hj|Hj].
  - set (i := (8 * k + N.to_nat j)%nat). assert (D : (i / 8 = k)%nat) by (unfold i; rewrite Nat.mul_comm, Nat.div_add_l by discriminate; rewrite Nat.div_small by lia; lia).
    assert (M : (i mod 8 = N.to_nat j)%nat) by (unfold i; rewrite Nat.add_comm, Nat.mul_comm, Nat.mod_add by discriminate; apply Nat.mod_small; lia).
    rewrite <- D in Ka, Kb. apply Ta in Ka. apply Tb in Kb. rewrite M, N2Nat.id in Ka, Kb. rewrite D in Ka, Kb. congruence.
  - assert (Z : forall x, x < 2 ^ 8 -> N.testbit x j = false).
    { intros x Hx. destruct (N.eq_dec x 0) as [->|NZ]; [apply N.bits_0|]. apply N.bits_above_log2. apply N.lt_le_trans with 8; [|exact Hj]. apply N.log2_lt_pow2; lia. }
    rewrite (Z _ Sa), (Z _ Sb). reflexivity.
Qed.
Lemma w_bool : forall b o, writes TBool b o -> flag b o.
Proof. intros b o E. unfold writes in E. cbn [encode] in E. apply ok_inj in E. subst o. reflexivity. Qed.
Lemma w_blob : forall b o, wf TOctets b -> writes TOctets b o -> blob b o.
Proof. intros b o (_ & L) E. apply w_octets; [eapply N.le_lt_trans; [exact L|reflexivity]|exact E]. Qed.
Lemma w_vec_as : forall esz t (w : interp t -> shape) l o, wf (TVec esz t) l -> (forall a x, wf t a -> writes t a x -> w a x) -> writes (TVec esz t) l o -> counted w l o.
Proof. intros esz t w l o (F & L & _) I E. apply w_vec in E; [|exact L]. exact (counted_impl _ _ _ _ _ _ F I E). Qed.
Lemma w_lim_as : forall esz m t (w : interp t -> shape) l o, wf (TLim esz m t) l -> (forall a x, wf t a -> writes t a x -> w a x) -> writes (TLim esz m t) l o -> counted w l o.
Proof. intros esz m t w l o (F & L & _) I E. apply w_lim in E; [|exact L]. exact (counted_impl _ _ _ _ _ _ F I E). Qed.
Lemma w_arr_as : forall n t (w : interp t -> shape) l o, wf (TArr n t) l -> (forall a x, wf t a -> writes t a x -> w a x) -> writes (TArr n t) l o -> in_turn w l o.
Proof. intros n t w l o (F & _) I E. apply w_arr in E. exact (in_turn_impl _ _ _ _ _ _ F I E). Qed.
Lemma w_option_as : forall t (w : interp t -> shape) v o, wf (TOption t) v -> (forall a x, wf t a -> writes t a x -> w a x) -> writes (TOption t) v o -> maybe w v o.
Proof. intros t w v o W I E. apply w_option in E. eapply maybe_impl; [|exact E]. intros a y -> Hy. apply I; assumption. Qed.

(** Takes a tuple written apart into its parts. *)
Ltac peel E := repeat (apply w_pair in E; let x := fresh "x" in let y := fresh "y" in let A := fresh "A" in let B := fresh "B" in
  destruct E as (x & y & -> & A & B); cbn [fst snd] in A, B; rename B into E).
Ltac pieces := repeat (apply parts_more; [|]); try apply parts_one.
Ltac plain := first [eapply w_bool; eassumption | eapply w_bytes; eassumption | eapply w_fix; eassumption | eapply w_bits; eassumption
  | eapply w_blob; eassumption | eapply w_uint; [| |eassumption]; [discriminate|assumption] | idtac].

Section Wire.
  Variable P : params.
  Lemma ticket_writes : forall t o, wf t_ticket t -> writes t_ticket t o -> gp_ticket t o.
  Proof. intros (i & a) o (W1 & W2) E. unfold t_ticket in E. peel E. unfold gp_ticket. cbn [fst snd] in *. pieces; plain. Qed.
  Lemma epoch_mark_writes : forall m o, wf (t_epoch_marker P) m -> writes (t_epoch_marker P) m o -> gp_epoch_mark P m o.
  Proof.
    intros (e & te & ks) o (W1 & W2 & W3) E. unfold t_epoch_marker in E. peel E. unfold gp_epoch_mark. pieces; plain.
    refine (w_arr_as _ _ _ _ _ W3 _ E). intros (k1 & k2) xx W X. peel X. cbn [fst snd]. pieces; plain.
  Qed.
  Lemma unsealed_writes : forall h o, wf (t_header_data P) h -> writes (t_header_data P) h o -> gp_unsealed P h o.
  Proof.
    intros (pa & pr & bo & sl & em & wt & au & vr & off) o (W1 & W2 & W3 & W4 & W5 & W6 & W7 & W8 & W9) E. unfold t_header_data in E. peel E. unfold gp_unsealed. pieces; plain.
    - match goal with E' : writes _ _ ?o |- _ ?o => refine (w_option_as _ _ _ _ W5 _ E') end. intros a xx. apply epoch_mark_writes.
    - match goal with E' : writes _ _ ?o |- _ ?o => refine (w_option_as _ _ _ _ W6 _ E') end. intros a xx Wa Xa. refine (w_arr_as _ _ _ _ _ Wa _ Xa). intros t y. apply ticket_writes.
    - refine (w_vec_as _ _ _ _ _ W9 _ E). intros a xx _ X. plain.
  Qed.
  Lemma header_writes : forall h o, wf (t_header P) h -> writes (t_header P) h o -> gp_header P h o.
  Proof.
    intros (h & s) o (W1 & W2) E. unfold t_header in E. apply w_pair in E. destruct E as (x & y & -> & A & B). cbn [fst snd] in *.
    unfold gp_header. pieces; [apply unsealed_writes; assumption|plain].
  Qed.
  Lemma tickets_writes : forall l o, wf (t_tickets P) l -> writes (t_tickets P) l o -> gp_tickets P l o.
  Proof. intros l o W E. unfold gp_tickets. refine (w_vec_as _ _ _ _ _ W _ E). intros (a & s) xx (W1 & W2) X. unfold t_ticket_xt in X. peel X. cbn [fst snd] in *. pieces; plain. Qed.
  Lemma preimages_writes : forall l o, wf (t_preimages P) l -> writes (t_preimages P) l o -> gp_preimages P l o.
  Proof. intros l o W E. unfold gp_preimages. refine (w_vec_as _ _ _ _ _ W _ E). intros (a & s) xx (W1 & W2) X. unfold t_preimage_xt in X. peel X. cbn [fst snd] in *. pieces; plain. Qed.
  Lemma credentials_writes : forall l o, wf (t_credentials P) l -> writes (t_credentials P) l o -> gp_credentials P l o.
  Proof. intros l o W E. unfold gp_credentials. refine (w_vec_as _ _ _ _ _ W _ E). intros (a & s) xx (W1 & W2) X. unfold t_credential in X. peel X. cbn [fst snd]. pieces; plain. Qed.
  Lemma guarantees_writes : forall l o, wf (t_guarantees P) l -> writes (t_guarantees P) l o -> gp_guarantees P l o.
  Proof.
    intros l o W E. unfold gp_guarantees. refine (w_lim_as _ _ _ _ _ _ W _ E). intros (r & s & c) xx (W1 & W2 & W3) X. unfold t_guarantee in X.
    apply w_pair in X. destruct X as (x1 & x2 & -> & A & X). cbn [fst snd] in A, X. apply w_pair in X. destruct X as (x3 & x4 & -> & B & X). cbn [fst snd] in *.
    pieces; [apply report_writes; assumption|plain|apply credentials_writes; assumption].
  Qed.
  Lemma assurances_writes : forall l o, wf (t_assurances P) l -> writes (t_assurances P) l o -> gp_assurances P l o.
  Proof.
    intros l o W E. unfold gp_assurances. refine (w_lim_as _ _ _ _ _ _ W _ E). intros (h & b & v & s) xx _ X. unfold t_assurance in X. peel X. pieces; plain.
  Qed.
  Lemma judgment_writes : forall j o, writes t_judgment j o -> gp_judgment j o.
  Proof. intros (v & i & s) o E. unfold t_judgment in E. peel E. unfold gp_judgment. pieces; plain. Qed.
  Lemma disputes_writes : forall d o, wf (t_disputes P) d -> writes (t_disputes P) d o -> gp_disputes P d o.
  Proof.
    intros (v & c & f) o (W1 & W2 & W3) E. unfold t_disputes in E. peel E. unfold gp_disputes. pieces.
    - match goal with E' : writes _ _ ?o |- _ ?o => refine (w_vec_as _ _ _ _ _ W1 _ E') end. intros (h & e & js) xx (V1 & V2 & V3) X. unfold t_verdict in X. cbn [fst snd] in V3.
      apply w_pair in X. destruct X as (x1 & x2 & -> & A' & X). cbn [fst snd] in A', X. apply w_pair in X. destruct X as (x3 & x4 & -> & B' & X). cbn [fst snd] in *.
      pieces; plain. refine (w_arr_as _ _ _ _ _ V3 _ X). intros j y _. apply judgment_writes.
    - match goal with E' : writes _ _ ?o |- _ ?o => refine (w_vec_as _ _ _ _ _ W2 _ E') end. intros (h & k & s) xx _ X. unfold t_culprit in X. peel X. pieces; plain.
    - refine (w_vec_as _ _ _ _ _ W3 _ E). intros (h & b & k & s) xx _ X. unfold t_fault in X. peel X. pieces; plain.
  Qed.
  Lemma body_writes : forall e o, wf (t_extrinsics P) e -> writes (t_extrinsics P) e o -> gp_body P e o.
  Proof.
    intros (t & p & g & a & d) o (W1 & W2 & W3 & W4 & W5) E. unfold t_extrinsics in E. cbn [fst snd] in *.
    do 4 (apply w_pair in E; let x := fresh "x" in let y := fresh "y" in let A := fresh "A" in destruct E as (x & y & -> & A & E); cbn [fst snd] in A, E).
    unfold gp_body. pieces; [apply tickets_writes|apply preimages_writes|apply guarantees_writes|apply assurances_writes|apply disputes_writes]; assumption.
  Qed.
  Lemma block_writes : forall b o, wf (t_block P) b -> writes (t_block P) b o -> gp_block P b o.
  Proof.
    intros (h & e) o (W1 & W2) E. unfold t_block in E. apply w_pair in E. destruct E as (x & y & -> & A & B). cbn [fst snd] in *.
    unfold gp_block. pieces; [apply header_writes|apply body_writes]; assumption.
  Qed.
  Lemma import_writes : forall i o, wf t_import i -> writes t_import i o -> gp_import i o.
  Proof.
    intros (h & b & n) o (W1 & W2) E. unfold t_import in E. apply w_pair in E. destruct E as (x & y & -> & A & B). cbn [fst snd] in *. unfold gp_import. pieces; [plain|].
    unfold writes in B. cbn [encode fst snd] in B. apply encode_fixed_ok_iff in B. destruct B as (_ & _ & ->). unfold octets. destruct b; [|rewrite N.add_0_r; reflexivity].
    rewrite N.mod_small; [reflexivity|]. cbn [wf snd] in W2. change (2 ^ 16) with (2 ^ 15 + 2 ^ 15). lia.
  Qed.
  Lemma item_writes : forall i o, wf (t_item P) i -> writes (t_item P) i o -> gp_item P i o.
  Proof.
    intros (sv & cd & rg & ag & ex & pl & im & xt) o (W1 & W2 & W3 & W4 & W5 & W6 & W7 & W8) E. unfold t_item in E. cbn [fst snd] in *.
    do 7 (apply w_pair in E; let x := fresh "x" in let y := fresh "y" in let A := fresh "A" in destruct E as (x & y & -> & A & E); cbn [fst snd] in A, E).
    unfold gp_item. pieces; plain.
    - match goal with E' : writes _ _ ?o |- _ ?o => refine (w_vec_as _ _ _ _ _ W7 _ E') end. intros i q. apply import_writes.
    - match goal with E' : writes _ _ ?o |- _ ?o => refine (w_vec_as _ _ _ _ _ W8 _ E') end. intros (h & n) q _ X. unfold t_xtinfo in X. peel X. cbn [fst snd]. pieces; plain.
  Qed.
  Lemma context_writes : forall c o, wf t_refine_ctx c -> writes t_refine_ctx c o -> gp_context c o.
  Proof.
    intros (an & st & bf & lk & sl & pr) o (_ & _ & _ & _ & _ & W) E. unfold t_refine_ctx in E. peel E. unfold gp_context. pieces; plain.
    apply hashes_set; [|exact E]. destruct W as (_ & L & _). exact L.
  Qed.
  Lemma package_writes : forall p o, wf (t_package P) p -> writes (t_package P) p o -> gp_package P p o.
  Proof.
    intros (ho & au & cx & tk & cf & it) o (W1 & W2 & W3 & W4 & W5 & W6) E. unfold t_package in E. cbn [fst snd] in *.
    do 5 (apply w_pair in E; let x := fresh "x" in let y := fresh "y" in let A := fresh "A" in destruct E as (x & y & -> & A & E); cbn [fst snd] in A, E).
    unfold gp_package. pieces; plain; [apply context_writes; assumption|]. match goal with E' : writes _ _ ?o |- _ ?o => refine (w_lim_as _ _ _ _ _ _ W6 _ E') end. intros i q. apply item_writes.
  Qed.

  (** ** The shapes determine the octets *)
  Lemma uniq_unsealed : forall h, uniq (gp_unsealed P h).
  Proof. intros (pa & pr & bo & sl & em & wt & au & vr & off). unfold gp_unsealed. uniq. destruct a as (e & te & ks). unfold gp_epoch_mark. uniq. Qed.
  Lemma uniq_header : forall h, uniq (gp_header P h).
  Proof. intros (h & s). unfold gp_header. uniq. apply uniq_unsealed. Qed.
  Lemma uniq_blob : forall b, uniq (blob b).
  Proof. intro b. unfold blob. uniq. Qed.
  Lemma uniq_tickets : forall l, uniq (gp_tickets P l).
  Proof. intro l. unfold gp_tickets. uniq. Qed.
  Lemma uniq_preimages : forall l, uniq (gp_preimages P l).
  Proof. intro l. unfold gp_preimages. uniq. Qed.
  Lemma uniq_credentials : forall l, uniq (gp_credentials P l).
  Proof. intro l. unfold gp_credentials. uniq. Qed.
  Lemma uniq_guarantees : forall l, uniq (gp_guarantees P l).
  Proof. intro l. unfold gp_guarantees. uniq. destruct a as (r & s & c). uniq; try apply uniq_credentials; apply uniq_report. Qed.
  Lemma uniq_assurances : forall l, uniq (gp_assurances P l).
  Proof. intro l. unfold gp_assurances. uniq. destruct a as (h & b & v & s). uniq. apply uniq_bits. Qed.
  Lemma uniq_disputes : forall d, uniq (gp_disputes P d).
  Proof.
    intros (v & c & f). unfold gp_disputes. uniq.
    - destruct a as (h & e & js). uniq. destruct a as (b & i & s). unfold gp_judgment. uniq.
    - destruct a as (h & k & s). uniq.
    - destruct a as (h & b & k & s). uniq.
  Qed.
  Lemma uniq_body : forall e, uniq (gp_body P e).
  Proof. intros (t & p & g & a & d). unfold gp_body. apply uniq_parts. repeat apply Forall_cons; [apply uniq_tickets|apply uniq_preimages|apply uniq_guarantees|apply uniq_assurances|apply uniq_disputes|apply Forall_nil]. Qed.
  Lemma uniq_block : forall b, uniq (gp_block P b).
  Proof. intros (h & e). unfold gp_block. uniq; [apply uniq_header|apply uniq_body]. Qed.
  Lemma uniq_package : forall p, uniq (gp_package P p).
  Proof.
    intros (ho & au & (an & st & bf & lk & sl & pr) & tk & cf & it). unfold gp_package, gp_context. uniq; try apply uniq_blob.
    destruct a as (sv & cd & rg & ag & ex & pl & im & xt). unfold gp_item. uniq; try apply uniq_blob. destruct a as (h & b & n). unfold gp_import. uniq.
  Qed.

  (** ** Equivalence *)
  Lemma both_ways : forall t (w : interp t -> shape) v, ty_ok t -> wf t v -> (forall o, writes t v o -> w v o) -> uniq (w v) -> forall o, encode t v = Ok o <-> w v o.
  Proof.
    intros t w v Ho W I U o. split; [apply I|]. intro G. destruct (codec_roundtrip t v Ho W) as (bs & E & _). rewrite E. f_equal. apply U; [apply I; exact E|exact G].
  Qed.

  Variable H : bytes -> bytes.
  Lemma hashed_writes : forall l o, wf (t_guarantees P) l -> encode_with_hashed_reports P H l = Ok o -> gp_hashed_guarantees P H l o.
  Proof.
    intros l o (F & L & _) E. unfold encode_with_hashed_reports in E. destruct (encode_seq (encode_hashed_guarantee P H) l) as [x| |] eqn:X; cbn [bind] in E; try discriminate E.
    apply ok_inj in E. subst o. unfold gp_hashed_guarantees. apply counted_enc; [exact L|]. apply seq_in_turn in X. eapply in_turn_impl; [exact F| |exact X].
    intros (r & s & c) y (W1 & W2 & W3) Y. cbn [fst snd] in *. unfold encode_hashed_guarantee in Y.
    destruct (encode (t_report P) r) as [yr| |] eqn:R; cbn [bind] in Y; try discriminate Y. destruct (encode t_u32_4 s) as [ys| |] eqn:S; cbn [bind] in Y; try discriminate Y.
    destruct (encode (t_credentials P) c) as [yc| |] eqn:C; cbn [bind] in Y; try discriminate Y. apply ok_inj in Y. subst y.
    pieces; [exists yr; split; [apply report_writes; assumption|reflexivity]|eapply w_fix; exact S|apply credentials_writes; assumption].
  Qed.
  Lemma uniq_hashed : forall l, uniq (gp_hashed_guarantees P H l).
  Proof.
    intro l. unfold gp_hashed_guarantees. uniq. destruct a as (r & s & c). uniq. intros x y (rx & Rx & ->) (ry & Ry & ->). f_equal. exact (uniq_report _ _ _ _ Rx Ry).
  Qed.
  Lemma commitment_writes : forall e h, wf (t_extrinsics P) e -> extrinsics_hash P H e = Ok h -> gp_commitment P H e h.
  Proof.
    intros (t & p & g & a & d) h (W1 & W2 & W3 & W4 & W5) E. cbn [fst snd] in *. unfold extrinsics_hash in E.
    destruct (encode (t_tickets P) t) as [ot| |] eqn:E1; cbn [bind] in E; try discriminate E. destruct (encode (t_preimages P) p) as [op| |] eqn:E2; cbn [bind] in E; try discriminate E.
    destruct (encode_with_hashed_reports P H g) as [og| |] eqn:E3; cbn [bind] in E; try discriminate E. destruct (encode (t_assurances P) a) as [oa| |] eqn:E4; cbn [bind] in E; try discriminate E.
    destruct (encode (t_disputes P) d) as [od| |] eqn:E5; cbn [bind] in E; try discriminate E. apply ok_inj in E. subst h. unfold gp_commitment. exists ot, op, og, oa, od.
    split; [apply tickets_writes; assumption|]. split; [apply preimages_writes; assumption|]. split; [apply hashed_writes; assumption|]. split; [apply assurances_writes; assumption|].
    split; [apply disputes_writes; assumption|reflexivity].
  Qed.
  Lemma commitment_uniq : forall e a b, gp_commitment P H e a -> gp_commitment P H e b -> a = b.
  Proof.
    intros (t & p & g & a & d) h1 h2 (t1 & p1 & g1 & a1 & d1 & T1 & P1 & G1 & A1 & D1 & ->) (t2 & p2 & g2 & a2 & d2 & T2 & P2 & G2 & A2 & D2 & ->).
    rewrite (uniq_tickets _ _ _ T1 T2), (uniq_preimages _ _ _ P1 P2), (uniq_hashed _ _ _ G1 G2), (uniq_assurances _ _ _ A1 A2), (uniq_disputes _ _ _ D1 D2). reflexivity.
  Qed.
End Wire.
