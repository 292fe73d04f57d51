(** Proofs about PVM program loading. *)
From Coq Require Import Lia ZArith.
From Verif Require Import Base Base_Proofs Codec_Model Codec_Proofs Codec2_Proofs PvmMem_Model PvmProg_Model PvmStep_Model PvmStep_Spec PvmProg_Spec PvmAlu_Proofs.
Ltac Zify.zify_post_hook ::= Z.div_mod_to_equations.
Open Scope nat_scope.

(** ** Skip distances *)
Lemma skips_from_spec : forall bits pre mask, mask = pre ++ bits ->
  let '(l, next) := skips_from bits (length pre) (length mask) in
  length l = length bits /\
  match next with
  | Some n => length pre <= n < length mask /\ opcode_at mask n /\ forall i, length pre <= i < n -> ~ opcode_at mask i
  | None => forall i, length pre <= i -> ~ opcode_at mask i
  end /\
  (forall k d, nth_error l k = Some d -> skip_is mask (length pre + k) d).
Proof.
  induction bits as [|b bits IH]; intros pre mask ->.
  - cbn [skips_from]. split; [reflexivity|]. split.
    + intros i Hi. unfold opcode_at. rewrite nth_overflow; [discriminate|]. rewrite app_nil_r. lia.
    + intros [|k] d; discriminate.
  - specialize (IH (pre ++ [b]) (pre ++ b :: bits)). rewrite <- app_assoc in IH. specialize (IH eq_refl).
    cbn [skips_from]. replace (length (pre ++ [b])) with (S (length pre)) in IH by (rewrite app_length; cbn; lia).
    destruct (skips_from bits (S (length pre)) (length (pre ++ b :: bits))) as [l next].
    destruct IH as (Hl & Hn & Hk).
    assert (Hb : nth (length pre) (pre ++ b :: bits) false = b) by now rewrite nth_middle.
    set (mask := pre ++ b :: bits) in *.
    assert (Hm : length mask = length pre + S (length bits)) by (unfold mask; now rewrite app_length).
    clearbody mask.
    split; [cbn [length]; lia|]. split.
    + destruct b.
      * split; [lia|]. split; [exact Hb|]. lia.
      * destruct next as [n|].
        -- destruct Hn as (H1 & H2 & H3). split; [lia|]. split; [exact H2|]. intros i Hi.
           destruct (Nat.eq_dec i (length pre)) as [->|]; [unfold opcode_at; rewrite Hb; discriminate|apply H3; lia].
        -- intros i Hi. destruct (Nat.eq_dec i (length pre)) as [->|]; [unfold opcode_at; rewrite Hb; discriminate|apply Hn; lia].
    + intros [|k] d; cbn [nth_error]; intros Hd.
      * injection Hd as <-. unfold MAX_SKIP. rewrite Nat.add_0_r. destruct next as [n|].
        -- destruct Hn as (H1 & H2 & H3). exists (n - S (length pre)). repeat split.
           ++ intros i Hi. apply H3. lia.
           ++ lia.
           ++ right. replace (length pre + 1 + (n - S (length pre))) with n by lia. exact H2.
           ++ lia.
        -- exists (length mask - S (length pre)). repeat split; [intros i Hi; apply Hn; lia|lia|left; lia|lia].
      * replace (length pre + S k) with (S (length pre) + k) by lia. now apply Hk.
Qed.
Lemma compute_skips_length mask : length (compute_skips mask) = length mask.
Proof. unfold compute_skips. pose proof (skips_from_spec mask [] mask eq_refl) as H. cbn [length] in H. destruct (skips_from mask 0 (length mask)). apply H. Qed.
Lemma compute_skips_spec mask k d : nth_error (compute_skips mask) k = Some d -> skip_is mask k d.
Proof. unfold compute_skips. pose proof (skips_from_spec mask [] mask eq_refl) as H. cbn [length] in H. destruct (skips_from mask 0 (length mask)). apply H. Qed.
Lemma skip_is_uniq mask n d d' : skip_is mask n d -> skip_is mask n d' -> d = d'.
Proof.
  intros (j & A & L & B & ->) (j' & A' & L' & B' & ->). f_equal.
  destruct (Nat.lt_trichotomy j j') as [H|[H|H]]; [|exact H|].
  - destruct B as [B|B]; [lia|]. exfalso. now apply (A' j).
  - destruct B' as [B'|B']; [lia|]. exfalso. now apply (A j').
Qed.
Lemma compute_skips_iff mask k d : k < length mask -> (nth_error (compute_skips mask) k = Some d <-> skip_is mask k d).
Proof.
  intros Hk. split; [apply compute_skips_spec|]. intros H.
  destruct (nth_error (compute_skips mask) k) as [d'|] eqn:E.
  - f_equal. eapply skip_is_uniq; [|exact H]. now apply compute_skips_spec.
  - apply nth_error_None in E. rewrite compute_skips_length in E. lia.
Qed.
Lemma skip_is_bound mask n d : n < length mask -> skip_is mask n d -> n + 1 + d <= length mask.
Proof. intros Hn (j & _ & L & _ & ->). lia. Qed.
Lemma skip_nth mask n : n < length mask -> skip_is mask n (nth n (compute_skips mask) MAX_SKIP).
Proof. intros H. apply compute_skips_spec. apply nth_error_nth'. now rewrite compute_skips_length. Qed.

(** ** Opcode tables *)
Definition shape_num (s : shape) : N :=
  (match s with NoArgs => 1 | OneImm => 2 | RegWide => 3 | TwoImm => 4 | OneOff => 5 | RegImm => 6 | RegTwoImm => 7 | RegImmOff => 8 | TwoReg => 9
  | TwoRegImm => 10 | TwoRegOff => 11 | TwoRegTwoImm => 12 | ThreeReg => 13 end)%N.
Lemma all_bytes (P : N -> bool) : forallb (fun k => P (N.of_nat k)) (seq 0 256) = true -> forall b, (b < 256)%N -> P b = true.
Proof.
  intros H b Hb. rewrite forallb_forall in H. specialize (H (N.to_nat b)). rewrite N2Nat.id in H. apply H. apply in_seq. lia.
Qed.
Lemma group_shape b : (b < 256)%N -> group (opcode_of b) = shape_num (shape_of b).
Proof.
  intros Hb. apply N.eqb_eq. revert b Hb. apply (all_bytes (fun b => N.eqb (group (opcode_of b)) (shape_num (shape_of b)))). vm_compute. reflexivity.
Qed.
Lemma termination_ends b : (b < 256)%N -> is_termination (opcode_of b) = ends_block b.
Proof.
  intros Hb. apply Bool.eqb_prop. revert b Hb. apply (all_bytes (fun b => Bool.eqb (is_termination (opcode_of b)) (ends_block b))). vm_compute. reflexivity.
Qed.
Definition opcode_eq_dec (a b : opcode) : {a = b} + {a <> b}. Proof. decide equality. Defined.
Definition namedb (b : N) : bool :=
  existsb (fun '(lo, ops) => (lo <=? b)%N && match nth_error ops (N.to_nat (b - lo)) with Some op => if opcode_eq_dec op (opcode_of b) then true else false | None => false end) opcode_runs
  || (negb (known b) && if opcode_eq_dec (opcode_of b) TRAP then true else false).
Lemma names_of b : (b < 256)%N -> names b (opcode_of b).
Proof.
  intros Hb. assert (H : namedb b = true) by (revert b Hb; apply all_bytes; vm_compute; reflexivity).
  unfold namedb in H. apply Bool.orb_true_iff in H as [H|H].
  - left. apply existsb_exists in H as ([lo ops] & Hin & H). apply andb_prop in H as [H1 H2]. exists lo, ops. split; [exact Hin|].
    split; [now apply N.leb_le|]. destruct (nth_error ops (N.to_nat (b - lo))) as [op|]; [|discriminate].
    destruct (opcode_eq_dec op (opcode_of b)) as [->|]; [reflexivity|discriminate].
  - right. apply andb_prop in H as [H1 H2]. split; [now destruct (known b)|]. now destruct (opcode_eq_dec (opcode_of b) TRAP).
Qed.

(** ** One instruction *)
Lemma nth_firstn {A} (d : A) : forall n l k, k < n -> nth k (firstn n l) d = nth k l d.
Proof. induction n; intros [|a l] [|k] H; cbn; auto; try lia. apply IHn. lia. Qed.
Lemma nth_skipn {A} (d : A) : forall n l k, nth k (skipn n l) d = nth (n + k) l d.
Proof. induction n; intros l k; [reflexivity|]. destruct l; cbn [skipn]; [now destruct k|]. apply IHn. Qed.
Lemma firstn_map_nth (c : bytes) : forall k n, n + k <= length c -> firstn k (skipn n c) = map (fun j => code_at c (n + j)) (seq 0 k).
Proof.
  intros k n H. apply (nth_ext _ _ 0%N (code_at c (n + 0))).
  - rewrite firstn_length, skipn_length, map_length, seq_length. lia.
  - intros i Hi. rewrite firstn_length, skipn_length in Hi.
    rewrite nth_firstn by lia. rewrite nth_skipn. rewrite (map_nth (fun j => code_at c (n + j)) (seq 0 k) 0 i). rewrite seq_nth by lia. reflexivity.
Qed.
Section One.
Variables (c : bytes) (n l : nat).
Hypothesis Hc : n + 1 + l <= length c.
Let bs := firstn (1 + l) (skipn n c).
Lemma bs_len : length bs = 1 + l. Proof. unfold bs. rewrite firstn_length, skipn_length. lia. Qed.
Lemma at_bs k : at_ bs k = if k <=? l then Ok (code_at c (n + k)) else Panic.
Proof.
  unfold at_. destruct (Nat.leb_spec k l).
  - rewrite (nth_error_nth' bs 0%N) by (rewrite bs_len; lia). unfold bs. rewrite nth_firstn by lia. rewrite nth_skipn. reflexivity.
  - replace (nth_error bs k) with (@None N); [reflexivity|]. symmetry. apply nth_error_None. rewrite bs_len. lia.
Qed.
Lemma slice_bs s k : slice bs s k = if s + k <=? 1 + l then Ok (map (fun j => code_at c (n + s + j)) (seq 0 k)) else Panic.
Proof.
  unfold slice. rewrite bs_len. destruct (Nat.leb_spec (s + k) (1 + l)); [|reflexivity]. f_equal.
  rewrite <- firstn_map_nth by lia. unfold bs. rewrite skipn_firstn_comm, firstn_firstn. rewrite Nat.min_l by lia. f_equal.
  clear. revert c. induction n as [|m IH]; intros c; [reflexivity|]. destruct c; cbn [skipn Nat.add]; [now rewrite skipn_nil|apply IH].
Qed.
End One.
Lemma map_code_bytes c n k : Bytes c -> Bytes (map (fun j => code_at c (n + j)) (seq 0 k)).
Proof.
  intros HB. apply Forall_forall. intros x Hx. apply in_map_iff in Hx as (j & <- & _). unfold code_at.
  destruct (Nat.lt_ge_cases (n + j) (length c)) as [H|H].
  - unfold Bytes in HB. rewrite Forall_forall in HB. apply HB. now apply nth_In.
  - rewrite nth_overflow by exact H. unfold is_byte. lia.
Qed.
Lemma code_at_byte c k : Bytes c -> (code_at c k < 256)%N.
Proof.
  intros HB. unfold code_at. destruct (Nat.lt_ge_cases k (length c)) as [H|H].
  - unfold Bytes in HB. rewrite Forall_forall in HB. apply HB. now apply nth_In.
  - rewrite nth_overflow by exact H. lia.
Qed.
Section OneInst.
Variables (c : bytes) (n l : nat).
Hypothesis HB : Bytes c.
Hypothesis Hc : n + 1 + l <= length c.
Let bs := firstn (1 + l) (skipn n c).
Lemma imm_value_ok k s : k <= 4 -> k = 0 \/ s + k <= 1 + l -> exists v, imm_value bs k s = Ok v /\ word (signed_at c (n + s) k) v.
Proof using HB Hc.
  intros Hk Hs. unfold imm_value. destruct (Nat.eqb_spec k 0) as [->|Hk0].
  - exists 0%N. split; [reflexivity|]. reflexivity.
  - unfold bs. rewrite (slice_bs c n l Hc). destruct (Nat.leb_spec (s + k) (1 + l)); [|lia]. cbn [bind].
    eexists. split; [reflexivity|]. unfold signed_at.
    replace (Z.of_nat k) with (Z.of_N (N.of_nat k)) by lia. apply sext_word; [lia|].
    set (q := map _ _). assert (Hq : N.of_nat (length q) = N.of_nat k) by (unfold q; now rewrite map_length, seq_length).
    rewrite <- Hq. apply le_val_lt. now apply map_code_bytes.
Qed.
Lemma imm_value_panic k s : k <> 0 -> 1 + l < s + k -> imm_value bs k s = Panic.
Proof using Hc.
  intros Hk Hs. unfold imm_value. destruct (Nat.eqb_spec k 0); [lia|]. unfold bs. rewrite (slice_bs c n l Hc).
  destruct (Nat.leb_spec (s + k) (1 + l)); [lia|reflexivity].
Qed.
Lemma imm_target_ok k s : k <= 4 -> k = 0 \/ s + k <= 1 + l -> exists v, imm_target (N.of_nat n) bs k s = Ok v /\ word (Z.of_nat n + signed_at c (n + s) k) v.
Proof using HB Hc.
  intros Hk Hs. unfold imm_target. destruct (Nat.eqb_spec k 0) as [->|Hk0].
  - cbn [bind]. eexists. split; [reflexivity|]. unfold word. rewrite Z2N.id by (apply Z.mod_pos_bound; reflexivity).
    change (signed_at c (n + s) 0) with 0%Z. now rewrite nat_N_Z.
  - unfold bs. rewrite (slice_bs c n l Hc). destruct (Nat.leb_spec (s + k) (1 + l)); [|lia]. cbn [bind].
    eexists. split; [reflexivity|]. unfold word. rewrite Z2N.id by (apply Z.mod_pos_bound; reflexivity).
    rewrite nat_N_Z. f_equal. f_equal. unfold signed_at.
    replace (Z.of_nat k) with (Z.of_N (N.of_nat k)) by lia. apply to_signed_sgn; [lia|].
    set (q := map _ _). assert (Hq : N.of_nat (length q) = N.of_nat k) by (unfold q; now rewrite map_length, seq_length).
    rewrite <- Hq. apply le_val_lt. now apply map_code_bytes.
Qed.
Lemma imm_wide_ok s : s + 8 <= 1 + l -> exists v, imm_wide bs s = Ok v /\ word (signed_at c (n + s) 8) v.
Proof using HB Hc.
  intros Hs. unfold imm_wide. unfold bs. rewrite (slice_bs c n l Hc). destruct (Nat.leb_spec (s + 8) (1 + l)); [|lia]. cbn [bind].
  eexists. split; [reflexivity|]. unfold signed_at. change (8 * Z.of_nat 8)%Z with 64%Z. apply sgn64_word. apply word_small.
  set (q := map _ _). change 64%N with (8 * N.of_nat 8)%N. replace 8 with (length q) by (unfold q; now rewrite map_length, seq_length).
  apply le_val_lt. now apply map_code_bytes.
Qed.
Lemma imm_wide_panic s : 1 + l < s + 8 -> imm_wide bs s = Panic.
Proof using Hc.
  intros Hs. unfold imm_wide, bs. rewrite (slice_bs c n l Hc). destruct (Nat.leb_spec (s + 8) (1 + l)); [lia|reflexivity].
Qed.
Lemma len4_le x : len4 x <= 4. Proof. unfold len4. lia. Qed.
Lemma low4_le b : (low4 b <=? 12)%N = true. Proof. apply N.leb_le. unfold low4. lia. Qed.
Lemma high4_le b : (high4 b <=? 12)%N = true. Proof. apply N.leb_le. unfold high4. lia. Qed.
Lemma min12_le b : (N.min 12 b <=? 12)%N = true. Proof. apply N.leb_le. lia. Qed.
Lemma from_blob_long : 15 < l -> from_blob bs (N.of_nat n) l = Err EInvalidInstructionFormat.
Proof using Hc.
  intros Hl. unfold from_blob. unfold bs. rewrite (at_bs c n l Hc). cbn [Nat.leb bind].
  rewrite (bs_len c n l Hc). destruct (Nat.ltb_spec 16 (1 + l)); [reflexivity|lia].
Qed.
Ltac ph1 := unfold from_blob, bs; rewrite !(at_bs c n l Hc); change (0 <=? l) with true; cbn [bind]; rewrite (bs_len c n l Hc), !Nat.add_0_r, (group_shape _ (code_at_byte c n HB)).
Ltac skip16 := destruct (Nat.ltb_spec 16 (1 + l)); [lia|].
Ltac fin := unfold new_inst, reg_ok; rewrite ?low4_le, ?high4_le, ?min12_le; cbn [andb]; eexists; (split; [reflexivity|]); cbn [i_op i_rs1 i_rs2 i_rd i_imm1 i_imm2];
  (split; [reflexivity|]);
  repeat match goal with |- _ /\ _ => split end; try reflexivity; try (eexists; split; [reflexivity|eassumption]).
Ltac atk k := match goal with |- context [if ?a <=? l then _ else _] => destruct (Nat.leb_spec a l); [|lia] end; cbn [bind].
Ltac iv lem k s := let v := fresh "v" in let E := fresh "E" in let W := fresh "W" in
  destruct (lem k s) as (v & E & W); [try lia; try apply len4_le|try (right; lia); try lia|]; unfold bs in E; rewrite ?E; cbn [bind].
Lemma add_r a b d : a + (b + d) = a + b + d. Proof. lia. Qed.
Lemma mod8_len x : N.to_nat (N.min 4 (x mod 8)) = len4 x. Proof. reflexivity. Qed.
Lemma from_blob_complete : l <= 15 -> complete c n l ->
  exists i, from_blob bs (N.of_nat n) l = Ok i /\ i_op i = opcode_of (code_at c n) /\ operands c n l i.
Proof using HB Hc.
  intros Hl Hcm. ph1. skip16. unfold complete in Hcm. unfold operands. fold (len4 (code_at c (n + 1))).
  pose proof (len4_le (code_at c (n + 1))) as L1. pose proof (len4_le (code_at c (n + 1) / 16)) as L2. pose proof (len4_le (code_at c (n + 2))) as L3.
  destruct (shape_of (code_at c n)); cbn [shape_num].
  - fin.
  - iv imm_value_ok (Nat.min 4 l) 1. fin.
  - atk 1. destruct (imm_wide_ok 2) as (v & E & W); [lia|]; unfold bs in E; rewrite E; cbn [bind]. fin.
  - atk 1. rewrite ?mod8_len. iv imm_value_ok (len4 (code_at c (n + 1))) 2.
    iv imm_value_ok (Nat.min 4 (l - (len4 (code_at c (n + 1)) + 1))) (2 + len4 (code_at c (n + 1))).
    fin. replace (l - len4 (code_at c (n + 1)) - 1) with (l - (len4 (code_at c (n + 1)) + 1)) by lia.
    eexists; split; [reflexivity|]. now rewrite <- Nat.add_assoc.
  - iv imm_target_ok (Nat.min 4 l) 1. fin.
  - atk 1. iv imm_value_ok (Nat.min 4 (l - 1)) 2. fin.
  - atk 1. rewrite ?mod8_len. iv imm_value_ok (len4 (code_at c (n + 1) / 16)) 2.
    iv imm_value_ok (Nat.min 4 (l - (len4 (code_at c (n + 1) / 16) + 1))) (2 + len4 (code_at c (n + 1) / 16)).
    fin. replace (l - len4 (code_at c (n + 1) / 16) - 1) with (l - (len4 (code_at c (n + 1) / 16) + 1)) by lia.
    eexists; split; [reflexivity|]. now rewrite <- Nat.add_assoc.
  - atk 1. rewrite ?mod8_len. iv imm_value_ok (len4 (code_at c (n + 1) / 16)) 2.
    iv imm_target_ok (Nat.min 4 (l - (len4 (code_at c (n + 1) / 16) + 1))) (2 + len4 (code_at c (n + 1) / 16)).
    fin. replace (l - len4 (code_at c (n + 1) / 16) - 1) with (l - (len4 (code_at c (n + 1) / 16) + 1)) by lia.
    eexists; split; [reflexivity|]. now rewrite <- Nat.add_assoc.
  - atk 1. fin.
  - atk 1. iv imm_value_ok (Nat.min 4 (l - 1)) 2. fin.
  - atk 1. iv imm_target_ok (Nat.min 4 (l - 1)) 2. fin.
  - atk 1. atk 2. rewrite ?mod8_len. iv imm_value_ok (len4 (code_at c (n + 2))) 3.
    iv imm_value_ok (Nat.min 4 (l - (len4 (code_at c (n + 2)) + 2))) (3 + len4 (code_at c (n + 2))).
    fin. replace (l - len4 (code_at c (n + 2)) - 2) with (l - (len4 (code_at c (n + 2)) + 2)) by lia.
    eexists; split; [reflexivity|]. now rewrite <- Nat.add_assoc.
  - atk 1. atk 2. fin.
Qed.
Lemma from_blob_incomplete : l <= 15 -> ~ complete c n l -> from_blob bs (N.of_nat n) l = Panic.
Proof using HB Hc.
  intros Hl Hcm. ph1. skip16. unfold complete in Hcm. fold (len4 (code_at c (n + 1))).
  destruct (shape_of (code_at c n)); cbn [shape_num]; try (exfalso; apply Hcm; exact I);
    (match goal with |- context [if 1 <=? l then _ else _] => destruct (Nat.leb_spec 1 l) end); cbn [bind]; try reflexivity; try lia;
    try (match goal with |- context [if 2 <=? l then _ else _] => destruct (Nat.leb_spec 2 l) end; cbn [bind]; try reflexivity; try lia);
    rewrite ?mod8_len.
  - pose proof (imm_wide_panic 2) as E. unfold bs in E. rewrite E by lia. reflexivity.
  - pose proof (imm_value_panic (len4 (code_at c (n + 1))) 2) as E. unfold bs in E. rewrite E by lia. reflexivity.
  - pose proof (imm_value_panic (len4 (code_at c (n + 1) / 16)) 2) as E. unfold bs in E. rewrite E by lia. reflexivity.
  - pose proof (imm_value_panic (len4 (code_at c (n + 1) / 16)) 2) as E. unfold bs in E. rewrite E by lia. reflexivity.
  - pose proof (imm_value_panic (len4 (code_at c (n + 2))) 3) as E. unfold bs in E. rewrite E by lia. reflexivity.
Qed.
End OneInst.

(** ** All instructions *)
Definition fits (code : bytes) (mask : list bool) (n : nat) : Prop := forall l, skip_is mask n l -> l <= 15 /\ complete code n l.
Lemma complete_dec c n l : complete c n l \/ ~ complete c n l.
Proof. unfold complete. destruct (shape_of (code_at c n)); lia. Qed.
Section Insts.
Variables (code : bytes) (mask : list bool).
Hypothesis HB : Bytes code.
Hypothesis HL : length mask = length code.
Let skips := compute_skips mask.
Lemma decode_insts_ok : forall bits pre r, mask = pre ++ bits -> decode_insts code bits skips (length pre) = Ok r ->
  length r = length bits /\ forall k, k < length bits ->
    (~ opcode_at mask (length pre + k) -> nth_error r k = Some None) /\
    (opcode_at mask (length pre + k) -> exists i, nth_error r k = Some (Some i) /\ i_op i = opcode_of (code_at code (length pre + k)) /\
       fits code mask (length pre + k) /\ forall l, skip_is mask (length pre + k) l -> operands code (length pre + k) l i).
Proof using HB HL.
  induction bits as [|b bits IH]; intros pre r Hm H.
  - cbn [decode_insts] in H. injection H as <-. split; [reflexivity|]. cbn [length]. intros k Hk. lia.
  - assert (Hb : nth (length pre) mask false = b) by (rewrite Hm; apply nth_middle).
    assert (Hlen : length mask = length pre + S (length bits)) by (rewrite Hm, app_length; reflexivity).
    specialize (IH (pre ++ [b])). rewrite <- app_assoc in IH. cbn [app] in IH.
    replace (length (pre ++ [b])) with (S (length pre)) in IH by (rewrite app_length; cbn; lia).
    cbn [decode_insts] in H. destruct b.
    + pose proof (skip_nth mask (length pre) ltac:(lia)) as Hs. fold skips in Hs.
      set (l := nth (length pre) skips MAX_SKIP) in *.
      pose proof (skip_is_bound mask (length pre) l ltac:(lia) Hs) as Hbd.
      destruct (Nat.ltb_spec (length code) (length pre + 1 + l)); [lia|].
      destruct (Nat.lt_ge_cases 15 l) as [H15|H15].
      { rewrite (from_blob_long code (length pre) l) in H by lia. discriminate. }
      destruct (complete_dec code (length pre) l) as [Hcm|Hcm].
      2:{ rewrite (from_blob_incomplete code (length pre) l HB) in H by (assumption || lia). discriminate. }
      destruct (from_blob_complete code (length pre) l HB) as (i & E & Hn & Ho); [lia|lia|exact Hcm|].
      rewrite E in H. cbn [bind] in H.
      destruct (decode_insts code bits skips (S (length pre))) as [r'| |] eqn:E'; cbn [bind] in H; try discriminate. injection H as <-.
      specialize (IH r' Hm eq_refl) as (Hl' & IH). split; [cbn [length]; lia|]. intros [|k] Hk.
      * rewrite Nat.add_0_r. split; [intros Hno; exfalso; apply Hno; exact Hb|]. intros _. exists i. split; [reflexivity|]. split; [exact Hn|].
        split; [intros l' Hl'2|intros l' Hl'2]; rewrite <- (skip_is_uniq _ _ _ _ Hs Hl'2); auto.
      * cbn [nth_error length] in *. specialize (IH k ltac:(lia)). replace (length pre + S k) with (S (length pre) + k) by lia. exact IH.
    + destruct (decode_insts code bits skips (S (length pre))) as [r'| |] eqn:E'; cbn [bind] in H; try discriminate. injection H as <-.
      specialize (IH r' Hm eq_refl) as (Hl' & IH). split; [cbn [length]; lia|]. intros [|k] Hk.
      * rewrite Nat.add_0_r. split; [reflexivity|]. intros Ho. unfold opcode_at in Ho. rewrite Hb in Ho. discriminate.
      * cbn [nth_error length] in *. specialize (IH k ltac:(lia)). replace (length pre + S k) with (S (length pre) + k) by lia. exact IH.
Qed.
Lemma decode_insts_loads : forall bits pre, mask = pre ++ bits ->
  (forall n, length pre <= n < length mask -> opcode_at mask n -> fits code mask n) -> exists r, decode_insts code bits skips (length pre) = Ok r.
Proof using HB HL.
  induction bits as [|b bits IH]; intros pre Hm H; [now eexists|].
  assert (Hb : nth (length pre) mask false = b) by (rewrite Hm; apply nth_middle).
  assert (Hlen : length mask = length pre + S (length bits)) by (rewrite Hm, app_length; reflexivity).
  specialize (IH (pre ++ [b])). rewrite <- app_assoc in IH. cbn [app] in IH.
  replace (length (pre ++ [b])) with (S (length pre)) in IH by (rewrite app_length; cbn; lia).
  destruct (IH Hm) as (r & E). { intros n Hn. apply H. lia. }
  cbn [decode_insts]. rewrite E. destruct b; [|now eexists].
  pose proof (skip_nth mask (length pre) ltac:(lia)) as Hs. fold skips in Hs.
  set (l := nth (length pre) skips MAX_SKIP) in *.
  pose proof (skip_is_bound mask (length pre) l ltac:(lia) Hs) as Hbd.
  destruct (Nat.ltb_spec (length code) (length pre + 1 + l)); [lia|].
  destruct (H (length pre) ltac:(lia) Hb l Hs) as [H15 Hcm].
  destruct (from_blob_complete code (length pre) l HB) as (i & E' & _); [lia|lia|exact Hcm|].
  rewrite E'. cbn [bind]. now eexists.
Qed.
(** The first opcode position that does not fit decides. *)
Lemma decode_insts_err : forall bits pre, mask = pre ++ bits ->
  (forall e, decode_insts code bits skips (length pre) = Err e -> e = EInvalidInstructionFormat /\ exists n l, n < length mask /\ opcode_at mask n /\ skip_is mask n l /\ 15 < l) /\
  (decode_insts code bits skips (length pre) = Panic -> exists n l, n < length mask /\ opcode_at mask n /\ skip_is mask n l /\ ~ complete code n l).
Proof using HB HL.
  induction bits as [|b bits IH]; intros pre Hm; [split; discriminate|].
  assert (Hb : nth (length pre) mask false = b) by (rewrite Hm; apply nth_middle).
  assert (Hlen : length mask = length pre + S (length bits)) by (rewrite Hm, app_length; reflexivity).
  specialize (IH (pre ++ [b])). rewrite <- app_assoc in IH. cbn [app] in IH.
  replace (length (pre ++ [b])) with (S (length pre)) in IH by (rewrite app_length; cbn; lia).
  specialize (IH Hm) as [IH1 IH2].
  cbn [decode_insts]. destruct b.
  2:{ destruct (decode_insts code bits skips (S (length pre))) as [r'| |]; cbn [bind]; split; try discriminate; auto. }
  pose proof (skip_nth mask (length pre) ltac:(lia)) as Hs. fold skips in Hs.
  set (l := nth (length pre) skips MAX_SKIP) in *.
  pose proof (skip_is_bound mask (length pre) l ltac:(lia) Hs) as Hbd.
  destruct (Nat.ltb_spec (length code) (length pre + 1 + l)); [lia|].
  destruct (Nat.lt_ge_cases 15 l) as [H15|H15].
  { rewrite (from_blob_long code (length pre) l) by lia. cbn [bind]. split; [|discriminate]. intros e He. injection He as <-. split; [reflexivity|].
    exists (length pre), l. repeat split; auto. lia. }
  destruct (complete_dec code (length pre) l) as [Hcm|Hcm].
  2:{ rewrite (from_blob_incomplete code (length pre) l HB) by (assumption || lia). cbn [bind]. split; [discriminate|]. intros _.
      exists (length pre), l. repeat split; auto. lia. }
  destruct (from_blob_complete code (length pre) l HB) as (i & E & Hn & Ho); [lia|lia|exact Hcm|].
  rewrite E. cbn [bind].
  destruct (decode_insts code bits skips (S (length pre))) as [r'| |]; cbn [bind]; split; try discriminate; auto.
Qed.
End Insts.

(** ** Block starts *)
Lemma set_true_length n : forall l, length (set_true n l) = length l.
Proof. revert n. intros n l. revert n. induction l as [|b l IH]; intros [|n]; cbn [set_true length]; auto. Qed.
Lemma set_true_nth n : forall l t, nth t (set_true n l) false = true <-> (t = n /\ n < length l) \/ nth t l false = true.
Proof.
  intros l. revert n. induction l as [|b l IH]; intros [|n] [|t]; cbn [set_true nth length].
  all: try (split; [intros; discriminate|intros [[? ?]|?]; [lia|discriminate]]).
  - split; [intros _; left; lia|reflexivity].
  - split; [intros ?; now right|intros [[? ?]|?]; [lia|assumption]].
  - split; [intros ?; now right|intros [[? ?]|?]; [lia|assumption]].
  - rewrite IH. split; intros [[? ?]|?]; auto; left; lia.
Qed.
Lemma block_starts_nth insts skips len t :
  nth t (block_starts insts skips len) false = true <->
  t = 0 \/ exists n i, 1 <= n < len /\ nth n insts None = Some i /\ is_termination (i_op i) = true /\ t = n + 1 + nth n skips MAX_SKIP /\ t <= len.
Proof.
  unfold block_starts.
  assert (G : forall ns st, nth t (fold_left (fun st n => match nth n insts None with
      | Some i => if is_termination (i_op i) then set_true (n + 1 + nth n skips MAX_SKIP) st else st | None => st end) ns st) false = true <->
     nth t st false = true \/ exists n i, In n ns /\ nth n insts None = Some i /\ is_termination (i_op i) = true /\ t = n + 1 + nth n skips MAX_SKIP /\ t < length st).
  { induction ns as [|n ns IH]; intros st; cbn [fold_left].
    - split; [auto|]. intros [H|(n & i & [] & _)]. exact H.
    - destruct (nth n insts None) as [i|] eqn:Ei; [destruct (is_termination (i_op i)) eqn:Et|].
      + rewrite IH, set_true_nth, set_true_length. split.
        * intros [[[-> H]|H]|(m & j & Hin & H1 & H2 & H3 & H4)].
          -- right. exists n, i. cbn [In]. auto.
          -- now left.
          -- right. exists m, j. cbn [In]. auto.
        * intros [H|(m & j & [<-|Hin] & H1 & H2 & H3 & H4)].
          -- left. now right.
          -- left. left. now subst t.
          -- right. exists m, j. auto.
      + rewrite IH. split; intros [H|(m & j & Hin & H1 & H2 & H3 & H4)]; auto; right; exists m, j; cbn [In]; auto.
        destruct Hin as [<-|Hin]; [|now auto]. rewrite Ei in H1. injection H1 as <-. rewrite Et in H2. discriminate.
      + rewrite IH. split; intros [H|(m & j & Hin & H1 & H2 & H3 & H4)]; auto; right; exists m, j; cbn [In]; auto.
        destruct Hin as [<-|Hin]; [|now auto]. rewrite Ei in H1. discriminate. }
  rewrite G, set_true_nth, set_true_length, repeat_length.
  assert (R : nth t (repeat false (len + 1)) false = false).
  { destruct (Nat.lt_ge_cases t (len + 1)); [apply nth_repeat|apply nth_overflow; now rewrite repeat_length]. }
  rewrite R. split.
  - intros [[[-> _]|H]|(n & i & Hin & H1 & H2 & H3 & H4)]; [now left|discriminate|]. right. exists n, i. apply in_seq in Hin. repeat split; auto; lia.
  - intros [->|(n & i & Hn & H1 & H2 & H3 & H4)]; [left; left; lia|]. right. exists n, i. rewrite in_seq. repeat split; auto; lia.
Qed.

(** ** The blob *)
Lemma decode_bits_loop_inv : forall k size acc inp x rest, decode_bits_loop k size acc inp = Ok (x, rest) ->
  (N.of_nat (length acc) <= size <= N.of_nat (length acc + 8 * k))%N ->
  exists m, inp = m ++ rest /\ length m = k /\ x = acc ++ firstn (N.to_nat size - length acc) (concat (map byte_bits m)).
Proof.
  induction k as [|k IH]; intros size acc inp x rest H Hs; cbn [decode_bits_loop] in H.
  - injection H as <- <-. exists []. split; [reflexivity|]. split; [reflexivity|]. cbn [map concat]. now rewrite firstn_nil, app_nil_r.
  - destruct inp as [|b r]; cbn [Codec_Model.read_byte bind] in H; [discriminate|].
    set (q := firstn _ (byte_bits b)) in H.
    assert (Hq : length q = N.to_nat (N.min 8 (size - N.of_nat (length acc)))).
    { unfold q. rewrite firstn_length, byte_bits_length. lia. }
    apply IH in H as (m & -> & Hm & ->); [|rewrite app_length; lia].
    exists (b :: m). split; [reflexivity|]. split; [cbn [length]; lia|]. cbn [map concat]. rewrite <- app_assoc. f_equal.
    rewrite firstn_app, byte_bits_length. rewrite app_length. f_equal.
    + unfold q. destruct (Nat.le_gt_cases 8 (N.to_nat size - length acc)).
      * rewrite !firstn_all2 by (rewrite byte_bits_length; lia). reflexivity.
      * f_equal. lia.
    + destruct (Nat.le_gt_cases 8 (N.to_nat size - length acc)); [f_equal; lia|].
      replace (N.to_nat size - (length acc + length q)) with 0 by lia. now replace (N.to_nat size - length acc - 8) with 0 by lia.
Qed.
Lemma nth_byte_bits : forall m k, nth k (concat (map byte_bits m)) false = N.testbit (nth (k / 8) m 0%N) (N.of_nat (k mod 8)).
Proof.
  induction m as [|b m IH]; intros k; cbn [map concat].
  - destruct k; [reflexivity|]. destruct (S k / 8); reflexivity.
  - destruct (Nat.lt_ge_cases k 8) as [H|H].
    + rewrite app_nth1 by (rewrite byte_bits_length; lia). rewrite Nat.div_small, Nat.mod_small by lia. cbn [nth]. unfold byte_bits.
      do 8 (destruct k as [|k]; [reflexivity|]). lia.
    + rewrite app_nth2 by (rewrite byte_bits_length; lia). rewrite byte_bits_length, IH.
      replace k with (k - 8 + 1 * 8) at 3 4 by lia. rewrite Nat.div_add, Nat.mod_add by lia. rewrite Nat.add_1_r. reflexivity.
Qed.
Lemma jump_table_ok z : (z <= 4) -> forall jt rest, Forall (fun x => (x < 2 ^ (8 * N.of_nat z))%N) jt ->
  decode_seq (decode_fixed 32 z) (length jt) (concat (map (le_bytes z) jt) ++ rest) = Ok (jt, rest).
Proof.
  intros Hz jt rest F. induction F as [|x jt Hx F IH]; [reflexivity|]. cbn [length decode_seq map concat]. rewrite <- app_assoc.
  rewrite decode_fixed_ok by (assumption || lia). cbn [bind]. rewrite IH. reflexivity.
Qed.
Lemma jump_table_inv z : forall n inp jt rest, Bytes inp -> decode_seq (decode_fixed 32 z) n inp = Ok (jt, rest) ->
  inp = concat (map (le_bytes z) jt) ++ rest /\ length jt = n /\ Forall (fun x => (x < 2 ^ (8 * N.of_nat z))%N) jt /\ (jt <> [] -> z <= 4).
Proof.
  induction n as [|n IH]; intros inp jt rest HB H; cbn [decode_seq] in H.
  - injection H as <- <-. repeat split; auto. congruence.
  - destruct (decode_fixed 32 z inp) as [[x r]| |] eqn:E; cbn [bind] in H; try discriminate.
    apply decode_fixed_inv in E as (Hz & -> & Hx & _); [|exact HB].
    apply Forall_app in HB as [_ HB].
    destruct (decode_seq (decode_fixed 32 z) n r) as [[l r']| |] eqn:E2; cbn [bind] in H; try discriminate. injection H as <- <-.
    apply IH in E2 as (-> & Hl & F & _); [|exact HB].
    change (32 / 8)%N with 4%N in Hz. split; [cbn [map concat]; now rewrite <- app_assoc|]. split; [cbn [length]; lia|]. split; [now constructor|lia].
Qed.
Lemma deblob_blob z jt code mask : z <= 4 -> Forall (fun x => (x < 2 ^ (8 * N.of_nat z))%N) jt -> length mask = length code ->
  (N.of_nat (length jt) < 2 ^ 61)%N -> (N.of_nat (length code) < 2 ^ 61)%N -> deblob (program_blob z jt code mask) = Ok (code, mask, jt).
Proof.
  intros Hz F HL Hj Hc. unfold deblob, program_blob. rewrite integer_roundtrip by (lia || (apply N.lt_trans with (2 ^ 61)%N; [assumption|reflexivity])).
  cbn [lift bind]. change ([N.of_nat z] ++ ?r) with (N.of_nat z :: r).
  replace (N.of_nat z :: integer_encode (N.of_nat (length code)) ++ concat (map (le_bytes z) jt) ++ code ++ pack_bits mask)
    with (le_bytes 1 (N.of_nat z) ++ integer_encode (N.of_nat (length code)) ++ concat (map (le_bytes z) jt) ++ code ++ pack_bits mask).
  2:{ cbn [le_bytes app]. rewrite N.mod_small by lia. reflexivity. }
  rewrite decode_fixed_ok by (try lia; change (2 ^ (8 * N.of_nat 1))%N with 256%N; lia).
  cbn [lift bind]. rewrite integer_roundtrip by (lia || (apply N.lt_trans with (2 ^ 61)%N; [assumption|reflexivity])).
  cbn [lift bind]. unfold decode_jump_table. replace (alloc_ok 4 (N.of_nat (length jt))) with true.
  2:{ symmetry. apply N.leb_le. unfold isize_max. change (2 ^ 63 - 1)%N with 9223372036854775807%N. change (2 ^ 61)%N with 2305843009213693952%N in Hj. lia. }
  rewrite !Nat2N.id, jump_table_ok by assumption. cbn [lift bind].
  unfold decode_raw. replace (alloc_ok 1 (N.of_nat (length code))) with true.
  2:{ symmetry. apply N.leb_le. unfold isize_max. change (2 ^ 63 - 1)%N with 9223372036854775807%N. change (2 ^ 61)%N with 2305843009213693952%N in Hc. lia. }
  rewrite read_exact_N_eq, Nat2N.id, read_exact_ok. cbn [lift bind].
  rewrite <- HL. rewrite <- (app_nil_r (pack_bits mask)). rewrite decode_bits_fixed_ok.
  2:{ unfold bitvec_max_bits. change (2 ^ 61 - 1)%N with 2305843009213693951%N. change (2 ^ 61)%N with 2305843009213693952%N in Hc. lia. }
  cbn [lift bind]. reflexivity.
Qed.
Lemma lift_ok {E A} (f : E -> verr) (r : result E A) x : lift f r = Ok x -> r = Ok x.
Proof. destruct r; cbn; congruence. Qed.
Lemma integer_decode_split inp x rest : integer_decode 64 inp = Ok (x, rest) -> exists e, inp = e ++ rest /\ integer_decode 64 e = Ok (x, []).
Proof. intros H. apply integer_decode_local in H as (e & _ & -> & H). exists e. split; [reflexivity|]. specialize (H []). now rewrite app_nil_r in H. Qed.
Lemma deblob_inv blob code mask jt : Bytes blob -> deblob blob = Ok (code, mask, jt) ->
  exists z e1 e2 m, blob = e1 ++ [N.of_nat z] ++ e2 ++ concat (map (le_bytes z) jt) ++ code ++ m /\
    integer_decode 64 e1 = Ok (N.of_nat (length jt), []) /\ integer_decode 64 e2 = Ok (N.of_nat (length code), []) /\
    (jt <> [] -> z <= 4) /\ z < 256 /\ Forall (fun x => (x < 2 ^ (8 * N.of_nat z))%N) jt /\ length mask = length code /\
    length m = (length code + 7) / 8 /\ (forall k, k < length code -> nth k mask false = N.testbit (nth (k / 8) m 0%N) (N.of_nat (k mod 8))) /\ Bytes code.
Proof.
  intros HB H. unfold deblob in H.
  destruct (integer_decode 64 blob) as [[jl r1]| |] eqn:E1; cbn [lift bind] in H; try discriminate.
  apply integer_decode_split in E1 as (e1 & -> & E1). apply Forall_app in HB as [_ HB].
  destruct (decode_fixed 8 1 r1) as [[z r2]| |] eqn:E2; cbn [lift bind] in H; try discriminate.
  apply decode_fixed_inv in E2 as (_ & -> & Hz & _); [|exact HB]. apply Forall_app in HB as [_ HB].
  destruct (integer_decode 64 r2) as [[cl r3]| |] eqn:E3; cbn [lift bind] in H; try discriminate.
  apply integer_decode_split in E3 as (e2 & -> & E3). apply Forall_app in HB as [_ HB].
  unfold decode_jump_table in H. destruct (alloc_ok 4 jl); cbn [lift bind] in H; [|discriminate].
  destruct (decode_seq (decode_fixed 32 (N.to_nat z)) (N.to_nat jl) r3) as [[jt' r4]| |] eqn:E4; cbn [lift bind] in H; try discriminate.
  apply jump_table_inv in E4 as (-> & Hjl & F & Hz4); [|exact HB]. apply Forall_app in HB as [_ HB].
  unfold decode_raw in H. destruct (alloc_ok 1 cl); cbn [lift bind] in H; [|discriminate].
  rewrite read_exact_N_eq in H. destruct (read_exact (N.to_nat cl) r4) as [[code' r5]| |] eqn:E5; cbn [lift bind] in H; try discriminate.
  apply read_exact_inv in E5 as [-> Hcl]. apply Forall_app in HB as [HBc HB].
  destruct (decode_bits_fixed cl r5) as [[mask' r6]| |] eqn:E6; cbn [lift bind] in H; try discriminate.
  destruct r6; [|discriminate]. injection H as <- <- <-.
  pose proof E6 as E7. apply decode_bits_fixed_local in E7 as (_ & _ & _ & _ & Hml).
  unfold decode_bits_fixed in E6. destruct (bitvec_max_bits <? cl)%N; [discriminate|].
  apply decode_bits_loop_inv in E6 as (m & -> & Hm & Hx); [|cbn [length]; lia].
  exists (N.to_nat z), e1, e2, m. rewrite app_nil_r.
  split. { f_equal. cbn [le_bytes app]. rewrite N2Nat.id. rewrite N.mod_small by exact Hz. reflexivity. }
  split; [rewrite E1; repeat f_equal; lia|]. split; [rewrite E3; repeat f_equal; lia|]. split; [exact Hz4|].
  change (2 ^ (8 * N.of_nat 1))%N with 256%N in Hz. split; [lia|]. split; [exact F|]. split; [lia|]. split; [lia|]. split; [|exact HBc].
  intros k Hk. rewrite Hx. cbn [app length]. rewrite nth_firstn by lia. apply nth_byte_bits.
Qed.
Lemma deblob_canonical blob code mask jt z e1 e2 m :
  blob = e1 ++ [N.of_nat z] ++ e2 ++ concat (map (le_bytes z) jt) ++ code ++ m ->
  e1 = integer_encode (N.of_nat (length jt)) -> e2 = integer_encode (N.of_nat (length code)) -> m = pack_bits mask -> blob = program_blob z jt code mask.
Proof. intros -> -> -> ->. reflexivity. Qed.

(** ** Loading *)
Lemma load_inv blob p : Bytes blob -> load_program blob = Ok p ->
  deblob blob = Ok (p_code p, p_mask p, p_jump p) /\ Bytes (p_code p) /\ length (p_mask p) = length (p_code p) /\
  p_skips p = compute_skips (p_mask p) /\ decode_insts (p_code p) (p_mask p) (p_skips p) 0 = Ok (p_insts p) /\
  p_starts p = block_starts (p_insts p) (p_skips p) (length (p_code p)).
Proof.
  intros HB H. unfold load_program in H. destruct (deblob blob) as [[[code mask] jt]| |] eqn:E; cbn [bind] in H; try discriminate.
  destruct (decode_insts code mask (compute_skips mask) 0) as [insts| |] eqn:Ei; cbn [bind] in H; try discriminate. injection H as <-.
  cbn [p_code p_mask p_jump p_skips p_insts p_starts].
  apply deblob_inv in E as (_ & _ & _ & _ & _ & _ & _ & _ & _ & _ & HL & _ & _ & HBc); [|exact HB]. repeat split; auto.
Qed.
Definition mask_op (mask : list bool) n := opcode_at mask n.
Lemma instruction_op blob p n : Bytes blob -> load_program blob = Ok p ->
  (instruction_at p (N.of_nat n) <> None <-> opcode_at (p_mask p) n) /\
  (forall i, instruction_at p (N.of_nat n) = Some i -> i_op i = opcode_of (code_at (p_code p) n) /\
     exists l, l <= 15 /\ skip_is (p_mask p) n l /\ complete (p_code p) n l /\ operands (p_code p) n l i).
Proof.
  intros HB H. apply load_inv in H as (_ & HBc & HL & Hs & Hi & _); [|exact HB]. rewrite Hs in Hi.
  destruct (decode_insts_ok (p_code p) (p_mask p) HBc HL (p_mask p) [] (p_insts p) eq_refl Hi) as [Hlen Hk].
  cbn [length Nat.add] in Hk. unfold instruction_at. rewrite Nat2N.id.
  destruct (N.leb_spec (N.of_nat (length (p_insts p))) (N.of_nat n)) as [Hn|Hn].
  - split; [|discriminate]. split; [congruence|]. intros Ho. unfold opcode_at in Ho. rewrite nth_overflow in Ho by lia. discriminate.
  - specialize (Hk n ltac:(lia)) as [Hk0 Hk1]. destruct (nth n (p_mask p) false) eqn:Eb.
    + destruct (Hk1 Eb) as (i & E & Hnm & Hf & Ho). rewrite E. split; [split; [intros _; exact Eb|discriminate]|].
      intros j Hj. injection Hj as <-. split; [exact Hnm|]. exists (nth n (compute_skips (p_mask p)) MAX_SKIP).
      pose proof (skip_nth (p_mask p) n ltac:(lia)) as Hsk. destruct (Hf _ Hsk). auto.
    + rewrite Hk0 by (unfold opcode_at; congruence). split; [|discriminate]. unfold opcode_at. split; congruence.
Qed.
Lemma instruction_spec blob p n : Bytes blob -> load_program blob = Ok p ->
  (instruction_at p (N.of_nat n) <> None <-> opcode_at (p_mask p) n) /\
  (forall i, instruction_at p (N.of_nat n) = Some i -> names (code_at (p_code p) n) (i_op i) /\
     exists l, l <= 15 /\ skip_is (p_mask p) n l /\ complete (p_code p) n l /\ operands (p_code p) n l i).
Proof.
  intros HB H. destruct (instruction_op blob p n HB H) as [A B]. split; [exact A|]. intros i Hi. destruct (B i Hi) as [O C]. split; [|exact C].
  rewrite O. apply names_of, code_at_byte. now apply load_inv in H as (_ & HBc & _).
Qed.
Lemma skip_distance_spec blob p n : Bytes blob -> load_program blob = Ok p -> n < length (p_code p) ->
  exists d, skip_distance p (N.of_nat n) = Some d /\ forall d', skip_is (p_mask p) n d' <-> d' = d.
Proof.
  intros HB H Hn. apply load_inv in H as (_ & _ & HL & Hs & _); [|exact HB]. unfold skip_distance. rewrite Nat2N.id, Hs.
  destruct (nth_error (compute_skips (p_mask p)) n) as [d|] eqn:E.
  2:{ apply nth_error_None in E. rewrite compute_skips_length in E. lia. }
  exists d. split; [reflexivity|]. intros d'. rewrite <- compute_skips_iff by lia. rewrite E. split; [congruence|intros ->; reflexivity].
Qed.
Lemma starts_spec blob p t : Bytes blob -> load_program blob = Ok p ->
  nth t (p_starts p) false = true <-> block_start_but_first (p_code p) (p_mask p) t.
Proof.
  intros HB H. pose proof (fun n => instruction_op blob p n HB H) as HI. apply load_inv in H as (_ & HBc & HL & Hs & Hi & Hst); [|exact HB].
  assert (Hlen : length (p_insts p) = length (p_mask p)).
  { rewrite Hs in Hi. destruct (decode_insts_ok (p_code p) (p_mask p) HBc HL (p_mask p) [] (p_insts p) eq_refl Hi) as [Hlen _]. exact Hlen. }
  rewrite Hst, block_starts_nth. unfold block_start_but_first.
  assert (A : forall n, n < length (p_code p) -> instruction_at p (N.of_nat n) = nth n (p_insts p) None).
  { intros n Hn. unfold instruction_at. rewrite Nat2N.id. destruct (N.leb_spec (N.of_nat (length (p_insts p))) (N.of_nat n)); [lia|].
    rewrite (nth_error_nth' (p_insts p) None) by lia. now destruct (nth n (p_insts p) None). }
  assert (T : forall n i, n < length (p_code p) -> nth n (p_insts p) None = Some i -> is_termination (i_op i) = ends_block (code_at (p_code p) n)).
  { intros n i Hn Ei. rewrite <- A in Ei by exact Hn. destruct (HI n) as [_ HI2]. destruct (HI2 i Ei) as [-> _].
    apply termination_ends. now apply code_at_byte. }
  split.
  - intros [->|(n & i & Hn & Ei & Et & -> & Ht)]; [now left|]. right. exists n, (nth n (p_skips p) MAX_SKIP).
    split; [lia|]. split; [apply HI; rewrite A by lia; congruence|]. split; [rewrite <- (T n i); auto; lia|]. split; [|reflexivity].
    rewrite Hs. apply skip_nth. lia.
  - intros [->|(n & d & Hn & Ho & He & Hd & ->)]; [now left|]. right.
    apply HI in Ho. rewrite A in Ho by lia. destruct (nth n (p_insts p) None) as [i|] eqn:Ei; [|congruence].
    exists n, i. split; [lia|]. split; [exact Ei|]. split; [rewrite (T n i); auto; lia|].
    pose proof (skip_nth (p_mask p) n ltac:(lia)) as Hsk. rewrite <- Hs in Hsk. rewrite (skip_is_uniq _ _ _ _ Hd Hsk).
    split; [reflexivity|]. pose proof (skip_is_bound (p_mask p) n _ ltac:(lia) Hsk). lia.
Qed.
Lemma load_iff blob code mask jt : Bytes blob -> deblob blob = Ok (code, mask, jt) ->
  ((exists p, load_program blob = Ok p) <-> forall n, n < length code -> opcode_at mask n -> exists l, skip_is mask n l /\ l <= 15 /\ complete code n l) /\
  (forall e, load_program blob = Err e -> e = EInvalidInstructionFormat /\ exists n l, opcode_at mask n /\ skip_is mask n l /\ 15 < l) /\
  (load_program blob = Panic -> exists n l, opcode_at mask n /\ skip_is mask n l /\ ~ complete code n l).
Proof.
  intros HB E. pose proof E as E0. apply deblob_inv in E0 as (_ & _ & _ & _ & _ & _ & _ & _ & _ & _ & HL & _ & _ & HBc); [|exact HB].
  unfold load_program. rewrite E. cbn [bind].
  split; [|split].
  - split.
    + intros (p & H). destruct (decode_insts code mask (compute_skips mask) 0) as [r| |] eqn:Ei; cbn [bind] in H; try discriminate.
      destruct (decode_insts_ok code mask HBc HL mask [] r eq_refl Ei) as [_ Hk]. intros n Hn Ho.
      destruct (Hk n ltac:(lia)) as [_ H1]. destruct (H1 Ho) as (i & _ & _ & Hf & _). cbn [length Nat.add] in Hf.
      pose proof (skip_nth mask n ltac:(lia)) as Hs. exists (nth n (compute_skips mask) MAX_SKIP). destruct (Hf _ Hs). auto.
    + intros H. destruct (decode_insts_loads code mask HBc HL mask [] eq_refl) as (r & Er).
      { intros n [_ Hn] Ho l Hl. destruct (H n ltac:(lia) Ho) as (l' & Hl' & H15 & Hc). rewrite (skip_is_uniq _ _ _ _ Hl Hl'). auto. }
      cbn [length] in Er. rewrite Er. cbn [bind]. now eexists.
  - intros e H. destruct (decode_insts_err code mask HBc HL mask [] eq_refl) as [H1 _]. cbn [length] in H1.
    destruct (decode_insts code mask (compute_skips mask) 0) as [r|e'|]; cbn [bind] in H; try discriminate. injection H as <-.
    destruct (H1 e' eq_refl) as (-> & n & l & _ & Ho & Hs & Hl). split; [reflexivity|]. now exists n, l.
  - intros H. destruct (decode_insts_err code mask HBc HL mask [] eq_refl) as [_ H2]. cbn [length] in H2.
    destruct (decode_insts code mask (compute_skips mask) 0) as [r|e'|]; cbn [bind] in H; try discriminate.
    destruct (H2 eq_refl) as (n & l & _ & Ho & Hs & Hl). now exists n, l.
Qed.

(** ** Crashes *)
Lemma try_from_np w v : try_from w v <> Panic.
Proof. unfold try_from. destruct (v <? 2 ^ w)%N; discriminate. Qed.
Lemma decode_fixed_np w n inp : decode_fixed w n inp <> Panic.
Proof.
  unfold decode_fixed. destruct (w / 8 <? N.of_nat n)%N; [discriminate|]. pose proof (decode_fixed_loop_no_panic n 0 0 inp).
  destruct (decode_fixed_loop n 0 0 inp) as [[v r]| |]; cbn [bind]; try congruence; try discriminate.
  pose proof (try_from_np w v). destruct (try_from w v); cbn [bind]; congruence.
Qed.
Lemma integer_decode_np w inp : integer_decode w inp <> Panic.
Proof.
  unfold integer_decode. destruct inp as [|b r]; cbn [Codec_Model.read_byte bind]; [discriminate|].
  destruct (b =? 0)%N. { pose proof (try_from_np w 0). destruct (try_from w 0); cbn [bind]; congruence. }
  destruct (leading_ones b =? 8)%N.
  - pose proof (decode_fixed_np 64 8 r). destruct (decode_fixed 64 8 r) as [[v r']| |]; cbn [bind]; try congruence.
    pose proof (try_from_np w v). destruct (try_from w v); cbn [bind]; congruence.
  - pose proof (decode_fixed_np 64 (N.to_nat (leading_ones b)) r). destruct (decode_fixed 64 (N.to_nat (leading_ones b)) r) as [[v r']| |]; cbn [bind]; try congruence.
    match goal with |- context [try_from w ?x] => pose proof (try_from_np w x); destruct (try_from w x); cbn [bind]; congruence end.
Qed.
Lemma decode_seq_np {A} (d : dec A) : (forall inp, d inp <> Panic) -> forall n inp, decode_seq d n inp <> Panic.
Proof.
  intros Hd. induction n as [|n IH]; intros inp; cbn [decode_seq]; [discriminate|]. specialize (Hd inp).
  destruct (d inp) as [[a r]| |]; cbn [bind]; try congruence. specialize (IH r).
  destruct (decode_seq d n r) as [[l r']| |]; cbn [bind]; congruence.
Qed.
Lemma lift_np {E A} (f : E -> verr) (r : result E A) : lift f r = Panic -> r = Panic.
Proof. destruct r; cbn; congruence. Qed.
Lemma alloc4_false n : alloc_ok 4 n = false -> (2 ^ 61 <= n)%N.
Proof. unfold alloc_ok, isize_max. change (2 ^ 63 - 1)%N with 9223372036854775807%N. change (2 ^ 61)%N with 2305843009213693952%N. intros H. apply N.leb_gt in H. lia. Qed.
Lemma alloc1_false n : alloc_ok 1 n = false -> (2 ^ 61 <= n)%N.
Proof. unfold alloc_ok, isize_max. change (2 ^ 63 - 1)%N with 9223372036854775807%N. change (2 ^ 61)%N with 2305843009213693952%N. intros H. apply N.leb_gt in H. lia. Qed.
Lemma maxbits_gt n : (bitvec_max_bits < n)%N -> (2 ^ 61 <= n)%N.
Proof. unfold bitvec_max_bits. change (2 ^ 61 - 1)%N with 2305843009213693951%N. change (2 ^ 61)%N with 2305843009213693952%N. lia. Qed.
Lemma deblob_panic blob : Bytes blob -> deblob blob = Panic ->
  exists e1 z e2 rest jl cl, blob = e1 ++ [z] ++ e2 ++ rest /\ integer_decode 64 e1 = Ok (jl, []) /\ integer_decode 64 e2 = Ok (cl, []) /\ (2 ^ 61 <= jl \/ 2 ^ 61 <= cl)%N.
Proof.
  intros HB H. unfold deblob in H.
  pose proof (integer_decode_np 64 blob) as P1.
  destruct (integer_decode 64 blob) as [[jl r1]| |] eqn:E1; cbn [lift bind] in H; try discriminate; [|congruence].
  apply integer_decode_split in E1 as (e1 & -> & E1). apply Forall_app in HB as [_ HB].
  pose proof (decode_fixed_np 8 1 r1) as P2.
  destruct (decode_fixed 8 1 r1) as [[z r2]| |] eqn:E2; cbn [lift bind] in H; try discriminate; [|congruence].
  apply decode_fixed_inv in E2 as (_ & -> & Hz & _); [|exact HB].
  pose proof (integer_decode_np 64 r2) as P3.
  destruct (integer_decode 64 r2) as [[cl r3]| |] eqn:E3; cbn [lift bind] in H; try discriminate; [|congruence].
  apply integer_decode_split in E3 as (e2 & -> & E3).
  exists e1, (z mod 256)%N, e2, r3, jl, cl. split; [reflexivity|]. split; [exact E1|]. split; [exact E3|].
  unfold decode_jump_table in H.
  destruct (alloc_ok 4 jl) eqn:A4; cbn [lift bind] in H; [|left; now apply alloc4_false].
  pose proof (decode_seq_np _ (decode_fixed_np 32 (N.to_nat z)) (N.to_nat jl) r3) as P4.
  destruct (decode_seq (decode_fixed 32 (N.to_nat z)) (N.to_nat jl) r3) as [[jt' r4]| |]; cbn [lift bind] in H; try discriminate; [|congruence].
  unfold decode_raw in H.
  destruct (alloc_ok 1 cl) eqn:A1; cbn [lift bind] in H; [|right; now apply alloc1_false].
  unfold read_exact_N in H. destruct (N.of_nat (length r4) <? cl)%N; cbn [lift bind] in H; [discriminate|].
  destruct (N.le_gt_cases cl bitvec_max_bits) as [Hb|Hb]; [|right; now apply maxbits_gt].
  pose proof (decode_bits_fixed_ne_panic cl (skipn (N.to_nat cl) r4) Hb) as P5.
  destruct (decode_bits_fixed cl (skipn (N.to_nat cl) r4)) as [[m r6]| |]; cbn [lift bind] in H; try discriminate; [|congruence].
  destruct r6; discriminate.
Qed.
