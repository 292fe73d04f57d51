(** Property theorems of the codec: C01-C06, C46, C47. Statements only; proofs are in Codec*_Proofs.v. *)
From Verif Require Import Base Codec_Model Codec_Spec Codec_Proofs Codec2_Proofs Block_Model Block_Spec Codec3_Proofs.
Open Scope N_scope.

(** * C01 *)
Theorem compact_int_is_graypaper_code : forall x, x < 2 ^ 64 -> gp_int x (integer_encode x).
Proof. exact integer_encode_spec. Qed.
Theorem compact_int_graypaper_code_unique : forall x bs, gp_int x bs -> bs = integer_encode x.
Proof. exact gp_int_fun. Qed.
Theorem compact_int_roundtrip : forall w x rest, w <= 64 -> x < 2 ^ w ->
  integer_decode w (integer_encode x ++ rest) = Ok (x, rest).
Proof. exact integer_roundtrip. Qed.
Example compact_int_ex : integer_encode 20000 = [192; 32; 78] /\
  integer_decode 16 ([192; 32; 78] ++ [7; 7]) = Ok (20000, [7; 7]) /\
  integer_decode 8 [192; 32; 78] = Err ConversionError.
Proof. vm_compute. auto. Qed.
Print Assumptions compact_int_is_graypaper_code.
Print Assumptions compact_int_graypaper_code_unique.
Print Assumptions compact_int_roundtrip.

(** * C02 *)
Theorem compact_int_length : forall x, x < 2 ^ 64 -> gp_int_len x (N.of_nat (length (integer_encode x))).
Proof. exact integer_encode_len. Qed.
Theorem compact_int_size_hint : forall x, x < 2 ^ 64 ->
  integer_size_hint x = N.of_nat (length (integer_encode x)).
Proof. exact integer_size_hint_length. Qed.
Theorem compact_int_prefix_free : forall x y r, x < 2 ^ 64 -> y < 2 ^ 64 ->
  integer_encode x = integer_encode y ++ r -> x = y /\ r = [].
Proof. exact integer_prefix_free. Qed.
Theorem compact_int_minimal : forall w inp x rest, w <= 64 -> Bytes inp ->
  integer_decode w inp = Ok (x, rest) ->
  (length (integer_encode x) + length rest <= length inp)%nat.
Proof. exact integer_encode_minimal. Qed.
Example compact_int_len_ex :
  map (fun x => length (integer_encode x)) [0; 127; 128; 16383; 16384; 2 ^ 56 - 1; 2 ^ 56; 2 ^ 64 - 1]
  = [1; 1; 2; 2; 3; 8; 9; 9]%nat.
Proof. vm_compute. reflexivity. Qed.
Print Assumptions compact_int_length.
Print Assumptions compact_int_size_hint.
Print Assumptions compact_int_prefix_free.
Print Assumptions compact_int_minimal.

(** * C03 — false of the code: 5 is also accepted as [0x80 0x05] (finding). What does hold: the encoder's
    form is the only accepted form of its own length. *)
Theorem compact_int_canonical_refuted :
  exists inp x, Bytes inp /\ integer_decode 64 inp = Ok (x, []) /\ integer_encode x <> inp.
Proof. exists [128; 5], 5. split; [apply bytesb_sound; reflexivity|]. split; [reflexivity|discriminate]. Qed.
Theorem compact_int_canonical_partial : forall w inp x rest, w <= 64 -> Bytes inp ->
  integer_decode w inp = Ok (x, rest) ->
  length inp = (length (integer_encode x) + length rest)%nat -> inp = integer_encode x ++ rest.
Proof. exact integer_shortest_unique. Qed.
Example compact_int_canonical_ex :
  integer_decode 64 [128; 200; 9] = Ok (200, [9]) /\ length [128; 200; 9] = (length (integer_encode 200) + 1)%nat.
Proof. vm_compute. auto. Qed.
Print Assumptions compact_int_canonical_refuted.
Print Assumptions compact_int_canonical_partial.

(** * C04 *)
Theorem fixed_int_encode_iff : forall x n bs,
  encode_fixed x n = Ok bs <-> (n <= 8)%nat /\ x < 2 ^ (8 * N.of_nat n) /\ bs = le_bytes n x.
Proof. exact encode_fixed_ok_iff. Qed.
Theorem fixed_int_roundtrip : forall w n x rest, w <= 64 -> 8 * N.of_nat n <= w -> x < 2 ^ (8 * N.of_nat n) ->
  decode_fixed w n (le_bytes n x ++ rest) = Ok (x, rest).
Proof. exact decode_fixed_ok. Qed.
Theorem fixed_int_decode_canonical : forall w n inp x rest, Bytes inp -> decode_fixed w n inp = Ok (x, rest) ->
  N.of_nat n <= w / 8 /\ inp = le_bytes n x ++ rest /\ x < 2 ^ (8 * N.of_nat n) /\ x < 2 ^ w.
Proof. exact decode_fixed_inv. Qed.
Example fixed_int_ex : encode_fixed 65536 2 = Err ConversionError /\
  encode_fixed 65535 2 = Ok [255; 255] /\ decode_fixed 16 3 [1; 2; 3] = Err InvalidSize /\
  decode_fixed 32 3 [1; 2; 3; 4] = Ok (197121, [4]).
Proof. vm_compute. auto. Qed.
Print Assumptions fixed_int_encode_iff.
Print Assumptions fixed_int_roundtrip.
Print Assumptions fixed_int_decode_canonical.

(** * C05 *)
Theorem composite_roundtrip : forall t v, ty_ok t -> wf t v ->
  exists bs, encode t v = Ok bs /\ Bytes bs /\ forall rest, decode t (bs ++ rest) = Ok (v, rest).
Proof. exact codec_roundtrip. Qed.
Theorem composite_prefix_free : forall t v1 v2 b1 b2 r, ty_ok t -> wf t v1 -> wf t v2 ->
  encode t v1 = Ok b1 -> encode t v2 = Ok b2 -> b1 = b2 ++ r -> v1 = v2 /\ r = [].
Proof. exact codec_prefix_free. Qed.
Theorem composite_decode_local : forall t inp v rest, ty_ok t -> Bytes inp -> decode t inp = Ok (v, rest) ->
  wf t v /\ exists used, inp = used ++ rest /\ forall r, decode t (used ++ r) = Ok (v, r).
Proof. exact codec_local. Qed.
Theorem block_roundtrip : forall P (v : interp (t_block P)), core_count P <= bitvec_max_bits -> wf (t_block P) v ->
  exists bs, encode (t_block P) v = Ok bs /\ Bytes bs /\ forall rest, decode (t_block P) (bs ++ rest) = Ok (v, rest).
Proof. intros P v H W. exact (codec_roundtrip (t_block P) v (block_ok P H) W). Qed.

Definition ex_ty := TPair (TMap (TByteArr 2) (TVec 8 (TUint 32))) (TPair TBits (TOption (TTagged 6 TOctets))).
Definition ex_val : interp ex_ty :=
  ([([1; 2], [5; 300]); ([1; 3], [])], ([true; false; true; true; false; true; true; true; true], Some (inl [9; 9; 9]))).
Example composite_ex : ty_ok ex_ty /\ wf ex_ty ex_val /\
  encode ex_ty ex_val = Ok [2; 1; 2; 2; 5; 129; 44; 1; 3; 0; 9; 237; 1; 1; 0; 3; 9; 9; 9].
Proof.
  split; [cbn; repeat split; lia|]. split; [|vm_compute; reflexivity].
  apply wfb_sound. vm_compute. reflexivity.
Qed.
Print Assumptions composite_roundtrip.
Print Assumptions composite_prefix_free.
Print Assumptions composite_decode_local.
Print Assumptions block_roundtrip.

(** * C06 — false of the code (finding): set padding bits, unsorted and duplicate map keys are accepted. It
    holds for the types without variable-length parts. *)
Theorem composite_canonical_refuted :
  (exists b1 b2 v, Bytes b1 /\ Bytes b2 /\ b1 <> b2 /\ decode TBits b1 = Ok (v, []) /\ decode TBits b2 = Ok (v, [])) /\
  (exists b1 b2 v, Bytes b1 /\ Bytes b2 /\ b1 <> b2 /\
     decode (TMap (TFix 8 1) (TFix 8 1)) b1 = Ok (v, []) /\ decode (TMap (TFix 8 1) (TFix 8 1)) b2 = Ok (v, [])) /\
  (exists b1 b2 v, Bytes b1 /\ Bytes b2 /\ length b1 <> length b2 /\
     decode (TSet (TFix 8 1)) b1 = Ok (v, []) /\ decode (TSet (TFix 8 1)) b2 = Ok (v, [])).
Proof.
  split; [|split].
  - exists [1; 1], [1; 255], [true]. repeat split; try discriminate; apply bytesb_sound; reflexivity.
  - exists [2; 1; 9; 2; 9], [2; 2; 9; 1; 9], [(1, 9); (2, 9)]. repeat split; try discriminate; apply bytesb_sound; reflexivity.
  - exists [1; 7], [2; 7; 7], [7]. repeat split; try discriminate; apply bytesb_sound; reflexivity.
Qed.
Theorem composite_canonical_partial : forall t inp v rest, ty_ok t -> rigid t -> Bytes inp ->
  decode t inp = Ok (v, rest) -> exists bs, encode t v = Ok bs /\ inp = bs ++ rest.
Proof. intros t inp v rest H1 H2. exact (rigid_CAN t H1 H2 inp v rest). Qed.
(** Length prefixes are attacker-controlled: a vector of 2^63 elements makes the decoder panic (finding). *)
Theorem decode_total_refuted : exists inp, Bytes inp /\ decode (TVec 32 (TByteArr 32)) inp = Panic.
Proof. exists [255; 255; 255; 255; 255; 255; 255; 255; 255]. split; [apply bytesb_sound; reflexivity|vm_compute; reflexivity]. Qed.
Example composite_canonical_ex : ty_ok (TPair (TOption (TFix 32 4)) (TArr 2 TBool)) /\
  rigid (TPair (TOption (TFix 32 4)) (TArr 2 TBool)) /\
  decode (TPair (TOption (TFix 32 4)) (TArr 2 TBool)) [1; 9; 0; 0; 0; 1; 0; 77] = Ok ((Some 9, [true; false]), [77]).
Proof. vm_compute. repeat split; congruence. Qed.
Print Assumptions composite_canonical_refuted.
Print Assumptions composite_canonical_partial.
Print Assumptions decode_total_refuted.

(** * C46 *)
Theorem extrinsic_hash_commitment : forall (P : params) (H : bytes -> bytes),
  (forall x, length (H x) = 32%nat) -> (forall x, Bytes (H x)) -> core_count P <= bitvec_max_bits ->
  forall e1 e2 h, wf (t_extrinsics P) e1 -> wf (t_extrinsics P) e2 ->
  extrinsics_hash P H e1 = Ok h -> extrinsics_hash P H e2 = Ok h ->
  e1 = e2 \/ exists x y, hashed_by P H e1 x /\ hashed_by P H e2 y /\ x <> y /\ H x = H y.
Proof. exact extrinsics_hash_commits. Qed.
Theorem header_hash_commitment : forall (P : params) (H : bytes -> bytes), core_count P <= bitvec_max_bits ->
  forall h1 h2 x, wf (t_header P) h1 -> wf (t_header P) h2 ->
  header_hash P H h1 = Ok x -> header_hash P H h2 = Ok x ->
  h1 = h2 \/ exists b1 b2, encode (t_header P) h1 = Ok b1 /\ encode (t_header P) h2 = Ok b2 /\ b1 <> b2 /\ H b1 = H b2.
Proof. exact header_hash_commits. Qed.

Definition ex_params : params :=
  {| validator_count := 6; core_count := 2; epoch_length := 12; super_majority := 5;
     sz_ticket := 16; sz_preimage := 32; sz_guarantee := 512; sz_credential := 66; sz_assurance := 160;
     sz_verdict := 400; sz_culprit := 128; sz_fault := 136; sz_digest := 152; sz_import := 34; sz_xtinfo := 36; sz_item := 200 |}.
Definition z32 := repeat 0 32.
Definition ex_report : interp (t_report ex_params) :=
  ((z32, (7, (z32, (z32, 1)))), ((z32, (z32, (z32, (z32, (3, [z32]))))), (1, (z32, (500, ([1; 2], ([], [])))))))
.
Definition ex_xts (slot : N) : interp (t_extrinsics ex_params) :=
  ([(1, repeat 3 784)], ([(9, [1; 2; 3])], ([(ex_report, (slot, [(4, repeat 7 64)]))],
   ([(z32, ([true; false], (3, repeat 1 64)))], ([], ([], [])))))).
(** The hypotheses are met: a non-trivial body is well formed and has a hash, and two bodies that differ only
    in one guarantee's slot are distinguished by the theorem. *)
Definition toy_hash (b : bytes) : bytes := repeat (N.modulo (fold_left N.add b 0) 256) 32.
Example xts_ex : wf (t_extrinsics ex_params) (ex_xts 8) /\ is_ok (extrinsics_hash ex_params toy_hash (ex_xts 8)) = true
  /\ (forall x, length (toy_hash x) = 32%nat) /\ (forall x, Bytes (toy_hash x)).
Proof.
  split; [|split; [vm_compute; reflexivity|split]].
  - apply wfb_sound. vm_compute. reflexivity.
  - intros x. apply repeat_length.
  - intros x. apply Forall_forall. intros y Hy. apply repeat_spec in Hy. subst. apply N.mod_lt. discriminate.
Qed.
Print Assumptions extrinsic_hash_commitment.
Print Assumptions header_hash_commitment.

(** * C47 *)
Theorem size_hint_exact_partial : forall t v bs, ty_ok t -> exact_hint t -> wf t v -> encode t v = Ok bs ->
  size_hint t v = N.of_nat (length bs).
Proof. exact codec_size_hint. Qed.
(** Sets, bit strings, maps and fixed-size vectors misreport their size (finding; capacity hints only). *)
Theorem size_hint_exact_refuted :
  (exists v bs, wf (TSet (TFix 8 1)) v /\ encode (TSet (TFix 8 1)) v = Ok bs /\ size_hint (TSet (TFix 8 1)) v <> N.of_nat (length bs)) /\
  (exists v bs, wf TBits v /\ encode TBits v = Ok bs /\ size_hint TBits v <> N.of_nat (length bs)) /\
  (exists v bs, wf (TMap (TFix 8 1) TOctets) v /\ encode (TMap (TFix 8 1) TOctets) v = Ok bs
                /\ size_hint (TMap (TFix 8 1) TOctets) v <> N.of_nat (length bs)) /\
  (exists v bs, wf (TArr 2 (TFix 32 4)) v /\ encode (TArr 2 (TFix 32 4)) v = Ok bs /\ fixedvec_size_hint 2 <> N.of_nat (length bs)).
Proof.
  split; [|split; [|split]].
  - exists [1], [1; 1]. split; [apply wfb_sound|split]; vm_compute; congruence.
  - exists (repeat true 128), ([128; 128] ++ repeat 255 16). split; [apply wfb_sound|split]; vm_compute; congruence.
  - exists [(1, []); (2, [7; 7])], [2; 1; 0; 2; 2; 7; 7]. split; [apply wfb_sound|split]; vm_compute; congruence.
  - exists [1; 2], [1; 0; 0; 0; 2; 0; 0; 0]. split; [apply wfb_sound|split]; vm_compute; congruence.
Qed.
Example size_hint_ex : exact_hint ex_ty -> False.
Proof. cbn. tauto. Qed.
Example size_hint_ex2 : exact_hint (TPair (TVec 4 (TUint 32)) (TOption (TFix 16 2))) /\
  size_hint (TPair (TVec 4 (TUint 32)) (TOption (TFix 16 2))) ([5; 300], Some 7) = 7.
Proof. vm_compute. auto. Qed.
Print Assumptions size_hint_exact_partial.
Print Assumptions size_hint_exact_refuted.
