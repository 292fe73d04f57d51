(** C29, C30, C60: PVM programs. *)
From Coq Require Import Lia.
From Verif Require Import Base Codec_Model PvmProg_Model PvmStep_Spec PvmProg_Spec PvmProg_Proofs.
Open Scope N_scope.

(** ** C29: skip distances and basic blocks *)
Theorem skip_distance_exact : forall blob p n, Bytes blob -> load_program blob = Ok p -> (n < length (p_code p))%nat ->
  exists d, skip_distance p (N.of_nat n) = Some d /\ forall d', skip_is (p_mask p) n d' <-> d' = d.
Proof. exact skip_distance_spec. Qed.

(** The full property is [nth t (p_starts p) false = true <-> block_start (p_code p) (p_mask p) t]; the node never looks at the
    instruction at position 0, so a program starting with a terminating instruction lacks the block behind it. *)
Theorem block_starts_partial : forall blob p t, Bytes blob -> load_program blob = Ok p ->
  nth t (p_starts p) false = true <-> block_start_but_first (p_code p) (p_mask p) t.
Proof. exact starts_spec. Qed.
Theorem block_starts_exact_partial : forall blob p t, Bytes blob -> load_program blob = Ok p ->
  ~ opcode_at (p_mask p) 0 \/ ends_block (code_at (p_code p) 0) = false ->
  nth t (p_starts p) false = true <-> block_start (p_code p) (p_mask p) t.
Proof.
  intros blob p t HB H H0. rewrite (starts_spec blob p t HB H). split.
  - intros [->|(n & d & Hn & A)]; [now left|]. right. exists n, d. split; [lia|exact A].
  - intros [->|(n & d & Hn & Ho & He & A)]; [now left|]. right. exists n, d. split; [|auto].
    destruct n; [|lia]. destruct H0 as [H0|H0]; [contradiction|congruence].
Qed.
(** A jump over a trap at position 0: position 1 begins a block by the specification, and the node disagrees. *)
Definition trap_first : bytes := program_blob 0 [] [1; 0] [true; true].
Theorem block_starts_refuted : exists blob p t, Bytes blob /\ load_program blob = Ok p /\ block_start (p_code p) (p_mask p) t /\ nth t (p_starts p) false = false.
Proof.
  exists trap_first. eexists. exists 1%nat. split; [|split; [vm_compute; reflexivity|split]].
  - repeat (constructor; [reflexivity|]). constructor.
  - right. exists 0%nat, 0%nat. cbn [p_code p_mask length]. split; [lia|]. split; [reflexivity|]. split; [reflexivity|]. split; [|reflexivity].
    exists 0%nat. split; [lia|]. split; [cbn; lia|]. split; [right; reflexivity|reflexivity].
  - reflexivity.
Qed.

(** ** C60: operands *)
Theorem instruction_exact : forall blob p n, Bytes blob -> load_program blob = Ok p ->
  (instruction_at p (N.of_nat n) <> None <-> opcode_at (p_mask p) n) /\
  (forall i, instruction_at p (N.of_nat n) = Some i -> names (code_at (p_code p) n) (i_op i) /\
     exists l, (l <= 15)%nat /\ skip_is (p_mask p) n l /\ complete (p_code p) n l /\ operands (p_code p) n l i).
Proof. exact instruction_spec. Qed.

(** ** C30: the blob *)
Theorem program_decodes : forall z jt code mask, (z <= 4)%nat -> Forall (fun x => x < 2 ^ (8 * N.of_nat z)) jt -> length mask = length code ->
  N.of_nat (length jt) < 2 ^ 61 -> N.of_nat (length code) < 2 ^ 61 -> deblob (program_blob z jt code mask) = Ok (code, mask, jt).
Proof. exact deblob_blob. Qed.
(** What is decoded is what the bytes say; only the two lengths and the unused bits of the last octet may be written in other ways. *)
Theorem program_reencode_partial : forall blob code mask jt, Bytes blob -> deblob blob = Ok (code, mask, jt) ->
  exists z e1 e2 m, blob = e1 ++ [N.of_nat z] ++ e2 ++ concat (map (le_bytes z) jt) ++ code ++ m /\
    integer_decode 64 e1 = Ok (N.of_nat (length jt), []) /\ integer_decode 64 e2 = Ok (N.of_nat (length code), []) /\
    (jt <> [] -> (z <= 4)%nat) /\ (z < 256)%nat /\ Forall (fun x => x < 2 ^ (8 * N.of_nat z)) jt /\ length mask = length code /\
    length m = ((length code + 7) / 8)%nat /\
    (forall k, (k < length code)%nat -> nth k mask false = N.testbit (nth (k / 8)%nat m 0) (N.of_nat (k mod 8))) /\ Bytes code.
Proof. exact deblob_inv. Qed.
Theorem program_reencode_refuted : exists blob blob' parts, blob <> blob' /\ Bytes blob /\ Bytes blob' /\ deblob blob = Ok parts /\ deblob blob' = Ok parts.
Proof.
  exists [0; 0; 1; 0; 1], [0; 0; 1; 0; 3], ([0], [true], []). split; [discriminate|].
  split; [repeat (constructor; [reflexivity|]); constructor|]. split; [repeat (constructor; [reflexivity|]); constructor|]. split; reflexivity.
Qed.
(** Once its parts are read, a program loads exactly when every instruction has at most 15 argument bytes and all it needs. *)
Theorem program_loads_iff : forall blob code mask jt, Bytes blob -> deblob blob = Ok (code, mask, jt) ->
  ((exists p, load_program blob = Ok p) <->
     forall n, (n < length code)%nat -> opcode_at mask n -> exists l, skip_is mask n l /\ (l <= 15)%nat /\ complete code n l) /\
  (forall e, load_program blob = Err e -> e = EInvalidInstructionFormat /\ exists n l, opcode_at mask n /\ skip_is mask n l /\ (15 < l)%nat) /\
  (load_program blob = Panic -> exists n l, opcode_at mask n /\ skip_is mask n l /\ ~ complete code n l).
Proof. exact load_iff. Qed.
(** Reading the parts crashes only for a blob that announces 2^61 or more entries or bytes. *)
Theorem program_parts_crash_partial : forall blob, Bytes blob -> deblob blob = Panic ->
  exists e1 z e2 rest jl cl, blob = e1 ++ [z] ++ e2 ++ rest /\ integer_decode 64 e1 = Ok (jl, []) /\ integer_decode 64 e2 = Ok (cl, []) /\ (2 ^ 61 <= jl \/ 2 ^ 61 <= cl).
Proof. exact deblob_panic. Qed.
(** Two blobs that crash the node: a one-byte MOVE_REG, and a jump table of 2^62 entries. *)
Theorem program_crash_refuted : exists blob, Bytes blob /\ deblob blob <> Panic /\ load_program blob = Panic.
Proof.
  exists (program_blob 0 [] [100] [true]). split; [repeat (constructor; [reflexivity|]); constructor|]. split; [discriminate|]. vm_compute. reflexivity.
Qed.
Theorem program_parts_crash_refuted : exists blob, Bytes blob /\ deblob blob = Panic.
Proof.
  exists (integer_encode (2 ^ 62) ++ [1; 0]). split; [|vm_compute; reflexivity].
  vm_compute. repeat (constructor; [reflexivity|]). constructor.
Qed.
(** A program whose only instruction is a jump followed by sixteen unused bytes is refused. *)
Theorem long_instruction_refuted : exists blob, Bytes blob /\ (exists parts, deblob blob = Ok parts) /\ load_program blob = Err EInvalidInstructionFormat.
Proof.
  exists (program_blob 0 [] (40 :: repeat 0 16) (true :: repeat false 16)). split; [|split].
  - vm_compute. repeat (constructor; [reflexivity|]). constructor.
  - eexists. vm_compute. reflexivity.
  - vm_compute. reflexivity.
Qed.

(** A program with a jump table: LOAD_IMM r1, -2; ADD_IMM_64 r2, r1, 300; BRANCH_EQ r1, r2, +4; TRAP; JUMP -3. *)
Definition sample_code : bytes := [51; 1; 254; 149; 33; 44; 1; 170; 33; 4; 0; 40; 245].
Definition sample_mask : list bool := [true; false; false; true; false; false; false; true; false; false; true; true; false].
Definition sample_blob : bytes := program_blob 1 [11] sample_code sample_mask.
Example sample_bytes : Bytes sample_blob. Proof. vm_compute. repeat (constructor; [reflexivity|]). constructor. Qed.
Definition sample_prog : prog := match load_program sample_blob with Ok p => p | _ => mk_prog [] [] [] [] [] [] end.
Example sample_loads : load_program sample_blob = Ok sample_prog. Proof. vm_compute. reflexivity. Qed.
Example sample_first : instruction_at sample_prog 0 = Some (mk_inst LOAD_IMM (Some 1) None None (Some (2 ^ 64 - 2)) None). Proof. vm_compute. reflexivity. Qed.
Example sample_branch : instruction_at sample_prog 7 = Some (mk_inst BRANCH_EQ (Some 1) (Some 2) None (Some 11) None). Proof. vm_compute. reflexivity. Qed.
Example sample_jump : instruction_at sample_prog 11 = Some (mk_inst JUMP None None None (Some 0) None). Proof. vm_compute. reflexivity. Qed.
Example sample_skips : p_skips sample_prog = [2; 1; 0; 3; 2; 1; 0; 2; 1; 0; 0; 1; 0]%nat. Proof. vm_compute. reflexivity. Qed.
Example sample_starts : p_starts sample_prog = [true; false; false; false; false; false; false; false; false; false; true; true; false; true].
Proof. vm_compute. reflexivity. Qed.
