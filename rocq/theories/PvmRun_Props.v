(** C27, C28, C29, C62, C63, C64: executing PVM programs. *)
From Coq Require Import Lia ZArith ZifyBool.
From Verif Require Import Base Base_Proofs Codec_Model PvmMem_Model PvmMem_Spec PvmMem_Proofs PvmProg_Model PvmStep_Model PvmStep_Spec PvmProg_Spec PvmAlu_Proofs
  PvmMem_Props PvmUniq_Proofs PvmProg_Proofs PvmProg_Props PvmRun_Spec PvmStep_Proofs PvmStep2_Proofs PvmRun_Proofs.
Open Scope N_scope.

(** ** C27: arithmetic *)
(** The specification names one result for all operands, and the node computes it. *)
Theorem arithmetic_definite : forall op a b d r r', meaning op a b d r -> meaning op a b d r' -> r = r'.
Proof. exact meaning_uniq. Qed.
Theorem arithmetic_one_exact : forall op a, form_of op = FMath1 -> a < 2 ^ 64 -> exists r, alu1 op a = Some r /\ meaning op a 0 0 r /\ r < 2 ^ 64.
Proof.
  intros op a F Ha. assert (E : exists r, alu1 op a = Some r) by (destruct op; try discriminate F; eexists; reflexivity). destruct E as [r E].
  exists r. pose proof (alu1_meaning op a 0 r Ha E) as M. split; [exact E|]. split; [exact M|]. apply (meaning_lt op a 0 0); auto; reflexivity.
Qed.
Theorem arithmetic_immediate_exact : forall op a b d, form_of op = FMath2 -> a < 2 ^ 64 -> b < 2 ^ 64 -> d < 2 ^ 64 ->
  exists r, alu2 op a b d = Some r /\ meaning op a b d r /\ r < 2 ^ 64.
Proof.
  intros op a b d F Ha Hb Hd. assert (E : exists r, alu2 op a b d = Some r) by (destruct op; try discriminate F; eexists; reflexivity). destruct E as [r E].
  exists r. pose proof (alu2_meaning op a b d r Ha Hb E) as M. split; [exact E|]. split; [exact M|]. apply (meaning_lt op a b d); auto.
Qed.
(** The full property has no [rem_s_bad]. *)
Theorem arithmetic_two_exact_partial : forall op a b d, form_of op = FMath3 -> a < 2 ^ 64 -> b < 2 ^ 64 -> d < 2 ^ 64 -> ~ rem_s_bad op a b ->
  exists r, alu3 op a b d = Some r /\ meaning op a b d r /\ r < 2 ^ 64.
Proof.
  intros op a b d F Ha Hb Hd B. assert (E : exists r, alu3 op a b d = Some r) by (destruct op; try discriminate F; eexists; reflexivity). destruct E as [r E].
  exists r. pose proof (alu3_meaning op a b d r Ha Hb B E) as M. split; [exact E|]. split; [exact M|]. apply (meaning_lt op a b d); auto.
Qed.
(** The remainder of -2^31 by 3 is -2; the node says 2. The same for -2^63. *)
Theorem remainder_refuted : exists r, alu3 REM_S_32 (2 ^ 31) 3 0 = Some r /\ ~ meaning REM_S_32 (2 ^ 31) 3 0 r.
Proof. eexists. split; [vm_compute; reflexivity|]. vm_compute. discriminate. Qed.
Theorem remainder64_refuted : exists r, alu3 REM_S_64 (2 ^ 63) 3 0 = Some r /\ ~ meaning REM_S_64 (2 ^ 63) 3 0 r.
Proof. eexists. split; [vm_compute; reflexivity|]. vm_compute. discriminate. Qed.
Example arithmetic_cases :
  alu3 DIV_S_32 (2 ^ 31) (2 ^ 64 - 1) 0 = Some (2 ^ 64 - 2 ^ 31) /\ alu3 MUL_UPPER_S_U (2 ^ 64 - 1) (2 ^ 64 - 1) 0 = Some (2 ^ 64 - 1) /\
  alu2 SHAR_R_IMM_32 (2 ^ 31) 33 0 = Some (2 ^ 64 - 2 ^ 30) /\ alu1 REVERSE_BYTES 1 = Some (2 ^ 56) /\ ~ rem_s_bad REM_S_64 (2 ^ 64 - 7) 3.
Proof. split; [|split; [|split; [|split]]]; try (vm_compute; reflexivity). vm_compute. intros [H _]. discriminate H. Qed.

(** ** C27, C29, C64: a step *)
(** For every loaded program and machine, the step does to registers, memory, program counter and gas what the specification says of the
    instruction at the program counter. Not covered: the cases of [deviates], and programs that begin with a block-ending instruction. *)
Theorem step_exact_partial : forall blob p s n, Bytes blob -> load_program blob = Ok p -> N.of_nat (length (p_code p)) < 2 ^ 31 ->
  ~ opcode_at (p_mask p) 0 \/ ends_block (code_at (p_code p) 0) = false ->
  machine_ok s -> (0 < v_gas s < 2 ^ 63)%Z -> v_pc s = N.of_nat n -> opcode_at (p_mask p) n ->
  exists i l, holds (p_code p) (p_mask p) n l i /\
    (deviates s i \/ exists e, does (lands (p_code p) (p_mask p)) (p_jump p) s i (N.of_nat (n + 1 + l)) e /\ realizes p s e).
Proof.
  intros blob p s n HB HP HL H0 Hm Hg Hn Ho.
  destruct (step_refines_lemma blob p (lands (p_code p) (p_mask p)) HB HP HL) with (s := s) (n := n) as (i & l & HH & _ & R); auto.
  - intros t. unfold lands. rewrite Nat2N.id. now apply block_starts_exact_partial with blob.
  - exists i, l. auto.
Qed.
(** The same for every program, with the node's own set of jump targets. *)
Theorem step_any_partial : forall blob p s n, Bytes blob -> load_program blob = Ok p -> N.of_nat (length (p_code p)) < 2 ^ 31 ->
  machine_ok s -> (0 < v_gas s < 2 ^ 63)%Z -> v_pc s = N.of_nat n -> opcode_at (p_mask p) n ->
  exists i l, holds (p_code p) (p_mask p) n l i /\
    (deviates s i \/ exists e, does (fun t => block_start_but_first (p_code p) (p_mask p) (N.to_nat t)) (p_jump p) s i (N.of_nat (n + 1 + l)) e /\ realizes p s e).
Proof.
  intros blob p s n HB HP HL Hm Hg Hn Ho.
  destruct (step_refines_lemma blob p (fun t => block_start_but_first (p_code p) (p_mask p) (N.to_nat t)) HB HP HL) with (s := s) (n := n) as (i & l & HH & _ & R); auto.
  - intros t. rewrite Nat2N.id. now apply starts_spec with blob.
  - exists i, l. auto.
Qed.
(** At a position without an instruction the run ends with a panic that costs nothing. *)
Theorem no_instruction_panics : forall blob p s n, Bytes blob -> load_program blob = Ok p -> v_pc s = N.of_nat n -> ~ opcode_at (p_mask p) n ->
  step p s = Ok (Stop XPanic s).
Proof.
  intros blob p s n HB HP Hn Ho. apply step_none with n; [exact Hn|]. destruct (instruction_op blob p n HB HP) as [I _].
  destruct (instruction_at p (N.of_nat n)) as [i|] eqn:Ei; [|reflexivity]. exfalso. apply Ho, I. congruence.
Qed.

(** ** C62: whole runs *)
(** A run ends in a way the specification allows, never with an error, unless it comes to an instruction of [deviates]. *)
Theorem run_exact_partial : forall blob p fuel s r, Bytes blob -> load_program blob = Ok p -> N.of_nat (length (p_code p)) < 2 ^ 31 ->
  ~ opcode_at (p_mask p) 0 \/ ends_block (code_at (p_code p) 0) = false ->
  machine_ok s -> (0 <= v_gas s < 2 ^ 63)%Z -> invoke_general fuel p s = Some r ->
  strays (p_code p) (p_mask p) (p_jump p) s \/ exists x s', r = Ok (x, s') /\ runs (p_code p) (p_mask p) (p_jump p) s x.
Proof.
  intros blob p fuel s r HB HP HL H0 Hm Hg H. apply (run_refines_lemma blob p HB HP HL) with fuel; auto.
  intros t. unfold lands. rewrite Nat2N.id. now apply block_starts_exact_partial with blob.
Qed.

(** A machine with one writable page at 128 KiB, and a readable one behind it. *)
Definition page_acc (k : N) : access := if k =? 32 then ReadWrite else if k =? 33 then ReadOnly else if k =? 2 ^ 20 - 1 then ReadWrite else Inaccessible.
Definition sample_mem : mem := mk_mem (fun x => x mod 256) (2 ^ 32) page_acc 4096 (2 ^ 20) 0 0 0.
Definition sample_vm (regs : list N) (pc : N) (g : Z) : vm := mk_vm regs sample_mem pc g.
Definition regs_of (a b c : N) : list N := a :: b :: c :: repeat 0 10.
Lemma sample_vm_ok a b c pc g : a < 2 ^ 64 -> b < 2 ^ 64 -> c < 2 ^ 64 -> machine_ok (sample_vm (regs_of a b c) pc g).
Proof.
  intros Ha Hb Hc. split; [reflexivity|]. split; [repeat (constructor; [assumption || reflexivity|]); constructor|]. split; [repeat split; discriminate|].
  split; [reflexivity|]. intros x. cbn. apply N.mod_upper_bound. discriminate.
Qed.
Example step_sample : exists s', step sample_prog (sample_vm (regs_of 5 6 7) 3 9) = Ok (Cont s') /\ v_regs s' = regs_of 5 307 7 /\ v_pc s' = 7 /\ v_gas s' = 8%Z.
Proof. eexists. split; [vm_compute; reflexivity|]. vm_compute. repeat split. Qed.
Example step_sample_meets : N.of_nat (length (p_code sample_prog)) < 2 ^ 31 /\ ends_block (code_at (p_code sample_prog) 0) = false /\ opcode_at (p_mask sample_prog) 3.
Proof. split; [reflexivity|]. split; reflexivity. Qed.
(** The sample loops back to its start until its gas is used up. *)
Example run_sample : exists s', invoke_general 40 sample_prog (sample_vm (regs_of 5 6 7) 11 9) = Some (Ok (XPanic, s')) /\ v_gas s' = 4%Z.
Proof. eexists. split; vm_compute; reflexivity. Qed.

Definition load (code : bytes) (mask : list bool) : prog := match load_program (program_blob 0 [] code mask) with Ok p => p | _ => mk_prog [] [] [] [] [] [] end.
(** A two-byte store at the last address of a memory whose last page is writable stops the invocation with an error, not with an exit. *)
Theorem guest_error_refuted : exists blob p s, Bytes blob /\ load_program blob = Ok p /\ machine_ok s /\ v_pc s = 0 /\ (0 < v_gas s)%Z /\
  exists e, invoke_general 5 p s = Some (Err e).
Proof.
  exists (program_blob 0 [] [60; 0; 255; 255; 255; 255] [true; false; false; false; false; false]). eexists. exists (sample_vm (regs_of 0 0 0) 0 9).
  split; [repeat (constructor; [reflexivity|]); constructor|]. split; [vm_compute; reflexivity|]. split; [now apply sample_vm_ok|]. split; [reflexivity|].
  split; [reflexivity|]. eexists. vm_compute. reflexivity.
Qed.
Theorem guest_load_error_refuted : exists blob p s, Bytes blob /\ load_program blob = Ok p /\ machine_ok s /\ v_pc s = 0 /\ (0 < v_gas s)%Z /\
  exists e, invoke_general 5 p s = Some (Err e).
Proof.
  exists (program_blob 0 [] [54; 0; 255; 255; 255; 255] [true; false; false; false; false; false]). eexists. exists (sample_vm (regs_of 0 0 0) 0 9).
  split; [repeat (constructor; [reflexivity|]); constructor|]. split; [vm_compute; reflexivity|]. split; [now apply sample_vm_ok|]. split; [reflexivity|].
  split; [reflexivity|]. eexists. vm_compute. reflexivity.
Qed.

(** ** C64: faults *)
(** Whatever access is refused, the run ends with a panic below 64 KiB and otherwise with a fault at the page of the lowest refused byte; memory is unchanged. *)
Theorem fault_exact_partial : forall blob p s n, Bytes blob -> load_program blob = Ok p -> N.of_nat (length (p_code p)) < 2 ^ 31 ->
  machine_ok s -> (0 < v_gas s < 2 ^ 63)%Z -> v_pc s = N.of_nat n -> opcode_at (p_mask p) n ->
  exists i l, holds (p_code p) (p_mask p) n l i /\
    (deviates s i \/ forall x a w, refused (match form_of (i_op i) with FLoad _ _ _ => readable (v_mem s) | _ => writable (v_mem s) end) a w x -> accesses s i a w ->
       exists s', step p s = Ok (Stop x s') /\ v_mem s' = v_mem s /\ v_gas s' = (v_gas s - 1)%Z /\ match x with PageFault _ => v_regs s' = v_regs s | _ => True end).
Proof.
  intros blob p s n HB HP HL Hm Hg Hn Ho. destruct (step_any_partial blob p s n HB HP HL Hm Hg Hn Ho) as (i & l & HH & R). exists i, l. split; [exact HH|].
  destruct R as [D|(e & De & R)]; [now left|right]. intros x a w HR HA.
  assert (NS : forall P, refused P a w x -> ~ all_spots P a w) by (intros P (b & (k & Hk & ->) & Hb & _) S; now apply Hb, S).
  assert (UX : forall P x', refused P a w x -> refused P a w x' -> x = x').
  { intros P x' (b & (k & Hk & Eb) & Hb & Hmin & ->) (b' & (k' & Hk' & Eb') & Hb' & Hmin' & ->).
    assert (b = b') as ->; [|reflexivity]. subst b b'. specialize (Hmin k' Hk' Hb'). specialize (Hmin' k Hk Hb). lia. }
  assert (EE : e = End x).
  { destruct HA as (y & Ey & HA). unfold does in De. cbv zeta in De. unfold loads, stores in De.
    destruct (form_of (i_op i)) as [| | | | | | | | | | |[|] w' sg|[|] w'|[|] w'| | |]; try contradiction.
    - destruct HA as (<- & b & Eb & ->). destruct De as (r & b' & y' & _ & Eb' & Ey' & De). assert (b' = b) as -> by congruence. assert (y' = y) as -> by congruence.
      destruct De as [(S & _)|(x' & HR' & ->)]; [now apply NS in HR|]. f_equal. symmetry. now apply (UX (readable (v_mem s))).
    - destruct HA as (<- & ->). destruct De as (r & y' & _ & Ey' & De). assert (y' = y) as -> by congruence.
      destruct De as [(S & _)|(x' & HR' & ->)]; [now apply NS in HR|]. f_equal. symmetry. now apply (UX (readable (v_mem s))).
    - destruct HA as (<- & b & Eb & ->). destruct De as (r & b' & y' & _ & Eb' & Ey' & De). assert (b' = b) as -> by congruence. assert (y' = y) as -> by congruence.
      destruct De as [(S & _)|(x' & HR' & ->)]; [now apply NS in HR|]. f_equal. symmetry. now apply (UX (writable (v_mem s))).
    - destruct HA as (<- & ->). destruct De as (r & y' & _ & Ey' & De). assert (y' = y) as -> by congruence.
      destruct De as [(S & _)|(x' & HR' & ->)]; [now apply NS in HR|]. f_equal. symmetry. now apply (UX (writable (v_mem s))).
    - destruct HA as (<- & b & Eb & ->). destruct De as (b' & y' & z & Eb' & Ey' & _ & De). assert (b' = b) as -> by congruence. assert (y' = y) as -> by congruence.
      destruct De as [(S & _)|(x' & HR' & ->)]; [now apply NS in HR|]. f_equal. symmetry. now apply (UX (writable (v_mem s))).
    - destruct HA as (<- & ->). destruct De as (y' & z & Ey' & _ & De). assert (y' = y) as -> by congruence.
      destruct De as [(S & _)|(x' & HR' & ->)]; [now apply NS in HR|]. f_equal. symmetry. now apply (UX (writable (v_mem s))). }
  subst e. destruct R as (s' & E & G & M & X & _). exists s'. destruct x; auto.
Qed.
Example fault_case : (* STORE_IND_U32 r0, r1, 4094: across the end of the writable page *)
  let p := load [122; 16; 254; 15] [true; false; false; false] in
  exists s', step p (sample_vm (regs_of 1 131072 0) 0 9) = Ok (Stop (PageFault (33 * 4096)) s').
Proof. eexists. vm_compute. reflexivity. Qed.
(** A one-byte load reports the address itself. *)
Theorem byte_fault_refuted : exists p s s', p = load [52; 0; 1; 0; 4] [true; false; false; false; false] /\ machine_ok s /\ (0 < v_gas s)%Z /\
  step p s = Ok (Stop (PageFault 262145) s') /\ 262145 mod 4096 = 1.
Proof. eexists. exists (sample_vm (regs_of 0 0 0) 0 9). eexists. split; [reflexivity|]. split; [now apply sample_vm_ok|]. split; [reflexivity|]. split; vm_compute; reflexivity. Qed.
(** A fault should leave the program counter at the instruction. A faulting load does; a faulting store sets it to 0. *)
Theorem store_fault_counter_refuted : exists p s s' a, machine_ok s /\ v_pc s = 1 /\ instruction_at p 1 <> None /\ step p s = Ok (Stop (PageFault a) s') /\ v_pc s' = 0.
Proof.
  exists (load [1; 60; 0; 0; 0; 4] [true; true; false; false; false; false]), (sample_vm (regs_of 0 0 0) 1 9). eexists. exists 262144.
  split; [now apply sample_vm_ok|]. split; [reflexivity|]. split; [vm_compute; discriminate|]. split; vm_compute; reflexivity.
Qed.

(** ** C28: gas *)
(** [k] instructions cost [k] units, and there are never more than the gas at the start. *)
Theorem instructions_bounded : forall p k s s', (0 <= v_gas s)%Z -> steps p k s s' -> v_gas s' = (v_gas s - Z.of_nat k)%Z /\ (Z.of_nat k <= v_gas s)%Z.
Proof. intros p k s s' Hg H. apply steps_gas in H as [A B]. split; [exact A|]. destruct k; [lia|]. specialize (B ltac:(discriminate)). lia. Qed.
(** Every run ends, with the same result however long one is prepared to wait. *)
Theorem run_ends : forall p s, (0 <= v_gas s)%Z -> exists r, forall fuel, (v_gas s < Z.of_nat fuel)%Z -> invoke_general fuel p s = Some r.
Proof.
  intros p s Hg. destruct (invoke_ends p (S (Z.to_nat (v_gas s))) s) as [r H]; [lia|exact Hg|]. exists r. intros fuel Hf.
  apply invoke_fuel with (S (Z.to_nat (v_gas s))); [exact H|lia].
Qed.
(** It ends out of gas exactly when the counter went below zero, which is when as many instructions as units of gas were executed and another was due. *)
Theorem out_of_gas_exact : forall p fuel s x s', (0 <= v_gas s)%Z -> invoke_general fuel p s = Some (Ok (x, s')) ->
  exists k s1, steps p k s s1 /\ step p s1 = Ok (Stop x s') /\ (Z.of_nat k <= v_gas s)%Z /\ (-1 <= v_gas s' <= v_gas s)%Z /\ (x = OutOfGas <-> (v_gas s' < 0)%Z) /\
    (x = OutOfGas -> Z.of_nat k = v_gas s).
Proof. intros p fuel s x s'. exact (invoke_gas p fuel s x s'). Qed.
(** The same for runs with host calls, whatever the host functions do. *)
Theorem host_instructions_bounded : forall (C : Type) (host : N -> vm -> C -> result verr (hchange * C)) t p k s c s' c', (0 <= v_gas s)%Z ->
  hsteps host t p k s c s' c' -> (0 <= v_gas s' <= v_gas s - Z.of_nat k)%Z.
Proof. intros C host t p k s c s' c' Hg H. apply hsteps_gas in H as [A B]. specialize (B Hg). lia. Qed.
Theorem host_run_ends : forall (C : Type) (host : N -> vm -> C -> result verr (hchange * C)) t p s c, (0 <= v_gas s)%Z ->
  exists r, forall fuel, (v_gas s < Z.of_nat fuel)%Z -> invoke_extended host fuel t p s c = Some r.
Proof.
  intros C host t p s c Hg. destruct (extended_ends host t p (S (Z.to_nat (v_gas s))) s c) as [r H]; [lia|exact Hg|]. exists r. intros fuel Hf. apply H. lia.
Qed.
Theorem host_run_shape : forall (C : Type) (host : N -> vm -> C -> result verr (hchange * C)) t p fuel s c x s' c', (0 <= v_gas s)%Z ->
  invoke_extended host fuel t p s c = Some (Ok (x, s', c')) -> (v_gas s' <= v_gas s)%Z /\
  exists k s1 c1, hsteps host t p k s c s1 c1 /\
    ((step p s1 = Ok (Stop x s') /\ c' = c1 /\ (forall h, x <> HostCall h)) \/
     exists h s2 hc, step p s1 = Ok (Stop (HostCall h) s2) /\ execute_host host t s2 c1 h = Ok (hc, c') /\ apply_host s2 hc = Ok s' /\
       ((h_exit hc = Continue /\ x = OutOfGas /\ (v_gas s' < 0)%Z) \/ (h_exit hc = x /\ (x = XPanic \/ x = RegularHalt \/ x = OutOfGas)))).
Proof. intros C host t p fuel s c x s' c' Hg H. split; [now apply extended_gas in H|now apply extended_inv in H]. Qed.
(** If host functions report running out of gas exactly when they charge more than is left, so does the whole run. *)
Theorem host_out_of_gas_exact : forall (C : Type) (host : N -> vm -> C -> result verr (hchange * C)) t p fuel s c x s' c', (0 <= v_gas s)%Z ->
  (forall h s c hc c', host h s c = Ok (hc, c') -> (h_exit hc = OutOfGas -> (v_gas s < Z.of_N (h_gas hc))%Z) /\
     (h_exit hc = XPanic \/ h_exit hc = RegularHalt -> (Z.of_N (h_gas hc) <= v_gas s)%Z)) ->
  invoke_extended host fuel t p s c = Some (Ok (x, s', c')) -> x = OutOfGas <-> (v_gas s' < 0)%Z.
Proof. intros C host t p fuel s c x s' c' Hg HH H. now apply (extended_out host t p fuel s c x s' c'). Qed.
(** A program that jumps to itself runs out of its ten units. *)
Example gas_case : exists s', invoke_general 20 (load [40; 0] [true; false]) (sample_vm (regs_of 0 0 0) 0 10) = Some (Ok (OutOfGas, s')) /\ v_gas s' = (-1)%Z.
Proof. eexists. split; vm_compute; reflexivity. Qed.
(** [ecalli 0] and a jump back to it: three rounds of an [ecalli], ten units for the host and a jump, and then not enough for the next host call. *)
Example host_gas_case : exists s' c', invoke_extended (fun h s (c : N) => Ok (mk_hchange Continue 10 (Some 3) None None, c + 1)) 60 Refine
    (load [10; 0; 40; 254] [true; false; true; false]) (sample_vm (regs_of 0 0 0) 0 40) 0 = Some (Ok (OutOfGas, s', c')) /\ c' = 4.
Proof. do 2 eexists. split; vm_compute; reflexivity. Qed.

(** ** C63: host calls *)
Theorem host_call_dispatch : forall (C : Type) (host : N -> vm -> C -> result verr (hchange * C)) t s c h,
  (offered t h -> execute_host host t s c h = host h s c) /\ (~ offered t h -> execute_host host t s c h = Ok (what_result, c)).
Proof.
  intros C host t s c h. pose proof (offered_allowed host t h) as O. unfold execute_host. destruct (host_allowed t h).
  - assert (O' : offered t h) by now apply O. split; [|tauto]. intros _. destruct (N.eqb_spec h 255) as [->|]; [|reflexivity]. destruct t; cbn in O'; lia.
  - split; [|reflexivity]. intros Q. apply O in Q. discriminate.
Qed.
(** A call that is not offered puts 2^64 - 2 in register 7, costs ten units and goes on behind the [ecalli]. *)
Theorem unknown_call_what : forall (C : Type) (host : N -> vm -> C -> result verr (hchange * C)) t p s c h s1 f,
  step p s = Ok (Stop (HostCall h) s1) -> ~ offered t h -> (0 <= v_gas s < 2 ^ 63)%Z -> length (v_regs s1) = 13%nat ->
  exists s2, v_regs s2 = firstn 7 (v_regs s1) ++ [2 ^ 64 - 2] ++ skipn 8 (v_regs s1) /\ v_mem s2 = v_mem s1 /\ v_gas s2 = (v_gas s1 - 10)%Z /\
    (if (v_gas s1 <? 10)%Z then v_pc s2 = v_pc s1 /\ invoke_extended host (S f) t p s c = Some (Ok (OutOfGas, s2, c))
     else v_pc s2 = next_pc (v_pc s1) p /\ invoke_extended host (S f) t p s c = invoke_extended host f t p s2 c).
Proof.
  intros C host t p s c h s1 f E NO Hg HR. pose proof (host_stop host p s h s1 E) as G. destruct G as [G1 G2].
  assert (EH : execute_host host t s1 c h = Ok (what_result, c)) by now apply host_call_dispatch.
  set (s2 := mk_vm (set_nth 7 WHAT (v_regs s1)) (v_mem s1) (v_pc s1) (v_gas s1 - 10)).
  assert (EA : apply_host s1 what_result = Ok s2).
  { unfold apply_host, what_result. cbn [h_r7 h_r8 h_mem h_gas bind]. unfold charge. change (2 ^ 63 <=? 10) with false. cbn [set_reg v_gas].
    destruct (Z.ltb_spec (v_gas s1 - Z.of_N 10) (- 2 ^ 63)); [lia|]. reflexivity. }
  assert (ER : v_regs s2 = firstn 7 (v_regs s1) ++ [2 ^ 64 - 2] ++ skipn 8 (v_regs s1)).
  { subst s2. cbn [v_regs]. destruct (v_regs s1) as [|? [|? [|? [|? [|? [|? [|? [|? l]]]]]]]]; try discriminate HR. reflexivity. }
  assert (EI : invoke_extended host (S f) t p s c = if (v_gas s2 <? 0)%Z then Some (Ok (OutOfGas, s2, c)) else invoke_extended host f t p (set_pc s2 (next_pc (v_pc s2) p)) c).
  { cbn [invoke_extended]. cbn [invoke_general]. rewrite E, EH. cbn [h_exit what_result]. rewrite EA. reflexivity. }
  destruct (Z.ltb_spec (v_gas s1) 10) as [L|L].
  - exists s2. split; [exact ER|]. split; [reflexivity|]. split; [reflexivity|]. split; [reflexivity|]. rewrite EI.
    destruct (Z.ltb_spec (v_gas s2) 0) as [|L']; [reflexivity|]. cbn [s2 v_gas] in L'. lia.
  - exists (set_pc s2 (next_pc (v_pc s2) p)). split; [exact ER|]. split; [reflexivity|]. split; [reflexivity|]. split; [reflexivity|]. rewrite EI.
    destruct (Z.ltb_spec (v_gas s2) 0) as [L'|]; [|reflexivity]. cbn [s2 v_gas] in L'. lia.
Qed.
(** A call that is offered and goes on: its results go to registers 7 and 8, its bytes to memory, its charge off the gas, nothing else changes, and the
    program goes on behind the [ecalli]. *)
Theorem host_result_applied : forall (C : Type) (host : N -> vm -> C -> result verr (hchange * C)) t p s c h s1 f hc c',
  step p s = Ok (Stop (HostCall h) s1) -> offered t h -> host h s1 c = Ok (hc, c') -> h_exit hc = Continue -> (Z.of_N (h_gas hc) <= v_gas s1 < 2 ^ 63)%Z ->
  length (v_regs s1) = 13%nat -> mem_ok (v_mem s1) ->
  match h_mem hc with None => True | Some (a, bs) => a < 2 ^ 32 /\ bs <> [] /\ allowed (can_write (v_mem s1)) a (N.of_nat (length bs)) end ->
  exists s2, invoke_extended host (S f) t p s c = invoke_extended host f t p s2 c' /\ v_pc s2 = next_pc (v_pc s1) p /\ v_gas s2 = (v_gas s1 - Z.of_N (h_gas hc))%Z /\
    length (v_regs s2) = 13%nat /\
    nth 7 (v_regs s2) 0 = match h_r7 hc with Some v => v | None => nth 7 (v_regs s1) 0 end /\
    nth 8 (v_regs s2) 0 = match h_r8 hc with Some v => v | None => nth 8 (v_regs s1) 0 end /\
    (forall r, r <> 7%nat -> r <> 8%nat -> nth r (v_regs s2) 0 = nth r (v_regs s1) 0) /\
    (forall x, m_data (v_mem s2) x = match h_mem hc with
       | Some (a, bs) => if (a <=? x) && (x <? a + N.of_nat (length bs)) then nth (N.to_nat (x - a)) bs 0 else m_data (v_mem s1) x
       | None => m_data (v_mem s1) x end) /\
    (forall x, (can_read (v_mem s2) x <-> can_read (v_mem s1) x) /\ (can_write (v_mem s2) x <-> can_write (v_mem s1) x)).
Proof.
  intros C host t p s c h s1 f hc c' E OF EH EX Hg HR HM HW.
  assert (EE : execute_host host t s1 c h = Ok (hc, c')) by (rewrite <- EH; now apply host_call_dispatch).
  set (s1' := match h_r7 hc with Some v => set_reg s1 7 v | None => s1 end).
  set (s2' := match h_r8 hc with Some v => set_reg s1' 8 v | None => s1' end).
  assert (RG : v_mem s2' = v_mem s1 /\ v_pc s2' = v_pc s1 /\ v_gas s2' = v_gas s1).
  { subst s2' s1'. destruct (h_r7 hc), (h_r8 hc); cbn; auto. }
  assert (RR : length (v_regs s2') = 13%nat /\ nth 7 (v_regs s2') 0 = match h_r7 hc with Some v => v | None => nth 7 (v_regs s1) 0 end /\
    nth 8 (v_regs s2') 0 = match h_r8 hc with Some v => v | None => nth 8 (v_regs s1) 0 end /\
    (forall r, r <> 7%nat -> r <> 8%nat -> nth r (v_regs s2') 0 = nth r (v_regs s1) 0)).
  { subst s2' s1'. destruct (v_regs s1) as [|? [|? [|? [|? [|? [|? [|? [|? [|? l]]]]]]]]] eqn:ER; try discriminate HR.
    destruct (h_r7 hc), (h_r8 hc); cbn [set_reg v_regs]; rewrite ?ER; cbn [N.to_nat Pos.to_nat Pos.iter_op Nat.add set_nth length nth] in *;
    (split; [exact HR|]; split; [reflexivity|]; split; [reflexivity|]; intros r N7 N8; do 9 (destruct r as [|r]; [first [reflexivity|exfalso; lia]|]); reflexivity). }
  assert (MM : exists s3, (match h_mem hc with
              | Some (a, bs) => let! m' := lift EMem (write_bytes (v_mem s2') a bs) in Ok (set_mem s2' m')
              | None => Ok s2' end) = Ok s3 /\ v_regs s3 = v_regs s2' /\ v_pc s3 = v_pc s1 /\ v_gas s3 = v_gas s1 /\
     (forall x, m_data (v_mem s3) x = match h_mem hc with
       | Some (a, bs) => if (a <=? x) && (x <? a + N.of_nat (length bs)) then nth (N.to_nat (x - a)) bs 0 else m_data (v_mem s1) x
       | None => m_data (v_mem s1) x end) /\
    (forall x, (can_read (v_mem s3) x <-> can_read (v_mem s1) x) /\ (can_write (v_mem s3) x <-> can_write (v_mem s1) x))).
  { destruct RG as (G1 & G2 & G3). rewrite G1. destruct (h_mem hc) as [[a bs]|].
    - destruct HW as (W1 & W2 & W3). destruct (memory_write_exact (v_mem s1) a bs HM W1 W2) as (A & B & _).
      apply A in W3 as [m' W3]. rewrite W3. destruct (B m' W3) as (B1 & B2 & B3 & B4 & _). exists (set_mem s2' m').
      split; [reflexivity|]. split; [reflexivity|]. split; [exact G2|]. split; [exact G3|]. split; [|intros x; split; [apply B3|apply B4]].
      intros x. cbn [set_mem v_mem]. destruct (N.leb_spec a x), (N.ltb_spec x (a + N.of_nat (length bs))); cbn [andb]; [apply B1|apply B2|apply B2|apply B2]; lia.
    - exists s2'. rewrite G1. split; [reflexivity|]. split; [reflexivity|]. split; [exact G2|]. split; [exact G3|]. split; [reflexivity|]. intros x; split; reflexivity. }
  destruct MM as (s3 & M1 & M2 & M3 & M4 & M5 & M6).
  assert (EA : apply_host s1 hc = Ok (mk_vm (v_regs s3) (v_mem s3) (v_pc s3) (v_gas s1 - Z.of_N (h_gas hc))%Z)).
  { unfold apply_host. cbv zeta. fold s1'. fold s2'. rewrite M1. cbn [bind]. unfold charge. rewrite M4.
    destruct (N.leb_spec (2 ^ 63) (h_gas hc)); [exfalso; change (2 ^ 63) with 9223372036854775808 in *; change (2 ^ 63)%Z with 9223372036854775808%Z in *; lia|].
    destruct (Z.ltb_spec (v_gas s1 - Z.of_N (h_gas hc)) (- 2 ^ 63)); [lia|reflexivity]. }
  exists (set_pc (mk_vm (v_regs s3) (v_mem s3) (v_pc s3) (v_gas s1 - Z.of_N (h_gas hc))%Z) (next_pc (v_pc s3) p)).
  split.
  { cbn [invoke_extended]. cbn [invoke_general]. rewrite E, EE, EX, EA. cbn [v_gas v_pc].
    destruct (Z.ltb_spec (v_gas s1 - Z.of_N (h_gas hc)) 0); [lia|reflexivity]. }
  cbn [set_pc v_pc v_gas v_regs v_mem]. rewrite M2, M3. destruct RR as (R1 & R2 & R3 & R4). auto 12.
Qed.
(** A call that writes two bytes at 69632 and both registers. *)
Example host_result_case : exists s1 m2, step (load [10; 0; 0] [true; false; true]) (mk_vm (regs_of 1 2 3) small 0 50) = Ok (Stop (HostCall 0) s1) /\
  apply_host s1 (mk_hchange Continue 10 (Some 5) (Some 6) (Some (69632, [1; 2]))) = Ok (mk_vm (set_nth 8 6 (set_nth 7 5 (v_regs s1))) m2 0 39) /\
  read_bytes m2 69630 5 = Ok [103; 104; 1; 2; 107].
Proof. do 2 eexists. split; [vm_compute; reflexivity|]. split; vm_compute; reflexivity. Qed.
(** [ecalli] with an immediate below 256 makes that call. The full property has no bound. *)
Theorem ecalli_exact_partial : forall blob p s n, Bytes blob -> load_program blob = Ok p -> N.of_nat (length (p_code p)) < 2 ^ 31 ->
  machine_ok s -> (0 < v_gas s < 2 ^ 63)%Z -> v_pc s = N.of_nat n -> opcode_at (p_mask p) n -> code_at (p_code p) n = 10 ->
  exists l x, skip_is (p_mask p) n l /\ word (signed_at (p_code p) (n + 1) (Nat.min 4 l)) x /\
    (x < 256 -> exists s', step p s = Ok (Stop (HostCall (if host_known x then x else 255)) s') /\ v_regs s' = v_regs s /\ v_mem s' = v_mem s /\ v_pc s' = v_pc s /\
       v_gas s' = (v_gas s - 1)%Z).
Proof.
  intros blob p s n HB HP HL Hm Hg Hn Ho Hc. destruct (step_any_partial blob p s n HB HP HL Hm Hg Hn Ho) as (i & l & HH & R).
  assert (HH' := HH). destruct HH' as (_ & Nm & Sk & Op).
  assert (Hop : i_op i = ECALLI).
  { rewrite Hc in Nm. destruct Nm as [(lo & ops & Hin & Hlo & Hnth)|[K _]]; [|discriminate].
    clear - Hin Hlo Hnth. revert Hnth. generalize (i_op i). intros o Hnth. unfold opcode_runs in Hin. cbn [In] in Hin.
    repeat (destruct Hin as [Q|Hin]; [injection Q as <- <-; first [exfalso; lia|vm_compute in Hnth; congruence]|]). destruct Hin. }
  unfold operands in Op. rewrite Hc in Op. cbn [shape_of N.eqb Pos.eqb] in Op. destruct Op as (_ & (x & Ex & W) & _).
  exists l, x. split; [exact Sk|]. split; [exact W|]. intros Hx. destruct R as [D|(e & De & R)].
  - exfalso. destruct D as [F|r b _ _ B|a w A _|a ind sg _ F _ _ _|y _ Ey L _].
    + rewrite Hop in F. discriminate.
    + rewrite Hop in B. exact B.
    + destruct A as (y & _ & A). rewrite Hop in A. exact A.
    + rewrite Hop in F. discriminate.
    + rewrite Ex in Ey. injection Ey as <-. lia.
  - unfold does in De. cbv zeta in De. rewrite Hop in De. cbn [form_of] in De. destruct De as (y & Ey & ->). rewrite Ex in Ey. injection Ey as <-.
    destruct R as (s' & E & G & M & RR & PC). exists s'. auto.
Qed.
(** [ecalli 260] is made as call 4, [write]. *)
Theorem ecalli_refuted : exists p s s', p = load [10; 4; 1] [true; false; false] /\ machine_ok s /\ (0 < v_gas s)%Z /\
  (exists i, instruction_at p 0 = Some i /\ i_imm1 i = Some 260) /\ step p s = Ok (Stop (HostCall 4) s').
Proof.
  eexists. exists (sample_vm (regs_of 0 0 0) 0 9). eexists. split; [reflexivity|]. split; [now apply sample_vm_ok|]. split; [reflexivity|].
  split; [eexists; split; vm_compute; reflexivity|]. vm_compute. reflexivity.
Qed.
Example unknown_call_case : exists s2, step (load [10; 6] [true; false]) (sample_vm (regs_of 0 0 0) 0 30) = Ok (Stop (HostCall 6) s2) /\ ~ offered Accumulate 6.
Proof. eexists. split; [vm_compute; reflexivity|]. cbn. lia. Qed.
