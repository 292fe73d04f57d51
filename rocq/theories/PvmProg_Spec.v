(** What a PVM program blob means. Only the instruction names and the record of a decoded instruction come from the model. *)
From Verif Require Import Base Codec_Model PvmProg_Model PvmStep_Spec.
Open Scope N_scope.

(** The blob of a program: jump-table length, entry width, code length, entries, code, one bit per code byte. *)
Definition program_blob (z : nat) (jt : list N) (code : bytes) (mask : list bool) : bytes :=
  integer_encode (N.of_nat (length jt)) ++ [N.of_nat z] ++ integer_encode (N.of_nat (length code)) ++ concat (map (le_bytes z) jt) ++ code ++ pack_bits mask.

(** The code, as if followed by zeros without end. *)
Definition code_at (c : bytes) (k : nat) : N := nth k c 0.
Definition opcode_at (mask : list bool) (k : nat) : Prop := nth k mask false = true.
(** [d]: how many bytes lie between position [n] and the next opcode, or the end of the code, at most 24. *)
Definition skip_is (mask : list bool) (n d : nat) : Prop :=
  exists j, (forall i, (i < j)%nat -> ~ opcode_at mask (n + 1 + i)) /\
            (n + 1 + j <= length mask)%nat /\ ((n + 1 + j)%nat = length mask \/ opcode_at mask (n + 1 + j)) /\ d = Nat.min 24 j.
(** Opcodes that end a basic block; bytes that are no opcode are traps. *)
Definition known (b : N) : bool :=
  existsb (fun '(lo, hi) => (lo <=? b) && (b <=? hi))
    [(0, 1); (10, 10); (20, 20); (30, 33); (40, 40); (50, 62); (70, 73); (80, 90); (100, 111); (120, 161); (170, 175); (180, 180); (190, 230)].
Definition ends_block (b : N) : bool :=
  existsb (fun '(lo, hi) => (lo <=? b) && (b <=? hi)) [(0, 1); (40, 40); (50, 50); (80, 90); (170, 175); (180, 180)] || negb (known b).
(** The positions a jump may go to: the start, and what follows an instruction that ends a block. *)
Definition block_start (code : bytes) (mask : list bool) (t : nat) : Prop :=
  t = 0%nat \/ exists n d, (n < length code)%nat /\ opcode_at mask n /\ ends_block (code_at code n) = true /\ skip_is mask n d /\ t = (n + 1 + d)%nat.
(** The same without the instruction at position 0. *)
Definition block_start_but_first (code : bytes) (mask : list bool) (t : nat) : Prop :=
  t = 0%nat \/ exists n d, (0 < n < length code)%nat /\ opcode_at mask n /\ ends_block (code_at code n) = true /\ skip_is mask n d /\ t = (n + 1 + d)%nat.

(** The instruction each opcode byte names: runs of consecutive bytes. Every other byte is a trap. *)
Definition opcode_runs : list (N * list opcode) :=
  [(0, [TRAP; FALLTHROUGH]); (10, [ECALLI]); (20, [LOAD_IMM_64]); (30, [STORE_IMM_U8; STORE_IMM_U16; STORE_IMM_U32; STORE_IMM_U64]); (40, [JUMP]);
   (50, [JUMP_IND; LOAD_IMM; LOAD_U8; LOAD_I8; LOAD_U16; LOAD_I16; LOAD_U32; LOAD_I32; LOAD_U64; STORE_U8; STORE_U16; STORE_U32; STORE_U64]);
   (70, [STORE_IMM_IND_U8; STORE_IMM_IND_U16; STORE_IMM_IND_U32; STORE_IMM_IND_U64]);
   (80, [LOAD_IMM_JUMP; BRANCH_EQ_IMM; BRANCH_NE_IMM; BRANCH_LT_U_IMM; BRANCH_LE_U_IMM; BRANCH_GE_U_IMM; BRANCH_GT_U_IMM; BRANCH_LT_S_IMM;
         BRANCH_LE_S_IMM; BRANCH_GE_S_IMM; BRANCH_GT_S_IMM]);
   (100, [MOVE_REG; SBRK; COUNT_SET_BITS_64; COUNT_SET_BITS_32; LEADING_ZERO_BITS_64; LEADING_ZERO_BITS_32; TRAILING_ZERO_BITS_64;
          TRAILING_ZERO_BITS_32; SIGN_EXTEND_8; SIGN_EXTEND_16; ZERO_EXTEND_16; REVERSE_BYTES]);
   (120, [STORE_IND_U8; STORE_IND_U16; STORE_IND_U32; STORE_IND_U64; LOAD_IND_U8; LOAD_IND_I8; LOAD_IND_U16; LOAD_IND_I16; LOAD_IND_U32; LOAD_IND_I32;
          LOAD_IND_U64; ADD_IMM_32; AND_IMM; XOR_IMM; OR_IMM; MUL_IMM_32; SET_LT_U_IMM; SET_LT_S_IMM; SHLO_L_IMM_32; SHLO_R_IMM_32; SHAR_R_IMM_32;
          NEG_ADD_IMM_32; SET_GT_U_IMM; SET_GT_S_IMM; SHLO_L_IMM_ALT_32; SHLO_R_IMM_ALT_32; SHAR_R_IMM_ALT_32; CMOV_IZ_IMM; CMOV_NZ_IMM; ADD_IMM_64;
          MUL_IMM_64; SHLO_L_IMM_64; SHLO_R_IMM_64; SHAR_R_IMM_64; NEG_ADD_IMM_64; SHLO_L_IMM_ALT_64; SHLO_R_IMM_ALT_64; SHAR_R_IMM_ALT_64;
          ROT_R_64_IMM; ROT_R_64_IMM_ALT; ROT_R_32_IMM; ROT_R_32_IMM_ALT]);
   (170, [BRANCH_EQ; BRANCH_NE; BRANCH_LT_U; BRANCH_LT_S; BRANCH_GE_U; BRANCH_GE_S]); (180, [LOAD_IMM_JUMP_IND]);
   (190, [ADD_32; SUB_32; MUL_32; DIV_U_32; DIV_S_32; REM_U_32; REM_S_32; SHLO_L_32; SHLO_R_32; SHAR_R_32; ADD_64; SUB_64; MUL_64; DIV_U_64; DIV_S_64;
          REM_U_64; REM_S_64; SHLO_L_64; SHLO_R_64; SHAR_R_64; AND; XOR; OR; MUL_UPPER_S_S; MUL_UPPER_U_U; MUL_UPPER_S_U; SET_LT_U; SET_LT_S; CMOV_IZ;
          CMOV_NZ; ROT_L_64; ROT_L_32; ROT_R_64; ROT_R_32; AND_INV; OR_INV; XNOR; MAX; MAX_U; MIN; MIN_U])].
Definition names (b : N) (op : opcode) : Prop :=
  (exists lo ops, In (lo, ops) opcode_runs /\ lo <= b /\ nth_error ops (N.to_nat (b - lo)) = Some op) \/ (known b = false /\ op = TRAP).

(** ** Operands *)
Inductive shape := NoArgs | OneImm | RegWide | TwoImm | OneOff | RegImm | RegTwoImm | RegImmOff | TwoReg | TwoRegImm | TwoRegOff | TwoRegTwoImm | ThreeReg.
Definition between (lo hi b : N) : bool := (lo <=? b) && (b <=? hi).
Definition shape_of (b : N) : shape :=
  if b =? 10 then OneImm else if b =? 20 then RegWide else if between 30 33 b then TwoImm else if b =? 40 then OneOff
  else if between 50 62 b then RegImm else if between 70 73 b then RegTwoImm else if between 80 90 b then RegImmOff
  else if between 100 111 b then TwoReg else if between 120 161 b then TwoRegImm else if between 170 175 b then TwoRegOff
  else if b =? 180 then TwoRegTwoImm else if between 190 230 b then ThreeReg else NoArgs.
Definition reg_lo (b : N) : N := N.min 12 (b mod 16).
Definition reg_hi (b : N) : N := N.min 12 (b / 16).
(** The [l] code bytes from [k] on, read as a signed little-endian number; none are 0. *)
Definition signed_at (c : bytes) (k l : nat) : Z := sgn (8 * Z.of_nat l) (Z.of_N (le_val (map (fun j => code_at c (k + j)) (seq 0 l)))).
Definition imm_is (c : bytes) (k l : nat) (o : option N) : Prop := exists v, o = Some v /\ word (signed_at c k l) v.
Definition off_is (c : bytes) (pc k l : nat) (o : option N) : Prop := exists v, o = Some v /\ word (Z.of_nat pc + signed_at c k l) v.
Definition len4 (x : N) : nat := N.to_nat (N.min 4 (x mod 8)).
(** The operands of the instruction at [n], which has [l] bytes behind its opcode. *)
Definition operands (c : bytes) (n l : nat) (i : inst) : Prop :=
  let x := code_at c (n + 1) in let y := code_at c (n + 2) in
  let regs a b d := i_rs1 i = a /\ i_rs2 i = b /\ i_rd i = d in
  let no_imm1 := i_imm1 i = None in let no_imm2 := i_imm2 i = None in
  match shape_of (code_at c n) with
  | NoArgs => regs None None None /\ no_imm1 /\ no_imm2
  | OneImm => regs None None None /\ imm_is c (n + 1) (Nat.min 4 l) (i_imm1 i) /\ no_imm2
  | RegWide => regs (Some (reg_lo x)) None None /\ imm_is c (n + 2) 8 (i_imm1 i) /\ no_imm2
  | TwoImm => regs None None None /\ imm_is c (n + 2) (len4 x) (i_imm1 i) /\ imm_is c (n + 2 + len4 x) (Nat.min 4 (l - len4 x - 1)) (i_imm2 i)
  | OneOff => regs None None None /\ off_is c n (n + 1) (Nat.min 4 l) (i_imm1 i) /\ no_imm2
  | RegImm => regs (Some (reg_lo x)) None None /\ imm_is c (n + 2) (Nat.min 4 (l - 1)) (i_imm1 i) /\ no_imm2
  | RegTwoImm => regs (Some (reg_lo x)) None None /\ imm_is c (n + 2) (len4 (x / 16)) (i_imm1 i)
                 /\ imm_is c (n + 2 + len4 (x / 16)) (Nat.min 4 (l - len4 (x / 16) - 1)) (i_imm2 i)
  | RegImmOff => regs (Some (reg_lo x)) None None /\ imm_is c (n + 2) (len4 (x / 16)) (i_imm1 i)
                 /\ off_is c n (n + 2 + len4 (x / 16)) (Nat.min 4 (l - len4 (x / 16) - 1)) (i_imm2 i)
  | TwoReg => regs (Some (reg_hi x)) None (Some (reg_lo x)) /\ no_imm1 /\ no_imm2
  | TwoRegImm => regs (Some (reg_lo x)) (Some (reg_hi x)) None /\ imm_is c (n + 2) (Nat.min 4 (l - 1)) (i_imm1 i) /\ no_imm2
  | TwoRegOff => regs (Some (reg_lo x)) (Some (reg_hi x)) None /\ off_is c n (n + 2) (Nat.min 4 (l - 1)) (i_imm1 i) /\ no_imm2
  | TwoRegTwoImm => regs (Some (reg_lo x)) (Some (reg_hi x)) None /\ imm_is c (n + 3) (len4 y) (i_imm1 i)
                    /\ imm_is c (n + 3 + len4 y) (Nat.min 4 (l - len4 y - 2)) (i_imm2 i)
  | ThreeReg => regs (Some (reg_lo x)) (Some (reg_hi x)) (Some (N.min 12 y)) /\ no_imm1 /\ no_imm2
  end.
(** Enough bytes lie between this opcode and the next for the operands that have a fixed place. *)
Definition complete (c : bytes) (n l : nat) : Prop :=
  let x := code_at c (n + 1) in let y := code_at c (n + 2) in
  match shape_of (code_at c n) with
  | NoArgs | OneImm | OneOff => True
  | RegWide => 9 <= l
  | TwoImm => 1 <= l /\ 1 + len4 x <= l
  | RegTwoImm | RegImmOff => 1 <= l /\ 1 + len4 (x / 16) <= l
  | RegImm | TwoReg | TwoRegImm | TwoRegOff => 1 <= l
  | TwoRegTwoImm => 2 <= l /\ 2 + len4 y <= l
  | ThreeReg => 2 <= l
  end%nat.
