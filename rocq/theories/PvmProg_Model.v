(** PVM programs: opcodes, instruction decoding and program loading (pvm/pvm-core/src/program). *)
From Verif Require Import Base Codec_Model PvmMem_Model.
Open Scope N_scope.

(** error.rs: the errors that reach the caller. pvm/pvm-core/src/error.rs:12-61. *)
Inductive verr := ECodec (e : cerr) | EInvalidProgram | EInvalidInstructionFormat | EJumpTableOutOfBounds | EInvalidRegIndex | EInvalidRegVal | EImmValNotFound
  | ESourceRegNotFound | EDestRegNotFound | EInvalidImmSize | EGasOverflow | EArgsSize | EMem (e : merr) | EInvalidExitReason | EHost.
(** The [?] conversions of pvm/pvm-core/src/error.rs:12-61. *)
Definition lift {E A} (f : E -> verr) (r : result E A) : result verr A := match r with Ok x => Ok x | Err e => Err (f e) | Panic => Panic end.

(** instruction/opcode.rs:5-146 *)
Inductive opcode :=
  | TRAP | FALLTHROUGH | ECALLI | LOAD_IMM_64 | STORE_IMM_U8 | STORE_IMM_U16 | STORE_IMM_U32 | STORE_IMM_U64 | JUMP | JUMP_IND | LOAD_IMM | LOAD_U8
  | LOAD_I8 | LOAD_U16 | LOAD_I16 | LOAD_U32 | LOAD_I32 | LOAD_U64 | STORE_U8 | STORE_U16 | STORE_U32 | STORE_U64 | STORE_IMM_IND_U8
  | STORE_IMM_IND_U16 | STORE_IMM_IND_U32 | STORE_IMM_IND_U64 | LOAD_IMM_JUMP | BRANCH_EQ_IMM | BRANCH_NE_IMM | BRANCH_LT_U_IMM | BRANCH_LE_U_IMM
  | BRANCH_GE_U_IMM | BRANCH_GT_U_IMM | BRANCH_LT_S_IMM | BRANCH_LE_S_IMM | BRANCH_GE_S_IMM | BRANCH_GT_S_IMM | MOVE_REG | SBRK | COUNT_SET_BITS_64
  | COUNT_SET_BITS_32 | LEADING_ZERO_BITS_64 | LEADING_ZERO_BITS_32 | TRAILING_ZERO_BITS_64 | TRAILING_ZERO_BITS_32 | SIGN_EXTEND_8 | SIGN_EXTEND_16
  | ZERO_EXTEND_16 | REVERSE_BYTES | STORE_IND_U8 | STORE_IND_U16 | STORE_IND_U32 | STORE_IND_U64 | LOAD_IND_U8 | LOAD_IND_I8 | LOAD_IND_U16
  | LOAD_IND_I16 | LOAD_IND_U32 | LOAD_IND_I32 | LOAD_IND_U64 | ADD_IMM_32 | AND_IMM | XOR_IMM | OR_IMM | MUL_IMM_32 | SET_LT_U_IMM | SET_LT_S_IMM
  | SHLO_L_IMM_32 | SHLO_R_IMM_32 | SHAR_R_IMM_32 | NEG_ADD_IMM_32 | SET_GT_U_IMM | SET_GT_S_IMM | SHLO_L_IMM_ALT_32 | SHLO_R_IMM_ALT_32
  | SHAR_R_IMM_ALT_32 | CMOV_IZ_IMM | CMOV_NZ_IMM | ADD_IMM_64 | MUL_IMM_64 | SHLO_L_IMM_64 | SHLO_R_IMM_64 | SHAR_R_IMM_64 | NEG_ADD_IMM_64
  | SHLO_L_IMM_ALT_64 | SHLO_R_IMM_ALT_64 | SHAR_R_IMM_ALT_64 | ROT_R_64_IMM | ROT_R_64_IMM_ALT | ROT_R_32_IMM | ROT_R_32_IMM_ALT | BRANCH_EQ
  | BRANCH_NE | BRANCH_LT_U | BRANCH_LT_S | BRANCH_GE_U | BRANCH_GE_S | LOAD_IMM_JUMP_IND | ADD_32 | SUB_32 | MUL_32 | DIV_U_32 | DIV_S_32 | REM_U_32
  | REM_S_32 | SHLO_L_32 | SHLO_R_32 | SHAR_R_32 | ADD_64 | SUB_64 | MUL_64 | DIV_U_64 | DIV_S_64 | REM_U_64 | REM_S_64 | SHLO_L_64 | SHLO_R_64
  | SHAR_R_64 | AND | XOR | OR | MUL_UPPER_S_S | MUL_UPPER_U_U | MUL_UPPER_S_U | SET_LT_U | SET_LT_S | CMOV_IZ | CMOV_NZ | ROT_L_64 | ROT_L_32
  | ROT_R_64 | ROT_R_32 | AND_INV | OR_INV | XNOR | MAX | MAX_U | MIN | MIN_U.

(** opcode.rs:148-293; unknown bytes are TRAP. *)
Definition opcode_of (b : N) : opcode :=
  match b with
  | 0 => TRAP | 1 => FALLTHROUGH | 10 => ECALLI | 20 => LOAD_IMM_64 | 30 => STORE_IMM_U8 | 31 => STORE_IMM_U16 | 32 => STORE_IMM_U32
  | 33 => STORE_IMM_U64 | 40 => JUMP | 50 => JUMP_IND | 51 => LOAD_IMM | 52 => LOAD_U8 | 53 => LOAD_I8 | 54 => LOAD_U16 | 55 => LOAD_I16
  | 56 => LOAD_U32 | 57 => LOAD_I32 | 58 => LOAD_U64 | 59 => STORE_U8 | 60 => STORE_U16 | 61 => STORE_U32 | 62 => STORE_U64 | 70 => STORE_IMM_IND_U8
  | 71 => STORE_IMM_IND_U16 | 72 => STORE_IMM_IND_U32 | 73 => STORE_IMM_IND_U64 | 80 => LOAD_IMM_JUMP | 81 => BRANCH_EQ_IMM | 82 => BRANCH_NE_IMM
  | 83 => BRANCH_LT_U_IMM | 84 => BRANCH_LE_U_IMM | 85 => BRANCH_GE_U_IMM | 86 => BRANCH_GT_U_IMM | 87 => BRANCH_LT_S_IMM | 88 => BRANCH_LE_S_IMM
  | 89 => BRANCH_GE_S_IMM | 90 => BRANCH_GT_S_IMM | 100 => MOVE_REG | 101 => SBRK | 102 => COUNT_SET_BITS_64 | 103 => COUNT_SET_BITS_32
  | 104 => LEADING_ZERO_BITS_64 | 105 => LEADING_ZERO_BITS_32 | 106 => TRAILING_ZERO_BITS_64 | 107 => TRAILING_ZERO_BITS_32 | 108 => SIGN_EXTEND_8
  | 109 => SIGN_EXTEND_16 | 110 => ZERO_EXTEND_16 | 111 => REVERSE_BYTES | 120 => STORE_IND_U8 | 121 => STORE_IND_U16 | 122 => STORE_IND_U32
  | 123 => STORE_IND_U64 | 124 => LOAD_IND_U8 | 125 => LOAD_IND_I8 | 126 => LOAD_IND_U16 | 127 => LOAD_IND_I16 | 128 => LOAD_IND_U32
  | 129 => LOAD_IND_I32 | 130 => LOAD_IND_U64 | 131 => ADD_IMM_32 | 132 => AND_IMM | 133 => XOR_IMM | 134 => OR_IMM | 135 => MUL_IMM_32
  | 136 => SET_LT_U_IMM | 137 => SET_LT_S_IMM | 138 => SHLO_L_IMM_32 | 139 => SHLO_R_IMM_32 | 140 => SHAR_R_IMM_32 | 141 => NEG_ADD_IMM_32
  | 142 => SET_GT_U_IMM | 143 => SET_GT_S_IMM | 144 => SHLO_L_IMM_ALT_32 | 145 => SHLO_R_IMM_ALT_32 | 146 => SHAR_R_IMM_ALT_32 | 147 => CMOV_IZ_IMM
  | 148 => CMOV_NZ_IMM | 149 => ADD_IMM_64 | 150 => MUL_IMM_64 | 151 => SHLO_L_IMM_64 | 152 => SHLO_R_IMM_64 | 153 => SHAR_R_IMM_64
  | 154 => NEG_ADD_IMM_64 | 155 => SHLO_L_IMM_ALT_64 | 156 => SHLO_R_IMM_ALT_64 | 157 => SHAR_R_IMM_ALT_64 | 158 => ROT_R_64_IMM
  | 159 => ROT_R_64_IMM_ALT | 160 => ROT_R_32_IMM | 161 => ROT_R_32_IMM_ALT | 170 => BRANCH_EQ | 171 => BRANCH_NE | 172 => BRANCH_LT_U
  | 173 => BRANCH_LT_S | 174 => BRANCH_GE_U | 175 => BRANCH_GE_S | 180 => LOAD_IMM_JUMP_IND | 190 => ADD_32 | 191 => SUB_32 | 192 => MUL_32
  | 193 => DIV_U_32 | 194 => DIV_S_32 | 195 => REM_U_32 | 196 => REM_S_32 | 197 => SHLO_L_32 | 198 => SHLO_R_32 | 199 => SHAR_R_32 | 200 => ADD_64
  | 201 => SUB_64 | 202 => MUL_64 | 203 => DIV_U_64 | 204 => DIV_S_64 | 205 => REM_U_64 | 206 => REM_S_64 | 207 => SHLO_L_64 | 208 => SHLO_R_64
  | 209 => SHAR_R_64 | 210 => AND | 211 => XOR | 212 => OR | 213 => MUL_UPPER_S_S | 214 => MUL_UPPER_U_U | 215 => MUL_UPPER_S_U | 216 => SET_LT_U
  | 217 => SET_LT_S | 218 => CMOV_IZ | 219 => CMOV_NZ | 220 => ROT_L_64 | 221 => ROT_L_32 | 222 => ROT_R_64 | 223 => ROT_R_32 | 224 => AND_INV
  | 225 => OR_INV | 226 => XNOR | 227 => MAX | 228 => MAX_U | 229 => MIN | 230 => MIN_U
  | _ => TRAP
  end.

(** opcode.rs:302-327 *)
Definition is_termination (op : opcode) : bool :=
  match op with
  | TRAP | FALLTHROUGH | JUMP | JUMP_IND | LOAD_IMM_JUMP | LOAD_IMM_JUMP_IND | BRANCH_EQ_IMM | BRANCH_NE_IMM | BRANCH_LT_U_IMM | BRANCH_LE_U_IMM
  | BRANCH_GE_U_IMM | BRANCH_GT_U_IMM | BRANCH_LT_S_IMM | BRANCH_LE_S_IMM | BRANCH_GE_S_IMM | BRANCH_GT_S_IMM | BRANCH_EQ | BRANCH_NE | BRANCH_LT_U
  | BRANCH_LT_S | BRANCH_GE_U | BRANCH_GE_S => true
  | _ => false
  end.

(** The thirteen argument layouts of instruction/mod.rs:119-309. *)
Definition group (op : opcode) : N :=
  match op with
  | TRAP | FALLTHROUGH => 1
  | ECALLI => 2
  | LOAD_IMM_64 => 3
  | STORE_IMM_U8 | STORE_IMM_U16 | STORE_IMM_U32 | STORE_IMM_U64 => 4
  | JUMP => 5
  | JUMP_IND | LOAD_IMM | LOAD_U8 | LOAD_I8 | LOAD_U16 | LOAD_I16 | LOAD_U32 | LOAD_I32 | LOAD_U64 | STORE_U8 | STORE_U16 | STORE_U32 | STORE_U64 => 6
  | STORE_IMM_IND_U8 | STORE_IMM_IND_U16 | STORE_IMM_IND_U32 | STORE_IMM_IND_U64 => 7
  | LOAD_IMM_JUMP | BRANCH_EQ_IMM | BRANCH_NE_IMM | BRANCH_LT_U_IMM | BRANCH_LE_U_IMM | BRANCH_GE_U_IMM | BRANCH_GT_U_IMM | BRANCH_LT_S_IMM
  | BRANCH_LE_S_IMM | BRANCH_GE_S_IMM | BRANCH_GT_S_IMM => 8
  | MOVE_REG | SBRK | COUNT_SET_BITS_64 | COUNT_SET_BITS_32 | LEADING_ZERO_BITS_64 | LEADING_ZERO_BITS_32 | TRAILING_ZERO_BITS_64
  | TRAILING_ZERO_BITS_32 | SIGN_EXTEND_8 | SIGN_EXTEND_16 | ZERO_EXTEND_16 | REVERSE_BYTES => 9
  | STORE_IND_U8 | STORE_IND_U16 | STORE_IND_U32 | STORE_IND_U64 | LOAD_IND_U8 | LOAD_IND_I8 | LOAD_IND_U16 | LOAD_IND_I16 | LOAD_IND_U32
  | LOAD_IND_I32 | LOAD_IND_U64 | ADD_IMM_32 | AND_IMM | XOR_IMM | OR_IMM | MUL_IMM_32 | SET_LT_U_IMM | SET_LT_S_IMM | SHLO_L_IMM_32 | SHLO_R_IMM_32
  | SHAR_R_IMM_32 | NEG_ADD_IMM_32 | SET_GT_U_IMM | SET_GT_S_IMM | SHLO_L_IMM_ALT_32 | SHLO_R_IMM_ALT_32 | SHAR_R_IMM_ALT_32 | CMOV_IZ_IMM
  | CMOV_NZ_IMM | ADD_IMM_64 | MUL_IMM_64 | SHLO_L_IMM_64 | SHLO_R_IMM_64 | SHAR_R_IMM_64 | NEG_ADD_IMM_64 | SHLO_L_IMM_ALT_64 | SHLO_R_IMM_ALT_64
  | SHAR_R_IMM_ALT_64 | ROT_R_64_IMM | ROT_R_64_IMM_ALT | ROT_R_32_IMM | ROT_R_32_IMM_ALT => 10
  | BRANCH_EQ | BRANCH_NE | BRANCH_LT_U | BRANCH_LT_S | BRANCH_GE_U | BRANCH_GE_S => 11
  | LOAD_IMM_JUMP_IND => 12
  | ADD_32 | SUB_32 | MUL_32 | DIV_U_32 | DIV_S_32 | REM_U_32 | REM_S_32 | SHLO_L_32 | SHLO_R_32 | SHAR_R_32 | ADD_64 | SUB_64 | MUL_64 | DIV_U_64
  | DIV_S_64 | REM_U_64 | REM_S_64 | SHLO_L_64 | SHLO_R_64 | SHAR_R_64 | AND | XOR | OR | MUL_UPPER_S_S | MUL_UPPER_U_U | MUL_UPPER_S_U | SET_LT_U
  | SET_LT_S | CMOV_IZ | CMOV_NZ | ROT_L_64 | ROT_L_32 | ROT_R_64 | ROT_R_32 | AND_INV | OR_INV | XNOR | MAX | MAX_U | MIN | MIN_U => 13
  end.

(** instruction/mod.rs:54-67 *)
Record inst := mk_inst { i_op : opcode; i_rs1 : option N; i_rs2 : option N; i_rd : option N; i_imm1 : option N; i_imm2 : option N }.
(** Part of instruction/mod.rs:54-67. *)
Definition trap_inst : inst := mk_inst TRAP None None None None None.
(** instruction/mod.rs:70-91: register indices above 12 are refused. *)
Definition reg_ok (r : option N) : bool := match r with Some i => i <=? 12 | None => true end.
(** Part of instruction/mod.rs:70-91. *)
Definition new_inst (op : opcode) (rs1 rs2 rd imm1 imm2 : option N) : result verr inst :=
  if reg_ok rd && reg_ok rs1 && reg_ok rs2 then Ok (mk_inst op rs1 rs2 rd imm1 imm2) else Err EInvalidInstructionFormat.

(** blob[i], which panics out of range. Used at pvm/pvm-core/src/program/instruction/mod.rs:109-392. *)
Definition at_ (bs : bytes) (i : nat) : result verr N := match nth_error bs i with Some b => Ok b | None => Panic end.
(** blob[i..i+n], which panics out of range. Used at pvm/pvm-core/src/program/instruction/mod.rs:109-392. *)
Definition slice (bs : bytes) (i n : nat) : result verr bytes := if Nat.leb (i + n) (length bs) then Ok (firstn n (skipn i bs)) else Panic.
(** utils.rs:292-308 [sext]: the value of [n] octets, extended to 64 bits. The addition is in i128 (nothing overflows), the result truncated to u64. *)
Definition sext (v : N) (n : N) : N :=
  if n =? 0 then 0 else if N.testbit v (8 * n - 1) then u64 (v + (2 ^ 64 - 2 ^ (8 * n))) else u64 v.
(** instruction/mod.rs:340-358; [n] is at most 4. *)
Definition imm_value (bs : bytes) (n start : nat) : result verr N :=
  if Nat.eqb n 0 then Ok 0 else let! s := slice bs start n in Ok (sext (le_val s) (N.of_nat n)).
(** utils.rs:82-94 [unsigned_to_signed] *)
Definition to_signed (a : N) (n : N) : Z := if a <? 2 ^ (8 * n - 1) then Z.of_N a else (Z.of_N a - 2 ^ (8 * Z.of_N n))%Z.
(** instruction/mod.rs:361-381: [(pc as i128 + offset) as u64]. *)
Definition imm_target (pc : N) (bs : bytes) (n start : nat) : result verr N :=
  let! off := (if Nat.eqb n 0 then Ok 0%Z else let! s := slice bs start n in Ok (to_signed (le_val s) (N.of_nat n))) in
  Ok (Z.to_N ((Z.of_N pc + off) mod 2 ^ 64)%Z).
(** instruction/mod.rs:384-392 *)
Definition imm_wide (bs : bytes) (start : nat) : result verr N := let! s := slice bs start 8 in Ok (le_val s).

(** Register operands, pvm/pvm-core/src/program/instruction/mod.rs:109-311. *)
Definition low4 (b : N) : N := N.min 12 (b mod 16).
(** Register operands, pvm/pvm-core/src/program/instruction/mod.rs:109-311. *)
Definition high4 (b : N) : N := N.min 12 (b / 16).
(** instruction/mod.rs:109-311 [from_inst_blob]; [bs] is the opcode and the [skip] bytes behind it. *)
Definition from_blob (bs : bytes) (pc : N) (skip : nat) : result verr inst :=
  let! b0 := at_ bs 0 in
  let op := opcode_of b0 in
  if Nat.ltb 16 (length bs) then Err EInvalidInstructionFormat else
  match group op with
  | 1 => new_inst op None None None None None
  | 2 => let! x := imm_value bs (Nat.min 4 skip) 1 in new_inst op None None None (Some x) None
  | 3 => let! b := at_ bs 1 in let! x := imm_wide bs 2 in new_inst op (Some (low4 b)) None None (Some x) None
  | 4 => let! b := at_ bs 1 in
         let lx := N.to_nat (N.min 4 (b mod 8)) in let ly := Nat.min 4 (skip - (lx + 1)) in
         let! x := imm_value bs lx 2 in let! y := imm_value bs ly (2 + lx) in new_inst op None None None (Some x) (Some y)
  | 5 => let! x := imm_target pc bs (Nat.min 4 skip) 1 in new_inst op None None None (Some x) None
  | 6 => let! b := at_ bs 1 in let! x := imm_value bs (Nat.min 4 (skip - 1)) 2 in new_inst op (Some (low4 b)) None None (Some x) None
  | 7 => let! b := at_ bs 1 in
         let lx := N.to_nat (N.min 4 ((b / 16) mod 8)) in let ly := Nat.min 4 (skip - (lx + 1)) in
         let! x := imm_value bs lx 2 in let! y := imm_value bs ly (2 + lx) in new_inst op (Some (low4 b)) None None (Some x) (Some y)
  | 8 => let! b := at_ bs 1 in
         let lx := N.to_nat (N.min 4 ((b / 16) mod 8)) in let ly := Nat.min 4 (skip - (lx + 1)) in
         let! x := imm_value bs lx 2 in let! y := imm_target pc bs ly (2 + lx) in new_inst op (Some (low4 b)) None None (Some x) (Some y)
  | 9 => let! b := at_ bs 1 in new_inst op (Some (high4 b)) None (Some (low4 b)) None None
  | 10 => let! b := at_ bs 1 in let! x := imm_value bs (Nat.min 4 (skip - 1)) 2 in new_inst op (Some (low4 b)) (Some (high4 b)) None (Some x) None
  | 11 => let! b := at_ bs 1 in let! x := imm_target pc bs (Nat.min 4 (skip - 1)) 2 in new_inst op (Some (low4 b)) (Some (high4 b)) None (Some x) None
  | 12 => let! b := at_ bs 1 in let! c := at_ bs 2 in
          let lx := N.to_nat (N.min 4 (c mod 8)) in let ly := Nat.min 4 (skip - (lx + 2)) in
          let! x := imm_value bs lx 3 in let! y := imm_value bs ly (3 + lx) in new_inst op (Some (low4 b)) (Some (high4 b)) None (Some x) (Some y)
  | _ => let! b := at_ bs 1 in let! c := at_ bs 2 in new_inst op (Some (low4 b)) (Some (high4 b)) (Some (N.min 12 c)) None None
  end.

(** ** Loading *)
(** pvm/pvm-types/src/constants.rs:6. *)
Definition MAX_SKIP : nat := 24.
(** loader.rs:123-141 [compute_skip_distances]: from the last position down; [next] is the next set bit seen so far. *)
Fixpoint skips_from (bits : list bool) (idx len : nat) : list nat * option nat :=
  match bits with
  | [] => ([], None)
  | b :: bits' =>
      let '(l, next) := skips_from bits' (S idx) len in
      let d := match next with Some n => n - S idx | None => len - S idx end in
      (Nat.min d MAX_SKIP :: l, if b then Some idx else next)
  end%nat.
(** Part of loader.rs:123-141. *)
Definition compute_skips (bits : list bool) : list nat := fst (skips_from bits 0 (length bits)).

(** types/program_state.rs:15-33. The decoded instructions and the lookup table are one list of optional instructions. *)
Record prog := mk_prog { p_code : bytes; p_jump : list N; p_mask : list bool; p_starts : list bool; p_insts : list (option inst); p_skips : list nat }.
(** Part of types/program_state.rs:15-33. *)
Definition skip_distance (p : prog) (pc : N) : option nat := nth_error (p_skips p) (N.to_nat pc).
(** program_state.rs:52-58 *)
Definition instruction_at (p : prog) (pc : N) : option inst :=
  if N.of_nat (length (p_insts p)) <=? pc then None else match nth_error (p_insts p) (N.to_nat pc) with Some (Some i) => Some i | _ => None end.

(** loader.rs:144-173 [decode_instructions], one entry per code byte. *)
Fixpoint decode_insts (code : bytes) (bits : list bool) (skips : list nat) (idx : nat) : result verr (list (option inst)) :=
  match bits with
  | [] => Ok []
  | false :: bits' => let! r := decode_insts code bits' skips (S idx) in Ok (None :: r)
  | true :: bits' =>
      let skip := nth idx skips MAX_SKIP in
      let! i := (if Nat.ltb (length code) (idx + 1 + skip) then Ok trap_inst else from_blob (firstn (1 + skip) (skipn idx code)) (N.of_nat idx) skip) in
      let! r := decode_insts code bits' skips (S idx) in Ok (Some i :: r)
  end.
(** loader.rs:94-116 [set_basic_block_start_indices]: 0, and the position behind every terminating instruction at 1 or later. *)
Fixpoint set_true (n : nat) (l : list bool) : list bool := match l, n with [], _ => [] | _ :: l', O => true :: l' | b :: l', S n' => b :: set_true n' l' end.
(** Part of loader.rs:94-116. *)
Definition block_starts (insts : list (option inst)) (skips : list nat) (len : nat) : list bool :=
  fold_left (fun st n => match nth n insts None with
                         | Some i => if is_termination (i_op i) then set_true (n + 1 + nth n skips MAX_SKIP) st else st
                         | None => st end)
            (seq 1 (len - 1)) (set_true 0 (repeat false (len + 1))).

(** u32::decode_fixed(z) repeated (loader.rs:72-75); [Vec::with_capacity] panics when the capacity overflows. *)
Definition decode_jump_table (n : N) (z : nat) : dec (list N) := fun inp =>
  if alloc_ok 4 n then decode_seq (decode_fixed 32 z) (N.to_nat n) inp else Panic.
(** Vec::<u8>::decode_fixed: [vec![0; n]] panics when the capacity overflows. codec/fr-codec/src/lib.rs:727-738. *)
Definition decode_raw (n : N) : dec bytes := fun inp => if alloc_ok 1 n then read_exact_N n inp else Panic.
(** loader.rs:57-90 [deblob_program_code] *)
Definition deblob (blob : bytes) : result verr (bytes * list bool * list N) :=
  let! (jl, r1) := lift ECodec (integer_decode 64 blob) in
  let! (z, r2) := lift ECodec (decode_fixed 8 1 r1) in
  let! (cl, r3) := lift ECodec (integer_decode 64 r2) in
  let! (jt, r4) := lift ECodec (decode_jump_table jl (N.to_nat z) r3) in
  let! (code, r5) := lift ECodec (decode_raw cl r4) in
  let! (mask, r6) := lift ECodec (decode_bits_fixed cl r5) in
  match r6 with [] => Ok (code, mask, jt) | _ => Err EInvalidProgram end.
(** loader.rs:20-52 [load_program] *)
Definition load_program (blob : bytes) : result verr prog :=
  let! (code, mask, jt) := deblob blob in
  let skips := compute_skips mask in
  let! insts := decode_insts code mask skips 0 in
  Ok (mk_prog code jt mask (block_starts insts skips (length code)) insts skips).
