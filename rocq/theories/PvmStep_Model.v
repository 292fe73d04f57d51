(** PVM execution: the instruction set, single steps and the invocation loops
    (pvm/pvm-core/src/{program/instruction/set.rs,interpreter/mod.rs,state/,gas/}, pvm/pvm-interface/src/invoke.rs). *)
From Verif Require Import Base PvmMem_Model PvmProg_Model.
Open Scope N_scope.

(** vm_state.rs:13-22; [regs] has thirteen entries, [gas] is an i64. *)
Record vm := mk_vm { v_regs : list N; v_mem : mem; v_pc : N; v_gas : Z }.
(** pvm-types/src/exit_reason.rs; host calls by number. pvm/pvm-types/src/exit_reason.rs:5-13. *)
Inductive exit := Continue | RegularHalt | XPanic | OutOfGas | PageFault (a : N) | HostCall (h : N).
(** state_change.rs:79-96; the gas charge of every instruction is 1. *)
Record change := mk_change { c_reg : option (N * N); c_mem : option (N * bytes); c_pc : N }.
(** pvm/pvm-core/src/state/state_change.rs:82-87. *)
Definition no_change : change := mk_change None None 0.
(** pvm/pvm-core/src/state/state_change.rs:82-87. *)
Definition to_pc (pc : N) : change := mk_change None None pc.
(** pvm/pvm-core/src/state/state_change.rs:82-87. *)
Definition reg_write (r v pc : N) : change := mk_change (Some (r, v)) None pc.

(** ** Integer operations *)
(** wrapping_add, wrapping_sub and wrapping_mul on u64. Used throughout pvm/pvm-core/src/program/instruction/set.rs:819-2338. *)
Definition wadd (a b : N) : N := u64 (a + b).
(** Used throughout pvm/pvm-core/src/program/instruction/set.rs:819-2338. *)
Definition wsub (a b : N) : N := u64 (a + (2 ^ 64 - b)).
(** Used throughout pvm/pvm-core/src/program/instruction/set.rs:819-2338. *)
Definition wmul (a b : N) : N := u64 (a * b).
(** Used throughout pvm/pvm-core/src/program/instruction/set.rs:819-2338. *)
Definition lo32 (a : N) : N := a mod 2 ^ 32.
(** utils.rs:142-160: [as i32], [as i64] of an unsigned value in range; utils.rs:188-194: [as u64] of an i64. *)
Definition i32_of (a : N) : Z := if a <? 2 ^ 31 then Z.of_N a else (Z.of_N a - 2 ^ 32)%Z.
(** Part of utils.rs:142-160; utils.rs:188-194. *)
Definition i64_of (a : N) : Z := if a <? 2 ^ 63 then Z.of_N a else (Z.of_N a - 2 ^ 64)%Z.
(** Part of utils.rs:142-160; utils.rs:188-194. *)
Definition u64_of (z : Z) : N := Z.to_N (z mod 2 ^ 64)%Z.
(** The truncation of an integer to i32 or i64. Casts in pvm/pvm-core/src/program/instruction/set.rs:819-2338. *)
Definition as_i32 (z : Z) : Z := ((z + 2 ^ 31) mod 2 ^ 32 - 2 ^ 31)%Z.
(** Casts in pvm/pvm-core/src/program/instruction/set.rs:819-2338. *)
Definition as_i64 (z : Z) : Z := ((z + 2 ^ 63) mod 2 ^ 64 - 2 ^ 63)%Z.
(** utils.rs:312-331 *)
Definition smod (wrap : Z -> Z) (a b : Z) : Z :=
  if (b =? 0)%Z then a else let sgn := if (0 <? a)%Z then 1%Z else (-1)%Z in (sgn * Z.rem (wrap (Z.abs a)) (wrap (Z.abs b)))%Z.
(** u64::rotate_left and rotate_right, and the u32 ones. Used at pvm/pvm-core/src/program/instruction/set.rs:1163-2338. *)
Definition rotr (w x r : N) : N := let k := r mod w in N.lor (N.shiftr x k) ((N.shiftl x (w - k)) mod 2 ^ w).
(** Used at pvm/pvm-core/src/program/instruction/set.rs:1163-2338. *)
Definition rotl (w x r : N) : N := let k := r mod w in N.lor ((N.shiftl x k) mod 2 ^ w) (N.shiftr x (w - k)).
(** count_ones, leading_zeros and trailing_zeros of a [w]-bit value. Used at pvm/pvm-core/src/program/instruction/set.rs:819-943. *)
Fixpoint ones (p : positive) : N := match p with xH => 1 | xO q => ones q | xI q => 1 + ones q end.
(** Used at pvm/pvm-core/src/program/instruction/set.rs:819-943. *)
Definition count_ones (x : N) : N := match x with 0 => 0 | Npos p => ones p end.
(** Used at pvm/pvm-core/src/program/instruction/set.rs:819-943. *)
Definition leading_zeros (w x : N) : N := w - N.size x.
(** Used at pvm/pvm-core/src/program/instruction/set.rs:819-943. *)
Fixpoint ctz (p : positive) : N := match p with xO q => 1 + ctz q | _ => 0 end.
(** Used at pvm/pvm-core/src/program/instruction/set.rs:819-943. *)
Definition trailing_zeros (w x : N) : N := match x with 0 => w | Npos p => ctz p end.
(** [!x] on u64. Used at pvm/pvm-core/src/program/instruction/set.rs:1163-2338. *)
Definition not64 (x : N) : N := N.lxor x (2 ^ 64 - 1).
(** Used at pvm/pvm-core/src/program/instruction/set.rs:1163-2338. *)
Definition b2n (b : bool) : N := if b then 1 else 0.

(** set.rs:778-785 and 819-943: two registers. SBRK is not here. *)
Definition alu1 (op : opcode) (a : N) : option N :=
  match op with
  | MOVE_REG => Some a
  | COUNT_SET_BITS_64 => Some (count_ones a)
  | COUNT_SET_BITS_32 => Some (count_ones (lo32 a))
  | LEADING_ZERO_BITS_64 => Some (leading_zeros 64 a)
  | LEADING_ZERO_BITS_32 => Some (leading_zeros 32 (lo32 a))
  | TRAILING_ZERO_BITS_64 => Some (trailing_zeros 64 a)
  | TRAILING_ZERO_BITS_32 => Some (trailing_zeros 32 (lo32 a))
  | SIGN_EXTEND_8 => Some (u64_of (to_signed (a mod 2 ^ 8) 1))
  | SIGN_EXTEND_16 => Some (u64_of (to_signed (a mod 2 ^ 16) 2))
  | ZERO_EXTEND_16 => Some (a mod 2 ^ 16)
  | REVERSE_BYTES => Some (le_val (rev (le_bytes 8 a)))
  | _ => None
  end.
(** set.rs:1163-1595: [a] is the second register, [b] the immediate, [d] the old value of the first register, which receives the result. *)
Definition alu2 (op : opcode) (a b d : N) : option N :=
  match op with
  | ADD_IMM_32 => Some (sext (lo32 (wadd a b)) 4)
  | AND_IMM => Some (N.land a b)
  | XOR_IMM => Some (N.lxor a b)
  | OR_IMM => Some (N.lor a b)
  | MUL_IMM_32 => Some (sext (lo32 (wmul a b)) 4)
  | SET_LT_U_IMM => Some (b2n (a <? b))
  | SET_LT_S_IMM => Some (b2n (i64_of a <? i64_of b)%Z)
  | SHLO_L_IMM_32 => Some (sext (lo32 (u64 (N.shiftl a (b mod 32)))) 4)
  | SHLO_R_IMM_32 => Some (sext (N.shiftr (lo32 a) (b mod 32)) 4)
  | SHAR_R_IMM_32 => Some (u64_of (Z.shiftr (i32_of (lo32 a)) (Z.of_N (b mod 32))))
  | NEG_ADD_IMM_32 => Some (sext (lo32 (wsub (wadd b (2 ^ 32)) a)) 4)
  | SET_GT_U_IMM => Some (b2n (b <? a))
  | SET_GT_S_IMM => Some (b2n (i64_of b <? i64_of a)%Z)
  | SHLO_L_IMM_ALT_32 => Some (sext (lo32 (u64 (N.shiftl b (a mod 32)))) 4)
  | SHLO_R_IMM_ALT_32 => Some (sext (N.shiftr (lo32 b) (a mod 32)) 4)
  | SHAR_R_IMM_ALT_32 => Some (u64_of (Z.shiftr (i32_of (lo32 b)) (Z.of_N (a mod 32))))
  | CMOV_IZ_IMM => Some (if a =? 0 then b else d)
  | CMOV_NZ_IMM => Some (if negb (a =? 0) then b else d)
  | ADD_IMM_64 => Some (wadd a b)
  | MUL_IMM_64 => Some (wmul a b)
  | SHLO_L_IMM_64 => Some (sext (u64 (N.shiftl a (b mod 64))) 8)
  | SHLO_R_IMM_64 => Some (sext (N.shiftr a (b mod 64)) 8)
  | SHAR_R_IMM_64 => Some (u64_of (Z.shiftr (i64_of a) (Z.of_N (b mod 64))))
  | NEG_ADD_IMM_64 => Some (wsub b a)
  | SHLO_L_IMM_ALT_64 => Some (u64 (N.shiftl b (a mod 64)))
  | SHLO_R_IMM_ALT_64 => Some (N.shiftr b (a mod 64))
  | SHAR_R_IMM_ALT_64 => Some (u64_of (Z.shiftr (i64_of b) (Z.of_N (a mod 64))))
  | ROT_R_64_IMM => Some (rotr 64 a (lo32 b))
  | ROT_R_64_IMM_ALT => Some (rotr 64 b (lo32 a))
  | ROT_R_32_IMM => Some (sext (rotr 32 (lo32 a) (lo32 b)) 4)
  | ROT_R_32_IMM_ALT => Some (sext (rotr 32 (lo32 b) (lo32 a)) 4)
  | _ => None
  end.
(** set.rs:1729-2338: [a] and [b] are the sources, [d] the old value of the destination. *)
Definition alu3 (op : opcode) (a b d : N) : option N :=
  match op with
  | ADD_32 => Some (sext (lo32 (wadd a b)) 4)
  | SUB_32 => Some (sext (lo32 (wsub (wadd a (2 ^ 32)) (lo32 b))) 4)
  | MUL_32 => Some (sext (lo32 (wmul a b)) 4)
  | DIV_U_32 => Some (if lo32 b =? 0 then 2 ^ 64 - 1 else sext (lo32 a / lo32 b) 4)
  | DIV_S_32 => Some (let x := i32_of (lo32 a) in let y := i32_of (lo32 b) in
                      if (y =? 0)%Z then 2 ^ 64 - 1 else if (x =? - 2 ^ 31)%Z && (y =? -1)%Z then u64_of x else u64_of (Z.quot x y))
  | REM_U_32 => Some (if lo32 b =? 0 then sext (lo32 a) 4 else sext (lo32 a mod lo32 b) 4)
  | REM_S_32 => Some (let x := i32_of (lo32 a) in let y := i32_of (lo32 b) in
                      if (x =? - 2 ^ 31)%Z && (y =? -1)%Z then 0 else u64_of (smod as_i32 x y))
  | SHLO_L_32 => Some (sext (lo32 (u64 (N.shiftl a (b mod 32)))) 4)
  | SHLO_R_32 => Some (sext (N.shiftr (lo32 a) (b mod 32)) 4)
  | SHAR_R_32 => Some (u64_of (Z.shiftr (i32_of (lo32 a)) (Z.of_N (b mod 32))))
  | ADD_64 => Some (wadd a b)
  | SUB_64 => Some (wsub a b)
  | MUL_64 => Some (wmul a b)
  | DIV_U_64 => Some (if b =? 0 then 2 ^ 64 - 1 else a / b)
  | DIV_S_64 => Some (let x := i64_of a in let y := i64_of b in
                      if (y =? 0)%Z then 2 ^ 64 - 1 else if (x =? - 2 ^ 63)%Z && (y =? -1)%Z then a else u64_of (Z.quot x y))
  | REM_U_64 => Some (if b =? 0 then a else a mod b)
  | REM_S_64 => Some (let x := i64_of a in let y := i64_of b in
                      if (x =? - 2 ^ 63)%Z && (y =? -1)%Z then 0 else u64_of (smod as_i64 x y))
  | SHLO_L_64 => Some (u64 (N.shiftl a (b mod 64)))
  | SHLO_R_64 => Some (N.shiftr a (b mod 64))
  | SHAR_R_64 => Some (u64_of (Z.shiftr (i64_of a) (Z.of_N (b mod 64))))
  | AND => Some (N.land a b)
  | XOR => Some (N.lxor a b)
  | OR => Some (N.lor a b)
  | MUL_UPPER_S_S => Some (u64_of (as_i64 (Z.shiftr (i64_of a * i64_of b) 64)))
  | MUL_UPPER_U_U => Some (u64 (N.shiftr (a * b) 64))
  | MUL_UPPER_S_U => Some (u64_of (as_i64 (Z.shiftr (i64_of a * Z.of_N b) 64)))
  | SET_LT_U => Some (b2n (a <? b))
  | SET_LT_S => Some (b2n (i64_of a <? i64_of b)%Z)
  | CMOV_IZ => Some (if b =? 0 then a else d)
  | CMOV_NZ => Some (if negb (b =? 0) then a else d)
  | ROT_L_64 => Some (rotl 64 a (lo32 b))
  | ROT_L_32 => Some (sext (rotl 32 (lo32 a) (lo32 b)) 4)
  | ROT_R_64 => Some (rotr 64 a (lo32 b))
  | ROT_R_32 => Some (sext (rotr 32 (lo32 a) (lo32 b)) 4)
  | AND_INV => Some (N.land a (not64 b))
  | OR_INV => Some (N.lor a (not64 b))
  | XNOR => Some (not64 (N.lxor a b))
  | MAX => Some (u64_of (Z.max (i64_of a) (i64_of b)))
  | MAX_U => Some (N.max a b)
  | MIN => Some (u64_of (Z.min (i64_of a) (i64_of b)))
  | MIN_U => Some (N.min a b)
  | _ => None
  end.
(** set.rs:616-769 and 1604-1701: the condition of a branch on [a] and [b]. *)
Definition branch_cond (op : opcode) (a b : N) : option bool :=
  match op with
  | BRANCH_EQ_IMM | BRANCH_EQ => Some (a =? b)
  | BRANCH_NE_IMM | BRANCH_NE => Some (negb (a =? b))
  | BRANCH_LT_U_IMM | BRANCH_LT_U => Some (a <? b)
  | BRANCH_LE_U_IMM => Some (a <=? b)
  | BRANCH_GE_U_IMM | BRANCH_GE_U => Some (b <=? a)
  | BRANCH_GT_U_IMM => Some (b <? a)
  | BRANCH_LT_S_IMM | BRANCH_LT_S => Some (i64_of a <? i64_of b)%Z
  | BRANCH_LE_S_IMM => Some (i64_of a <=? i64_of b)%Z
  | BRANCH_GE_S_IMM | BRANCH_GE_S => Some (i64_of b <=? i64_of a)%Z
  | BRANCH_GT_S_IMM => Some (i64_of b <? i64_of a)%Z
  | _ => None
  end.
(** The number of bytes a load or store moves, and whether a load extends the sign (set.rs:336-593, 952-1158). *)
Definition access_width (op : opcode) : option nat :=
  match op with
  | STORE_IMM_U8 | STORE_U8 | STORE_IMM_IND_U8 | STORE_IND_U8 | LOAD_U8 | LOAD_I8 | LOAD_IND_U8 | LOAD_IND_I8 => Some 1%nat
  | STORE_IMM_U16 | STORE_U16 | STORE_IMM_IND_U16 | STORE_IND_U16 | LOAD_U16 | LOAD_I16 | LOAD_IND_U16 | LOAD_IND_I16 => Some 2%nat
  | STORE_IMM_U32 | STORE_U32 | STORE_IMM_IND_U32 | STORE_IND_U32 | LOAD_U32 | LOAD_I32 | LOAD_IND_U32 | LOAD_IND_I32 => Some 4%nat
  | STORE_IMM_U64 | STORE_U64 | STORE_IMM_IND_U64 | STORE_IND_U64 | LOAD_U64 | LOAD_IND_U64 => Some 8%nat
  | _ => None
  end.
(** Part of set.rs:336-593, 952-1158. *)
Definition load_signed (op : opcode) : bool :=
  match op with LOAD_I8 | LOAD_I16 | LOAD_I32 | LOAD_IND_I8 | LOAD_IND_I16 | LOAD_IND_I32 => true | _ => false end.

(** ** One instruction *)
(** [ok_or] in pvm/pvm-core/src/program/instruction/mod.rs:313-336. *)
Definition need {A} (e : verr) (o : option A) : result verr A := match o with Some x => Ok x | None => Err e end.
(** instruction/mod.rs:313-336 and vm_state.rs:84-112 *)
Definition imm1 (i : inst) := need EImmValNotFound (i_imm1 i).
(** pvm/pvm-core/src/program/instruction/mod.rs:313-336. *)
Definition imm2 (i : inst) := need EImmValNotFound (i_imm2 i).
(** pvm/pvm-core/src/program/instruction/mod.rs:313-336. *)
Definition rs1 (i : inst) := need ESourceRegNotFound (i_rs1 i).
(** pvm/pvm-core/src/program/instruction/mod.rs:313-336. *)
Definition rs2 (i : inst) := need ESourceRegNotFound (i_rs2 i).
(** pvm/pvm-core/src/program/instruction/mod.rs:313-336. *)
Definition rd (i : inst) := need EDestRegNotFound (i_rd i).
(** pvm/pvm-core/src/state/vm_state.rs:84-112. *)
Definition get_reg (s : vm) (r : result verr N) : result verr N := let! k := r in need EInvalidRegIndex (nth_error (v_regs s) (N.to_nat k)).
(** interpreter/mod.rs:24-36. The program counter is below the code length here, so nothing overflows. *)
Definition next_pc (pc : N) (p : prog) : N := pc + 1 + N.of_nat (match skip_distance p pc with Some d => d | None => MAX_SKIP end).
(** pvm/pvm-core/src/program/types/program_state.rs:15-33, used at set.rs:60-123. *)
Definition is_block_start (p : prog) (t : N) : bool := (t <? N.of_nat (length (p_starts p))) && nth (N.to_nat t) (p_starts p) false.
(** set.rs:60-79 *)
Definition branch (s : vm) (p : prog) (target : N) (cond : bool) : exit * N :=
  if cond then if is_block_start p target then (Continue, target) else (XPanic, v_pc s) else (Continue, next_pc (v_pc s) p).
(** set.rs:87-123 *)
Definition HALT_ADDRESS : N := 2 ^ 32 - 2 ^ 16.
(** set.rs:87-123. *)
Definition djump (s : vm) (p : prog) (a : N) : result verr (exit * N) :=
  if a =? HALT_ADDRESS then Ok (RegularHalt, v_pc s)
  else if (a =? 0) || (N.of_nat (length (p_jump p)) * 2 <? a) || negb (a mod 2 =? 0) then Ok (XPanic, v_pc s)
  else let! t := need EJumpTableOutOfBounds (nth_error (p_jump p) (N.to_nat (a / 2 - 1))) in
       Ok (if is_block_start p t then (Continue, t) else (XPanic, v_pc s)).
(** pvm-types/src/hostcall.rs:41-80: numbers without a function become INVALID. *)
Definition host_call_of (b : N) : N := if (b <=? 26) || (b =? 100) then b else 255.
(** The value a load puts in the register: [sext] in set.rs:336-470, a signed cast in set.rs:1004-1158. *)
Definition load_value (op : opcode) (w : nat) (v : N) : N :=
  if load_signed op then if group op =? 6 then sext v (N.of_nat w) else u64_of (to_signed v (N.of_nat w)) else v.
(** set.rs:336-470, 1004-1158. Width 1 uses [read_byte]. *)
Definition do_load (s : vm) (p : prog) (op : opcode) (w : nat) (a dst : N) : result verr (exit * change) :=
  let r := match w with 1%nat => (let! b := read_byte (v_mem s) a in Ok [b]) | _ => read_bytes (v_mem s) a (N.of_nat w) end in
  match r with
  | Ok bs => Ok (Continue, reg_write dst (load_value op w (le_val bs)) (next_pc (v_pc s) p))
  | Err (Forbidden _) => Ok (XPanic, no_change)
  | Err (AccessViolation x) => Ok (PageFault x, no_change)
  | Err e => Err (EMem e)
  | Panic => Panic
  end.
(** set.rs:470-593, 952-1003. *)
Definition do_store (s : vm) (p : prog) (w : nat) (a v : N) : exit * change :=
  (Continue, mk_change None (Some (a, le_bytes w v)) (next_pc (v_pc s) p)).
(** interpreter/mod.rs:123-277 and set.rs: the exit reason and the state change. SBRK changes the memory itself (set.rs:794-814). *)
Definition exec (p : prog) (s : vm) (i : inst) : result verr (mem * exit * change) :=
  let op := i_op i in
  let pc := v_pc s in
  let keep (r : result verr (exit * change)) : result verr (mem * exit * change) := let! (x, c) := r in Ok (v_mem s, x, c) in
  let jump (xt : exit * N) : result verr (exit * change) := Ok (fst xt, to_pc (snd xt)) in
  match op with
  | TRAP => keep (Ok (XPanic, to_pc pc))
  | FALLTHROUGH => keep (Ok (Continue, to_pc (next_pc pc p)))
  | ECALLI => keep (let! x := imm1 i in Ok (HostCall (host_call_of (x mod 2 ^ 8)), to_pc (next_pc pc p)))
  | LOAD_IMM_64 | LOAD_IMM => keep (let! r := rs1 i in let! x := imm1 i in Ok (Continue, reg_write r x (next_pc pc p)))
  | SBRK =>
      let! size := get_reg s (rs1 i) in
      let! (m', b) := lift EMem (sbrk (v_mem s) size) in
      let! d := rd i in Ok (m', Continue, reg_write d b (next_pc pc p))
  | JUMP => keep (let! t := imm1 i in jump (branch s p (u32 t) true))
  | LOAD_IMM_JUMP =>
      keep (let! t := imm2 i in let xt := branch s p (u32 t) true in
            let! r := rs1 i in let! x := imm1 i in Ok (fst xt, reg_write r x (snd xt)))
  | JUMP_IND => keep (let! a := get_reg s (rs1 i) in let! x := imm1 i in let! xt := djump s p (u32 (wadd a x)) in jump xt)
  | LOAD_IMM_JUMP_IND =>
      keep (let! a := get_reg s (rs2 i) in let! y := imm2 i in let! xt := djump s p (u32 (wadd a y)) in
            let! r := rs1 i in let! x := imm1 i in Ok (fst xt, reg_write r x (snd xt)))
  | _ =>
      match group op, access_width op with
      | 4, Some w => keep (let! a := imm1 i in let! v := imm2 i in Ok (do_store s p w (u32 a) v))
      | 6, Some w =>
          if match op with STORE_U8 | STORE_U16 | STORE_U32 | STORE_U64 => true | _ => false end
          then keep (let! a := imm1 i in let! v := get_reg s (rs1 i) in Ok (do_store s p w (u32 a) v))
          else keep (let! a := imm1 i in let! r := rs1 i in do_load s p op w (u32 a) r)
      | 7, Some w => keep (let! a := get_reg s (rs1 i) in let! x := imm1 i in let! v := imm2 i in Ok (do_store s p w (u32 (wadd a x)) v))
      | 8, _ => keep (let! t := imm2 i in let! a := get_reg s (rs1 i) in let! b := imm1 i in
                      let! c := need EInvalidProgram (branch_cond op a b) in jump (branch s p (u32 t) c))
      | 9, _ => keep (let! a := get_reg s (rs1 i) in let! v := need EInvalidProgram (alu1 op a) in let! d := rd i in Ok (Continue, reg_write d v (next_pc pc p)))
      | 10, Some w =>
          if match op with STORE_IND_U8 | STORE_IND_U16 | STORE_IND_U32 | STORE_IND_U64 => true | _ => false end
          then keep (let! a := get_reg s (rs2 i) in let! x := imm1 i in let! v := get_reg s (rs1 i) in Ok (do_store s p w (u32 (wadd a x)) v))
          else keep (let! a := get_reg s (rs2 i) in let! x := imm1 i in let! r := rs1 i in do_load s p op w (u32 (wadd a x)) r)
      | 10, None => keep (let! a := get_reg s (rs2 i) in let! b := imm1 i in let! d := get_reg s (rs1 i) in
                          let! v := need EInvalidProgram (alu2 op a b d) in let! r := rs1 i in Ok (Continue, reg_write r v (next_pc pc p)))
      | 11, _ => keep (let! t := imm1 i in let! a := get_reg s (rs1 i) in let! b := get_reg s (rs2 i) in
                       let! c := need EInvalidProgram (branch_cond op a b) in jump (branch s p (u32 t) c))
      | _, _ => keep (let! a := get_reg s (rs1 i) in let! b := get_reg s (rs2 i) in let! d := get_reg s (rd i) in
                      let! v := need EInvalidProgram (alu3 op a b d) in let! r := rd i in Ok (Continue, reg_write r v (next_pc pc p)))
      end
  end.

(** gas/mod.rs:9-22: the counter must stay within i64. *)
Definition charge (s : vm) (g : N) : result verr vm :=
  if (2 ^ 63 <=? g) then Err EGasOverflow
  else let x := (v_gas s - Z.of_N g)%Z in
       if (x <? - 2 ^ 63)%Z then Err EGasOverflow else Ok (mk_vm (v_regs s) (v_mem s) (v_pc s) x).
(** Assignments of pvm/pvm-core/src/state/state_change.rs:128-176. *)
Fixpoint set_nth {A} (n : nat) (x : A) (l : list A) : list A := match l, n with [], _ => [] | _ :: l', O => x :: l' | y :: l', S n' => y :: set_nth n' x l' end.
(** Assignments of pvm/pvm-core/src/state/state_change.rs:128-176. *)
Definition set_reg (s : vm) (r v : N) : vm := mk_vm (set_nth (N.to_nat r) v (v_regs s)) (v_mem s) (v_pc s) (v_gas s).
(** Assignments of pvm/pvm-core/src/state/state_change.rs:128-176. *)
Definition set_mem (s : vm) (m : mem) : vm := mk_vm (v_regs s) m (v_pc s) (v_gas s).
(** Assignments of pvm/pvm-core/src/state/state_change.rs:128-176. *)
Definition set_pc (s : vm) (pc : N) : vm := mk_vm (v_regs s) (v_mem s) pc (v_gas s).

(** What an iteration of the loop leads to. interpreter/mod.rs:50-112. *)
Inductive outcome := Cont (s : vm) | Stop (x : exit) (s : vm).
(** interpreter/mod.rs:50-112, one iteration, with state_change.rs:125-173 [apply_state_change]. *)
Definition step (p : prog) (s : vm) : result verr outcome :=
  match instruction_at p (v_pc s) with
  | None => Ok (Stop XPanic s)
  | Some i =>
      let! (m, x, c) := exec p s i in
      let! s1 := charge (set_mem s m) 1 in
      if (v_gas s1 <? 0)%Z then Ok (Stop OutOfGas s1)
      else match x with
           | Continue | XPanic | RegularHalt =>
               let finish (s2 : vm) : result verr outcome :=
                 let s3 := set_pc s2 (c_pc c) in
                 let! s4 := (match c_reg c with
                             | Some (r, v) => if 13 <=? r then Err EInvalidRegIndex else Ok (set_reg s3 r v)
                             | None => Ok s3 end) in
                 Ok (match x with Continue => Cont s4 | _ => Stop x s4 end) in
               match c_mem c with
               | None => finish s1
               | Some (a, bs) =>
                   if a <? INIT_ZONE_SIZE then Ok (Stop XPanic s1)
                   else match write_bytes (v_mem s1) a bs with
                        | Ok m' => finish (set_mem s1 m')
                        | Err (AccessViolation y) => Ok (Stop (PageFault (y / PAGE_SIZE * PAGE_SIZE)) (set_pc s1 0))
                        | Err e => Err (EMem e)
                        | Panic => Panic
                        end
               end
           | _ => Ok (Stop x s1)
           end
  end.
(** The loop of interpreter/mod.rs:50-112; [None] when [fuel] iterations were not enough. *)
Fixpoint invoke_general (fuel : nat) (p : prog) (s : vm) : option (result verr (exit * vm)) :=
  match fuel with
  | O => None
  | S f => match step p s with
           | Ok (Cont s') => invoke_general f p s'
           | Ok (Stop x s') => Some (Ok (x, s'))
           | Err e => Some (Err e)
           | Panic => Some Panic
           end
  end.

(** state_change.rs:98-116 *)
Record hchange := mk_hchange { h_exit : exit; h_gas : N; h_r7 : option N; h_r8 : option N; h_mem : option (N * bytes) }.
(** state_change.rs:175-199 *)
Definition apply_host (s : vm) (h : hchange) : result verr vm :=
  let s1 := match h_r7 h with Some v => set_reg s 7 v | None => s end in
  let s2 := match h_r8 h with Some v => set_reg s1 8 v | None => s1 end in
  let! s3 := (match h_mem h with
              | Some (a, bs) => let! m' := lift EMem (write_bytes (v_mem s2) a bs) in Ok (set_mem s2 m')
              | None => Ok s2 end) in
  charge s3 (h_gas h).

(** pvm/pvm-interface/src/invoke.rs:107-111. *)
Inductive invocation := IsAuthorized | Accumulate | Refine.
(** invoke.rs:109-161 *)
Definition host_allowed (t : invocation) (h : N) : bool :=
  match t with
  | IsAuthorized => existsb (N.eqb h) [0; 1; 100]
  | Accumulate => existsb (N.eqb h) [0; 1; 3; 4; 2; 5; 14; 15; 16; 17; 18; 19; 20; 21; 22; 23; 24; 25; 26; 100]
  | Refine => existsb (N.eqb h) [0; 1; 6; 7; 8; 9; 10; 11; 12; 13; 100]
  end.
(** host_functions/mod.rs [continue_with_return_code]: WHAT is 2^64 - 2; the base charge is 10. pvm/pvm-host/src/host_functions/mod.rs:15-37. *)
Definition WHAT : N := 2 ^ 64 - 2.
(** pvm/pvm-interface/src/invoke.rs:321-334. *)
Definition what_result : hchange := mk_hchange Continue 10 (Some WHAT) None None.

Section Host.
  (** The host functions act on a context; each is an arbitrary function of the machine state and the context. *)
  Context {C : Type} (host : N -> vm -> C -> result verr (hchange * C)).
  (** invoke.rs:321-468 *)
  Definition execute_host (t : invocation) (s : vm) (c : C) (h : N) : result verr (hchange * C) :=
    let h' := if host_allowed t h then h else 255 in
    if h' =? 255 then Ok (what_result, c) else host h' s c.
  (** invoke.rs:262-319 [invoke_extended], fuelled by the number of calls. *)
  Fixpoint invoke_extended (fuel : nat) (t : invocation) (p : prog) (s : vm) (c : C) : option (result verr (exit * vm * C)) :=
    match fuel with
    | O => None
    | S f =>
        match invoke_general fuel p s with
        | None => None
        | Some Panic => Some Panic
        | Some (Err e) => Some (Err e)
        | Some (Ok (HostCall h, s1)) =>
            match execute_host t s1 c h with
            | Panic => Some Panic
            | Err e => Some (Err e)
            | Ok (hc, c') =>
                match h_exit hc with
                | Continue =>
                    match apply_host s1 hc with
                    | Ok s2 => if (v_gas s2 <? 0)%Z then Some (Ok (OutOfGas, s2, c')) else invoke_extended f t p (set_pc s2 (next_pc (v_pc s2) p)) c'
                    | Err e => Some (Err e)
                    | Panic => Some Panic
                    end
                | XPanic | RegularHalt | OutOfGas =>
                    match apply_host s1 hc with Ok s2 => Some (Ok (h_exit hc, s2, c')) | Err e => Some (Err e) | Panic => Some Panic end
                | _ => Some (Err EInvalidExitReason)
                end
            end
        | Some (Ok (x, s1)) => Some (Ok (x, s1, c))
        end
    end.
End Host.
