(** What each PVM instruction means, over the integers. Only the instruction names come from the model. *)
From Verif Require Import Base PvmMem_Model PvmMem_Spec PvmProg_Model PvmStep_Model.
Open Scope Z_scope.

(** The signed number whose low [k] bits are those of [z], and the 64-bit word holding [z]. *)
Definition sgn (k z : Z) : Z := (z + 2 ^ (k - 1)) mod 2 ^ k - 2 ^ (k - 1).
Definition word (z : Z) (r : N) : Prop := Z.of_N r = z mod 2 ^ 64.
Definition bits64 (f : N -> bool) (r : N) : Prop := (r < 2 ^ 64)%N /\ forall i, (i < 64)%N -> N.testbit r i = f i.
Definition byte_at (i x : N) : N := ((x / 2 ^ (8 * i)) mod 256)%N.
Definition truth (P : bool) (r : N) : Prop := r = if P then 1%N else 0%N.
(** [r] counts the set bits of the low [w] bits; the zeros above the highest, or below the lowest, set bit. *)
Definition popcount (w : nat) (x r : N) : Prop := r = N.of_nat (length (filter (fun i => N.testbit x (N.of_nat i)) (seq 0 w))).
Definition top_zeros (w x r : N) : Prop :=
  (r <= w /\ (forall i, i < w -> w - r <= i -> N.testbit x i = false) /\ (r < w -> N.testbit x (w - r - 1) = true))%N.
Definition low_zeros (w x r : N) : Prop :=
  (r <= w /\ (forall i, i < r -> N.testbit x i = false) /\ (r < w -> N.testbit x r = true))%N.
(** [y] is the low [w] bits of [x] turned right by [k] places. *)
Definition turned (w x k y : N) : Prop := (y < 2 ^ w)%N /\ forall i, (i < w)%N -> N.testbit y i = N.testbit x ((i + k) mod w)%N.

(** [meaning op a b d r]: for operands [a] and [b], and [d] in the destination before, the instruction puts [r] there.
    In the register-immediate forms [b] is the immediate. Division by zero gives all ones, remainder by zero the dividend. *)
Definition meaning (op : opcode) (a b d r : N) : Prop :=
  let A := Z.of_N a in let B := Z.of_N b in let A32 := A mod 2 ^ 32 in let B32 := B mod 2 ^ 32 in
  match op with
  | MOVE_REG => r = a
  | COUNT_SET_BITS_64 => popcount 64 a r
  | COUNT_SET_BITS_32 => popcount 32 a r
  | LEADING_ZERO_BITS_64 => top_zeros 64 a r
  | LEADING_ZERO_BITS_32 => top_zeros 32 a r
  | TRAILING_ZERO_BITS_64 => low_zeros 64 a r
  | TRAILING_ZERO_BITS_32 => low_zeros 32 a r
  | SIGN_EXTEND_8 => word (sgn 8 A) r
  | SIGN_EXTEND_16 => word (sgn 16 A) r
  | ZERO_EXTEND_16 => word (A mod 2 ^ 16) r
  | REVERSE_BYTES => (r < 2 ^ 64)%N /\ forall i, (i < 8)%N -> byte_at i r = byte_at (7 - i) a
  | ADD_32 | ADD_IMM_32 => word (sgn 32 (A + B)) r
  | SUB_32 => word (sgn 32 (A - B)) r
  | NEG_ADD_IMM_32 => word (sgn 32 (B - A)) r
  | MUL_32 | MUL_IMM_32 => word (sgn 32 (A * B)) r
  | ADD_64 | ADD_IMM_64 => word (A + B) r
  | SUB_64 => word (A - B) r
  | NEG_ADD_IMM_64 => word (B - A) r
  | MUL_64 | MUL_IMM_64 => word (A * B) r
  | DIV_U_32 => if B32 =? 0 then word (-1) r else word (sgn 32 (A32 / B32)) r
  | DIV_S_32 => if sgn 32 B =? 0 then word (-1) r else word (sgn 32 (Z.quot (sgn 32 A) (sgn 32 B))) r
  | REM_U_32 => if B32 =? 0 then word (sgn 32 A) r else word (sgn 32 (A32 mod B32)) r
  | REM_S_32 => if sgn 32 B =? 0 then word (sgn 32 A) r else word (Z.rem (sgn 32 A) (sgn 32 B)) r
  | DIV_U_64 => if B =? 0 then word (-1) r else word (A / B) r
  | DIV_S_64 => if B =? 0 then word (-1) r else word (Z.quot (sgn 64 A) (sgn 64 B)) r
  | REM_U_64 => if B =? 0 then word A r else word (A mod B) r
  | REM_S_64 => if B =? 0 then word A r else word (Z.rem (sgn 64 A) (sgn 64 B)) r
  | MUL_UPPER_S_S => word (sgn 64 A * sgn 64 B / 2 ^ 64) r
  | MUL_UPPER_U_U => word (A * B / 2 ^ 64) r
  | MUL_UPPER_S_U => word (sgn 64 A * B / 2 ^ 64) r
  | SHLO_L_32 | SHLO_L_IMM_32 => word (sgn 32 (A * 2 ^ (B mod 32))) r
  | SHLO_R_32 | SHLO_R_IMM_32 => word (sgn 32 (A32 / 2 ^ (B mod 32))) r
  | SHAR_R_32 | SHAR_R_IMM_32 => word (sgn 32 A / 2 ^ (B mod 32)) r
  | SHLO_L_64 | SHLO_L_IMM_64 => word (A * 2 ^ (B mod 64)) r
  | SHLO_R_64 | SHLO_R_IMM_64 => word (A / 2 ^ (B mod 64)) r
  | SHAR_R_64 | SHAR_R_IMM_64 => word (sgn 64 A / 2 ^ (B mod 64)) r
  | SHLO_L_IMM_ALT_32 => word (sgn 32 (B * 2 ^ (A mod 32))) r
  | SHLO_R_IMM_ALT_32 => word (sgn 32 (B32 / 2 ^ (A mod 32))) r
  | SHAR_R_IMM_ALT_32 => word (sgn 32 B / 2 ^ (A mod 32)) r
  | SHLO_L_IMM_ALT_64 => word (B * 2 ^ (A mod 64)) r
  | SHLO_R_IMM_ALT_64 => word (B / 2 ^ (A mod 64)) r
  | SHAR_R_IMM_ALT_64 => word (sgn 64 B / 2 ^ (A mod 64)) r
  | AND | AND_IMM => bits64 (fun i => N.testbit a i && N.testbit b i) r
  | OR | OR_IMM => bits64 (fun i => N.testbit a i || N.testbit b i) r
  | XOR | XOR_IMM => bits64 (fun i => xorb (N.testbit a i) (N.testbit b i)) r
  | AND_INV => bits64 (fun i => N.testbit a i && negb (N.testbit b i)) r
  | OR_INV => bits64 (fun i => N.testbit a i || negb (N.testbit b i)) r
  | XNOR => bits64 (fun i => Bool.eqb (N.testbit a i) (N.testbit b i)) r
  | SET_LT_U | SET_LT_U_IMM => truth (A <? B) r
  | SET_LT_S | SET_LT_S_IMM => truth (sgn 64 A <? sgn 64 B) r
  | SET_GT_U_IMM => truth (B <? A) r
  | SET_GT_S_IMM => truth (sgn 64 B <? sgn 64 A) r
  | CMOV_IZ => r = if B =? 0 then a else d
  | CMOV_NZ => r = if B =? 0 then d else a
  | CMOV_IZ_IMM => r = if A =? 0 then b else d
  | CMOV_NZ_IMM => r = if A =? 0 then d else b
  | ROT_R_64 | ROT_R_64_IMM => turned 64 a b r
  | ROT_R_64_IMM_ALT => turned 64 b a r
  | ROT_R_32 | ROT_R_32_IMM => exists y, turned 32 a b y /\ word (sgn 32 (Z.of_N y)) r
  | ROT_R_32_IMM_ALT => exists y, turned 32 b a y /\ word (sgn 32 (Z.of_N y)) r
  | ROT_L_64 => (r < 2 ^ 64)%N /\ turned 64 r b a
  | ROT_L_32 => exists y, (y < 2 ^ 32)%N /\ turned 32 y b (a mod 2 ^ 32) /\ word (sgn 32 (Z.of_N y)) r
  | MAX => r = if sgn 64 A <? sgn 64 B then b else a
  | MIN => r = if sgn 64 A <? sgn 64 B then a else b
  | MAX_U => r = if A <? B then b else a
  | MIN_U => r = if A <? B then a else b
  | _ => False
  end.
(** The one case in which the node's signed remainder has the wrong sign. *)
Definition rem_s_bad (op : opcode) (a b : N) : Prop :=
  match op with
  | REM_S_32 => sgn 32 (Z.of_N a) = - 2 ^ 31 /\ Z.rem (- 2 ^ 31) (sgn 32 (Z.of_N b)) <> 0 /\ sgn 32 (Z.of_N b) <> 0
  | REM_S_64 => sgn 64 (Z.of_N a) = - 2 ^ 63 /\ Z.rem (- 2 ^ 63) (sgn 64 (Z.of_N b)) <> 0 /\ b <> 0%N
  | _ => False
  end.
