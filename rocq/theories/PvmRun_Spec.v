(** What a PVM instruction does to the machine. From the model come only the record of a machine, of an instruction and of a memory,
    and the names of the opcodes and of the exits. *)
From Verif Require Import Base PvmMem_Model PvmMem_Spec PvmProg_Model PvmStep_Model PvmStep_Spec PvmProg_Spec.
Open Scope N_scope.

Definition reg (s : vm) (r : N) : N := nth (N.to_nat r) (v_regs s) 0.
(** Thirteen 64-bit registers and a 32-bit memory. *)
Definition machine_ok (s : vm) : Prop :=
  length (v_regs s) = 13%nat /\ Forall (fun v => v < 2 ^ 64) (v_regs s) /\ mem_ok (v_mem s) /\ m_len (v_mem s) = 2 ^ 32 /\ (forall x, m_data (v_mem s) x < 256).

(** An instruction goes on at [pc], having set a register and stored bytes at an address, or ends the run. *)
Inductive effect := Go (pc : N) (w : option (N * N)) (st : option (N * bytes)) | End (x : exit).

(** ** Memory accesses: [w] bytes from [a], around the end of the address space. *)
Definition readable (m : mem) (x : N) : Prop := 65536 <= x /\ can_read m x.
Definition writable (m : mem) (x : N) : Prop := 65536 <= x /\ can_write m x.
Definition spot (a : N) (k : nat) : N := (a + N.of_nat k) mod 2 ^ 32.
Definition all_spots (P : N -> Prop) (a : N) (w : nat) : Prop := forall k, (k < w)%nat -> P (spot a k).
(** The lowest byte that is not permitted decides: below 64 KiB it is a panic, otherwise a fault at the start of its page. *)
Definition refused (P : N -> Prop) (a : N) (w : nat) (x : exit) : Prop :=
  exists b, (exists k, (k < w)%nat /\ b = spot a k) /\ ~ P b /\ (forall k, (k < w)%nat -> ~ P (spot a k) -> b <= spot a k) /\
    x = if b <? 65536 then XPanic else PageFault (4096 * (b / 4096)).
Definition loads (m : mem) (a : N) (w : nat) (signed : bool) (r nxt : N) (e : effect) : Prop :=
  (all_spots (readable m) a w /\ exists bs v, length bs = w /\ (forall k, (k < w)%nat -> nth k bs 0 = m_data m (spot a k)) /\
     e = Go nxt (Some (r, v)) None /\ if signed then word (sgn (8 * Z.of_nat w) (Z.of_N (le_val bs))) v else v = le_val bs) \/
  exists x, refused (readable m) a w x /\ e = End x.
Definition stores (m : mem) (a : N) (w : nat) (v nxt : N) (e : effect) : Prop :=
  (all_spots (writable m) a w /\ exists bs, length bs = w /\ (forall k, (k < w)%nat -> nth k bs 0 = byte_at (N.of_nat k) v) /\ e = Go nxt None (Some (a, bs))) \/
  exists x, refused (writable m) a w x /\ e = End x.

(** ** Jumps *)
Definition jumps (starts : N -> Prop) (t : N) (w : option (N * N)) (e : effect) : Prop :=
  (starts t /\ e = Go t w None) \/ (~ starts t /\ e = End XPanic).
Definition djumps (starts : N -> Prop) (jt : list N) (a : N) (w : option (N * N)) (e : effect) : Prop :=
  if a =? 2 ^ 32 - 2 ^ 16 then e = End RegularHalt
  else if (a =? 0) || (2 * N.of_nat (length jt) <? a) || (a mod 2 =? 1) then e = End XPanic
  else exists t, nth_error jt (N.to_nat (a / 2 - 1)) = Some t /\ jumps starts t w e.
Definition takes (op : opcode) (a b : N) : Prop :=
  let A := Z.of_N a in let B := Z.of_N b in
  match op with
  | BRANCH_EQ | BRANCH_EQ_IMM => A = B
  | BRANCH_NE | BRANCH_NE_IMM => A <> B
  | BRANCH_LT_U | BRANCH_LT_U_IMM => A < B
  | BRANCH_LE_U_IMM => A <= B
  | BRANCH_GE_U | BRANCH_GE_U_IMM => A >= B
  | BRANCH_GT_U_IMM => A > B
  | BRANCH_LT_S | BRANCH_LT_S_IMM => sgn 64 A < sgn 64 B
  | BRANCH_LE_S_IMM => sgn 64 A <= sgn 64 B
  | BRANCH_GE_S | BRANCH_GE_S_IMM => sgn 64 A >= sgn 64 B
  | BRANCH_GT_S_IMM => sgn 64 A > sgn 64 B
  | _ => False
  end%Z.
Definition branches (starts : N -> Prop) (op : opcode) (a b t nxt : N) (e : effect) : Prop :=
  (takes op a b /\ jumps starts t None e) \/ (~ takes op a b /\ e = Go nxt None None).

(** ** The instructions by what they do *)
Inductive form := FTrap | FFall | FEcall | FSetImm | FSbrk | FJump | FJumpInd | FSetJump | FSetJumpInd | FBranchImm | FBranch
  | FLoad (ind : bool) (w : nat) (signed : bool) | FStore (ind : bool) (w : nat) | FStoreImm (ind : bool) (w : nat) | FMath1 | FMath2 | FMath3.
Definition form_of (op : opcode) : form :=
  match op with
  | TRAP => FTrap | FALLTHROUGH => FFall | ECALLI => FEcall | LOAD_IMM | LOAD_IMM_64 => FSetImm | SBRK => FSbrk
  | JUMP => FJump | JUMP_IND => FJumpInd | LOAD_IMM_JUMP => FSetJump | LOAD_IMM_JUMP_IND => FSetJumpInd
  | BRANCH_EQ_IMM | BRANCH_NE_IMM | BRANCH_LT_U_IMM | BRANCH_LE_U_IMM | BRANCH_GE_U_IMM | BRANCH_GT_U_IMM | BRANCH_LT_S_IMM | BRANCH_LE_S_IMM
  | BRANCH_GE_S_IMM | BRANCH_GT_S_IMM => FBranchImm
  | BRANCH_EQ | BRANCH_NE | BRANCH_LT_U | BRANCH_LT_S | BRANCH_GE_U | BRANCH_GE_S => FBranch
  | LOAD_U8 => FLoad false 1 false | LOAD_U16 => FLoad false 2 false | LOAD_U32 => FLoad false 4 false | LOAD_U64 => FLoad false 8 false
  | LOAD_I8 => FLoad false 1 true | LOAD_I16 => FLoad false 2 true | LOAD_I32 => FLoad false 4 true
  | LOAD_IND_U8 => FLoad true 1 false | LOAD_IND_U16 => FLoad true 2 false | LOAD_IND_U32 => FLoad true 4 false | LOAD_IND_U64 => FLoad true 8 false
  | LOAD_IND_I8 => FLoad true 1 true | LOAD_IND_I16 => FLoad true 2 true | LOAD_IND_I32 => FLoad true 4 true
  | STORE_U8 => FStore false 1 | STORE_U16 => FStore false 2 | STORE_U32 => FStore false 4 | STORE_U64 => FStore false 8
  | STORE_IND_U8 => FStore true 1 | STORE_IND_U16 => FStore true 2 | STORE_IND_U32 => FStore true 4 | STORE_IND_U64 => FStore true 8
  | STORE_IMM_U8 => FStoreImm false 1 | STORE_IMM_U16 => FStoreImm false 2 | STORE_IMM_U32 => FStoreImm false 4 | STORE_IMM_U64 => FStoreImm false 8
  | STORE_IMM_IND_U8 => FStoreImm true 1 | STORE_IMM_IND_U16 => FStoreImm true 2 | STORE_IMM_IND_U32 => FStoreImm true 4 | STORE_IMM_IND_U64 => FStoreImm true 8
  | MOVE_REG | COUNT_SET_BITS_64 | COUNT_SET_BITS_32 | LEADING_ZERO_BITS_64 | LEADING_ZERO_BITS_32 | TRAILING_ZERO_BITS_64 | TRAILING_ZERO_BITS_32
  | SIGN_EXTEND_8 | SIGN_EXTEND_16 | ZERO_EXTEND_16 | REVERSE_BYTES => FMath1
  | ADD_IMM_32 | AND_IMM | XOR_IMM | OR_IMM | MUL_IMM_32 | SET_LT_U_IMM | SET_LT_S_IMM | SHLO_L_IMM_32 | SHLO_R_IMM_32 | SHAR_R_IMM_32 | NEG_ADD_IMM_32
  | SET_GT_U_IMM | SET_GT_S_IMM | SHLO_L_IMM_ALT_32 | SHLO_R_IMM_ALT_32 | SHAR_R_IMM_ALT_32 | CMOV_IZ_IMM | CMOV_NZ_IMM | ADD_IMM_64 | MUL_IMM_64
  | SHLO_L_IMM_64 | SHLO_R_IMM_64 | SHAR_R_IMM_64 | NEG_ADD_IMM_64 | SHLO_L_IMM_ALT_64 | SHLO_R_IMM_ALT_64 | SHAR_R_IMM_ALT_64 | ROT_R_64_IMM
  | ROT_R_64_IMM_ALT | ROT_R_32_IMM | ROT_R_32_IMM_ALT => FMath2
  | _ => FMath3
  end.
(** The host calls that exist. *)
Definition host_known (n : N) : bool := (n <=? 26) || (n =? 100).
(** What instruction [i] does in [s]; [nxt] is where the next instruction begins. *)
Definition does (starts : N -> Prop) (jt : list N) (s : vm) (i : inst) (nxt : N) (e : effect) : Prop :=
  let op := i_op i in let m := v_mem s in
  match form_of op with
  | FTrap => e = End XPanic
  | FFall => e = Go nxt None None
  | FEcall => exists x, i_imm1 i = Some x /\ e = End (HostCall (if host_known x then x else 255))
  | FSetImm => exists r x, i_rs1 i = Some r /\ i_imm1 i = Some x /\ e = Go nxt (Some (r, x)) None
  | FSbrk => True
  | FJump => exists t, i_imm1 i = Some t /\ jumps starts t None e
  | FJumpInd => exists r x, i_rs1 i = Some r /\ i_imm1 i = Some x /\ djumps starts jt ((reg s r + x) mod 2 ^ 32) None e
  | FSetJump => exists r x t, i_rs1 i = Some r /\ i_imm1 i = Some x /\ i_imm2 i = Some t /\ jumps starts t (Some (r, x)) e
  | FSetJumpInd => exists r b x y, i_rs1 i = Some r /\ i_rs2 i = Some b /\ i_imm1 i = Some x /\ i_imm2 i = Some y /\
      djumps starts jt ((reg s b + y) mod 2 ^ 32) (Some (r, x)) e
  | FBranchImm => exists r x t, i_rs1 i = Some r /\ i_imm1 i = Some x /\ i_imm2 i = Some t /\ branches starts op (reg s r) x t nxt e
  | FBranch => exists r b t, i_rs1 i = Some r /\ i_rs2 i = Some b /\ i_imm1 i = Some t /\ branches starts op (reg s r) (reg s b) t nxt e
  | FLoad false w sg => exists r x, i_rs1 i = Some r /\ i_imm1 i = Some x /\ loads m (x mod 2 ^ 32) w sg r nxt e
  | FLoad true w sg => exists r b x, i_rs1 i = Some r /\ i_rs2 i = Some b /\ i_imm1 i = Some x /\ loads m ((reg s b + x) mod 2 ^ 32) w sg r nxt e
  | FStore false w => exists r x, i_rs1 i = Some r /\ i_imm1 i = Some x /\ stores m (x mod 2 ^ 32) w (reg s r) nxt e
  | FStore true w => exists r b x, i_rs1 i = Some r /\ i_rs2 i = Some b /\ i_imm1 i = Some x /\ stores m ((reg s b + x) mod 2 ^ 32) w (reg s r) nxt e
  | FStoreImm false w => exists x y, i_imm1 i = Some x /\ i_imm2 i = Some y /\ stores m (x mod 2 ^ 32) w y nxt e
  | FStoreImm true w => exists r x y, i_rs1 i = Some r /\ i_imm1 i = Some x /\ i_imm2 i = Some y /\ stores m ((reg s r + x) mod 2 ^ 32) w y nxt e
  | FMath1 => exists r d v, i_rs1 i = Some r /\ i_rd i = Some d /\ meaning op (reg s r) 0 0 v /\ e = Go nxt (Some (d, v)) None
  | FMath2 => exists r b x v, i_rs1 i = Some r /\ i_rs2 i = Some b /\ i_imm1 i = Some x /\ meaning op (reg s b) x (reg s r) v /\ e = Go nxt (Some (r, v)) None
  | FMath3 => exists r b d v, i_rs1 i = Some r /\ i_rs2 i = Some b /\ i_rd i = Some d /\ meaning op (reg s r) (reg s b) (reg s d) v /\
      e = Go nxt (Some (d, v)) None
  end.

(** [s'] is [s] after going on at [pc] for one unit of gas. *)
Definition after (s : vm) (pc : N) (w : option (N * N)) (st : option (N * bytes)) (s' : vm) : Prop :=
  v_pc s' = pc /\ v_gas s' = (v_gas s - 1)%Z /\ length (v_regs s') = length (v_regs s) /\
  (forall k, k < 13 -> reg s' k = match w with Some (r, v) => if k =? r then v else reg s k | None => reg s k end) /\
  (forall x, x < 2 ^ 32 -> m_data (v_mem s') x =
     match st with
     | Some (a, bs) => let k := (x + 2 ^ 32 - a) mod 2 ^ 32 in if k <? N.of_nat (length bs) then nth (N.to_nat k) bs 0 else m_data (v_mem s) x
     | None => m_data (v_mem s) x
     end) /\
  (forall k, m_acc (v_mem s') k = m_acc (v_mem s) k) /\ m_len (v_mem s') = m_len (v_mem s) /\
  m_heap_start (v_mem s') = m_heap_start (v_mem s) /\ m_heap_end (v_mem s') = m_heap_end (v_mem s) /\ m_stack_start (v_mem s') = m_stack_start (v_mem s).

(** ** Where the node departs from this *)
(** The address of an access. *)
Definition accesses (s : vm) (i : inst) (a : N) (w : nat) : Prop :=
  exists x, i_imm1 i = Some x /\
  match form_of (i_op i) with
  | FLoad false w' _ | FStore false w' | FStoreImm false w' => w = w' /\ a = x mod 2 ^ 32
  | FLoad true w' _ | FStore true w' => w = w' /\ exists b, i_rs2 i = Some b /\ a = (reg s b + x) mod 2 ^ 32
  | FStoreImm true w' => w = w' /\ exists b, i_rs1 i = Some b /\ a = (reg s b + x) mod 2 ^ 32
  | _ => False
  end.
Inductive deviates (s : vm) (i : inst) : Prop :=
| dev_sbrk : form_of (i_op i) = FSbrk -> deviates s i
| dev_rem : forall r b, i_rs1 i = Some r -> i_rs2 i = Some b -> rem_s_bad (i_op i) (reg s r) (reg s b) -> deviates s i
| dev_wrap : forall a w, accesses s i a w -> 2 ^ 32 < a + N.of_nat w -> deviates s i
| dev_byte_fault : forall a ind sg, accesses s i a 1 -> form_of (i_op i) = FLoad ind 1 sg -> 65536 <= a -> ~ can_read (v_mem s) a -> a mod 4096 <> 0 -> deviates s i
| dev_ecalli : forall x, form_of (i_op i) = FEcall -> i_imm1 i = Some x -> 256 <= x -> host_known (x mod 256) = true -> deviates s i.

(** ** One step and whole runs *)
(** The node's step from [s] has effect [e]. *)
Definition realizes (p : prog) (s : vm) (e : effect) : Prop :=
  match e with
  | Go pc w st => exists s', step p s = Ok (Cont s') /\ after s pc w st s' /\ machine_ok s'
  | End x => exists s', step p s = Ok (Stop x s') /\ v_gas s' = (v_gas s - 1)%Z /\ v_mem s' = v_mem s /\
      (match x with PageFault _ | HostCall _ => v_regs s' = v_regs s | _ => True end) /\ match x with HostCall _ => v_pc s' = v_pc s | _ => True end
  end.
(** [i], at [n], is followed by [l] argument bytes. *)
Definition holds (code : bytes) (mask : list bool) (n l : nat) (i : inst) : Prop :=
  opcode_at mask n /\ names (code_at code n) (i_op i) /\ skip_is mask n l /\ operands code n l i.
(** Where jumps may go. *)
Definition lands (code : bytes) (mask : list bool) (t : N) : Prop := block_start code mask (N.to_nat t).
Section Runs.
  Variables (code : bytes) (mask : list bool) (jt : list N).
  (** The run from [s] ends with [x]: instructions are executed one after another, each for one unit of gas. *)
  Inductive runs : vm -> exit -> Prop :=
  | run_none : forall s n, v_pc s = N.of_nat n -> ~ opcode_at mask n -> runs s XPanic
  | run_dry : forall s n, v_pc s = N.of_nat n -> opcode_at mask n -> v_gas s = 0%Z -> runs s OutOfGas
  | run_end : forall s n l i x, v_pc s = N.of_nat n -> holds code mask n l i -> (0 < v_gas s)%Z ->
      does (lands code mask) jt s i (N.of_nat (n + 1 + l)) (End x) -> runs s x
  | run_go : forall s n l i pc w st s' x, v_pc s = N.of_nat n -> holds code mask n l i -> (0 < v_gas s)%Z ->
      does (lands code mask) jt s i (N.of_nat (n + 1 + l)) (Go pc w st) -> after s pc w st s' -> runs s' x -> runs s x.
  (** The run from [s] comes to an instruction on which the node departs from the specification. *)
  Inductive strays : vm -> Prop :=
  | stray_now : forall s n l i, v_pc s = N.of_nat n -> holds code mask n l i -> deviates s i -> strays s
  | stray_later : forall s n l i pc w st s', v_pc s = N.of_nat n -> holds code mask n l i -> (0 < v_gas s)%Z ->
      does (lands code mask) jt s i (N.of_nat (n + 1 + l)) (Go pc w st) -> after s pc w st s' -> strays s' -> strays s.
End Runs.

(** ** Gas *)
(** [k] instructions of the node, none of which ends the run. *)
Inductive steps (p : prog) : nat -> vm -> vm -> Prop :=
| steps_none : forall s, steps p 0 s s
| steps_more : forall k s s' s'', step p s = Ok (Cont s') -> steps p k s' s'' -> steps p (S k) s s''.
(** The same with host calls, which count as the [ecalli] that makes them. *)
Inductive hsteps {C : Type} (host : N -> vm -> C -> result verr (hchange * C)) (t : invocation) (p : prog) : nat -> vm -> C -> vm -> C -> Prop :=
| hsteps_none : forall s c, hsteps host t p 0 s c s c
| hsteps_more : forall k s c s' s'' c'', step p s = Ok (Cont s') -> hsteps host t p k s' c s'' c'' -> hsteps host t p (S k) s c s'' c''
| hsteps_host : forall k s c h s1 hc c1 s2 s'' c'', step p s = Ok (Stop (HostCall h) s1) -> execute_host host t s1 c h = Ok (hc, c1) -> h_exit hc = Continue ->
    apply_host s1 hc = Ok s2 -> (0 <= v_gas s2)%Z -> hsteps host t p k (set_pc s2 (next_pc (v_pc s2) p)) c1 s'' c'' -> hsteps host t p (S k) s c s'' c''.
(** The calls each invocation offers: gas 0, fetch 1, lookup 2, read 3, write 4, info 5, historical_lookup to expunge 6-13, bless to provide 14-26, log 100. *)
Definition offered (t : invocation) (n : N) : Prop :=
  match t with
  | IsAuthorized => n = 0 \/ n = 1 \/ n = 100
  | Refine => n = 0 \/ n = 1 \/ 6 <= n <= 13 \/ n = 100
  | Accumulate => n <= 5 \/ 14 <= n <= 26 \/ n = 100
  end.
