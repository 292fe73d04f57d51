(** Preparing a PVM from a standard program and running it to a result:
    pvm/pvm-core/src/program/types/formatted_program.rs, pvm/pvm-interface/src/pvm.rs and invoke.rs. *)
From Verif Require Import Base Codec_Model PvmMem_Model PvmProg_Model PvmStep_Model.
Open Scope N_scope.

(** pvm-types/src/constants.rs:35-42 *)
Definition INIT_INPUT_SIZE : N := 2 ^ 24.
(** Part of pvm-types/src/constants.rs:35-42. *)
Definition MEMORY_SIZE : N := 2 ^ 32.
(** formatted_program.rs:7-24 *)
Record fprog := mk_fprog { f_static_size : N; f_heap_size : N; f_extra : N; f_stack_size : N; f_static : bytes; f_heap : bytes; f_code_size : N; f_code : bytes }.
(** formatted_program.rs:26-50 *)
Definition decode_fprog : dec fprog := fun inp =>
  let! (o, r1) := decode_fixed 32 3 inp in
  let! (w, r2) := decode_fixed 32 3 r1 in
  let! (z, r3) := decode_fixed 16 2 r2 in
  let! (s, r4) := decode_fixed 32 3 r3 in
  let! (od, r5) := decode_raw o r4 in
  let! (wd, r6) := decode_raw w r5 in
  let! (c, r7) := decode_fixed 32 4 r6 in
  let! (cd, r8) := decode_raw c r7 in
  Ok (mk_fprog o w z s od wd c cd, r8).
(** formatted_program.rs:54-61 *)
Definition from_standard_program (blob : bytes) : result verr fprog :=
  let! (f, rest) := lift ECodec (decode_fprog blob) in
  match rest with [] => Ok f | _ => Err EInvalidProgram end.
(** utils.rs:47-57 *)
Definition page_align (x : N) : N := PAGE_SIZE * div_ceil x PAGE_SIZE.
(** Part of utils.rs:47-57. *)
Definition zone_align (x : N) : N := INIT_ZONE_SIZE * div_ceil x INIT_ZONE_SIZE.
(** formatted_program.rs:63-72 *)
Definition is_program_size_valid (f : fprog) : bool :=
  5 * INIT_ZONE_SIZE + zone_align (f_static_size f) + zone_align (f_heap_size f + f_extra f * PAGE_SIZE) + zone_align (f_stack_size f) + INIT_INPUT_SIZE <=? 2 ^ 32.

(** Fields set at pvm/pvm-interface/src/pvm.rs:54-96. *)
Definition set_heap (m : mem) (a b : N) : mem := mk_mem (m_data m) (m_len m) (m_acc m) (m_psz m) (m_pages m) a b (m_stack_start m).
(** Fields set at pvm/pvm-interface/src/pvm.rs:54-96. *)
Definition set_stack (m : mem) (a : N) : mem := mk_mem (m_data m) (m_len m) (m_acc m) (m_psz m) (m_pages m) (m_heap_start m) (m_heap_end m) a.
(** pvm.rs:54-96. The additions of [MemAddress]es wrap (they panic in debug builds). *)
Definition setup_memory_layout (f : fprog) (args : bytes) : result merr mem :=
  let m0 := mem_new MEMORY_SIZE PAGE_SIZE in
  let o_start := u32 INIT_ZONE_SIZE in
  let o_end := u32 (o_start + u32 (page_align (f_static_size f))) in
  let! m1 := set_address_range_access m0 o_start o_end ReadWrite in
  let! m2 := write_bytes m1 o_start (f_static f) in
  let! m3 := set_address_range_access m2 o_start o_end ReadOnly in
  let w_start := u32 (2 * INIT_ZONE_SIZE + zone_align (f_static_size f)) in
  let w_end := u32 (u32 (w_start + u32 (page_align (f_heap_size f))) + u32 (f_extra f * PAGE_SIZE)) in
  let! m4 := set_address_range_access m3 w_start w_end ReadWrite in
  let! m5 := write_bytes m4 w_start (f_heap f) in
  let m6 := set_heap m5 w_start w_end in
  let s_start := u32 (2 ^ 32 - 2 * INIT_ZONE_SIZE - INIT_INPUT_SIZE - page_align (f_stack_size f)) in
  let s_end := u32 (2 ^ 32 - 2 * INIT_ZONE_SIZE - INIT_INPUT_SIZE) in
  let! m7 := set_address_range_access m6 s_start s_end ReadWrite in
  let m8 := set_stack m7 s_start in
  let a_start := u32 (2 ^ 32 - INIT_ZONE_SIZE - INIT_INPUT_SIZE) in
  let a_end := u32 (a_start + u32 (page_align (N.of_nat (length args)))) in
  let! m9 := set_address_range_access m8 a_start a_end ReadWrite in
  let! m10 := write_bytes m9 a_start args in
  set_address_range_access m10 a_start a_end ReadOnly.
(** pvm.rs:121-126, on the zeros of [VMState::default] *)
Definition initial_registers (args_len : N) : list N :=
  [2 ^ 32 - 2 ^ 16; 2 ^ 32 - (2 * INIT_ZONE_SIZE + INIT_INPUT_SIZE); 0; 0; 0; 0; 0; 2 ^ 32 - (INIT_ZONE_SIZE + INIT_INPUT_SIZE); args_len; 0; 0; 0; 0].
(** pvm.rs:28-52 [new_with_formatted_program]: the error is not looked at by the caller. *)
Definition new_pvm (f : fprog) (args : bytes) : option vm :=
  if INIT_INPUT_SIZE <? N.of_nat (length args) then None
  else if negb (is_program_size_valid f) then None
  else match setup_memory_layout f args with
       | Ok m => Some (mk_vm (initial_registers (N.of_nat (length args))) m 0 0)
       | _ => None
       end.

(** invoke.rs:198-208: decoding and loading a program that is not in the cache. *)
Definition prepare (blob : bytes) : result verr (fprog * prog) :=
  let! f := from_standard_program blob in
  if negb (is_program_size_valid f) then Err EInvalidProgram else
  let! p := load_program (f_code f) in Ok (f, p).
(** invoke.rs:196-214: the cache, keyed by the hash of the program. *)
Section Cache.
  Context {K : Type} (keq : forall x y : K, {x = y} + {x <> y}) (H : bytes -> K).
  (** pvm/pvm-interface/src/invoke.rs:196-214. *)
  Definition cache := list (K * (fprog * prog)).
  (** pvm/pvm-interface/src/invoke.rs:196-214. *)
  Definition cache_get (k : K) (c : cache) : option (fprog * prog) := option_map snd (find (fun e => if keq (fst e) k then true else false) c).
  (** pvm/pvm-interface/src/invoke.rs:196-214. *)
  Definition fetch (c : cache) (blob : bytes) : result verr (fprog * prog) * cache :=
    match cache_get (H blob) c with
    | Some e => (Ok e, c)
    | None => match prepare blob with Ok e => (Ok e, (H blob, e) :: c) | r => (r, c) end
    end.
End Cache.

(** invoke.rs:87-96 *)
Inductive output := Output (bs : bytes) | OutputUnavailable | OutputOutOfGas | OutputPanic.
(** [u64 as i64]. Used at pvm/pvm-interface/src/invoke.rs:216-238. *)
Definition as_signed (g : N) : Z := if g <? 2 ^ 63 then Z.of_N g else (Z.of_N g - 2 ^ 64)%Z.
(** Used at pvm/pvm-interface/src/invoke.rs:238. *)
Definition as_unsigned (z : Z) : N := Z.to_N (z mod 2 ^ 64).
(** invoke.rs:238: the subtraction wraps (it panics in debug builds). *)
Definition gas_used (limit : N) (counter : Z) : N := as_unsigned (Z.of_N limit - Z.max 0 counter).
(** invoke.rs:240-260 *)
Definition result_of (limit : N) (x : exit) (s : vm) : result verr (N * output) :=
  let g := gas_used limit (v_gas s) in
  match x with
  | OutOfGas => Ok (g, OutputOutOfGas)
  | RegularHalt =>
      let a := nth 7 (v_regs s) 0 in let n := nth 8 (v_regs s) 0 in
      if 2 ^ 32 <=? a then Err EInvalidRegVal
      else if is_address_range_readable (v_mem s) a n
           then let! bs := lift EMem (read_bytes (v_mem s) a n) in Ok (g, Output bs)
           else Ok (g, OutputUnavailable)
  | _ => Ok (g, OutputPanic)
  end.
Section Invoke.
  Context {C : Type} (host : N -> vm -> C -> result verr (hchange * C)).
  (** invoke.rs:216-261: with the program [(f, p)] from the cache. [None] means the fuel was too small. *)
  Definition run_prepared (fuel : nat) (t : invocation) (fp : fprog * prog) (pc limit : N) (args : bytes) (c : C) : option (result verr (N * output * C)) :=
    match new_pvm (fst fp) args with
    | None => Some (Ok (0, OutputPanic, c))
    | Some s0 =>
        match invoke_extended host fuel t (snd fp) (mk_vm (v_regs s0) (v_mem s0) pc (as_signed limit)) c with
        | None => None
        | Some Panic => Some Panic
        | Some (Err e) => Some (Err e)
        | Some (Ok (x, s, c')) => Some (let! r := result_of limit x s in Ok (r, c'))
        end
    end.
  (** invoke.rs:178-261 [invoke_with_args] without the cache, which [fetch] models. *)
  Definition invoke_with_args (fuel : nat) (t : invocation) (blob : bytes) (pc limit : N) (args : bytes) (c : C) : option (result verr (N * output * C)) :=
    match prepare blob with
    | Ok fp => run_prepared fuel t fp pc limit args c
    | Err e => Some (Err e)
    | Panic => Some Panic
    end.
End Invoke.
