(** Model of the refinement of work items: pvm/pvm-host/src/host_functions/refine/mod.rs, general/mod.rs:34-237 (for a refinement),
    pvm-host/src/context/mod.rs:494-540, inner_vm.rs, pvm/pvm-invocation/src/{refine,is_authorized}/.
    Simplifications: the state provider answers every read; [usize] is 64 bits; the numbering of machines does not reach 2^64; the [HashMap] of
    machines is an association list; tracing is left out; what is encoded elsewhere (the package, its context, the protocol constants) is given as octets. *)
From Verif Require Import Base PvmMem_Model PvmProg_Model PvmStep_Model PvmInit_Model Codec_Model Host_Model Acc_Model.
Open Scope N_scope.

(** ** What a refinement works on *)
(** common/src/types/workloads/work_package.rs:69-75, 102-121; an import is its tag, its hash and its index *)
Record xtinfo := mk_xt { x_hash : bytes; x_len : N }.
(** Part of common/src/types/workloads/work_package.rs:69-75, 102-121. *)
Record witem := mk_witem {
  w_service : N; w_code : bytes; w_refine_gas : N; w_acc_gas : N; w_exports : N; w_payload : bytes; w_imports : list (bool * bytes * N); w_xts : list xtinfo }.
(** work_package.rs:185-200; [k_octets] is its encoding, [k_context] that of its context *)
Record pkg := mk_pkg {
  k_items : list witem; k_host : N; k_auth : bytes; k_token : bytes; k_config : bytes; k_anchor : N; k_octets : bytes; k_context : bytes }.
(** pvm/pvm-types/src/invoke_args.rs:150-176 *)
Record rargs := mk_rargs {
  ra_core : N; ra_item : nat; ra_pkg : pkg; ra_trace : bytes; ra_imports : list (list bytes); ra_offset : N; ra_xt : xtinfo -> option bytes }.
(** What a refinement sees of the state (whether an account is there, what the historical lookup of manager.rs:693-731 finds) and the constants and entropy
    FETCH gives *)
Record renv := mk_renv { re_exists : N -> bool; re_lookup : N -> N -> bytes -> option bytes; re_consts : bytes; re_entropy : bytes }.

(** inner_vm.rs:4-22 *)
Record inner := mk_inner { in_code : bytes; in_mem : mem; in_pc : N }.
(** context/mod.rs:494-507 *)
Record rctx := mk_rctx { rx_next : N; rx_vms : list (N * inner); rx_exports : list bytes }.
(** context/mod.rs:509-515 *)
Definition new_rctx : rctx := mk_rctx 0 [] [].
(** context/mod.rs:517-526 *)
Definition get_vm (c : rctx) (i : N) : option inner := option_map snd (find (fun x => fst x =? i) (rx_vms c)).
(** assignments through the mutable references. pvm/pvm-host/src/context/mod.rs:517-526. *)
Definition put_vm (c : rctx) (i : N) (v : inner) : rctx :=
  mk_rctx (rx_next c) (map (fun x => if fst x =? i then (i, v) else x) (rx_vms c)) (rx_exports c).
(** context/mod.rs:528-533 *)
Definition add_vm (c : rctx) (v : inner) : rctx :=
  mk_rctx (rx_next c + 1) ((rx_next c, v) :: filter (fun x => negb (fst x =? rx_next c)) (rx_vms c)) (rx_exports c).
(** context/mod.rs:535-537 *)
Definition remove_vm (c : rctx) (i : N) : rctx := mk_rctx (rx_next c) (filter (fun x => negb (fst x =? i)) (rx_vms c)) (rx_exports c).
(** pvm/pvm-host/src/host_functions/refine/mod.rs:125-165. *)
Definition push_export (c : rctx) (b : bytes) : rctx := mk_rctx (rx_next c) (rx_vms c) (rx_exports c ++ [b]).

(** pvm/pvm-host/src/host_functions/mod.rs:15-37. *)
Definition OOB : N := 2 ^ 64 - 3.
(** host_functions/mod.rs:39-51 *)
Definition HALT : N := 0. Definition PANIC : N := 1. Definition FAULT : N := 2. Definition HOST : N := 3. Definition OOG : N := 4.
(** common/src/constants/mod.rs. common/src/constants/mod.rs:102. *)
Definition SEGMENT_SIZE : N := 4104.
(** common/src/constants/mod.rs:114. *)
Definition MAX_EXPORTS : N := 3072.

(** pvm/pvm-host/src/host_functions/mod.rs:54-57. *)
Definition rans := result verr (hchange * rctx).
(** pvm/pvm-host/src/host_functions/mod.rs:54-57. *)
Definition sets (r7 : N) : hchange := mk_hchange Continue 10 (Some r7) None None.

(** ** FETCH: general/mod.rs:45-137 *)
(** [items[i]], when [i] is in range. Used at pvm/pvm-host/src/host_functions/general/mod.rs:142-237. *)
Definition item_at {A} (l : list A) (i : N) : option A := if i <? N.of_nat (length l) then nth_error l (N.to_nat i) else None.
(** work_package.rs:167-180 *)
Definition summary (w : witem) : result cerr bytes :=
  let! a := encode_fixed (w_service w) 4 in let! b := encode_fixed (w_refine_gas w) 8 in let! c := encode_fixed (w_acc_gas w) 8 in
  let! d := encode_fixed (w_exports w) 2 in let! f := encode_fixed (N.of_nat (length (w_imports w))) 2 in let! g := encode_fixed (N.of_nat (length (w_xts w))) 2 in
  let! h := encode_fixed (N.of_nat (length (w_payload w))) 4 in Ok (a ++ w_code w ++ b ++ c ++ d ++ f ++ g ++ h).
(** Used at pvm/pvm-host/src/host_functions/general/mod.rs:142-237. *)
Definition ok {E A} (r : result E A) : option A := match r with Ok x => Some x | _ => None end.
(** general/mod.rs:152-160: a vector of vectors of octets, encoded *)
Fixpoint summaries (l : list witem) : option bytes :=
  match l with
  | [] => Some []
  | w :: l => match ok (summary w), summaries l with Some a, Some b => Some (integer_encode (N.of_nat (length a)) ++ a ++ b) | _, _ => None end
  end.
(** general/mod.rs:142-183; [i] is register 11 *)
Definition package_data (k : pkg) (id i : N) : option bytes :=
  match id with
  | 7 => Some (k_octets k)
  | 8 => Some (k_config k)
  | 9 => Some (k_token k)
  | 10 => Some (k_context k)
  | 11 => option_map (fun b => integer_encode (N.of_nat (length (k_items k))) ++ b) (summaries (k_items k))
  | 12 => match item_at (k_items k) i with Some w => ok (summary w) | None => None end
  | 13 => option_map w_payload (item_at (k_items k) i)
  | _ => None
  end.
(** general/mod.rs:185-237; [i] and [j] are registers 11 and 12; the index of the item refined is in range, or the code panics *)
Definition data_of_item (a : rargs) (id i j : N) : result verr (option bytes) :=
  let item := N.of_nat (ra_item a) in
  match id with
  | 3 => Ok (match item_at (k_items (ra_pkg a)) i with Some w => match item_at (w_xts w) j with Some x => ra_xt a x | None => None end | None => None end)
  | 4 => match item_at (k_items (ra_pkg a)) item with
         | Some w => Ok (match item_at (w_xts w) i with Some x => ra_xt a x | None => None end)
         | None => Panic
         end
  | 5 => Ok (match item_at (ra_imports a) i with Some l => item_at l j | None => None end)
  | 6 => match item_at (ra_imports a) item with Some l => Ok (item_at l i) | None => Panic end
  | _ => Ok None
  end.
(** general/mod.rs:57-86: what FETCH finds, for an authorization and for a refinement *)
Definition fetch_auth (e : renv) (k : pkg) (s : vm) : option bytes :=
  let id := reg s 10 in
  if id =? 0 then Some (re_consts e) else if (7 <=? id) && (id <=? 13) then package_data k id (reg s 11) else None.
(** Part of general/mod.rs:57-86. *)
Definition fetch_refine (e : renv) (a : rargs) (s : vm) : result verr (option bytes) :=
  let id := reg s 10 in
  if id =? 0 then Ok (Some (re_consts e))
  else if id =? 1 then Ok (Some (re_entropy e))
  else if id =? 2 then Ok (Some (ra_trace a))
  else if (3 <=? id) && (id <=? 6) then data_of_item a id (reg s 11) (reg s 12)
  else if (7 <=? id) && (id <=? 13) then Ok (package_data (ra_pkg a) id (reg s 11))
  else Ok None.
(** general/mod.rs:109-137, refine/mod.rs:95-120: part of the data at [addr], its whole length in register 7 *)
Definition copied (s : vm) (data : bytes) (addr off len : N) : hchange :=
  let size := N.of_nat (length data) in
  let o := N.min off size in
  let n := N.min len (size - o) in
  match as_u32 addr with
  | Some a => if is_address_range_writable (v_mem s) a n
              then mk_hchange Continue 10 (Some size) None (Some (a, firstn (N.to_nat n) (skipn (N.to_nat o) data)))
              else panicked
  | None => panicked
  end.
(** Part of general/mod.rs:109-137; refine/mod.rs:95-120. *)
Definition answer_fetch (s : vm) (d : option bytes) : hchange :=
  match d with Some d => copied s d (reg s 7) (reg s 8) (reg s 9) | None => code NONE end.

(** ** refine/mod.rs *)
(** refine/mod.rs:40-120 *)
Definition historical_lookup (e : renv) (a : rargs) (self : N) (s : vm) (c : rctx) : rans :=
  match rd s (reg s 8) 32 with
  | None => Ok (panicked, c)
  | Some h =>
      let who := if (reg s 7 =? 2 ^ 64 - 1) && re_exists e self then Some self
                 else match as_u32 (reg s 7) with Some t => if re_exists e t then Some t else None | None => None end in
      match who with
      | None => Ok (code NONE, c)
      | Some t => match re_lookup e t (k_anchor (ra_pkg a)) h with
                  | None => Ok (code NONE, c)
                  | Some d => Ok (copied s d (reg s 9) (reg s 10) (reg s 11), c)
                  end
      end
  end.
(** pvm-host/src/utils.rs:8-20, common/src/utils/zero_pad.rs *)
Definition pad_segment (d : bytes) : bytes := d ++ repeat 0 (N.to_nat SEGMENT_SIZE - length d).
(** refine/mod.rs:125-165 *)
Definition export (a : rargs) (s : vm) (c : rctx) : rans :=
  match rd s (reg s 7) (N.min (reg s 8) SEGMENT_SIZE) with
  | None => Ok (panicked, c)
  | Some d => let n := N.of_nat (length (rx_exports c)) + ra_offset a in
              if MAX_EXPORTS <=? n then Ok (code FULL, c) else Ok (sets n, push_export c (pad_segment d))
  end.
(** refine/mod.rs:170-211 *)
Definition machine (s : vm) (c : rctx) : rans :=
  match rd s (reg s 7) (reg s 8) with
  | None => Ok (panicked, c)
  | Some p => match deblob p with
              | Panic => Panic
              | Err _ => Ok (code HUH, c)
              | Ok _ => Ok (sets (rx_next c), add_vm c (mk_inner p mem_default (reg s 9)))
              end
  end.
(** refine/mod.rs:216-263 *)
Definition peek (s : vm) (c : rctx) : rans :=
  match as_u32 (reg s 8) with
  | None => Ok (panicked, c)
  | Some o =>
      if negb (is_address_range_writable (v_mem s) o (reg s 10)) then Ok (panicked, c)
      else match get_vm c (reg s 7) with
           | None => Ok (code WHO, c)
           | Some v => match rd (mk_vm (v_regs s) (in_mem v) 0 0) (reg s 9) (reg s 10) with
                       | None => Ok (code OOB, c)
                       | Some d => Ok (mk_hchange Continue 10 (Some OK) None (Some (o, d)), c)
                       end
           end
  end.
(** refine/mod.rs:268-315 *)
Definition poke (s : vm) (c : rctx) : rans :=
  match rd s (reg s 8) (reg s 10) with
  | None => Ok (panicked, c)
  | Some d =>
      match get_vm c (reg s 7) with
      | None => Ok (code WHO, c)
      | Some v =>
          match as_u32 (reg s 9) with
          | None => Ok (code OOB, c)
          | Some o => if negb (is_address_range_writable (in_mem v) o (reg s 10)) then Ok (code OOB, c)
                      else match write_bytes (in_mem v) o d with
                           | Ok m => Ok (code OK, put_vm c (reg s 7) (mk_inner (in_code v) m (in_pc v)))
                           | _ => Ok (code OOB, c)
                           end
          end
      end
  end.
(** refine/mod.rs:319-388. The sum and the product wrap (they panic in debug builds); a vector of 2^63 octets or more panics. Setting the access of a page beyond the
    last would leave the pages before it changed; the checks before exclude it. *)
Definition pages (s : vm) (c : rctx) : rans :=
  match get_vm c (reg s 7) with
  | None => Ok (code WHO, c)
  | Some v =>
      let first := reg s 8 in let count := reg s 9 in let mode := reg s 10 in
      let last := u64 (first + count) in
      if (4 <? mode) || (first <? 16) || (2 ^ 32 / PAGE_SIZE <=? last) then Ok (code HUH, c)
      else if (2 <? mode) && negb (forallb (page_readable (in_mem v)) (range first last)) then Ok (code HUH, c)
      else let size := u64 (count * PAGE_SIZE) in
           let cleared := if mode <? 3
                          then if 2 ^ 63 <=? size then Panic else write_bytes (in_mem v) (u32 (first * PAGE_SIZE)) (repeat 0 (N.to_nat size))
                          else Ok (in_mem v) in
           match cleared with
           | Panic => Panic
           | Err _ => Ok (code HUH, c)
           | Ok m =>
               let acc := match mode with 0 => Inaccessible | 1 | 3 => ReadOnly | _ => ReadWrite end in
               match set_page_range_access m first last acc with
               | Ok m => Ok (code OK, put_vm c (reg s 7) (mk_inner (in_code v) m (in_pc v)))
               | _ => Ok (code HUH, c)
               end
           end
  end.
(** refine/mod.rs:415-424: the registers, eight octets each *)
Fixpoint read_regs (m : mem) (a : N) (n : nat) : option (list N) :=
  match n with
  | O => Some []
  | S n => match read_bytes m a 8 with
           | Ok b => match read_regs m (a + 8) n with Some l => Some (le_val b :: l) | None => None end
           | _ => None
           end
  end.
(** refine/mod.rs:455-460 *)
Definition written (s : vm) : bytes := le_bytes 8 (as_unsigned (v_gas s)) ++ concat (map (le_bytes 8) (v_regs s)).
(** refine/mod.rs:462-510: registers 7 and 8, and where the machine goes on *)
Definition reported (x : exit) : option (N * option N) :=
  match x with
  | HostCall h => Some (HOST, Some h)
  | PageFault a => Some (FAULT, Some a)
  | OutOfGas => Some (OOG, None)
  | XPanic => Some (PANIC, None)
  | RegularHalt => Some (HALT, None)
  | Continue => None
  end.
(** refine/mod.rs:396-512. The machine makes at most one step for each unit of gas and one more ([invoke_enough] in Refine_Proofs.v), so the fuel suffices. *)
Definition invoke (s : vm) (c : rctx) : rans :=
  match as_u32 (reg s 8) with
  | None => Ok (panicked, c)
  | Some o =>
      if negb (is_address_range_writable (v_mem s) o 112) then Ok (panicked, c)
      else match read_bytes (v_mem s) o 8, read_regs (v_mem s) (o + 8) 13 with
           | Ok g, Some regs =>
               match get_vm c (reg s 7) with
               | None => Ok (code WHO, c)
               | Some v =>
                   let gas := le_val g in
                   if 2 ^ 63 <=? gas then Err EHost
                   else let! p := load_program (in_code v) in
                        match invoke_general (S (N.to_nat gas)) p (mk_vm regs (in_mem v) (in_pc v) (Z.of_N gas)) with
                        | None => Panic
                        | Some r =>
                            let! (x, t) := r in
                            match reported x with
                            | None => Err EInvalidExitReason
                            | Some (r7, r8) =>
                                let pc := match x with HostCall _ => next_pc (v_pc t) p | _ => v_pc t end in
                                Ok (mk_hchange Continue 10 (Some r7) r8 (Some (o, written t)), put_vm c (reg s 7) (mk_inner (in_code v) (v_mem t) pc))
                            end
                        end
               end
           | _, _ => Ok (panicked, c)
           end
  end.
(** refine/mod.rs:515-545 *)
Definition expunge (s : vm) (c : rctx) : rans :=
  match get_vm c (reg s 7) with
  | None => Ok (code WHO, c)
  | Some v => Ok (sets (in_pc v), remove_vm c (reg s 7))
  end.

(** pvm/pvm-interface/src/invoke.rs:335-503 for a refinement of service [self]; every function but LOG first makes sure of the base charge
    (utils.rs:268-283) *)
Definition refine_host (e : renv) (a : rargs) (self n : N) (s : vm) (c : rctx) : rans :=
  if n =? 100 then Ok (what_result, c)
  else if (v_gas s <? 10)%Z then Ok (starved 10, c)
  else match n with
       | 0 => Ok (sets (Z.to_N (v_gas s) - 10), c)
       | 1 => let! d := fetch_refine e a s in Ok (answer_fetch s d, c)
       | 6 => historical_lookup e a self s c
       | 7 => export a s c
       | 8 => machine s c
       | 9 => peek s c
       | 10 => poke s c
       | 11 => pages s c
       | 12 => invoke s c
       | 13 => expunge s c
       | _ => Ok (what_result, c)
       end.
(** A history of calls: the number of the function and the machine state it is called in. Histories of the calls of pvm/pvm-interface/src/invoke.rs:335-503; not in the code. *)
Fixpoint refine_calls (e : renv) (a : rargs) (self : N) (l : list (N * vm)) (c : rctx) : result verr (list hchange * rctx) :=
  match l with
  | [] => Ok ([], c)
  | (n, s) :: l => let! (h, c) := refine_host e a self n s c in let! (hs, c) := refine_calls e a self l c in Ok (h :: hs, c)
  end.
(** The same, for an authorization. pvm/pvm-interface/src/invoke.rs:335-503. *)
Definition auth_host (e : renv) (k : pkg) (n : N) (s : vm) (c : unit) : result verr (hchange * unit) :=
  if n =? 100 then Ok (what_result, c)
  else if (v_gas s <? 10)%Z then Ok (starved 10, c)
  else match n with
       | 0 => Ok (sets (Z.to_N (v_gas s) - 10), c)
       | 1 => Ok (answer_fetch s (fetch_auth e k s), c)
       | _ => Ok (what_result, c)
       end.

(** ** Results: common/src/types/workloads/work_report.rs *)
(** common/src/types/workloads/work_report.rs:179-182, common/src/types/workloads/work_report.rs:124-137. *)
Inductive wfail := WOutOfGas | WPanic | WBadExports | WOversize | WBad | WBig.
(** common/src/types/workloads/work_report.rs:179-182, common/src/types/workloads/work_report.rs:124-137. *)
Inductive wresult := WOutput (b : bytes) | WError (f : wfail).
(** pvm/pvm-interface/src/invoke.rs:96-107. *)
Definition of_output (o : output) : wresult :=
  match o with Output b => WOutput b | OutputUnavailable => WOutput [] | OutputOutOfGas => WError WOutOfGas | OutputPanic => WError WPanic end.

(** pvm-invocation/src/is_authorized/mod.rs:72-118; state/src/manager.rs:676-691. [None] at the outside: too little fuel. *)
Definition is_authorized (fuel : nat) (e : renv) (k : pkg) (core : N) : option (result verr (N * wresult)) :=
  match re_lookup e (k_host k) (k_anchor k) (k_auth k) with
  | None => Some (Ok (0, WError WBad))
  | Some b =>
      match lift ECodec (split_code b) with
      | Panic => Some Panic
      | Err x => Some (Err x)
      | Ok code =>
          if 64000 <? N.of_nat (length code) then Some (Ok (0, WError WBig))
          else match invoke_with_args (auth_host e k) fuel IsAuthorized code 0 50000000 (le_bytes 2 core) tt with
               | None => None
               | Some r => Some (let! (gas, o, _) := r in Ok (gas, of_output o))
               end
      end
  end.
(** pvm-invocation/src/refine/mod.rs:108-191 *)
Definition refine (fuel : nat) (e : renv) (H : bytes -> bytes) (a : rargs) : option (result verr (N * wresult * list bytes)) :=
  match nth_error (k_items (ra_pkg a)) (ra_item a) with
  | None => Some (Ok (0, WError WBad, []))
  | Some w =>
      if negb (re_exists e (w_service w)) then Some (Ok (0, WError WBad, []))
      else match re_lookup e (w_service w) (k_anchor (ra_pkg a)) (w_code w) with
           | None => Some (Ok (0, WError WBad, []))
           | Some b =>
               match lift ECodec (split_code b) with
               | Panic => Some Panic
               | Err x => Some (Err x)
               | Ok code =>
                   if 4000000 <? N.of_nat (length code) then Some (Ok (0, WError WBig, []))
                   else
                     let args := integer_encode (ra_core a) ++ integer_encode (N.of_nat (ra_item a)) ++ integer_encode (w_service w) ++
                                 integer_encode (N.of_nat (length (w_payload w))) ++ w_payload w ++ H (k_octets (ra_pkg a)) in
                     match invoke_with_args (refine_host e a (w_service w)) fuel Refine code 0 (w_refine_gas w) args new_rctx with
                     | None => None
                     | Some r => Some (let! (gas, o, c) := r in
                                       Ok (gas, of_output o, match o with Output _ | OutputUnavailable => rx_exports c | _ => [] end))
                     end
               end
           end
  end.

(** ** The items of a report: refine/pipeline.rs *)
(** refine/pipeline.rs:28-50; the octets of the extrinsics are a [u32] sum, which wraps *)
Record digest := mk_digest {
  d_service : N; d_code : bytes; d_payload : bytes; d_gas : N; d_result : wresult; d_used : N; d_imports : N; d_xts : N; d_octets : N; d_exports : N }.
(** Part of refine/pipeline.rs:28-50. *)
Definition digest_of (H : bytes -> bytes) (w : witem) (r : wresult) (used : N) : digest :=
  mk_digest (w_service w) (w_code w) (H (w_payload w)) (w_acc_gas w) r used (N.of_nat (length (w_imports w)) mod 2 ^ 16) (N.of_nat (length (w_xts w)) mod 2 ^ 16)
    (fold_left (fun n x => u32 (n + x_len x)) (w_xts w) 0) (w_exports w).
(** common/src/constants/mod.rs:108. *)
Definition OUTPUT_LIMIT : N := 49152.
(** refine/pipeline.rs:119-170. [run i offset] is the refinement of item [i] when [offset] exports come before it; [size] is the size of the trace and the outputs so far *)
Fixpoint report_items (run : nat -> N -> result verr (N * wresult * list bytes)) (H : bytes -> bytes) (items : list witem) (i : nat) (offset size : N)
  : result verr (list digest * list bytes) :=
  match items with
  | [] => Ok ([], [])
  | w :: items =>
      let! (used, r, segs) := run i offset in
      let size := match r with WOutput b => size + N.of_nat (length b) | WError _ => size end in
      let '(r, segs) := if OUTPUT_LIMIT <? size then (WError WOversize, [])
                        else if negb (N.of_nat (length segs) =? w_exports w) then (WError WBadExports, [])
                        else match r with WError _ => (r, []) | WOutput _ => (r, segs) end in
      let! (ds, more) := report_items run H items (S i) (offset + w_exports w) size in
      Ok (digest_of H w r used :: ds, segs ++ more)
  end.
