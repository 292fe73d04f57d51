(** Model of the host functions of accumulation (pvm/pvm-host/src/host_functions/{general,accumulate,debug}/mod.rs, context/mod.rs, and
    state/src/types/services.rs for thresholds and footprints). A host function is a program of operations on the accounts: run on a sandbox
    ([Sandbox_Model.step]) it is the code; run on plain accounts ([Sandbox_Spec.next]) it is what the code would do without a sandbox.
    Simplifications: the state provider answers every read; [usize] is 64 bits; fixed-size decoding of read octets always succeeds and is the octets
    themselves; tracing is left out (with it the state-key hashing done only for log lines); [BTreeMap]s and [HashMap]s are association lists. *)
From Verif Require Import Base PvmMem_Model PvmProg_Model PvmStep_Model Codec_Model Sandbox_Model.
Open Scope N_scope.

(** ** Programs of account operations *)
(** How a host function uses the account accessors of pvm/pvm-host/src/context/partial_state.rs:189-1081; the monad is the model's own. *)
Inductive aprog (R : Type) := Ret (r : R) | Do (o : sop) (k : sout -> aprog R).
Arguments Ret {R} _. Arguments Do {R} _ _.
(** How a host function uses the account accessors of pvm/pvm-host/src/context/partial_state.rs:189-1081; the monad is the model's own. *)
Fixpoint pbind {A B} (p : aprog A) (k : A -> aprog B) : aprog B := match p with Ret r => k r | Do o f => Do o (fun a => pbind (f a) k) end.
Notation "'let*' x ':=' p 'in' k" := (pbind p (fun x => k)) (at level 200, x pattern, p at level 100, k at level 200, right associativity).
(** How a host function uses the account accessors of pvm/pvm-host/src/context/partial_state.rs:189-1081; the monad is the model's own. *)
Fixpoint exec {A R} (do : A -> sop -> A * sout) (p : aprog R) (a : A) : A * R :=
  match p with Ret r => (a, r) | Do o k => let '(a, x) := do a o in exec do (k x) a end.

(** pvm/pvm-host/src/context/partial_state.rs:365-374. *)
Definition meta_of (s : N) : aprog (option meta) := Do (Meta s) (fun a => Ret (match a with MetaIs m => m | _ => None end)).
(** pvm/pvm-host/src/context/partial_state.rs:530-555, 668-695, 806-836. *)
Definition entry_of (s : N) (k : ekey) : aprog (option (list N)) := Do (Get s k) (fun a => Ret (match a with ValueIs v => v | _ => None end)).
(** pvm/pvm-host/src/context/partial_state.rs:297-316. *)
Definition exists_of (s : N) : aprog bool := Do (Exists s) (fun a => Ret (match a with Bool b => b | _ => false end)).
(** pvm/pvm-host/src/context/partial_state.rs:321-344. *)
Definition active_of (s : N) : aprog bool := Do (Active s) (fun a => Ret (match a with Bool b => b | _ => false end)).
(** An accessor of pvm/pvm-host/src/context/partial_state.rs:379-1016 whose error makes the host function fail. *)
Definition try (o : sop) : aprog bool := Do o (fun a => Ret (match a with Failed => false | _ => true end)).

(** ** Accounts: state/src/types/services.rs *)
(** [saturating_add], used at state/src/types/services.rs:308-322. *)
Definition sat_add (w x y : N) : N := N.min (2 ^ w - 1) (x + y).
(** state/src/types/services.rs:238-243; a sum above 2^64 wraps *)
Definition threshold (m : meta) : N := u64 (100 + 10 * m_items m + m_octets m) - m_gratis m.
(** state/src/types/services.rs:298-306 *)
Definition initial_threshold (len gratis : N) : N := 100 + 20 + (len + 81) - gratis.
(** state/src/types/services.rs:247-277: change of the number of items and of octets when an entry using [o] octets is replaced *)
Definition usage_delta (prev new : option N) : Z * Z :=
  match prev, new with
  | Some p, None => (-1, - Z.of_N p)%Z
  | Some p, Some n => (0, Z.of_N n - Z.of_N p)%Z
  | None, None => (0, 0)%Z
  | None, Some n => (1, Z.of_N n)%Z
  end.
(** state/src/types/services.rs:31-33 *)
Definition zero_delta (d : Z * Z) : bool := ((fst d =? 0) && (snd d =? 0))%Z.
(** state/src/types/services.rs:60-75 *)
Definition storage_foot (d : Z * Z) : Z * Z := (fst d, 34 * fst d + snd d)%Z.
(** Part of state/src/types/services.rs:60-75. *)
Definition lookup_foot (d : Z * Z) : Z * Z := (2 * fst d, 81 * fst d + snd d)%Z.
(** state/src/types/services.rs:308-322 *)
Definition apply_delta (w : N) (f : N) (d : Z) : N := if (d <? 0)%Z then f - Z.abs_N d else sat_add w f (Z.to_N d).
(** state/src/types/services.rs:326-348; one of the two deltas is always zero, and then leaves the counts as they are *)
Definition add_foot (m : meta) (d : Z * Z) : meta := set_usage m (apply_delta 32 (m_items m) (fst d)) (apply_delta 64 (m_octets m) (snd d)).
(** state/src/types/services.rs:441-443, 572-574: octets of a storage entry and of a request *)
Definition storage_octets (k v : bytes) : N := N.of_nat (length k) + N.of_nat (length v).
(** state/src/types/services.rs:351-365 *)
Definition info_bytes (m : meta) : bytes :=
  m_code m ++ le_bytes 8 (m_balance m) ++ le_bytes 8 (threshold m) ++ le_bytes 8 (m_gas_acc m) ++ le_bytes 8 (m_gas_xfer m) ++ le_bytes 8 (m_octets m) ++
  le_bytes 4 (m_items m) ++ le_bytes 8 (m_gratis m) ++ le_bytes 4 (m_created m) ++ le_bytes 4 (m_last_acc m) ++ le_bytes 4 (m_parent m).

(** ** Contexts: context/partial_state.rs:1084-1209, context/mod.rs:177-196 *)
Record role := mk_role { ro_last : N; ro_bless : option N; ro_self : option N }.
(** pvm/pvm-host/src/context/partial_state.rs:1084-1209. *)
Record priv := mk_priv {
  p_manager : N; p_assign : list N; p_assign_bless : option (list N); p_assign_self : list (N * N);
  p_designate : role; p_registrar : role; p_always : list (N * N); p_queues : list (list bytes); p_staging : option (list bytes) }.
(** pvm/pvm-types/src/invoke_args.rs:31-42. *)
Record xfer := mk_xfer { t_from : N; t_to : N; t_amount : N; t_memo : bytes; t_gas : N }.
(** The context without its accounts. pvm/pvm-host/src/context/mod.rs:177-196. *)
Record rest := mk_rest { r_host : N; r_priv : priv; r_next : N; r_xfers : list xfer; r_yield : option bytes; r_prov : list (N * bytes) }.
(** Assignments to fields of pvm/pvm-host/src/context/mod.rs:177-196. *)
Definition set_priv (r : rest) (p : priv) : rest := mk_rest (r_host r) p (r_next r) (r_xfers r) (r_yield r) (r_prov r).
(** Assignments to fields of pvm/pvm-host/src/context/mod.rs:177-196. *)
Definition set_next (r : rest) (i : N) : rest := mk_rest (r_host r) (r_priv r) i (r_xfers r) (r_yield r) (r_prov r).
(** Assignments to fields of pvm/pvm-host/src/context/mod.rs:177-196. *)
Definition add_xfer (r : rest) (t : xfer) : rest := mk_rest (r_host r) (r_priv r) (r_next r) (r_xfers r ++ [t]) (r_yield r) (r_prov r).
(** Assignments to fields of pvm/pvm-host/src/context/mod.rs:177-196. *)
Definition set_yield (r : rest) (y : bytes) : rest := mk_rest (r_host r) (r_priv r) (r_next r) (r_xfers r) (Some y) (r_prov r).
(** Assignments to fields of pvm/pvm-host/src/context/mod.rs:177-196. *)
Definition add_prov (r : rest) (s : N) (b : bytes) : rest := mk_rest (r_host r) (r_priv r) (r_next r) (r_xfers r) (r_yield r) ((s, b) :: r_prov r).

(** What does not change during an invocation: the time slot, the hash function, the numbers of cores and validators, the preimage expiration period,
    and what FETCH finds (data id and index; the constants, the entropy and the encoded inputs of the invocation). Constants of common/src/constants/mod.rs:1-146 and the arguments of an invocation, pvm/pvm-types/src/invoke_args.rs:129-140. *)
Record env := mk_env { e_now : N; e_hash : bytes -> bytes; e_cores : N; e_vals : N; e_expiry : N; e_fetch : N -> N -> option bytes }.

(** ** Registers, memory and answers *)
(** pvm/pvm-core/src/state/vm_state.rs:36-38. *)
Definition reg (s : vm) (i : nat) : N := nth i (v_regs s) 0.
(** vm_state.rs:50-74 *)
Definition as_u32 (x : N) : option N := if x <? 2 ^ 32 then Some x else None.
(** An address register, the check of the range, and the read. An address by pvm/pvm-core/src/state/vm_state.rs:59-65, then pvm/pvm-core/src/state/memory.rs:277-297. *)
Definition rd (s : vm) (addr len : N) : option bytes :=
  match as_u32 addr with
  | Some a => if is_address_range_readable (v_mem s) a len then match read_bytes (v_mem s) a len with Ok b => Some b | _ => None end else None
  | None => None
  end.
(** host_functions/mod.rs:15-37 *)
Definition NONE : N := 2 ^ 64 - 1. Definition WHO : N := 2 ^ 64 - 4. Definition FULL : N := 2 ^ 64 - 5. Definition CORE : N := 2 ^ 64 - 6.
(** pvm/pvm-host/src/host_functions/mod.rs:15-37. *)
Definition CASH : N := 2 ^ 64 - 7. Definition LOW : N := 2 ^ 64 - 8. Definition HUH : N := 2 ^ 64 - 9. Definition OK : N := 0.
(** common/src/constants/mod.rs:37. *)
Definition S_MIN : N := 65536.
(** The macros and helpers of pvm/pvm-host/src/host_functions/mod.rs:39-125. *)
Definition code (c : N) : hchange := mk_hchange Continue 10 (Some c) None None.
(** The macros and helpers of pvm/pvm-host/src/host_functions/mod.rs:39-125. *)
Definition panicked : hchange := mk_hchange XPanic 10 None None None.
(** The macros and helpers of pvm/pvm-host/src/host_functions/mod.rs:39-125. *)
Definition starved (g : N) : hchange := mk_hchange OutOfGas g None None None.

(** pvm/pvm-host/src/host_functions/mod.rs:54-57. *)
Definition answer := aprog (result verr (hchange * rest)).
(** pvm/pvm-host/src/host_functions/mod.rs:54-57. *)
Definition ret (h : hchange) (r : rest) : answer := Ret (Ok (h, r)).
(** pvm/pvm-host/src/host_functions/mod.rs:54-57. *)
Definition fail : answer := Ret (Err EHost).
(** general/mod.rs:109-137, 283-311, 365-396, 541-580: part of the data at [addr], its whole length in register 7 *)
Definition copy_out (s : vm) (r : rest) (data : bytes) (addr off len : N) : answer :=
  let size := N.of_nat (length data) in
  let o := N.min off size in
  let n := N.min len (size - o) in
  match as_u32 addr with
  | Some a => if is_address_range_writable (v_mem s) a n
              then ret (mk_hchange Continue 10 (Some size) None (Some (a, firstn (N.to_nat n) (skipn (N.to_nat o) data)))) r
              else ret panicked r
  | None => ret panicked r
  end.
(** The service named by a register; 2^64-1 is the host itself *)
Definition named (s : vm) (r : rest) : option N := if reg s 7 =? 2 ^ 64 - 1 then Some (r_host r) else as_u32 (reg s 7).

(** ** general/mod.rs *)
(** general/mod.rs:34-42 *)
Definition host_gas (s : vm) (r : rest) : answer := ret (mk_hchange Continue 10 (Some (Z.to_N (v_gas s) - 10)) None None) r.
(** general/mod.rs:45-137, in an accumulation *)
Definition host_fetch (e : env) (s : vm) (r : rest) : answer :=
  match (if existsb (N.eqb (reg s 10)) [0; 1; 14; 15] then e_fetch e (reg s 10) (reg s 11) else None) with
  | Some data => copy_out s r data (reg s 7) (reg s 8) (reg s 9)
  | None => ret (code NONE) r
  end.
(** general/mod.rs:240-311 *)
Definition host_lookup (s : vm) (r : rest) : answer :=
  match rd s (reg s 8) 32 with
  | None => ret panicked r
  | Some h =>
      match named s r with
      | None => ret (code NONE) r
      | Some t => let* v := entry_of t (KPreimage h) in
                  match v with Some v => copy_out s r v (reg s 9) (reg s 10) (reg s 11) | None => ret (code NONE) r end
      end
  end.
(** general/mod.rs:315-396 *)
Definition host_read (s : vm) (r : rest) : answer :=
  match rd s (reg s 8) (reg s 9) with
  | None => ret panicked r
  | Some k =>
      match named s r with
      | None => ret (code NONE) r
      | Some t => let* v := entry_of t (KStorage k) in
                  match v with Some v => copy_out s r v (reg s 10) (reg s 11) (reg s 12) | None => ret (code NONE) r end
      end
  end.
(** partial_state.rs:465-487; an account that is there, whose counts change only if there is a difference *)
Definition update_footprints (s : N) (d : Z * Z) : aprog bool :=
  let* m := meta_of s in
  match m with
  | None => Ret false
  | Some _ => if zero_delta d then Ret true else try (Change s (fun m => Some (add_foot m d)))
  end.
(** general/mod.rs:402-524 *)
Definition host_write (s : vm) (r : rest) : answer :=
  match rd s (reg s 7) (reg s 8), as_u32 (reg s 9), (if reg s 10 =? 0 then Some [] else rd s (reg s 9) (reg s 10)) with
  | Some k, Some _, Some v =>
      let* old := entry_of (r_host r) (KStorage k) in
      let new := if reg s 10 =? 0 then None else Some v in
      let d := usage_delta (option_map (storage_octets k) old) (option_map (storage_octets k) new) in
      let* m := (if zero_delta d then Ret (Some true)
                 else let* m := meta_of (r_host r) in
                      Ret (match m with None => None | Some m => Some (threshold (add_foot m (storage_foot d)) <=? m_balance m) end)) in
      match m with
      | None => fail
      | Some false => ret (code FULL) r
      | Some true =>
          let* ok := (match new with Some v => try (Put (r_host r) (KStorage k) v) | None => try (Del (r_host r) (KStorage k)) end) in
          let* ok' := update_footprints (r_host r) (storage_foot d) in
          if ok && ok' then ret (code (match old with Some o => N.of_nat (length o) | None => NONE end)) r else fail
      end
  | _, _, _ => ret panicked r
  end.
(** general/mod.rs:527-580 *)
Definition host_info (s : vm) (r : rest) : answer :=
  match named s r with
  | None => ret (code NONE) r
  | Some t => let* m := meta_of t in
              match m with Some m => copy_out s r (info_bytes m) (reg s 8) (reg s 9) (reg s 10) | None => ret (code NONE) r end
  end.

(** ** accumulate/mod.rs *)
(** [chunks_exact] as used in pvm/pvm-host/src/host_functions/accumulate/mod.rs:41-281. *)
Fixpoint chunks (n : nat) (size : nat) (l : bytes) : list bytes :=
  match n with O => [] | S n => firstn size l :: chunks n size (skipn size l) end.
(** accumulate/mod.rs:41-131 with context/mod.rs:303-350. Later entries of a service replace earlier ones. *)
Definition bless (r : rest) (manager : N) (assigns : list N) (desig regis : N) (always : list (N * N)) : rest :=
  let p := r_priv r in
  let self := filter (fun x => fst (snd x) =? r_host r) (combine (map N.of_nat (seq 0 (length (p_assign p)))) (combine (p_assign p) assigns)) in
  set_priv r (mk_priv manager (p_assign p) (Some assigns) (fold_left (fun m x => aset m (fst x) (snd (snd x))) self (p_assign_self p))
    (mk_role (ro_last (p_designate p)) (Some desig) (if r_host r =? ro_last (p_designate p) then Some desig else ro_self (p_designate p)))
    (mk_role (ro_last (p_registrar p)) (Some regis) (if r_host r =? ro_last (p_registrar p) then Some regis else ro_self (p_registrar p)))
    always (p_queues p) (p_staging p)).
(** Part of accumulate/mod.rs:41-131; context/mod.rs:303-350. *)
Definition host_bless (e : env) (s : vm) (r : rest) : answer :=
  match rd s (reg s 8) (4 * e_cores e), as_u32 (reg s 11), (if 2 ^ 64 <=? reg s 12 * 12 then None else rd s (reg s 11) (reg s 12 * 12)) with
  | Some a, Some _, Some z =>
      match as_u32 (reg s 7), as_u32 (reg s 9), as_u32 (reg s 10) with
      | Some manager, Some desig, Some regis =>
          let assigns := map le_val (chunks (N.to_nat (e_cores e)) 4 a) in
          let always := fold_left (fun m c => aset m (le_val (firstn 4 c)) (le_val (skipn 4 c))) (chunks (N.to_nat (reg s 12)) 12 z) [] in
          ret (code OK) (bless r manager assigns desig regis always)
      | _, _, _ => ret (code WHO) r
      end
  | _, _, _ => ret panicked r
  end.
(** accumulate/mod.rs:155-180 in context/partial_state.rs terms: the assigner a service sees *)
Definition assigner (p : priv) (core : N) : N :=
  match p_assign_bless p with
  | Some l => nth (N.to_nat core) l 0
  | None => match aget (p_assign_self p) core with Some a => a | None => nth (N.to_nat core) (p_assign p) 0 end
  end.
(** Part of accumulate/mod.rs:155-180. *)
Definition holder (x : role) : N := match ro_bless x with Some a => a | None => match ro_self x with Some a => a | None => ro_last x end end.
(** Assigning to an element, pvm/pvm-host/src/context/mod.rs:352-371. *)
Fixpoint set_at {A} (l : list A) (i : nat) (v : A) : list A :=
  match l, i with [], _ => [] | _ :: t, O => v :: t | x :: t, S i => x :: set_at t i v end.
(** accumulate/mod.rs:135-217 with context/mod.rs:352-371; a core whose queue is missing cannot be written, and the lists have one entry for each core *)
Definition host_assign (e : env) (s : vm) (r : rest) : answer :=
  match rd s (reg s 8) 2560 with
  | None => ret panicked r
  | Some q =>
      let p := r_priv r in
      let core := reg s 7 in
      if e_cores e <=? core then ret (code CORE) r
      else if negb (r_host r =? assigner p core) then ret (code HUH) r
      else match as_u32 (reg s 9) with
           | None => ret (code WHO) r
           | Some a =>
               ret (code OK) (set_priv r (mk_priv (p_manager p) (p_assign p)
                 (match p_assign_bless p with Some l => Some (set_at l (N.to_nat core) a) | None => None end)
                 (aset (p_assign_self p) core a) (p_designate p) (p_registrar p) (p_always p)
                 (set_at (p_queues p) (N.to_nat core) (chunks 80 32 q)) (p_staging p)))
           end
  end.
(** accumulate/mod.rs:220-281 *)
Definition host_designate (e : env) (s : vm) (r : rest) : answer :=
  match rd s (reg s 7) (336 * e_vals e) with
  | None => ret panicked r
  | Some v =>
      let p := r_priv r in
      if negb (r_host r =? holder (p_designate p)) then ret (code HUH) r
      else ret (code OK) (set_priv r (mk_priv (p_manager p) (p_assign p) (p_assign_bless p) (p_assign_self p) (p_designate p) (p_registrar p)
             (p_always p) (p_queues p) (Some (chunks (N.to_nat (e_vals e)) 336 v))))
  end.

(** partial_state.rs:1293-1314. The loop ends only at an id that is free, so all the ids of its cycle taken means that it never ends: the panic stands for
    that. *)
Definition CYCLE : positive := 4294901504. (* 2^32 - 2^16 - 2^8 Part of partial_state.rs:1293-1314. *)
Definition advance (i k : N) : N := (i - S_MIN + k) mod (Npos CYCLE) + S_MIN.
(** Part of partial_state.rs:1293-1314. *)
Definition try_id (i : N) : aprog (N + N) := let* b := exists_of i in Ret (if b then inl (advance i 1) else inr i).
(** Part of partial_state.rs:1293-1314. *)
Fixpoint find_loop (n : positive) (i : N) : aprog (N + N) :=
  let andthen (p : aprog (N + N)) (k : N -> aprog (N + N)) : aprog (N + N) := let* x := p in match x with inl i => k i | inr i => Ret (inr i) end in
  match n with
  | xH => try_id i
  | xO n => andthen (find_loop n i) (find_loop n)
  | xI n => andthen (try_id i) (fun i => andthen (find_loop n i) (find_loop n))
  end.
(** Part of partial_state.rs:1293-1314. *)
Definition check (i : N) : aprog (result verr N) := let* x := find_loop CYCLE i in Ret (match x with inr i => Ok i | inl _ => Panic end).
(** context/mod.rs:240-266 *)
Definition first_id (host : N) (entropy : bytes) (e : env) : N :=
  le_val (firstn 4 (e_hash e (integer_encode host ++ entropy ++ integer_encode (e_now e)))) mod (Npos CYCLE) + S_MIN.

(** accumulate/mod.rs:316-436 with context/mod.rs:282-298, 389-463 *)
Definition host_new (e : env) (s : vm) (r : rest) : answer :=
  match rd s (reg s 7) 32, as_u32 (reg s 8) with
  | Some h, Some len =>
      let gratis := reg s 11 in
      if negb (gratis =? 0) && negb (r_host r =? p_manager (r_priv r)) then ret (code HUH) r
      else
        let cost := initial_threshold len gratis in
        let* m := meta_of (r_host r) in
        match m with
        | None => fail
        | Some m =>
            if m_balance m - threshold m <? cost then ret (code CASH) r
            else
              let small := match as_u32 (reg s 12) with Some i => i | None => 2 ^ 32 - 1 end in
              let special := (small <? S_MIN) && (r_host r =? holder (p_registrar (r_priv r))) in
              let* taken := active_of small in
              if special && taken then ret (code FULL) r
              else
                let* paid := try (Change (r_host r) (fun m => if cost <=? m_balance m then Some (set_balance m (m_balance m - cost)) else None)) in
                let new := mk_meta h cost (reg s 9) (reg s 10) (81 + len) gratis 2 (e_now e) 0 (r_host r) in
                let id := if special then small else r_next r in
                let* made := try (New id new h len) in
                if paid && made then
                  if special then ret (code small) r
                  else let* i := check (advance (r_next r) 42) in
                       match i with Ok i => ret (code id) (set_next r i) | Err x => Ret (Err x) | Panic => Ret Panic end
                else fail
        end
  | _, _ => ret panicked r
  end.
(** accumulate/mod.rs:440-474 with context/mod.rs:465-490 *)
Definition host_upgrade (s : vm) (r : rest) : answer :=
  match rd s (reg s 7) 32 with
  | None => ret panicked r
  | Some h => let* ok := try (Change (r_host r) (fun m => Some (set_code m h (reg s 8) (reg s 9)))) in
              if ok then ret (code OK) r else fail
  end.
(** accumulate/mod.rs:477-569 *)
Definition host_transfer (s : vm) (r : rest) : answer :=
  match rd s (reg s 10) 128 with
  | None => ret panicked r
  | Some memo =>
      match as_u32 (reg s 7) with
      | None => ret (code WHO) r
      | Some dest =>
          let* d := meta_of dest in
          match d with
          | None => ret (code WHO) r
          | Some d =>
              let* m := meta_of (r_host r) in
              match m with
              | None => fail
              | Some m =>
                  let amount := reg s 8 in
                  let limit := reg s 9 in
                  if limit <? m_gas_xfer d then ret (code LOW) r
                  else if m_balance m <? amount then ret (code CASH) r
                  else if m_balance m - amount <? threshold m then ret (code CASH) r
                  else
                    let charge := sat_add 64 10 limit in
                    if (v_gas s <? Z.min (Z.of_N charge) (2 ^ 63 - 1))%Z then ret (starved charge) r
                    else
                      let* ok := try (Change (r_host r) (fun m => if amount <=? m_balance m then Some (set_balance m (m_balance m - amount)) else None)) in
                      if ok then ret (mk_hchange Continue charge (Some OK) None None) (add_xfer r (mk_xfer (r_host r) dest amount memo limit)) else fail
              end
          end
      end
  end.
(** accumulate/mod.rs:572-676 with partial_state.rs:1363-1384. [slot + PREIMAGE_EXPIRATION_PERIOD] wraps at 2^32; a record without a second slot is HUH before the slot is read. *)
Definition host_eject (e : env) (s : vm) (r : rest) : answer :=
  match rd s (reg s 8) 32 with
  | None => ret panicked r
  | Some h =>
      match as_u32 (reg s 7) with
      | None => ret (code WHO) r
      | Some t =>
          if t =? r_host r then ret (code WHO) r
          else
            let* m := meta_of t in
            match m with
            | None => ret (code WHO) r
            | Some m =>
                if negb (if list_eq_dec N.eq_dec (m_code m) (le_bytes 4 (r_host r) ++ repeat 0 28) then true else false) then ret (code WHO) r
                else
                  match as_u32 (N.max 81 (m_octets m) - 81) with
                  | None => ret (code HUH) r
                  | Some len =>
                      if negb (m_items m =? 2) then ret (code HUH) r
                      else
                        let* l := entry_of t (KLookup h len) in
                        match l with
                        | Some [_; y] =>
                            if e_now e <=? u32 (y + e_expiry e) then ret (code HUH) r
                            else
                              let* ok := try (Change (r_host r) (fun x => if m_balance x + m_balance m <? 2 ^ 64
                                                                          then Some (set_balance x (m_balance x + m_balance m)) else None)) in
                              if ok then let* ok := try (Eject t h len) in if ok then ret (code OK) r else fail else fail
                        | _ => ret (code HUH) r
                        end
                  end
            end
      end
  end.
(** accumulate/mod.rs:679-762; more than three slots panic *)
Definition host_query (s : vm) (r : rest) : answer :=
  let none := ret (mk_hchange Continue 10 (Some NONE) (Some 0) None) r in
  let found a b := ret (mk_hchange Continue 10 (Some (u64 a)) (Some (u64 b)) None) r in
  match rd s (reg s 7) 32 with
  | None => ret panicked r
  | Some h =>
      match as_u32 (reg s 8) with
      | None => none
      | Some len =>
          let* l := entry_of (r_host r) (KLookup h len) in
          match l with
          | None => none
          | Some [] => found 0 0
          | Some [x] => found (1 + x * 2 ^ 32) 0
          | Some [x; y] => found (2 + x * 2 ^ 32) y
          | Some [x; y; z] => found (3 + x * 2 ^ 32) (y + z * 2 ^ 32)
          | Some _ => Ret Panic
          end
      end
  end.
(** accumulate/mod.rs:770-882 *)
Definition host_solicit (e : env) (s : vm) (r : rest) : answer :=
  match rd s (reg s 7) 32 with
  | None => ret panicked r
  | Some h =>
      match as_u32 (reg s 8) with
      | None => ret (code FULL) r
      | Some len =>
          let* l := entry_of (r_host r) (KLookup h len) in
          match l with
          | Some [x; y] => let* ok := try (Put (r_host r) (KLookup h len) [x; y; e_now e]) in if ok then ret (code OK) r else fail
          | Some _ => ret (code HUH) r
          | None =>
              let d := lookup_foot (usage_delta None (Some len)) in
              let* m := meta_of (r_host r) in
              match m with
              | None => fail
              | Some m =>
                  if m_balance m <? threshold (add_foot m d) then ret (code FULL) r
                  else
                    let* ok := try (Put (r_host r) (KLookup h len) []) in
                    let* ok' := update_footprints (r_host r) d in
                    if ok && ok' then ret (code OK) r else fail
              end
          end
      end
  end.
(** accumulate/mod.rs:890-1104 *)
Definition host_forget (e : env) (s : vm) (r : rest) : answer :=
  match rd s (reg s 7) 32 with
  | None => ret panicked r
  | Some h =>
      match as_u32 (reg s 8) with
      | None => ret (code HUH) r
      | Some len =>
          let t := r_host r in
          let drop :=
            let* ok := try (Del t (KPreimage h)) in
            let* ok' := try (Del t (KLookup h len)) in
            let* ok'' := update_footprints t (lookup_foot (usage_delta (Some len) None)) in
            if ok && ok' && ok'' then ret (code OK) r else fail in
          let* l := entry_of t (KLookup h len) in
          match l with
          | None => ret (code HUH) r
          | Some [] => drop
          | Some [_] => let* ok := try (Push t h len [e_now e]) in if ok then ret (code OK) r else fail
          | Some [_; y] => if u32 (y + e_expiry e) <? e_now e then drop else ret (code HUH) r
          | Some [_; y; z] =>
              if u32 (y + e_expiry e) <? e_now e then
                let* ok := try (Drain t h len) in
                let* ok' := try (Push t h len [z; e_now e]) in
                if ok && ok' then ret (code OK) r else fail
              else ret (code HUH) r
          | Some _ => ret (code HUH) r
          end
      end
  end.
(** accumulate/mod.rs:1107-1137 *)
Definition host_yield (s : vm) (r : rest) : answer :=
  match rd s (reg s 7) 32 with None => ret panicked r | Some h => ret (code OK) (set_yield r h) end.
(** accumulate/mod.rs:1140-1226 *)
Definition host_provide (e : env) (s : vm) (r : rest) : answer :=
  match rd s (reg s 8) (reg s 9) with
  | None => ret panicked r
  | Some data =>
      match named s r with
      | None => ret (code WHO) r
      | Some t =>
          let* m := meta_of t in
          match m with
          | None => ret (code WHO) r
          | Some _ =>
              let* l := entry_of t (KLookup (e_hash e data) (u32 (reg s 9))) in
              match l with
              | Some [] => if existsb (fun x => (fst x =? t) && if list_eq_dec N.eq_dec (snd x) data then true else false) (r_prov r)
                           then ret (code HUH) r else ret (code OK) (add_prov r t data)
              | _ => ret (code HUH) r
              end
          end
      end
  end.

(** pvm/pvm-interface/src/invoke.rs:335-503, for an accumulation; every function but LOG first makes sure of the base charge
    (host_functions/../utils.rs:268-283); CHECKPOINT is below *)
Definition call (e : env) (n : N) (s : vm) (r : rest) : answer :=
  if n =? 100 then ret what_result r
  else if (v_gas s <? 10)%Z then ret (starved 10) r
  else match n with
       | 0 => host_gas s r | 1 => host_fetch e s r | 2 => host_lookup s r | 3 => host_read s r | 4 => host_write s r | 5 => host_info s r
       | 14 => host_bless e s r | 15 => host_assign e s r | 16 => host_designate e s r | 18 => host_new e s r | 19 => host_upgrade s r
       | 20 => host_transfer s r | 21 => host_eject e s r | 22 => host_query s r | 23 => host_solicit e s r | 24 => host_forget e s r
       | 25 => host_yield s r | 26 => host_provide e s r
       | _ => ret what_result r
       end.

(** context/mod.rs:120-152: the pair of contexts; accumulate/mod.rs:285-313 CHECKPOINT *)
Definition host {A} (do : A -> sop -> A * sout) (e : env) (n : N) (s : vm) (c : (A * rest) * (A * rest)) : result verr (hchange * ((A * rest) * (A * rest))) :=
  let '(x, y) := c in
  if n =? 17 then
    if (v_gas s <? 10)%Z then Ok (starved 10, c) else Ok (mk_hchange Continue 10 (Some (Z.to_N (v_gas s - 10))) None None, (x, x))
  else match exec do (call e n s (snd x)) (fst x) with
       | (a, Ok (h, r)) => Ok (h, ((a, r), y))
       | (_, Err x) => Err x
       | (_, Panic) => Panic
       end.
(** A history of calls: the number of the function and the machine state it is called in. Histories of the calls of pvm/pvm-interface/src/invoke.rs:335-503; not in the code. *)
Fixpoint host_calls {A} (do : A -> sop -> A * sout) (e : env) (l : list (N * vm)) (c : (A * rest) * (A * rest)) : result verr (list hchange * ((A * rest) * (A * rest))) :=
  match l with
  | [] => Ok ([], c)
  | (n, s) :: l => let! (h, c) := host do e n s c in let! (hs, c) := host_calls do e l c in Ok (h :: hs, c)
  end.
