(** What the host functions of a refinement answer, after the Graypaper. From the model come the records (machines, memories, contexts, work packages,
    changes) and the interpreter; the rest is said here in terms of what is in them. *)
From Verif Require Import Base PvmMem_Model PvmMem_Spec PvmProg_Model PvmStep_Model PvmRun_Spec PvmInit_Model Codec_Model Refine_Model.
Open Scope N_scope.

Definition r_ (s : vm) (i : nat) : N := nth i (v_regs s) 0.
(** The machine that makes the call: 32-bit memory of octets whose first sixteen pages nobody may access. *)
Definition guest (s : vm) : Prop := machine_ok s /\ forall i, i < 16 -> m_acc (v_mem s) i = Inaccessible.
(** The memory of an inner machine: as that of a guest, or with no octets and pages at all. *)
Definition sound (m : mem) : Prop := (mem_ok m /\ forall i, i < 16 -> m_acc m i = Inaccessible) \/ m_len m = 0 /\ m_pages m = 0.

(** The [n] octets at [a] may be read and are [d]; they may be written. *)
Definition reads (m : mem) (a n : N) (d : bytes) : Prop :=
  a < 2 ^ 32 /\ N.of_nat (length d) = n /\ forall i, (i < length d)%nat -> can_read m (a + N.of_nat i) /\ nth i d 0 = m_data m (a + N.of_nat i).
Definition stores_at (m : mem) (a n : N) : Prop := a < 2 ^ 32 /\ forall x, a <= x < a + n -> can_write m x.
(** [m'] is [m] with [d] at [a]. *)
Definition stored (m : mem) (a : N) (d : bytes) (m' : mem) : Prop :=
  (forall i, (i < length d)%nat -> m_data m' (a + N.of_nat i) = nth i d 0) /\ (forall x, ~ a <= x < a + N.of_nat (length d) -> m_data m' x = m_data m x) /\
  m_len m' = m_len m /\ m_acc m' = m_acc m.
(** [b] is the part of [d] from [off] on, of at most [len] octets. *)
Definition part_of (d : bytes) (off len : N) (b : bytes) : Prop :=
  exists before behind, d = before ++ b ++ behind /\ N.of_nat (length before) = N.min off (N.of_nat (length d)) /\
    N.of_nat (length b) = N.min len (N.of_nat (length d) - N.of_nat (length before)).

(** Machine [i] of a context. *)
Definition has (c : rctx) (i : N) (v : inner) : Prop := In (i, v) (rx_vms c).
Definition unknown (c : rctx) (i : N) : Prop := forall v, ~ has c i v.
(** Each machine has its own number, below the next one. *)
Definition in_order (c : rctx) : Prop := NoDup (map fst (rx_vms c)) /\ forall i v, has c i v -> i < rx_next c.
(** No machine was expunged. *)
Definition no_gaps (c : rctx) : Prop := forall i, i < rx_next c -> exists v, has c i v.
(** [c'] is [c] but for machine [i], which is now [v] or gone. *)
Definition only (c : rctx) (i : N) (v : option inner) (c' : rctx) : Prop :=
  (forall j w, j <> i -> has c' j w <-> has c j w) /\ (forall w, has c' i w <-> v = Some w) /\ rx_exports c' = rx_exports c.

(** ** Answers *)
Definition answers (x : N) : hchange := mk_hchange Continue 10 (Some x) None None.
Definition delivers (x a : N) (d : bytes) : hchange := mk_hchange Continue 10 (Some x) None (Some (a, d)).
Definition panics : hchange := mk_hchange XPanic 10 None None None.
Definition none_ : N := 2 ^ 64 - 1. Definition what_ : N := 2 ^ 64 - 2. Definition oob_ : N := 2 ^ 64 - 3. Definition who_ : N := 2 ^ 64 - 4.
Definition full_ : N := 2 ^ 64 - 5. Definition huh_ : N := 2 ^ 64 - 9. Definition ok_ : N := 0.

(** ** What FETCH finds *)
Definition summary_of (w : witem) : bytes :=
  le_bytes 4 (w_service w) ++ w_code w ++ le_bytes 8 (w_refine_gas w) ++ le_bytes 8 (w_acc_gas w) ++ le_bytes 2 (w_exports w) ++
  le_bytes 2 (N.of_nat (length (w_imports w))) ++ le_bytes 2 (N.of_nat (length (w_xts w))) ++ le_bytes 4 (N.of_nat (length (w_payload w))).
Definition th {A} (l : list A) (i : N) : option A := nth_error l (N.to_nat i).
(** the datum numbered [id], with [i] and [j] the indices given *)
Inductive finds (e : renv) (a : rargs) (i j : N) : N -> bytes -> Prop :=
| F_constants : finds e a i j 0 (re_consts e)
| F_entropy : finds e a i j 1 (re_entropy e)
| F_trace : finds e a i j 2 (ra_trace a)
| F_extrinsic w x d : th (k_items (ra_pkg a)) i = Some w -> th (w_xts w) j = Some x -> ra_xt a x = Some d -> finds e a i j 3 d
| F_my_extrinsic w x d : nth_error (k_items (ra_pkg a)) (ra_item a) = Some w -> th (w_xts w) i = Some x -> ra_xt a x = Some d -> finds e a i j 4 d
| F_import l d : th (ra_imports a) i = Some l -> th l j = Some d -> finds e a i j 5 d
| F_my_import l d : nth_error (ra_imports a) (ra_item a) = Some l -> th l i = Some d -> finds e a i j 6 d
| F_package : finds e a i j 7 (k_octets (ra_pkg a))
| F_config : finds e a i j 8 (k_config (ra_pkg a))
| F_token : finds e a i j 9 (k_token (ra_pkg a))
| F_context : finds e a i j 10 (k_context (ra_pkg a))
| F_summaries : finds e a i j 11 (integer_encode (N.of_nat (length (k_items (ra_pkg a)))) ++ concat (map summary_of (k_items (ra_pkg a))))
| F_summary w : th (k_items (ra_pkg a)) i = Some w -> finds e a i j 12 (summary_of w)
| F_payload w : th (k_items (ra_pkg a)) i = Some w -> finds e a i j 13 (w_payload w).

(** The fields of an item are in their types. *)
Definition item_ok (w : witem) : Prop :=
  w_service w < 2 ^ 32 /\ w_refine_gas w < 2 ^ 64 /\ w_acc_gas w < 2 ^ 64 /\ w_exports w < 2 ^ 16 /\ N.of_nat (length (w_imports w)) < 2 ^ 16 /\
  N.of_nat (length (w_xts w)) < 2 ^ 16 /\ N.of_nat (length (w_payload w)) < 2 ^ 32.
Definition args_ok (a : rargs) : Prop :=
  Forall item_ok (k_items (ra_pkg a)) /\ (ra_item a < length (k_items (ra_pkg a)))%nat /\ length (ra_imports a) = length (k_items (ra_pkg a)) /\
  N.of_nat (length (k_items (ra_pkg a))) < 2 ^ 64.

(** ** Running an inner machine *)
(** Machine [st] running [p] ends with [x] as [st']. *)
Definition runs (p : prog) (st : vm) (x : exit) (st' : vm) : Prop := exists fuel, invoke_general fuel p st = Some (Ok (x, st')).
(** What registers 7 and 8 say of an exit. *)
Definition told (x : exit) (r7 : N) (r8 : option N) : Prop :=
  match x with
  | RegularHalt => r7 = 0 /\ r8 = None
  | XPanic => r7 = 1 /\ r8 = None
  | PageFault a => r7 = 2 /\ r8 = Some a
  | HostCall h => r7 = 3 /\ r8 = Some h
  | OutOfGas => r7 = 4 /\ r8 = None
  | Continue => False
  end.
(** Gas and thirteen registers, eight octets each, modulo 2^64. *)
Definition record_of (gas : Z) (regs : list N) (d : bytes) : Prop :=
  length d = 112%nat /\ length regs = 13%nat /\ Z.of_N (le_val (firstn 8 d)) = (gas mod 2 ^ 64)%Z /\
  forall i, (i < 13)%nat -> le_val (firstn 8 (skipn (8 + 8 * i) d)) = nth i regs 0 mod 2 ^ 64.

(** ** The calls of a refinement of service [self] *)
Inductive gp_call (e : renv) (a : rargs) (self : N) (s : vm) (c : rctx) : N -> hchange -> rctx -> Prop :=
| C_log : gp_call e a self s c 100 (answers what_) c
| C_unknown n : (10 <= v_gas s)%Z -> ~ In n [0; 1; 6; 7; 8; 9; 10; 11; 12; 13; 100] -> gp_call e a self s c n (answers what_) c
| C_starved n : (v_gas s < 10)%Z -> n <> 100 -> gp_call e a self s c n (mk_hchange OutOfGas 10 None None None) c
| C_gas g : (10 <= v_gas s)%Z -> v_gas s = (Z.of_N g + 10)%Z -> gp_call e a self s c 0 (answers g) c
(** FETCH *)
| C_fetch_none : (10 <= v_gas s)%Z -> (forall d, ~ finds e a (r_ s 11) (r_ s 12) (r_ s 10) d) -> gp_call e a self s c 1 (answers none_) c
| C_fetch d b : (10 <= v_gas s)%Z -> finds e a (r_ s 11) (r_ s 12) (r_ s 10) d -> part_of d (r_ s 8) (r_ s 9) b ->
    stores_at (v_mem s) (r_ s 7) (N.of_nat (length b)) -> gp_call e a self s c 1 (delivers (N.of_nat (length d)) (r_ s 7) b) c
| C_fetch_panic d b : (10 <= v_gas s)%Z -> finds e a (r_ s 11) (r_ s 12) (r_ s 10) d -> part_of d (r_ s 8) (r_ s 9) b ->
    ~ stores_at (v_mem s) (r_ s 7) (N.of_nat (length b)) -> gp_call e a self s c 1 panics c
(** HISTORICAL_LOOKUP *)
| C_hist_panic : (10 <= v_gas s)%Z -> (forall h, ~ reads (v_mem s) (r_ s 8) 32 h) -> gp_call e a self s c 6 panics c
| C_hist_none h : (10 <= v_gas s)%Z -> reads (v_mem s) (r_ s 8) 32 h ->
    (forall t, (r_ s 7 = t /\ t < 2 ^ 32 \/ r_ s 7 = 2 ^ 64 - 1 /\ t = self) -> re_exists e t = true -> re_lookup e t (k_anchor (ra_pkg a)) h = None) ->
    gp_call e a self s c 6 (answers none_) c
| C_hist h t d b : (10 <= v_gas s)%Z -> reads (v_mem s) (r_ s 8) 32 h -> (r_ s 7 = t /\ t < 2 ^ 32 \/ r_ s 7 = 2 ^ 64 - 1 /\ t = self) -> re_exists e t = true ->
    re_lookup e t (k_anchor (ra_pkg a)) h = Some d -> part_of d (r_ s 10) (r_ s 11) b -> stores_at (v_mem s) (r_ s 9) (N.of_nat (length b)) ->
    gp_call e a self s c 6 (delivers (N.of_nat (length d)) (r_ s 9) b) c
| C_hist_write h t d b : (10 <= v_gas s)%Z -> reads (v_mem s) (r_ s 8) 32 h -> (r_ s 7 = t /\ t < 2 ^ 32 \/ r_ s 7 = 2 ^ 64 - 1 /\ t = self) ->
    re_exists e t = true -> re_lookup e t (k_anchor (ra_pkg a)) h = Some d -> part_of d (r_ s 10) (r_ s 11) b ->
    ~ stores_at (v_mem s) (r_ s 9) (N.of_nat (length b)) -> gp_call e a self s c 6 panics c
(** EXPORT: the octets, filled up with zeros to a segment of 4104, become the next of at most 3072 exports of the package *)
| C_export_panic : (10 <= v_gas s)%Z -> (forall d, ~ reads (v_mem s) (r_ s 7) (N.min (r_ s 8) 4104) d) -> gp_call e a self s c 7 panics c
| C_export_full d : (10 <= v_gas s)%Z -> reads (v_mem s) (r_ s 7) (N.min (r_ s 8) 4104) d -> 3072 <= ra_offset a + N.of_nat (length (rx_exports c)) ->
    gp_call e a self s c 7 (answers full_) c
| C_export d seg c' : (10 <= v_gas s)%Z -> reads (v_mem s) (r_ s 7) (N.min (r_ s 8) 4104) d -> ra_offset a + N.of_nat (length (rx_exports c)) < 3072 ->
    N.of_nat (length seg) = 4104 -> (forall i, nth i seg 0 = nth i d 0) ->
    rx_exports c' = rx_exports c ++ [seg] -> rx_vms c' = rx_vms c -> rx_next c' = rx_next c ->
    gp_call e a self s c 7 (answers (ra_offset a + N.of_nat (length (rx_exports c)))) c'
(** MACHINE: a machine with the code, no accessible memory and the program counter given, under the smallest number free *)
| C_machine_panic : (10 <= v_gas s)%Z -> (forall d, ~ reads (v_mem s) (r_ s 7) (r_ s 8) d) -> gp_call e a self s c 8 panics c
| C_machine_huh d : (10 <= v_gas s)%Z -> reads (v_mem s) (r_ s 7) (r_ s 8) d -> (forall x, deblob d <> Ok x) -> gp_call e a self s c 8 (answers huh_) c
| C_machine d x v i c' : (10 <= v_gas s)%Z -> reads (v_mem s) (r_ s 7) (r_ s 8) d -> deblob d = Ok x ->
    in_code v = d -> in_pc v = r_ s 9 -> (forall y, ~ can_read (in_mem v) y) -> unknown c i -> (forall j, j < i -> exists w, has c j w) ->
    only c i (Some v) c' -> in_order c' -> gp_call e a self s c 8 (answers i) c'
(** PEEK *)
| C_peek_panic : (10 <= v_gas s)%Z -> ~ stores_at (v_mem s) (r_ s 8) (r_ s 10) -> gp_call e a self s c 9 panics c
| C_peek_who : (10 <= v_gas s)%Z -> stores_at (v_mem s) (r_ s 8) (r_ s 10) -> unknown c (r_ s 7) -> gp_call e a self s c 9 (answers who_) c
| C_peek_oob v : (10 <= v_gas s)%Z -> stores_at (v_mem s) (r_ s 8) (r_ s 10) -> has c (r_ s 7) v -> (forall d, ~ reads (in_mem v) (r_ s 9) (r_ s 10) d) ->
    gp_call e a self s c 9 (answers oob_) c
| C_peek v d : (10 <= v_gas s)%Z -> stores_at (v_mem s) (r_ s 8) (r_ s 10) -> has c (r_ s 7) v -> reads (in_mem v) (r_ s 9) (r_ s 10) d ->
    gp_call e a self s c 9 (delivers ok_ (r_ s 8) d) c
(** POKE *)
| C_poke_panic : (10 <= v_gas s)%Z -> (forall d, ~ reads (v_mem s) (r_ s 8) (r_ s 10) d) -> gp_call e a self s c 10 panics c
| C_poke_who d : (10 <= v_gas s)%Z -> reads (v_mem s) (r_ s 8) (r_ s 10) d -> unknown c (r_ s 7) -> gp_call e a self s c 10 (answers who_) c
| C_poke_oob d v : (10 <= v_gas s)%Z -> reads (v_mem s) (r_ s 8) (r_ s 10) d -> has c (r_ s 7) v -> ~ stores_at (in_mem v) (r_ s 9) (r_ s 10) ->
    gp_call e a self s c 10 (answers oob_) c
| C_poke d v v' c' : (10 <= v_gas s)%Z -> reads (v_mem s) (r_ s 8) (r_ s 10) d -> has c (r_ s 7) v -> stores_at (in_mem v) (r_ s 9) (r_ s 10) ->
    stored (in_mem v) (r_ s 9) d (in_mem v') -> in_code v' = in_code v -> in_pc v' = in_pc v -> only c (r_ s 7) (Some v') c' ->
    gp_call e a self s c 10 (answers ok_) c'
(** PAGES: modes 0 to 2 clear the pages, 3 and 4 need them readable; 0 closes them, 1 and 3 make them readable, 2 and 4 writable *)
| C_pages_who : (10 <= v_gas s)%Z -> unknown c (r_ s 7) -> gp_call e a self s c 11 (answers who_) c
| C_pages_huh v : (10 <= v_gas s)%Z -> has c (r_ s 7) v ->
    (4 < r_ s 10 \/ r_ s 8 < 16 \/ 2 ^ 20 <= r_ s 8 + r_ s 9 \/ 2 < r_ s 10 /\ exists i, r_ s 8 <= i < r_ s 8 + r_ s 9 /\ ~ can_read (in_mem v) (4096 * i)) ->
    gp_call e a self s c 11 (answers huh_) c
| C_pages v v' c' : (10 <= v_gas s)%Z -> has c (r_ s 7) v -> r_ s 10 <= 4 -> 16 <= r_ s 8 -> r_ s 8 + r_ s 9 < 2 ^ 20 ->
    (2 < r_ s 10 -> forall i, r_ s 8 <= i < r_ s 8 + r_ s 9 -> can_read (in_mem v) (4096 * i)) ->
    (forall x, ~ 4096 * r_ s 8 <= x < 4096 * (r_ s 8 + r_ s 9) ->
      m_data (in_mem v') x = m_data (in_mem v) x /\ (can_read (in_mem v') x <-> can_read (in_mem v) x) /\ (can_write (in_mem v') x <-> can_write (in_mem v) x)) ->
    (forall x, 4096 * r_ s 8 <= x < 4096 * (r_ s 8 + r_ s 9) ->
      m_data (in_mem v') x = (if r_ s 10 <? 3 then 0 else m_data (in_mem v) x) /\
      (can_read (in_mem v') x <-> r_ s 10 <> 0) /\ (can_write (in_mem v') x <-> r_ s 10 = 2 \/ r_ s 10 = 4)) ->
    in_code v' = in_code v -> in_pc v' = in_pc v -> only c (r_ s 7) (Some v') c' -> gp_call e a self s c 11 (answers ok_) c'
(** INVOKE: gas and registers are read from the guest's memory and written back there; the machine keeps its memory and program counter, which is behind the
    instruction after a host call *)
| C_invoke_panic : (10 <= v_gas s)%Z -> ~ stores_at (v_mem s) (r_ s 8) 112 -> gp_call e a self s c 12 panics c
| C_invoke_who : (10 <= v_gas s)%Z -> stores_at (v_mem s) (r_ s 8) 112 -> unknown c (r_ s 7) -> gp_call e a self s c 12 (answers who_) c
| C_invoke v v' p gas regs d x t r7 r8 d' c' : (10 <= v_gas s)%Z -> stores_at (v_mem s) (r_ s 8) 112 -> has c (r_ s 7) v ->
    reads (v_mem s) (r_ s 8) 112 d -> record_of gas regs d -> (0 <= gas < 2 ^ 64)%Z -> Forall (fun x => x < 2 ^ 64) regs -> load_program (in_code v) = Ok p ->
    runs p (mk_vm regs (in_mem v) (in_pc v) gas) x t -> told x r7 r8 -> record_of (v_gas t) (v_regs t) d' -> Bytes d' ->
    in_code v' = in_code v -> in_mem v' = v_mem t -> in_pc v' = (match x with HostCall _ => next_pc (v_pc t) p | _ => v_pc t end) ->
    only c (r_ s 7) (Some v') c' -> gp_call e a self s c 12 (mk_hchange Continue 10 (Some r7) r8 (Some (r_ s 8, d'))) c'
(** EXPUNGE *)
| C_expunge_who : (10 <= v_gas s)%Z -> unknown c (r_ s 7) -> gp_call e a self s c 13 (answers who_) c
| C_expunge v c' : (10 <= v_gas s)%Z -> has c (r_ s 7) v -> only c (r_ s 7) None c' -> gp_call e a self s c 13 (answers (in_pc v)) c'.

(** ** Histories *)
(** What calls number [k] of a history gave, errors (from 2^64 - 9 on) left out *)
Fixpoint given (k : N) (l : list (N * vm)) (hs : list hchange) : list N :=
  match l, hs with
  | (n, _) :: l, h :: hs => (if n =? k then match h_r7 h with Some i => if i <? 2 ^ 64 - 9 then [i] else [] | None => [] end else []) ++ given k l hs
  | _, _ => []
  end.
(** [first], [first] + 1, ... *)
Definition counting (first : N) (l : list N) : Prop := forall i, (i < length l)%nat -> nth i l 0 = first + N.of_nat i.

(** ** The calls of an authorization of package [k] *)
Definition of_package (k : pkg) : rargs := mk_rargs 0 0 k [] [] 0 (fun _ => None).
Definition offered_to_auth (id : N) : Prop := id = 0 \/ 7 <= id <= 13.
Inductive gp_auth (e : renv) (k : pkg) (s : vm) : N -> hchange -> Prop :=
| A_log : gp_auth e k s 100 (answers what_)
| A_unknown n : (10 <= v_gas s)%Z -> ~ In n [0; 1; 100] -> gp_auth e k s n (answers what_)
| A_starved n : (v_gas s < 10)%Z -> n <> 100 -> gp_auth e k s n (mk_hchange OutOfGas 10 None None None)
| A_gas g : (10 <= v_gas s)%Z -> v_gas s = (Z.of_N g + 10)%Z -> gp_auth e k s 0 (answers g)
| A_fetch_none : (10 <= v_gas s)%Z -> ~ (offered_to_auth (r_ s 10) /\ exists d, finds e (of_package k) (r_ s 11) (r_ s 12) (r_ s 10) d) -> gp_auth e k s 1 (answers none_)
| A_fetch d b : (10 <= v_gas s)%Z -> offered_to_auth (r_ s 10) -> finds e (of_package k) (r_ s 11) (r_ s 12) (r_ s 10) d -> part_of d (r_ s 8) (r_ s 9) b ->
    stores_at (v_mem s) (r_ s 7) (N.of_nat (length b)) -> gp_auth e k s 1 (delivers (N.of_nat (length d)) (r_ s 7) b)
| A_fetch_panic d b : (10 <= v_gas s)%Z -> offered_to_auth (r_ s 10) -> finds e (of_package k) (r_ s 11) (r_ s 12) (r_ s 10) d -> part_of d (r_ s 8) (r_ s 9) b ->
    ~ stores_at (v_mem s) (r_ s 7) (N.of_nat (length b)) -> gp_auth e k s 1 panics.

(** ** The results of a package's items *)
Definition sum_of (l : list N) : N := fold_right N.add 0 l.
(** how many exports come before item [j] *)
Definition offset_of (items : list witem) (j : nat) : N := sum_of (map w_exports (firstn j items)).
Definition size_of (r : wresult) : N := match r with WOutput b => N.of_nat (length b) | WError _ => 0 end.
Definition is_output (r : wresult) : bool := match r with WOutput _ => true | WError _ => false end.
(** What became of an item: the outcome of its refinement, given the size of the outputs (and the trace) before it *)
Definition verdict (before : N) (w : witem) (r : wresult) (segs : list bytes) : wresult :=
  if 49152 <? before + size_of r then WError WOversize else if N.of_nat (length segs) =? w_exports w then r else WError WBadExports.
(** [final] are the results of the items, as the Graypaper has them: the size is that of the trace and of the outputs kept *)
Definition gp_results (trace : N) (items : list witem) (raw : list (N * wresult * list bytes)) (final : list wresult) : Prop :=
  length final = length items /\
  forall j w u r segs, nth_error items j = Some w -> nth_error raw j = Some (u, r, segs) ->
    nth_error final j = Some (verdict (trace + sum_of (map size_of (firstn j final))) w r segs).
(** the segments of the report: those of the items that succeeded, zeros for the others *)
Definition zero_segment : bytes := repeat 0 (N.to_nat 4104).
Fixpoint gp_segments (items : list witem) (raw : list (N * wresult * list bytes)) (final : list wresult) : list bytes :=
  match items, raw, final with
  | w :: items, (_, _, segs) :: raw, f :: final =>
      (if is_output f then segs else repeat zero_segment (N.to_nat (w_exports w))) ++ gp_segments items raw final
  | _, _, _ => []
  end.
(** what the digest of an item says of it, but for the result *)
Definition describes (H : bytes -> bytes) (w : witem) (used : N) (d : digest) : Prop :=
  d_service d = w_service w /\ d_code d = w_code w /\ d_payload d = H (w_payload w) /\ d_gas d = w_acc_gas w /\ d_used d = used /\ d_exports d = w_exports w /\
  d_imports d = N.of_nat (length (w_imports w)) /\ d_xts d = N.of_nat (length (w_xts w)) /\ d_octets d = sum_of (map x_len (w_xts w)).
(** the outputs of the refinements themselves, and the segments of the items that succeeded *)
Definition raw_size (x : N * wresult * list bytes) : N := size_of (snd (fst x)).
Fixpoint kept_segments (raw : list (N * wresult * list bytes)) (final : list wresult) : list bytes :=
  match raw, final with
  | (_, _, segs) :: raw, f :: final => (if is_output f then segs else []) ++ kept_segments raw final
  | _, _ => []
  end.
(** the counts a digest can hold *)
Definition countable (w : witem) : Prop :=
  N.of_nat (length (w_imports w)) < 2 ^ 16 /\ N.of_nat (length (w_xts w)) < 2 ^ 16 /\ sum_of (map x_len (w_xts w)) < 2 ^ 32.
(** [raw] are the refinements of the items, each told how many exports come before it *)
Definition ran (run : nat -> N -> result verr (N * wresult * list bytes)) (items : list witem) (i : nat) (offset : N) (raw : list (N * wresult * list bytes)) : Prop :=
  length raw = length items /\ forall j x, nth_error raw j = Some x -> run (i + j)%nat (offset + offset_of items j) = Ok x.
(** the results when every output counts, whether or not it is kept *)
Definition judged (size : N) (items : list witem) (raw : list (N * wresult * list bytes)) (final : list wresult) : Prop :=
  length final = length items /\
  forall j w u r segs, nth_error items j = Some w -> nth_error raw j = Some (u, r, segs) ->
    nth_error final j = Some (verdict (size + sum_of (map raw_size (firstn j raw))) w r segs).
