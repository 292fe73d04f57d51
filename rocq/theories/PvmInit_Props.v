(** C31, C28, C62, C65: starting a program and the result of an invocation. *)
From Coq Require Import Lia ZArith.
From Verif Require Import Base Base_Proofs Codec_Model PvmMem_Model PvmMem_Spec PvmMem_Proofs PvmProg_Model PvmStep_Model PvmProg_Spec PvmProg_Proofs PvmRun_Spec PvmRun_Proofs
  PvmInit_Model PvmInit_Spec PvmInit_Proofs.
Open Scope N_scope.

(** ** C31 *)
(** A byte string is accepted as a standard program exactly when it is the encoding of one, which is then the result. Decoding never crashes. *)
Theorem standard_exact : forall blob f, Bytes blob ->
  from_standard_program blob = Ok f <-> fprog_ok f /\ blob = standard (f_static f) (f_heap f) (f_code f) (f_extra f) (f_stack_size f).
Proof. intros blob f HB. split; [now apply standard_inv|]. intros [F ->]. now apply standard_decodes. Qed.
Theorem standard_total : forall blob, from_standard_program blob <> Panic.
Proof. exact standard_no_panic. Qed.
(** A machine is made exactly for the admitted sizes. *)
Theorem admitted_exact : forall f args, fprog_ok f -> new_pvm f args <> None <-> N.of_nat (length args) <= 2 ^ 24 /\ fits f.
Proof. exact new_pvm_iff. Qed.
(** The four regions never come closer to each other, or to either end of the address space, than 64 KiB. *)
Theorem regions_apart : forall f n z z' lo hi lo' hi', fprog_ok f -> fits f -> n <= 2 ^ 24 -> z <> z' -> bounds f n z lo hi -> bounds f n z' lo' hi' ->
  (hi + 65536 <= lo' \/ hi' + 65536 <= lo) /\ 65536 <= lo /\ lo <= hi /\ hi + 65536 <= 2 ^ 32.
Proof. exact zones_apart_lemma. Qed.
(** Each region has its rights and begins with its data, followed by zeros; all else is inaccessible. The registers point at the stack and the arguments. *)
Theorem initial_machine : forall f args s, fprog_ok f -> Bytes args -> new_pvm f args = Some s ->
  machine_ok s /\
  v_regs s = [2 ^ 32 - 2 ^ 16; 2 ^ 32 - 2 * 65536 - 2 ^ 24; 0; 0; 0; 0; 0; 2 ^ 32 - 65536 - 2 ^ 24; N.of_nat (length args); 0; 0; 0; 0] /\
  (forall z x, inside f (N.of_nat (length args)) z x -> m_acc (v_mem s) (x / 4096) = rights z) /\
  (forall x, (forall z, ~ inside f (N.of_nat (length args)) z x) -> m_acc (v_mem s) (x / 4096) = Inaccessible) /\
  (forall z lo hi x, bounds f (N.of_nat (length args)) z lo hi -> lo <= x < hi -> m_data (v_mem s) x = nth (N.to_nat (x - lo)) (content f args z) 0) /\
  (forall x, (forall z, ~ inside f (N.of_nat (length args)) z x) -> m_data (v_mem s) x = 0) /\
  bounds f (N.of_nat (length args)) ZHeap (m_heap_start (v_mem s)) (m_heap_end (v_mem s)) /\
  bounds f (N.of_nat (length args)) ZStack (m_stack_start (v_mem s)) (2 ^ 32 - 2 * 65536 - 2 ^ 24).
Proof. exact new_pvm_spec. Qed.

(** Code: r7 := x; jump_ind r0 (which halts, register 0 being 2^32 - 2^16). *)
Definition halting (x : bytes) : bytes := program_blob 0 [] ([51; 7] ++ x ++ [50; 0]) ([true; false] ++ map (fun _ => false) x ++ [true; false]).
Definition prog_of (code : bytes) : fprog := mk_fprog 3 2 1 5000 [1; 2; 3] [4; 5] (N.of_nat (length code)) code.
Definition blob_of (code : bytes) : bytes := standard [1; 2; 3] [4; 5] code 1 5000.
Example standard_case : from_standard_program (blob_of (halting [0; 0; 1])) = Ok (prog_of (halting [0; 0; 1])).
Proof. vm_compute. reflexivity. Qed.
Lemma prog_of_ok x : Bytes (halting x) -> N.of_nat (length (halting x)) < 2 ^ 32 -> fprog_ok (prog_of (halting x)).
Proof. intros B L. unfold fprog_ok. cbn [prog_of f_static_size f_heap_size f_extra f_stack_size f_static f_heap f_code_size f_code]. repeat split; auto; repeat (constructor; [reflexivity|]); constructor. Qed.
Example admitted_case : fprog_ok (prog_of (halting [0; 0; 1])) /\ fits (prog_of (halting [0; 0; 1])) /\ new_pvm (prog_of (halting [0; 0; 1])) [7; 7] <> None.
Proof.
  assert (F : fprog_ok (prog_of (halting [0; 0; 1]))) by (apply prog_of_ok; [repeat (constructor; [reflexivity|]); constructor|reflexivity]).
  assert (V : fits (prog_of (halting [0; 0; 1]))) by (apply fits_valid; vm_compute; reflexivity). split; [exact F|]. split; [exact V|]. apply admitted_exact; [exact F|]. split; [discriminate|exact V].
Qed.
Example heap_bounds_case : bounds (prog_of []) 2 ZHeap 196608 204800.
Proof. apply bounds_is; [reflexivity|]. split; vm_compute; reflexivity. Qed.
Example not_admitted_case : ~ fits (mk_fprog (2 ^ 32 - 2 ^ 24) 0 0 0 [] [] 0 []).
Proof. rewrite <- fits_valid. vm_compute. discriminate. Qed.

(** ** C28: the gas of an invocation *)
Theorem invocation_gas_bound : forall (C : Type) (host : N -> vm -> C -> result verr (hchange * C)) fuel t fp pc limit args c g o c',
  limit < 2 ^ 64 -> run_prepared host fuel t fp pc limit args c = Some (Ok (g, o, c')) -> g <= limit.
Proof. intros C host. exact (invocation_gas host). Qed.
Theorem invocation_terminates : forall (C : Type) (host : N -> vm -> C -> result verr (hchange * C)) t fp pc limit args c, limit < 2 ^ 63 ->
  exists r, forall fuel, limit < N.of_nat fuel -> run_prepared host fuel t fp pc limit args c = Some r.
Proof. intros C host. exact (invocation_ends host). Qed.
(** If the host functions report running out of gas exactly when they do, an invocation reported as out of gas has used all of it. *)
Theorem invocation_out_of_gas : forall (C : Type) (host : N -> vm -> C -> result verr (hchange * C)) fuel t fp pc limit args c g c', limit < 2 ^ 63 ->
  (forall h s c hc c', host h s c = Ok (hc, c') -> (h_exit hc = OutOfGas -> (v_gas s < Z.of_N (h_gas hc))%Z) /\
     (h_exit hc = XPanic \/ h_exit hc = RegularHalt -> (Z.of_N (h_gas hc) <= v_gas s)%Z)) ->
  run_prepared host fuel t fp pc limit args c = Some (Ok (g, OutputOutOfGas, c')) -> g = limit.
Proof.
  intros C host fuel t fp pc limit args c g c' L HH H. apply run_prepared_inv in H as [(_ & _ & Q & _)|(s0 & x & s & _ & E & R)]; [discriminate|].
  pose proof (result_out _ _ _ _ _ R) as [X _]. specialize (X eq_refl). subst x. apply result_of_gas in R as ->.
  assert (SG : as_signed limit = Z.of_N limit) by (unfold as_signed; destruct (N.ltb_spec limit (2 ^ 63)); [reflexivity|lia]).
  assert (G : (v_gas s < 0)%Z) by (apply (extended_out host t (snd fp) fuel _ c OutOfGas s c') in E; [now apply E|cbn [v_gas]; lia|exact HH]).
  pose proof (gas_used_is limit (v_gas s) ltac:(lia) ltac:(lia)). lia.
Qed.
Definition no_host (h : N) (s : vm) (c : unit) : result verr (hchange * unit) := Ok (what_result, c).
(** A halting program reports two units; with a limit of 2^63 + 5 units it is out of gas before the first instruction. *)
Example invocation_case : exists fp, prepare (blob_of (halting [0; 0; 3])) = Ok fp /\
  run_prepared no_host 9 Accumulate fp 0 50 [] tt = Some (Ok (2, Output [], tt)) /\ run_prepared no_host 9 Accumulate fp 0 1 [] tt = Some (Ok (1, OutputOutOfGas, tt)).
Proof. eexists. split; [vm_compute; reflexivity|]. split; vm_compute; reflexivity. Qed.
Theorem large_limit_refuted : exists fp limit, prepare (blob_of (halting [0; 0; 3])) = Ok fp /\ limit < 2 ^ 64 /\ 2 <= limit /\
  run_prepared no_host 9 Accumulate fp 0 limit [] tt = Some (Ok (limit, OutputOutOfGas, tt)) /\ run_prepared no_host 9 Accumulate fp 0 2 [] tt = Some (Ok (2, Output [], tt)).
Proof. eexists. exists (2 ^ 63 + 5). split; [vm_compute; reflexivity|]. split; [reflexivity|]. split; [discriminate|]. split; vm_compute; reflexivity. Qed.

(** ** C62: the result of an invocation *)
(** A halted run yields the bytes that registers 7 and 8 describe if all are readable and nothing otherwise. *)
Theorem halt_output_exact : forall limit s g o, mem_ok (v_mem s) -> nth 8 (v_regs s) 0 < 2 ^ 64 -> result_of limit RegularHalt s = Ok (g, o) ->
  let a := nth 7 (v_regs s) 0 in let n := nth 8 (v_regs s) 0 in
  a < 2 ^ 32 /\ ((exists bs, o = Output bs /\ length bs = N.to_nat n /\ (forall i, (i < N.to_nat n)%nat -> nth i bs 0 = m_data (v_mem s) (a + N.of_nat i)) /\
                    forall x, a <= x < a + n -> can_read (v_mem s) x) \/
                 (o = OutputUnavailable /\ exists x, a <= x < a + n /\ ~ can_read (v_mem s) x)).
Proof. exact halt_result. Qed.
(** No invocation of a program that loads returns an error for reasons of its own: only a host function, or a run that the step theorems do not cover, can. Here the
    result of a run that ends is an error only if it halts with register 7 at 2^32 or more, or with a range that begins in the lowest 64 KiB. *)
Theorem result_never_fails_partial : forall limit x s, mem_ok (v_mem s) ->
  (x = RegularHalt -> nth 7 (v_regs s) 0 < 2 ^ 32 /\ nth 8 (v_regs s) 0 < 2 ^ 64 /\ (nth 8 (v_regs s) 0 = 0 \/ 65536 <= nth 7 (v_regs s) 0 \/ m_acc (v_mem s) (nth 7 (v_regs s) 0 / 4096) = Inaccessible)) ->
  exists g o, result_of limit x s = Ok (g, o).
Proof.
  intros limit x s Hm HX. unfold result_of. destruct x; try (do 2 eexists; reflexivity). destruct (HX eq_refl) as (La & Hn & HZ).
  set (a := nth 7 (v_regs s) 0) in *. set (n := nth 8 (v_regs s) 0) in *. destruct (N.leb_spec (2 ^ 32) a) as [|_]; [lia|].
  destruct (is_address_range_readable (v_mem s) a n) eqn:R; [|do 2 eexists; reflexivity]. pose proof (proj1 (range_readable_spec (v_mem s) a n Hm La Hn) R) as RR.
  destruct (N.eq_dec n 0) as [Z|Z]; [rewrite Z; do 2 eexists; reflexivity|].
  assert (H6 : 65536 <= a).
  { destruct HZ as [HZ|[HZ|HZ]]; [contradiction|exact HZ|]. destruct (RR a ltac:(lia)) as [_ Q]. contradiction. }
  assert (E : exists bs, read_bytes (v_mem s) a n = Ok bs).
  { pose proof (read_bytes_spec (v_mem s) a n Hm La ltac:(lia)) as (I & _). exists (map (fun i => m_data (v_mem s) (a + N.of_nat i)) (seq 0 (N.to_nat n))). apply I.
    split; [split; [exact H6|exact RR]|]. rewrite map_length, seq_length. split; [reflexivity|]. intros i Hi. rewrite (nth_indep _ 0 (m_data (v_mem s) (a + N.of_nat 0))) by now rewrite map_length, seq_length.
    rewrite (map_nth (fun i => m_data (v_mem s) (a + N.of_nat i))), seq_nth by exact Hi. reflexivity. }
  destruct E as [bs ->]. do 2 eexists. reflexivity.
Qed.
(** Halting with register 7 at 2^64 - 1 makes the invocation fail, although the specification gives an empty output. *)
Theorem halt_error_refuted : exists blob e, Bytes blob /\ (exists fp, prepare blob = Ok fp) /\ invoke_with_args no_host 9 Accumulate blob 0 50 [] tt = Some (Err e).
Proof.
  exists (blob_of (halting [255])). eexists. split; [vm_compute; repeat (constructor; [reflexivity|]); constructor|]. split; [eexists; vm_compute; reflexivity|]. vm_compute. reflexivity.
Qed.
(** Code that is no program makes the invocation fail, although the specification calls it a panic without gas used. *)
Theorem bad_code_error_refuted : exists e, invoke_with_args no_host 9 Accumulate [1; 2; 3] 0 50 [] tt = Some (Err e).
Proof. eexists. vm_compute. reflexivity. Qed.
(** Code with a one-byte move instruction crashes the node. *)
Theorem bad_code_crash_refuted : exists blob, Bytes blob /\ (exists f, from_standard_program blob = Ok f) /\ invoke_with_args no_host 9 Accumulate blob 0 50 [] tt = Some Panic.
Proof.
  exists (blob_of (program_blob 0 [] [100] [true])). split; [vm_compute; repeat (constructor; [reflexivity|]); constructor|]. split; [eexists; vm_compute; reflexivity|]. vm_compute. reflexivity.
Qed.

(** ** C65: the program cache *)
(** Whatever was fetched before and whatever was evicted, a program comes out of the cache as it would be prepared afresh, unless another one fetched earlier has its hash. *)
Theorem program_cache_transparent : forall (K : Type) (keq : forall x y : K, {x = y} + {x <> y}) (H : bytes -> K) bs c b, cache_history keq H bs c ->
  fst (fetch keq H c b) = prepare b \/ exists b', In b' bs /\ b' <> b /\ H b' = H b.
Proof. intros K keq H. exact (cache_transparent keq H). Qed.
Example cache_case : let b := blob_of (halting [1]) in let c := snd (fetch (list_eq_dec N.eq_dec) (firstn 40) [] b) in
  length c = 1%nat /\ cache_history (list_eq_dec N.eq_dec) (firstn 40) [b] c /\ snd (fetch (list_eq_dec N.eq_dec) (firstn 40) c b) = c.
Proof. cbv zeta. split; [vm_compute; reflexivity|]. split; [apply ch_fetch, ch_start|]. vm_compute. reflexivity. Qed.
