(** C25, C42 (assurances, guarantees): work reports between guarantee and accumulation. V = VALIDATOR_COUNT, C = CORE_COUNT,
    U = PENDING_REPORT_TIMEOUT, R = GUARANTOR_ROTATION_PERIOD, L = MAX_LOOKUP_ANCHOR_AGE, E = EPOCH_LENGTH. *)
From Verif Require Import Base Queue_Model Disputes_Model Disputes_Spec Reports_Model Reports_Spec Reports_Proofs.
From Coq Require Import Sorted.
Open Scope N_scope.

(** * C42, assurances and guarantees *)
Theorem assurances_accepted_iff : forall verify avail_hash parent active p x,
  validate_assurances verify avail_hash parent active p x = Ok tt <-> acceptable_assurances verify avail_hash parent active p x.
Proof. exact (validate_assurances_ok 0). Qed.
(** Acceptable assurances are also processed without failing. *)
Theorem assurances_never_fail_later : forall V C U verify avail_hash parent active slot p x, length p = N.to_nat C ->
  acceptable_assurances verify avail_hash parent active p x ->
  exists p' rs, clear_availables V C U verify avail_hash parent active slot p x = Ok (p', rs).
Proof. intros V C U verify avail_hash. exact (clear_total V C U 0 verify w_pkg avail_hash). Qed.
(** The keys returned (and rewarded) are those of the guarantors, in order. *)
Theorem guarantees_accepted_iff : forall C R L verify report_hash k x keys,
  validate_guarantees C R L verify report_hash k x = Ok keys <->
  acceptable_guarantees C R L verify report_hash k x /\
  exists kss, keys = concat kss /\ Forall2 (fun g ks => Forall2 (guarantor R verify report_hash k g) (gu_creds g) ks) x kss.
Proof. intros C R L verify report_hash. exact (validate_guarantees_ok 0 C R L verify report_hash (fun _ _ => 0)). Qed.

(** * C25 *)
(** One block. A core holds after it: the report guaranteed for it in the block, and then whatever was there before left in the
    same block; or else exactly what was there before unless that left. A report leaves when it is judged not good, or more than
    two thirds of the validators assure it, or it times out. Handed on for accumulation, in core order, are exactly the assured
    reports. *)
Theorem pending_core_update : forall V C U R L verify report_hash avail_hash p b p' rs, length p = N.to_nat C -> distinct_hashes report_hash p ->
  reports_block V C U R L verify report_hash avail_hash p b = Ok (p', rs) ->
  length p' = N.to_nat C /\
  (forall c, (c < N.to_nat C)%nat ->
     (forall g, In g (rb_guarantees b) -> w_core (gu_report g) = N.of_nat c ->
        at_core p' c = Some (gu_report g, k_slot (rb_ctx b)) /\ forall r t, at_core p c = Some (r, t) -> leaves V U report_hash b c r t) /\
     ((forall g, In g (rb_guarantees b) -> w_core (gu_report g) <> N.of_nat c) ->
        forall r t, at_core p' c = Some (r, t) <-> at_core p c = Some (r, t) /\ ~ leaves V U report_hash b c r t)) /\
  exists cores, StronglySorted lt cores /\ (forall c, In c cores <-> (c < N.to_nat C)%nat /\ assured V b c) /\
    Forall2 (fun c r => exists t, at_core p c = Some (r, t) /\ ~ In (report_hash r) (rb_judged b)) cores rs.
Proof. exact block_spec. Qed.
(** Whole chains from genesis: a work package is in at most one of the cores, the accumulation queue and the accumulation history,
    and only once; every pending report is on its own core; and the premise of the theorem above holds unless two different pending
    reports have the same hash. *)
Theorem package_in_pipeline_once : forall V C U R L verify report_hash avail_hash E t log p s, 0 < E ->
  pipeline V C U R L verify report_hash avail_hash E (pgenesis C E t) log (p, s) ->
  NoDup (pending_pkgs p ++ pkgs (map fst (concat (as_queue s))) ++ concat (as_hist s)) /\
  (forall c r u, at_core p c = Some (r, u) -> w_core r = N.of_nat c) /\
  ((forall i j r r' u u', at_core p i = Some (r, u) -> at_core p j = Some (r', u') -> report_hash r = report_hash r' -> r = r') ->
   distinct_hashes report_hash p).
Proof. exact pipeline_once. Qed.
(** What a block accumulates is distinct, was pending or queued, and was not accumulated within the history window. *)
Theorem pipeline_accumulates_fresh : forall V C U R L verify report_hash avail_hash E t log p s b p' rs s' acc, 0 < E ->
  pipeline V C U R L verify report_hash avail_hash E (pgenesis C E t) log (p, s) ->
  as_slot s < k_slot (rb_ctx (pb_reports b)) -> reads_state s (pb_reports b) ->
  reports_block V C U R L verify report_hash avail_hash p (pb_reports b) = Ok (p', rs) ->
  astep E s (mk_ab (k_slot (rb_ctx (pb_reports b))) (map to_report rs) (pb_count b)) = Ok (s', acc) ->
  NoDup (pkgs acc) /\ (forall x, In x (pkgs acc) -> ~ In x (concat (as_hist s))) /\
  (forall x, In x (pkgs acc) -> In x (pending_pkgs p) \/ In x (pkgs (map fst (concat (as_queue s))))).
Proof. exact pipeline_step_fresh. Qed.

(** ** A concrete chain of three blocks *)
Definition rverify (k : N) (m : bytes) (s : N) : bool := s =? k + fold_right N.add 0 m.
Definition rsign (k : N) (m : bytes) : N := k + fold_right N.add 0 m.
Definition rhash (w : wreport) : N := w_pkg w * 2 + w_core w.
Definition ahash (parent : N) (bits : list bool) : N := parent + fold_right (fun b a => (if b : bool then 1 else 0) + 2 * a) 0 bits.
Definition vkeys := [10; 11; 12; 13; 14; 15].
Definition assure (parent : N) (bits : list bool) (i : N) : assurance :=
  mk_a parent bits i (rsign (nth (N.to_nat i) vkeys 0) (X_A ++ hbytes (ahash parent bits))).
Definition guaranteed (w : wreport) (slot : N) (is : list N) : guarantee :=
  mk_g w slot (map (fun i => mk_cr i (rsign (nth (N.to_nat i) vkeys 0) (X_G ++ hbytes (rhash w)))) is).
Definition rep (pkg core : N) (pre : list N) : wreport :=
  mk_w pkg (pkg + 500) core 5 100 [mk_wd 7 20 77; mk_wd 7 30 77] 900 901 902 800 3 pre [] 0.
Definition ctx (slot : N) (reported : list (N * N)) (queued accumulated : list N) : gctx :=
  mk_gctx (fun s => if s =? 7 then Some (10, 77) else None) [] [] [[5; 6]; [5]] [mk_h 900 902 901 []; mk_h 899 0 0 reported] queued accumulated
    (Some [(3, 800)]) slot ([0; 0; 0; 1; 1; 1], vkeys) ([1; 1; 1; 0; 0; 0], vkeys).
Definition blk1 := mk_pb (mk_rb [] 1 vkeys [] [guaranteed (rep 100 0 []) 11 [0; 1]; guaranteed (rep 101 1 []) 7 [0; 1; 2]] (ctx 11 [] [] [])) 0.
(** The report on core 0 becomes available and is replaced; one vote too few for core 1. *)
Definition blk2 := mk_pb (mk_rb [] 2 vkeys (map (assure 2 [true; true]) [0; 1; 2; 4] ++ [assure 2 [true; false] 5])
  [guaranteed (rep 102 0 [101]) 12 [0; 2]] (ctx 12 [(100, 600); (101, 601)] [] [])) 1.
(** The report on core 0 is judged bad, the one on core 1 times out (and its core is taken again). *)
Definition blk3 := mk_pb (mk_rb [rhash (rep 102 0 [101])] 3 vkeys [] [guaranteed (rep 103 1 []) 16 [3; 4]] (ctx 16 [] [] [100])) 0.
Example pipeline_case : exists p3 s3,
  let p1 := [Some (rep 100 0 [], 11); Some (rep 101 1 [], 11)] in let p2 := [Some (rep 102 0 [101], 12); Some (rep 101 1 [], 11)] in
  pipeline 6 2 5 4 100 rverify rhash ahash 12 (pgenesis 2 12 10) [(blk1, []); (blk2, [to_report (rep 100 0 [])]); (blk3, [])] (p3, s3) /\
  p3 = [None; Some (rep 103 1 [], 16)] /\ concat (as_hist s3) = [100] /\
  reports_block 6 2 5 4 100 rverify rhash ahash p1 (pb_reports blk2) = Ok (p2, [rep 100 0 []]) /\
  reports_block 6 2 5 4 100 rverify rhash ahash p2 (pb_reports blk3) = Ok (p3, []) /\ distinct_hashes rhash p1 /\ distinct_hashes rhash p2.
Proof.
  do 2 eexists. cbv zeta. split.
  - match goal with |- pipeline _ _ _ _ _ _ _ _ _ _ [?a; ?b; ?c] _ => change [a; b; c] with ((([] ++ [a]) ++ [b]) ++ [c])%list end.
    eapply pl_snoc; [eapply pl_snoc; [eapply pl_snoc; [apply pl_nil|..]|..]|..];
      try (vm_compute; reflexivity); split; intros x; vm_compute; intuition.
  - do 4 (split; [vm_compute; reflexivity|]). split; intros [|[|[|i]]] [|[|[|j]]] r r' t t' E1 E2; cbn in *; try discriminate; try reflexivity;
      injection E1 as <- <-; injection E2 as <- <-; intros Q; vm_compute in Q; discriminate.
Qed.
(** A guarantee for a busy core is refused, and so is one that misses a signature. *)
Example guarantees_case :
  let busy := with_pending (ctx 12 [] [] []) [Some (rep 100 0 [], 11); None] [] in
  validate_guarantees 2 4 100 rverify rhash busy [guaranteed (rep 102 0 []) 12 [0; 2]] = Err PendingReportExists /\
  validate_guarantees 2 4 100 rverify rhash busy [guaranteed (rep 102 1 []) 12 [3; 5]] = Ok [13; 15] /\
  validate_guarantees 2 4 100 rverify rhash busy [guaranteed (rep 102 1 []) 12 [0; 5]] = Err GuarantorNotAssigned /\
  validate_assurances rverify ahash 2 vkeys (k_pending busy) [assure 2 [true; false] 3; assure 2 [true; false] 5] = Ok tt /\
  validate_assurances rverify ahash 2 vkeys (k_pending busy) [assure 2 [true; true] 3] = Err NoPendingReportForCore.
Proof. vm_compute. auto. Qed.

Print Assumptions assurances_accepted_iff.
Print Assumptions assurances_never_fail_later.
Print Assumptions guarantees_accepted_iff.
Print Assumptions pending_core_update.
Print Assumptions package_in_pipeline_once.
Print Assumptions pipeline_accumulates_fresh.
