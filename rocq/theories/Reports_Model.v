(** Work reports from guarantee to availability: extrinsics/src/validation/{assurances,guarantees}.rs,
    transition/src/state/reports.rs, state/src/types/reports.rs. Hashes, keys and signatures are numbers, as in Disputes_Model. *)
From Verif Require Import Base Queue_Model Disputes_Model.
Open Scope N_scope.

(** common/src/types/workloads/work_report.rs:300-313. *)
Record wdigest := mk_wd { wd_service : N; wd_gas : N; wd_code : N }.
(** common/src/types/workloads/work_report.rs: the fields that are checked. [w_id] stands for all others. common/src/types/workloads/work_report.rs:384-401. *)
Record wreport := mk_w { w_pkg : N; w_root : N; w_core : N; w_auth : N; w_output : N; w_digests : list wdigest;
  w_anchor : N; w_anchor_state : N; w_anchor_beefy : N; w_lookup_anchor : N; w_lookup_slot : N;
  w_prereq : list N; w_lookups : list (N * N); w_id : N }.
(** state/src/types/reports.rs:29. *)
Definition pending := list (option (wreport * N)).
(** block/src/types/extrinsics/assurances.rs:60-69. *)
Record assurance := mk_a { a_anchor : N; a_bits : list bool; a_index : N; a_sig : N }.
(** block/src/types/extrinsics/guarantees.rs:49-54. *)
Record credential := mk_cr { cr_index : N; cr_sig : N }.
(** block/src/types/extrinsics/guarantees.rs:86-93. *)
Record guarantee := mk_g { gu_report : wreport; gu_slot : N; gu_creds : list credential }.

(** extrinsics/src/validation/error.rs:10-194. *)
Inductive rxt_err := AssurancesNotSorted | DuplicateAssurer | InvalidAssuranceParentHash | InvalidValidatorIndex_a
  | InvalidAssuranceSignature | NoPendingReportForCore | PendingReportMissing | InvalidCoreIndex
  | GuaranteesNotSorted | DuplicateCoreIndex | DuplicateWorkPackageHash | OutputSizeLimitExceeded | TotalGasTooHigh
  | AccountNotFound | GasLimitTooLow | PendingReportExists | InvalidAuthorizerHash | AnchorBlockNotFound | InvalidAnchorStateRoot
  | InvalidAnchorBeefyRoot | LookupAnchorTimeout | LookupAnchorNotFound | AlreadyInHistory | AlreadyInPipeline | TooManyDependencies
  | SegmentsRootNotFound | SegmentsRootInvalid | PrerequisiteNotFound | InvalidCodeHash | InvalidGuarantorCount
  | CredentialsNotSorted | DuplicateGuarantor | BannedValidator | InvalidGuaranteesSignature | TimeslotInFuture | TimeslotTooOld
  | GuarantorNotAssigned.

Section Reports.
  (** V = VALIDATOR_COUNT, C = CORE_COUNT, U = PENDING_REPORT_TIMEOUT, R = GUARANTOR_ROTATION_PERIOD, L = MAX_LOOKUP_ANCHOR_AGE. *)
  Variables (V C U R L : N).
  Variable verify : N -> bytes -> N -> bool.
  (** Blake2b of a report's encoding; of the parent hash followed by the availability bits. *)
  Variable report_hash : wreport -> N.
  Variable avail_hash : N -> list bool -> N.

  (** ** Pending reports: state/src/types/reports.rs:50-105 *)
  Fixpoint remove_by_hash (p : pending) (h : N) : pending :=
    match p with
    | [] => []
    | Some (r, t) :: p' => if report_hash r =? h then None :: p' else Some (r, t) :: remove_by_hash p' h
    | None :: p' => None :: remove_by_hash p' h
    end.
  (** Part of state/src/types/reports.rs:50-105. *)
  Definition remove_by_core (p : pending) (c : nat) : result rxt_err pending :=
    if (N.of_nat c <? C) then (if (c <? length p)%nat then Ok (set_nth c None p) else Panic) else Err InvalidCoreIndex.
  (** Part of state/src/types/reports.rs:50-105. *)
  Definition timed_out_cores (p : pending) (slot : N) : list nat :=
    filter (fun c => match nth c p None with Some (_, t) => t + U <=? slot | None => false end) (seq 0 (length p)).

  (** transition/src/state/reports.rs:31-63, after validation. *)
  Definition eliminate_invalid (p : pending) (judged_away : list N) : pending := fold_left remove_by_hash judged_away p.

  (** ** Assurances: block/src/types/extrinsics/assurances.rs:37-58 *)
  Definition add_bits (counts : list N) (bits : list bool) : list N :=
    map (fun i => nth i counts 0 + (if nth i bits false then 1 else 0)) (seq 0 (length counts)).
  (** Bits beyond CORE_COUNT would be out of range; decoding yields exactly CORE_COUNT of them. block/src/types/extrinsics/assurances.rs:37-58. *)
  Definition assurance_counts (x : list assurance) : list N :=
    fold_left (fun counts a => add_bits counts (a_bits a)) x (repeat 0 (N.to_nat C)).
  (** block/src/types/extrinsics/assurances.rs:37-58. *)
  Definition available_cores (x : list assurance) : list nat :=
    filter (fun c => super_majority V <=? nth c (assurance_counts x) 0) (seq 0 (N.to_nat C)).

  (** validation/assurances.rs:40-122. [active]: Ed25519 keys of the clean active set; [p]: reports after disputes. *)
  Definition validate_assurance (parent : N) (active : list N) (p : pending) (a : assurance) : result rxt_err unit :=
    let! _ := check (a_anchor a =? parent) InvalidAssuranceParentHash in
    match nth_error active (N.to_nat (a_index a)) with
    | None => Err InvalidValidatorIndex_a
    | Some k =>
        let! _ := check (verify k (X_A ++ hbytes (avail_hash parent (a_bits a))) (a_sig a)) InvalidAssuranceSignature in
        first_err (fun cb : nat * bool =>
          if snd cb then match nth_error p (fst cb) with None => Panic | Some None => Err NoPendingReportForCore | Some (Some _) => Ok tt end
          else Ok tt) (combine (seq 0 (length (a_bits a))) (a_bits a))
    end.
  (** Part of validation/assurances.rs:40-122. *)
  Definition validate_assurances (parent : N) (active : list N) (p : pending) (x : list assurance) : result rxt_err unit :=
    match x with
    | [] => Ok tt
    | _ =>
        let! _ := check (sorted_by a_index x) AssurancesNotSorted in
        let! _ := check (no_dup (map a_index x)) DuplicateAssurer in
        first_err (validate_assurance parent active p) x
    end.

  (** transition/src/state/reports.rs:75-125. *)
  Fixpoint collect_available (p : pending) (cores : list nat) : result rxt_err (list wreport) :=
    match cores with
    | [] => Ok []
    | c :: cs =>
        if negb (N.of_nat c <? C) then Err InvalidCoreIndex
        else match nth_error p c with
             | None => Panic
             | Some None => Err PendingReportMissing
             | Some (Some (r, _)) => let! rs := collect_available p cs in Ok (r :: rs)
             end
    end.
  (** Part of transition/src/state/reports.rs:75-125. *)
  Fixpoint remove_cores (p : pending) (cores : list nat) : result rxt_err pending :=
    match cores with [] => Ok p | c :: cs => let! p' := remove_by_core p c in remove_cores p' cs end.
  (** Part of transition/src/state/reports.rs:75-125. *)
  Definition clear_availables (parent : N) (active : list N) (slot : N) (p : pending) (x : list assurance)
    : result rxt_err (pending * list wreport) :=
    let! _ := validate_assurances parent active p x in
    let cores := available_cores x in
    let! rs := collect_available p cores in
    let! p' := remove_cores p (cores ++ timed_out_cores p slot) in
    Ok (p', rs).

  (** ** Guarantees *)
  (** state/src/types/history.rs:95-103. *)
  Record hentry := mk_h { h_hash : N; h_beefy : N; h_state : N; h_reported : list (N * N) }.
  (** What validation reads: account gas minimum and code hash; ρ‡ and the clean ρ; authorizer pools; recent blocks; packages in the
      accumulation queue and history; ancestors (None: check off); core and key of each validator in this and the previous rotation. The reads of extrinsics/src/validation/guarantees.rs:196-608. *)
  Record gctx := mk_gctx { k_service : N -> option (N * N); k_pending : pending; k_prior_pending : pending; k_pools : list (list N);
    k_history : list hentry; k_queued : list N; k_accumulated : list N; k_ancestors : option (list (N * N)); k_slot : N;
    k_current : list N * list N; k_previous : list N * list N }.

  (** Equality of common/src/types/workloads/work_report.rs:109-114. *)
  Definition pair_eqb (a b : N * N) : bool := (fst a =? fst b) && (snd a =? snd b).
  (** work_report.rs:484-498: MAX when the sum overflows. *)
  Definition total_gas (w : wreport) : N :=
    let s := fold_right N.add 0 (map wd_gas (w_digests w)) in if s <? 2 ^ 64 then s else 2 ^ 64 - 1.
  (** state/src/types/history.rs:25-30; used at extrinsics/src/validation/guarantees.rs:325-480. *)
  Definition in_reported (hs : list hentry) (pkg : N) : bool := existsb (fun h => mem pkg (map fst (h_reported h))) hs.
  (** state/src/types/reports.rs:29; used at extrinsics/src/validation/guarantees.rs:325-480. *)
  Definition pending_pkgs (p : pending) : list N :=
    flat_map (fun o => match o with Some (r, _) => [w_pkg r] | None => [] end) p.
  (** validation/guarantees.rs:196-322, 325-480. [all]: the extrinsic. WORK_REPORT_OUTPUT_SIZE_LIMIT = 48 * 1024, ACCUMULATION_GAS_PER_CORE =
      10_000_000, MAX_REPORT_DEPENDENCIES = 8. *)
  Definition validate_work_report (k : gctx) (all : list guarantee) (w : wreport) : result rxt_err unit :=
    let! _ := check (w_output w <=? 49152) OutputSizeLimitExceeded in
    let! _ := check (total_gas w <=? 10000000) TotalGasTooHigh in
    let! _ := first_err (fun d => match k_service k (wd_service d) with
                                  | None => Err AccountNotFound
                                  | Some (g, _) => check (g <=? wd_gas d) GasLimitTooLow
                                  end) (w_digests w) in
    let! _ := check (w_core w <? C) InvalidCoreIndex in
    let! _ := (match nth_error (k_pending k) (N.to_nat (w_core w)) with
               | None => Panic | Some (Some _) => Err PendingReportExists | Some None => Ok tt end) in
    let! _ := (match nth_error (k_pools k) (N.to_nat (w_core w)) with
               | None => Panic | Some pool => check (mem (w_auth w) pool) InvalidAuthorizerHash end) in
    let! _ := (match find (fun h => h_hash h =? w_anchor w) (k_history k) with
               | None => Err AnchorBlockNotFound
               | Some h => let! _ := check (h_state h =? w_anchor_state w) InvalidAnchorStateRoot in
                           check (h_beefy h =? w_anchor_beefy w) InvalidAnchorBeefyRoot
               end) in
    let! _ := check (k_slot k - L <=? w_lookup_slot w) LookupAnchorTimeout in
    let! _ := (match k_ancestors k with
               | None => Ok tt
               | Some l => check (existsb (pair_eqb (w_lookup_slot w, w_lookup_anchor w)) l) LookupAnchorNotFound
               end) in
    let! _ := check (negb (in_reported (k_history k) (w_pkg w))) AlreadyInHistory in
    let! _ := check (negb (mem (w_pkg w) (k_accumulated k ++ k_queued k ++ pending_pkgs (k_prior_pending k)))) AlreadyInPipeline in
    let! _ := check (N.of_nat (length (w_prereq w) + length (w_lookups w)) <=? 8) TooManyDependencies in
    let manifests := (flat_map h_reported (k_history k) ++ map (fun g => (w_pkg (gu_report g), w_root (gu_report g))) all)%list in
    let! _ := first_err (fun l => match find (fun m => fst m =? fst l) manifests with
                                  | None => Err SegmentsRootNotFound
                                  | Some m => check (snd m =? snd l) SegmentsRootInvalid
                                  end) (w_lookups w) in
    let! _ := first_err (fun p => check (mem p (map (fun g => w_pkg (gu_report g)) all) || in_reported (k_history k) p) PrerequisiteNotFound)
                (w_prereq w) in
    first_err (fun d => match k_service k (wd_service d) with
                        | None => Err AccountNotFound
                        | Some (_, code) => check (code =? wd_code d) InvalidCodeHash
                        end) (w_digests w).

  (** guarantees.rs:482-608: derived order of credentials is by index, then signature. *)
  Fixpoint creds_sorted (l : list credential) : bool :=
    match l with
    | a :: ((b :: _) as r) => ((cr_index a <? cr_index b) || ((cr_index a =? cr_index b) && (cr_sig a <=? cr_sig b))) && creds_sorted r
    | _ => true
    end.
  (** extrinsics/src/validation/guarantees.rs:160-195, 482-608. *)
  Definition validate_credential (k : gctx) (w : wreport) (slot : N) (c : credential) : result rxt_err N :=
    let '(cores, keys) := if k_slot k / R =? slot / R then k_current k else k_previous k in
    match nth_error keys (N.to_nat (cr_index c)) with
    | None => Err InvalidValidatorIndex_a
    | Some key =>
        let! _ := check (negb (key =? 0)) BannedValidator in
        let! _ := check (verify key (X_G ++ hbytes (report_hash w)) (cr_sig c)) InvalidGuaranteesSignature in
        let! _ := check (slot <=? k_slot k) TimeslotInFuture in
        let! _ := check (R * (k_slot k / R - 1) <=? slot) TimeslotTooOld in
        match nth_error cores (N.to_nat (cr_index c)) with
        | None => Panic
        | Some core => let! _ := check (core =? w_core w) GuarantorNotAssigned in Ok key
        end
    end.
  (** extrinsics/src/validation/guarantees.rs:160-195, 482-608. *)
  Fixpoint map_err {A B} (f : A -> result rxt_err B) (l : list A) : result rxt_err (list B) :=
    match l with [] => Ok [] | a :: r => let! b := f a in let! bs := map_err f r in Ok (b :: bs) end.
  (** extrinsics/src/validation/guarantees.rs:160-195, 482-608. *)
  Definition validate_guarantee (k : gctx) (all : list guarantee) (g : guarantee) : result rxt_err (list N) :=
    let! _ := validate_work_report k all (gu_report g) in
    let n := length (gu_creds g) in
    let! _ := check ((n =? 2)%nat || (n =? 3)%nat) InvalidGuarantorCount in
    let! _ := check (creds_sorted (gu_creds g)) CredentialsNotSorted in
    let! _ := check (no_dup (map cr_index (gu_creds g))) DuplicateGuarantor in
    map_err (validate_credential k (gu_report g) (gu_slot g)) (gu_creds g).
  (** guarantees.rs:89-158. The result is the guarantors' keys; the HashSet is a list here. *)
  Definition validate_guarantees (k : gctx) (x : list guarantee) : result rxt_err (list N) :=
    match x with
    | [] => Ok []
    | _ =>
        let! _ := check (sorted_by (fun g => w_core (gu_report g)) x) GuaranteesNotSorted in
        let! _ := check (no_dup (map (fun g => w_core (gu_report g)) x)) DuplicateCoreIndex in
        let! _ := check (no_dup (map (fun g => w_pkg (gu_report g)) x)) DuplicateWorkPackageHash in
        let! keys := map_err (validate_guarantee k x) x in
        Ok (concat keys)
    end.

  (** transition/src/state/reports.rs:137-176. *)
  Fixpoint place (p : pending) (slot : N) (rs : list wreport) : result rxt_err pending :=
    match rs with
    | [] => Ok p
    | r :: rs' => if (N.to_nat (w_core r) <? length p)%nat then place (set_nth (N.to_nat (w_core r)) (Some (r, slot)) p) slot rs' else Panic
    end.
  (** Part of transition/src/state/reports.rs:137-176. *)
  Definition update_entries (k : gctx) (x : list guarantee) : result rxt_err (pending * list N) :=
    let! keys := validate_guarantees k x in
    let! p := place (k_pending k) (k_slot k) (map gu_report x) in
    Ok (p, keys).

  (** ** A block: executor.rs, the three steps in order. [k] supplies the rest of the guarantee context; its ρ‡ is the result of the
      second step and its prior ρ is [p]. Returns the new pending reports and the reports that became available. node/src/roles/executor.rs:104-233. *)
  Record rblock := mk_rb { rb_judged : list N; rb_parent : N; rb_active : list N; rb_assurances : list assurance;
    rb_guarantees : list guarantee; rb_ctx : gctx }.
  (** node/src/roles/executor.rs:104-233. *)
  Definition with_pending (k : gctx) (now prior : pending) : gctx :=
    mk_gctx (k_service k) now prior (k_pools k) (k_history k) (k_queued k) (k_accumulated k) (k_ancestors k) (k_slot k)
      (k_current k) (k_previous k).
  (** node/src/roles/executor.rs:104-233. *)
  Definition reports_block (p : pending) (b : rblock) : result rxt_err (pending * list wreport) :=
    let p1 := eliminate_invalid p (rb_judged b) in
    let! (p2, rs) := clear_availables (rb_parent b) (rb_active b) (k_slot (rb_ctx b)) p1 (rb_assurances b) in
    let! (p3, _) := update_entries (with_pending (rb_ctx b) p2 p) (rb_guarantees b) in
    Ok (p3, rs).
End Reports.
