(** The wire types of blocks, extrinsics and work reports as terms of the codec grammar, and the
    extrinsic/header hashes. *)
From Verif Require Import Base Codec_Model.
Open Scope N_scope.

(** Chain parameters (common/src/types/chain_spec or constants; any values) and in-memory sizes of the
    element types of [Vec]s (only relevant to the capacity-overflow check). common/src/constants/mod.rs:1-146 and its chain_spec modules. *)
Record params := {
  validator_count : nat;      (* VALIDATOR_COUNT *)
  core_count : N;             (* CORE_COUNT *)
  epoch_length : nat;         (* EPOCH_LENGTH *)
  super_majority : nat;       (* VALIDATORS_SUPER_MAJORITY, common/src/constants/mod.rs *)
  sz_ticket : N; sz_preimage : N; sz_guarantee : N; sz_credential : N; sz_assurance : N;
  sz_verdict : N; sz_culprit : N; sz_fault : N; sz_digest : N; sz_import : N; sz_xtinfo : N; sz_item : N }.

(** common/src/types/mod.rs:20. *)
Definition t_hash := TByteArr 32.
(** Fixed-size integers, codec/fr-codec/src/lib.rs:550-600. *)
Definition t_u16_2 := TFix 16 2.
(** Fixed-size integers, codec/fr-codec/src/lib.rs:550-600. *)
Definition t_u32_4 := TFix 32 4.
(** Fixed-size integers, codec/fr-codec/src/lib.rs:550-600. *)
Definition t_u64_8 := TFix 64 8.
Notation "a ** b" := (TPair a b) (at level 70, right associativity).

Section Types.
  Variable P : params.

  (** common/src/types/workloads/work_report.rs:43-72 (AvailSpecs). *)
  Definition t_avail_specs := t_hash ** t_u32_4 ** t_hash ** t_hash ** t_u16_2.
  (** common/src/types/workloads/common.rs:43-78 (RefinementContext). *)
  Definition t_refine_ctx := t_hash ** t_hash ** t_hash ** t_hash ** t_u32_4 ** TSet t_hash.
  (** work_report.rs:139-237 (WorkExecutionResult): variant 0 carries the output. *)
  Definition t_exec_result := TTagged 6 TOctets.
  (** work_report.rs (RefineStats, derived): gas, imports, extrinsics, extrinsic octets, exports. common/src/types/workloads/work_report.rs:274-285. *)
  Definition t_refine_stats := TUint 64 ** TUint 16 ** TUint 16 ** TUint 32 ** TUint 16.
  (** work_report.rs:332-366 (WorkDigest). *)
  Definition t_digest := t_u32_4 ** t_hash ** t_hash ** t_u64_8 ** t_exec_result ** t_refine_stats.
  (** work_report.rs:424-465 (WorkReport); digests: LimitedVec<_, MAX_WORK_ITEMS_PER_PACKAGE = 16>. *)
  Definition t_report := t_avail_specs ** t_refine_ctx ** TUint 16 ** t_hash ** TUint 64 ** TOctets
                         ** TMap t_hash t_hash ** TLim (sz_digest P) 16 t_digest.
  (** common/src/types/workloads/work_package.rs:27-68, 81-110, 124-164, 201-235. *)
  Definition t_import := t_hash ** TIdx15.
  (** common/src/types/workloads/work_package.rs:71-76. *)
  Definition t_xtinfo := t_hash ** t_u32_4.
  (** common/src/types/workloads/work_package.rs:103-122. *)
  Definition t_item := t_u32_4 ** t_hash ** t_u64_8 ** t_u64_8 ** t_u16_2 ** TOctets
                       ** TVec (sz_import P) t_import ** TVec (sz_xtinfo P) t_xtinfo.
  (** common/src/types/workloads/work_package.rs:186-199. *)
  Definition t_package := t_u32_4 ** t_hash ** t_refine_ctx ** TOctets ** TOctets
                          ** TLim (sz_item P) 16 t_item.

  (** block/src/types/extrinsics/{tickets,preimages,guarantees,assurances,disputes}.rs. block/src/types/extrinsics/tickets.rs:34-39. *)
  Definition t_ticket_xt := TUint 8 ** TByteArr 784.
  (** block/src/types/extrinsics/tickets.rs:11-13. *)
  Definition t_tickets := TVec (sz_ticket P) t_ticket_xt.
  (** block/src/types/extrinsics/preimages.rs:29-34. *)
  Definition t_preimage_xt := t_u32_4 ** TOctets.
  (** block/src/types/extrinsics/preimages.rs:10-12. *)
  Definition t_preimages := TVec (sz_preimage P) t_preimage_xt.
  (** block/src/types/extrinsics/guarantees.rs:49-54. *)
  Definition t_credential := t_u16_2 ** TByteArr 64.
  (** The credentials of block/src/types/extrinsics/guarantees.rs:86-93. *)
  Definition t_credentials := TVec (sz_credential P) t_credential.
  (** block/src/types/extrinsics/guarantees.rs:86-93. *)
  Definition t_guarantee := t_report ** t_u32_4 ** t_credentials.
  (** block/src/types/extrinsics/guarantees.rs:16-18. *)
  Definition t_guarantees := TLim (sz_guarantee P) (core_count P) t_guarantee.
  (** block/src/types/extrinsics/assurances.rs:60-69. *)
  Definition t_assurance := t_hash ** TBitsFix (core_count P) ** t_u16_2 ** TByteArr 64.
  (** block/src/types/extrinsics/assurances.rs:12, 17-19. *)
  Definition t_assurances := TLim (sz_assurance P) (N.of_nat (validator_count P)) t_assurance.
  (** block/src/types/extrinsics/disputes.rs:201-208. *)
  Definition t_judgment := TBool ** t_u16_2 ** TByteArr 64.
  (** block/src/types/extrinsics/disputes.rs:124-131. *)
  Definition t_verdict := t_hash ** t_u32_4 ** TArr (super_majority P) t_judgment.
  (** block/src/types/extrinsics/disputes.rs:258-265. *)
  Definition t_culprit := t_hash ** TByteArr 32 ** TByteArr 64.
  (** block/src/types/extrinsics/disputes.rs:293-302. *)
  Definition t_fault := t_hash ** TBool ** TByteArr 32 ** TByteArr 64.
  (** block/src/types/extrinsics/disputes.rs:35-43. *)
  Definition t_disputes := TVec (sz_verdict P) t_verdict ** TVec (sz_culprit P) t_culprit
                           ** TVec (sz_fault P) t_fault.
  (** block/src/types/extrinsics/mod.rs:51-59 (Extrinsics, derived). *)
  Definition t_extrinsics := t_tickets ** t_preimages ** t_guarantees ** t_assurances ** t_disputes.

  (** block/src/types/block.rs:44-72, 98-204, 31-35. A ticket is (id, attempt). *)
  Definition t_epoch_marker := t_hash ** t_hash ** TArr (validator_count P) (TByteArr 32 ** TByteArr 32).
  (** common/src/types/ticket.rs:9-14. *)
  Definition t_ticket := t_hash ** TUint 8.
  (** block/src/types/block.rs:77-96. *)
  Definition t_header_data := t_hash ** t_hash ** t_hash ** t_u32_4 ** TOption t_epoch_marker
    ** TOption (TArr (epoch_length P) t_ticket) ** t_u16_2 ** TByteArr 96 ** TVec 32 (TByteArr 32).
  (** block/src/types/block.rs:145-150. *)
  Definition t_header := t_header_data ** TByteArr 96.
  (** block/src/types/block.rs:31-34. *)
  Definition t_block := t_header ** t_extrinsics.

  Variable H : bytes -> bytes.   (* Blake2b-256, opaque *)

  (** guarantees.rs:35-45 [encode_with_hashed_reports]. *)
  Definition encode_hashed_guarantee (g : interp t_guarantee) : result cerr bytes :=
    let '(report, (slot, creds)) := g in
    let! r := encode t_report report in
    let! s := encode t_u32_4 slot in
    let! c := encode t_credentials creds in
    Ok (H r ++ s ++ c).
  (** block/src/types/extrinsics/guarantees.rs:35-45. *)
  Definition encode_with_hashed_reports (gs : interp t_guarantees) : result cerr bytes :=
    let! x := encode_seq encode_hashed_guarantee gs in
    Ok (integer_encode (N.of_nat (length gs)) ++ x).

  (** extrinsics/mod.rs:75-83 [Extrinsics::hash]. *)
  Definition extrinsics_hash (e : interp t_extrinsics) : result cerr bytes :=
    let '(tickets, (preimages, (guarantees, (assurances, disputes)))) := e in
    let! t := encode t_tickets tickets in
    let! p := encode t_preimages preimages in
    let! g := encode_with_hashed_reports guarantees in
    let! a := encode t_assurances assurances in
    let! d := encode t_disputes disputes in
    Ok (H (H t ++ H p ++ H g ++ H a ++ H d)).

  (** block.rs:234-236 [BlockHeader::hash]. *)
  Definition header_hash (h : interp t_header) : result cerr bytes :=
    let! b := encode t_header h in Ok (H b).
End Types.
