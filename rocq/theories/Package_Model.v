(** Work packages as a guarantor handles them: their limits, the auditable bundle, the constants FETCH gives and the making of a report.
    common/src/types/workloads/work_package.rs:237-290, pvm/pvm-invocation/src/refine/{auditable_bundle,pipeline}.rs,
    common/src/constants/constants_encoder.rs. *)
From Verif Require Import Base PvmMem_Model PvmProg_Model PvmStep_Model PvmInit_Model Refine_Model Codec_Model Block_Model.
Open Scope N_scope.

Section Bundle.
  Variable P : params.
  Variable segment_size : nat.        (* SEGMENT_SIZE, common/src/constants/mod.rs:102: 4104 in both chain specifications *)

  (** work_package.rs:186-199; the wire type of Block_Model, whose fields are in the order they are declared in. *)
  Definition package := interp (t_package P).
  (** work_package.rs:103-122. *)
  Definition item := interp (t_item P).
  (** The fields of work_package.rs:186-199. *)
  Definition p_context (k : package) : interp t_refine_ctx := fst (snd (snd k)).
  (** Part of work_package.rs:186-199. *)
  Definition p_token (k : package) : bytes := fst (snd (snd (snd k))).
  (** Part of work_package.rs:186-199. *)
  Definition p_config (k : package) : bytes := fst (snd (snd (snd (snd k)))).
  (** Part of work_package.rs:186-199. *)
  Definition p_items (k : package) : list item := snd (snd (snd (snd (snd k)))).
  (** The fields of work_package.rs:103-122. *)
  Definition i_refine_gas (w : item) : N := fst (snd (snd w)).
  (** Part of work_package.rs:103-122. *)
  Definition i_acc_gas (w : item) : N := fst (snd (snd (snd w))).
  (** Part of work_package.rs:103-122. *)
  Definition i_exports (w : item) : N := fst (snd (snd (snd (snd w)))).
  (** Part of work_package.rs:103-122. *)
  Definition i_payload (w : item) : bytes := fst (snd (snd (snd (snd (snd w))))).
  (** Part of work_package.rs:103-122: the hash of each import, whether it is of a package, and the index. *)
  Definition i_imports (w : item) : list (bytes * (bool * N)) := fst (snd (snd (snd (snd (snd (snd w)))))).
  (** Part of work_package.rs:103-122: the hash and the length of each extrinsic blob. *)
  Definition i_xts (w : item) : list (bytes * N) := snd (snd (snd (snd (snd (snd (snd w)))))).

  (** ** Limits: work_package.rs:237-290. In a release build sums and products wrap, in a debug build they panic; here they wrap. *)
  (** [.sum::<usize>()] and [.sum::<UnsignedGas>()]: work_package.rs:240-256, 262-275, 280-289. *)
  Definition sum64 (l : list N) : N := fold_left (fun a x => (a + x) mod 2 ^ 64) l 0.
  (** [.len()]. Used at work_package.rs:239-276. *)
  Definition len {A} (l : list A) : N := N.of_nat (length l).
  (** work_package.rs:239-257 validate_data_references_count. *)
  Definition counts_ok (k : package) : bool :=
    (sum64 (map i_exports (p_items k)) <=? 3072)
    && (sum64 (map (fun w => len (i_imports w)) (p_items k)) <=? 3072)
    && (sum64 (map (fun w => len (i_xts w)) (p_items k)) <=? 128).
  (** work_package.rs:260-276 validate_work_bundle_size. *)
  Definition size_ok (k : package) : bool :=
    let total := sum64 (map (fun w => ((len (i_payload w) + (len (i_imports w) * 4488) mod 2 ^ 64) mod 2 ^ 64 + sum64 (map snd (i_xts w))) mod 2 ^ 64) (p_items k)) in
    ((len (p_token k) + len (p_config k)) mod 2 ^ 64 + total) mod 2 ^ 64 <=? 13791360.
  (** work_package.rs:278-290 validate_gas_limits; [refine_gas] is REFINE_GAS_PER_WORK_PACKAGE, chain_spec/full.rs:37 and chain_spec/tiny.rs:40. *)
  Definition gas_ok (refine_gas : N) (k : package) : bool :=
    (sum64 (map i_acc_gas (p_items k)) <? 10000000) && (sum64 (map i_refine_gas (p_items k)) <? refine_gas).

  (** ** The auditable bundle: pvm/pvm-invocation/src/refine/auditable_bundle.rs *)
  (** auditable_bundle.rs:13-20 *)
  Record bundle := mk_bundle {
    b_package : package; b_xts : list (list bytes); b_imports : list (list bytes); b_paths : list (list (list bytes)) }.
  (** pvm/pvm-types/src/common.rs:11: a [FixedVec] of [u8], each element of which is written as an integer (codec/fr-codec/src/lib.rs:378-391, 221-241). *)
  Definition t_segment := TArr segment_size (TUint 8).
  (** [Vec<NodeHash>]: auditable_bundle.rs:19. *)
  Definition t_path := TVec 32 t_hash.
  (** auditable_bundle.rs:49-71 *)
  Definition encode_bundle (b : bundle) : result cerr bytes :=
    let! p := encode (t_package P) (b_package b) in
    let! s := encode_seq (encode_seq (encode t_segment)) (b_imports b) in
    let! j := encode_seq (encode_seq (encode t_path)) (b_paths b) in
    Ok (p ++ concat (concat (b_xts b)) ++ s ++ j).

  (** One decoder after another, as the loops of auditable_bundle.rs:84-116 do. *)
  Fixpoint decode_each {A} (ds : list (dec A)) : dec (list A) := fun inp =>
    match ds with
    | [] => Ok ([], inp)
    | d :: ds => let! (x, r) := d inp in let! (l, r) := decode_each ds r in Ok (x :: l, r)
    end.
  (** auditable_bundle.rs:74-125; [vec![0u8; blob_length]] is at most 4 GiB. *)
  Definition decode_bundle : dec bundle := fun inp =>
    let! (k, r) := decode (t_package P) inp in
    let! (xts, r) := decode_each (map (fun w => decode_each (map (fun x => read_exact_N (snd x)) (i_xts w))) (p_items k)) r in
    let! (imports, r) := decode_each (map (fun w => decode_seq (decode t_segment) (length (i_imports w))) (p_items k)) r in
    let! (paths, r) := decode_each (map (fun w => decode_seq (decode t_path) (length (i_imports w))) (p_items k)) r in
    Ok (mk_bundle k xts imports paths, r).
End Bundle.

(** ** Protocol constants: common/src/constants/constants_encoder.rs, common/src/constants/mod.rs, common/src/chain_spec/{full,tiny}.rs *)
(** The constants constants_encoder.rs:14-50 writes, under the letters of its comments. *)
Record constants := mk_constants {
  c_BI : N; c_BL : N; c_BS : N; c_C : N; c_D : N; c_E : N; c_GA : N; c_GI : N; c_GR : N; c_GT : N; c_H : N; c_I : N; c_J : N; c_K : N; c_L : N; c_N : N; c_O : N;
  c_P : N; c_Q : N; c_R : N; c_T : N; c_U : N; c_V : N; c_WA : N; c_WB : N; c_WC : N; c_WE : N; c_WM : N; c_WP : N; c_WR : N; c_WT : N; c_WX : N; c_Y : N }.
(** constants_encoder.rs:14-50 encode_constants_for_fetch_hostcall *)
Definition encode_constants (c : constants) : result cerr bytes :=
  encode_seq (fun x => encode_fixed (fst x) (snd x))
    [(c_BI c, 8%nat); (c_BL c, 8%nat); (c_BS c, 8%nat); (c_C c, 2%nat); (c_D c, 4%nat); (c_E c, 4%nat); (c_GA c, 8%nat); (c_GI c, 8%nat); (c_GR c, 8%nat);
     (c_GT c, 8%nat); (c_H c, 2%nat); (c_I c, 2%nat); (c_J c, 2%nat); (c_K c, 2%nat); (c_L c, 4%nat); (c_N c, 2%nat); (c_O c, 2%nat); (c_P c, 2%nat);
     (c_Q c, 2%nat); (c_R c, 2%nat); (c_T c, 2%nat); (c_U c, 2%nat); (c_V c, 2%nat); (c_WA c, 4%nat); (c_WB c, 4%nat); (c_WC c, 4%nat); (c_WE c, 4%nat);
     (c_WM c, 4%nat); (c_WP c, 4%nat); (c_WR c, 4%nat); (c_WT c, 4%nat); (c_WX c, 4%nat); (c_Y c, 4%nat)].
(** chain_spec/full.rs:1-54 and constants/mod.rs:30-114 *)
Definition full : constants := {|
  c_BI := 10; c_BL := 1; c_BS := 100; c_C := 341; c_D := 19200; c_E := 600; c_GA := 10000000; c_GI := 50000000; c_GR := 5000000000; c_GT := 3500000000;
  c_H := 8; c_I := 16; c_J := 8; c_K := 16; c_L := 14400; c_N := 2; c_O := 8; c_P := 6; c_Q := 80; c_R := 10; c_T := 128; c_U := 5; c_V := 1023;
  c_WA := 64000; c_WB := 13791360; c_WC := 4000000; c_WE := 684; c_WM := 3072; c_WP := 6; c_WR := 49152; c_WT := 128; c_WX := 3072; c_Y := 500 |}.
(** chain_spec/tiny.rs:1-60 and constants/mod.rs:30-114 *)
Definition tiny : constants := {|
  c_BI := 10; c_BL := 1; c_BS := 100; c_C := 2; c_D := 32; c_E := 12; c_GA := 10000000; c_GI := 50000000; c_GR := 1000000000; c_GT := 20000000;
  c_H := 8; c_I := 16; c_J := 8; c_K := 3; c_L := 24; c_N := 3; c_O := 8; c_P := 6; c_Q := 80; c_R := 4; c_T := 128; c_U := 5; c_V := 6;
  c_WA := 64000; c_WB := 13791360; c_WC := 4000000; c_WE := 4; c_WM := 3072; c_WP := 1026; c_WR := 49152; c_WT := 128; c_WX := 3072; c_Y := 10 |}.

(** ** The report of a package: pvm/pvm-invocation/src/refine/pipeline.rs:62-190 *)
(** The errors of pvm/pvm-invocation/src/error.rs:13-50 this function gives. *)
Inductive perr := PMachine (e : verr) | PNotAuthorized (f : wfail) | PTraceTooLarge | PTooManyLookups | PSpecs.
(** common/src/types/workloads/work_report.rs:424-465 *)
Record wreport (S : Type) := mk_wreport {
  wr_specs : S; wr_context : bytes; wr_core : N; wr_authorizer : bytes; wr_auth_gas : N; wr_trace : bytes; wr_lookup : list (bytes * bytes); wr_digests : list digest }.
Arguments mk_wreport {S}. Arguments wr_specs {S}. Arguments wr_context {S}. Arguments wr_core {S}. Arguments wr_authorizer {S}. Arguments wr_auth_gas {S}.
Arguments wr_trace {S}. Arguments wr_lookup {S}. Arguments wr_digests {S}.
(** The [?] of pipeline.rs:107, 150: an error of an invocation. *)
Definition machine_err {A} (r : result verr A) : result perr A := match r with Ok a => Ok a | Err e => Err (PMachine e) | Panic => Panic end.
(** The imports that name a package: pipeline.rs:65-76. *)
Definition package_imports (w : witem) : list bytes := map (fun x => snd (fst x)) (filter (fun x => fst (fst x)) (w_imports w)).

(** What the code leaves [unimplemented!()]: auditable_bundle.rs:127-147 and the end of pipeline.rs:62-82. *)
Record stubs := mk_stubs {
  st_imports : result perr (list (list bytes));                       (* construct_import_segments, auditable_bundle.rs:137-142 *)
  st_xts : result perr (xtinfo -> option bytes);                      (* construct_extrinsic_data_info_map, auditable_bundle.rs:127-129 *)
  st_bundle : result perr bytes;                                      (* the parts of build_auditable_bundle, auditable_bundle.rs:131-135, 144-157, encoded *)
  st_lookup : result perr (list (bytes * bytes)) }.                   (* pipeline.rs:81 *)
(** auditable_bundle.rs:127-147 and pipeline.rs:81 as they stand: [unimplemented!()] panics. *)
Definition unimplemented : stubs := mk_stubs Panic Panic Panic Panic.

Section Report.
  Context {S : Type}.
  Variable H : bytes -> bytes.                                             (* Blake2b256 *)
  Variable auth : result verr (N * wresult).                               (* IsAuthorizedInvocation::is_authorized on the package *)
  Variable run : rargs -> result verr (N * wresult * list bytes).          (* RefineInvocation::refine *)
  Variable specs : bytes -> list bytes -> result perr S.                   (* build_avail_specs on the encoded bundle and the exports *)

  (** pipeline.rs:62-82 build_segment_roots_lookup_table *)
  Definition lookup_table (s : stubs) (k : pkg) : result perr (list (bytes * bytes)) :=
    if 8 <? N.of_nat (length (concat (map package_imports (k_items k)))) then Err PTooManyLookups else st_lookup s.
  (** pipeline.rs:94-190 compute_work_report; its loop over the items is [report_items] of Refine_Model. The arguments of each refinement are put together
      first (:131-141). [WorkDigests] holds 16 digests and a package 16 items, so that [try_push] (:170-172) does not fail. *)
  Definition compute_work_report (s : stubs) (k : pkg) (core : N) : result perr (wreport S) :=
    let! (auth_gas, r) := machine_err auth in
    match r with
    | WError f => Err (PNotAuthorized f)
    | WOutput trace =>
        if OUTPUT_LIMIT <? N.of_nat (length trace) then Err PTraceTooLarge
        else
          let! (ds, exports) :=
            match k_items k with
            | [] => Ok ([], [])
            | _ :: _ =>
                let! imports := st_imports s in
                let! xts := st_xts s in
                machine_err (report_items (fun i offset => run (mk_rargs core i k trace imports offset xts)) H (k_items k) 0 0 (N.of_nat (length trace)))
            end in
          let! bundle := st_bundle s in
          let! sp := specs bundle exports in
          let! lookup := lookup_table s k in
          Ok (mk_wreport sp (k_context k) core (H (k_auth k ++ k_config k)) auth_gas trace lookup ds)
    end.
End Report.
