(** Availability specifications: paged proofs and the erasure root (pvm/pvm-invocation/src/refine/avail_spec.rs). *)
From Verif Require Import Base Codec_Model LVec_Model Merkle_Model Erasure_Model.
Set Implicit Arguments.

(** The variants of PVMInvokeError these functions return. pvm/pvm-invocation/src/error.rs (PVMInvokeError), pvm/pvm-invocation/src/error.rs:13-50. *)
Inductive averr (reed : Type) :=
| AvErasure (e : ecerr reed)
| AvProofTooLarge                      (* PagedProofJustificationBlobTooLarge *)
| AvPad.                               (* zero_pad with a block of no octets panics; kept apart to be told apart *)
Arguments AvErasure {reed}. Arguments AvProofTooLarge {reed}. Arguments AvPad {reed}.

Section Avail.
  Variable reed : Type.
  Variable rs : reed_solomon reed.
  Variable H : bytes -> bytes.                  (* Blake2b256 *)
  Variables validators msg : nat.               (* VALIDATOR_COUNT = ERASURE_CODE_TOTAL_CHUNKS, ..._MESSAGE_CHUNKS *)
  Variables chunk_size segment_size : nat.      (* ERASURE_CHUNK_SIZE, SEGMENT_SIZE *)
  Notation res A := (result (averr reed) A).

  (** The [?] of avail_spec.rs:64-115: an error of the erasure-coding crate, or of zero_pad, becomes a PVMInvokeError. *)
  Definition erasing {A} (r : result (ecerr reed) A) : res A :=
    match r with Ok a => Ok a | Err e => Err (AvErasure e) | Panic => Panic end.
  (** The [?] of avail_spec.rs:64-115: an error of the erasure-coding crate, or of zero_pad, becomes a PVMInvokeError. *)
  Definition padding {A} (r : result unit A) : res A :=
    match r with Ok a => Ok a | _ => Panic end.

  (** The codec's Vec<Hash32>: a length and the hashes. codec/fr-codec/src/lib.rs (JamEncode for Vec), codec/fr-codec/src/lib.rs:324-334. *)
  Definition hashes_encode (l : list bytes) : bytes := integer_encode (N.of_nat (length l)) ++ concat l.

  (** avail_spec.rs:34-52, one page; [ExportDataSegment::try_from] of :54-60. *)
  Definition paged_proof (exports : list bytes) (page : nat) : res bytes :=
    let justification := single_page_justification H exports page 6 in
    let! leaves := padding (subtree_page_leaf_hashes H exports page 6) in
    let! octets := padding (zero_pad segment_size (hashes_encode justification ++ hashes_encode leaves)) in
    if Nat.eqb (length octets) segment_size then Ok octets else Err AvProofTooLarge.

  (** avail_spec.rs:18-62 generate_paged_proofs. (The code checks the sizes after making all pages; the error is the
      same.) *)
  Definition pages (n : nat) : nat := (n + 63) / 64.
  (** All pages in order: pvm/pvm-invocation/src/refine/avail_spec.rs:17-56. *)
  Definition generate_paged_proofs (exports : list bytes) : res (list bytes) :=
    collect (paged_proof exports) (seq 0 (pages (length exports))).

  (** avail_spec.rs:92-103: [segments_transposed[j][i] = chunk]. *)
  Definition put_chunk (t : list (list bytes)) (j i : nat) (c : bytes) : res (list (list bytes)) :=
    match nth_error t j with
    | None => Panic
    | Some row =>
        if Nat.ltb i (length row) then Ok (firstn j t ++ (firstn i row ++ c :: skipn (S i) row) :: skipn (S j) t) else Panic
    end.
  (** One segment's chunks: pvm/pvm-invocation/src/refine/avail_spec.rs:58-115, the inner loop at :98-102. *)
  Fixpoint put_chunks (t : list (list bytes)) (i j : nat) (cs : list bytes) : res (list (list bytes)) :=
    match cs with
    | [] => Ok t
    | c :: cs' => let! t' := put_chunk t j i c in put_chunks t' i (S j) cs'
    end.
  (** All segments: pvm/pvm-invocation/src/refine/avail_spec.rs:58-115, the outer loop at :97-103. *)
  Fixpoint put_segments (t : list (list bytes)) (i : nat) (segs : list (list bytes)) : res (list (list bytes)) :=
    match segs with
    | [] => Ok t
    | cs :: segs' => let! t' := put_chunks t i 0 cs in put_segments t' (S i) segs'
    end.

  (** avail_spec.rs:64-115 compute_erasure_root. [zip] stops at the shorter list. *)
  Definition compute_erasure_root (bundle : bytes) (exports : list bytes) : res bytes :=
    let! padded := padding (zero_pad chunk_size bundle) in
    let! bchunks := erasing (erasure_encode rs validators msg padded) in
    let bundle_chunked_hashed := map H bchunks in
    let! proof := generate_paged_proofs exports in
    let segments := exports ++ proof in
    let! chunked := collect (fun d => erasing (erasure_encode rs validators msg d)) segments in
    let! transposed := put_segments (repeat (repeat (repeat 0%N 12) (length segments)) validators) 0 chunked in
    let group_hashes := map (wb_root H) transposed in
    let paired := map (fun bs => fst bs ++ snd bs) (combine bundle_chunked_hashed group_hashes) in
    Ok (wb_root H paired).

  (** avail_spec.rs:117-147 build_avail_specs, the fields that depend on bundle and exports: [as u32] and [as u16]
      truncate. *)
  Record avail_specs := { av_length : N; av_erasure_root : bytes; av_segment_root : bytes; av_count : N }.
  (** pvm/pvm-invocation/src/refine/avail_spec.rs:117-142. *)
  Definition build_avail_specs (bundle : bytes) (exports : list bytes) : res avail_specs :=
    let! root := compute_erasure_root bundle exports in
    Ok {| av_length := (N.of_nat (length bundle) mod 2 ^ 32)%N; av_erasure_root := root;
          av_segment_root := cd_root H exports; av_count := (N.of_nat (length exports) mod 2 ^ 16)%N |}.
End Avail.
