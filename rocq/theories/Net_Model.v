(** Announcing, requesting and serving blocks, the streams of a connection, and dialling the peers: network/src, storage/src/node_storage.rs.
    Left out: QUIC itself (a stream is what its reader gets, chunk by chunk), certificates (every certificate is accepted, network/src/certs/dangerous_verifier.rs), logging,
    database errors and caching (C36); a map is the list of its entries. *)
From Verif Require Import Base Codec_Model Block_Model.
Open Scope N_scope.

(** network/src/types.rs:6 *)
Definition chunk_size : nat := 1024.
(** Equality of 32-byte hashes and keys, common/src/types/mod.rs:222 *)
Definition same (a b : bytes) : bool := if list_eq_dec N.eq_dec a b then true else false.
(** A database column (block/src/header_db.rs:83-98, block/src/xt_db.rs:43-50): reading *)
Fixpoint col_get {A : Type} (c : list (bytes * A)) (k : bytes) : option A :=
  match c with [] => None | (k', a) :: r => if same k' k then Some a else col_get r k end.
(** … and writing (header_db.rs:91-98, xt_db.rs:48-51) *)
Definition col_set {A : Type} (c : list (bytes * A)) (k : bytes) (a : A) : list (bytes * A) := (k, a) :: c.

Section Net.
  Variable P : params.
  Variable H : bytes -> bytes.   (* Blake2b-256, opaque *)
  (** block/src/types/block.rs:145-150 *)
  Definition header : Set := interp (t_header P).
  (** block/src/types/extrinsics/mod.rs:51-59 *)
  Definition xts : Set := interp (t_extrinsics P).
  (** block/src/types/block.rs:31-34 *)
  Definition block : Set := interp (t_block P).
  (** block/src/types/block.rs:257-259 *)
  Definition xt_hash_of (h : header) : bytes := fst (snd (snd (fst h))).
  (** block/src/types/block.rs:261-263 *)
  Definition slot_of (h : header) : N := fst (snd (snd (snd (fst h)))).

  (** ** Announcements *)
  (** network/src/types.rs:8-13 (BlockAnnouncement) *)
  Definition t_announcement := t_header P ** t_hash ** TUint 32.
  (** block/src/types/block.rs:238-245 *)
  Definition announcement_blob (h : header) : result cerr bytes :=
    let! b := encode (t_header P) h in
    let! x := header_hash P H h in
    Ok (b ++ x ++ integer_encode (slot_of h)).
  (** The loop of network/src/streams/up_streams.rs:61-121 over the chunks read: the hashes whose blocks it requests. Only a chunk's first announcement is decoded; a chunk that
      does not decode is dropped (:70-73); a panicking decoder ends the task. *)
  Fixpoint heard (chunks : list bytes) : list bytes :=
    match chunks with
    | [] => []
    | c :: r => match decode t_announcement c with Ok ((_, (x, _)), _) => x :: heard r | Err _ => heard r | Panic => [] end
    end.

  (** ** Serving blocks *)
  (** storage/src/node_storage.rs:33-38: the two columns read by requests *)
  Record store := mk_store { s_headers : list (bytes * header); s_xts : list (bytes * xts) }.
  (** storage/src/node_storage.rs:16-30, the two errors of :123-137 *)
  Inductive nerr := NoHeader | NoXts.
  (** storage/src/node_storage.rs:123-137 *)
  Definition get_block (s : store) (x : bytes) : result nerr block :=
    match col_get (s_headers s) x with
    | None => Err NoHeader
    | Some h => match col_get (s_xts s) (xt_hash_of h) with None => Err NoXts | Some e => Ok (h, e) end
    end.
  (** storage/src/node_storage.rs:42-54; [unimplemented!()] panics *)
  Definition get_blocks (s : store) (x : bytes) (ascending : bool) (max : N) : result nerr (list block) :=
    if negb ascending && (max =? 1) then let! b := get_block s x in Ok [b] else Panic.
  (** network/src/streams/ce_streams/block_request.rs:15-20 *)
  Definition t_request := t_hash ** TBool ** TUint 32.
  (** What becomes of one incoming stream: handed to the announcement reader; answered; given up with a log line; the handling task panics; the handling task waits *)
  Inductive outcome := Listening | Replied (b : bytes) | Dropped | Crashed | Waiting. (* manager.rs:126-160 *)
  (** network/src/streams/ce_streams/responder.rs:25-49 with block_request.rs:49-66 and mod.rs:65-75, 107-114; [args]: the first chunk of the request *)
  Definition serve (s : store) (args : bytes) : outcome :=
    match decode t_request args with
    | Panic => Crashed
    | Err _ => Dropped
    | Ok ((x, (ascending, max)), _) =>
        match get_blocks s x ascending max with
        | Panic => Crashed
        | Err _ => Dropped
        | Ok bs => match encode_seq (encode (t_block P)) bs with Ok b => Replied b | Err _ => Dropped | Panic => Crashed end
        end
    end.

  (** ** Fetching a block *)
  (** up_streams.rs:84-90: the request sent for an announced hash *)
  Definition request_blob (x : bytes) : result cerr bytes := encode t_request (x, (false, 1)).
  (** block_request.rs:41-47; the fuel is the number of octets, a block takes at least one *)
  Fixpoint decode_response (fuel : nat) (b : bytes) : result cerr (list block) :=
    match fuel with
    | O => Ok []
    | S f => match decode (t_block P) b with Ok (k, r) => let! l := decode_response f r in Ok (k :: l) | Err _ => Ok [] | Panic => Panic end
    end.
  (** network/src/streams/ce_streams/mod.rs:41-62, 89-98 (one chunk is read) and up_streams.rs:91-100: the block sent to the importer. [chunk]: the first chunk of the reply, None
      when the stream ends without one (CeStreamRecvError); [blocks[0]] panics when there is none. The announced hash is not compared with the block's. *)
  Definition fetch (announced : bytes) (chunk : option bytes) : result unit block :=
    match chunk with
    | None => Err tt
    | Some c => match decode_response (S (length c)) c with Ok (k :: _) => Ok k | _ => Panic end
    end.

  (** ** What is stored *)
  (** The effects of a node's life on the two columns: the first half of authoring (node/src/roles/author.rs:344-356, also node/src/scheduler/chain_extension.rs:58-61), the second
      half (author.rs:175-182), an import (node/src/roles/importer.rs:168-172 with block/src/header_db.rs:123-136) *)
  Inductive deed := CommitHeader (h : header) | CommitState (b : block) | Import (b : block). (* chain_extension.rs:33-90, importer.rs:155-175 *)
  (** block/src/header_db.rs:91-98, 123-136 and block/src/xt_db.rs:48-51; a header that does not encode has no hash and the operation fails *)
  Definition done (s : store) (d : deed) : store :=
    match d with
    | CommitHeader h => match header_hash P H h with Ok x => mk_store (col_set (s_headers s) x h) (s_xts s) | _ => s end
    | CommitState b => mk_store (s_headers s) (col_set (s_xts s) (xt_hash_of (fst b)) (snd b))
    | Import b => match header_hash P H (fst b) with Ok x => mk_store (col_set (s_headers s) x (fst b)) (s_xts s) | _ => s end
    end.
  (** Extrinsics::default() *)
  Definition no_xts : xts := ([], ([], ([], ([], ([], ([], [])))))). (* block/src/types/extrinsics/mod.rs:51-59 *)
  (** node/src/jam_node/init.rs:19-31, on an empty database *)
  Definition genesis_store (g : header) : store :=
    mk_store (match header_hash P H g with Ok x => [(x, g)] | _ => [] end) [(repeat 0 32, no_xts)].

  (** ** The streams of a connection *)
  (** An incoming stream as its reader sees it: the kind octet, or the stream ends without one, or neither happens; the same for the first chunk after it. manager.rs:116-123,
      responder.rs:25-36 *)
  Inductive input (A : Type) := Got (a : A) | Ended | Silent.
  Arguments Got {A} a. Arguments Ended {A}. Arguments Silent {A}.
  (** manager.rs:95, 309 *)
  Definition stream : Type := input N * input bytes.
  (** network/src/streams/stream_kinds.rs:11-18, 26-41, 66-103: UP 0, CE 128 … 145 without 130 *)
  Definition kind_known (k : N) : bool := (k =? 0) || ((128 <=? k) && (k <=? 145) && negb (k =? 130)).
  (** manager.rs:126-160 and 309-343 for one stream, responder.rs:17-54 *)
  Definition stream_outcome (s : store) (t : stream) : outcome :=
    match fst t with
    | Silent => Waiting
    | Ended => Dropped
    | Got k =>
        if negb (kind_known k) then Dropped
        else if k =? 0 then Listening
        else if k =? 128 then match snd t with Silent => Waiting | Ended => Dropped | Got a => serve s a end
        else Crashed
    end.
  (** manager.rs:95-113: the accepting side gives every stream a task of its own *)
  Definition acceptor (s : store) (ts : list stream) : list outcome := map (stream_outcome s) ts.
  (** manager.rs:308-344: the dialling side handles them one after another in a single task; what it does not reach is left out *)
  Fixpoint initiator (s : store) (ts : list stream) : list outcome :=
    match ts with
    | [] => []
    | t :: r => match stream_outcome s t with Crashed => [Crashed] | Waiting => [Waiting] | o => o :: initiator s r end
    end.
End Net.
Arguments Got {A} a. Arguments Ended {A}. Arguments Silent {A}.
Arguments s_headers {P} _. Arguments s_xts {P} _. Arguments mk_store {P} _ _.
Arguments CommitHeader {P} h. Arguments CommitState {P} b. Arguments Import {P} b.

(** ** Dialling *)
(** The derived order of Ed25519 keys, crypto/src/types/public_keys.rs:13-30 *)
Definition key_lt (a b : bytes) : bool := match cmp_list N.compare a b with Lt => true | _ => false end.
(** network/src/utils.rs:8-17; keys have 32 octets *)
Definition preferred (a b : bytes) : bytes := if xorb (xorb (127 <? nth 31 a 0) (127 <? nth 31 b 0)) (key_lt a b) then a else b.
(** network/src/peers.rs:91-117: key and socket address (IPv6 and port, here as the 18 octets of the metadata, crypto/src/types/validator_keys.rs:38-46); the connection is separate *)
Record peer := mk_peer { p_key : bytes; p_addr : bytes }.
(** network/src/utils.rs:19-34 and manager.rs:46-71: validators are peers by address, a later one replaces an earlier one with its address; the node itself and the zero address
    are left out. The maps' order is immaterial (newest first here). *)
Definition put_peer (m : list (bytes * peer)) (p : peer) : list (bytes * peer) := (p_addr p, p) :: filter (fun e => negb (same (fst e) (p_addr p))) m.
(** manager.rs:46-71 *)
Definition load_peers (own : bytes) (past active staging : list peer) : list peer :=
  filter (fun p => negb (same (p_addr p) own) && negb (same (p_addr p) (repeat 0 18))) (map snd (fold_left put_peer (past ++ active ++ staging) [])).
(** manager.rs:211-216 *)
Definition dials_first (me : bytes) (connected : peer -> bool) (p : peer) : bool := negb (connected p) && negb (same me (p_key p)) && same me (preferred me (p_key p)).
(** manager.rs:228-230 *)
Definition dials_later (me : bytes) (connected : peer -> bool) (p : peer) : bool := negb (connected p) && negb (same me (p_key p)).
(** node/src/jam_node/mod.rs:95-115 with manager.rs:205-272: all of a round's peers are dialled at the same time, the round fails when one of them does not answer, and the second
    round takes place only after a first that did not fail. [before], [between]: the peers that had connected by themselves at the start and after the pause; result: the peers dialled *)
Definition dialled (me : bytes) (peers : list peer) (answers before between : peer -> bool) : list peer :=
  let first := filter (dials_first me before) peers in
  if forallb answers first then first ++ filter (dials_later me (fun p => existsb (fun q => same (p_addr q) (p_addr p)) first || between p)) peers else first.
