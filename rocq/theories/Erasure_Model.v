(** Erasure coding of data into chunks and back (common/erasure-coding/src/lib.rs). *)
From Verif Require Import Base.
Set Implicit Arguments.

(** lib.rs:8-16 ErasureCodingError; [reed] is the error type of the Reed–Solomon crate. *)
Inductive ecerr (reed : Type) :=
| InsufficientChunks (provided required : nat)
| ReedSolomonError (e : reed).
Arguments InsufficientChunks {reed}. Arguments ReedSolomonError {reed}.

(** The crate reed_solomon_simd, as one codeword at a time is used by lib.rs: 109-125 (an encoder is made, fed the
    original shards in order and asked for the recovery shards) and 181-213 (a decoder is made, fed shards with
    their indices and asked for the original shards it was not fed). Not modelled further: every theorem is for
    all such functions, and says what it needs of them. An error of [add_*_shard] is one of the whole call. *)
Record reed_solomon (reed : Type) := {
  rs_encode : list bytes -> result reed (list bytes);
  rs_decode : list (nat * bytes) -> list (nat * bytes) -> result reed (list (nat * bytes)) }.

Section Erasure.
  Variable reed : Type.
  Variable rs : reed_solomon reed.
  Variables total msg : nat.          (* lib.rs:29-36: total_chunks, msg_chunks *)
  Notation res A := (result (ecerr reed) A).

  (** [?] on an error of the crate, lib.rs:15. *)
  Definition reeds {A} (r : result reed A) : res A :=
    match r with Ok a => Ok a | Err e => Err (ReedSolomonError e) | Panic => Panic end.

  (** A slice [d[at..at+n]]; a panic out of range. Used at common/erasure-coding/src/lib.rs:112-121, 190-205. *)
  Definition cut {E} (d : bytes) (at_ n : nat) : result E bytes :=
    if length d <? at_ + n then Panic else Ok (firstn n (skipn at_ d)).

  (** Collecting fallible results in order; rayon's [collect] keeps the order of the range. Which of several
      errors is returned depends on the schedule there, the first is here. common/erasure-coding/src/lib.rs:106-134, 180-215. *)
  Fixpoint collect {E A B} (f : A -> result E B) (l : list A) : result E (list B) :=
    match l with
    | [] => Ok []
    | a :: l' => let! b := f a in let! bs := collect f l' in Ok (b :: bs)
    end.

  (** lib.rs:80-92. A division by zero when there are no message chunks and some data. *)
  Definition zero_pad_data (data : bytes) (m : nat) : res bytes :=
    if m =? 0 then match data with [] => Ok [] | _ => Panic end
    else if length data mod (m * 2) =? 0 then Ok data
    else
      let qt := length data / (m * 2) in
      let target := (qt + 1) * (m * 2) in
      Ok (data ++ repeat 0%N (target - length data)).

  (** lib.rs:139-146, 219-226: [table[idx][2*pos..2*pos+2].copy_from_slice(&word)]; panics out of range and on
      a word that is not of two octets. *)
  Definition put_word (c : bytes) (pos : nat) (w : bytes) : res bytes :=
    if orb (length c <? 2 * pos + 2) (negb (length w =? 2)) then Panic
    else Ok (firstn (2 * pos) c ++ w ++ skipn (2 * pos + 2) c).
  (** Part of lib.rs:139-146, 219-226. *)
  Definition put_at (table : list bytes) (pos idx : nat) (w : bytes) : res (list bytes) :=
    match nth_error table idx with
    | None => Panic
    | Some c => let! c' := put_word c pos w in Ok (firstn idx table ++ c' :: skipn (S idx) table)
    end.
  (** Part of lib.rs:139-146, 219-226. *)
  Fixpoint merge (table : list bytes) (ws : list (nat * nat * bytes)) : res (list bytes) :=
    match ws with
    | [] => Ok table
    | (pos, idx, w) :: ws' => let! t := put_at table pos idx w in merge t ws'
    end.

  (** lib.rs:112-121: the original words at one position of the chunks. *)
  Definition original_words (d : bytes) (k pos : nat) : res (list bytes) :=
    collect (fun i => cut d (2 * (pos + i * k)) 2) (seq 0 msg).

  (** lib.rs:106-134. *)
  Definition encode_word (d : bytes) (k pos : nat) : res (list (nat * nat * bytes)) :=
    let! ws := original_words d k pos in
    let! rec := reeds (rs_encode rs ws) in
    Ok (map (fun iw => (pos, fst iw, snd iw)) (combine (seq 0 msg) ws)
        ++ map (fun iw => (pos, msg + fst iw, snd iw)) (combine (seq 0 (length rec)) rec)).

  (** lib.rs:94-151 erasure_encode. *)
  Definition erasure_encode (data : bytes) : res (list bytes) :=
    let! d := zero_pad_data data msg in
    if msg =? 0 then Panic else
    let chunk_octets := length d / msg in
    let k := chunk_octets / 2 in
    let! wss := collect (encode_word d k) (seq 0 k) in
    merge (repeat (repeat 0%N chunk_octets) total) (concat wss).

  (** lib.rs:157-161: the chunks present, with their indices. *)
  Fixpoint indexed (i : nat) (chunks : list (option bytes)) : list (bytes * nat) :=
    match chunks with
    | [] => []
    | None :: l => indexed (S i) l
    | Some c :: l => (c, i) :: indexed (S i) l
    end.

  (** lib.rs:190-205: the word of every present chunk at one position. *)
  Definition words_at (present : list (bytes * nat)) (pos : nat) : res (list (nat * bytes)) :=
    collect (fun ci => let! w := cut (fst ci) (2 * pos) 2 in Ok (snd ci, w)) present.

  (** lib.rs:180-215; 71-77 shard_index_typed. *)
  Definition recover_word (present : list (bytes * nat)) (pos : nat) : res (list (nat * nat * bytes)) :=
    let! ws := words_at present pos in
    let original := filter (fun iw => fst iw <? msg) ws in
    let recovery := map (fun iw => (fst iw - msg, snd iw)) (filter (fun iw => negb (fst iw <? msg)) ws) in
    let! restored := reeds (rs_decode rs original recovery) in
    Ok (map (fun iw => (pos, fst iw, snd iw)) (original ++ restored)).

  (** lib.rs:153-230 erasure_recover. [chunks_indexed[0]] panics when no chunk is needed and none is present. *)
  Definition erasure_recover (chunks : list (option bytes)) : res bytes :=
    let present := indexed 0 chunks in
    if length present <? msg then Err (InsufficientChunks (length present) msg)
    else match present with
      | [] => Panic
      | (c0, _) :: _ =>
        let chunk_octets := length c0 in
        let k := chunk_octets / 2 in
        let! wss := collect (recover_word present) (seq 0 k) in
        let! t := merge (repeat (repeat 0%N chunk_octets) msg) (concat wss) in
        Ok (concat t)
      end.
End Erasure.
