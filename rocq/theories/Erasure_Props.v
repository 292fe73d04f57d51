(** Property C43. *)
From Verif Require Import Base Erasure_Model Erasure_Spec Erasure_Proofs.

(** Encoding never fails: it gives [total] chunks of equal length, a whole number of words. The first [msg] put
    together are the padded data, and at every position the chunks' words are a codeword. Any [msg] of the
    chunks, whichever, give the padded data back. *)
Theorem erasure_roundtrip : forall reed (rs : reed_solomon reed) total msg,
  0 < msg -> msg <= total -> reed_solomon_code rs msg (total - msg) ->
  forall data, exists d k chunks,
    padded msg data d /\ length d = msg * (2 * k) /\ erasure_encode rs total msg data = Ok chunks /\
    length chunks = total /\ (forall c, In c chunks -> length c = 2 * k) /\
    concat (firstn msg chunks) = d /\
    (forall pos, pos < k -> codeword rs (map (fun c => word c pos) (firstn msg chunks)) (map (fun c => word c pos) chunks)) /\
    (forall keep, msg <= kept keep total -> erasure_recover rs msg (lose keep chunks) = Ok d).
Proof. exact encode_layout. Qed.
Print Assumptions erasure_roundtrip.

(** The padding is the same for all, so the data are determined up to zeros at the end. *)
Theorem padding_unique : forall msg data d d', 0 < msg -> padded msg data d -> padded msg data d' -> d = d'.
Proof. intros msg data d d' M A B. exact (padded_one M (le_n msg) A B). Qed.
Print Assumptions padding_unique.

(** With fewer chunks recovery says how many there are and how many are needed, whatever is in them. *)
Theorem recover_insufficient : forall reed (rs : reed_solomon reed) msg chunks, present chunks < msg ->
  erasure_recover rs msg chunks = Err (InsufficientChunks (present chunks) msg).
Proof. exact insufficient. Qed.
Print Assumptions recover_insufficient.

(** Chunks of different lengths, as a peer may send them, stop the program or are taken for the shortest. *)
Theorem recover_uneven_refuted : exists (rs : reed_solomon unit),
  reed_solomon_code rs 2 1 /\
  erasure_recover rs 2 [Some [1; 2]; Some []; None]%N = Panic /\
  erasure_recover rs 2 [Some []; Some [1; 2]; None]%N = Ok [] /\
  erasure_recover rs 2 [Some [1; 2; 3]; Some [4; 5; 6]; None]%N = Ok [1; 2; 0; 4; 5; 0]%N.
Proof. exists parity. split; [exact parity_code|]. repeat split. Qed.
Print Assumptions recover_uneven_refuted.

(** Chunks of one length never stop it, whatever is in them and however many there are, if the crate does not stop
    and restores words of two octets with the index of an original chunk. *)
Theorem recover_no_panic_partial : forall reed (rs : reed_solomon reed) msg len chunks, 0 < msg ->
  (forall o r, rs_decode rs o r <> Panic) ->
  (forall o r l i w, rs_decode rs o r = Ok l -> In (i, w) l -> i < msg /\ length w = 2) ->
  (forall c, In (Some c) chunks -> length c = len) ->
  erasure_recover rs msg chunks <> Panic.
Proof. exact recover_total. Qed.
Print Assumptions recover_no_panic_partial.
(** A crate that does so: it always refuses. *)
Example refusing_crate : let rs := {| rs_encode := fun _ => Err tt; rs_decode := fun _ _ => Err tt |} in
  (forall o r, rs_decode rs o r <> Panic) /\ erasure_recover rs 1 [Some [1; 2]%N] = Err (ReedSolomonError tt).
Proof. split; [discriminate|reflexivity]. Qed.

(** Five octets over two chunks of four and one of parity; the second is lost. *)
Example erasure_case :
  reed_solomon_code parity 2 1 /\
  erasure_encode parity 3 2 [1; 2; 3; 4; 5]%N = Ok [[1; 2; 3; 4]; [5; 0; 0; 0]; [4; 2; 3; 4]]%N /\
  kept (fun i => negb (i =? 1)) 3 = 2 /\
  erasure_recover parity 2 (lose (fun i => negb (i =? 1)) [[1; 2; 3; 4]; [5; 0; 0; 0]; [4; 2; 3; 4]]%N)
    = Ok [1; 2; 3; 4; 5; 0; 0; 0]%N /\
  erasure_recover parity 2 [None; Some [9; 9]; None]%N = Err (InsufficientChunks 1 2).
Proof. split; [exact parity_code|]. repeat split. Qed.
