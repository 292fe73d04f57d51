(** What the availability commitments are to say. *)
From Verif Require Import Base Erasure_Model Erasure_Spec Merkle_Model Merkle_Spec Avail_Model.
Set Implicit Arguments.

(** What validator [j] is given: its chunk of the bundle and its chunk of every segment. *)
Definition share (bchunks : list bytes) (segs : list (list bytes)) (j : nat) : bytes * list bytes :=
  (nth j bchunks [], map (fun cs => nth j cs []) segs).

Section S.
  Variable H : bytes -> bytes.
  (** The leaf of the erasure tree for a share. *)
  Definition share_leaf (s : bytes * list bytes) : bytes := H (fst s) ++ wb_root H (snd s).
  (** The octet strings hashed on the way from [n] shares to the erasure root. *)
  Definition hashed (n : nat) (bchunks : list bytes) (segs : list (list bytes)) (s : bytes) : Prop :=
    In s bchunks \/
    (exists j, j < n /\ wb_hashes H (snd (share bchunks segs j)) s) \/
    wb_hashes H (map (fun j => share_leaf (share bchunks segs j)) (seq 0 n)) s.
End S.

(** The erasure root of a bundle and its exported segments: the bundle is padded with zeros to whole chunks, a proof page
    of one segment's size is made for every 64 exports, every one of these is erasure coded, and the root is that of
    the validators' shares. [segment] octets are a segment, [2 * msg] the smallest erasure-coded piece. *)
Section R.
  Variable reed : Type.
  Variable rs : reed_solomon reed.
  Variable H : bytes -> bytes.
  Variables validators msg segment : nat.
  Record root_of (bundle : bytes) (exports : list bytes) (padded : bytes) (proofs : list bytes)
      (bchunks : list bytes) (segs : list (list bytes)) (root : bytes) : Prop := {
    ro_root : compute_erasure_root rs H validators msg (2 * msg) segment bundle exports = Ok root;
    ro_padded : exists z, padded = bundle ++ repeat 0%N z;
    ro_size : Nat.divide (2 * msg) (length padded);
    ro_proofs : generate_paged_proofs reed H segment exports = Ok proofs;
    ro_count : length proofs = pages (length exports);
    ro_each : Forall (fun p : bytes => length p = segment) proofs;
    ro_bundle : erasure_encode rs validators msg padded = Ok bchunks;
    ro_segments : Forall2 (fun d cs => erasure_encode rs validators msg d = Ok cs) (exports ++ proofs) segs;
    ro_is : root = wb_root H (map (fun j => share_leaf H (share bchunks segs j)) (seq 0 validators)) }.

End R.

(** A toy hash for the examples: the octets added up at 32 places. *)
Definition toy32 (x : bytes) : bytes :=
  map (fun i => (fold_left (fun a b => (a * 7 + b) mod 256) x (N.of_nat i)) mod 256)%N (seq 0 32).
