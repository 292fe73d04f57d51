(** What erasure coding is to do, said without its code. *)
From Verif Require Import Base Erasure_Model.
Set Implicit Arguments.

(** The two octets at position [pos] of a chunk. *)
Definition word (c : bytes) (pos : nat) : bytes := [nth (2 * pos) c 0%N; nth (2 * pos + 1) c 0%N].

(** The data with the fewest zeros after it that make it a whole number of words in each of [m] chunks. *)
Definition padded (m : nat) (data d : bytes) : Prop :=
  exists z, d = data ++ repeat 0%N z /\ Nat.divide (2 * m) (length d) /\ z < 2 * m.

(** What is asked of the Reed–Solomon crate with [m] original and [r] recovery words. A codeword is the original
    words followed by the recovery words; *)
Definition codeword {reed} (rs : reed_solomon reed) (ws cw : list bytes) : Prop :=
  exists rec, rs_encode rs ws = Ok rec /\ cw = ws ++ rec.
(** encoding gives as many words as it should, and any [m] words of a codeword give back the rest of the
    original ones. *)
Record reed_solomon_code {reed} (rs : reed_solomon reed) (m r : nat) : Prop := {
  rc_encodes : forall ws, length ws = m -> Forall (fun w => length w = 2) ws ->
    exists rec, rs_encode rs ws = Ok rec /\ length rec = r /\ Forall (fun w => length w = 2) rec;
  rc_decodes : forall ws cw (kept : list nat),
    length ws = m -> Forall (fun w => length w = 2) ws -> codeword rs ws cw ->
    NoDup kept -> (forall i, In i kept -> i < m + r) -> m <= length kept ->
    forall original recovery,
      original = map (fun i => (i, nth i cw [])) (filter (fun i => i <? m) kept) ->
      recovery = map (fun i => (i - m, nth i cw [])) (filter (fun i => negb (i <? m)) kept) ->
      exists restored, rs_decode rs original recovery = Ok restored /\
        forall i w, In (i, w) restored <-> (i < m /\ ~ In i kept /\ w = nth i ws []) }.

(** The chunks with some of them lost. *)
Definition lose (keep : nat -> bool) (chunks : list bytes) : list (option bytes) :=
  map (fun ic => if keep (fst ic) then Some (snd ic) else None) (combine (seq 0 (length chunks)) chunks).
(** How many of [n] chunks are kept. *)
Definition kept (keep : nat -> bool) (n : nat) : nat := length (filter keep (seq 0 n)).
Definition present (chunks : list (option bytes)) : nat :=
  length (filter (fun c => match c with Some _ => true | None => false end) chunks).

(** A code of the kind asked for: two words and their sum. *)
Definition sum_word (a b : bytes) : bytes := map (fun xy => N.lxor (fst xy) (snd xy)) (combine a b).
Definition parity : reed_solomon unit := {|
  rs_encode := fun ws => match ws with [a; b] => Ok [sum_word a b] | _ => Err tt end;
  rs_decode := fun original recovery =>
    match original, recovery with
    | [(0, a)], (_, s) :: _ => Ok [(1, sum_word a s)]
    | [(_, b)], (_, s) :: _ => Ok [(0, sum_word b s)]
    | [_; _], _ => Ok []
    | _, _ => Err tt
    end |}.
