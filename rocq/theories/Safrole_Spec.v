(** Specification vocabulary for the Safrole properties. *)
From Verif Require Import Base Safrole_Model.
From Coq Require Import Permutation Sorted.

(** [h] consists of the min(E, n) tickets of [submitted] with the smallest ids. *)
Definition best (E : N) (submitted h : list ticket) : Prop :=
  exists dropped, Permutation submitted (h ++ dropped) /\
    N.of_nat (length h) = N.min E (N.of_nat (length submitted)) /\
    (forall x y, In x h -> In y dropped -> (tid x <= tid y)%N).

(** Position i of the outside-in arrangement of n elements. *)
Definition outside_in_index (n i : nat) : nat := if Nat.even i then i / 2 else n - 1 - i / 2.

(** A history of accepted blocks, imported at any clock values, with the header markers each one carries. *)
Inductive chain (E D : N) (H : bytes -> bytes) (ring_of : list vkey -> bytes) (V : nat) (s0 : sstate)
  : list sblock -> sstate -> list (N * markers) -> Prop :=
| chain_nil : chain E D H ring_of V s0 [] s0 []
| chain_snoc : forall bs s log now b s' m, chain E D H ring_of V s0 bs s log ->
    step E D H ring_of V now s b = Ok (s', m) ->
    chain E D H ring_of V s0 (bs ++ [b]) s' (log ++ [(b_slot b, m)]).

(** A start state: before the end of the ticket contest of its epoch (genesis is at phase 0), with a well-formed accumulator. *)
Definition start_ok (E D : N) (s0 : sstate) : Prop :=
  (phase E (s_slot s0) < D)%N /\ (N.of_nat (length (s_acc s0)) <= E)%N /\
  StronglySorted (fun x y => tid x <= tid y)%N (s_acc s0).
