(** Shared vocabulary of the model: results with an explicit panic value, bytes, little-endian numbers. *)
From Coq Require Export List NArith ZArith Lia Bool Arith.
From Coq Require Export ZifyBool ZifyNat ZifyN.
Export ListNotations.
Set Implicit Arguments.

(** Outcome of a Rust call: [Ok], a returned [Err], or a panic (index out of range, arithmetic
    overflow in a checked position, [unwrap] on [None], [capacity overflow] …). *)
Inductive result (E A : Type) : Type :=
| Ok (a : A)
| Err (e : E)
| Panic.
Arguments Ok {E A} _.
Arguments Err {E A} _.
Arguments Panic {E A}.

Definition bind {E A B} (r : result E A) (f : A -> result E B) : result E B :=
  match r with Ok a => f a | Err e => Err e | Panic => Panic end.
Notation "'let!' x ':=' r 'in' k" := (bind r (fun x => k))
  (at level 200, x pattern, r at level 100, k at level 200, right associativity).

Definition is_ok {E A} (r : result E A) : bool := match r with Ok _ => true | _ => false end.

(** A byte is a number below 256. *)
Definition bytes := list N.
Definition is_byte (b : N) : Prop := (b < 256)%N.
Definition Bytes (l : bytes) : Prop := Forall is_byte l.

(** Little-endian digits of [x], [n] of them (Rust [to_le_bytes] truncated to [n] bytes). *)
Fixpoint le_bytes (n : nat) (x : N) : bytes :=
  match n with
  | O => []
  | S n' => (x mod 256)%N :: le_bytes n' (x / 256)%N
  end.

(** The number denoted by little-endian digits. *)
Fixpoint le_val (bs : bytes) : N :=
  match bs with
  | [] => 0%N
  | b :: bs' => (b + 256 * le_val bs')%N
  end.
