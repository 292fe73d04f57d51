(** Independent specification of the codec.

    The integer code of the Graypaper (general natural number serialization):
      E(0) = [0]
      E(x) = [2^8 - 2^(8-l) + floor(x / 2^(8l))] ++ E_l(x mod 2^(8l))   if 2^(7l) <= x < 2^(7(l+1)), l < 8
      E(x) = [2^8 - 1] ++ E_8(x)                                        if 2^56 <= x < 2^64
    where E_l is the l-byte little-endian form. *)
From Verif Require Import Base Codec_Model.
Open Scope N_scope.

Inductive gp_int : N -> bytes -> Prop :=
| gp_zero : gp_int 0 [0]
| gp_small : forall l x, l < 8 -> 2 ^ (7 * l) <= x < 2 ^ (7 * (l + 1)) ->
    gp_int x ((2 ^ 8 - 2 ^ (8 - l) + x / 2 ^ (8 * l)) :: le_bytes (N.to_nat l) (x mod 2 ^ (8 * l)))
| gp_big : forall x, 2 ^ 56 <= x < 2 ^ 64 -> gp_int x (255 :: le_bytes 8 x).

(** Number of bytes the specification uses. *)
Inductive gp_int_len : N -> N -> Prop :=
| gpl_zero : gp_int_len 0 1
| gpl_small : forall l x, l < 8 -> 2 ^ (7 * l) <= x < 2 ^ (7 * (l + 1)) -> gp_int_len x (l + 1)
| gpl_big : forall x, 2 ^ 56 <= x < 2 ^ 64 -> gp_int_len x 9.

(** Strictly increasing with respect to a three-way comparison. *)
Definition increasing {A} (c : A -> A -> comparison) (l : list A) : Prop :=
  forall i j x y, (i < j)%nat -> nth_error l i = Some x -> nth_error l j = Some y -> c x y = Lt.

(** Types that exist in Rust: integer widths are at most 64 bits, fixed widths fit the type, enum tags
    fit one byte. *)
Fixpoint ty_ok (t : ty) : Prop :=
  match t with
  | TUint w => 1 <= w <= 64
  | TFix w k => w <= 64 /\ 8 * N.of_nat k <= w
  | TTagged k t => k < 256 /\ ty_ok t
  | TBitsFix n => n <= bitvec_max_bits
  | TOption t | TArr _ t | TVec _ t | TLim _ _ t | TSet t => ty_ok t
  | TMap k v => ty_ok k /\ ty_ok v
  | TPair a b => ty_ok a /\ ty_ok b
  | _ => True
  end.

(** Values that exist in Rust: integers within range, bytes are bytes, arrays have their size, vectors fit
    in memory (capacity limit isize::MAX bytes) and respect their bound, maps and sets are ordered. *)
Fixpoint wf (t : ty) : interp t -> Prop :=
  match t return interp t -> Prop with
  | TUnit | TBool => fun _ => True
  | TUint w => fun x => x < 2 ^ w
  | TFix _ k => fun x => x < 2 ^ (8 * N.of_nat k)
  | TByteArr n => fun b => Bytes b /\ length b = n
  | TOctets => fun b => Bytes b /\ N.of_nat (length b) <= isize_max
  | TTagged k t => fun r => match r with inl v => wf t v | inr i => 1 <= i <= k end
  | TIdx15 => fun p => snd p < 2 ^ 15
  | TOption t => fun o => match o with None => True | Some v => wf t v end
  | TArr n t => fun l => Forall (wf t) l /\ length l = n
  | TVec esz t => fun l =>
      Forall (wf t) l /\ N.of_nat (length l) < 2 ^ 64 /\ N.of_nat (length l) * esz <= isize_max
  | TLim esz max t => fun l =>
      Forall (wf t) l /\ N.of_nat (length l) < 2 ^ 64 /\ N.of_nat (length l) * esz <= isize_max
      /\ N.of_nat (length l) <= max
  | TBits => fun l => N.of_nat (length l) <= bitvec_max_bits
  | TBitsFix n => fun l => N.of_nat (length l) = n
  | TSet t => fun l => Forall (wf t) l /\ N.of_nat (length l) < 2 ^ 64 /\ increasing (cmp t) l
  | TMap k v => fun m =>
      Forall (fun p => wf k (fst p) /\ wf v (snd p)) m /\ N.of_nat (length m) < 2 ^ 64
      /\ increasing (cmp k) (map fst m)
  | TPair a b => fun p => wf a (fst p) /\ wf b (snd p)
  end.

(** The fragment without variable-length discriminators, on which decoding is canonical. *)
Fixpoint rigid (t : ty) : Prop :=
  match t with
  | TUnit | TBool | TFix _ _ | TByteArr _ | TIdx15 => True
  | TBitsFix n => n mod 8 = 0
  | TOption t | TArr _ t => rigid t
  | TPair a b => rigid a /\ rigid b
  | _ => False
  end.

(** The fragment whose [size_hint] is exact. *)
Fixpoint exact_hint (t : ty) : Prop :=
  match t with
  | TBits | TMap _ _ | TSet _ => False
  | TTagged k t => k < 128 /\ exact_hint t
  | TOption t | TArr _ t | TVec _ t | TLim _ _ t => exact_hint t
  | TPair a b => exact_hint a /\ exact_hint b
  | _ => True
  end.
