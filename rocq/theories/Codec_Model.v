(** Model of the JAM codec, /repo/codec/fr-codec/src/lib.rs (non-test part, lines 1-738) and of the
    derive macros /repo/codec/fr-codec-derive/src/lib.rs (struct fields in declaration order). *)
From Verif Require Import Base.
Open Scope N_scope.

(** lib.rs:18-36 (JamCodecError); messages dropped. *)
Inductive cerr := InputError | ConversionError | InvalidSize | EncodingError.

(** A decoder takes the remaining input and returns the value and the new remaining input.
    ([JamInput for &[u8]], lib.rs:58-74.) *)
Definition dec (A : Type) := bytes -> result cerr (A * bytes).

(** lib.rs:59-69 [read] of [n] bytes: fails when fewer are left, otherwise advances. *)
Definition read_exact (n : nat) : dec bytes := fun inp =>
  if Nat.ltb (length inp) n then Err InputError else Ok (firstn n inp, skipn n inp).

(** The same with a machine-word length (compared before conversion, so it computes on huge lengths). lib.rs:59-69. *)
Definition read_exact_N (n : N) : dec bytes := fun inp =>
  if N.of_nat (length inp) <? n then Err InputError
  else Ok (firstn (N.to_nat n) inp, skipn (N.to_nat n) inp).

(** lib.rs:48-52 [read_byte]. *)
Definition read_byte : dec N := fun inp =>
  match inp with [] => Err InputError | b :: r => Ok (b, r) end.

(** [U::try_from(u64)] for an unsigned target of [w] bits (lib.rs:198,207,218,588). *)
Definition try_from (w : N) (x : N) : result cerr N :=
  if x <? 2 ^ w then Ok x else Err ConversionError.

(** lib.rs:116-173 [integer_encode_to]; [x] is the value already converted to u64.
    [ilog2] is [N.log2]; [quotient as u8] truncates modulo 256. *)
Definition integer_encode (x : N) : bytes :=
  if x =? 0 then [0]
  else if x <? 2 ^ 56 then
    let l := N.log2 x / 7 in
    let leading_ones := if l =? 0 then 0 else 2 ^ 8 - 2 ^ (8 - l) in
    let divisor := 2 ^ (8 * l) in
    let quotient := x / divisor in
    let remainder := x mod divisor in
    N.lor (leading_ones mod 256) (quotient mod 256)
      :: map (fun i => N.land (N.shiftr remainder (8 * N.of_nat i)) 255) (seq 0 (N.to_nat l))
  else 255 :: le_bytes 8 x.

(** lib.rs:175-188 [integer_size_hint]. *)
Definition integer_size_hint (x : N) : N :=
  if x =? 0 then 1 else if x <? 2 ^ 56 then N.log2 x / 7 + 1 else 9.

(** [u8::leading_ones]: number of consecutive set bits from bit 7 downwards. Used by lib.rs:190-219. *)
Fixpoint leading_ones_from (k : nat) (b : N) : N :=
  match k with
  | O => 0
  | S k' => if N.testbit b (N.of_nat k') then 1 + leading_ones_from k' b else 0
  end.
(** Used by lib.rs:190-219. *)
Definition leading_ones (b : N) : N := leading_ones_from 8 b.

(** lib.rs:584-587: the accumulation loop [value |= byte << (8*i)] for [i] in [i0..i0+n]. *)
Fixpoint decode_fixed_loop (n : nat) (i : N) (value : N) : dec N := fun inp =>
  match n with
  | O => Ok (value, inp)
  | S n' =>
      let! (b, r) := read_byte inp in
      decode_fixed_loop n' (i + 1) (N.lor value (N.shiftl b (8 * i))) r
  end.

(** lib.rs:575-589 [decode_fixed] at an unsigned type of [w] bits (w/8 bytes). *)
Definition decode_fixed (w : N) (size : nat) : dec N := fun inp =>
  if w / 8 <? N.of_nat size then Err InvalidSize
  else
    let! (value, r) := decode_fixed_loop size 0 0 inp in
    let! v := try_from w value in
    Ok (v, r).

(** lib.rs:557-569 [encode_to_fixed] for unsigned integers. *)
Definition encode_fixed (x : N) (size : nat) : result cerr bytes :=
  if Nat.ltb 8 size then Err InvalidSize
  else if 2 ^ (N.of_nat size * 8) - 1 <? x then Err ConversionError
  else Ok (firstn size (le_bytes 8 x)).

(** lib.rs:190-219 [integer_decode] into an unsigned type of [w] bits. *)
Definition integer_decode (w : N) : dec N := fun inp =>
  let! (first_byte, r) := read_byte inp in
  if first_byte =? 0 then let! v := try_from w 0 in Ok (v, r)
  else
    let length_prefix := leading_ones first_byte in
    if length_prefix =? 8 then
      let! (value, r') := decode_fixed 64 8 r in
      let! v := try_from w value in Ok (v, r')
    else
      let l := length_prefix in
      let mask := if 7 <=? l then 0 else N.shiftr 255 (l + 1) in
      let quotient := N.land first_byte mask in
      let! (remainder, r') := decode_fixed 64 (N.to_nat l) r in
      let value := N.lor (N.shiftl quotient (8 * l)) remainder in
      let! v := try_from w value in Ok (v, r').

(** ** Bit strings (lib.rs:640-706) *)

(** lib.rs:657-676: pack bits least-significant-first; a partial last octet is zero padded. *)
Fixpoint pack_bits_from (cur : N) (cnt : nat) (bits : list bool) : bytes :=
  match bits with
  | [] => if Nat.ltb 0 cnt then [cur] else []
  | b :: bs =>
      let cur' := if b then N.lor cur (N.shiftl 1 (N.of_nat cnt)) else cur in
      if Nat.eqb (S cnt) 8 then cur' :: pack_bits_from 0 0 bs
      else pack_bits_from cur' (S cnt) bs
  end.
(** Part of lib.rs:657-676. *)
Definition pack_bits (bits : list bool) : bytes := pack_bits_from 0 0 bits.

(** lib.rs:643-678 [encode_to_fixed] for [BitVec]. *)
Definition encode_bits_fixed (bits : list bool) (n : N) : result cerr bytes :=
  if N.of_nat (length bits) =? n then Ok (pack_bits bits) else Err InvalidSize.

(** The eight bits of an octet, least significant first (lib.rs:696-698). *)
Definition byte_bits (b : N) : list bool := map (fun i => N.testbit b (N.of_nat i)) (seq 0 8).

(** lib.rs:692-703: the read loop; [have] bits are already in the vector, [size] are wanted. *)
Fixpoint decode_bits_loop (nbytes : nat) (size : N) (acc : list bool) : dec (list bool) := fun inp =>
  match nbytes with
  | O => Ok (acc, inp)
  | S k =>
      let! (b, r) := read_byte inp in
      decode_bits_loop k size
        (acc ++ firstn (N.to_nat (N.min 8 (size - N.of_nat (length acc)))) (byte_bits b)) r
  end.

(** Largest bit length a [bitvec::BitVec] can be asked to hold: [with_capacity] panics above
    [BitSpan::REGION_MAX_BITS] = usize::MAX >> 3 (bitvec crate, external; used by lib.rs:688). *)
Definition bitvec_max_bits : N := 2 ^ 61 - 1.

(** lib.rs:684-705 [decode_fixed] for [BitVec]. *)
Definition decode_bits_fixed (size : N) : dec (list bool) := fun inp =>
  if bitvec_max_bits <? size then Panic
  else decode_bits_loop (N.to_nat ((size + 7) / 8)) size [] inp.

(** ** The grammar of encodable types

    [TUint w]      the compact integers u8/u16/u32/u64/usize             lib.rs:221-242
    [TFix w k]     a [w]-bit integer written with encode_fixed(k) (used by custom impls)   lib.rs:551-594
    [TByteArr n]   ByteArray<N>: raw bytes, no discriminator    common/src/types/mod.rs:258-280
    [TOctets]      ByteSequence: length discriminator + raw bytes     common/src/types/mod.rs:147-172
    [TTagged k t]  an enum whose variant 0 carries a [t] and whose variants 1..k are constant, tag written
                   as a compact u8 (WorkExecutionResult: k = 6)
                   common/src/types/workloads/work_report.rs:139-170, 197-237
    [TIdx15]       a 15-bit index whose 16th bit selects a variant, 2 bytes (ImportInfo)
                   common/src/types/workloads/work_package.rs:27-68
    [TBool]        lib.rs:244-266      [TOption]   lib.rs:268-298
    [TArr n]       [E; N] and FixedVec (no discriminator)                lib.rs:300-320, 378-409
    [TVec esz]     Vec<T>; [esz] = size_of::<T>() in memory              lib.rs:322-345
    [TLim esz max] LimitedVec<T,MAX>                                     lib.rs:347-376
    [TBits]        BitVec<u8,Lsb0> with bit-count discriminator          lib.rs:411-433
    [TBitsFix n]   BitVec through the fixed codec                        lib.rs:640-706
    [TMap]/[TSet]  BTreeMap / BTreeSet                                   lib.rs:435-503
    [TPair]/[TUnit] tuples and derived structs (nested to the right); Box<T> is T   lib.rs:505-638 *)
Inductive ty : Set :=
| TUnit
| TUint (w : N)
| TFix (w : N) (k : nat)
| TByteArr (n : nat)
| TOctets
| TTagged (k : N) (t : ty)
| TIdx15
| TBool
| TOption (t : ty)
| TArr (n : nat) (t : ty)
| TVec (esz : N) (t : ty)
| TLim (esz : N) (max : N) (t : ty)
| TBits
| TBitsFix (n : N)
| TMap (k v : ty)
| TSet (t : ty)
| TPair (a b : ty).

(** Rust values of a type. Maps and sets are the ordered sequences their iterators yield. The types of lib.rs:221-640, whose lines are listed at [ty]. *)
Fixpoint interp (t : ty) : Set :=
  match t with
  | TUnit => unit
  | TUint _ | TFix _ _ => N
  | TByteArr _ | TOctets => bytes
  | TTagged _ t => (interp t + N)%type
  | TIdx15 => (bool * N)%type
  | TBool => bool
  | TOption t => option (interp t)
  | TArr _ t | TVec _ t | TLim _ _ t | TSet t => list (interp t)
  | TBits | TBitsFix _ => list bool
  | TMap k v => list (interp k * interp v)
  | TPair a b => (interp a * interp b)%type
  end.

(** Lexicographic order, as [Ord] on sequences. Rust's [Ord] for keys, used by lib.rs:437-506. *)
Fixpoint cmp_list {A : Type} (c : A -> A -> comparison) (l1 l2 : list A) : comparison :=
  match l1, l2 with
  | [], [] => Eq
  | [], _ :: _ => Lt
  | _ :: _, [] => Gt
  | a :: l1', b :: l2' => match c a b with Eq => cmp_list c l1' l2' | r => r end
  end.
(** Rust's [Ord] for keys, used by lib.rs:437-506. *)
Definition cmp_bool (a b : bool) : comparison :=
  match a, b with false, true => Lt | true, false => Gt | _, _ => Eq end.
(** Rust's [Ord] for keys, used by lib.rs:437-506. *)
Definition cmp_pair {A B : Type} (ca : A -> A -> comparison) (cb : B -> B -> comparison)
  (p q : A * B) : comparison :=
  match ca (fst p) (fst q) with Eq => cb (snd p) (snd q) | r => r end.

(** The derived/standard [Ord] of the key types (declaration-order lexicographic). Used by lib.rs:437-506. *)
Fixpoint cmp (t : ty) : interp t -> interp t -> comparison :=
  match t return interp t -> interp t -> comparison with
  | TUnit => fun _ _ => Eq
  | TUint _ | TFix _ _ => N.compare
  | TByteArr _ | TOctets => cmp_list N.compare
  | TTagged _ t => fun a b =>
      match a, b with
      | inl x, inl y => cmp t x y | inl _, inr _ => Lt | inr _, inl _ => Gt | inr x, inr y => N.compare x y
      end
  | TIdx15 => cmp_pair cmp_bool N.compare
  | TBool => cmp_bool
  | TOption t => fun a b =>
      match a, b with
      | None, None => Eq | None, Some _ => Lt | Some _, None => Gt | Some x, Some y => cmp t x y
      end
  | TArr _ t | TVec _ t | TLim _ _ t | TSet t => cmp_list (cmp t)
  | TBits | TBitsFix _ => cmp_list cmp_bool
  | TMap k v => cmp_list (cmp_pair (cmp k) (cmp v))
  | TPair a b => cmp_pair (cmp a) (cmp b)
  end.

(** BTreeMap::insert / BTreeSet::insert on the ordered sequence. Used by lib.rs:472-476, 498-500. *)
Fixpoint map_insert {K V : Type} (c : K -> K -> comparison) (k : K) (v : V) (m : list (K * V))
  : list (K * V) :=
  match m with
  | [] => [(k, v)]
  | (k', v') :: m' =>
      match c k k' with
      | Lt => (k, v) :: m
      | Eq => (k', v) :: m'
      | Gt => (k', v') :: map_insert c k v m'
      end
  end.
(** Used by lib.rs:472-476, 498-500. *)
Fixpoint set_insert {K : Type} (c : K -> K -> comparison) (k : K) (m : list K) : list K :=
  match m with
  | [] => [k]
  | k' :: m' => match c k k' with Lt => k :: m | Eq => m | Gt => k' :: set_insert c k m' end
  end.

(** [try_for_each(|e| e.encode_to(dest))]. lib.rs:324-334. *)
Fixpoint encode_seq {A : Type} (enc : A -> result cerr bytes) (l : list A) : result cerr bytes :=
  match l with
  | [] => Ok []
  | a :: l' => let! x := enc a in let! y := encode_seq enc l' in Ok (x ++ y)
  end.

(** JamEncode::encode for every type of the grammar (lines as listed at [ty]). BTreeMap re-sorts its
    keys (lib.rs:453-454) - a no-op on the already ordered iterator, so the ordered sequence is written. *)
Fixpoint encode (t : ty) : interp t -> result cerr bytes :=
  match t return interp t -> result cerr bytes with
  | TUnit => fun _ => Ok []
  | TUint _ => fun x => Ok (integer_encode x)
  | TFix _ k => fun x => encode_fixed x k
  | TByteArr _ => fun b => Ok b
  | TOctets => fun b => Ok (integer_encode (N.of_nat (length b)) ++ b)
  | TTagged _ t => fun r =>
      match r with
      | inl v => let! x := encode t v in Ok (integer_encode 0 ++ x)
      | inr i => Ok (integer_encode i)
      end
  | TIdx15 => fun p =>
      (* [self.item_index + (1 << 15)] wraps in a release build *)
      encode_fixed (if fst p then (snd p + 2 ^ 15) mod 2 ^ 16 else snd p) 2
  | TBool => fun b => Ok [if b then 1 else 0]
  | TOption t => fun o =>
      match o with
      | None => Ok (integer_encode 0)
      | Some v => let! x := encode t v in Ok (integer_encode 1 ++ x)
      end
  | TArr _ t => fun l => encode_seq (encode t) l
  | TVec _ t | TLim _ _ t | TSet t => fun l =>
      let! x := encode_seq (encode t) l in Ok (integer_encode (N.of_nat (length l)) ++ x)
  | TBits => fun bs =>
      let! x := encode_bits_fixed bs (N.of_nat (length bs)) in
      Ok (integer_encode (N.of_nat (length bs)) ++ x)
  | TBitsFix n => fun bs => encode_bits_fixed bs n
  | TMap k v => fun m =>
      let! x := encode_seq (fun p => let! a := encode k (fst p) in
                                     let! b := encode v (snd p) in Ok (a ++ b)) m in
      Ok (integer_encode (N.of_nat (length m)) ++ x)
  | TPair a b => fun p => let! x := encode a (fst p) in let! y := encode b (snd p) in Ok (x ++ y)
  end.

(** [for _ in 0..n { vec.push(T::decode(input)?) }]. lib.rs:336-345. *)
Fixpoint decode_seq {A : Type} (d : dec A) (n : nat) : dec (list A) := fun inp =>
  match n with
  | O => Ok ([], inp)
  | S n' =>
      let! (a, r) := d inp in
      let! (l, r') := decode_seq d n' r in
      Ok (a :: l, r')
  end.
(** [for _ in 0..n { map.insert(K::decode(input)?, V::decode(input)?) }] (lib.rs:472-476). *)
Fixpoint decode_map_loop {K V : Type} (c : K -> K -> comparison) (dk : dec K) (dv : dec V)
  (n : nat) (m : list (K * V)) : dec (list (K * V)) := fun inp =>
  match n with
  | O => Ok (m, inp)
  | S n' =>
      let! (k, r) := dk inp in
      let! (v, r') := dv r in
      decode_map_loop c dk dv n' (map_insert c k v m) r'
  end.
(** [for _ in 0..n { set.insert(T::decode(input)?) }] (lib.rs:498-500). *)
Fixpoint decode_set_loop {K : Type} (c : K -> K -> comparison) (dk : dec K)
  (n : nat) (m : list K) : dec (list K) := fun inp =>
  match n with
  | O => Ok (m, inp)
  | S n' => let! (k, r) := dk inp in decode_set_loop c dk n' (set_insert c k m) r
  end.

(** [Vec::with_capacity(n)] panics ("capacity overflow") when n * size_of::<T>() > isize::MAX.
    (Running out of actual memory below that limit is outside the model.) Used by the decoders of lib.rs:346-500. *)
Definition isize_max : N := 2 ^ 63 - 1.
(** Used by the decoders of lib.rs:346-500. *)
Definition alloc_ok (esz n : N) : bool := n * esz <=? isize_max.

(** JamDecode::decode for every type of the grammar (lines as listed at [ty]). lib.rs:221-500. *)
Fixpoint decode (t : ty) : dec (interp t) :=
  match t return dec (interp t) with
  | TUnit => fun inp => Ok (tt, inp)
  | TUint w => integer_decode w
  | TFix w k => decode_fixed w k
  | TByteArr n => read_exact n
  | TOctets => fun inp =>
      let! (n, r) := integer_decode 64 inp in
      if alloc_ok 1 n then read_exact_N n r else Panic
  | TTagged k t => fun inp =>
      let! (tag, r) := integer_decode 8 inp in
      if tag =? 0 then let! (v, r') := decode t r in Ok (inl v, r')
      else if tag <=? k then Ok (inr tag, r) else Err InputError
  | TIdx15 => fun inp =>
      let! (x, r) := decode_fixed 16 2 inp in
      Ok (if 2 ^ 15 <=? x then ((true, x - 2 ^ 15), r) else ((false, x), r))
  | TBool => fun inp =>
      let! (b, r) := read_byte inp in
      if b =? 0 then Ok (false, r) else if b =? 1 then Ok (true, r) else Err InputError
  | TOption t => fun inp =>
      let! (b, r) := read_byte inp in
      if b =? 0 then Ok (None, r)
      else if b =? 1 then let! (v, r') := decode t r in Ok (Some v, r')
      else Err InputError
  | TArr n t => decode_seq (decode t) n
  | TVec esz t => fun inp =>
      let! (n, r) := integer_decode 64 inp in
      if alloc_ok esz n then decode_seq (decode t) (N.to_nat n) r else Panic
  | TLim esz max t => fun inp =>
      let! (n, r) := integer_decode 64 inp in
      if max <? n then Err InvalidSize
      else if alloc_ok esz n then decode_seq (decode t) (N.to_nat n) r else Panic
  | TBits => fun inp => let! (n, r) := integer_decode 64 inp in decode_bits_fixed n r
  | TBitsFix n => decode_bits_fixed n
  | TMap k v => fun inp =>
      let! (n, r) := integer_decode 64 inp in
      decode_map_loop (cmp k) (decode k) (decode v) (N.to_nat n) [] r
  | TSet t => fun inp =>
      let! (n, r) := integer_decode 64 inp in
      decode_set_loop (cmp t) (decode t) (N.to_nat n) [] r
  | TPair a b => fun inp =>
      let! (x, r) := decode a inp in
      let! (y, r') := decode b r in
      Ok ((x, y), r')
  end.

(** The sums of lib.rs:325-328, 437-448. *)
Definition sumN (l : list N) : N := fold_right N.add 0 l.

(** JamEncode::size_hint (lines: 175-188, 245, 269-275, 302, 325-328, 348-350, 412-415, 437-448,
    484-486, 603-606; TArr here is the array impl, FixedVec's SIZE is [fixedvec_size_hint]). The fixed
    codecs have no size_hint of their own; types using them report [size] / ceil(bits/8). *)
Fixpoint size_hint (t : ty) : interp t -> N :=
  match t return interp t -> N with
  | TUnit => fun _ => 0
  | TUint _ => integer_size_hint
  | TFix _ k => fun _ => N.of_nat k
  | TByteArr n => fun _ => N.of_nat n
  | TOctets => fun b => integer_size_hint (N.of_nat (length b)) + N.of_nat (length b)
  | TTagged _ t => fun r => match r with inl v => 1 + size_hint t v | inr _ => 1 end
  | TIdx15 => fun _ => 2
  | TBool => fun _ => 1
  | TOption t => fun o => match o with None => 1 | Some v => 1 + size_hint t v end
  | TArr _ t => fun l => sumN (map (size_hint t) l)
  | TVec _ t | TLim _ _ t => fun l =>
      integer_size_hint (N.of_nat (length l)) + sumN (map (size_hint t) l)
  | TSet t => fun l => sumN (map (size_hint t) l)
  | TBits => fun bs => integer_size_hint ((N.of_nat (length bs) + 7) / 8)
                       + (N.of_nat (length bs) + 7) / 8
  | TBitsFix n => fun _ => (n + 7) / 8
  | TMap k v => fun m =>
      match m with
      | [] => integer_size_hint 0
      | (k0, v0) :: _ => integer_size_hint (N.of_nat (length m))
                         + (size_hint k k0 + size_hint v v0) * N.of_nat (length m)
      end
  | TPair a b => fun p => size_hint a (fst p) + size_hint b (snd p)
  end.
(** lib.rs:383-385 [size_hint] of FixedVec<T, SIZE>. *)
Definition fixedvec_size_hint (size : N) : N := size.
