(** LimitedVec / FixedVec (common/limited-vec/src/lib.rs) and zero_pad (common/src/utils/zero_pad.rs). *)
From Verif Require Import Base.

(** lib.rs:4-10. *)
Inductive lverr := LimitedVecFull | InvalidVecSize.

Section LVec.
  Context {T : Type}.
  Variable MAX : nat.   (* const MAX_SIZE *)

  (** lib.rs:54-60. The new contents, or an error that leaves the vector as it was. *)
  Definition try_push (v : list T) (x : T) : result lverr (list T) :=
    if Nat.leb MAX (length v) then Err LimitedVecFull else Ok (v ++ [x]).

  (** lib.rs:62-73 ([checked_add] cannot overflow: both lengths are at most isize::MAX). *)
  Definition try_extend (v w : list T) : result lverr (list T) :=
    if Nat.ltb MAX (length v + length w) then Err LimitedVecFull else Ok (v ++ w).

  (** lib.rs:75-84. [Vec::remove(0)] panics on an empty vector (MAX_SIZE = 0). *)
  Definition shift_push (v : list T) (x : T) : result lverr (option T * list T) :=
    if Nat.eqb (length v) MAX then
      match v with
      | [] => Panic
      | o :: v' => Ok (Some o, v' ++ [x])
      end
    else Ok (None, v ++ [x]).

  (** lib.rs:86-88 [remove]: panics out of range. *)
  Definition remove_at (v : list T) (i : nat) : result lverr (T * list T) :=
    match nth_error v i with
    | None => Panic
    | Some x => Ok (x, firstn i v ++ skipn (S i) v)
    end.

  (** lib.rs:91-100 TryFrom<Vec>. *)
  Definition limited_try_from (w : list T) : result lverr (list T) :=
    if Nat.ltb MAX (length w) then Err InvalidVecSize else Ok w.

  (** lib.rs:150-156, 112-116 IndexMut / iter_mut / AsMut: elements are replaced in place; panics out of range. *)
  Definition set_at (v : list T) (i : nat) (x : T) : result lverr (list T) :=
    if Nat.ltb i (length v) then Ok (firstn i v ++ x :: skipn (S i) v) else Panic.

  (** lib.rs:222-234 FixedVec TryFrom<Vec>; [SIZE] is [MAX] here. *)
  Definition fixed_try_from (w : list T) : result lverr (list T) :=
    if negb (Nat.eqb (length w) MAX) then Err InvalidVecSize else Ok w.
  (** lib.rs:177-181 FixedVec::new. *)
  Definition fixed_new : list T := [].
  (** lib.rs:263-272 FromIterator. *)
  Definition fixed_from_iter (w : list T) : list T := w.
End LVec.

(** A call on a LimitedVec held by a program. The methods of common/limited-vec/src/lib.rs:40-160. *)
Inductive lop (T : Type) :=
| LPush (x : T) | LExtend (w : list T) | LShift (x : T) | LRemove (i : nat) | LSet (i : nat) (x : T)
| LReplace (w : list T).   (* build a fresh one with TryFrom, keep the old one on error *)
Arguments LPush {T}. Arguments LExtend {T}. Arguments LShift {T}. Arguments LRemove {T}.
Arguments LSet {T}. Arguments LReplace {T}.

(** One call: the contents afterwards, [None] if the call panicked. The methods of common/limited-vec/src/lib.rs:40-160. *)
Definition lstep {T} (MAX : nat) (v : list T) (o : lop T) : option (list T) :=
  let keep (r : result lverr (list T)) := match r with Ok v' => Some v' | Err _ => Some v | Panic => None end in
  match o with
  | LPush x => keep (try_push MAX v x)
  | LExtend w => keep (try_extend MAX v w)
  | LShift x => match shift_push MAX v x with Ok (_, v') => Some v' | Err _ => Some v | Panic => None end
  | LRemove i => match remove_at v i with Ok (_, v') => Some v' | Err _ => Some v | Panic => None end
  | LSet i x => keep (set_at v i x)
  | LReplace w => keep (limited_try_from MAX w)
  end.
(** The methods of common/limited-vec/src/lib.rs:40-160. *)
Fixpoint lrun {T} (MAX : nat) (v : list T) (os : list (lop T)) : option (list T) :=
  match os with
  | [] => Some v
  | o :: os' => match lstep MAX v o with Some v' => lrun MAX v' os' | None => None end
  end.

(** zero_pad.rs:5-18; [Vec::resize] with a size not below the length. *)
Definition zero_pad (block : nat) (data : bytes) : result unit bytes :=
  if Nat.eqb block 0 then Panic
  else
    let output_size :=
      match data with
      | [] => block
      | _ => (length data + block - 1) / block * block
      end in
    Ok (firstn output_size data ++ repeat 0%N (output_size - length data)).
