(** PVM memory: pvm/pvm-core/src/state/memory.rs. The byte vector and the page-access vector are functions with a length. *)
From Verif Require Import Base.
Open Scope N_scope.

(** pvm/pvm-types/src/constants.rs:33. *)
Definition PAGE_SIZE : N := 4096.
(** pvm/pvm-types/src/constants.rs:36. *)
Definition INIT_ZONE_SIZE : N := 65536.
(** Machine words: wrapping arithmetic of pvm/pvm-core/src/state/memory.rs:1-384 in release builds. *)
Definition u32 (x : N) : N := x mod 2 ^ 32.
(** Machine words: wrapping arithmetic of pvm/pvm-core/src/state/memory.rs:1-384 in release builds. *)
Definition u64 (x : N) : N := x mod 2 ^ 64.

(** memory.rs:8-23 *)
Inductive merr := Forbidden (a : N) | OutOfRange (a : N) | InvalidPageIndex (i : N) | AccessViolation (a : N) | SbrkHeapStackCollision.
(** memory.rs:26-32 *)
Inductive access := Inaccessible | ReadOnly | ReadWrite.
(** memory.rs:38-47 *)
Record mem := mk_mem { m_data : N -> N; m_len : N; m_acc : N -> access; m_psz : N; m_pages : N; m_heap_start : N; m_heap_end : N; m_stack_start : N }.
(** memory.rs:34-36 *)
Definition mem_address (page off : N) : N := u32 (page * PAGE_SIZE + off).
(** [usize::div_ceil], used at memory.rs:50-61. *)
Definition div_ceil (a b : N) : N := (a + b - 1) / b.
(** memory.rs:50-61 *)
Definition mem_new (size psz : N) : mem := mk_mem (fun _ => 0) size (fun _ => Inaccessible) psz (div_ceil size psz) 0 0 0.
(** memory.rs:38, [Default]: no octets, no pages, pages of no octets. *)
Definition mem_default : mem := mk_mem (fun _ => 0) 0 (fun _ => Inaccessible) 0 0 0 0 0.
(** memory.rs:73-78: the page half of the pair. The division by a page size of zero is in [set_address_range_access]; the other callers have compared
    the address with the length of the data before. *)
Definition page_of (m : mem) (a : N) : N := a / m_psz m.
(** start..start+n. A Rust range, used at memory.rs:93-105, 141-174. *)
Fixpoint nrange (a : N) (n : nat) : list N := match n with O => [] | S n' => a :: nrange (a + 1) n' end.
(** A Rust range, used at memory.rs:93-105, 141-174. *)
Definition range (a b : N) : list N := nrange a (N.to_nat (b - a)).

(** memory.rs:81-90 *)
Definition set_page_access (m : mem) (i : N) (x : access) : result merr mem :=
  if m_pages m <=? i then Err (InvalidPageIndex i)
  else Ok (mk_mem (m_data m) (m_len m) (fun j => if j =? i then x else m_acc m j) (m_psz m) (m_pages m) (m_heap_start m) (m_heap_end m) (m_stack_start m)).
(** memory.rs:93-105 *)
Fixpoint set_pages (m : mem) (l : list N) (x : access) : result merr mem :=
  match l with [] => Ok m | i :: l' => let! m' := set_page_access m i x in set_pages m' l' x end.
(** Part of memory.rs:93-105. *)
Definition set_page_range_access (m : mem) (a b : N) (x : access) : result merr mem := set_pages m (range a b) x.
(** memory.rs:108-121; a memory whose pages have no octets ([Memory::default()]) divides by zero *)
Definition set_address_range_access (m : mem) (a b : N) (x : access) : result merr mem :=
  if b <=? a then Ok m else if m_psz m =? 0 then Panic else set_page_range_access m (page_of m a) (page_of m (b - 1) + 1) x.

(** memory.rs:125-130, 177-182: pages beyond the vector are neither. *)
Definition page_readable (m : mem) (i : N) : bool := (i <? m_pages m) && match m_acc m i with ReadOnly | ReadWrite => true | Inaccessible => false end.
(** Part of memory.rs:125-130, 177-182. *)
Definition page_writable (m : mem) (i : N) : bool := (i <? m_pages m) && match m_acc m i with ReadWrite => true | _ => false end.
(** memory.rs:141-149, 193-201 *)
Definition first_not (ok : N -> bool) (l : list N) : option N := option_map (fun i => mem_address i 0) (find (fun i => negb (ok i)) l).
(** memory.rs:152-174, 204-226 *)
Definition range_ok (ok : mem -> N -> bool) (m : mem) (start len : N) : bool :=
  if len =? 0 then true
  else if 2 ^ 64 <=? start + len then false
  else let e := start + len - 1 in
       if m_len m <=? e then false
       else forallb (ok m) (range (page_of m start) (page_of m (u32 e) + 1)).
(** Part of memory.rs:152-174, 204-226. *)
Definition is_address_range_readable := range_ok page_readable.
(** Part of memory.rs:152-174, 204-226. *)
Definition is_address_range_writable := range_ok page_writable.

(** memory.rs:229-244 *)
Definition read_byte (m : mem) (a : N) : result merr N :=
  if a <? INIT_ZONE_SIZE then Err (Forbidden a)
  else if m_len m <=? a then Err (OutOfRange a)
  else if page_readable m (page_of m a) then Ok (m_data m a)
  else Err (AccessViolation a).
(** memory.rs:247-274 and the same checks in write_bytes, 334-352. *)
Definition validate (ok : mem -> N -> bool) (m : mem) (a len : N) : result merr unit :=
  if a <? INIT_ZONE_SIZE then Err (Forbidden a)
  else if 2 ^ 64 <=? a + len then Err (OutOfRange a)
  else if m_len m <? a + len then Err (OutOfRange a)
  else match first_not (ok m) (range (page_of m a) (page_of m (u32 (a + len - 1)) + 1)) with
       | Some x => Err (AccessViolation x)
       | None => Ok tt
       end.
(** memory.rs:277-297 *)
Definition read_bytes (m : mem) (a len : N) : result merr bytes :=
  if len =? 0 then Ok [] else
  let! _ := validate page_readable m a len in
  Ok (map (m_data m) (nrange a (N.to_nat len))).
(** The assignments of memory.rs:300-354. *)
Definition set_data (m : mem) (f : N -> N) : mem := mk_mem f (m_len m) (m_acc m) (m_psz m) (m_pages m) (m_heap_start m) (m_heap_end m) (m_stack_start m).
(** memory.rs:300-316 *)
Definition write_byte (m : mem) (a v : N) : result merr mem :=
  if a <? INIT_ZONE_SIZE then Err (Forbidden a)
  else if m_len m <=? a then Err (OutOfRange a)
  else if page_writable m (page_of m a) then Ok (set_data m (fun x => if x =? a then v else m_data m x))
  else Err (AccessViolation a).
(** memory.rs:319-354 *)
Definition write_bytes (m : mem) (a : N) (bs : bytes) : result merr mem :=
  match bs with
  | [] => Ok m
  | _ => let len := N.of_nat (length bs) in
         let! _ := validate page_writable m a len in
         Ok (set_data m (fun x => if (a <=? x) && (x <? a + len) then nth (N.to_nat (x - a)) bs 0 else m_data m x))
  end.
(** memory.rs:355-368: one address further while the range there is readable but not writable. At most [p] rounds, with an early exit
    ([inl]); 2^32 rounds leave the address space. *)
Definition break_step (m : mem) (size b : N) : N + N :=
  if is_address_range_readable m b size && negb (is_address_range_writable m b size) then inr (b + 1) else inl b.
(** Part of memory.rs:355-368. *)
Fixpoint break_loop (m : mem) (size : N) (p : positive) (b : N) : N + N :=
  let again r q := match r with inl x => inl x | inr b' => break_loop m size q b' end in
  match p with
  | xH => break_step m size b
  | xO q => again (break_loop m size q b) q
  | xI q => again (again (break_step m size b) q) q
  end.
(** Part of memory.rs:355-368. *)
Definition either (x : N + N) : N := match x with inl b => b | inr b => b end.
(** Part of memory.rs:355-368. *)
Definition get_break (m : mem) (size : N) : N := either (break_loop m size (2 ^ 32)%positive (m_heap_end m)).
(** memory.rs:371-383. The addition wraps (it panics in debug builds). *)
Definition expand_heap (m : mem) (start size : N) : result merr mem :=
  let e := u32 (start + u32 size) in
  if negb (m_heap_start m =? 0) && (m_stack_start m <=? e) then Err SbrkHeapStackCollision
  else let! m' := set_address_range_access m start e ReadWrite in
       Ok (mk_mem (m_data m') (m_len m') (m_acc m') (m_psz m') (m_pages m') (m_heap_start m') e (m_stack_start m')).
(** instruction/set.rs:794-814 without the register write: the new memory and the start of the allocation. *)
Definition sbrk (m : mem) (size : N) : result merr (mem * N) :=
  let b := get_break m size in let! m' := expand_heap m b size in Ok (m', b).
