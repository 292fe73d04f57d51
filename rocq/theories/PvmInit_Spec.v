(** The memory a standard program starts with. *)
From Verif Require Import Base PvmMem_Model PvmMem_Spec PvmProg_Model PvmStep_Model PvmInit_Model.
Open Scope N_scope.

(** [y] is the least multiple of [k] that is not below [x]. *)
Definition rounds (k x y : N) : Prop := (k | y) /\ x <= y < x + k.
(** A standard program as bytes. *)
Definition standard (o w c : bytes) (z s : N) : bytes :=
  le_bytes 3 (N.of_nat (length o)) ++ le_bytes 3 (N.of_nat (length w)) ++ le_bytes 2 z ++ le_bytes 3 s ++ o ++ w ++ le_bytes 4 (N.of_nat (length c)) ++ c.
Definition fprog_ok (f : fprog) : Prop :=
  f_static_size f = N.of_nat (length (f_static f)) /\ f_heap_size f = N.of_nat (length (f_heap f)) /\ f_code_size f = N.of_nat (length (f_code f)) /\
  f_static_size f < 2 ^ 24 /\ f_heap_size f < 2 ^ 24 /\ f_stack_size f < 2 ^ 24 /\ f_extra f < 2 ^ 16 /\ f_code_size f < 2 ^ 32 /\
  Bytes (f_static f) /\ Bytes (f_heap f) /\ Bytes (f_code f).
(** The size condition: every part rounded up to 64 KiB zones, five more zones and 16 MiB for the arguments fit in 32 bits. *)
Definition fits (f : fprog) : Prop :=
  exists a b c, rounds 65536 (f_static_size f) a /\ rounds 65536 (f_heap_size f + 4096 * f_extra f) b /\ rounds 65536 (f_stack_size f) c /\
    5 * 65536 + a + b + c + 2 ^ 24 <= 2 ^ 32.
(** The four regions, for [n] bytes of arguments. *)
Inductive zone := ZStatic | ZHeap | ZStack | ZArgs.
Definition bounds (f : fprog) (n : N) (z : zone) (lo hi : N) : Prop :=
  match z with
  | ZStatic => lo = 65536 /\ exists p, rounds 4096 (f_static_size f) p /\ hi = lo + p
  | ZHeap => exists q p, rounds 65536 (f_static_size f) q /\ rounds 4096 (f_heap_size f) p /\ lo = 2 * 65536 + q /\ hi = lo + p + 4096 * f_extra f
  | ZStack => hi = 2 ^ 32 - 2 * 65536 - 2 ^ 24 /\ exists p, rounds 4096 (f_stack_size f) p /\ lo + p = hi
  | ZArgs => lo = 2 ^ 32 - 65536 - 2 ^ 24 /\ exists p, rounds 4096 n p /\ hi = lo + p
  end.
Definition inside (f : fprog) (n : N) (z : zone) (x : N) : Prop := exists lo hi, bounds f n z lo hi /\ lo <= x < hi.
Definition rights (z : zone) : access := match z with ZStatic | ZArgs => ReadOnly | ZHeap | ZStack => ReadWrite end.
(** The bytes with which a region begins; zeros follow. *)
Definition content (f : fprog) (args : bytes) (z : zone) : bytes :=
  match z with ZStatic => f_static f | ZHeap => f_heap f | ZStack => [] | ZArgs => args end.
(** The caches that can arise: programs are fetched through the cache, and entries may be dropped at any time. [bs] are the programs fetched so far. *)
Inductive cache_history {K : Type} (keq : forall x y : K, {x = y} + {x <> y}) (H : bytes -> K) : list bytes -> @cache K -> Prop :=
| ch_start : cache_history keq H [] []
| ch_fetch : forall bs c b, cache_history keq H bs c -> cache_history keq H (b :: bs) (snd (fetch keq H c b))
| ch_evict : forall bs c c', cache_history keq H bs c -> incl c' c -> cache_history keq H bs c'.
