(** C26, C61: the memory of the virtual machine. [mem_ok]: 4096-byte pages in 32-bit space, which is the only memory programs are run with. *)
From Verif Require Import Base PvmMem_Model PvmMem_Spec PvmMem_Proofs.
Open Scope N_scope.

(** * C26 *)
(** A read returns exactly the stored bytes, and does so iff all of them lie above the lowest 64 KiB on readable pages. Otherwise it
    names the first page at fault, if the range is in the address space and above 64 KiB. *)
Theorem memory_read_exact : forall m a n, mem_ok m -> a < 2 ^ 32 -> 0 < n ->
  (forall bs, read_bytes m a n = Ok bs <->
     allowed (can_read m) a n /\ length bs = N.to_nat n /\ forall i, (i < N.to_nat n)%nat -> nth i bs 0 = m_data m (a + N.of_nat i)) /\
  (forall p, read_bytes m a n = Err (AccessViolation p) -> faults_at (can_read m) a n p) /\
  (65536 <= a -> a + n <= m_len m -> (exists bs, read_bytes m a n = Ok bs) \/ exists p, read_bytes m a n = Err (AccessViolation p)) /\
  (a < 65536 -> read_bytes m a n = Err (Forbidden a)).
Proof. exact read_bytes_spec. Qed.
Theorem memory_read_byte_exact : forall m a, mem_ok m -> forall v, read_byte m a = Ok v <-> 65536 <= a /\ can_read m a /\ v = m_data m a.
Proof. exact read_byte_spec. Qed.
(** A write succeeds iff all bytes lie above the lowest 64 KiB on writable pages; it then changes those bytes and nothing else. *)
Theorem memory_write_exact : forall m a bs, mem_ok m -> a < 2 ^ 32 -> bs <> [] ->
  ((exists m', write_bytes m a bs = Ok m') <-> allowed (can_write m) a (N.of_nat (length bs))) /\
  (forall m', write_bytes m a bs = Ok m' ->
     (forall x, a <= x < a + N.of_nat (length bs) -> m_data m' x = nth (N.to_nat (x - a)) bs 0) /\
     (forall x, ~ (a <= x < a + N.of_nat (length bs)) -> m_data m' x = m_data m x) /\
     (forall x, can_read m' x <-> can_read m x) /\ (forall x, can_write m' x <-> can_write m x) /\ m_heap_end m' = m_heap_end m) /\
  (forall p, write_bytes m a bs = Err (AccessViolation p) -> faults_at (can_write m) a (N.of_nat (length bs)) p) /\
  (65536 <= a -> a + N.of_nat (length bs) <= m_len m -> (exists m', write_bytes m a bs = Ok m') \/ exists p, write_bytes m a bs = Err (AccessViolation p)) /\
  (a < 65536 -> write_bytes m a bs = Err (Forbidden a)).
Proof.
  intros m a bs Hm Ha Hn. destruct (write_bytes_ok_iff m a bs Hm Ha Hn) as (A & B & C). split; [exact A|]. split; [|exact C]. intros m' E.
  destruct (B m' E) as (D & Ac & Le & _ & _ & _ & He & _). split; [|split; [|split; [|split; [|exact He]]]].
  - intros x Hx. rewrite D. destruct (N.leb_spec a x), (N.ltb_spec x (a + N.of_nat (length bs))); try lia; reflexivity.
  - intros x Hx. rewrite D. destruct (N.leb_spec a x), (N.ltb_spec x (a + N.of_nat (length bs))); try lia; reflexivity.
  - intros x. unfold can_read. rewrite Ac, Le. tauto.
  - intros x. unfold can_write. rewrite Ac, Le. tauto.
Qed.
(** After any sequence of attempted writes each byte is the one written by the last permitted write covering it. *)
Theorem memory_history : forall l m x, mem_ok m -> Forall (fun w => fst w < 2 ^ 32) l -> byte_after m x l (m_data (try_writes m l) x).
Proof. intros l m x Hm Hl. exact (proj1 (history l m x Hm Hl)). Qed.
(** The range checks used by host calls agree with the permissions. *)
Theorem memory_range_checks : forall m a n, mem_ok m -> a < 2 ^ 32 -> n < 2 ^ 64 ->
  (is_address_range_readable m a n = true <-> forall x, a <= x < a + n -> can_read m x) /\
  (is_address_range_writable m a n = true <-> forall x, a <= x < a + n -> can_write m x).
Proof. intros m a n Hm Ha Hn. split; [now apply range_readable_spec|now apply range_writable_spec]. Qed.

(** Pages 16 (read-only) and 17 (writable); the heap begins at page 17 and the stack at page 32. *)
Definition small : mem :=
  mk_mem (fun x => x mod 251) (2 ^ 32) (fun i => if i =? 16 then ReadOnly else if i =? 17 then ReadWrite else Inaccessible) 4096 (2 ^ 20) 69632 73728 131072.
Example memory_case :
  mem_ok small /\ read_bytes small 69630 4 = Ok [103; 104; 105; 106] /\ write_bytes small 69630 [1; 2; 3; 4] = Err (AccessViolation 65536) /\
  read_bytes small 73726 4 = Err (AccessViolation 73728) /\ read_bytes small 10 1 = Err (Forbidden 10) /\
  match write_bytes small 69632 [1; 2] with Ok m' => read_bytes m' 69630 5 = Ok [103; 104; 1; 2; 107] | _ => False end /\
  m_data (try_writes small [(69632, [1; 2; 3]); (69630, [9; 9; 9; 9]); (69633, [7])]) 69633 = 7 /\
  is_address_range_readable small 65536 8192 = true /\ is_address_range_writable small 65536 8192 = false.
Proof. repeat split; vm_compute; congruence. Qed.

(** * C61: sbrk *)
(** The part of C61 that holds: an allocation that does not wrap around 2^32. Everything below the old heap end keeps its permission
    except for the page the heap end lies on. *)
Theorem sbrk_grows_partial : forall m size m' b, mem_ok m -> m_len m = 2 ^ 32 -> sbrk m size = Ok (m', b) -> b + size < 2 ^ 32 ->
  m_heap_end m <= b /\ m_heap_end m' = b + size /\ (m_heap_start m <> 0 -> b + size < m_stack_start m) /\
  (forall x, b <= x < b + size -> can_write m' x) /\ m_data m' = m_data m /\
  (forall i, (forall x, b <= x < b + size -> x / 4096 <> i) -> m_acc m' i = m_acc m i).
Proof. intros m size m' b A B C D. destruct (sbrk_spec m size m' b A B C D) as (_ & _ & P1 & P2 & P3 & P4 & P5 & _ & _ & P6). auto 8. Qed.
Example sbrk_case : match sbrk small 5000 with Ok (m', b) => b = 73728 /\ m_heap_end m' = 78728 /\ m_acc m' 19 = ReadWrite /\ m_acc m' 20 = Inaccessible /\
    match sbrk m' 8 with Ok (m'', b') => b' = 78728 /\ m_heap_end m'' = 78736 | _ => False end | _ => False end.
Proof. vm_compute. repeat split. Qed.
(** C61 fails for sizes near 2^32, and for sizes above it: the heap end moves back, after which an ordinary allocation makes read-only
    pages writable; and a request of 4 GiB is granted without any memory. *)
Theorem sbrk_grows_refuted :
  (exists m s1 s2 m1 b1 m2 b2, mem_ok m /\ m_len m = 2 ^ 32 /\ sbrk m s1 = Ok (m1, b1) /\ m_heap_end m1 < m_heap_end m /\
     sbrk m1 s2 = Ok (m2, b2) /\ exists i, m_acc m i = ReadOnly /\ m_acc m2 i = ReadWrite) /\
  (exists m s m' b, mem_ok m /\ m_len m = 2 ^ 32 /\ 0 < s /\ sbrk m s = Ok (m', b) /\ ~ can_write m' b).
Proof.
  split.
  - exists small, (2 ^ 32 - 8192), 8193.
    destruct (sbrk small (2 ^ 32 - 8192)) as [[m1 b1]|e|] eqn:E1; [|vm_compute in E1; discriminate|vm_compute in E1; discriminate].
    assert (H1 : m1 = fst (match sbrk small (2 ^ 32 - 8192) with Ok x => x | _ => (small, 0) end)) by (rewrite E1; reflexivity).
    destruct (sbrk m1 8193) as [[m2 b2]|e|] eqn:E2; [|subst m1; vm_compute in E2; discriminate|subst m1; vm_compute in E2; discriminate].
    assert (H2 : m2 = fst (match sbrk m1 8193 with Ok x => x | _ => (small, 0) end)) by (rewrite E2; reflexivity).
    exists m1, b1, m2, b2. split; [repeat split; vm_compute; congruence|]. split; [reflexivity|]. split; [reflexivity|]. split; [subst m1; vm_compute; reflexivity|]. split; [exact E2|].
    exists 16. split; [reflexivity|]. subst m2 m1. vm_compute. reflexivity.
  - exists small, (2 ^ 32), (match sbrk small (2 ^ 32) with Ok x => fst x | _ => small end), 73728. split; [repeat split; vm_compute; congruence|]. split; [reflexivity|]. split; [reflexivity|]. split; [vm_compute; reflexivity|].
    intros [_ H]. vm_compute in H. discriminate.
Qed.
