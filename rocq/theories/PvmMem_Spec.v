(** What it means for bytes of the PVM memory to be readable and writable. *)
From Verif Require Import Base PvmMem_Model.
Open Scope N_scope.

(** The memories the node makes: whole pages of 4096 bytes, in 32-bit space. *)
Definition mem_ok (m : mem) : Prop := m_psz m = 4096 /\ m_len m = 4096 * m_pages m /\ m_len m <= 2 ^ 32.
Definition can_read (m : mem) (x : N) : Prop := x < m_len m /\ m_acc m (x / 4096) <> Inaccessible.
Definition can_write (m : mem) (x : N) : Prop := x < m_len m /\ m_acc m (x / 4096) = ReadWrite.
(** All [n] bytes from [a] are above the lowest 64 KiB and permitted by [P]. *)
Definition allowed (P : N -> Prop) (a n : N) : Prop := 65536 <= a /\ forall x, a <= x < a + n -> P x.
(** [p] is the start of the lowest page touched that is not permitted. *)
Definition faults_at (P : N -> Prop) (a n p : N) : Prop :=
  p mod 4096 = 0 /\ (exists x, a <= x < a + n /\ p <= x < p + 4096 /\ ~ P x) /\ forall y, a <= y < a + n -> y < p -> P y.
(** The value of a byte after some writes were tried, given which were permitted. *)
Inductive byte_after (m : mem) (x : N) : list (N * bytes) -> N -> Prop :=
| ba_start : byte_after m x [] (m_data m x)
| ba_hit : forall l a bs, allowed (can_write m) a (N.of_nat (length bs)) -> a <= x < a + N.of_nat (length bs) ->
    byte_after m x (l ++ [(a, bs)]) (nth (N.to_nat (x - a)) bs 0)
| ba_miss : forall l a bs v, byte_after m x l v -> ~ (allowed (can_write m) a (N.of_nat (length bs)) /\ a <= x < a + N.of_nat (length bs)) ->
    byte_after m x (l ++ [(a, bs)]) v.
(** Try writes in order; failed ones are skipped. *)
Definition try_writes (m : mem) (l : list (N * bytes)) : mem :=
  fold_left (fun m w => match write_bytes m (fst w) (snd w) with Ok m' => m' | _ => m end) l m.
