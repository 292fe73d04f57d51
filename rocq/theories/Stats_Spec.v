(** What the activity statistics should say, in unbounded arithmetic. *)
From Verif Require Import Base Stats_Model.
From Coq Require Import Sorted.
Open Scope N_scope.

Definition sum {A : Type} (f : A -> N) (l : list A) : N := fold_right (fun x a => f x + a) 0 l.
Definition count {A : Type} (f : A -> bool) (l : list A) : N := N.of_nat (length (filter f l)).

(** ** Validators: what validator [v] did in a list of blocks. *)
Definition by_author (v : nat) (bs : list sblock) : list sblock := filter (fun b => Nat.eqb (b_author b) v) bs.
Definition reported (v : nat) (b : sblock) : bool :=
  match nth_error (b_keys b) v with Some k => existsb (N.eqb k) (b_reporters b) | None => false end.
Definition assured (v : nat) (b : sblock) : bool := existsb (fun a => Nat.eqb (fst a) v) (b_assurances b).
Definition activity (v : nat) (bs : list sblock) : vstat :=
  mk_vstat
    (N.of_nat (length (by_author v bs)))
    (sum b_tickets (by_author v bs))
    (sum (fun b => N.of_nat (length (b_preimages b))) (by_author v bs))
    (sum (fun b => sum snd (b_preimages b)) (by_author v bs))
    (count (reported v) bs)
    (count (assured v) bs).

(** ** Cores: what core [c] did in one block. *)
Definition on_core (c : nat) (rs : list report) : list report := filter (fun r => Nat.eqb (r_core r) c) rs.
Definition digests (rs : list report) : list digest := flat_map r_digests rs.
(** The size the code gives to a report's data: its bundle and 65 segments of 4104 octets for each started 64 exports. *)
Definition da_size (r : report) : N := r_bundle r + 4104 * 65 * ((r_segments r + 63) / 64).
Definition core_activity (c : nat) (b : sblock) : cstat :=
  let ds := digests (on_core c (b_guarantees b)) in
  mk_cstat
    (sum da_size (on_core c (b_available b)))
    (count (fun a => nth c (snd a) false) (b_assurances b))
    (sum (fun d => u_imports (d_stats d)) ds)
    (sum (fun d => u_xts (d_stats d)) ds)
    (sum (fun d => u_octets (d_stats d)) ds)
    (sum (fun d => u_exports (d_stats d)) ds)
    (sum r_bundle (on_core c (b_guarantees b)))
    (sum (fun d => u_gas (d_stats d)) ds).

(** ** Services: what service [s] did in one block, and whether it did anything. *)
Definition of_service (s : N) (ds : list digest) : list digest := filter (fun d => d_service d =? s) ds.
Definition for_service (s : N) (ps : list (N * N)) : list (N * N) := filter (fun p => fst p =? s) ps.
Definition service_activity (s : N) (b : sblock) : sstat :=
  let ds := of_service s (digests (b_guarantees b)) in
  mk_sstat
    (N.of_nat (length (for_service s (b_preimages b))))
    (sum snd (for_service s (b_preimages b)))
    (N.of_nat (length ds))
    (sum (fun d => u_gas (d_stats d)) ds)
    (sum (fun d => u_imports (d_stats d)) ds)
    (sum (fun d => u_xts (d_stats d)) ds)
    (sum (fun d => u_octets (d_stats d)) ds)
    (sum (fun d => u_exports (d_stats d)) ds)
    (N.of_nat (length (of_service s (digests (b_accumulated b)))))
    (sum snd (for_service s (b_gas b))).
Definition accumulated (s : N) (b : sblock) : Prop :=
  of_service s (digests (b_accumulated b)) <> [] \/ 0 < sum snd (for_service s (b_gas b)).
Definition active (s : N) (b : sblock) : Prop :=
  of_service s (digests (b_guarantees b)) <> [] \/ for_service s (b_preimages b) <> [] \/ accumulated s b.

(** ** Counters of limited width: what is kept of a total, and when nothing is lost. *)
Definition kept_v (x : vstat) : vstat :=
  mk_vstat (v_blocks x mod 2 ^ 32) (v_tickets x mod 2 ^ 32) (v_preimages x mod 2 ^ 32) (v_octets x mod 2 ^ 32)
    (v_guarantees x mod 2 ^ 32) (v_assurances x mod 2 ^ 32).
Definition fits_v (x : vstat) : Prop :=
  v_blocks x < 2 ^ 32 /\ v_tickets x < 2 ^ 32 /\ v_preimages x < 2 ^ 32 /\ v_octets x < 2 ^ 32 /\ v_guarantees x < 2 ^ 32 /\
  v_assurances x < 2 ^ 32.
Definition kept_c (x : cstat) : cstat :=
  mk_cstat (c_da x mod 2 ^ 32) (c_assurers x mod 2 ^ 16) (c_imports x mod 2 ^ 16) (c_xts x mod 2 ^ 16) (c_octets x mod 2 ^ 32)
    (c_exports x mod 2 ^ 16) (c_bundle x mod 2 ^ 32) (c_gas x mod 2 ^ 64).
Definition fits_c (x : cstat) : Prop :=
  c_da x < 2 ^ 32 /\ c_assurers x < 2 ^ 16 /\ c_imports x < 2 ^ 16 /\ c_xts x < 2 ^ 16 /\ c_octets x < 2 ^ 32 /\
  c_exports x < 2 ^ 16 /\ c_bundle x < 2 ^ 32 /\ c_gas x < 2 ^ 64.
Definition kept_s (x : sstat) : sstat :=
  mk_sstat (s_preimages x mod 2 ^ 16) (s_blobs x mod 2 ^ 32) (s_digests x mod 2 ^ 32) (s_gas x mod 2 ^ 64) (s_imports x mod 2 ^ 32)
    (s_xts x mod 2 ^ 32) (s_octets x mod 2 ^ 32) (s_exports x mod 2 ^ 32) (s_acc_digests x mod 2 ^ 32) (s_acc_gas x mod 2 ^ 64).
Definition fits_s (x : sstat) : Prop :=
  s_preimages x < 2 ^ 16 /\ s_blobs x < 2 ^ 32 /\ s_digests x < 2 ^ 32 /\ s_gas x < 2 ^ 64 /\ s_imports x < 2 ^ 32 /\
  s_xts x < 2 ^ 32 /\ s_octets x < 2 ^ 32 /\ s_exports x < 2 ^ 32 /\ s_acc_digests x < 2 ^ 32 /\ s_acc_gas x < 2 ^ 64.

(** ** Blocks the validation lets through: indices in range, one key per validator, one bit per core; the hash set is
    enumerated once each; and the block's own lengths and the gas it used fit their types. *)
Definition good_report (C : nat) (r : report) : Prop := (r_core r < C)%nat /\ r_bundle r < 2 ^ 32 /\ r_segments r < 2 ^ 16.
Definition good (V C : nat) (b : sblock) : Prop :=
  (b_author b < V)%nat /\ length (b_keys b) = V /\
  b_tickets b < 2 ^ 32 /\ N.of_nat (length (b_preimages b)) < 2 ^ 32 /\ sum snd (b_preimages b) < 2 ^ 32 /\
  Forall (fun a => length (snd a) = C) (b_assurances b) /\ N.of_nat (length (b_assurances b)) < 2 ^ 16 /\
  Forall (good_report C) (b_guarantees b) /\ Forall (good_report C) (b_available b) /\
  N.of_nat (length (digests (b_accumulated b))) < 2 ^ 32 /\ sum snd (b_gas b) < 2 ^ 64 /\
  NoDup (b_order b) /\
  (forall s, In s (b_order b) <-> In s (map d_service (digests (b_accumulated b))) \/ In s (map fst (b_gas b))).

(** ** Epochs of a history of blocks, oldest first: the latest block's epoch, and the epoch of the latest block outside it. *)
Definition same_epoch (E : N) (a b : sblock) : bool := b_slot a / E =? b_slot b / E.
Definition latest (bs : list sblock) : option sblock := nth_error bs (length bs - 1).
Definition this_epoch (E : N) (bs : list sblock) : list sblock :=
  match latest bs with Some l => filter (same_epoch E l) bs | None => [] end.
Definition last_epoch (E : N) (bs : list sblock) : list sblock :=
  match latest bs with Some l => this_epoch E (filter (fun b => negb (same_epoch E l b)) bs) | None => [] end.
Definition increasing_slots (slot : N) (bs : list sblock) : Prop := StronglySorted N.lt (slot :: map b_slot bs).

(** The services' entries: in key order, one for each active service and no other. *)
Definition service_entries (keep : sstat -> sstat) (b : sblock) (m : list (N * sstat)) : Prop :=
  StronglySorted N.lt (map fst m) /\
  (forall s x, In (s, x) m <-> active s b /\ x = keep (service_activity s b)).

(** The statistics after a history that ends in block [l]; [keep] says what the counters retain. *)
Definition statistics_are (keep_v : vstat -> vstat) (keep_c : cstat -> cstat) (keep_s : sstat -> sstat)
    (V C : nat) (E : N) (bs : list sblock) (l : sblock) (s : stats) : Prop :=
  curr s = map (fun v => keep_v (activity v (this_epoch E bs))) (seq 0 V) /\
  prev s = map (fun v => keep_v (activity v (last_epoch E bs))) (seq 0 V) /\
  cores s = map (fun c => keep_c (core_activity c l)) (seq 0 C) /\
  service_entries keep_s l (services s).

(** Statistics with which a chain starts. *)
Definition genesis (V C : nat) : stats := mk_stats (repeat no_v V) (repeat no_v V) (repeat no_c C) [].
