(** C07, C11: bounded vectors and zero padding. *)
From Verif Require Import Base LVec_Model LVec_Proofs.

(** * C07 *)
(** Whatever calls a program makes, a LimitedVec never exceeds its bound. *)
Theorem limited_vec_bounded : forall T MAX (os : list (lop T)) v v',
  length v <= MAX -> lrun MAX v os = Some v' -> length v' <= MAX.
Proof. intros T MAX os v v'. exact (lrun_bounded MAX os v v'). Qed.
(** Exactly when each call succeeds and what it leaves ([lstep] keeps the old contents on error). *)
Theorem limited_vec_try_push : forall T MAX (v v' : list T) x,
  try_push MAX v x = Ok v' <-> length v < MAX /\ v' = v ++ [x].
Proof. exact @try_push_iff. Qed.
Theorem limited_vec_try_extend : forall T MAX (v v' w : list T),
  try_extend MAX v w = Ok v' <-> length v + length w <= MAX /\ v' = v ++ w.
Proof. exact @try_extend_iff. Qed.
Theorem limited_vec_try_from : forall T MAX (w v' : list T),
  limited_try_from MAX w = Ok v' <-> length w <= MAX /\ v' = w.
Proof. exact @limited_try_from_iff. Qed.
(** shift_push is a sliding window: after pushing any sequence the vector holds the last MAX elements of
    everything, in order; the evicted element is the oldest. *)
Theorem limited_vec_window : forall T MAX (xs v : list T), 0 < MAX -> length v <= MAX ->
  lrun MAX v (map LShift xs) = Some (skipn (length (v ++ xs) - MAX) (v ++ xs)).
Proof.
  intros T MAX xs v H0 Hv. destruct (shift_run_total MAX xs v H0 Hv) as [v' E].
  rewrite E. f_equal. exact (shift_run_window MAX xs v v' H0 Hv E).
Qed.
Theorem limited_vec_evicts_oldest : forall T MAX (v : list T) x, 0 < MAX -> length v <= MAX ->
  exists o v', shift_push MAX v x = Ok (o, v') /\ (length v < MAX -> o = None) /\ (length v = MAX -> o = hd_error v).
Proof.
  intros T MAX v x H0 Hv. destruct (shift_push_window MAX v x H0 Hv) as (o & v' & E & _ & A & B).
  exists o, v'. auto.
Qed.
(** FixedVec: conversion checks the size; [new] and collecting from an iterator do not (finding). *)
Theorem fixed_vec_try_from : forall T SIZE (w v' : list T), fixed_try_from SIZE w = Ok v' <-> length w = SIZE /\ v' = w.
Proof. exact @fixed_try_from_iff. Qed.
Theorem fixed_vec_size_refuted : exists SIZE (w : list nat),
  length (@fixed_new nat) <> SIZE /\ length (fixed_from_iter w) <> SIZE.
Proof. exists 3, [1]. cbn. split; discriminate. Qed.
Example limited_vec_ex : lrun 3 [1; 2] [LShift 3; LShift 4; LPush 9; LExtend [7]; LRemove 0; LPush 5] = Some [3; 4; 5]
  /\ lrun 0 [] [LShift 1] = (None : option (list nat)).
Proof. vm_compute. auto. Qed.
Print Assumptions limited_vec_bounded.
Print Assumptions limited_vec_try_push.
Print Assumptions limited_vec_try_extend.
Print Assumptions limited_vec_try_from.
Print Assumptions limited_vec_window.
Print Assumptions limited_vec_evicts_oldest.
Print Assumptions fixed_vec_try_from.
Print Assumptions fixed_vec_size_refuted.

(** * C11 *)
Theorem zero_pad_correct : forall block data, 0 < block ->
  exists k, zero_pad block data = Ok (data ++ repeat 0%N k) /\
    (length data + k) mod block = 0 /\ 0 < length data + k /\ (data <> [] -> k < block) /\ (data = [] -> k = block).
Proof. exact zero_pad_spec. Qed.
Example zero_pad_ex : zero_pad 5 [1%N; 2%N; 3%N; 4%N; 5%N; 6%N] = Ok [1; 2; 3; 4; 5; 6; 0; 0; 0; 0]%N
  /\ zero_pad 3 [] = Ok [0; 0; 0]%N.
Proof. vm_compute. auto. Qed.
Print Assumptions zero_pad_correct.
