(** How the statistics are stored: the codec of [OnChainStatistics]. *)
From Verif Require Import Base Codec_Model Stats_Model.
Open Scope N_scope.

(** state/src/types/statistics.rs:76-110 [ValidatorStatsEntry]: six fields of four octets. *)
Definition t_vstat : ty := TPair (TFix 32 4) (TPair (TFix 32 4) (TPair (TFix 32 4) (TPair (TFix 32 4) (TPair (TFix 32 4) (TFix 32 4))))).
(** Fields in the order of state/src/types/statistics.rs:24-30 and its entries. *)
Definition of_v (x : vstat) : interp t_vstat := (v_blocks x, (v_tickets x, (v_preimages x, (v_octets x, (v_guarantees x, v_assurances x))))).
(** Fields in the order of state/src/types/statistics.rs:24-30 and its entries. *)
Definition to_v (i : interp t_vstat) : vstat :=
  match i with (a, (b, (c, (d, (e, f))))) => mk_vstat a b c d e f end.
(** statistics.rs:206-225 [CoreStatsEntry], derived codec: compact integers. *)
Definition t_cstat : ty := TPair (TUint 32) (TPair (TUint 16) (TPair (TUint 16) (TPair (TUint 16) (TPair (TUint 32) (TPair (TUint 16) (TPair (TUint 32) (TUint 64))))))).
(** Fields in the order of state/src/types/statistics.rs:24-30 and its entries. *)
Definition of_c (x : cstat) : interp t_cstat := (c_da x, (c_assurers x, (c_imports x, (c_xts x, (c_octets x, (c_exports x, (c_bundle x, c_gas x))))))).
(** Fields in the order of state/src/types/statistics.rs:24-30 and its entries. *)
Definition to_c (i : interp t_cstat) : cstat :=
  match i with (a, (b, (c, (d, (e, (f, (g, h))))))) => mk_cstat a b c d e f g h end.
(** statistics.rs:273-295 [ServiceStatsEntry], derived codec: compact integers. *)
Definition t_sstat : ty := TPair (TUint 16) (TPair (TUint 32) (TPair (TUint 32) (TPair (TUint 64) (TPair (TUint 32) (TPair (TUint 32) (TPair (TUint 32)
  (TPair (TUint 32) (TPair (TUint 32) (TUint 64))))))))).
(** Fields in the order of state/src/types/statistics.rs:24-30 and its entries. *)
Definition of_s (x : sstat) : interp t_sstat :=
  (s_preimages x, (s_blobs x, (s_digests x, (s_gas x, (s_imports x, (s_xts x, (s_octets x, (s_exports x, (s_acc_digests x, s_acc_gas x))))))))).
(** Fields in the order of state/src/types/statistics.rs:24-30 and its entries. *)
Definition to_s (i : interp t_sstat) : sstat :=
  match i with (a, (b, (c, (d, (e, (f, (g, (h, (j, k))))))))) => mk_sstat a b c d e f g h j k end.
(** statistics.rs:23-30, 115-125, 169-173, 254-258, 345-383: the current and the previous epoch, the cores, and the map of
    services with four-octet keys in key order. *)
Definition t_stats (V C : nat) : ty :=
  TPair (TPair (TArr V t_vstat) (TArr V t_vstat)) (TPair (TArr C t_cstat) (TMap (TFix 32 4) t_sstat)).
(** Fields in the order of state/src/types/statistics.rs:24-30 and its entries. *)
Definition of_stats (V C : nat) (s : stats) : interp (t_stats V C) :=
  ((map of_v (curr s), map of_v (prev s)), (map of_c (cores s), map (fun p => (fst p, of_s (snd p))) (services s))).
(** Fields in the order of state/src/types/statistics.rs:24-30 and its entries. *)
Definition to_stats (V C : nat) (i : interp (t_stats V C)) : stats :=
  mk_stats (map to_v (fst (fst i))) (map to_v (snd (fst i))) (map to_c (fst (snd i))) (map (fun p => (fst p, to_s (snd p))) (snd (snd i))).
(** The stored octets, and what is read back from them. state/src/types/statistics.rs:24-30, derived codec. *)
Definition store (V C : nat) (s : stats) : result cerr bytes := encode (t_stats V C) (of_stats V C s).
(** state/src/types/statistics.rs:24-30, derived codec. *)
Definition load (V C : nat) (b : bytes) : result cerr (stats * bytes) :=
  let! (i, rest) := decode (t_stats V C) b in Ok (to_stats V C i, rest).
