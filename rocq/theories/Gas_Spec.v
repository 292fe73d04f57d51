(** What gas accounting should say, in terms of plain sums. *)
From Verif Require Import Base Gas_Model.

Definition total (l : list N) : N := fold_right N.add 0%N l.
(** Gas declared by a list of reports. *)
Definition declared (reports : list greport) : N := total (map d_gas (concat reports)).
Definition carried (ts : list transfer) : N := total (map x_gas ts).
(** What service [s] is owed in a round: always-accumulate gas, its digests' gas, and the gas of the transfers sent to it. *)
Definition share (always : list (N * N)) (reports : list greport) (ts : list transfer) (s : N) : N :=
  (total (map snd (filter (fun p => N.eqb (fst p) s) always)) +
   total (map d_gas (filter (fun d => N.eqb (d_service d) s) (concat reports))) +
   total (map x_gas (filter (fun t => N.eqb (x_to t) s) ts)))%N.
Definition spent (log : list round_log) : N := total (map (fun r => total (map snd (l_pairs r))) log).
Definition received (log : list round_log) : N := total (map (fun r => carried (l_transfers r)) log).
(** A service uses at most the gas it is given, and pays for each transfer the gas it sends along and at least one unit
    (HOSTCALL_BASE_GAS_CHARGE + gas in host_transfer, pvm-host/src/host_functions/accumulate/mod.rs:499-587). *)
Definition metered_oracle (o : oracle) : Prop :=
  forall round s g used sent, o round s g = Some (used, sent) ->
    (used <= g)%N /\ (total (map (fun t => x_gas t + 1)%N sent) <= used)%N.
(** The transfers outstanding after some rounds: those the last round sent. *)
Definition sent_before (before : list round_log) : list transfer :=
  match rev before with [] => [] | r :: _ => l_sent r end.
