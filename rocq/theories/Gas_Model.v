(** Gas accounting of accumulation: pvm/pvm-invocation/src/accumulate/pipeline.rs and transition/src/state/services.rs:105-115. *)
From Verif Require Import Base Queue_Model.

(** A digest: its service and accumulate gas limit. A report: its digests. common/src/types/workloads/work_report.rs:300-313. *)
Record digest := mk_digest { d_service : N; d_gas : N }.
(** common/src/types/workloads/work_report.rs:384-401. *)
Definition greport := list digest.
(** pvm/pvm-types/src/invoke_args.rs:31-42. *)
Record transfer := mk_transfer { x_to : N; x_gas : N }.

(** [u64::checked_add], used at pvm/pvm-invocation/src/accumulate/pipeline.rs:41-68, 678-701. *)
Definition u64_max : N := (2 ^ 64 - 1)%N.
(** [u64::checked_add], used at pvm/pvm-invocation/src/accumulate/pipeline.rs:41-68, 678-701. *)
Definition checked_add (a b : N) : option N := if (a + b <=? u64_max)%N then Some (a + b)%N else None.
(** [try_fold] with [checked_add], pvm/pvm-invocation/src/accumulate/pipeline.rs:678-701. *)
Fixpoint checked_sum (acc : N) (l : list N) : option N :=
  match l with [] => Some acc | x :: l' => match checked_add acc x with Some a => checked_sum a l' | None => None end end.

(** pipeline.rs:41-68. *)
Fixpoint max_processable_from (counter : N) (n : nat) (reports : list greport) (gas_limit : N) : nat :=
  match reports with
  | [] => n
  | r :: rs =>
      match checked_sum 0 (map d_gas r) with
      | None => n
      | Some g => match checked_add counter g with
                  | None => n
                  | Some c => if (gas_limit <? c)%N then n else max_processable_from c (S n) rs gas_limit
                  end
      end
  end.
(** Part of pipeline.rs:41-68. *)
Definition max_processable_reports (reports : list greport) (gas_limit : N) : nat := max_processable_from 0 0 reports gas_limit.

(** pipeline.rs:678-701: the gas limit of one service's invocation; [None] is GasOverflow. [always]: ascending by service. *)
Definition always_gas (always : list (N * N)) (s : N) : N :=
  match find (fun p => N.eqb (fst p) s) always with Some p => snd p | None => 0%N end.
(** Part of pipeline.rs:678-701. *)
Definition digest_gas (reports : list greport) (s : N) : list N :=
  map d_gas (filter (fun d => N.eqb (d_service d) s) (concat reports)).
(** Part of pipeline.rs:678-701. *)
Definition transfer_gas (ts : list transfer) (s : N) : list N :=
  map x_gas (filter (fun t => N.eqb (x_to t) s) ts).
(** Part of pipeline.rs:678-701. *)
Definition service_gas_limit (always : list (N * N)) (reports : list greport) (ts : list transfer) (s : N) : option N :=
  match checked_sum 0 (digest_gas reports s) with
  | None => None
  | Some a => match checked_add (always_gas always s) a with
              | None => None
              | Some b => match checked_sum 0 (transfer_gas ts s) with
                          | None => None
                          | Some c => checked_add b c
                          end
              end
  end.
(** pipeline.rs:478-508: the metered services, ascending. Privileged services that are none of these run with gas limit 0
    and contribute neither gas nor transfers (580-607); they are left out. *)
Definition metered (always : list (N * N)) (reports : list greport) (ts : list transfer) : list N :=
  bset_extend (bset_extend (bset_of (map d_service (concat reports))) (map x_to ts)) (map fst always).

(** What running a service in a round does, as far as gas goes: [None] when the service does not exist, otherwise the gas it
    used and the transfers it sent. The argument is the round number, so any state-dependent behaviour is covered. It stands for pvm/pvm-invocation/src/accumulate/pipeline.rs:682-729. *)
Definition oracle := nat -> N -> N -> option (N * list transfer).

(** pipeline.rs:515-610, gas and transfers only. *)
Fixpoint run_services (o : oracle) (round : nat) (limits : N -> option N) (ss : list N) : option (list (N * N) * list transfer) :=
  match ss with
  | [] => Some ([], [])
  | s :: ss' =>
      match limits s with
      | None => None
      | Some g =>
          match run_services o round limits ss' with
          | None => None
          | Some (ps, ts) => match o round s g with
                             | None => Some (ps, ts)
                             | Some (used, sent) => Some ((s, used) :: ps, sent ++ ts)
                             end
          end
      end
  end.
(** pvm/pvm-invocation/src/accumulate/pipeline.rs:430-643. *)
Definition accumulate_parallel (o : oracle) (round : nat) (always : list (N * N)) (reports : list greport) (ts : list transfer) :=
  run_services o round (service_gas_limit always reports ts) (metered always reports ts).

(** One round as it happened. Values of one turn of the loop at pvm/pvm-invocation/src/accumulate/pipeline.rs:94-150; a log kept for the theorems. *)
Record round_log := mk_round { l_remaining : N; l_reports : list greport; l_transfers : list transfer; l_always : list (N * N);
                               l_pairs : list (N * N); l_sent : list transfer }.
(** pvm/pvm-invocation/src/accumulate/pipeline.rs:29-38. *)
Inductive gres := Finished (count : nat) (log : list round_log) | GasOverflow.

(** pipeline.rs:72-162, the loop; [None]: the fuel ran out. *)
Fixpoint outer (fuel : nat) (o : oracle) (round : nat) (always : option (list (N * N))) (reports : list greport) (remaining : N)
    (ts : list transfer) (count : nat) (log : list round_log) : option gres :=
  match fuel with
  | O => None
  | S fuel' =>
      let finished := Some (Finished count log) in
      match reports, ts, always with
      | [], [], None => finished
      | _, _, _ =>
          let aas := match always with Some l => l | None => [] end in
          let k := max_processable_reports reports remaining in
          match k, ts, aas with
          | O, [], [] => finished
          | _, _, _ =>
              match accumulate_parallel o round aas (firstn k reports) ts with
              | None => Some GasOverflow
              | Some (pairs, sent) =>
                  match checked_sum 0 (map snd pairs), checked_sum 0 (map x_gas ts) with
                  | Some used, Some tg =>
                      match checked_add remaining tg with
                      | Some r => if (r <? used)%N then Some GasOverflow
                                  else outer fuel' o (S round) None (skipn k reports) (r - used) sent (count + k)
                                         (log ++ [mk_round remaining (firstn k reports) ts aas pairs sent])
                      | None => Some GasOverflow
                      end
                  | _, _ => Some GasOverflow
                  end
              end
          end
      end
  end.
(** pvm/pvm-invocation/src/accumulate/pipeline.rs:72-169. *)
Definition accumulate_outer (fuel : nat) (o : oracle) (gas_limit : N) (reports : list greport) (always : list (N * N)) : option gres :=
  outer fuel o 0 (Some always) reports gas_limit [] 0 [].

(** services.rs:109-113 with common/src/constants/mod.rs:77, chain_spec/full.rs:40; [cores] = CORE_COUNT. The additions and
    the sum wrap or panic beyond u64; not modelled. *)
Definition block_gas_limit (all_cores per_core cores : N) (always : list (N * N)) : N :=
  N.max all_cores (per_core * cores + fold_right N.add 0 (map snd always))%N.
