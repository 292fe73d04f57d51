(** Model of the clock (clock/src/lib.rs) and of the timeslot scheduler (node/src/scheduler/timeslot_scheduler.rs). Every reading of the system clock is an argument, in the order of
    the readings. Simplifications: numbers are unbounded except for the casts to u32; tokio's [interval_at] gives the ticks' deadlines, when a tick is noticed is an argument;
    what a tick starts (chain_extension.rs) is in Author_Model. *)
From Verif Require Import Base.
Open Scope N_scope.

(** common/src/constants/mod.rs:13 (COMMON_ERA_TIMESTAMP), in seconds *)
Definition ce : N := 1735732800.
(** common/src/chain_spec/full.rs:12 and tiny.rs:12 (SLOT_DURATION), in seconds *)
Definition slot_secs : N := 6.
(** clock/src/lib.rs:29-35; [s]: unix time in seconds *)
Definition seconds_since_era (s : N) : option N := if s <? ce then None else Some (s - ce).
(** clock/src/lib.rs:37-43; [ms]: unix time in milliseconds *)
Definition millis_since_era (ms : N) : option N := if ms <? ce * 1000 then None else Some (ms - ce * 1000).
(** clock/src/lib.rs:45-47 *)
Definition timeslot_now (s : N) : option N := match seconds_since_era s with Some x => Some ((x / slot_secs) mod 2 ^ 32) | None => None end.
(** u64 checked_sub, used at clock/src/lib.rs:49-54 *)
Definition checked_sub (a b : N) : option N := if b <=? a then Some (a - b) else None.
(** clock/src/lib.rs:49-54: the milliseconds are read first, the seconds afterwards *)
Definition until_boundary (ms s : N) : option N :=
  match millis_since_era ms with
  | None => None
  | Some m =>
      match timeslot_now s with
      | None => None
      | Some slot => match checked_sub m (slot * slot_secs * 1000) with Some o => checked_sub (slot_secs * 1000) o | None => None end
      end
  end.
(** One pass through the loop, timeslot_scheduler.rs:22-30: [w] is the clock when the tick is noticed, in milliseconds; None: the tick is skipped *)
Definition tick (w : N) : option N := timeslot_now (w / 1000).
(** timeslot_scheduler.rs:11-41: the slots handled when the first reading of the clock is [ms], the second [s] and the ticks are noticed at the times [ws]; no loop without a boundary *)
Definition schedule (ms s : N) (ws : list N) : list (option N) := match until_boundary ms s with None => [] | Some _ => map tick ws end.
(** The deadline of tick [k] when the interval is made at the time [i] (timeslot_scheduler.rs:12,18; tokio::time::interval_at, missed ticks catch up in bursts) *)
Definition deadline (i m : N) (k : nat) : N := i + m + N.of_nat k * (slot_secs * 1000).
