(** The slot at a given time. *)
From Verif Require Import Base.
Open Scope N_scope.

(** The slot at a time in milliseconds: slots of six seconds since 2025-01-01 12:00 UTC. *)
Definition slot_at (ms slot : N) : Prop := 1735732800000 + slot * 6000 <= ms < 1735732800000 + (slot + 1) * 6000.
