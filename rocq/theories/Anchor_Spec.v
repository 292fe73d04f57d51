(** The chain a node is on, and the blocks of it that are recent enough to be looked up from. *)
From Verif Require Import Base Import_Model Reports_Model Anchor_Model.
Open Scope N_scope.

Definition header_of (b : became) : N * N := match b with Genesis e | Imported e | Authored e => e end.
(** The blocks of the chain, oldest first. *)
Definition chain (l : list became) : list (N * N) := map header_of l.
(** Slots increase along a chain (C18), up to the block being judged. *)
Fixpoint slots_rise (l : list (N * N)) (now : N) : Prop :=
  match l with [] => True | e :: l' => fst e < now /\ (forall e', In e' l' -> fst e < fst e') /\ slots_rise l' now end.
(** A block of the chain of the last [L] slots. *)
Definition recent_block (L : N) (l : list became) (now : N) (e : N * N) : Prop := In e (chain l) /\ now <= fst e + L.
Definition lookup_of (g : guarantee) : N * N := (w_lookup_slot (gu_report g), w_lookup_anchor (gu_report g)).
