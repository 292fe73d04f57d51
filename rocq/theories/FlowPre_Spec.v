(** When a block's preimages extrinsic is valid: every entry answers a request that was open in the state the block started from. *)
From Verif Require Import Base Sched_Model Sched_Spec Flow_Model.

Section Spec.
  Context {X : Type}.
  (** In the state [m], the service asked for a blob of this hash and length, and nobody has supplied it. *)
  Definition wanted (is_empty : value X -> bool) (m : comp -> option (value X)) (x : @preimage X) : Prop :=
    m (Preimage (x_service x) (x_hash x)) = None /\ exists e, m (Lookup (x_service x) (x_hash x) (x_len x)) = Some e /\ is_empty e = true.
  (** The entries of the state an extrinsic entry is about. *)
  Definition about (x : @preimage X) (k : comp) : Prop := k = Preimage (x_service x) (x_hash x) \/ k = Lookup (x_service x) (x_hash x) (x_len x).
  (** Nothing has happened yet: the state is what the database holds. *)
  Definition untouched (v : view comp (value X)) : Prop := forall k, so_far v k = Kept.
  (** The answers of the block's last concurrent stage, once it was reached, and of its preimages task. *)
  Definition preimages_answer (rs : list (list (option (list X)))) : option (option (list X)) :=
    match nth_error rs 4 with Some r => nth_error r 3 | None => None end.
End Spec.
