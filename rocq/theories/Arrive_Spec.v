(** What is seen of a node that hears announcements, and what a chain is. *)
From Verif Require Import Base Arrive_Model.
Open Scope N_scope.

Section Spec.
  Context {B : Type}.
  Variables hash parent : B -> N.
  (** The blocks fetched, put into the channel, taken by the importer, accepted by it; each in the order in which that happened. *)
  Definition fetched (l : list (sight B)) : list B := flat_map (fun s => match s with Fetched b => [b] | _ => [] end) l.
  Definition queued (l : list (sight B)) : list B := flat_map (fun s => match s with Queued b => [b] | _ => [] end) l.
  Definition took (l : list (sight B)) : list B := flat_map (fun s => match s with Took b _ => [b] | _ => [] end) l.
  Definition accepted (l : list (sight B)) : list B := flat_map (fun s => match s with Took b true => [b] | _ => [] end) l.
  (** The blocks that tasks still hold. *)
  Definition held (n : node_at B) : list B := flat_map (fun t => match t with Holding b => [b] | _ => [] end) (a_tasks n).
  (** Nothing is under way any more. *)
  Definition quiet_at (n : node_at B) : Prop := a_chan n = [] /\ forall t, In t (a_tasks n) -> t = Over.
  (** Each block is the child of the one before it, the first of [g]. *)
  Fixpoint chain (g : N) (l : list B) : Prop := match l with [] => True | b :: r => parent b = g /\ chain (hash b) r end.
  Definition tip (g : N) (l : list B) : N := last (map hash l) g.
  (** Happenings in which nothing new is heard and no reply comes. *)
  Definition only_moves (e : happening B) : Prop := match e with Sent _ | Takes => True | _ => False end.
End Spec.
