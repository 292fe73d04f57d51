(** What announcing should do. *)
From Verif Require Import Base Announce_Model.

(** The messages given to a channel, and those on its wire, in order. *)
Definition given_to (c : nat) (o : list out) : list bytes := flat_map (fun x => match x with Given _ _ c' b => if Nat.eqb c' c then [b] else [] | Wire _ _ => [] end) o.
Definition on_wire (c : nat) (o : list out) : list bytes := flat_map (fun x => match x with Wire c' b => if Nat.eqb c' c then [b] else [] | Given _ _ _ _ => [] end) o.
(** The channels a call gave its message to, with the peers' addresses, in order. *)
Definition told_by (i : nat) (o : list out) : list (N * nat) := flat_map (fun x => match x with Given i' a c _ => if Nat.eqb i' i then [(a, c)] else [] | Wire _ _ => [] end) o.

(** Nothing but other peers' connections changes. *)
Definition leaves (a : N) (e : event) : Prop := e <> Stored a /\ e <> Opened a.
(** The peer's stream has broken and the task that wrote it has ended. *)
Definition broken (s : net) (a : N) : Prop := exists c ch, peers s a = Some (Joined (Some c)) /\ nth_error (chans s) c = Some ch /\ c_open ch = false.
(** The peer's channel is full. *)
Definition full (s : net) (a : N) (c : nat) : Prop :=
  peers s a = Some (Joined (Some c)) /\ exists ch, nth_error (chans s) c = Some ch /\ c_open ch = true /\ (buffer <= length (c_queue ch))%nat.
(** The connected peers of a list, with their channels. *)
Definition connected (s : net) (l : list N) : list (N * nat) := flat_map (fun a => match peers s a with Some (Joined (Some c)) => [(a, c)] | _ => [] end) l.
(** A state some history leads to. *)
Definition reached (l : list N) (s : net) : Prop := exists es, fst (run (loaded l) es) = s.
(** Every connected peer of the list has a running stream with room in its channel. *)
Definition roomy (s : net) (l : list N) : Prop :=
  forall a c, In (a, c) (connected s l) -> exists ch, nth_error (chans s) c = Some ch /\ c_open ch = true /\ (length (c_queue ch) < buffer)%nat.
(** What a channel's task still has to write. *)
Definition pending (ch : chan) : list bytes := match c_writing ch with Some m => m :: c_queue ch | None => c_queue ch end.
(** The first list is the second with some items left out. *)
Inductive within {A} : list A -> list A -> Prop :=
| w_nil : forall l, within [] l
| w_take : forall x k l, within k l -> within (x :: k) (x :: l)
| w_skip : forall x k l, within k l -> within k (x :: l).
