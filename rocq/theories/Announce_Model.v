(** Announcing a new block to the connected peers: network/src/manager.rs:388-408, network/src/peers.rs:36-64, network/src/streams/up_streams.rs.
    Peers are told apart by their socket addresses, here numbers. Of a peer only its connection handle is modelled, of a connection only the handle of its announcement
    stream ([UpStreamKind] has one kind, stream_kinds.rs:24-26), and of a handle the channel between it and the task that writes the stream. *)
From Verif Require Import Base.

(** network/src/manager.rs:24 *)
Definition buffer : nat := N.to_nat 1024.
(** A channel and the task at its end (up_streams.rs:123-135): whether the task runs, what is in the channel, what the task is writing. *)
Record chan := { c_open : bool; c_queue : list bytes; c_writing : option bytes }.
(** What is known of a peer (peers.rs:91-96, 120-126): no connection, or one, with or without an announcement stream. *)
Inductive link := Apart | Joined (up : option nat).
(** One call of announce_block_to_all_peers (manager.rs:388-408): still to visit these peers, at its end, or ended by the error of a peer. *)
Inductive progress := Going (rest : list N) | Finished | Failed.
(** The peers of the map, the channels ever made (manager.rs:162), the announcements ever begun. *)
Record net := { peers : N -> option link; chans : list chan; calls : list (bytes * progress) }.
(** manager.rs:46-71: the validators' addresses are loaded, nothing is connected. *)
Definition loaded (l : list N) : net := {| peers := fun a => if existsb (N.eqb a) l then Some Apart else None; chans := []; calls := [] |}.

(** What happens: a connection is made (accepted, manager.rs:91-95, or dialled, 359-363) and its handle stored; an announcement stream is opened from either side
    (150-184); the task of a channel takes a message, and writes it or finds the stream broken (up_streams.rs:127-134); the node announces a header (the map is gone
    through in some order); an announcement goes on to its next peer. *)
Inductive event := Stored (a : N) | Opened (a : N) | Taken (c : nat) | Written (c : nat) (ok : bool) | Announced (blob : bytes) (order : list N) | Goes_on (call : nat).
(** What comes out: a message given to a peer's channel by an announcement, and a message on the wire (network/src/streams/up_streams.rs:33-35, 127-134). *)
Inductive out := Given (call : nat) (a : N) (c : nat) (blob : bytes) | Wire (c : nat) (blob : bytes).

(** Replacing an entry of the map of peers, network/src/peers.rs:41-42, 142-147 *)
Definition set_link (p : N -> option link) (a : N) (l : link) : N -> option link := fun x => if N.eqb x a then Some l else p x.
(** Replacing an item of a list; the state of a channel or of a call of manager.rs:388-408. *)
Fixpoint put_at {A} (l : list A) (i : nat) (x : A) : list A :=
  match l, i with [], _ => [] | _ :: l', O => x :: l' | y :: l', S i' => y :: put_at l' i' x end.
(** peers.rs:36-47: an unknown address is an error, and the connection is given up. The old handle and with it its channel's sender are dropped; what is in that channel is
    still written (up_streams.rs:127). *)
Definition store_connection (s : net) (a : N) : net :=
  match peers s a with Some _ => {| peers := set_link (peers s) a (Joined None); chans := chans s; calls := calls s |} | None => s end.
(** manager.rs:150-184 with peers.rs:49-64, 136-152: a new channel and its task; the handle is kept if the peer is known and connected, else the error is logged and the
    sender dropped. *)
Definition open_stream (s : net) (a : N) : net :=
  {| peers := match peers s a with Some (Joined _) => set_link (peers s) a (Joined (Some (length (chans s)))) | _ => peers s end;
     chans := chans s ++ [{| c_open := true; c_queue := []; c_writing := None |}]; calls := calls s |}.
(** The state after a channel changed, up_streams.rs:123-135. *)
Definition with_chan (s : net) (c : nat) (x : chan) : net := {| peers := peers s; chans := put_at (chans s) c x; calls := calls s |}.
(** The state after a call got further, manager.rs:388-408. *)
Definition with_call (s : net) (i : nat) (x : bytes * progress) : net := {| peers := peers s; chans := chans s; calls := put_at (calls s) i x |}.
(** up_streams.rs:127: taking a message makes room in the channel. *)
Definition take (s : net) (c : nat) : net :=
  match nth_error (chans s) c with
  | Some {| c_open := true; c_queue := m :: q; c_writing := None |} => with_chan s c {| c_open := true; c_queue := q; c_writing := Some m |}
  | _ => s
  end.
(** up_streams.rs:128-133: after an error the task ends, and the receiver is dropped with all that is in the channel. *)
Definition write (s : net) (c : nat) (ok : bool) : net * list out :=
  match nth_error (chans s) c with
  | Some {| c_open := true; c_queue := q; c_writing := Some m |} =>
      if ok then (with_chan s c {| c_open := true; c_queue := q; c_writing := None |}, [Wire c m])
      else (with_chan s c {| c_open := false; c_queue := []; c_writing := None |}, [])
  | _ => (s, [])
  end.
(** One turn of the loop of manager.rs:393-405 with up_streams.rs:33-35: a peer without connection or stream is passed over; sending waits while the channel is full,
    and fails when its task has ended, which ends the loop. *)
Definition goes_on (s : net) (i : nat) : net * list out :=
  match nth_error (calls s) i with
  | Some (b, Going []) => (with_call s i (b, Finished), [])
  | Some (b, Going (a :: rest)) =>
      match peers s a with
      | Some (Joined (Some c)) =>
          match nth_error (chans s) c with
          | Some ch =>
              if c_open ch then
                if Nat.ltb (length (c_queue ch)) buffer then
                  (with_call (with_chan s c {| c_open := true; c_queue := c_queue ch ++ [b]; c_writing := c_writing ch |}) i (b, Going rest), [Given i a c b])
                else (s, [])
              else (with_call s i (b, Failed), [])
          | None => (s, [])
          end
      | _ => (with_call s i (b, Going rest), [])
      end
  | _ => (s, [])
  end.
(** The events in the terms of the functions above; manager.rs:388-393 begins a call. *)
Definition happens (s : net) (e : event) : net * list out :=
  match e with
  | Stored a => (store_connection s a, [])
  | Opened a => (open_stream s a, [])
  | Taken c => (take s c, [])
  | Written c ok => write s c ok
  | Announced b order => ({| peers := peers s; chans := chans s; calls := calls s ++ [(b, Going order)] |}, [])
  | Goes_on i => goes_on s i
  end.
(** A history of the above (network/src/manager.rs:388-408 and the tasks of up_streams.rs:123-135, interleaved in any way). *)
Fixpoint run (s : net) (es : list event) : net * list out :=
  match es with [] => (s, []) | e :: es' => let '(s1, o1) := happens s e in let '(s2, o2) := run s1 es' in (s2, o1 ++ o2) end.
