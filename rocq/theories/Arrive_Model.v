(** From a heard announcement to the import: network/src/streams/up_streams.rs:61-121, node/src/jam_node/runner.rs:9-52 and node/src/roles/importer.rs:116-149.
    Every announcement starts a task of its own that asks the announcer for the block and sends it to the importer; the importer starts once the node has dialled its peers.
    What the request says and what a reply is read as is Net_Model; what an import checks besides the parent is a parameter. Left out: the node's own
    blocks (Author_Model), and blocks that claim to be a genesis block, whose parent is not compared (importer.rs:177-190, Import_Model). *)
From Verif Require Import Base.
Open Scope N_scope.

(** node/src/jam_node/runner.rs:13 *)
Definition channel_size : nat := 10.

Section Arrive.
  (** A block, its hash and its parent's, block/src/types/block.rs:31-40, 77-79. *)
  Variable B : Type.
  Variables hash parent : B -> N.
  (** The checks of an import on top of this best block, other than that of the parent (importer.rs:177-352). *)
  Variable ok : N -> B -> bool.

  (** A task (up_streams.rs:82-109): waiting for the reply, holding the block until the channel takes it, or at its end. *)
  Inductive task := Asking (h : N) | Holding (b : B) | Over.
  (** Whether the importer runs (runner.rs:33-43), the tasks, the channel of runner.rs:14, and the best block (importer.rs:129-141). *)
  Record node_at := mk_at { a_runs : bool; a_tasks : list task; a_chan : list B; a_best : N }.
  (** A chunk of an announcement stream is read (up_streams.rs:67-82); the reply to a task's request comes, with a block or not (up_streams.rs:83-92, 106-108); a task's send is
      accepted (up_streams.rs:94-97); the peers are dialled (runner.rs:34-41); the importer takes the next block (importer.rs:120-147). *)
  Inductive happening := Heard (h : N) | Replied (i : nat) (r : option B) | Sent (i : nat) | Dialled | Takes.
  (** What is seen: a reply with a block, a block in the channel, a block taken by the importer, accepted or not. up_streams.rs:92-97, importer.rs:120-147. *)
  Inductive sight := Fetched (b : B) | Queued (b : B) | Took (b : B) (accepted : bool).

  (** Replacing a task's state, up_streams.rs:82-109. *)
  Fixpoint put_task (l : list task) (i : nat) (t : task) : list task :=
    match l, i with [], _ => [] | _ :: l', O => t :: l' | x :: l', S i' => x :: put_task l' i' t end.
  (** importer.rs:129-147, 354-367: the parent must be the best block; a refused block changes nothing. *)
  Definition accepts (best : N) (b : B) : bool := (parent b =? best) && ok best b.
  (** One happening; one that is not possible changes nothing. up_streams.rs:61-121, runner.rs:9-52, importer.rs:116-149. *)
  Definition happens (n : node_at) (e : happening) : node_at * list sight :=
    match e with
    | Heard h => (mk_at (a_runs n) (a_tasks n ++ [Asking h]) (a_chan n) (a_best n), [])
    | Replied i r =>
        match nth_error (a_tasks n) i with
        | Some (Asking _) => match r with
                             | Some b => (mk_at (a_runs n) (put_task (a_tasks n) i (Holding b)) (a_chan n) (a_best n), [Fetched b])
                             | None => (mk_at (a_runs n) (put_task (a_tasks n) i Over) (a_chan n) (a_best n), [])
                             end
        | _ => (n, [])
        end
    | Sent i =>
        match nth_error (a_tasks n) i with
        | Some (Holding b) => if Nat.ltb (length (a_chan n)) channel_size
                              then (mk_at (a_runs n) (put_task (a_tasks n) i Over) (a_chan n ++ [b]) (a_best n), [Queued b]) else (n, [])
        | _ => (n, [])
        end
    | Dialled => (mk_at true (a_tasks n) (a_chan n) (a_best n), [])
    | Takes =>
        match a_runs n, a_chan n with
        | true, b :: q => if accepts (a_best n) b then (mk_at true (a_tasks n) q (hash b), [Took b true]) else (mk_at true (a_tasks n) q (a_best n), [Took b false])
        | _, _ => (n, [])
        end
    end.
  (** Happenings one after the other, from runner.rs:9 on. *)
  Fixpoint happen (n : node_at) (l : list happening) : node_at * list sight :=
    match l with [] => (n, []) | e :: l' => let (n1, o1) := happens n e in let (n2, o2) := happen n1 l' in (n2, o1 ++ o2) end.
  (** runner.rs:9-14: before anything happened. *)
  Definition begun_at (best : N) : node_at := mk_at false [] [] best.
End Arrive.
Arguments Asking {B}. Arguments Holding {B}. Arguments Over {B}. Arguments mk_at {B}. Arguments a_runs {B}. Arguments a_tasks {B}. Arguments a_chan {B}. Arguments a_best {B}.
Arguments Heard {B}. Arguments Replied {B}. Arguments Sent {B}. Arguments Dialled {B}. Arguments Takes {B}. Arguments Fetched {B}. Arguments Queued {B}. Arguments Took {B}.
Arguments put_task {B}. Arguments begun_at {B}.
