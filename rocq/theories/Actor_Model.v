(** The task that owns the state trie and the handle through which every caller reaches it: state/src/merkle_interface/actor.rs, state/src/manager.rs:245-266;
    and reads and commits of the state manager that run at the same time (state/src/manager.rs:742-768, 803-869).
    The channels are tokio's: a bounded queue whose senders wait for room, and a one-shot reply whose receiver fails when the sender is dropped. Waiting senders may
    enter in any order. A caller may give up at any await point (its future is dropped). A command that panics ends the task and drops the queue; the manager is then gone.
    Simplified: a panicking command has written nothing (the panics of the trie's commands precede the write of their one batch). *)
From Verif Require Import Base Trie_Model.

(** Where a call stands: waiting for room in the queue, waiting for the reply, the reply is there, and the ends: returned, failed with MerkleActorClosed, given up.
    actor.rs:45-124. *)
Inductive call (Cmd Rep : Type) := Sending (c : Cmd) | Waiting (c : Cmd) | Replied (c : Cmd) (r : Rep) | Returned (c : Cmd) (r : Rep) | Closed (c : Cmd) | GivenUp (c : Cmd).
Arguments Sending {Cmd Rep}. Arguments Waiting {Cmd Rep}. Arguments Replied {Cmd Rep}. Arguments Returned {Cmd Rep}. Arguments Closed {Cmd Rep}. Arguments GivenUp {Cmd Rep}.

Section Actor.
  Context {St Cmd Rep : Type} (exec : St -> Cmd -> option (St * Rep)).
  (** state/src/manager.rs:247 *)
  Definition CHANNEL_SIZE : nat := 10.
  (** The task and its callers: the owned state, the queue, the command in work, whether the task runs, and the calls ever made. actor.rs:126-130. *)
  Record sys := mk_sys { y_st : St; y_box : list (nat * Cmd); y_cur : option (nat * Cmd); y_alive : bool; y_calls : list (call Cmd Rep) }.
  (** state/src/manager.rs:245-252 *)
  Definition spawn (s : St) : sys := mk_sys s [] None true [].
  (** Assigning to a place in the list of calls: a call moving on, actor.rs:45-121. *)
  Fixpoint put_call (l : list (call Cmd Rep)) (i : nat) (x : call Cmd Rep) : list (call Cmd Rep) :=
    match l, i with [], _ => [] | _ :: l', O => x :: l' | y :: l', S i' => y :: put_call l' i' x end.
  (** The one-shot reply: delivered to a caller that still waits (actor.rs:139-171, [let _ = resp.send(..)]). *)
  Definition deliver (l : list (call Cmd Rep)) (i : nat) (r : Rep) : list (call Cmd Rep) :=
    match nth_error l i with Some (Waiting c) => put_call l i (Replied c r) | _ => l end.
  (** What can happen next: a step of a caller (actor.rs:45-121) or of the task (actor.rs:134-173). *)
  Inductive act := Invoke (c : Cmd) | Enqueue (i : nat) | SendFails (i : nat) | Take | Finish | Return (i : nat) | RecvFails (i : nat) | GiveUp (i : nat).
  (** actor.rs:45-124 (the handle) and 136-173 (the loop). [None]: not possible now. *)
  Definition act_step (s : sys) (a : act) : option sys :=
    match a with
    | Invoke c => Some (mk_sys (y_st s) (y_box s) (y_cur s) (y_alive s) (y_calls s ++ [Sending c]))
    | Enqueue i =>
        match nth_error (y_calls s) i with
        | Some (Sending c) => if y_alive s && Nat.ltb (length (y_box s)) CHANNEL_SIZE
                              then Some (mk_sys (y_st s) (y_box s ++ [(i, c)]) (y_cur s) (y_alive s) (put_call (y_calls s) i (Waiting c))) else None
        | _ => None
        end
    | SendFails i =>
        match nth_error (y_calls s) i with
        | Some (Sending c) => if y_alive s then None else Some (mk_sys (y_st s) (y_box s) (y_cur s) (y_alive s) (put_call (y_calls s) i (Closed c)))
        | _ => None
        end
    | Take =>
        match y_cur s, y_box s with
        | None, x :: b => Some (mk_sys (y_st s) b (Some x) (y_alive s) (y_calls s))
        | _, _ => None
        end
    | Finish =>
        match y_cur s with
        | Some (i, c) => match exec (y_st s) c with
                         | Some (st, r) => Some (mk_sys st (y_box s) None (y_alive s) (deliver (y_calls s) i r))
                         | None => Some (mk_sys (y_st s) [] None false (y_calls s))
                         end
        | None => None
        end
    | Return i =>
        match nth_error (y_calls s) i with
        | Some (Replied c r) => Some (mk_sys (y_st s) (y_box s) (y_cur s) (y_alive s) (put_call (y_calls s) i (Returned c r)))
        | _ => None
        end
    | RecvFails i =>
        match nth_error (y_calls s) i with
        | Some (Waiting c) => if y_alive s then None else Some (mk_sys (y_st s) (y_box s) (y_cur s) (y_alive s) (put_call (y_calls s) i (Closed c)))
        | _ => None
        end
    | GiveUp i =>
        match nth_error (y_calls s) i with
        | Some (Sending c) | Some (Waiting c) | Some (Replied c _) => Some (mk_sys (y_st s) (y_box s) (y_cur s) (y_alive s) (put_call (y_calls s) i (GivenUp c)))
        | _ => None
        end
    end.
  (** A schedule of such steps, actor.rs:45-173. *)
  Fixpoint acts (s : sys) (l : list act) : option sys := match l with [] => Some s | a :: l' => match act_step s a with Some s' => acts s' l' | None => None end end.
End Actor.

(** ** The commands of the trie's task: actor.rs:14-37, executed at 136-173. *)
Inductive mcmd := MRoot | MRetrieve (k : path) | MCommit (es : list entry) | MPrepare (es : list entry) | MApply (w : write_set).
(** The replies: actor.rs:14-37. *)
Inductive mrep := RRoot (r : bytes) | RLeaf (o : option ldata) | RCommit (w : list (bytes * bytes)) | RPrepare (w : option write_set) | RApply | RFailed (e : terr).
(** actor.rs:136-173; [None]: the command panics. *)
Definition merkle_exec (H : bytes -> bytes) (m : mgr) (c : mcmd) : option (mgr * mrep) :=
  match c with
  | MRoot => Some (m, RRoot (d_root (g_db m)))
  | MRetrieve k => Some (m, RLeaf (option_map lf_data (db_leaf (g_db m) k)))
  | MCommit es => match commit H m es with (m', Ok w) => Some (m', RCommit w) | (m', Err e) => Some (m', RFailed e) | (_, Panic) => None end
  | MPrepare es => match prepare_commit H m es with (m', Ok w) => Some (m', RPrepare w) | (m', Err e) => Some (m', RFailed e) | (_, Panic) => None end
  | MApply w => Some (apply_commit m w, RApply)
  end.

(** ** Reads and commits at the same time. A commit has the trie's task write the trie and then writes the state database (manager.rs:841-869);
       a read asks the task for the leaf and then looks a long value up in the state database (manager.rs:742-768). *)
Record shared := mk_shared { h_mgr : mgr; h_db : list (bytes * bytes); h_pending : list (list (bytes * bytes)) }.
(** An empty store, no commit on its way. state/src/manager.rs:245-266. *)
Definition shared_start : shared := mk_shared (new_mgr empty_mdb) [] [].
(** The two halves of commits; [StateWrite i]: the [i]-th of the commits on their way writes the state database. manager.rs:841-869. *)
Inductive half := TrieWrite (es : list entry) | StateWrite (i : nat).
(** The list without its [i]-th element: a commit is done, manager.rs:841-869. *)
Fixpoint drop_at {A} (l : list A) (i : nat) : list A := match l, i with [], _ => [] | _ :: l', O => l' | x :: l', S i' => x :: drop_at l' i' end.
(** manager.rs:841-869, one half at a time; [None]: not possible, or the trie refuses the batch. *)
Definition half_step (H : bytes -> bytes) (s : shared) (a : half) : option shared :=
  match a with
  | TrieWrite es => match commit H (h_mgr s) es with (m, Ok w) => Some (mk_shared m (h_db s) (h_pending s ++ [w])) | _ => None end
  | StateWrite i => match nth_error (h_pending s) i with Some w => Some (mk_shared (h_mgr s) (rev w ++ h_db s) (drop_at (h_pending s) i)) | None => None end
  end.
(** Histories of halves of commits, manager.rs:841-869. *)
Fixpoint halves (H : bytes -> bytes) (s : shared) (l : list half) : option shared := match l with [] => Some s | a :: l' => match half_step H s a with Some s' => halves H s' l' | None => None end end.
(** manager.rs:742-768: the leaf as of [s1], the value as of [s2]. *)
Definition split_read (s1 s2 : shared) (k : path) : result unit (option bytes) := store_read (mk_store (h_mgr s1) (h_db s2)) k.
