(** Model of what the transition tasks of one block do with the state manager, and of how the executor groups them into concurrent stages
    (node/src/roles/executor.rs:76-330). The access sequences are those of the code; what is computed from the values read is a parameter, except for
    the epoch entropy, whose parts different tasks use at the same time.
    Simplifications: extrinsic data, signatures, hashing and the header database are inside those parameters (they are not shared state); the entropy
    transition of the second stage runs on the executor's own task, here on one of its own; if it failed, the reports task would be left running
    detached, and the block has failed already; transitions that run with nothing beside them (timeslot, Safrole, accumulation, history) are any programs;
    a panic of a task is out of scope. *)
From Verif Require Import Base Sched_Model.

(** The components of the state (state/src/state_utils.rs and the account entries of state/src/manager.rs). state/src/state_utils.rs:202-220. *)
Inductive comp :=
| AuthPool | AuthQueue | History | SafroleC | Disputes | Entropy | Staging | Active | Past | Pending | Timeslot | Privileges | Stats | AccQueue | AccHistory | LastOutputs
| Metadata (s : N) | Storage (s : N) (k : bytes) | Preimage (s : N) (h : bytes) | Lookup (s : N) (h : bytes) (len : N).
(** Equality of keys; derived on state/src/state_utils.rs:202-220. *)
Definition comp_eq : forall a b : comp, {a = b} + {a <> b}.
Proof. repeat decide equality. Defined.

Section Flow.
  Context {X : Type}.
  (** state/src/types/epoch_entropy.rs: the four entropies, newest first; any other component. state/src/types/entropy.rs:13. *)
  Inductive value := Eta (l : list bytes) | Other (x : X).
  Notation prog := (prog comp value (option (list X))).

  (** manager.rs:1021-1046: a simple component must be there *)
  Definition need (k : comp) (c : value -> prog) : prog := Get k (fun o => match o with Some v => c v | None => Ret None end).
  (** Part of manager.rs:1021-1046. *)
  Definition need_clean (k : comp) (c : value -> prog) : prog := GetClean k (fun o => match o with Some v => c v | None => Ret None end).
  (** manager.rs:1048-1064, with [StateMut::Update] *)
  Definition change (k : comp) (f : value -> option value) (c : prog) : prog := Mut k false f (fun b => if b then c else Ret None).

  (** How the checks of an extrinsic that need no state came out: nothing in it, badly formed, or entries to check. The early returns of extrinsics/src/validation/disputes.rs:51-70 and of the other validators. *)
  Inductive shape (B : Type) := Empty | Malformed | Entries (b : B).
  Arguments Empty {B}. Arguments Malformed {B}. Arguments Entries {B}.

  (** extrinsics/src/validation/disputes.rs:50-142: [offenders]: there are culprits or faults *)
  Record disputes_data := { d_shape : shape unit; d_offenders : bool; d_verdicts_ok : value -> value -> value -> bool; d_offenders_ok : value -> value -> value -> bool;
                            d_merge : value -> option value; d_hash : value -> value -> option X }.
  (** Part of extrinsics/src/validation/disputes.rs:50-142. *)
  Definition check_disputes (d : disputes_data) (c : prog) : prog :=
    match d_shape d with
    | Empty => c
    | Malformed => Ret None
    | Entries _ =>
        need_clean Disputes (fun ds => need_clean Active (fun a => need_clean Past (fun p =>
          if d_verdicts_ok d ds a p then
            if d_offenders d then need_clean Disputes (fun ds' => if d_offenders_ok d ds' a p then c else Ret None) else c
          else Ret None)))
    end.
  (** transition/src/state/disputes.rs:15-55; the answer is the hash that goes to [update_last_staging_set_hash] *)
  Definition disputes_task (d : disputes_data) : prog :=
    check_disputes d (change Disputes (d_merge d)
      (Get Staging (fun o => match o with
                             | None => Ret (Some [])
                             | Some st => need Disputes (fun ds => match d_hash d st ds with Some x => Ret (Some [x]) | None => Ret None end)
                             end))).
  (** transition/src/state/entropy.rs:13-34 *)
  Definition rotate (epoch : bool) (v : value) : option value :=
    match v with
    | Eta [e0; e1; e2; e3] => Some (Eta (if epoch then [e0; e0; e1; e2] else [e0; e1; e2; e3]))
    | _ => None
    end.
  (** Part of transition/src/state/entropy.rs:13-34. *)
  Definition entropy_epoch_task (epoch : bool) : prog := change Entropy (rotate epoch) (Ret (Some [])).
  (** transition/src/state/entropy.rs:36-59 *)
  Definition absorb (H : bytes -> bytes) (source : bytes) (v : value) : option value :=
    match v with Eta (e0 :: l) => Some (Eta (H (e0 ++ source) :: l)) | _ => None end.
  (** Part of transition/src/state/entropy.rs:36-59. *)
  Definition entropy_block_task (H : bytes -> bytes) (source : bytes) : prog := change Entropy (absorb H source) (Ret (Some [])).
  (** transition/src/state/validators.rs:29-53 *)
  Definition past_task (epoch : bool) (past_of : value -> value) : prog :=
    if epoch then need_clean Active (fun a => change Past (fun _ => Some (past_of a)) (Ret (Some []))) else Ret (Some []).
  (** transition/src/state/validators.rs:5-27 *)
  Definition active_task (epoch : bool) (pending_of : value -> value) : prog :=
    if epoch then need_clean SafroleC (fun s => change Active (fun _ => Some (pending_of s)) (Ret (Some []))) else Ret (Some []).
  (** transition/src/state/history.rs:14-43 *)
  Definition history_task (is_empty : value -> bool) (set_root : value -> value) : prog :=
    need_clean History (fun h => if is_empty h then Ret (Some []) else change History (fun v => Some (set_root v)) (Ret (Some []))).

  (** extrinsics/src/validation/assurances.rs:41-125, one entry: what is checked of the active set, then of the pending reports *)
  Record assurance := { a_set_ok : value -> bool; a_pending_ok : value -> bool }.
  (** Part of extrinsics/src/validation/assurances.rs:41-125. *)
  Fixpoint check_assurances (l : list assurance) (c : prog) : prog :=
    match l with
    | [] => c
    | a :: l' => need_clean Active (fun s => if a_set_ok a s then need Pending (fun p => if a_pending_ok a p then check_assurances l' c else Ret None) else Ret None)
    end.
  (** extrinsics/src/utils/guarantor_rotation.rs:59-114 and guarantees.rs:541-608, one credential: whether the report's slot is in the current rotation, whether the
      previous rotation is in the current epoch, and the check, given the slot, the entropy used, the validators and the disputes; it gives the guarantor's key. *)
  Record credential := { c_current : value -> bool; c_same_epoch : value -> bool; c_check : bool -> value -> bytes -> value -> value -> option X }.
  (** state/src/types/entropy.rs:13. *)
  Definition eta (n : nat) (v : value) : bytes := match v with Eta l => nth n l [] | Other _ => [] end.
  (** Part of extrinsics/src/utils/guarantor_rotation.rs:59-114 and extrinsics/src/validation/guarantees.rs:541-608. *)
  Definition check_credential (g : credential) (c : X -> prog) : prog :=
    let fin (b : bool) t e s d := match c_check g b t e s d with Some x => c x | None => Ret None end in
    need Timeslot (fun t =>
      if c_current g t then
        need Timeslot (fun t => need Entropy (fun e => let e2 := eta 2 e in need Active (fun s => need Disputes (fun d => fin true t e2 s d))))
      else
        need Timeslot (fun t => need Disputes (fun d => need Entropy (fun e =>
          if c_same_epoch g t then let e2 := eta 2 e in need Active (fun s => fin false t e2 s d)
          else let e3 := eta 3 e in need Past (fun s => fin false t e3 s d))))).
  (** Part of extrinsics/src/utils/guarantor_rotation.rs:59-114 and extrinsics/src/validation/guarantees.rs:541-608. *)
  Fixpoint check_credentials (l : list credential) (keys : list X) (c : list X -> prog) : prog :=
    match l with [] => c keys | g :: l' => check_credential g (fun x => check_credentials l' (x :: keys) c) end.
  (** extrinsics/src/validation/guarantees.rs:160-310. *)
  Fixpoint check_accounts (l : list (N * (value -> bool))) (c : prog) : prog :=
    match l with
    | [] => c
    | (s, ok) :: l' => Get (Metadata s) (fun o => match o with Some m => if ok m then check_accounts l' c else Ret None | None => Ret None end)
    end.
  (** extrinsics/src/validation/guarantees.rs:160-310, 474-540, one entry: the checks before any account is read, the accounts whose gas limits are checked, the checks
      against the components read at the start, the accounts whose code hashes are checked, the form of the credentials, the credentials *)
  Record guarantee := { g_pre : bool; g_gas : list (N * (value -> bool)); g_check : list value -> bool; g_code : list (N * (value -> bool)); g_form : bool; g_creds : list credential }.
  (** Part of extrinsics/src/validation/guarantees.rs:160-310, 474-540. *)
  Fixpoint check_guarantees (l : list guarantee) (read : list value) (keys : list X) (c : list X -> prog) : prog :=
    match l with
    | [] => c keys
    | g :: l' =>
        if g_pre g then check_accounts (g_gas g)
          (if g_check g read then check_accounts (g_code g) (if g_form g then check_credentials (g_creds g) keys (fun ks => check_guarantees l' read ks c) else Ret None)
           else Ret None)
        else Ret None
    end.
  (** guarantees.rs:88-157 *)
  Definition guarantees_part (sh : shape (list guarantee)) (c : list X -> prog) : prog :=
    match sh with
    | Empty => c []
    | Malformed => Ret None
    | Entries l =>
        need Pending (fun a => need_clean Pending (fun b => need_clean AuthPool (fun p => need History (fun h => need_clean AccQueue (fun q => need_clean AccHistory (fun x =>
          check_guarantees l [a; b; p; h; q; x] [] c))))))
    end.
  (** transition/src/state/reports.rs:22-176 *)
  Record reports_data := { r_drop : value -> option value; r_assurances : shape (list assurance); r_available : value -> option (list X);
                           r_clear : value -> value -> value -> option value; r_guarantees : shape (list guarantee); r_insert : value -> option value }.
  (** Part of transition/src/state/reports.rs:22-176. *)
  Definition reports_task (d : disputes_data) (r : reports_data) : prog :=
    check_disputes d (change Pending (r_drop r)
      (let go := need Pending (fun p => match r_available r p with
                                        | None => Ret None
                                        | Some av => need Timeslot (fun t => change Pending (r_clear r p t)
                                            (guarantees_part (r_guarantees r) (fun keys => change Pending (r_insert r) (Ret (Some (av ++ keys))))))
                                        end) in
       match r_assurances r with Empty => go | Malformed => Ret None | Entries l => check_assurances l go end)).

  (** transition/src/state/authorizer.rs:17-61 *)
  Definition pool_task (pool : value -> value -> option value) : prog := need AuthQueue (fun q => change AuthPool (pool q) (Ret (Some []))).
  (** transition/src/state/services.rs:396-422 *)
  Fixpoint stamp (t : value) (f : value -> value -> option value) (l : list N) : prog :=
    match l with
    | [] => Ret (Some [])
    | s :: l' => Get (Metadata s) (fun o => match o with Some _ => change (Metadata s) (f t) (stamp t f l') | None => stamp t f l' end)
    end.
  (** Part of transition/src/state/services.rs:396-422. *)
  Definition stamp_task (f : value -> value -> option value) (l : list N) : prog := need Timeslot (fun t => stamp t f l).
  (** transition/src/state/statistics.rs:18-180 *)
  Definition stats_task (epoch : bool) (roll : value -> value -> option value) (keys_ok : value -> bool) (count : value -> value -> option value) (block : value -> option value) : prog :=
    let rest := need Active (fun a => if keys_ok a then change Stats (count a) (change Stats block (Ret (Some []))) else Ret None) in
    if epoch then need Stats (fun st => change Stats (roll st) rest) else rest.
  (** extrinsics/src/validation/preimages.rs:56-95 *)
  Record preimage := { x_service : N; x_hash : bytes; x_len : N; x_data : value }.
  (** Part of extrinsics/src/validation/preimages.rs:56-95. *)
  Fixpoint check_preimages (is_empty : value -> bool) (l : list preimage) (c : prog) : prog :=
    match l with
    | [] => c
    | x :: l' => GetClean (Preimage (x_service x) (x_hash x)) (fun o =>
        match o with
        | Some _ => Ret None
        | None => GetClean (Lookup (x_service x) (x_hash x) (x_len x)) (fun r => match r with Some e => if is_empty e then check_preimages is_empty l' c else Ret None | None => Ret None end)
        end)
    end.
  (** transition/src/state/services.rs:433-503 *)
  Fixpoint integrate (is_empty : value -> bool) (push : value -> value -> option value) (t : value) (l : list preimage) : prog :=
    match l with
    | [] => Ret (Some [])
    | x :: l' =>
        Get (Preimage (x_service x) (x_hash x)) (fun have => Get (Lookup (x_service x) (x_hash x) (x_len x)) (fun asked =>
          if match have, asked with None, Some e => is_empty e | _, _ => false end then
            change (Lookup (x_service x) (x_hash x) (x_len x)) (push t) (Add (Preimage (x_service x) (x_hash x)) (x_data x) (fun b => if b then integrate is_empty push t l' else Ret None))
          else integrate is_empty push t l'))
    end.
  (** Part of transition/src/state/services.rs:433-503. *)
  Definition preimages_task (is_empty : value -> bool) (push : value -> value -> option value) (sh : shape (list preimage)) : prog :=
    match sh with
    | Empty => need Timeslot (fun t => integrate is_empty push t [])
    | Malformed => Ret None
    | Entries l => check_preimages is_empty l (need Timeslot (fun t => integrate is_empty push t l))
    end.

  (** Everything a block's tasks compute with. The block of node/src/roles/executor.rs:104-330. *)
  Record block_data := {
    b_epoch : bool; b_disputes : disputes_data; b_past_of : value -> value; b_pending_of : value -> value; b_no_history : value -> bool; b_set_root : value -> value;
    b_safrole : prog; b_hash : bytes -> bytes; b_source : bytes; b_reports : reports_data; b_accumulate : list (option (list X)) -> prog;
    b_pool : value -> value -> option value; b_stamp : value -> value -> option value; b_services : list (option (list X)) -> list N;
    b_roll : value -> value -> option value; b_keys_ok : value -> bool; b_count : list (option (list X)) -> value -> value -> option value; b_stats : list (option (list X)) -> value -> option value;
    b_is_empty : value -> bool; b_push : value -> value -> option value; b_preimages : shape (list preimage); b_append : prog }.
  (** executor.rs:104-152 *)
  Definition first_tasks (b : block_data) : list prog :=
    [ disputes_task (b_disputes b); entropy_epoch_task (b_epoch b); past_task (b_epoch b) (b_past_of b); active_task (b_epoch b) (b_pending_of b); history_task (b_no_history b) (b_set_root b) ].
  (** executor.rs:203-233 *)
  Definition second_tasks (b : block_data) : list prog := [ reports_task (b_disputes b) (b_reports b); entropy_block_task (b_hash b) (b_source b) ].
  (** executor.rs:274-317 *)
  Definition last_tasks (b : block_data) (ra rb : list (option (list X))) : list prog :=
    [ pool_task (b_pool b); stamp_task (b_stamp b) (b_services b rb); stats_task (b_epoch b) (b_roll b) (b_keys_ok b) (b_count b ra) (b_stats b rb); preimages_task (b_is_empty b) (b_push b) (b_preimages b) ].
  (** The [?] on joined tasks at node/src/roles/executor.rs:152, 233, 317. *)
  Definition all_ok (r : list (option (list X))) : bool := forallb (fun o => match o with Some _ => true | None => false end) r.
  (** The [?] on joined tasks at node/src/roles/executor.rs:152, 233, 317. *)
  Definition go_on (r : list (option (list X))) (f : flow comp value (option (list X))) : flow comp value (option (list X)) := if all_ok r then f else End.
  (** executor.rs:104-330 and 413-425, from the spawning of the first tasks to the last change of the history *)
  Definition block_flow (b : block_data) : flow comp value (option (list X)) :=
    Stage (first_tasks b) (fun r1 => go_on r1 (
    Stage [b_safrole b] (fun r2 => go_on r2 (
    Stage (second_tasks b) (fun r3 => go_on r3 (
    Stage [b_accumulate b r3] (fun r4 => go_on r4 (
    Stage (last_tasks b r3 r4) (fun r5 => go_on r5 (
    Stage [b_append b] (fun _ => End))))))))))).
End Flow.
Arguments value X : clear implicits.
Arguments block_data X : clear implicits.
Arguments disputes_data X : clear implicits.
Arguments reports_data X : clear implicits.
Arguments Empty {B}. Arguments Malformed {B}. Arguments Entries {B}.
