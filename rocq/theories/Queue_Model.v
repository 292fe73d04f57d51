(** Authorizer pools (transition/src/state/authorizer.rs), the accumulation queue and history
    (state/src/types/accumulate.rs, transition/src/state/accumulate.rs) and the selection of accumulatable reports
    (pvm/pvm-invocation/src/accumulate/utils.rs). Hashes and service ids are numbers. *)
From Verif Require Import Base LVec_Model.

(** ** Authorizer pools *)
(** A guarantee as far as the pools are concerned: the core and authorizer of its report. block/src/types/extrinsics/guarantees.rs:86-93. *)
Record guar := mk_guar { g_core : nat; g_auth : N }.

(** [iter().position(|h| h == x)]. Used at transition/src/state/authorizer.rs:27-55. *)
Fixpoint position (x : N) (l : list N) : option nat :=
  match l with
  | [] => None
  | y :: l' => if (y =? x)%N then Some 0 else option_map S (position x l')
  end.

Section Auth.
  Variable P : nat.   (* MAX_AUTH_POOL_SIZE *)
  Variable Q : nat.   (* AUTH_QUEUE_SIZE *)

  (** authorizer.rs:27-55, the body of the loop for one core. The missing-entry branch (46-50) only logs. *)
  Definition core_pool_step (guarantees : list guar) (queue : list (list N)) (slot : N) (core : nat) (pool : list N)
    : result lverr (list N) :=
    let used := option_map g_auth (find (fun g => Nat.eqb (g_core g) core) guarantees) in
    let! pool1 := match used with
                  | Some h => match position h pool with
                              | Some i => let! r := remove_at pool i in Ok (snd r)
                              | None => Ok pool
                              end
                  | None => Ok pool
                  end in
    match nth_error queue core with
    | Some core_queue =>
        match nth_error core_queue (N.to_nat slot mod Q) with
        | Some x => let! r := shift_push P pool1 x in Ok (snd r)
        | None => Ok pool1
        end
    | None => Ok pool1
    end.
  (** The loop of transition/src/state/authorizer.rs:16-61. *)
  Fixpoint pools_from (guarantees : list guar) (queue : list (list N)) (slot : N) (core : nat) (pools : list (list N))
    : result lverr (list (list N)) :=
    match pools with
    | [] => Ok []
    | p :: ps => let! p' := core_pool_step guarantees queue slot core p in
                 let! ps' := pools_from guarantees queue slot (S core) ps in Ok (p' :: ps')
    end.
  (** authorizer.rs:16-61. *)
  Definition transition_auth_pool (guarantees : list guar) (queue : list (list N)) (slot : N) (pools : list (list N)) :=
    pools_from guarantees queue slot 0 pools.
End Auth.

(** ** Reports and their dependencies *)
(** [rp_pre]: prerequisites, [rp_look]: keys of the segment-root lookup, both without repetitions; [rp_id] stands for
    everything else in the report. common/src/types/workloads/work_report.rs:384-401. *)
Record report := mk_report { rp_pkg : N; rp_pre : list N; rp_look : list N; rp_id : N }.
(** state/src/types/accumulate.rs:15. *)
Definition entry : Type := report * list N.

(** [contains], used at pvm/pvm-invocation/src/accumulate/utils.rs:33-51. *)
Definition mem (x : N) (l : list N) : bool := existsb (N.eqb x) l.

(** BTreeSet as a strictly ascending list. Used at pvm/pvm-invocation/src/accumulate/utils.rs:19-51 and state/src/types/accumulate.rs:136-143. *)
Fixpoint bset_insert (x : N) (l : list N) : list N :=
  match l with
  | [] => [x]
  | y :: l' => match (x ?= y)%N with Lt => x :: l | Eq => l | Gt => y :: bset_insert x l' end
  end.
(** Used at pvm/pvm-invocation/src/accumulate/utils.rs:19-51 and state/src/types/accumulate.rs:136-143. *)
Definition bset_extend (l xs : list N) : list N := fold_left (fun l x => bset_insert x l) xs l.
(** Used at pvm/pvm-invocation/src/accumulate/utils.rs:19-51 and state/src/types/accumulate.rs:136-143. *)
Definition bset_of (xs : list N) : list N := bset_extend [] xs.

(** utils.rs:19-24. *)
Definition work_report_deps (r : report) : entry := (r, bset_extend (bset_of (rp_pre r)) (rp_look r)).
(** utils.rs:33-51. *)
Definition edit_queue (q : list entry) (news : list N) : list entry :=
  map (fun e => (fst e, filter (fun d => negb (mem d news)) (snd e)))
    (filter (fun e => negb (mem (rp_pkg (fst e)) news)) q).
(** utils.rs:81-86. *)
Definition pkgs (rs : list report) : list N := map rp_pkg rs.
(** pvm/pvm-invocation/src/accumulate/utils.rs:57-77. *)
Definition no_deps (e : entry) : bool := match snd e with [] => true | _ => false end.
(** utils.rs:57-77; [None]: the fuel ran out. *)
Fixpoint extract_accumulatables (fuel : nat) (q : list entry) : option (list report) :=
  match fuel with
  | O => None
  | S fuel' =>
      let ready := filter no_deps q in
      let waiting := filter (fun e => negb (no_deps e)) q in
      match ready with
      | [] => Some []
      | _ => let resolved := map fst ready in
             match extract_accumulatables fuel' (edit_queue waiting (pkgs resolved)) with
             | Some l => Some (resolved ++ l)
             | None => None
             end
      end
  end.
(** utils.rs:92-98. *)
Definition independent (r : report) : bool :=
  match rp_pre r, rp_look r with [], [] => true | _, _ => false end.
(** Part of utils.rs:92-98. *)
Definition partition_reports_by_deps (rs : list report) : list report * list report :=
  (filter independent rs, filter (fun r => negb (independent r)) rs).
(** utils.rs:103-115. *)
Definition extract_queued_reports (rs : list report) (history_union : list N) : list entry :=
  edit_queue (map work_report_deps rs) history_union.

(** accumulate.rs:88-99 (types); [rotate_left] panics beyond the length. *)
Definition rotate_left {A} (l : list A) (mid : nat) : result unit (list A) :=
  if Nat.leb mid (length l) then Ok (skipn mid l ++ firstn mid l) else Panic.
(** accumulate.rs:136-138 (types). *)
Definition history_union (h : list (list N)) : list N := bset_of (concat h).

(** utils.rs:121-150. [E] = EPOCH_LENGTH. Out of fuel is a [Panic] here; it is proved not to happen. *)
Definition collect_accumulatable_reports (E : N) (available : list report) (queue : list (list entry)) (hist : list (list N))
    (slot : N) : result unit (list report * list entry) :=
  let '(accumulatables, with_deps) := partition_reports_by_deps available in
  let! ordered := rotate_left queue (N.to_nat (slot mod E)) in
  let new_queued := extract_queued_reports with_deps (history_union hist) in
  let q := edit_queue (concat ordered ++ new_queued) (pkgs accumulatables) in
  match extract_accumulatables (S (length q)) q with
  | Some resolved => Ok (accumulatables ++ resolved, new_queued)
  | None => Panic
  end.

(** ** Queue and history transitions *)
(** Assigning to an element, state/src/types/accumulate.rs:59-83. *)
Definition set_nth {A} (i : nat) (x : A) (l : list A) : list A := firstn i l ++ x :: skipn (S i) l.
(** accumulate.rs:59-83 (types): index modulo the epoch length; asserts the length. *)
Definition circular (E : N) (i : Z) : nat := Z.to_nat (i mod Z.of_N E).
(** accumulate.rs:140-143 (types); out of range on an empty history. *)
Definition history_add (E : N) (h : list (list N)) (x : list N) : result unit (list (list N)) :=
  let! r := rotate_left h 1 in
  if (N.of_nat (length r) <? E)%N then Panic else Ok (set_nth (N.to_nat (E - 1)) x r).

(** transition/src/error.rs:17-70. *)
Inductive tqerr := InvalidAccumulateCount | AccumulateHistoryMissing.
(** transition/src/error.rs:17-70. *)
Definition lift {A} (r : result unit A) : result tqerr A := match r with Ok a => Ok a | _ => Panic end.

(** transition accumulate.rs:61-87. *)
Definition transition_accumulate_history (E : N) (accumulatable : list report) (count : nat) (h : list (list N))
  : result tqerr (list (list N)) :=
  if Nat.ltb (length accumulatable) count then Err InvalidAccumulateCount
  else lift (history_add E h (bset_of (pkgs (firstn count accumulatable)))).

(** transition accumulate.rs:13-58. [curr - prior] underflows when the slot does not increase. *)
Definition transition_accumulate_queue (E : N) (queued : list entry) (prior curr : N) (h : list (list N)) (queue : list (list entry))
  : result tqerr (list (list entry)) :=
  match rev h with
  | [] => Err AccumulateHistoryMissing
  | last :: _ =>
      if (curr <? prior)%N then Panic
      else if negb (N.of_nat (length queue) =? E)%N then Panic
      else
        let phase := Z.of_N (curr mod E) in
        let skipped := N.to_nat (N.min (curr - prior) E) in
        let q1 := fold_left (fun q i => set_nth (circular E (phase - Z.of_nat i)) [] q) (seq 1 (skipped - 1)) queue in
        let q2 := fold_left (fun q i => let k := circular E (phase - Z.of_nat i) in
                                        set_nth k (edit_queue (nth k q []) last) q)
                    (seq skipped (N.to_nat E - skipped)) q1 in
        Ok (set_nth (circular E phase) (edit_queue queued last) q2)
  end.

(** ** One block: executor.rs:225-250. [ab_count]: how many accumulatable reports the pipeline got through. *)
Record ablock := mk_ab { ab_slot : N; ab_available : list report; ab_count : nat }.
(** state/src/types/accumulate.rs:25-27, state/src/types/accumulate.rs:107-109. *)
Record astate := mk_as { as_slot : N; as_queue : list (list entry); as_hist : list (list N) }.
(** Result: the new state and the reports accumulated, in order. node/src/roles/executor.rs:225-250. *)
Definition astep (E : N) (s : astate) (b : ablock) : result tqerr (astate * list report) :=
  let! r := lift (collect_accumulatable_reports E (ab_available b) (as_queue s) (as_hist s) (ab_slot b)) in
  let! h' := transition_accumulate_history E (fst r) (ab_count b) (as_hist s) in
  let! q' := transition_accumulate_queue E (snd r) (as_slot s) (ab_slot b) h' (as_queue s) in
  Ok (mk_as (ab_slot b) q' h', firstn (ab_count b) (fst r)).
(** The defaults of state/src/types/accumulate.rs:25-27. *)
Definition agenesis (E : N) (slot : N) : astate := mk_as slot (repeat [] (N.to_nat E)) (repeat [] (N.to_nat E)).
