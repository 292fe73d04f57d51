(** Properties of the trie's task and of concurrent reads and commits (C110, C111, C112). *)
From Verif Require Import Base Base_Proofs Trie_Model Trie_Spec Trie_Props Trie4_Proofs Actor_Model Actor_Spec Actor_Proofs.

(** * C110: concurrent calls of the state trie behave as if made one at a time *)
(** At any two moments of any schedule of any number of callers there is one order of the executed commands that explains every reply, contains every returned call once,
    contains no call that failed or was not yet made, and the order of the later moment continues that of the earlier: a call that had returned comes before every call made afterwards. *)
Theorem calls_linearize : forall (St Cmd Rep : Type) (exec : St -> Cmd -> option (St * Rep)) s0 l1 l2 s1 s2, acts exec (spawn s0) l1 = Some s1 -> acts exec s1 l2 = Some s2 ->
  exists h1 h2, sequential exec s0 h1 (y_st s1) /\ explains h1 (y_calls s1) /\ sequential exec s0 (h1 ++ h2) (y_st s2) /\ explains (h1 ++ h2) (y_calls s2).
Proof. exact @linear. Qed.
(** Nobody waits for ever: as long as some call is open something other than a new call or giving up can happen, and without new calls only finitely much can. *)
Theorem calls_end : forall (St Cmd Rep : Type) (exec : St -> Cmd -> option (St * Rep)) s0 l s, acts exec (spawn s0) l = Some s ->
  (forall i x, nth_error (y_calls s) i = Some x -> ~ settled x -> exists a s', (forall c, a <> Invoke c) /\ (forall j, a <> GiveUp j) /\ act_step exec s a = Some s') /\
  exists n, forall l' s', (forall c, ~ In (Invoke c) l') -> acts exec s l' = Some s' -> length l' <= n.
Proof.
  intros St Cmd Rep exec s0 l s E. split; [intros i x; exact (enabled exec s0 l s i x E)|]. exists (measure s). intros l' s' N E'. pose proof (acts_bounded exec l' s s' N E'). lia.
Qed.
(** C112: after a command has panicked the state does not change any more, and only replies already on their way are returned: every other call, for ever, fails. *)
Theorem task_dead_partial : forall (St Cmd Rep : Type) (exec : St -> Cmd -> option (St * Rep)) s0 l1 l2 s1 s2, acts exec (spawn s0) l1 = Some s1 -> y_alive s1 = false -> acts exec s1 l2 = Some s2 ->
  y_st s2 = y_st s1 /\ forall i c r, nth_error (y_calls s2) i = Some (Returned c r) -> nth_error (y_calls s1) i = Some (Returned c r) \/ nth_error (y_calls s1) i = Some (Replied c r).
Proof. exact @dead. Qed.
(** Two callers on the trie: one commits, the other reads; a third gives up. *)
Definition one_entry : list entry := [mk_entry (key 1 0) SAdd [1%N]].
Definition two_callers : list (act (Cmd := mcmd)) := [Invoke (MCommit one_entry); Invoke (MRetrieve (key 1 0)); Invoke MRoot; Enqueue 1; Enqueue 2; Take; Enqueue 0; GiveUp 2; Finish; Take; Return 1; Finish; Take; Finish; Return 0].
Example callers_case : exists s, acts (merkle_exec toy) (spawn (new_mgr empty_mdb)) two_callers = Some s /\
  nth_error (y_calls s) 1 = Some (Returned (MRetrieve (key 1 0)) (RLeaf None)) /\ nth_error (y_calls s) 0 = Some (Returned (MCommit one_entry) (RCommit [])) /\ nth_error (y_calls s) 2 = Some (GivenUp MRoot) /\
  db_leaf (g_db (y_st s)) (key 1 0) = Some (mk_leaf (key 1 0) (Embedded [1%N])).
Proof. eexists. split; [vm_compute; reflexivity|]. repeat split; vm_compute; reflexivity. Qed.
(** C112: a batch that the trie panics on (here an addition of a stored key) takes down every later read of the state. *)
Theorem panic_closes_state_refuted : exists l s, acts (merkle_exec toy) (spawn (new_mgr empty_mdb)) l = Some s /\ y_alive s = false /\
  nth_error (y_calls s) 0 = Some (Returned (MCommit one_entry) (RCommit [])) /\ nth_error (y_calls s) 2 = Some (Closed (MRetrieve (key 1 0))) /\ nth_error (y_calls s) 3 = Some (Closed MRoot).
Proof.
  exists [Invoke (MCommit one_entry); Enqueue 0; Take; Finish; Return 0; Invoke (MCommit one_entry); Enqueue 1; Invoke (MRetrieve (key 1 0)); Take; Enqueue 2; Finish; RecvFails 2; Invoke MRoot; SendFails 3].
  eexists. split; [vm_compute; reflexivity|]. repeat split; vm_compute; reflexivity.
Qed.
Print Assumptions calls_linearize.
Print Assumptions calls_end.
Print Assumptions task_dead_partial.
Print Assumptions panic_closes_state_refuted.

(** * C111: reading the state while it is being committed *)
(** A read overlapping any number of commits by any number of tasks gives the value as of the moment the trie answered, or fails; it does not fail when no commit was half done at its
    start, or at its end, or the value is at most 32 octets long. *)
Theorem concurrent_read_partial : forall H l1 l2 s1 s2, history_ok no_state (batches (l1 ++ l2)) -> no_collision H (hashed_values (batches (l1 ++ l2))) ->
  halves H shared_start l1 = Some s1 -> halves H s1 l2 = Some s2 ->
  forall k, (split_read s1 s2 k = Ok (history_map (batches l1) k) \/ split_read s1 s2 k = Err tt) /\
    (h_pending s1 = [] \/ h_pending s2 = [] \/ (forall v, history_map (batches l1) k = Some v -> length v <= 32) -> split_read s1 s2 k = Ok (history_map (batches l1) k)).
Proof. exact split_read_ok. Qed.
(** In between, a key whose long value is being replaced by another cannot be read at all. *)
Definition long2 : bytes := repeat 6%N 40.
Definition long_update : list half := [TrieWrite [mk_entry (key 1 0) SAdd long; mk_entry (key 2 0) SAdd [2%N]]; StateWrite 0; TrieWrite [mk_entry (key 1 0) SUpdate long2; mk_entry (key 3 0) SAdd [3%N]]].
Theorem concurrent_read_refuted : exists s0 s s', halves toy shared_start (firstn 2 long_update) = Some s0 /\ halves toy s0 (skipn 2 long_update) = Some s /\ halves toy s [StateWrite 0] = Some s' /\
  split_read s0 s0 (key 1 0) = Ok (Some long) /\ split_read s s (key 1 0) = Err tt /\ split_read s' s' (key 1 0) = Ok (Some long2) /\ split_read s s (key 3 0) = Ok (Some [3%N]).
Proof. do 3 eexists. split; [vm_compute; reflexivity|]. split; [vm_compute; reflexivity|]. split; [vm_compute; reflexivity|]. repeat split; vm_compute; reflexivity. Qed.
Example concurrent_read_case : history_ok no_state (batches (long_update ++ [StateWrite 0])) /\ no_collision toy (hashed_values (batches (long_update ++ [StateWrite 0]))).
Proof.
  split.
  - cbn [history_ok batches flat_map long_update app]. split; [split; [cbn [map e_key]; nodup|split; [fit|left; each; discriminate]]|]. split; [split; [cbn [map e_key]; nodup|split; [fit|left; each; discriminate]]|exact Logic.I].
  - assert (X : forall v, hashed_values (batches (long_update ++ [StateWrite 0])) v -> v = long \/ v = long2).
    { intros v [es [e [A [B [<- C]]]]]. cbn [long_update batches flat_map app In] in A.
      repeat (destruct A as [<-|A]; [cbn [In] in B; repeat (destruct B as [<-|B]; [cbn [e_value] in *; try (left; reflexivity); try (right; reflexivity); simpl in C; lia|]); destruct B|]). destruct A. }
    assert (D : toy long <> toy long2) by (vm_compute; discriminate).
    intros v w A B E. destruct (X v A) as [->| ->], (X w B) as [->| ->]; congruence.
Qed.
Print Assumptions concurrent_read_partial.
Print Assumptions concurrent_read_refuted.
