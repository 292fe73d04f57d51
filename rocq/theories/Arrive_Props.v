(** C125: blocks that peers announce. *)
From Verif Require Import Base Arrive_Model Arrive_Spec Arrive_Proofs.
From Coq Require Import Permutation.
Open Scope N_scope.

(** Whatever happens, in whatever order: the importer takes the blocks in the order in which they came into its channel, each once; every fetched block is with its task, in the channel or
    taken; the channel has at most ten; nothing is taken before the peers are dialled. *)
Theorem blocks_kept : forall (B : Type) (hash parent : B -> N) ok g l n o, happen B hash parent ok (begun_at g) l = (n, o) ->
  queued o = took o ++ a_chan n /\ Permutation (fetched o) (queued o ++ held n) /\ (length (a_chan n) <= 10)%nat /\ (~ In Dialled l -> took o = []).
Proof.
  intros B hash parent ok g l n o E. destruct (happen_sound hash parent ok _ _ _ _ E) as [O H R I]. cbn in O, H. split; [exact O|]. split; [exact H|]. split; [apply R; cbn; lia|].
  intro D. apply I. rewrite (idle_until hash parent ok _ _ _ _ E D). reflexivity.
Qed.
(** What is accepted is a chain on the block the node began with, and its last block is the best one. *)
Theorem accepted_is_chain : forall (B : Type) (hash parent : B -> N) ok g l n o, happen B hash parent ok (begun_at g) l = (n, o) ->
  chain hash parent g (accepted o) /\ a_best n = tip hash g (accepted o).
Proof. intros B hash parent ok g l n o E. apply (imported_is_chain hash parent ok (took o)). exact (happen_imports hash parent ok _ _ _ _ E). Qed.
(** Once the peers are dialled and the replies are there, every block can get to the importer. *)
Theorem blocks_get_through : forall (B : Type) (hash parent : B -> N) ok n, a_runs n = true -> (forall h, ~ In (Asking h) (a_tasks n)) ->
  exists l, Forall only_moves l /\ exists n' o, happen B hash parent ok n l = (n', o) /\ quiet_at n'.
Proof.
  intros B hash parent ok n R A. apply (drain hash parent ok _ n R) with (2 := eq_refl).
  intros [h|b|] I; [destruct (A h I)|left; exists b; reflexivity|right; reflexivity].
Qed.
(** A chain on the node's best block, whose blocks pass the other checks, is imported if its blocks come into the channel in the order of the chain. *)
Theorem announced_chain_imported_partial : forall (B : Type) (hash parent : B -> N) ok g l n o, happen B hash parent ok (begun_at g) l = (n, o) ->
  chain hash parent g (queued o) -> (forall x b, In b (queued o) -> ok x b = true) -> a_chan n = [] -> accepted o = queued o /\ a_best n = tip hash g (queued o).
Proof.
  intros B hash parent ok g l n o E C O Z. destruct (happen_sound hash parent ok _ _ _ _ E) as [Q _ _ _]. cbn in Q. rewrite Z, app_nil_r in Q. rewrite Q in *.
  pose proof (happen_imports hash parent ok _ _ _ _ E) as I. cbn in I. rewrite (imported_chain hash parent ok _ _ C O) in I. injection I as <- <-. split; reflexivity.
Qed.
(** A chain on the node's best block is imported when each of its blocks is heard of, fetched, put into the channel and taken before the next one is heard of: the chain of any length. *)
Theorem one_at_a_time_imported_partial : forall (B : Type) (hash parent : B -> N) ok g bs, chain hash parent g bs -> (forall x b, In b bs -> ok x b = true) ->
  exists n o, happen B hash parent ok (begun_at g)
      (Dialled :: concat (map (fun p => [Heard (hash (snd p)); Replied (fst p) (Some (snd p)); Sent (fst p); Takes]) (combine (seq 0 (length bs)) bs))) = (n, o) /\
    accepted o = bs /\ a_best n = tip hash g bs.
Proof.
  intros B hash parent ok g bs C O. destruct (one_by_one hash parent ok bs [] g C O) as [n [o [R [A T]]]]. exists n, o. split; [|split; assumption].
  cbn [length] in R. set (m := concat _) in R |- *. cbn. rewrite R. reflexivity.
Qed.
(** A child that comes before its parent is lost, and so is every block after it: only the parent is imported. *)
Theorem early_child_stalls : forall (B : Type) (hash parent : B -> N) ok g b1 b2 rest l n o, chain hash parent g (b1 :: b2 :: rest) -> NoDup (g :: map hash (b1 :: b2 :: rest)) ->
  (forall x b, ok x b = true) -> happen B hash parent ok (begun_at g) l = (n, o) -> queued o = b2 :: b1 :: rest -> a_chan n = [] -> accepted o = [b1] /\ a_best n = hash b1.
Proof.
  intros B hash parent ok g b1 b2 rest l n o C D O E Qd Z. destruct (happen_sound hash parent ok _ _ _ _ E) as [Q _ _ _]. cbn in Q. rewrite Z, app_nil_r, Qd in Q.
  pose proof (happen_imports hash parent ok _ _ _ _ E) as I. cbn [a_best begun_at] in I. rewrite <- Q, (early_child hash parent ok g b1 b2 rest C D O) in I. injection I as <- <-. split; reflexivity.
Qed.
(** A node that has missed a block imports nothing more: the ancestors of an announced block are not asked for. *)
Theorem missed_block_stalls : forall (B : Type) (hash parent : B -> N) ok g l n o, happen B hash parent ok (begun_at g) l = (n, o) -> (forall b, In b (queued o) -> parent b <> g) ->
  accepted o = [] /\ a_best n = g.
Proof.
  intros B hash parent ok g l n o E F. destruct (happen_sound hash parent ok _ _ _ _ E) as [Q _ _ _]. cbn in Q.
  pose proof (happen_imports hash parent ok _ _ _ _ E) as I. cbn [a_best begun_at] in I. rewrite (imported_none hash parent ok) in I; [injection I as <- <-; split; reflexivity|].
  intros b J. apply F. rewrite Q. apply in_or_app. left. exact J.
Qed.
(** Blocks are numbers here, each the child of the one below it. Heard in the order of the chain, each fetched as announced, but the second reply came first. *)
Definition seen (l : list (happening N)) := happen N (fun b => b) (fun b => b - 1) (fun _ _ => true) (begun_at 4) l.
Theorem announced_chain_imported_refuted : exists l n o, l = [Dialled; Heard 5; Heard 6; Heard 7; Replied 1 (Some 6); Sent 1; Replied 0 (Some 5); Sent 0; Replied 2 (Some 7); Sent 2; Takes; Takes; Takes] /\
  seen l = (n, o) /\ chain (fun b => b) (fun b => b - 1) 4 [5; 6; 7] /\ Permutation (fetched o) [5; 6; 7] /\ quiet_at n /\ a_best n = 5.
Proof.
  eexists. eexists. eexists. split; [reflexivity|]. split; [vm_compute; reflexivity|]. split; [cbn; repeat split|]. split; [apply perm_swap|]. split; [|reflexivity].
  split; [reflexivity|]. intros t I. cbn in I. intuition.
Qed.
(** Three blocks one at a time. *)
Example one_at_a_time_case : exists n o, seen (Dialled :: concat (map (fun p => [Heard (snd p); Replied (fst p) (Some (snd p)); Sent (fst p); Takes]) (combine (seq 0 3) [5; 6; 7]))) = (n, o) /\
  accepted o = [5; 6; 7] /\ a_best n = 7 /\ chain (fun b => b) (fun b => b - 1) 4 [5; 6; 7].
Proof. eexists. eexists. split; [vm_compute; reflexivity|]. cbn. repeat split. Qed.
(** With the replies in order all three are imported; eleven blocks before the peers are dialled leave one waiting with its task. *)
Example in_order_case : exists n o, seen [Heard 5; Heard 6; Replied 0 (Some 5); Sent 0; Dialled; Replied 1 (Some 6); Takes; Heard 7; Sent 1; Replied 2 (Some 7); Sent 2; Takes; Takes] = (n, o) /\
  queued o = [5; 6; 7] /\ accepted o = [5; 6; 7] /\ a_best n = 7 /\ a_chan n = [] /\ chain (fun b => b) (fun b => b - 1) 4 (queued o).
Proof. eexists. eexists. split; [vm_compute; reflexivity|]. cbn. repeat split. Qed.
Example full_case : exists n o, seen (flat_map (fun i => [Heard (5 + N.of_nat i); Replied i (Some (5 + N.of_nat i)); Sent i]) (seq 0 11)) = (n, o) /\
  length (a_chan n) = 10%nat /\ held n = [15] /\ length (fetched o) = 11%nat /\ a_runs n = false.
Proof. eexists. eexists. split; [vm_compute; reflexivity|]. repeat split. Qed.
Example missed_case : exists n o, seen [Dialled; Heard 6; Replied 0 (Some 6); Sent 0; Takes; Heard 7; Replied 1 (Some 7); Sent 1; Takes] = (n, o) /\ queued o = [6; 7] /\
  (forall b, In b (queued o) -> b - 1 <> 4) /\ a_best n = 4.
Proof. eexists. eexists. split; [vm_compute; reflexivity|]. split; [reflexivity|]. split; [|reflexivity]. cbn. intros b [<- | [<- | []]]; discriminate. Qed.
Print Assumptions blocks_kept.
Print Assumptions accepted_is_chain.
Print Assumptions blocks_get_through.
Print Assumptions announced_chain_imported_partial.
Print Assumptions one_at_a_time_imported_partial.
Print Assumptions early_child_stalls.
Print Assumptions missed_block_stalls.
Print Assumptions announced_chain_imported_refuted.
