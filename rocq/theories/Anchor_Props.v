(** Lookup anchors of guaranteed reports (C113). *)
From Verif Require Import Base Import_Model Reports_Model Reports_Spec Reports_Props Anchor_Model Anchor_Spec Anchor_Proofs.
Open Scope N_scope.
Ltac rising := cbn; repeat split; try reflexivity; intros e' X; repeat (destruct X as [<-|X]; [reflexivity|]); destruct X.

(** * C113: the lookup anchor of an accepted report is a block of the chain of the last L slots, and any such block may be one *)
(** With the ancestor check on: of the extrinsics that are otherwise acceptable exactly those are accepted whose lookup anchors are recent blocks of the chain that the node
    imported; if it imported all of its chain, any recent block of the chain. *)
Theorem lookup_anchor_partial : forall C R L verify report_hash l k x keys, 0 < L -> slots_rise (chain l) (k_slot k) ->
  (validate_guarantees C R L verify report_hash (node_ctx L true l k) x = Ok keys ->
     validate_guarantees C R L verify report_hash (node_ctx L false l k) x = Ok keys /\ forall g, In g x -> recent_block L l (k_slot k) (lookup_of g)) /\
  (validate_guarantees C R L verify report_hash (node_ctx L false l k) x = Ok keys ->
     (forall g, In g x -> recent_block L l (k_slot k) (lookup_of g)) -> (forall b, In b l -> exists e, b = Imported e) ->
     validate_guarantees C R L verify report_hash (node_ctx L true l k) x = Ok keys).
Proof.
  intros C R L verify rh l k x keys P S. split.
  - intros E. pose proof (accepted_recent _ _ _ _ _ _ _ _ _ _ E) as Q. apply with_check in E; [|exact P|exact S]. destruct E as [E A].
    split; [exact E|]. intros g G. split; [|exact (Q g G)]. apply imported_in. apply imported_iff. exact (A g G).
  - intros E A B. apply with_check; [exact P|exact S|]. split; [exact E|]. intros g G. destruct (A g G) as [H _]. unfold chain in H. apply in_map_iff in H.
    destruct H as [b [E1 E2]]. destruct (B b E2) as [e ->]. cbn in E1. subst e. exact E2.
Qed.
(** The check as the node runs it lets any hash pass: here of a block that no chain of the node has. *)
Definition rep_looking (pkg core slot hash : N) : wreport := mk_w pkg (pkg + 500) core 5 100 [mk_wd 7 20 77; mk_wd 7 30 77] 900 901 902 hash slot [] [] 0.
Definition idle (slot : N) : gctx := with_pending (ctx slot [] [] []) [None; None] [None; None].
Theorem node_lookup_anchor_refuted : exists l x keys, slots_rise (chain l) (k_slot (idle 12)) /\
  validate_guarantees 2 4 100 rverify rhash (node_ctx 100 node_with_ancestors l (idle 12)) x = Ok keys /\ exists g, In g x /\ ~ In (snd (lookup_of g)) (map snd (chain l)).
Proof.
  exists [Genesis (0, 800); Imported (3, 801); Imported (11, 900)], [guaranteed (rep_looking 102 1 7 777) 12 [3; 5]], [13; 15].
  split; [rising|]. split; [vm_compute; reflexivity|]. eexists. split; [left; reflexivity|]. vm_compute. intuition discriminate.
Qed.
(** Switched on, the check would refuse reports that look up from the genesis block or from a block the node authored. *)
Theorem own_block_lookup_refuted : exists l k x1 x2 keys1 keys2, slots_rise (chain l) (k_slot k) /\
  (forall g, In g (x1 ++ x2) -> recent_block 100 l (k_slot k) (lookup_of g)) /\
  validate_guarantees 2 4 100 rverify rhash (node_ctx 100 false l k) x1 = Ok keys1 /\ validate_guarantees 2 4 100 rverify rhash (node_ctx 100 true l k) x1 = Err LookupAnchorNotFound /\
  validate_guarantees 2 4 100 rverify rhash (node_ctx 100 false l k) x2 = Ok keys2 /\ validate_guarantees 2 4 100 rverify rhash (node_ctx 100 true l k) x2 = Err LookupAnchorNotFound.
Proof.
  exists [Genesis (0, 800); Authored (3, 801); Imported (11, 900)], (idle 12), [guaranteed (rep_looking 102 1 0 800) 12 [3; 5]], [guaranteed (rep_looking 102 1 3 801) 12 [3; 5]], [13; 15], [13; 15].
  split; [rising|]. split; [|repeat split; vm_compute; reflexivity].
  intros g [<-|[<-|[]]]; (split; [cbn; tauto|vm_compute; discriminate]).
Qed.
(** Both sides of the partial theorem are met: an imported block is accepted with the check on, a block of another fork is not, nor one older than L slots. *)
Example lookup_anchor_case : let l := [Imported (2, 800); Imported (3, 801); Imported (11, 900)] in slots_rise (chain l) (k_slot (idle 12)) /\ 0 < 9 /\
  validate_guarantees 2 4 9 rverify rhash (node_ctx 9 true l (idle 12)) [guaranteed (rep_looking 102 1 3 801) 12 [3; 5]] = Ok [13; 15] /\
  validate_guarantees 2 4 9 rverify rhash (node_ctx 9 true l (idle 12)) [guaranteed (rep_looking 102 1 4 802) 12 [3; 5]] = Err LookupAnchorNotFound /\
  validate_guarantees 2 4 9 rverify rhash (node_ctx 9 true l (idle 12)) [guaranteed (rep_looking 102 1 2 800) 12 [3; 5]] = Err LookupAnchorTimeout.
Proof. cbv zeta. split; [rising|]. repeat split; vm_compute; reflexivity. Qed.
Print Assumptions lookup_anchor_partial.
Print Assumptions node_lookup_anchor_refuted.
Print Assumptions own_block_lookup_refuted.
