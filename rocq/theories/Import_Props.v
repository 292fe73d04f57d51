(** C44: recent block history. C58: applied blocks extend the best block. C59: ancestor set. *)
From Verif Require Import Base LVec_Model LVec_Proofs Merkle_Model Safrole_Model Import_Model Import_Spec Import_Proofs.
From Coq Require Import Permutation Sorted.
Open Scope N_scope.

(** The state transition, the header checks, the state root and the hash functions are arbitrary. *)
Theorem block_history_window_partial : forall HL K S0 Xt Mk stf1 header_ok stf2 genesis root xt_hash n0,
  (0 < HL)%nat -> (length (bh_entries (n_hist n0)) <= HL)%nat -> n_roots n0 (n_best n0) = Some (root (n_state n0) (n_hist n0)) ->
  forall log n, imports HL K S0 Xt Mk stf1 header_ok stf2 genesis root xt_hash n0 log n ->
  bh_belt (n_hist n) = belt_after K Xt (bh_belt (n_hist n0)) log /\
  exists news, length news = length log /\
    (forall i e, nth_error news i = Some e -> entry_for K Xt (bh_belt (n_hist n0)) log i e) /\
    bh_entries (n_hist n) = skipn (length (old_entries S0 Xt root n0 log ++ news) - HL) (old_entries S0 Xt root n0 log ++ news).
Proof.
  intros HL K S0 Xt Mk stf1 header_ok stf2 genesis root xt_hash n0 A B C log n R.
  destruct (run_inv HL K S0 Xt Mk stf1 header_ok stf2 genesis root xt_hash n0 A B C log n R) as (_ & _ & _ & _ & _ & I1 & news & [N1 N2] & I2).
  split; [exact I1|]. exists news. auto.
Qed.

Theorem applied_blocks_link_partial : forall HL K S0 Xt Mk stf1 header_ok stf2 genesis root xt_hash n0,
  (0 < HL)%nat -> (length (bh_entries (n_hist n0)) <= HL)%nat -> n_roots n0 (n_best n0) = Some (root (n_state n0) (n_hist n0)) ->
  forall log n, imports HL K S0 Xt Mk stf1 header_ok stf2 genesis root xt_hash n0 log n ->
  n_best n = last_hash S0 Xt n0 log /\ n_best_slot n = last_slot S0 Xt n0 log /\
  forall l1 a l2, log = l1 ++ a :: l2 ->
  ib_parent (ac_block a) = last_hash S0 Xt n0 l1 /\ last_slot S0 Xt n0 l1 < ib_slot (ac_block a) /\
  ib_root (ac_block a) = last_root S0 Xt root n0 l1 /\ ib_xt_hash (ac_block a) = xt_hash (ib_xts (ac_block a)).
Proof.
  intros HL K S0 Xt Mk stf1 header_ok stf2 genesis root xt_hash n0 A B C log n R.
  destruct (run_inv HL K S0 Xt Mk stf1 header_ok stf2 genesis root xt_hash n0 A B C log n R) as (I1 & I2 & _).
  split; [exact I1|]. split; [exact I2|]. exact (run_links HL K S0 Xt Mk stf1 header_ok stf2 genesis root xt_hash n0 A B C log n R).
Qed.

Theorem applied_block_checked_partial : forall HL K S0 Xt Mk stf1 header_ok stf2 genesis root xt_hash, (0 < HL)%nat ->
  forall now n b n', (length (bh_entries (n_hist n)) <= HL)%nat -> ib_parent b <> 0 ->
  submit HL K S0 Xt Mk stf1 header_ok stf2 genesis root xt_hash now n b = (true, n') ->
  ib_parent b = n_best n /\ n_best_slot n < ib_slot b /\ is_in_future now (ib_slot b) = false /\ n_roots n (n_best n) = Some (ib_root b) /\
  ib_xt_hash b = xt_hash (ib_xts b) /\ (exists s1 m, stf1 (n_state n) b = Some (s1, m) /\ header_ok s1 b m = true) /\
  n_best n' = ib_hash b /\ n_best_slot n' = ib_slot b.
Proof. exact accept_checked. Qed.

Theorem rejected_block_changes_nothing : forall HL K S0 Xt Mk stf1 header_ok stf2 genesis root xt_hash now n b n',
  submit HL K S0 Xt Mk stf1 header_ok stf2 genesis root xt_hash now n b = (false, n') -> n' = n.
Proof. exact reject_same. Qed.

(** A running node (state 7 after five blocks), the header checks accepting nothing, the clock past all their slots. *)
Definition ex_root (s : N) (h : bhistory) : N := 100 + 10 * s + N.of_nat (length (bh_entries h)).
Definition ex_K (b : bytes) : bytes := b.
Definition ex_submit (ok : bool) := submit 3 ex_K N N unit (fun s b => Some (s + 1, tt)) (fun _ _ _ => ok)
  (fun s h b => Some (s + 1, [(ib_xts b, [7])])) (fun s b => Some (s + 50)) ex_root (fun x => x).
Definition ex_n : node_st N :=
  mk_n 55 500 (fun k => if k =? 55 then Some 173 else None) 7 (mk_bh [mk_be 53 [1] 11 []; mk_be 54 [2] 12 []; mk_be 55 [3] 0 []] [Some [9]]) [55].
Definition ex_forged : iblock N := mk_ib 0 3 666 1 2 [] 99.
Definition ex_child (r : N) : iblock N := mk_ib 55 501 r 4 4 [(9, 9); (2, 3)] 56.

(** Anyone can change the chain state with a block that names no parent: no seal, slot, root or extrinsic check is made. The root recorded in
    the history for the best block becomes what the forger wrote, and the block enters the history, while the best block stays. *)
Theorem parentless_block_refuted : exists b n', n_best_slot ex_n > ib_slot b /\ n_roots ex_n (n_best ex_n) <> Some (ib_root b) /\ ib_xt_hash b <> ib_xts b /\
  ex_submit false 2000000000 ex_n b = (true, n') /\ n_best n' = n_best ex_n /\ n_state n' <> n_state ex_n /\
  map (fun e => (be_hash e, be_state e)) (bh_entries (n_hist n')) = [(54, 12); (55, 666); (99, 0)].
Proof.
  exists ex_forged. eexists. split; [reflexivity|]. split; [cbn; intros [=]|]. split; [discriminate|]. split; [vm_compute; reflexivity|]. split; [reflexivity|].
  split; [discriminate|reflexivity].
Qed.

Theorem ancestor_set_latest : forall cap es,
  (length (an_heap (fold_left (an_add cap) es (mk_aset [] []))) <= cap)%nat /\
  (forall e, an_contains (fold_left (an_add cap) es (mk_aset [] [])) e = true <-> among_latest cap es e).
Proof. exact an_latest. Qed.

(** Removing an entry forgets another slot's entry with the same hash in one of its two indexes: later it cannot be evicted, and the set grows. *)
Theorem ancestor_remove_refuted : exists es e, let a := an_remove (fold_left (an_add 2) es (mk_aset [] [])) e in
  let a' := fold_left (an_add 2) [(3, 1); (4, 1); (5, 1)] a in
  an_contains a' (1, 7) = true /\ length (an_set a') = 3%nat.
Proof. exists [(1, 7); (2, 7)], (2, 7). vm_compute. auto. Qed.

(** ** The hypotheses are met: a node accepts a child of its best block, then a grandchild, and refuses others. *)
Example import_case : exists n1 n2 log, imports 3 ex_K N N unit (fun s b => Some (s + 1, tt)) (fun _ _ _ => true)
  (fun s h b => Some (s + 1, [(ib_xts b, [7])])) (fun s b => Some (s + 50)) ex_root (fun x => x) ex_n log n2 /\ length log = 2%nat /\
  ex_submit true 2000000000 ex_n (ex_child 173) = (true, n1) /\ n_roots ex_n (n_best ex_n) = Some (ex_root (n_state ex_n) (n_hist ex_n)) /\
  map (fun e => (be_hash e, be_state e, be_reported e)) (bh_entries (n_hist n2)) = [(55, 173, []); (56, 193, [(2, 3); (9, 9)]); (57, 0, [(1, 1)])] /\
  fst (ex_submit true 2000000000 ex_n (ex_child 174)) = false /\ fst (ex_submit true 1000 ex_n (ex_child 173)) = false /\
  fst (ex_submit false 2000000000 ex_n (ex_child 173)) = false.
Proof.
  destruct (ex_submit true 2000000000 ex_n (ex_child 173)) as [c1 n1] eqn:E1.
  set (b2 := mk_ib 56 600 193 5 5 [(1, 1)] 57 : iblock N). destruct (ex_submit true 2000000000 n1 b2) as [c2 n2] eqn:E2.
  assert (C : c1 = true /\ c2 = true) by (vm_compute in E1; injection E1 as <- <-; vm_compute in E2; injection E2 as <- <-; auto). destruct C as [-> ->].
  exists n1, n2. eexists. split; [eapply im_accept; [eapply im_accept; [apply im_start| |exact E1|]| |exact E2|]|].
  - discriminate.
  - do 3 eexists. split; [reflexivity|]. reflexivity.
  - discriminate.
  - do 3 eexists. split; reflexivity.
  - split; [reflexivity|]. split; [reflexivity|]. split; [vm_compute; reflexivity|]. split; [|vm_compute; auto].
    vm_compute in E1. injection E1 as <-. vm_compute in E2. injection E2 as <-. reflexivity.
Qed.
Example ancestor_case : among_latest 2 [(5, 1); (9, 2); (7, 3)] (7, 3) /\ ~ among_latest 2 [(5, 1); (9, 2); (7, 3)] (5, 1) /\
  an_contains (fold_left (an_add 2) [(5, 1); (9, 2); (7, 3)] (mk_aset [] [])) (7, 3) = true.
Proof.
  split; [|split]; [apply ancestor_set_latest; reflexivity|intros Hc; apply ancestor_set_latest in Hc; discriminate|reflexivity].
Qed.

Print Assumptions block_history_window_partial.
Print Assumptions applied_blocks_link_partial.
Print Assumptions applied_block_checked_partial.
Print Assumptions rejected_block_changes_nothing.
Print Assumptions parentless_block_refuted.
Print Assumptions ancestor_set_latest.
Print Assumptions ancestor_remove_refuted.
