(** C94, C95, C96: authored blocks are accepted by nodes in the same state; only the slot's author can extend the chain, and cannot choose the entropy; what can go wrong while authoring. *)
From Coq Require Import Strings.String.
From Verif Require Import Base Base_Proofs Safrole_Model Safrole_Proofs Disputes_Model Author_Model Author_Spec Author_Proofs.
Open Scope list_scope. Open Scope N_scope.

(** ** C94 *)
(** A block made in its slot is accepted by every node on the same chain that receives it then or later, and both are again on the same chain, with that block as their best.
    Missing (see the refutations below): a node whose index in the validator set has changed, a slot that ends while the block is being made, ticket mode. *)
Theorem authored_block_accepted_partial : forall Xt R O (z : env Xt R O) (a b : node R) slot now now' a' k,
  vrf_complete z -> same_chain z a b -> z_hash z (nd_best a) <> 0 -> now_jam_timeslot now = Some slot -> 0 < slot -> now <= now' ->
  (forall i, nd_index a = Some i -> key_at z (predict_active_set (z_E z) (saf (nd_db a)) slot) i = Some (nd_key a)) ->
  extend_chain z slot now true a = Ok (Some (a', k)) ->
  exists b', deliver z now' b k = Some b' /\ same_chain z a' b' /\ nd_best a' = k_header k /\ h_slot (h_data (k_header k)) = slot.
Proof.
  intros Xt R O z a b slot now now' a' k VC SC HB T SP L KA Q. destruct (extend_accepted z a b slot now now' a' k VC SC HB T SP L KA Q) as [b' [X [Y [W _]]]].
  exists (with_root z b' (z_hash z (k_header k))). unfold deliver. rewrite X. split; [reflexivity|]. split; [exact Y|]. split; [exact W|].
  unfold extend_chain, extend1 in Q. ok_step Q. destruct a0 as [[n1 b1]|]; [|discriminate]. ok_step Q. inversion Q; subst. ok_step E. destruct a0; [|discriminate]. ok_step E. ok_step E. ok_step E. inversion E; subst.
  destruct a2 as [n2 b2]. cbn [snd]. unfold author_header in E4. rewrite T in E4. cbn [demand bind] in E4. ok_step E4. ok_step E4. ok_step E4. ok_step E4. inversion E4; subst. reflexivity.
Qed.
Print Assumptions authored_block_accepted_partial.

(** Any number of nodes on the same chain, taking turns in any order and over any number of slots and epochs, stay on the same chain. *)
Theorem authors_in_turn_agree_partial : forall Xt R O (z : env Xt R O) (ns ns' : nat -> node R),
  vrf_complete z -> (forall i j, same_chain z (ns i) (ns j)) -> turns z ns ns' -> forall i j, same_chain z (ns' i) (ns' j).
Proof. intros. eapply turns_same; eassumption. Qed.
Print Assumptions authors_in_turn_agree_partial.

(** A node makes a block exactly in the slots whose sealing key, in the state after the block, is its own. *)
Theorem authors_in_own_slots_partial : forall Xt R O (z : env Xt R O) slot now ok (n : node R) o, extend_chain z slot now ok n = Ok o ->
  exists k, predict_slot_sealer (z_E z) (z_D z) (z_H z) (z_V z) (saf (nd_db n)) slot = Ok (SKey k) /\ (o = None <-> k <> nd_key n).
Proof.
  intros Xt R O z slot now ok n o Q. unfold extend_chain, extend1 in Q. ok_as Q E. ok_as E T. unfold is_author_of_slot in T. ok_as T P. apply lift_ok in P. destruct a1 as [t|k]; [discriminate|].
  exists k. split; [exact P|]. inversion T as [T']. destruct (nd_key n =? k) eqn:K; subst a0.
  - apply N.eqb_eq in K. ok_as E E1. ok_as E E2. ok_as E E3. inversion E; subst a. destruct a2 as [a3 b3]; cbn [fst snd] in Q; ok_as Q E4. inversion Q; subst o. split; [discriminate|intro Z; symmetry in K; contradiction].
  - apply N.eqb_neq in K. inversion E; subst a. inversion Q; subst o. split; [intros _ Z; apply K; symmetry; exact Z|reflexivity].
Qed.
Print Assumptions authors_in_own_slots_partial.

(** A small chain: two validators, keys 1 and 2; the rest of the state is a count. *)
Definition ex_sum (l : bytes) : N := fold_right N.add 0 l.
Definition ex_sign (sk : N) (c m : bytes) : option bytes := Some (sk :: N.of_nat (List.length c) :: c ++ m).
Definition ex_out (g : bytes) : option N := match g with sk :: n :: r => Some (sk * 256 + ex_sum (firstn (N.to_nat n) r) mod 256) | _ => None end.
Definition ex_verify (c m g : bytes) (pk : N) : bool := if list_eq_dec N.eq_dec g (pk :: N.of_nat (List.length c) :: c ++ m) then true else false.
Definition ex_hash (h : header) : N := 1 + ex_sum (h_seal h) + 1000 * h_slot (h_data h).
Definition ex_H (x : bytes) : bytes := firstn 32 (ex_sum x :: x ++ repeat 0 32).
Definition ex_enc (d : hdata) : bytes := [h_parent d; h_root d; h_xt d; h_slot d; h_author d] ++ h_vrf d ++ h_offenders d.
Definition ex_env : env N N N :=
  mk_env _ _ _ 4 3 ex_H (fun l => map kband l) 2 ex_sign ex_verify ex_out (fun k => Some k) ex_enc ex_hash (fun x => x + 7)
    (fun _ _ _ _ => Some []) (fun s _ _ => Some (s_punish s)) (fun _ => []) (fun _ r _ _ => Some (r + 1)) (fun _ r _ i x => Some (r + x, None, i)) (fun _ r o _ => Some (r + o))
    (fun s => s_slot (saf s) + 1000 * rest s) (fun _ _ => None) 0.
Definition ex_key (n : N) : vkey := mk_vkey n (n + 10) 0.
Definition ex_state (pending : list vkey) (e1 : bytes) (sl : sealers) : st N :=
  mk_st (mk_s 3 [1] e1 [3] [4] [ex_key 1; ex_key 2] [ex_key 1; ex_key 2] [ex_key 1; ex_key 2] pending [] sl [] []) 5.
Definition ex_best : header := mk_hdr (mk_hd 9 9 7 3 None None 0 [] []) [1; 2].
Definition ex_node (s : st N) (index key : N) : node N := mk_node s s ex_best (fun k => if k =? ex_hash ex_best then Some (z_root ex_env s) else None) (Some index) key.

Lemma ex_complete : vrf_complete ex_env.
Proof.
  intros pk sk c m g K S. cbn in K, S. inversion K; subst sk. unfold ex_sign in S. inversion S; subst g; clear S K. split; [|split].
  - cbn [z_verify ex_env]. unfold ex_verify. destruct (list_eq_dec _ _ _); [reflexivity|contradiction].
  - discriminate.
  - intros m' g' S'. cbn in S'. unfold ex_sign in S'. inversion S'; subst. cbn [z_out ex_env ex_out]. rewrite Nnat.Nat2N.id. do 3 f_equal. rewrite !firstn_app, !Nat.sub_diag, !firstn_O. reflexivity.
Qed.
Lemma ex_unique : vrf_unique ex_env.
Proof.
  intros pk c m1 m2 g1 g2 V1 V2. cbn [z_verify ex_env] in V1, V2. unfold ex_verify in V1, V2.
  destruct (list_eq_dec N.eq_dec g1 _) as [->|]; [|discriminate]. destruct (list_eq_dec N.eq_dec g2 _) as [->|]; [|discriminate].
  cbn [z_out ex_env ex_out]. rewrite Nnat.Nat2N.id. do 3 f_equal. rewrite !firstn_app, !Nat.sub_diag, !firstn_O. reflexivity.
Qed.

(** The first block of an epoch, in the slot 4, authored by validator 1, then one by validator 2 in slot 5. *)
Definition ex_s : st N := ex_state [ex_key 1; ex_key 2] [2] (Keys [1; 2; 1; 2]).
Example authored_case : exists a k b',
  same_chain ex_env (ex_node ex_s 0 1) (ex_node ex_s 1 2) /\ ex_hash ex_best <> 0 /\ now_jam_timeslot (era + 25) = Some 4 /\
  key_at ex_env (predict_active_set 4 (saf ex_s) 4) 0 = Some 1 /\
  extend_chain ex_env 4 (era + 25) true (ex_node ex_s 0 1) = Ok (Some (a, k)) /\ deliver ex_env (era + 27) (ex_node ex_s 1 2) k = Some b' /\ nd_best b' = k_header k /\
  rest (nd_db b') = 6 /\ h_epoch (h_data (k_header k)) <> None /\ extend_chain ex_env 4 (era + 25) true (ex_node ex_s 1 2) = Ok None /\
  exists b2 k2 a2, extend_chain ex_env 5 (era + 30) true b' = Ok (Some (b2, k2)) /\ deliver ex_env (era + 31) a k2 = Some a2 /\ nd_db a2 = nd_db b2 /\ rest (nd_db a2) = 8.
Proof.
  do 3 eexists. split; [repeat split|]. split; [vm_compute; discriminate|]. split; [reflexivity|]. split; [reflexivity|].
  split; [vm_compute; reflexivity|]. split; [vm_compute; reflexivity|]. split; [reflexivity|]. split; [reflexivity|]. split; [vm_compute; discriminate|]. split; [vm_compute; reflexivity|].
  do 3 eexists. split; [vm_compute; reflexivity|]. split; [vm_compute; reflexivity|]. split; vm_compute; reflexivity.
Qed.

(** The index a node puts in its headers is its index in the set at genesis. When the validator set changes, a block made by the right validator is rejected by all others,
    while its author adopts it. *)
Theorem stale_index_refuted : exists (z : env N N N) a b slot now a' k i,
  vrf_complete z /\ same_chain z a b /\ z_hash z (nd_best a) <> 0 /\ now_jam_timeslot now = Some slot /\ 0 < slot /\ nd_index a = Some i /\
  key_at z (s_active (saf (nd_db a))) i = Some (nd_key a) /\ predict_slot_sealer (z_E z) (z_D z) (z_H z) (z_V z) (saf (nd_db a)) slot = Ok (SKey (nd_key a)) /\
  extend_chain z slot now true a = Ok (Some (a', k)) /\ nd_best a' = k_header k /\ import z now b k = Err BadFallbackKey /\ deliver z now b k = Some b.
Proof.
  set (s := ex_state [ex_key 2; ex_key 1] [3] (Keys [1; 2; 1; 2])). exists ex_env, (ex_node s 0 1), (ex_node s 1 2), 4, (era + 25). do 2 eexists. exists 0. subst s.
  split; [exact ex_complete|]. split; [repeat split|]. split; [vm_compute; discriminate|]. split; [reflexivity|]. split; [reflexivity|]. split; [reflexivity|]. split; [reflexivity|].
  split; [vm_compute; reflexivity|]. split; [vm_compute; reflexivity|]. split; [vm_compute; reflexivity|]. split; vm_compute; reflexivity.
Qed.
Print Assumptions stale_index_refuted.

(** The slot is read from the clock again when the header is made. When a boundary has passed in between, the node makes, adopts and announces a block for a slot that is another
    validator's. *)
Theorem late_header_refuted : exists (z : env N N N) a b slot now a' k i,
  vrf_complete z /\ same_chain z a b /\ z_hash z (nd_best a) <> 0 /\ now_jam_timeslot now = Some (slot + 1) /\ 0 < slot /\ nd_index a = Some i /\
  key_at z (predict_active_set (z_E z) (saf (nd_db a)) (slot + 1)) i = Some (nd_key a) /\
  predict_slot_sealer (z_E z) (z_D z) (z_H z) (z_V z) (saf (nd_db a)) (slot + 1) = Ok (SKey (nd_key b)) /\ nd_key a <> nd_key b /\
  extend_chain z slot now true a = Ok (Some (a', k)) /\ nd_best a' = k_header k /\ h_slot (h_data (k_header k)) = slot + 1 /\ import z now b k = Err BadFallbackKey /\ deliver z now b k = Some b.
Proof.
  exists ex_env, (ex_node ex_s 0 1), (ex_node ex_s 1 2), 4, (era + 30). do 2 eexists. exists 0.
  split; [exact ex_complete|]. split; [repeat split|]. split; [vm_compute; discriminate|]. split; [reflexivity|]. split; [reflexivity|]. split; [reflexivity|]. split; [reflexivity|].
  split; [vm_compute; reflexivity|]. split; [discriminate|]. split; [vm_compute; reflexivity|]. split; [vm_compute; reflexivity|]. split; [vm_compute; reflexivity|]. split; vm_compute; reflexivity.
Qed.
Print Assumptions late_header_refuted.

(** In ticket mode a node with the winning ticket could make a block that others accept, but panics when asked whether the slot is its own; so does every other node. *)
Theorem ticket_mode_refuted : exists (z : env N N N) a b slot now n k b' i,
  vrf_complete z /\ same_chain z a b /\ now_jam_timeslot now = Some slot /\ nd_index a = Some i /\
  author_header z now a i (nd_key a) = Ok (n, k) /\ import z now b k = Ok b' /\ nd_best b' = k_header k /\ extend_chain z slot now true a = Panic /\ extend_chain z slot now true b = Panic.
Proof.
  set (t := mk_ticket (1 * 256 + ex_sum (X_T ++ [4] ++ [0]) mod 256) 0). set (s := mk_st (saf (ex_state [ex_key 1; ex_key 2] [3] (Tickets [t; t; t; t]))) 5). 
  set (s' := mk_st (mk_s 4 [1] [2] [3] [4] (s_staging (saf s)) (s_active (saf s)) (s_past (saf s)) (s_pending (saf s)) [] (Tickets [t; t; t; t]) [] []) 5).
  set (bst := mk_hdr (mk_hd 9 9 7 4 None None 0 [] []) [1; 2]). set (nd := fun i k => mk_node s' s' bst (fun k => if k =? ex_hash bst then Some (z_root ex_env s') else None) (Some i) k).
  exists ex_env, (nd 0 1), (nd 1 2), 5, (era + 30). do 3 eexists. exists 0. subst s s' t bst nd.
  split; [exact ex_complete|]. split; [repeat split|]. split; [reflexivity|]. split; [reflexivity|]. split; [vm_compute; reflexivity|]. split; [vm_compute; reflexivity|]. split; [reflexivity|]. split; vm_compute; reflexivity.
Qed.
Print Assumptions ticket_mode_refuted.
(** The same in general. *)
Theorem ticket_slot_panics_partial : forall Xt R O (z : env Xt R O) slot now ok n t,
  predict_slot_sealer (z_E z) (z_D z) (z_H z) (z_V z) (saf (nd_db n)) slot = Ok (STicket t) -> extend_chain z slot now ok n = Panic.
Proof. intros Xt R O z slot now ok n t Q. unfold extend_chain, extend1, is_author_of_slot. rewrite Q. reflexivity. Qed.
Print Assumptions ticket_slot_panics_partial.

(** ** C95 *)
(** A block (other than genesis) is imported exactly when it extends the best block, its slot has begun, the execution of its three phases succeeds, it was sealed by the validator who
    holds the slot, and its markers are those of the execution. *)
Theorem import_requires_seal : forall Xt R O (z : env Xt R O) now (n : node R) (b : blk Xt) n', h_parent (h_data (k_header b)) <> 0 ->
  let h := k_header b in
  import z now n b = Ok n' <->
  exists s1 m off s2 o s3, extends z n b /\ begun now (h_slot (h_data h)) /\
    exec1 z now (nd_work n) (h_slot (h_data h)) (h_root (h_data h)) (k_xts b) = Ok (s1, m, off) /\ rightly_sealed z (saf s1) h /\ rightly_marked h m off /\
    exec2 z s1 (h_data h) (k_xts b) = Ok (s2, o) /\ exec3 z s2 o (z_hash z h) = Ok s3 /\ n' = accepted n h s3.
Proof. intros. apply import_iff. assumption. Qed.
Print Assumptions import_requires_seal.

(** The entropy after a block is the hash of the entropy before it with the output of its VRF signature. *)
Theorem entropy_from_vrf : forall Xt R O (z : env Xt R O) now (n : node R) (b : blk Xt) n', h_parent (h_data (k_header b)) <> 0 -> import z now n b = Ok n' ->
  exists v, z_out z (h_vrf (h_data (k_header b))) = Some v /\ s_e0 (saf (nd_db n')) = z_H z (s_e0 (saf (nd_work n)) ++ hbytes v).
Proof.
  intros Xt R O z now n b n' P Q. apply (import_iff z now n b n' P) in Q. destruct Q as [s1 [m [off [s2 [o [s3 [_ [_ [X1 [_ [_ [X2 [X3 ->]]]]]]]]]]]]].
  destruct (exec23_entropy z _ _ _ _ _ _ _ X2 X3) as [v [V1 V2]]. exists v. split; [exact V1|]. cbn [nd_db accepted]. rewrite V2. apply exec1_facts in X1. destruct X1 as [_ [_ [-> _]]]. reflexivity.
Qed.
Print Assumptions entropy_from_vrf.

(** Two blocks for the same slot on the same node, by the same validator, leave the same entropy, whatever else they contain. Without tickets there is only one such validator. *)
Theorem entropy_not_chosen : forall Xt R O (z : env Xt R O) now1 now2 (n : node R) (b1 b2 : blk Xt) n1 n2,
  vrf_unique z -> h_parent (h_data (k_header b1)) <> 0 -> h_parent (h_data (k_header b2)) <> 0 -> import z now1 n b1 = Ok n1 -> import z now2 n b2 = Ok n2 ->
  h_slot (h_data (k_header b1)) = h_slot (h_data (k_header b2)) ->
  (h_author (h_data (k_header b1)) = h_author (h_data (k_header b2)) \/
   exists k, predict_slot_sealer (z_E z) (z_D z) (z_H z) (z_V z) (saf (nd_work n)) (h_slot (h_data (k_header b1))) = Ok (SKey k)) ->
  s_e0 (saf (nd_db n1)) = s_e0 (saf (nd_db n2)).
Proof.
  intros Xt R O z now1 now2 n b1 b2 n1 n2 VU P1 P2 I1 I2 SS AU. apply (import_iff z now1 n b1 n1 P1) in I1. apply (import_iff z now2 n b2 n2 P2) in I2.
  destruct I1 as [s1 [m [off [s2 [o [s3 [_ [_ [X1 [S1 [_ [X2 [X3 ->]]]]]]]]]]]]]. destruct I2 as [t1 [m' [off' [t2 [o' [t3 [_ [_ [Y1 [S2 [_ [Y2 [Y3 ->]]]]]]]]]]]]].
  cbn [nd_db accepted]. destruct (exec23_entropy z _ _ _ _ _ _ _ X2 X3) as [v [V1 ->]]. destruct (exec23_entropy z _ _ _ _ _ _ _ Y2 Y3) as [w [W1 ->]].
  apply exec1_facts in X1. apply exec1_facts in Y1. destruct X1 as [_ [_ [Xe [Xp [Xq Xr]]]]]. destruct Y1 as [_ [_ [Ye [Yp [Yq Yr]]]]]. rewrite Xe, Ye. do 2 f_equal.
  rewrite <- SS in Yp, Yq, Yr. rewrite Xp in Yp. rewrite Xq in Yq. rewrite Xr in Yr. rewrite Xp in AU. clear Xp Xq Xr Xe Ye X2 X3 Y2 Y3.
  destruct S1 as [x [Nx [_ [Sx [u [Ux Vx]]]]]]. destruct S2 as [y [Ny [_ [Sy [u' [Uy Vy]]]]]]. rewrite <- SS in Sy. rewrite <- Yr in Ny. rewrite <- Yq in Sy. unfold get_slot_sealer, phase in Yp, AU.
  assert (Z : kband x = kband y /\ u = u').
  { destruct (s_sealers (saf s1)) as [l|l], (s_sealers (saf t1)) as [l'|l'].
    - destruct Sx as [t [Nt [Ot Vt]]]. destruct Sy as [t' [Nt' [Ot' Vt']]]. rewrite Nt, Nt' in Yp. inversion Yp; subst t'. rewrite Ot in Ux. rewrite Ot' in Uy. split; [|congruence].
      destruct AU as [AU|[k AU]]; [rewrite AU in Nx; congruence|]. rewrite Nt in AU. discriminate.
    - destruct Sx as [t [Nt _]]. destruct Sy as [Nt' _]. rewrite Nt, Nt' in Yp. discriminate.
    - destruct Sx as [Nt _]. destruct Sy as [t' [Nt' _]]. rewrite Nt, Nt' in Yp. discriminate.
    - destruct Sx as [Nt Vt]. destruct Sy as [Nt' Vt']. rewrite Nt, Nt' in Yp. inversion Yp as [K]. split; [reflexivity|]. rewrite <- K in Vt'. pose proof (VU _ _ _ _ _ _ Vt Vt'). congruence. }
  destruct Z as [Z1 Z2]. subst u'. rewrite <- Z1 in Vy. pose proof (VU _ _ _ _ _ _ Vx Vy) as Z. congruence.
Qed.
Print Assumptions entropy_not_chosen.

(** Two blocks of validator 1 for slot 4 with different extrinsics, both accepted; a block of validator 2 for the slot is not. *)
Definition ex_block (key index x : N) : blk N :=
  match exec1 ex_env (era + 25) ex_s 4 (z_root ex_env ex_s) x with
  | Ok (s1, m, off) =>
      match get_slot_sealer 4 (s_sealers (saf s1)) 4 with
      | Ok sl => match sign_vrf ex_env sl (s_e3 (saf s1)) key with
                 | Ok v => let d := mk_hd (ex_hash ex_best) (z_root ex_env ex_s) (x + 7) 4 (m_epoch m) (m_winning m) index v off in
                           match sign_seal ex_env d sl (s_e3 (saf s1)) key with Ok g => mk_blk (mk_hdr d g) x | _ => mk_blk ex_best 0 end
                 | _ => mk_blk ex_best 0
                 end
      | _ => mk_blk ex_best 0
      end
  | _ => mk_blk ex_best 0
  end.
Example entropy_case : exists n1 n2, import ex_env (era + 25) (ex_node ex_s 1 2) (ex_block 1 0 3) = Ok n1 /\ import ex_env (era + 26) (ex_node ex_s 1 2) (ex_block 1 0 8) = Ok n2 /\
  nd_db n1 <> nd_db n2 /\ h_seal (nd_best n1) <> h_seal (nd_best n2) /\ s_e0 (saf (nd_db n1)) = s_e0 (saf (nd_db n2)) /\ s_e0 (saf (nd_db n1)) <> s_e0 (saf ex_s) /\
  import ex_env (era + 25) (ex_node ex_s 1 2) (ex_block 2 1 3) = Err BadFallbackKey /\ import ex_env (era + 25) (ex_node ex_s 1 2) (ex_block 2 0 3) = Err BadSignature.
Proof.
  do 2 eexists. split; [vm_compute; reflexivity|]. split; [vm_compute; reflexivity|]. split; [discriminate|]. split; [discriminate|]. split; [reflexivity|]. split; [discriminate|]. split; vm_compute; reflexivity.
Qed.

(** ** C96 *)
(** A block that a node rejects leaves it as it was, when nothing is pending in its cache.
    Missing: a rejected block that arrives while the node is making a block of its own, see below. *)
Theorem rejected_block_harmless_partial : forall Xt R O (z : env Xt R O) now (n : node R) (b : blk Xt) e, settled n -> import z now n b = Err e -> deliver z now n b = Some n.
Proof. intros Xt R O z now [db w be ro ix ke] b e S Q. unfold settled in S. cbn in S. subst w. unfold deliver. rewrite Q. reflexivity. Qed.
Print Assumptions rejected_block_harmless_partial.
Example rejected_case : settled (ex_node ex_s 1 2) /\ import ex_env (era + 25) (ex_node ex_s 1 2) (ex_block 2 1 3) = Err BadFallbackKey.
Proof. split; [reflexivity|vm_compute; reflexivity]. Qed.

(** A block that arrives while a node makes its own, and is rejected, also removes the first half of the node's own block from the cache: the node announces a block that others accept,
    and commits a different state than theirs, in which not even the slot has advanced. *)
Theorem rejected_block_disturbs_author_refuted : exists (z : env N N N) a b slot now n1 k junk e n2 a' b',
  vrf_complete z /\ same_chain z a b /\ z_hash z (nd_best a) <> 0 /\ now_jam_timeslot now = Some slot /\
  extend1 z slot now a = Ok (Some (n1, k)) /\ import z now n1 junk = Err e /\ deliver z now n1 junk = Some n2 /\ extend2 z true n2 k = Ok a' /\ deliver z now b k = Some b' /\
  nd_best a' = nd_best b' /\ s_slot (saf (nd_db a')) < slot /\ s_slot (saf (nd_db b')) = slot.
Proof.
  exists ex_env, (ex_node ex_s 0 1), (ex_node ex_s 1 2), 4, (era + 25). do 2 eexists. exists (mk_blk ex_best 0). do 4 eexists.
  split; [exact ex_complete|]. split; [repeat split|]. split; [vm_compute; discriminate|]. split; [reflexivity|]. split; [vm_compute; reflexivity|]. split; [vm_compute; reflexivity|].
  split; [vm_compute; reflexivity|]. split; [vm_compute; reflexivity|]. split; [vm_compute; reflexivity|]. split; [reflexivity|]. split; reflexivity.
Qed.
Print Assumptions rejected_block_disturbs_author_refuted.

(** A node that could not announce its block keeps it as its best block without the state after it, and from then on imports nothing. *)
Theorem unannounced_block_wedges_refuted : exists (z : env N N N) a slot now n1 k,
  vrf_complete z /\ settled a /\ consistent z a /\ now_jam_timeslot now = Some slot /\
  extend1 z slot now a = Ok (Some (n1, k)) /\ extend2 z false n1 k = Err NotAnnounced /\
  (forall l n2, Forall (fun p => h_parent (h_data (k_header (snd p))) <> 0) l -> deliver_all z n1 l = Some n2 -> nd_best n2 = k_header k /\ nd_db n2 = nd_db a) /\
  exists b k2 b2, deliver_all z a [(now, k); (now + 6, k2)] = Some b /\ deliver_all z n1 [(now, k); (now + 6, k2)] = Some b2 /\ nd_best b = k_header k2 /\ nd_best b2 = k_header k.
Proof.
  exists ex_env, (ex_node ex_s 0 1), 4, (era + 25). do 2 eexists. split; [exact ex_complete|]. split; [reflexivity|]. split; [repeat split|]. split; [reflexivity|]. split; [vm_compute; reflexivity|].
  split; [reflexivity|]. split.
  - intros l n2 F Q. apply wedged in Q; [exact Q|vm_compute; reflexivity|exact F].
  - eexists. exists (match extend_chain ex_env 4 (era + 25) true (ex_node ex_s 0 1) with
      | Ok (Some (a, k)) => match extend_chain ex_env 5 (era + 31) true (mk_node (nd_db a) (nd_work a) (nd_best a) (nd_roots a) (Some 1) 2) with Ok (Some (_, k2)) => k2 | _ => k end
      | _ => mk_blk ex_best 0 end). eexists. split; [vm_compute; reflexivity|]. split; [vm_compute; reflexivity|]. split; vm_compute; reflexivity.
Qed.
Print Assumptions unannounced_block_wedges_refuted.
