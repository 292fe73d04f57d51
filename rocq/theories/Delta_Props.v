(** Properties of the accumulation of a block (C75-C78). *)
From Verif Require Import Base PvmMem_Model PvmProg_Model PvmStep_Model PvmInit_Model Codec_Model Queue_Model Gas_Model Gas_Spec Sandbox_Model Sandbox_Spec Host_Model Host_Spec Acc_Model Acc_Spec Round_Model Round_Spec Round2_Spec
  Delta_Model Delta_Spec Delta3_Proofs Delta4_Proofs Delta5_Proofs Delta6_Proofs Finite_Proofs Town_Model Round_Props.
Open Scope N_scope.

(** C75. A block's accumulation ends, whatever the accounts, programs, reports and privileges, and after at most as many rounds as there is gas and are reports. (The fuel of an invocation is at least
    2^63: gas is less, and every instruction costs one.) *)
Theorem block_terminates : forall x q limit reports always, 2 ^ 63 <= N.of_nat (x_fuel x) -> limit < 2 ^ 64 ->
  exists r, forall n, limit + N.of_nat (length reports) + 1 < N.of_nat n -> outer n x q limit reports always = Some r.
Proof. exact outer_ends. Qed.
(** C76. The gas accounts of a block that succeeds: the gas left is at most the limit; the reports accumulated are the first ones, and the next is one whose gas is not there; the gas of every round
    adds up ([accounted]); and no transfer is left over. *)
Theorem block_gas : forall n x q limit reports always l, limit < 2 ^ 64 -> outer n x q limit reports always = Some (Ok l) ->
  l_gas l <= limit /\ l_left l = skipn (l_count l) reports /\ (l_count l <= length reports)%nat /\ (forall r rs, l_left l = r :: rs -> l_gas l < total (map d_gas r)) /\
  (forall ch l1 l2, rounds x [] (start q limit reports always) ch l1 -> turn x l1 = Some (Ok (Some l2)) -> exists pairs, accounted l1 l2 pairs) /\
  (exists ch, rounds x [] (start q limit reports always) ch l) /\ l_xfers l = [].
Proof. exact outer_gas. Qed.
(** C77. The accounts after a block: the total of the balances has not grown, and is what it was if no transfer went to a service that was not there and no service that ran was removed; and the accounts, as they are written to
    the state, in any order of the hash maps, are in order again. *)
Theorem block_accounts_partial : forall n x q limit reports always l, in_order (e_now (x_env x)) (x_G x) -> e_now (x_env x) + e_expiry (x_env x) < 2 ^ 32 -> confirmed q -> e_cores (x_env x) = N.of_nat (length (p_assign q)) ->
  all_fair x (start q limit reports always) -> outer n x q limit reports always = Some (Ok l) ->
  confirmed (l_priv l) /\ length (p_assign (l_priv l)) = length (p_assign q) /\
  forall sb, reordered (l_sb l) sb -> exists G', apply (x_G x) sb = Ok G' /\ in_order (e_now (x_env x)) G' /\
    forall v, holds (x_G x) v -> exists v', holds G' v' /\ v' <= v /\ (all_lossless x (start q limit reports always) -> v' = v).
Proof. exact block_accounts. Qed.
(** C78. A block's accumulation does not fail, if each service's accumulation ends without an error, no two make the same account, and the gas of the always-accumulate services is there beside that of the first reports. *)
Theorem block_succeeds_partial : forall n x q limit reports always r, in_order (e_now (x_env x)) (x_G x) -> e_now (x_env x) + e_expiry (x_env x) < 2 ^ 32 -> confirmed q -> e_cores (x_env x) = N.of_nat (length (p_assign q)) ->
  limit < 2 ^ 64 -> NoDup (map fst always) -> total (map snd always) + declared (firstn (max_processable_reports reports limit) reports) <= limit ->
  all_fair x (start q limit reports always) -> all_run x (start q limit reports always) -> outer n x q limit reports always = Some r -> exists l, r = Ok l.
Proof. exact block_succeeds. Qed.
(** Whatever the services do, the gas sums do not fail under the same condition. *)
Theorem block_no_gas_failure_partial : forall n x q limit reports always, limit < 2 ^ 64 -> NoDup (map fst always) ->
  total (map snd always) + declared (firstn (max_processable_reports reports limit) reports) <= limit -> outer n x q limit reports always <> Some (Err DGas).
Proof. exact outer_no_gas. Qed.

(** ** The busy block: two reports; 7 BLESSes, makes an account and pays 9, which runs twice. *)
Example busy_case : in_order 100 (accounts_of (busy 9)) /\ confirmed bpriv /\ all_fair (block (busy 9)) (start bpriv 5000 work79 []) /\ all_lossless (block (busy 9)) (start bpriv 5000 work79 []) /\
  all_run (block (busy 9)) (start bpriv 5000 work79 []) /\ holds (accounts_of (busy 9)) 200000.
Proof.
  split; [exact busy_order|]. split; [exact bpriv_confirmed|]. split; [apply (@fair_checked (block (busy 9)) [7; 9; 151652617] (busy_ids 9) 9); vm_compute; reflexivity|]. split; [apply (@lossless_checked _ 9); vm_compute; reflexivity|].
  split; [apply (@runs_checked _ 9); vm_compute; reflexivity|]. apply (accounts_hold (busy 9)). vm_compute. reflexivity.
Qed.
Example busy_ends : match outer 9 (block (busy 9)) bpriv 5000 work79 [] with
  | Some (Ok l) => l_count l = 2%nat /\ l_used l = [(7, 100); (9, 43); (9, 43)] /\ l_gas l = 4864 /\ p_assign (l_priv l) = [9; 6] /\
      map (fun s => option_map m_balance (g_meta (view (accounts_of (busy 9)) (l_sb l)) s)) [7; 9; 151652617] = [Some 99679; Some 100100; Some 221]
  | _ => False end.
Proof. vm_compute. repeat split. Qed.
Example fuel_case : 2 ^ 63 <= N.of_nat (N.to_nat (2 ^ 63)). Proof. rewrite N2Nat.id. reflexivity. Qed.

(** ** What makes a block fail *)
(** Two services that make themselves registrar, for the time of their accumulation, and make the same small account: the block fails. *)
Theorem block_clash_refuted : exists n x q reports, in_order (e_now (x_env x)) (x_G x) /\ confirmed q /\ all_run x (start q 5000 reports []) /\ outer n x q 5000 reports [] = Some (Err (DRound (EDuplicate 100))).
Proof. exists 9%nat, (block clash), bpriv, work79. split; [apply fine_ok; vm_compute; reflexivity|]. split; [exact bpriv_confirmed|]. split; [apply (@runs_checked _ 9); vm_compute; reflexivity | vm_compute; reflexivity]. Qed.
(** One that asks to transfer 2^63 of gas, where it should just have run out of gas. *)
Theorem block_transfer_refuted : exists n x q reports, in_order (e_now (x_env x)) (x_G x) /\ confirmed q /\ all_fair x (start q 5000 reports []) /\ outer n x q 5000 reports [] = Some (Err (DRun EGasOverflow)).
Proof.
  exists 9%nat, (block greedy), bpriv, work7. split; [apply fine_ok; vm_compute; reflexivity|]. split; [exact bpriv_confirmed|].
  split; [apply (@fair_checked (block greedy) [7; 9] (fun s H => @accounts_have _ s H) 9); vm_compute; reflexivity | vm_compute; reflexivity].
Qed.
(** One that ends regularly with 2^32 or more in register 7, as after a refused host call, where it should have no output. *)
Theorem block_register_refuted : exists n x q reports, in_order (e_now (x_env x)) (x_G x) /\ confirmed q /\ all_fair x (start q 5000 reports []) /\ outer n x q 5000 reports [] = Some (Err (DRun EInvalidRegVal)).
Proof.
  exists 9%nat, (block refusal), bpriv, work7. split; [apply fine_ok; vm_compute; reflexivity|]. split; [exact bpriv_confirmed|].
  split; [apply (@fair_checked (block refusal) [7; 9] (fun s H => @accounts_have _ s H) 9); vm_compute; reflexivity | vm_compute; reflexivity].
Qed.
(** What each service of a round is given: the transfers to it and the digests of its work, counted, and the amounts of the transfers, added up in 64 bits. *)
Theorem block_inputs : forall x l j, In j (jobs_at x l) ->
  j_inputs j = N.of_nat (count_occ N.eq_dec (map t_to (l_xfers l)) (j_id j) + count_occ N.eq_dec (map d_service (concat (taken l))) (j_id j)) /\
  j_recv j = fold_right N.add 0 (map (fun t => if t_to t =? j_id j then t_amount t else 0) (l_xfers l)) mod 2 ^ 64.
Proof.
  intros x l j J. unfold jobs_at in J. apply in_map_iff in J as [s [<- _]]. cbn [j_id j_recv j_inputs]. split.
  - unfold inputs_of. f_equal. f_equal.
    + induction (l_xfers l) as [|t ts IH]; [reflexivity|]. cbn [filter map count_occ]. destruct (N.eqb_spec (t_to t) s) as [Q|Q], (N.eq_dec (t_to t) s); try contradiction; cbn [length]; congruence.
    + induction (concat (taken l)) as [|t ts IH]; [reflexivity|]. cbn [filter map count_occ]. destruct (N.eqb_spec (d_service t) s) as [Q|Q], (N.eq_dec (d_service t) s); try contradiction; cbn [length]; congruence.
  - unfold received_by. generalize (l_xfers l) as ts. intro ts.
    assert (X : forall a, a < 2 ^ 64 -> fold_left (fun a t => (a + t_amount t) mod 2 ^ 64) (filter (fun t => t_to t =? s) ts) a = (a + fold_right N.add 0 (map (fun t => if t_to t =? s then t_amount t else 0) ts)) mod 2 ^ 64).
    { assert (P64 : 2 ^ 64 <> 0) by discriminate. induction ts as [|t ts IH]; intros a A; cbn [filter map fold_right].
      - rewrite N.add_0_r, N.mod_small by exact A. reflexivity.
      - destruct (t_to t =? s); [|rewrite N.add_0_l; apply IH; exact A]. cbn [fold_left]. rewrite IH by (apply N.mod_lt; exact P64). rewrite N.add_mod_idemp_l by exact P64. rewrite N.add_assoc. reflexivity. }
    rewrite X by reflexivity. rewrite N.add_0_l. reflexivity.
Qed.
Print Assumptions block_inputs.
Print Assumptions block_terminates.
Print Assumptions block_gas.
Print Assumptions block_accounts_partial.
Print Assumptions block_succeeds_partial.
Print Assumptions block_no_gas_failure_partial.
Print Assumptions block_clash_refuted.
Print Assumptions block_transfer_refuted.
Print Assumptions block_register_refuted.
