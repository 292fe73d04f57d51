(** When a block's accumulation succeeds. *)
From Verif Require Import Base Base_Proofs PvmMem_Model PvmProg_Model PvmStep_Model PvmInit_Model Codec_Model Queue_Model Gas_Model Gas_Spec Gas_Proofs Sandbox_Model Sandbox_Spec Sandbox_Proofs Host_Model Host_Spec Host_Proofs
  Acc_Model Acc_Spec Round_Model Round_Spec Round2_Spec Round6_Proofs Round10_Proofs Delta_Model Delta_Spec Delta_Proofs Delta3_Proofs Delta4_Proofs.
Set Implicit Arguments.
Open Scope N_scope.

Lemma take_each_fold : forall x always reports ts sb q ss results, Forall2 (fun s y => fst y = s /\ single x always reports ts sb q s = Some (Ok (snd y))) ss results ->
  forall o, take_each x always reports ts sb q ss o = Some (ofround (fold_left (take (x_G x) (x_env x) sb q (is_metered always reports ts)) results (Ok o))).
Proof.
  intros x always reports ts sb q ss results F. induction F as [|s [t a] ss ys [E S] F IH]; intros o; [reflexivity|]. cbn [fst snd] in *. subst t. cbn [take_each fold_left]. rewrite S.
  destruct (take (x_G x) (x_env x) sb q (is_metered always reports ts) (Ok o) (s, a)) as [o1|y|] eqn:T; cbn [ofround].
  - apply IH.
  - rewrite take_err. reflexivity.
  - rewrite take_panic. reflexivity.
Qed.
Lemma jobs_run : forall x l, NoDup (map fst (due l)) -> total (map snd (due l)) + declared (taken l) + total (map t_gas (l_xfers l)) <= u64_max ->
  (forall j, In j (jobs_at x l) -> exists o, accumulate (x_fuel x) (x_G x) (for_job (x_env x) j) (l_sb l) (l_priv l) (j_id j) (j_recv j) (j_inputs j) (j_limit j) (x_entropy x) = Some (Ok o)) ->
  exists results, results_of (x_fuel x) (x_G x) (x_env x) (l_sb l) (l_priv l) (x_entropy x) (jobs_at x l) results /\
    parallel x (due l) (taken l) (l_xfers l) (l_sb l) (l_priv l) = Some (ofround (round (x_G x) (x_env x) (metered_at l) (l_sb l) (l_priv l) results)).
Proof.
  intros x l Nd L H.
  assert (K : exists results, results_of (x_fuel x) (x_G x) (x_env x) (l_sb l) (l_priv l) (x_entropy x) (jobs_at x l) results /\
    Forall2 (fun s y => fst y = s /\ single x (due l) (taken l) (l_xfers l) (l_sb l) (l_priv l) s = Some (Ok (snd y))) (services (due l) (taken l) (l_xfers l) (l_priv l)) results).
  { unfold jobs_at in *. generalize dependent (services (due l) (taken l) (l_xfers l) (l_priv l)). intros ss H. induction ss as [|s ss IH]; [exists []; split; constructor|]. cbn [map] in *.
    destruct (IH (fun j J => H j (or_intror J))) as [results [A B]]. destruct (H _ (or_introl eq_refl)) as [o E]. exists ((s, o) :: results). split; [constructor; [split; [reflexivity | exact E] | exact A]|].
    constructor; [|exact B]. split; [reflexivity|]. unfold single. rewrite limit_is in *; try exact Nd; try (unfold carried; rewrite gas_parts; exact L).
    cbn [j_id j_recv j_inputs j_limit] in E. change (for_job (x_env x) _) with (with_fetch (x_env x) (x_fetch x (taken l) (l_xfers l) s)) in E. rewrite E. reflexivity. }
  destruct K as [results [A B]]. exists results. split; [exact A|]. unfold parallel. rewrite (@take_each_fold _ _ _ _ _ _ _ _ B). unfold round, metered_at. destruct (fold_left _ results _) as [o|y|]; reflexivity.
Qed.
Lemma turn_runs : forall x ch l, proper (x_G x) -> e_now (x_env x) + e_expiry (x_env x) < 2 ^ 32 -> steady x ch l ->
  (forall results, results_of (x_fuel x) (x_G x) (x_env x) (l_sb l) (l_priv l) (x_entropy x) (jobs_at x l) results -> fair x ch l results) ->
  (forall j, In j (jobs_at x l) -> exists o, accumulate (x_fuel x) (x_G x) (for_job (x_env x) j) (l_sb l) (l_priv l) (j_id j) (j_recv j) (j_inputs j) (j_limit j) (x_entropy x) = Some (Ok o)) ->
  NoDup (map fst (due l)) -> total (map snd (due l)) + declared (taken l) <= l_gas l -> l_gas l + total (map t_gas (l_xfers l)) <= u64_max -> exists r, turn x l = Some (Ok r).
Proof.
  intros x ch l PG Eo [S1 S2 [S3 S4]] Fa Ru Nd D L. pose proof (@turn_no_gas x l Nd D L) as Ng. destruct (@jobs_run x l Nd ltac:(lia) Ru) as [results [R P]]. pose proof (Fa _ R) as [F1 F2 F3 F4 F5].
  assert (Ids : map j_id (jobs_at x l) = services (due l) (taken l) (l_xfers l) (l_priv l)) by (unfold jobs_at; rewrite map_map; apply map_id).
  assert (Be : begins (x_fuel x) (x_G x) ch (x_env x) (l_sb l) (l_priv l) (x_entropy x) (metered_at l) (jobs_at x l) results).
  { split; try assumption; try (split; assumption). split; [rewrite Ids; apply services_nodup | exact F2]. }
  destruct (round_full PG Eo Be) as [o [w [E _]]]. rewrite E in P. cbn [ofround] in P. unfold turn in *.
  destruct (negb _ && negb _ && match l_aas l with None => true | Some _ => false end); [eexists; reflexivity|].
  assert (K : (match l_left l with [] => false | _ => true end = false -> max_processable_reports (l_left l) (l_gas l) = 0%nat)) by (destruct (l_left l); [reflexivity | discriminate]).
  set (k := if match l_left l with [] => false | _ => true end then max_processable_reports (l_left l) (l_gas l) else 0%nat) in *.
  assert (Ek : k = max_processable_reports (l_left l) (l_gas l)) by (unfold k; destruct (match l_left l with [] => false | _ => true end); [reflexivity | symmetry; apply K; reflexivity]).
  assert (Tk : firstn k (l_left l) = taken l) by (unfold taken; rewrite Ek; reflexivity). rewrite Tk in *. fold (due l) in *. destruct (Nat.eqb k 0 && _ && _); [eexists; reflexivity|]. rewrite P in *.
  destruct (checked_sum 0 (map snd (o_gas o))); [|congruence]. destruct (checked_sum 0 (map t_gas (l_xfers l))); [|congruence]. destruct (checked_add (l_gas l) _); [|congruence]. destruct (_ <? _); [congruence | eexists; reflexivity].
Qed.
Theorem block_succeeds : forall n x q limit reports always r, in_order (e_now (x_env x)) (x_G x) -> e_now (x_env x) + e_expiry (x_env x) < 2 ^ 32 -> confirmed q -> e_cores (x_env x) = N.of_nat (length (p_assign q)) ->
  limit < 2 ^ 64 -> NoDup (map fst always) -> total (map snd always) + declared (firstn (max_processable_reports reports limit) reports) <= limit ->
  all_fair x (start q limit reports always) -> all_run x (start q limit reports always) -> outer n x q limit reports always = Some r -> exists l, r = Ok l.
Proof.
  intros n x q limit reports always r O Ex C Lc L Nd D Fa Ru H. pose proof (@start_steady x q limit reports always O C Lc) as S0. set (l0 := start q limit reports always) in *.
  assert (Sm : forall g, g <= u64_max -> g < 2 ^ 64) by (intros g; unfold u64_max; change (2 ^ 64 - 1) with 18446744073709551615; change (2 ^ 64) with 18446744073709551616; lia).
  assert (G : forall n ch l, rounds x [] l0 ch l -> NoDup (map fst (due l)) -> total (map snd (due l)) + declared (taken l) <= l_gas l -> l_gas l + total (map t_gas (l_xfers l)) <= u64_max -> loop n x l = Some r -> exists l', r = Ok l').
  { clear n H. induction n as [|n IH]; intros ch l R Nl Dl Ll H; [discriminate|]. cbn [loop] in H. destruct (@rounds_steady x l0 (proj1 O) Ex S0 Fa ch l R) as [S1 _].
    destruct (@turn_runs x ch l (proj1 O) Ex S1 (fun results => Fa ch l results R) (fun j => Ru ch l j R) Nl Dl Ll) as [[l1|] T]; rewrite T in H; [|injection H as <-; eexists; reflexivity].
    destruct (@turn_gas x _ _ (Sm (l_gas l) ltac:(lia)) T) as [pairs [(_ & _ & A & _) _ _ _ B Cs _]]. assert (Dn : due l1 = []) by (unfold due; rewrite A; reflexivity). rewrite pays_split in Cs.
    apply (IH _ l1 (rounds_snoc R T)); [rewrite Dn; constructor | | lia | exact H]. rewrite Dn. cbn [map total fold_right]. unfold taken. destruct (max_processable_spec (l_left l1) (l_gas l1) (Sm (l_gas l1) ltac:(lia))) as (_ & K & _). lia. }
  apply (G n [] l0); [constructor | exact Nd | exact D | | exact H]. unfold l0. cbn [start l_gas l_xfers map total fold_right]. unfold u64_max. change (2 ^ 64 - 1) with 18446744073709551615. change (2 ^ 64) with 18446744073709551616 in L. lia.
Qed.
