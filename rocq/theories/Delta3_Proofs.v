(** Block accumulation ends, and keeps its gas accounts. *)
From Verif Require Import Base Base_Proofs PvmMem_Model PvmProg_Model PvmStep_Model PvmRun_Proofs PvmInit_Model PvmInit_Proofs Codec_Model Queue_Model Queue_Proofs Gas_Model Gas_Spec Gas_Proofs Sandbox_Model Sandbox_Spec Host_Model Host_Spec Acc_Model Acc_Spec Round_Model Round_Spec Round2_Spec
  Delta_Model Delta_Spec Delta_Proofs Delta2_Proofs.
Set Implicit Arguments.
Open Scope N_scope.

Lemma run_ends : forall (C : Type) (host : N -> vm -> C -> result verr (hchange * C)) fuel t fp pc limit args c, limit < 2 ^ 64 -> 2 ^ 63 <= N.of_nat fuel -> run_prepared host fuel t fp pc limit args c <> None.
Proof.
  intros C host fuel t fp pc limit args c L F. destruct (N.lt_ge_cases limit (2 ^ 63)) as [S|S].
  - destruct (@invocation_ends C host t fp pc limit args c S) as [r H]. rewrite H by lia. discriminate.
  - unfold run_prepared. destruct (new_pvm (fst fp) args) as [s0|]; [|discriminate]. assert (Neg : (as_signed limit < 0)%Z).
    { unfold as_signed. destruct (N.ltb_spec limit (2 ^ 63)); [lia|]. change (2 ^ 64)%Z with (Z.of_N (2 ^ 64)). lia. }
    set (s := mk_vm (v_regs s0) (v_mem s0) pc (as_signed limit)). destruct fuel as [|f]; [cbn in F; lia|]. cbn [invoke_extended invoke_general].
    destruct (PvmStep_Model.step (snd fp) s) as [[s'|x s']|y|] eqn:E; try discriminate.
    + apply step_gas in E. cbn [s v_gas] in E. lia.
    + destruct x; try discriminate. apply (@host_stop unit (fun _ _ _ => Panic)) in E. cbn [s v_gas] in E. lia.
Qed.
Theorem accumulate_ends : forall fuel G e sb p t recv inputs limit entropy, limit < 2 ^ 64 -> 2 ^ 63 <= N.of_nat fuel -> accumulate fuel G e sb p t recv inputs limit entropy <> None.
Proof.
  intros fuel G e sb p t recv inputs limit entropy L F. unfold accumulate. destruct (exec _ (active_of t) sb) as [sb1 there]. destruct (negb there); [discriminate|].
  destruct (if 0 <? recv then _ else _) as [sb2 ok]. destruct (negb ok); [discriminate|]. destruct (exec _ (code_prog t) sb2) as [sb3 [[code|]|x|]]; try discriminate.
  destruct (4000000 <? _); [discriminate|]. destruct (new_context G e sb3 p t entropy) as [c| |]; try discriminate. unfold invoke_with_args. destruct (prepare code) as [fp| |]; try discriminate.
  match goal with |- context [run_prepared ?h ?f ?t ?fp ?pc ?l ?a ?c] => pose proof (@run_ends _ h f t fp pc l a c L F) as R; destruct (run_prepared h f t fp pc l a c) as [[[[gas o] [x y]]| |]|] end; try discriminate. contradiction.
Qed.

(** ** One round *)
Notation pays ts := (sum (map (fun t => t_gas t + 1) ts)).
Lemma limit_small : forall always reports ts s g, service_gas_limit always reports ts s = Some g -> g < 2 ^ 64.
Proof.
  intros always reports ts s g H. unfold service_gas_limit in H. destruct (checked_sum 0 (digest_gas _ _)); [|discriminate]. destruct (checked_add _ _); [|discriminate]. destruct (checked_sum 0 (transfer_gas _ _)); [|discriminate].
  apply checked_add_ok in H as [-> H]. unfold u64_max in H. change (2 ^ 64 - 1) with 18446744073709551615 in H. change (2 ^ 64) with 18446744073709551616. lia.
Qed.
Lemma single_ends : forall x always reports ts sb q s, 2 ^ 63 <= N.of_nat (x_fuel x) -> single x always reports ts sb q s <> None.
Proof.
  intros x always reports ts sb q s F. unfold single. destruct (service_gas_limit _ _ _ _) as [g|] eqn:E; [|discriminate]. apply limit_small in E.
  match goal with |- context [accumulate ?a ?b ?c ?d ?e ?f ?g ?h ?i ?j] => pose proof (@accumulate_ends a b c d e f g h i j E F) as R; destruct (accumulate a b c d e f g h i j) as [[o|y|]|] end; try discriminate. contradiction.
Qed.
Lemma single_pays : forall x always reports ts sb q s a, single x always reports ts sb q s = Some (Ok (Some a)) ->
  exists g, service_gas_limit always reports (map gas_part ts) s = Some g /\ a_gas a <= g /\ pays (a_xfers a) <= a_gas a.
Proof.
  intros x always reports ts sb q s a H. unfold single in H. destruct (service_gas_limit _ _ _ _) as [g|] eqn:E; [|discriminate]. exists g. split; [reflexivity|]. apply limit_small in E.
  match type of H with context [accumulate ?a ?b ?c ?d ?e ?f ?g ?h ?i ?j] => destruct (accumulate a b c d e f g h i j) as [[o|y|]|] eqn:A end; try discriminate. injection H as ->. exact (@accumulate_pays _ _ _ _ _ _ _ _ _ _ _ E A).
Qed.
Lemma take_each_ends : forall x always reports ts sb q, 2 ^ 63 <= N.of_nat (x_fuel x) -> forall ss o, take_each x always reports ts sb q ss o <> None.
Proof.
  intros x always reports ts sb q F. induction ss as [|s ss IH]; intros o; cbn [take_each]; [discriminate|]. pose proof (@single_ends x always reports ts sb q s F) as N.
  destruct (single x always reports ts sb q s) as [[a|y|]|]; try discriminate; [|contradiction]. destruct (ofround _); try discriminate. apply IH.
Qed.
Lemma parallel_ends : forall x always reports ts sb q, 2 ^ 63 <= N.of_nat (x_fuel x) -> parallel x always reports ts sb q <> None.
Proof. intros x always reports ts sb q F. unfold parallel. pose proof (@take_each_ends x always reports ts sb q F (services always reports ts q) (mk_rout (mk_union sb q [] []) [] [] [])) as N. destruct (take_each _ _ _ _ _ _ _ _) as [[o|y|]|]; try discriminate. contradiction. Qed.

Definition paid (m : N -> bool) (results : list (N * option acc_out)) : list (N * N) := flat_map (fun x => match snd x with Some a => if m (fst x) then [(fst x, a_gas a)] else [] | None => [] end) results.
Definition spread (m : N -> bool) (results : list (N * option acc_out)) : list xfer := flat_map (fun x => match snd x with Some a => if m (fst x) then a_xfers a else [] | None => [] end) results.
Lemma fold_err : forall G e base q m results y, fold_left (take G e base q m) results (Err y) = Err y.
Proof. induction results as [|r results IH]; intros y; cbn [fold_left]; [reflexivity|]. apply IH. Qed.
Lemma fold_panic : forall G e base q m results, fold_left (take G e base q m) results Panic = Panic.
Proof. induction results as [|r results IH]; cbn [fold_left]; [reflexivity|]. apply IH. Qed.
Lemma fold_gas : forall G e base q m results o o', fold_left (take G e base q m) results (Ok o) = Ok o' -> o_gas o' = o_gas o ++ paid m results /\ o_xfers o' = o_xfers o ++ spread m results.
Proof.
  intros G e base q m. induction results as [|[t [a|]] results IH]; intros o o' H; cbn [fold_left] in H.
  - injection H as ->. cbn [paid spread flat_map]. rewrite !app_nil_r. split; reflexivity.
  - unfold paid, spread. cbn [flat_map snd fst]. fold (paid m results) (spread m results). unfold take at 2 in H. cbn [bind] in H.
    destruct (merge G base q t (o_union o) (a_sb a) (a_priv a)) as [u|y|]; cbn [bind] in H; [|rewrite fold_err in H; discriminate | rewrite fold_panic in H; discriminate]. destruct (m t).
    + destruct (provide G e (u_sb u) (a_prov a)) as [sb|y|]; cbn [bind] in H; [|rewrite fold_err in H; discriminate | rewrite fold_panic in H; discriminate].
      apply IH in H as [-> ->]. cbn [o_gas o_xfers]. rewrite <- !app_assoc. split; reflexivity.
    + apply IH in H as [-> ->]. split; reflexivity.
  - unfold take at 2 in H. cbn [bind] in H. apply IH in H as [-> ->]. split; reflexivity.
Qed.
Lemma total_sum : forall l, total l = sum l.
Proof. induction l as [|a l IH]; [reflexivity|]. cbn [total fold_right sum]. fold (total l). rewrite IH. reflexivity. Qed.
Lemma gas_parts : forall ts, map x_gas (map gas_part ts) = map t_gas ts.
Proof. intros ts. rewrite map_map. reflexivity. Qed.
Lemma paid_in : forall m results s, In s (map fst (paid m results)) -> In s (map fst results) /\ m s = true.
Proof.
  intros m results s H. apply in_map_iff in H as [[s' u] [E I]]. cbn [fst] in E. subst s'. unfold paid in I. apply in_flat_map in I as [[t [a|]] [J K]]; cbn [fst snd] in K; [|contradiction]. destruct (m t) eqn:M; [|contradiction].
  destruct K as [K|[]]. injection K as <- <-. split; [exact (in_map fst _ _ J) | exact M].
Qed.
Lemma paid_once : forall m results, NoDup (map fst results) -> NoDup (map fst (paid m results)).
Proof.
  intros m. induction results as [|[t [a|]] results IH]; intros H; [constructor| |]; inversion H as [|? ? A B]; subst; unfold paid; cbn [flat_map snd fst]; fold (paid m results); [|apply IH, B].
  destruct (m t); [|apply IH, B]. cbn [app map fst]. constructor; [|apply IH, B]. intros I. apply paid_in in I as [I _]. contradiction.
Qed.
Lemma total_incl : forall (f : N -> N) (l ss : list N), NoDup l -> incl l ss -> total (map f l) <= total (map f ss).
Proof.
  intros f. induction l as [|a l IH]; intros ss Nd I; [cbn; lia|]. inversion Nd as [|? ? A B]; subst. destruct (in_split a ss) as [s1 [s2 E]]; [apply I; left; reflexivity|]. subst ss.
  assert (J : incl l (s1 ++ s2)). { intros b Hb. assert (K : In b (s1 ++ a :: s2)) by (apply I; right; exact Hb). apply in_app_iff in K as [K|[K|K]]; [apply in_or_app; left; exact K | subst; contradiction | apply in_or_app; right; exact K]. }
  specialize (IH _ B J). rewrite !map_app, !total_app in *. cbn [map total fold_right]. fold (total (map f l)) (total (map f s2)). lia.
Qed.

(** What [parallel] does with the gas *)
Lemma parallel_gas : forall x always reports ts sb q o, parallel x always reports ts sb q = Some (Ok o) ->
  NoDup (map fst (o_gas o)) /\ (forall s, In s (map fst (o_gas o)) -> In s (metered always reports (map gas_part ts))) /\
  (forall s u, In (s, u) (o_gas o) -> exists g, service_gas_limit always reports (map gas_part ts) s = Some g /\ u <= g) /\ total (map (fun t => t_gas t + 1) (o_xfers o)) <= total (map snd (o_gas o)).
Proof.
  intros x always reports ts sb q o H. unfold parallel in H. destruct (take_each x always reports ts sb q (services always reports ts q) _) as [[o1|y|]|] eqn:E; try discriminate. injection H as <-. cbn [o_gas o_xfers].
  destruct (@Delta_Proofs.take_each_round _ _ _ _ _ _ _ _ _ E) as [results [F R]]. apply fold_gas in R as [Rg Rx]. cbn [o_gas o_xfers app] in Rg, Rx. rewrite Rg, Rx. set (m := is_metered always reports ts) in *.
  assert (Fs : map fst results = services always reports ts q). { clear -F. induction F as [|s y ss ys [E _] F IH]; [reflexivity|]. cbn [map]. rewrite E, IH. reflexivity. }
  assert (Ev : forall s oa, In (s, oa) results -> single x always reports ts sb q s = Some (Ok oa)).
  { clear -F. induction F as [|s y ss ys [E S] F IH]; intros s' oa I; [contradiction|]. destruct I as [I|I]; [subst y; cbn [fst snd] in *; subst; exact S | apply IH, I]. }
  split; [|split; [|split]].
  - apply paid_once. rewrite Fs. apply services_nodup.
  - intros s I. apply paid_in in I as [_ M]. unfold m, is_metered in M. apply existsb_exists in M as [s' [I M]]. apply N.eqb_eq in M. subst. exact I.
  - intros s u I. unfold paid in I. apply in_flat_map in I as [[t [a|]] [J K]]; cbn [fst snd] in K; [|contradiction]. destruct (m t); [|contradiction]. destruct K as [K|[]]. injection K as <- <-.
    apply Ev in J. apply single_pays in J as (g & Eg & L & _). exists g. auto.
  - clear Fs F Rg Rx E. induction results as [|[t [a|]] results IH]; [cbn; lia| |]; unfold paid, spread; cbn [flat_map fst snd]; fold (paid m results) (spread m results).
    + assert (IH' := IH (fun s oa I => Ev s oa (or_intror I))). destruct (m t); [|exact IH']. rewrite !map_app, !total_app. cbn [map total fold_right snd]. specialize (Ev t (Some a) (or_introl eq_refl)). apply single_pays in Ev as (g & _ & _ & L). rewrite <- total_sum in L. lia.
    + apply IH. intros s oa I. apply Ev. right. exact I.
Qed.
Lemma turn_gas : forall x l l', l_gas l < 2 ^ 64 -> turn x l = Some (Ok (Some l')) -> exists pairs, accounted l l' pairs.
Proof.
  intros x l l' L H. unfold turn in H. destruct (negb _ && negb _ && match l_aas l with None => true | Some _ => false end); [discriminate|].
  assert (K : (match l_left l with [] => false | _ => true end = false -> max_processable_reports (l_left l) (l_gas l) = 0%nat)) by (destruct (l_left l); [reflexivity | discriminate]).
  set (k := if match l_left l with [] => false | _ => true end then max_processable_reports (l_left l) (l_gas l) else 0%nat) in H.
  assert (Ek : k = max_processable_reports (l_left l) (l_gas l)) by (unfold k; destruct (match l_left l with [] => false | _ => true end); [reflexivity | symmetry; apply K; reflexivity]).
  destruct (max_processable_spec (l_left l) (l_gas l) L) as (K1 & K2 & _). rewrite <- Ek in K1, K2. assert (Tk : firstn k (l_left l) = taken l) by (unfold taken; rewrite Ek; reflexivity). rewrite Tk in H.
  destruct (Nat.eqb k 0 && _ && _) eqn:W; [discriminate|]. fold (due l) in H. destruct (parallel x (due l) (taken l) (l_xfers l) (l_sb l) (l_priv l)) as [[o|y|]|] eqn:P; try discriminate.
  destruct (checked_sum 0 (map snd (o_gas o))) as [used|] eqn:U; [|discriminate]. destruct (checked_sum 0 (map t_gas (l_xfers l))) as [tg|] eqn:T; [|discriminate]. destruct (checked_add (l_gas l) tg) as [r|] eqn:A; [|discriminate].
  destruct (N.ltb_spec r used) as [|Lu]; [discriminate|]. injection H as <-. exists (o_gas o). apply parallel_gas in P as (P1 & P2 & P3 & P4).
  assert (Z : 0 <= u64_max) by (unfold u64_max; lia). apply (proj1 (checked_sum_ok _ 0 _ Z)) in U as [U _]. apply (proj1 (checked_sum_ok _ 0 _ Z)) in T as [T _]. apply checked_add_ok in A as [A _].
  assert (Lt : length (taken l) = k) by (rewrite <- Tk; apply firstn_length_le, K1).
  split; cbn [l_left l_count l_aas l_used l_gas l_xfers].
  - rewrite Lt, <- Tk. split; [symmetry; apply firstn_skipn|]. auto.
  - rewrite <- Tk. exact K2.
  - exact P1.
  - intros [Nd Sm] s u I. destruct (P3 s u I) as (g & Eg & Lg). rewrite service_limit_spec in Eg; [|exact Nd|].
    + destruct (share _ _ _ s <=? u64_max); [|discriminate]. injection Eg as <-. exact Lg.
    + unfold always_gas. destruct (find _ (due l)) as [p|] eqn:F; [|exact Z]. apply find_some in F as [F _]. apply Sm in F. unfold u64_max. change (2 ^ 64 - 1) with 18446744073709551615. change (2 ^ 64) with 18446744073709551616 in F. lia.
  - lia.
  - exact P4.
  - destruct (l_xfers l); [|left; discriminate]. right. destruct (taken l); [|left; discriminate]. right. cbn [length] in Lt. subst k. rewrite <- Lt in W. cbn [Nat.eqb negb andb] in W. unfold due in *. destruct (l_aas l) as [[|a b]|]; discriminate.
Qed.

(** ** All the rounds *)
Lemma turn_ends : forall x l, 2 ^ 63 <= N.of_nat (x_fuel x) -> turn x l <> None.
Proof.
  intros x l F. unfold turn. destruct (negb _ && negb _ && _); [discriminate|]. destruct (Nat.eqb _ 0 && _ && _); [discriminate|].
  match goal with |- context [parallel ?a ?b ?c ?d ?e ?f] => pose proof (@parallel_ends a b c d e f F) as N; destruct (parallel a b c d e f) as [[o|y|]|] end; try discriminate; [|contradiction].
  destruct (checked_sum 0 _); [|discriminate]. destruct (checked_sum 0 _); [|discriminate]. destruct (checked_add _ _); [|discriminate]. destruct (_ <? _); discriminate.
Qed.
Lemma turn_small : forall x l l', turn x l = Some (Ok (Some l')) -> l_gas l' < 2 ^ 64.
Proof.
  intros x l l' H. unfold turn in H. destruct (negb _ && negb _ && _); [discriminate|]. destruct (Nat.eqb _ 0 && _ && _); [discriminate|]. destruct (parallel _ _ _ _ _ _) as [[o|y|]|]; try discriminate.
  destruct (checked_sum 0 _); [|discriminate]. destruct (checked_sum 0 _); [|discriminate]. destruct (checked_add _ _) eqn:A; [|discriminate]. destruct (_ <? _); [discriminate|]. injection H as <-. cbn [l_gas].
  apply checked_add_ok in A as [-> A]. unfold u64_max in A. change (2 ^ 64 - 1) with 18446744073709551615 in A. change (2 ^ 64) with 18446744073709551616. lia.
Qed.
Lemma pays_split : forall ts, total (map (fun t => t_gas t + 1) ts) = total (map t_gas ts) + N.of_nat (length ts).
Proof. induction ts as [|t ts IH]; [reflexivity|]. cbn [map total fold_right length]. fold (total (map (fun t => t_gas t + 1) ts)) (total (map t_gas ts)). lia. Qed.
Definition potential (l : lstate) : N := l_gas l + total (map (fun t => t_gas t + 1) (l_xfers l)) + N.of_nat (length (l_left l)) + match due l with [] => 0 | _ => 1 end.
Lemma potential_falls : forall l l' pairs, accounted l l' pairs -> potential l' < potential l.
Proof.
  intros l l' pairs [(A1 & _ & A2 & _) _ _ _ B C D]. unfold potential. assert (Dn : due l' = []) by (unfold due; rewrite A2; reflexivity). rewrite Dn, A1, app_length. rewrite !pays_split in *.
  destruct D as [D|[D|D]].
  - destruct (l_xfers l) as [|t ts]; [contradiction|]. cbn [length]. destruct (due l); lia.
  - destruct (taken l); [contradiction|]. cbn [length]. destruct (due l); lia.
  - destruct (due l); [contradiction|]. lia.
Qed.
Lemma loop_ends : forall x, 2 ^ 63 <= N.of_nat (x_fuel x) -> forall n l, l_gas l < 2 ^ 64 -> potential l < N.of_nat n -> exists r, forall n', (n <= n')%nat -> loop n' x l = Some r.
Proof.
  intros x F. induction n as [|n IH]; intros l L P; [lia|]. pose proof (@turn_ends x l F) as T. destruct (turn x l) as [[[l'|]|y|]|] eqn:E; [| | | |contradiction].
  - destruct (@turn_gas x _ _ L E) as [pairs A]. apply potential_falls in A. destruct (IH l') as [r R]; [exact (@turn_small _ _ _ E) | lia|]. exists r. intros [|n'] Hn; [lia|]. cbn [loop]. rewrite E. apply R. lia.
  - exists (Ok l). intros [|n'] Hn; [lia|]. cbn [loop]. rewrite E. reflexivity.
  - exists (Err y). intros [|n'] Hn; [lia|]. cbn [loop]. rewrite E. reflexivity.
  - exists Panic. intros [|n'] Hn; [lia|]. cbn [loop]. rewrite E. reflexivity.
Qed.
Theorem outer_ends : forall x q limit reports always, 2 ^ 63 <= N.of_nat (x_fuel x) -> limit < 2 ^ 64 ->
  exists r, forall n, limit + N.of_nat (length reports) + 1 < N.of_nat n -> outer n x q limit reports always = Some r.
Proof.
  intros x q limit reports always F L. destruct (@loop_ends x F (S (N.to_nat (limit + N.of_nat (length reports) + 1))) (start q limit reports always) L) as [r R].
  - unfold potential, due. cbn [start l_gas l_xfers l_left l_aas map total fold_right]. destruct always; lia.
  - exists r. intros n Hn. apply R. lia.
Qed.
Lemma rounds_small : forall x ch l ch' l', rounds x ch l ch' l' -> l_gas l < 2 ^ 64 -> l_gas l' < 2 ^ 64.
Proof. intros x ch l ch' l' R. induction R as [|ch l l1 ch' l' T R IH]; intros L; [exact L|]. apply IH. exact (@turn_small _ _ _ T). Qed.
Lemma rounds_gas : forall x ch l ch' l', rounds x ch l ch' l' -> l_gas l < 2 ^ 64 -> l_gas l' + total (map (fun t => t_gas t + 1) (l_xfers l')) <= l_gas l + total (map (fun t => t_gas t + 1) (l_xfers l)) /\
  (exists w, l_left l = w ++ l_left l' /\ l_count l' = (l_count l + length w)%nat) /\ (l_aas l' = None \/ l' = l).
Proof.
  intros x ch l ch' l' R. induction R as [|ch l l1 ch' l' T R IH]; intros L.
  - split; [lia|]. split; [exists []; split; [reflexivity | cbn [length]; lia]|]. right. reflexivity.
  - destruct (@turn_gas x _ _ L T) as [pairs [(A1 & A2 & A3 & A4) _ _ _ B C D]]. destruct (IH (@turn_small _ _ _ T)) as (I1 & (w & I2 & I3) & I4). rewrite !pays_split in *. split; [lia|]. split.
    + exists (taken l ++ w). rewrite A1, I2, <- app_assoc. split; [reflexivity|]. rewrite I3, A2, app_length. lia.
    + left. destruct I4 as [I4|I4]; [exact I4 | subst; exact A3].
Qed.
Lemma turn_stops : forall x l, turn x l = Some (Ok None) -> l_xfers l = [] /\ due l = [] /\ taken l = [].
Proof.
  intros x l H. assert (W : (l_xfers l = [] /\ due l = [] /\ taken l = []) \/ turn x l <> Some (Ok None)); [|destruct W as [W|W]; [exact W | contradiction]].
  unfold turn. assert (K : taken l = match l_left l with [] => [] | _ => firstn (max_processable_reports (l_left l) (l_gas l)) (l_left l) end) by (unfold taken; destruct (l_left l); [destruct (max_processable_reports _ _); reflexivity | reflexivity]).
  assert (R : forall r : option (result derr round_out), match r with | None => None | Some Panic => Some Panic | Some (Err y) => Some (Err y) | Some (Ok o) =>
             match checked_sum 0 (map snd (o_gas o)), checked_sum 0 (map t_gas (l_xfers l)) with
             | Some used, Some tg =>
                 match checked_add (l_gas l) tg with
                 | Some r => if r <? used then Some (Err DGas)
                             else Some (Ok (Some (mk_l None (skipn (if match l_left l with [] => false | _ => true end then max_processable_reports (l_left l) (l_gas l) else 0%nat) (l_left l)) (r - used) (o_xfers o) (u_sb (o_union o)) (u_priv (o_union o)) (l_count l + (if match l_left l with [] => false | _ => true end then max_processable_reports (l_left l) (l_gas l) else 0%nat))%nat (l_used l ++ o_gas o) (l_outs l ++ o_outputs o))))
                 | None => Some (Err DGas)
                 end
             | _, _ => Some (Err DGas)
             end end <> Some (Ok None)).
  { intros [[o|y|]|]; try discriminate. destruct (checked_sum 0 _); [|discriminate]. destruct (checked_sum 0 _); [|discriminate]. destruct (checked_add _ _); [|discriminate]. destruct (_ <? _); discriminate. }
  unfold due. rewrite K. destruct (l_xfers l) as [|t ts] eqn:X.
  - destruct (l_left l) as [|r rs] eqn:Lf.
    + cbn [negb andb]. destruct (l_aas l) as [[|a b]|]; cbn [Nat.eqb andb]; [left; auto | right; apply R | left; auto].
    + cbn [negb andb]. destruct (max_processable_reports (r :: rs) (l_gas l)) as [|k] eqn:M.
      * cbn [Nat.eqb andb firstn]. destruct (l_aas l) as [[|a b]|]; [left; auto | right; apply R | left; auto].
      * cbn [Nat.eqb andb]. right. apply R.
  - right. cbn [negb]. rewrite !andb_false_r. cbn [andb]. rewrite ?andb_false_r. cbn [andb]. apply R.
Qed.
Lemma loop_stops : forall x n l l', loop n x l = Some (Ok l') -> turn x l' = Some (Ok None).
Proof.
  intros x n. induction n as [|n IH]; intros l l' H; [discriminate|]. cbn [loop] in H. destruct (turn x l) as [[[l1|]|y|]|] eqn:T; try discriminate; [exact (IH _ _ H)|]. injection H as <-. exact T.
Qed.
Theorem outer_gas : forall n x q limit reports always l, limit < 2 ^ 64 -> outer n x q limit reports always = Some (Ok l) ->
  l_gas l <= limit /\ l_left l = skipn (l_count l) reports /\ (l_count l <= length reports)%nat /\ (forall r rs, l_left l = r :: rs -> l_gas l < total (map d_gas r)) /\
  (forall ch l1 l2, rounds x [] (start q limit reports always) ch l1 -> turn x l1 = Some (Ok (Some l2)) -> exists pairs, accounted l1 l2 pairs) /\ (exists ch, rounds x [] (start q limit reports always) ch l) /\ l_xfers l = [].
Proof.
  intros n x q limit reports always l L H. destruct (@loop_rounds x n _ _ H []) as [[ch R] X]. assert (L0 : l_gas (start q limit reports always) < 2 ^ 64) by exact L. destruct (rounds_gas R L0) as (A & (w & B & C) & _). rewrite X in A. cbn [start l_gas l_xfers map total fold_right l_left l_count] in A, B, C.
  pose proof (rounds_small R L0) as Sm. apply loop_stops in H. apply turn_stops in H as (_ & _ & T). split; [lia|]. cbn [Nat.add] in C. rewrite C. split; [rewrite B, skipn_app, skipn_all, Nat.sub_diag; reflexivity|]. split; [rewrite B, app_length; lia|]. split; [|split; [|split; [exists ch; exact R | exact X]]].
  - intros r rs E. unfold taken in T. destruct (max_processable_spec (l_left l) (l_gas l) Sm) as (K1 & K2 & K3). rewrite E in *. destruct (N.lt_ge_cases (l_gas l) (total (map d_gas r))) as [Y|Y]; [exact Y|]. exfalso.
    specialize (K3 1%nat). cbn [length firstn] in K3. rewrite declared_cons in K3. cbn [declared concat map total fold_right] in K3. unfold declared in K3. cbn in K3.
    assert (Q : (1 <= max_processable_reports (r :: rs) (l_gas l))%nat) by (apply K3; [lia | fold (total (map d_gas r)); lia]). destruct (max_processable_reports (r :: rs) (l_gas l)); [lia | discriminate].
  - intros ch1 l1 l2 R1 T1. exact (@turn_gas x _ _ (rounds_small R1 L0) T1).
Qed.

(** ** When the gas suffices *)
Lemma filter_total : forall (A : Type) (g : A -> N) (f : A -> bool) l, total (map g (filter f l)) <= total (map g l).
Proof. intros A g f. induction l as [|a l IH]; [cbn; lia|]. cbn [filter map total fold_right]. fold (total (map g l)). destruct (f a); cbn [map total fold_right]; fold (total (map g (filter f l))); lia. Qed.
Lemma share_total : forall always reports ts s, share always reports ts s <= total (map snd always) + declared reports + carried ts.
Proof. intros. unfold share, declared, carried. pose proof (filter_total snd (fun p : N * N => fst p =? s) always). pose proof (filter_total d_gas (fun d => d_service d =? s) (concat reports)). pose proof (filter_total x_gas (fun t => x_to t =? s) ts). lia. Qed.
Lemma limit_is : forall always reports ts s, NoDup (map fst always) -> total (map snd always) + declared reports + carried ts <= u64_max -> service_gas_limit always reports ts s = Some (share always reports ts s).
Proof.
  intros always reports ts s Nd L. rewrite service_limit_spec; [|exact Nd|].
  - pose proof (share_total always reports ts s). destruct (N.leb_spec (share always reports ts s) u64_max); [reflexivity | lia].
  - unfold always_gas. destruct (find _ always) as [p|] eqn:F; [|unfold u64_max; lia]. apply find_some in F as [F _]. apply (total_mono_in _ snd) in F. lia.
Qed.
Lemma parallel_no_gas : forall x always reports ts sb q, NoDup (map fst always) -> total (map snd always) + declared reports + total (map t_gas ts) <= u64_max -> parallel x always reports ts sb q <> Some (Err DGas).
Proof.
  intros x always reports ts sb q Nd L. assert (T : forall ss o, take_each x always reports ts sb q ss o <> Some (Err DGas)).
  { induction ss as [|s ss IH]; intros o; cbn [take_each]; [discriminate|]. assert (S : single x always reports ts sb q s <> Some (Err DGas)).
    { unfold single. rewrite limit_is; [|exact Nd | unfold carried; rewrite gas_parts; exact L]. destruct (accumulate _ _ _ _ _ _ _ _ _ _) as [[o1|y|]|]; discriminate. }
    destruct (single x always reports ts sb q s) as [[a|y|]|]; try discriminate; [|congruence]. destruct (take _ _ _ _ _ _ _) as [o1|y|]; cbn [ofround]; [apply IH | discriminate | discriminate]. }
  unfold parallel. specialize (T (services always reports ts q) (mk_rout (mk_union sb q [] []) [] [] [])). destruct (take_each _ _ _ _ _ _ _ _) as [[o|y|]|]; try discriminate. exact T.
Qed.
Lemma pairs_total : forall always reports ts (pairs : list (N * N)), NoDup (map fst pairs) -> (forall s, In s (map fst pairs) -> In s (metered always reports ts)) -> (forall s u, In (s, u) pairs -> u <= share always reports ts s) ->
  total (map snd pairs) <= total (map snd always) + declared reports + carried ts.
Proof.
  intros always reports ts pairs Nd I S. rewrite <- share_partition. etransitivity; [|apply (total_incl (share always reports ts) Nd I)]. clear Nd I. induction pairs as [|[s u] pairs IH]; [cbn; lia|].
  cbn [map total fold_right fst snd]. fold (total (map snd pairs)) (total (map (share always reports ts) (map fst pairs))). specialize (IH (fun s u I => S s u (or_intror I))). specialize (S s u (or_introl eq_refl)). lia.
Qed.
Lemma turn_no_gas : forall x l, NoDup (map fst (due l)) -> total (map snd (due l)) + declared (taken l) <= l_gas l -> l_gas l + total (map t_gas (l_xfers l)) <= u64_max -> turn x l <> Some (Err DGas).
Proof.
  intros x l Nd D L. unfold turn. destruct (negb _ && negb _ && match l_aas l with None => true | Some _ => false end); [discriminate|].
  assert (K : (match l_left l with [] => false | _ => true end = false -> max_processable_reports (l_left l) (l_gas l) = 0%nat)) by (destruct (l_left l); [reflexivity | discriminate]).
  set (k := if match l_left l with [] => false | _ => true end then max_processable_reports (l_left l) (l_gas l) else 0%nat).
  assert (Ek : k = max_processable_reports (l_left l) (l_gas l)) by (unfold k; destruct (match l_left l with [] => false | _ => true end); [reflexivity | symmetry; apply K; reflexivity]).
  assert (Tk : firstn k (l_left l) = taken l) by (unfold taken; rewrite Ek; reflexivity). rewrite Tk. fold (due l). destruct (Nat.eqb k 0 && _ && _); [discriminate|].
  pose proof (@parallel_no_gas x (due l) (taken l) (l_xfers l) (l_sb l) (l_priv l) Nd ltac:(lia)) as P. destruct (parallel x (due l) (taken l) (l_xfers l) (l_sb l) (l_priv l)) as [[o|y|]|] eqn:E; try discriminate; [|congruence].
  apply parallel_gas in E as (P1 & P2 & P3 & P4). assert (Z : 0 <= u64_max) by (unfold u64_max; lia).
  assert (U : total (map snd (o_gas o)) <= l_gas l + total (map t_gas (l_xfers l))).
  { rewrite <- gas_parts. fold (carried (map gas_part (l_xfers l))). etransitivity; [apply (@pairs_total (due l) (taken l) (map gas_part (l_xfers l)) _ P1 P2)|lia].
    intros s u I. destruct (P3 s u I) as (g & Eg & Lg). rewrite limit_is in Eg; [injection Eg as <-; exact Lg | exact Nd | unfold carried; rewrite gas_parts; lia]. }
  rewrite (proj2 (checked_sum_ok (map snd (o_gas o)) 0 _ Z)) by (split; [reflexivity | lia]). rewrite (proj2 (checked_sum_ok (map t_gas (l_xfers l)) 0 _ Z)) by (split; [reflexivity | lia]).
  rewrite (proj2 (checked_add_ok _ _ _)) by (split; [reflexivity | lia]). destruct (N.ltb_spec (l_gas l + (0 + total (map t_gas (l_xfers l)))) (0 + total (map snd (o_gas o)))); [lia | discriminate].
Qed.
Lemma loop_no_gas : forall x n l, NoDup (map fst (due l)) -> total (map snd (due l)) + declared (taken l) <= l_gas l -> l_gas l + total (map t_gas (l_xfers l)) <= u64_max -> loop n x l <> Some (Err DGas).
Proof.
  intros x. induction n as [|n IH]; intros l Nd D L; cbn [loop]; [discriminate|]. pose proof (@turn_no_gas x l Nd D L) as T. destruct (turn x l) as [[[l1|]|y|]|] eqn:E; try discriminate; [|congruence].
  assert (Sm : forall g, g <= u64_max -> g < 2 ^ 64) by (intros g; unfold u64_max; change (2 ^ 64 - 1) with 18446744073709551615; change (2 ^ 64) with 18446744073709551616; lia).
  destruct (@turn_gas x _ _ (Sm (l_gas l) ltac:(lia)) E) as [pairs [(_ & _ & A & _) _ _ _ B C _]]. assert (Dn : due l1 = []) by (unfold due; rewrite A; reflexivity). rewrite pays_split in C. apply IH.
  - rewrite Dn. constructor.
  - rewrite Dn. cbn [map total fold_right]. unfold taken. destruct (max_processable_spec (l_left l1) (l_gas l1) (Sm (l_gas l1) ltac:(lia))) as (_ & K & _). lia.
  - lia.
Qed.
Theorem outer_no_gas : forall n x q limit reports always, limit < 2 ^ 64 -> NoDup (map fst always) -> total (map snd always) + declared (firstn (max_processable_reports reports limit) reports) <= limit -> outer n x q limit reports always <> Some (Err DGas).
Proof.
  intros n x q limit reports always L Nd D. apply loop_no_gas; [exact Nd | exact D|]. cbn [start l_gas l_xfers map total fold_right]. unfold u64_max. change (2 ^ 64 - 1) with 18446744073709551615. change (2 ^ 64) with 18446744073709551616 in L. lia.
Qed.
