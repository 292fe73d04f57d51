(** Round after round: the accounts stay in order and no money is made. *)
From Verif Require Import Base Base_Proofs PvmMem_Model PvmProg_Model PvmStep_Model PvmInit_Model Codec_Model Queue_Model Queue_Proofs Gas_Model Gas_Proofs Sandbox_Model Sandbox_Spec Sandbox_Proofs Host_Model Host_Spec Host_Proofs Host2_Proofs Host3_Proofs Host4_Proofs Host5_Proofs Host6_Proofs
  Acc_Model Acc_Spec Acc_Proofs Acc2_Proofs Round_Model Round_Spec Round2_Spec Round1_Proofs Round2_Proofs Round3_Proofs Round4_Proofs Round5_Proofs Round6_Proofs Round7_Proofs Round8_Proofs Round9_Proofs Round10_Proofs Delta_Model Delta_Spec Delta2_Proofs.
From Coq Require Import Permutation Sorted.
Set Implicit Arguments.
Open Scope N_scope.

(** ** A service that is not metered *)
Lemma idle_limit : forall l s, metered_at l s = false -> match service_gas_limit (due l) (taken l) (map gas_part (l_xfers l)) s with Some g => g | None => 0 end = 0.
Proof.
  intros l s M. unfold metered_at, is_metered in M. assert (Nm : ~ In s (metered (due l) (taken l) (map gas_part (l_xfers l)))).
  { intros I. assert (X : existsb (N.eqb s) (metered (due l) (taken l) (map gas_part (l_xfers l))) = true) by (apply existsb_exists; exists s; split; [exact I | apply N.eqb_refl]). congruence. }
  rewrite metered_In in Nm. unfold service_gas_limit.
  assert (D : digest_gas (taken l) s = []).
  { unfold digest_gas. assert (Z : filter (fun d => d_service d =? s) (concat (taken l)) = []); [|rewrite Z; reflexivity]. destruct (filter _ (concat (taken l))) as [|d k] eqn:F; [reflexivity|]. exfalso. apply Nm. left.
    assert (I : In d (filter (fun d => d_service d =? s) (concat (taken l)))) by (rewrite F; left; reflexivity). apply filter_In in I as [I Q]. apply N.eqb_eq in Q. subst. apply in_map. exact I. }
  assert (T : transfer_gas (map gas_part (l_xfers l)) s = []).
  { unfold transfer_gas. assert (Z : filter (fun t => x_to t =? s) (map gas_part (l_xfers l)) = []); [|rewrite Z; reflexivity]. destruct (filter _ (map gas_part (l_xfers l))) as [|d k] eqn:F; [reflexivity|]. exfalso. apply Nm. right. left.
    assert (I : In d (filter (fun t => x_to t =? s) (map gas_part (l_xfers l)))) by (rewrite F; left; reflexivity). apply filter_In in I as [I Q]. apply N.eqb_eq in Q. subst. apply in_map. exact I. }
  assert (A : always_gas (due l) s = 0).
  { unfold always_gas. destruct (find _ (due l)) as [p|] eqn:F; [|reflexivity]. exfalso. apply Nm. right. right. apply find_some in F as [I Q]. apply N.eqb_eq in Q. subst. apply in_map. exact I. }
  rewrite D, T, A. reflexivity.
Qed.

(** ** What is received *)
Lemma received_le : forall ts s, let l := filter (fun t => t_to t =? s) ts in received_by ts s <= sum (map t_amount l) /\ (sum (map t_amount l) < 2 ^ 64 -> received_by ts s = sum (map t_amount l)).
Proof.
  intros ts s. unfold received_by. cbn zeta. generalize (filter (fun t => t_to t =? s) ts). intros l.
  assert (H : forall l a, fold_left (fun a t => (a + t_amount t) mod 2 ^ 64) l a <= a + sum (map t_amount l) /\ (a + sum (map t_amount l) < 2 ^ 64 -> fold_left (fun a t => (a + t_amount t) mod 2 ^ 64) l a = a + sum (map t_amount l))).
  { clear. induction l as [|t l IH]; intros a; cbn [fold_left map sum]; [lia|]. destruct (IH ((a + t_amount t) mod 2 ^ 64)) as [A B]. assert (M : (a + t_amount t) mod 2 ^ 64 <= a + t_amount t) by (apply N.mod_le; discriminate). split; [lia|].
    intros F. rewrite (N.mod_small (a + t_amount t)) in B |- * by lia. rewrite B; lia. }
  destruct (H l 0) as [A B]. rewrite N.add_0_l in A, B. split; assumption.
Qed.
Lemma split_sum : forall ss ts, NoDup ss -> sum (map (fun s => sum (map t_amount (filter (fun t => t_to t =? s) ts))) ss) <= sum (map t_amount ts) /\
  ((forall t, In t ts -> In (t_to t) ss) -> sum (map (fun s => sum (map t_amount (filter (fun t => t_to t =? s) ts))) ss) = sum (map t_amount ts)).
Proof.
  intros ss ts Nd. induction ts as [|t ts [A B]].
  - cbn [filter map sum]. assert (Z : sum (map (fun _ : N => 0) ss) = 0) by (apply sum_zero; reflexivity). rewrite Z. split; [lia | reflexivity].
  - assert (H : sum (map (fun s => sum (map t_amount (filter (fun t => t_to t =? s) (t :: ts)))) ss) = sum (map (fun s => sum (map t_amount (filter (fun t => t_to t =? s) ts))) ss) + (if in_dec N.eq_dec (t_to t) ss then t_amount t else 0)).
    { clear A B. induction Nd as [|s ss Ns Nd IH]; [reflexivity|]. cbn [map sum]. rewrite IH. cbn [filter]. destruct (N.eqb_spec (t_to t) s) as [E|E].
      - subst s. cbn [map sum]. destruct (in_dec N.eq_dec (t_to t) ss) as [I|_]; [contradiction|]. destruct (in_dec N.eq_dec (t_to t) (t_to t :: ss)) as [_|I]; [lia | exfalso; apply I; left; reflexivity].
      - destruct (in_dec N.eq_dec (t_to t) ss) as [I|I]; destruct (in_dec N.eq_dec (t_to t) (s :: ss)) as [J|J]; try lia; exfalso; [apply J; right; exact I | destruct J as [J|J]; [congruence | contradiction]]. }
    rewrite H. cbn [map sum]. split.
    + destruct (in_dec N.eq_dec (t_to t) ss); lia.
    + intros C. destruct (in_dec N.eq_dec (t_to t) ss) as [I|I]; [|exfalso; apply I, C; left; reflexivity]. rewrite B; [lia|]. intros u J. apply C. right. exact J.
Qed.
Lemma services_in : forall always reports ts q t, In t ts -> In (t_to t) (services always reports ts q).
Proof. intros. unfold services. apply bset_extend_In. left. apply metered_In. right. left. rewrite map_map. apply in_map_iff. exists t. split; [reflexivity | assumption]. Qed.
Lemma services_nodup : forall always reports ts q, NoDup (services always reports ts q).
Proof. intros. apply sorted_NoDup. unfold services. apply bset_extend_sorted. unfold metered. repeat apply bset_extend_sorted. constructor. Qed.

(** ** A turn is a round *)
Lemma take_panic : forall G e base q m results, fold_left (take G e base q m) results Panic = Panic.
Proof. induction results; [reflexivity | assumption]. Qed.
Lemma take_each_round : forall x always reports ts sb q ss o o', take_each x always reports ts sb q ss o = Some (Ok o') ->
  exists results, Forall2 (fun s y => fst y = s /\ single x always reports ts sb q s = Some (Ok (snd y))) ss results /\ fold_left (take (x_G x) (x_env x) sb q (is_metered always reports ts)) results (Ok o) = Ok o'.
Proof.
  intros x always reports ts sb q ss. induction ss as [|s ss IH]; intros o o' H; cbn [take_each] in H.
  - inversion H; subst. exists []. split; [constructor | reflexivity].
  - destruct (single x always reports ts sb q s) as [[a|y|]|] eqn:E; try discriminate. destruct (take (x_G x) (x_env x) sb q (is_metered always reports ts) (Ok o) (s, a)) as [o1|y|] eqn:T; cbn [ofround] in H; try discriminate.
    destruct (IH o1 o' H) as [results [F R]]. exists ((s, a) :: results). split; [constructor; [split; [reflexivity | exact E] | exact F]|]. cbn [fold_left]. rewrite T. exact R.
Qed.
Lemma parallel_round : forall x always reports ts sb q o, parallel x always reports ts sb q = Some (Ok o) ->
  exists results, results_of (x_fuel x) (x_G x) (x_env x) sb q (x_entropy x)
      (map (fun s => mk_job s (received_by ts s) (inputs_of reports ts s) (match service_gas_limit always reports (map gas_part ts) s with Some g => g | None => 0 end) (x_fetch x reports ts s)) (services always reports ts q)) results /\
    round (x_G x) (x_env x) (is_metered always reports ts) sb q results = Ok o.
Proof.
  intros x always reports ts sb q o H. unfold parallel in H. destruct (take_each x always reports ts sb q (services always reports ts q) _) as [[o1|y|]|] eqn:E; try discriminate.
  inversion H; subst o; clear H. destruct (take_each_round _ _ _ _ _ _ _ _ E) as [results [F R]]. exists results. split.
  - unfold results_of. clear R E. induction F as [|s y ss ys [E S] F IH]; [constructor|]. cbn [map]. constructor; [|exact IH]. cbn [j_id j_recv j_inputs j_limit]. split; [exact E|]. unfold single in S.
    destruct (service_gas_limit always reports (map gas_part ts) s) as [g|]; [|discriminate]. change (for_job (x_env x) _) with (with_fetch (x_env x) (x_fetch x reports ts s)).
    destruct (accumulate _ _ _ _ _ _ _ _ _ _) as [[o|z|]|]; try discriminate. inversion S; subst. reflexivity.
  - unfold round. rewrite R. reflexivity.
Qed.
Lemma turn_round : forall x l l', turn x l = Some (Ok (Some l')) -> exists results o,
  results_of (x_fuel x) (x_G x) (x_env x) (l_sb l) (l_priv l) (x_entropy x) (jobs_at x l) results /\ round (x_G x) (x_env x) (metered_at l) (l_sb l) (l_priv l) results = Ok o /\
  l_sb l' = u_sb (o_union o) /\ l_priv l' = u_priv (o_union o) /\ l_xfers l' = o_xfers o.
Proof.
  intros x l l' H. unfold turn in H. destruct (negb _ && negb _ && match l_aas l with None => true | Some _ => false end); [discriminate|].
  assert (K : (match l_left l with [] => false | _ => true end = false -> max_processable_reports (l_left l) (l_gas l) = 0%nat)) by (destruct (l_left l); [reflexivity | discriminate]).
  set (k := if match l_left l with [] => false | _ => true end then max_processable_reports (l_left l) (l_gas l) else 0%nat) in H.
  assert (Ek : k = max_processable_reports (l_left l) (l_gas l)) by (unfold k; destruct (match l_left l with [] => false | _ => true end); [reflexivity | symmetry; apply K; reflexivity]).
  destruct (Nat.eqb k 0 && _ && _); [discriminate|]. destruct (parallel x _ (firstn k (l_left l)) (l_xfers l) (l_sb l) (l_priv l)) as [[o|y|]|] eqn:P; try discriminate.
  destruct (checked_sum 0 (map snd (o_gas o))) as [used|]; [|discriminate]. destruct (checked_sum 0 (map t_gas (l_xfers l))) as [tg|]; [|discriminate]. destruct (checked_add (l_gas l) tg) as [r|]; [|discriminate]. destruct (r <? used); [discriminate|].
  inversion H; subst l'; clear H. cbn [l_sb l_priv l_xfers]. rewrite Ek in P. destruct (parallel_round _ _ _ _ _ _ P) as [results [A B]]. exists results, o. split; [exact A|]. split; [exact B|]. repeat split.
Qed.

(** ** The invariant of the rounds *)
Record steady (x : setting) (ch : list N) (l : lstate) : Prop := mk_steady {
  sy_sb : sb_ok (x_G x) ch (l_sb l);
  sy_sane : sane (x_env x) (x_G x) (view (x_G x) (l_sb l));
  sy_priv : confirmed (l_priv l) /\ e_cores (x_env x) = N.of_nat (length (p_assign (l_priv l))) }.
Lemma steady_turn : forall x ch l l', proper (x_G x) -> e_now (x_env x) + e_expiry (x_env x) < 2 ^ 32 -> steady x ch l ->
  (forall results, results_of (x_fuel x) (x_G x) (x_env x) (l_sb l) (l_priv l) (x_entropy x) (jobs_at x l) results -> fair x ch l results) -> turn x l = Some (Ok (Some l')) ->
  steady x (map j_id (jobs_at x l) ++ ch) l' /\
  forall v, holds (view (x_G x) (l_sb l)) v -> exists v', holds (view (x_G x) (l_sb l')) v' /\ v' + sum (map t_amount (l_xfers l')) <= v + sum (map t_amount (l_xfers l)) /\
    ((forall results, results_of (x_fuel x) (x_G x) (x_env x) (l_sb l) (l_priv l) (x_entropy x) (jobs_at x l) results -> lossless x l results) -> v' + sum (map t_amount (l_xfers l')) = v + sum (map t_amount (l_xfers l))).
Proof.
  intros x ch l l' PG Eo [S1 S2 [S3 S4]] Fa H. destruct (turn_round _ _ H) as [results [o [R [E [Zs [Zp Zx]]]]]]. pose proof (Fa _ R) as [F1 F2 F3 F4 F5].
  assert (Ids : map j_id (jobs_at x l) = services (due l) (taken l) (l_xfers l) (l_priv l)) by (unfold jobs_at; rewrite map_map; apply map_id).
  assert (Be : begins (x_fuel x) (x_G x) ch (x_env x) (l_sb l) (l_priv l) (x_entropy x) (metered_at l) (jobs_at x l) results).
  { split; try assumption; try (split; assumption). split; [rewrite Ids; apply services_nodup | exact F2]. }
  destruct (round_full PG Eo Be) as [o' [w [E' [Pv [Ob [_ [_ [Sn [_ Cn]]]]]]]]]. assert (o' = o) by congruence. subst o'. destruct (Pv _ eq_refl) as [Oa [Cf _]]. split.
  - split; [rewrite Zs; exact Ob | rewrite Zs; exact Sn|]. rewrite Zp. split; [exact Cf|]. rewrite S4. f_equal. destruct S3 as [_ [_ [_ [_ L]]]]. destruct Oa as [_ _ _ _ _ _ [Lp _]]. symmetry. exact Lp.
  - rewrite Zs, Zx. intros v Hv. destruct (Cn v Hv) as [v' [Hv' [Le Eq]]]. exists v'. split; [exact Hv'|].
    set (ss := services (due l) (taken l) (l_xfers l) (l_priv l)).
    assert (Rv : sum (map j_recv (jobs_at x l)) = sum (map (received_by (l_xfers l)) ss)) by (unfold jobs_at; rewrite map_map; reflexivity).
    destruct (@split_sum ss (l_xfers l) (services_nodup _ _ _ _)) as [A B].
    split.
    + assert (C : sum (map (received_by (l_xfers l)) ss) <= sum (map (fun s => sum (map t_amount (filter (fun t => t_to t =? s) (l_xfers l)))) ss)).
      { clear. generalize ss. induction ss0 as [|s k IH]; [cbn; lia|]. cbn [map sum]. pose proof (proj1 (received_le (l_xfers l) s)). cbn zeta in *. lia. }
      lia.
    + intros Lo. destruct (Lo _ R) as [L1 L3 L4].
      assert (M1 : forall j, In j (jobs_at x l) -> In (j_id j, None) results -> j_recv j = 0).
      { intros j J Nn. unfold jobs_at in J. apply in_map_iff in J as [s [<- _]]. cbn [j_id j_recv] in *. assert (Z : filter (fun t => t_to t =? s) (l_xfers l) = []); [|unfold received_by; rewrite Z; reflexivity].
        destruct (filter (fun t => t_to t =? s) (l_xfers l)) as [|t k] eqn:Fl; [reflexivity|]. exfalso. assert (I : In t (filter (fun t => t_to t =? s) (l_xfers l))) by (rewrite Fl; left; reflexivity). apply filter_In in I as [I Q]. apply N.eqb_eq in Q. apply (L1 t I). rewrite Q. exact Nn. }
      assert (M2 : forall t a, In (t, a) (ran results) -> metered_at l t = true \/ a_xfers a = []).
      { intros t a I. destruct (metered_at l t) eqn:Mt; [left; reflexivity | right]. unfold ran in I. apply in_flat_map in I as [[t' [a'|]] [J K]]; cbn [fst snd] in K; [|contradiction]. destruct K as [K|[]]. injection K as -> ->.
        unfold results_of, jobs_at in R. clear - R J Mt. set (js := services (due l) (taken l) (l_xfers l) (l_priv l)) in R. clearbody js. revert js R. induction results as [|y ys IH]; intros js R; [contradiction|]. destruct js as [|s js]; cbn [map] in R; inversion R as [|? ? ? ? [Q1 Q2] Q3]; subst.
        destruct J as [J|J]; [|exact (IH J js Q3)]. subst y. cbn [fst snd j_id j_recv j_inputs j_limit] in *. subst t. rewrite idle_limit in Q2 by exact Mt.
        assert (Z0 : 0 < 2 ^ 64) by reflexivity. destruct (@accumulate_pays _ _ _ _ _ _ _ _ _ _ _ Z0 Q2) as [P1 P2]. destruct (a_xfers a) as [|u k]; [reflexivity|]. cbn [map sum] in P2. lia. }
      rewrite (Eq M1 M2 L3), Rv. f_equal. rewrite <- B by (intros t I; apply services_in, I). f_equal. apply map_ext. intros s. apply received_le. eapply N.le_lt_trans; [|exact L4].
      clear. induction (l_xfers l) as [|t k IH]; [cbn; lia|]. cbn [filter map sum]. destruct (t_to t =? s); cbn [map sum]; lia.
Qed.
Lemma rounds_snoc : forall x ch l ch1 l1 l2, rounds x ch l ch1 l1 -> turn x l1 = Some (Ok (Some l2)) -> rounds x ch l (map j_id (jobs_at x l1) ++ ch1) l2.
Proof. intros x ch l ch1 l1 l2 R. induction R as [ch l|ch l l1' ch' l' T R IH]; intros H; [eapply rounds_one; [exact H | constructor] | eapply rounds_one; [exact T | apply IH, H]]. Qed.
Lemma rounds_steady : forall x l0, proper (x_G x) -> e_now (x_env x) + e_expiry (x_env x) < 2 ^ 32 -> steady x [] l0 -> all_fair x l0 -> forall ch l, rounds x [] l0 ch l -> steady x ch l /\
  forall v, holds (view (x_G x) (l_sb l0)) v -> exists v', holds (view (x_G x) (l_sb l)) v' /\ v' + sum (map t_amount (l_xfers l)) <= v + sum (map t_amount (l_xfers l0)) /\ (all_lossless x l0 -> v' + sum (map t_amount (l_xfers l)) = v + sum (map t_amount (l_xfers l0))).
Proof.
  intros x l0 PG Eo S0 Fa.
  assert (H : forall ch1 l1 ch l, rounds x ch1 l1 ch l -> rounds x [] l0 ch1 l1 -> steady x ch1 l1 -> steady x ch l /\
    forall v, holds (view (x_G x) (l_sb l1)) v -> exists v', holds (view (x_G x) (l_sb l)) v' /\ v' + sum (map t_amount (l_xfers l)) <= v + sum (map t_amount (l_xfers l1)) /\ (all_lossless x l0 -> v' + sum (map t_amount (l_xfers l)) = v + sum (map t_amount (l_xfers l1)))).
  { intros ch1 l1 ch l R. induction R as [ch l|ch l l1 ch' l' T R IH]; intros R0 S.
    - split; [exact S|]. intros v Hv. exists v. split; [exact Hv|]. split; [lia | reflexivity].
    - destruct (@steady_turn x ch l l1 PG Eo S (fun results => Fa ch l results R0) T) as [S1 C1]. destruct (IH (rounds_snoc R0 T) S1) as [S2 C2]. split; [exact S2|]. intros v Hv. destruct (C1 v Hv) as [v1 [H1 [L1 E1]]]. destruct (C2 v1 H1) as [v2 [H2 [L2 E2]]].
      exists v2. split; [exact H2|]. split; [lia|]. intros Lo. rewrite (E2 Lo), E1; [reflexivity|]. intros results. apply (Lo ch l results R0). }
  intros ch l R. apply (H _ _ _ _ R); [constructor | exact S0].
Qed.
Lemma loop_rounds : forall x n l l', loop n x l = Some (Ok l') -> forall ch, (exists ch', rounds x ch l ch' l') /\ l_xfers l' = [].
Proof.
  intros x n. induction n as [|n IH]; intros l l' H ch; [discriminate|]. cbn [loop] in H. destruct (turn x l) as [[[l1|]|y|]|] eqn:T; try discriminate.
  - destruct (IH l1 l' H (map j_id (jobs_at x l) ++ ch)) as [[ch' R] X]. split; [exists ch'; eapply rounds_one; eassumption | exact X].
  - inversion H; subst l'. split; [exists ch; constructor|]. unfold turn in T. destruct (l_xfers l) as [|t ts]; [reflexivity|]. exfalso. rewrite andb_false_r in T. cbn [negb andb] in T. rewrite !andb_false_r in T. cbn [andb] in T.
    destruct (parallel _ _ _ _ _ _) as [[o|y|]|]; try discriminate. destruct (checked_sum 0 _); [|discriminate]. destruct (checked_sum 0 _); [|discriminate]. destruct (checked_add _ _); [|discriminate]. destruct (_ <? _); discriminate.
Qed.
