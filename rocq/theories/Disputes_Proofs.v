From Verif Require Import Base Base_Proofs Queue_Model Queue_Proofs Disputes_Model Disputes_Spec.
From Coq Require Import Permutation Sorted.
Open Scope N_scope.

Lemma check_ok : forall Er b (e : Er), check b e = Ok tt <-> b = true.
Proof. intros Er [] e; cbn; split; congruence. Qed.
Lemma bind_unit : forall Er A (r : result Er unit) k (a : A), bind r (fun _ => k) = Ok a <-> r = Ok tt /\ k = Ok a.
Proof. intros Er A [[]|e|] k a; cbn; intuition (congruence || discriminate). Qed.
Lemma first_err_ok : forall Er A (f : A -> result Er unit) l, first_err f l = Ok tt <-> forall a, In a l -> f a = Ok tt.
Proof.
  induction l as [|a l IH]; cbn [first_err].
  - split; [intros _ ? []|auto].
  - rewrite bind_unit, IH. split; [intros [A1 A2] b [<-|Hb]; auto|intros H; split; auto with datatypes].
Qed.
Lemma ascending_cons : forall a l, ascending (a :: l) <-> (forall b, In b l -> a < b) /\ ascending l.
Proof.
  intros a l. revert a. induction l as [|b l IH]; intros a; [cbn; intuition|]. cbn [ascending]. rewrite (IH b). split.
  - intros [L [A B]]. repeat split; auto. intros c [<-|Hc]; [assumption|]. specialize (A c Hc). lia.
  - intros [L [A B]]. repeat split; auto with datatypes.
Qed.
Lemma ascending_NoDup : forall l, ascending l -> NoDup l.
Proof.
  induction l as [|a l IH]; intros H; [constructor|]. apply ascending_cons in H as [H1 H2]. constructor; auto. intros Hin. apply H1 in Hin. lia.
Qed.
Lemma no_dup_NoDup : forall l, no_dup l = true <-> NoDup l.
Proof.
  induction l as [|a l IH]; cbn [no_dup]; [split; [constructor|reflexivity]|]. rewrite andb_true_iff, negb_true_iff, IH. split.
  - intros [A B]. constructor; auto. now apply mem_not_In.
  - intros H. inversion H; subst. split; auto. now apply mem_not_In.
Qed.
Lemma sorted_no_dup : forall A (key : A -> N) l, sorted_by key l = true /\ no_dup (map key l) = true <-> ascending (map key l).
Proof.
  induction l as [|a l IH]; [cbn; intuition|]. split.
  - intros [Hs Hn]. cbn [map no_dup] in Hn. apply andb_true_iff in Hn as [Hm Hn]. apply negb_true_iff, mem_not_In in Hm.
    destruct l as [|b l]; [exact I|]. cbn [sorted_by] in Hs. apply andb_true_iff in Hs as [Hle Hs]. cbn [map ascending].
    split; [|apply IH; auto]. apply N.leb_le in Hle. cbn [map] in Hm. assert (key a <> key b) by (intros Q; apply Hm; now left). lia.
  - intros Ha. assert (Hn := ascending_NoDup _ Ha). split; [|now apply no_dup_NoDup]. destruct l as [|b l]; [reflexivity|].
    cbn [map ascending] in Ha. destruct Ha as [L Ha]. cbn [sorted_by]. rewrite (proj2 (N.leb_le _ _)) by lia. cbn [andb]. now apply IH in Ha as [Ha _].
Qed.

Section P.
  Variables (V E : N).
  Variable verify : N -> bytes -> N -> bool.
  Hypothesis HV : 0 < V.

  Lemma sm_pos : super_majority V <> 0. Proof. unfold super_majority. lia. Qed.
  Lemma sm_third : super_majority V <> one_third V. Proof. unfold super_majority, one_third. assert (V / 3 <= 2 * V / 3) by (apply N.div_le_mono; lia). lia. Qed.
  Lemma eval_good : forall v, evaluate_verdict V v = IsGood <-> settled_good V v.
  Proof.
    intros v. unfold evaluate_verdict, settled_good, positive. fold (votes v). change (2 * V / 3 + 1) with (super_majority V).
    destruct (N.eqb_spec (votes v) (super_majority V)); [intuition|]. destruct (_ =? 0); [|destruct (_ =? one_third V)]; split; try discriminate; intuition.
  Qed.
  Lemma eval_bad : forall v, evaluate_verdict V v = IsBad <-> settled_bad v.
  Proof.
    intros v. unfold evaluate_verdict, settled_bad, positive. fold (votes v). assert (P := sm_pos).
    destruct (N.eqb_spec (votes v) (super_majority V)) as [Q|Q]; [rewrite Q; split; [discriminate|intuition]|].
    destruct (N.eqb_spec (votes v) 0); [intuition|]. destruct (_ =? one_third V); split; try discriminate; intuition.
  Qed.
  Lemma eval_wonky : forall v, evaluate_verdict V v = IsWonky <-> settled_wonky V v.
  Proof.
    intros v. unfold evaluate_verdict, settled_wonky, positive. fold (votes v). assert (P := sm_third). fold (one_third V).
    destruct (N.eqb_spec (votes v) (super_majority V)) as [Q|Q]; [rewrite Q; split; [discriminate|intuition]|].
    destruct (N.eqb_spec (votes v) 0); [split; [discriminate|intuition]|]. destruct (N.eqb_spec (votes v) (one_third V)); split; try discriminate; intuition.
  Qed.
  Lemma is_eval_good : forall v, is_eval V IsGood v = true <-> settled_good V v.
  Proof. intros v. rewrite <- eval_good. unfold is_eval. destruct (evaluate_verdict V v); intuition discriminate. Qed.
  Lemma is_eval_bad : forall v, is_eval V IsBad v = true <-> settled_bad v.
  Proof. intros v. rewrite <- eval_bad. unfold is_eval. destruct (evaluate_verdict V v); intuition discriminate. Qed.
  Lemma is_eval_wonky : forall v, is_eval V IsWonky v = true <-> settled_wonky V v.
  Proof. intros v. rewrite <- eval_wonky. unfold is_eval. destruct (evaluate_verdict V v); intuition discriminate. Qed.

  Lemma vote_check : forall x v,
    match evaluate_verdict V v with
    | Invalid n => Err (InvalidVotesCount n)
    | IsGood => check (1 <=? count_faults x (v_report v)) NotEnoughFault
    | IsBad => check (2 <=? count_culprits x (v_report v)) NotEnoughCulprit
    | IsWonky => Ok tt
    end = Ok tt <->
    (settled_good V v \/ settled_bad v \/ settled_wonky V v) /\
    (settled_good V v -> exists f, In f (x_faults x) /\ f_report f = v_report v) /\
    (settled_bad v -> (2 <= length (filter (fun c => N.eqb (c_report c) (v_report v)) (x_culprits x)))%nat).
  Proof.
    intros x v. rewrite <- eval_good, <- eval_bad, <- eval_wonky.
    destruct (evaluate_verdict V v) eqn:Ev.
    - rewrite check_ok, N.leb_le. unfold count_faults. split.
      + intros L. split; [auto|]. split; [|discriminate]. intros _.
        destruct (filter (fun f => f_report f =? v_report v) (x_faults x)) as [|f fs] eqn:F; [cbn in L; lia|].
        exists f. assert (In f (f :: fs)) by now left. rewrite <- F in H. apply filter_In in H as [H1 H2]. apply N.eqb_eq in H2. auto.
      + intros (_ & G & _). destruct (G eq_refl) as (f & Hf & Er).
        assert (In f (filter (fun f => f_report f =? v_report v) (x_faults x))) by (apply filter_In; split; [assumption|now apply N.eqb_eq]).
        destruct (filter _ _); [destruct H|]. cbn. lia.
    - rewrite check_ok, N.leb_le. unfold count_culprits. split.
      + intros L. split; [auto|]. split; [discriminate|]. intros _. lia.
      + intros (_ & _ & G). specialize (G eq_refl). lia.
    - split; [|auto]. intros _. split; [auto|]. split; discriminate.
    - split; [discriminate|]. intros ([Q|[Q|Q]] & _); discriminate.
  Qed.

  Lemma validate_verdict_ok : forall d active past slot x v, 0 < E -> v_epoch v < 2 ^ 32 - 1 ->
    validate_verdict V E verify d active past slot x v = Ok tt <->
    acceptable_verdict V verify (not_older (slot / E)) d active past (slot / E) x v.
  Proof.
    intros d active past slot x v HE Hv. unfold validate_verdict, acceptable_verdict. cbv zeta. rewrite !bind_unit, !check_ok, vote_check, first_err_ok.
    rewrite N.mod_small by lia. unfold not_older.
    assert (A : negb (v_epoch v + 1 <? slot / E) = true <-> slot / E <= v_epoch v + 1).
    { rewrite negb_true_iff, N.ltb_ge. reflexivity. }
    rewrite A. clear A.
    assert (B : negb (mem (v_report v) (all_report_hashes d)) = true <->
      (~ In (v_report v) (good d) /\ ~ In (v_report v) (bad d) /\ ~ In (v_report v) (wonky d))).
    { rewrite negb_true_iff, mem_not_In. unfold all_report_hashes. rewrite !in_app_iff. tauto. }
    rewrite B. clear B.
    rewrite <- (sorted_no_dup _ j_voter (v_judgments v)).
    assert (C : (forall a, In a (v_judgments v) -> match nth_error (if v_epoch v =? slot / E then active else past) (N.to_nat (j_voter a)) with
        | Some k => check (verify k (if j_valid a then (X_1 ++ hbytes (v_report v))%list else (X_0 ++ hbytes (v_report v))%list) (j_sig a)) InvalidJudgmentSignature
        | None => Err InvalidValidatorIndex end = Ok tt) <->
      (forall j, In j (v_judgments v) -> signed_judgment verify (if v_epoch v =? slot / E then active else past) (v_report v) (j_valid j) (j_voter j) (j_sig j))).
    { assert (K : forall j, match nth_error (if v_epoch v =? slot / E then active else past) (N.to_nat (j_voter j)) with
        | Some k => check (verify k (if j_valid j then (X_1 ++ hbytes (v_report v))%list else (X_0 ++ hbytes (v_report v))%list) (j_sig j)) InvalidJudgmentSignature
        | None => Err InvalidValidatorIndex end = Ok tt <->
        signed_judgment verify (if v_epoch v =? slot / E then active else past) (v_report v) (j_valid j) (j_voter j) (j_sig j)).
      { intros j. unfold signed_judgment. destruct (nth_error _ _) as [k|].
        - rewrite check_ok. split; [intros Q; exists k; split; [reflexivity|destruct (j_valid j); exact Q]|].
          intros (k' & Ek & Q). injection Ek as <-. destruct (j_valid j); exact Q.
        - split; [discriminate|]. intros (k' & Ek & _). discriminate. }
      split; intros H j Hj; apply K, H, Hj. }
    rewrite C. clear C. tauto.
  Qed.
  (** Without the bound on the epoch the addition may wrap; the rejection is then by age unless the chain is in epoch 0. *)

  Lemma valid_keys_In : forall d active past k, mem k (valid_keys d active past) = true <-> known_unpunished d active past k.
  Proof.
    intros. rewrite mem_In. unfold valid_keys, known_unpunished. rewrite filter_In, in_app_iff, negb_true_iff, mem_not_In. reflexivity.
  Qed.
  Lemma get_verdict_spec : forall x h v, NoDup (map v_report (x_verdicts x)) ->
    get_verdict x h = Some v <-> In v (x_verdicts x) /\ v_report v = h.
  Proof.
    intros x h v Hn. unfold get_verdict. split.
    - intros F. apply find_some in F as [F1 F2]. apply N.eqb_eq in F2. auto.
    - intros [Hin <-]. induction (x_verdicts x) as [|w l IH]; [destruct Hin|]. cbn [find]. inversion Hn as [|? ? Hni Hn']; subst.
      destruct Hin as [->|Hin]; [now rewrite N.eqb_refl|]. destruct (N.eqb_spec (v_report w) (v_report v)) as [Q|Q]; [|auto].
      exfalso. apply Hni. rewrite Q. now apply in_map.
  Qed.
  Lemma get_verdict_none : forall x h, get_verdict x h = None -> forall v, In v (x_verdicts x) -> v_report v <> h.
  Proof. intros x h F v Hin Q. apply (find_none _ _ F) in Hin. apply N.eqb_neq in Hin. contradiction. Qed.
  Lemma validate_culprit_ok : forall d active past x c, NoDup (map v_report (x_verdicts x)) ->
    validate_culprit V verify d active past x c = Ok tt <-> acceptable_culprit verify d active past x c.
  Proof.
    intros d active past x c Hn. unfold validate_culprit, acceptable_culprit. rewrite bind_unit, check_ok, negb_true_iff, mem_not_In.
    destruct (get_verdict x (c_report c)) as [v|] eqn:G.
    - rewrite !bind_unit, !check_ok, is_eval_bad, valid_keys_In. apply get_verdict_spec in G as [G1 G2]; [|assumption]. split.
      + intros (A & B & C & D). split; [assumption|]. split; eauto.
      + intros (A & (v' & V1 & V2 & V3) & D). assert (v = v').
        { assert (get_verdict x (c_report c) = Some v) by (apply get_verdict_spec; auto).
          assert (get_verdict x (c_report c) = Some v') by (apply get_verdict_spec; auto). congruence. }
        subst v'. destruct A as [A1 A2]. repeat split; auto.
    - split; [intros [_ Q]; discriminate|]. intros (_ & (v & V1 & V2 & _) & _). exfalso. eapply get_verdict_none; eauto.
  Qed.
  Lemma fault_kind : forall f v, match evaluate_verdict V v with IsGood => negb (f_valid f) | IsBad => f_valid f | _ => false end = true <->
    (if f_valid f then settled_bad v else settled_good V v).
  Proof.
    intros f v. destruct (f_valid f); cbn [negb]; [rewrite <- eval_bad|rewrite <- eval_good]; destruct (evaluate_verdict V v); intuition discriminate.
  Qed.
  Lemma validate_fault_ok : forall d active past x f, NoDup (map v_report (x_verdicts x)) ->
    validate_fault V verify d active past x f = Ok tt <-> acceptable_fault V verify d active past x f.
  Proof.
    intros d active past x f Hn. unfold validate_fault, acceptable_fault. rewrite bind_unit, check_ok, negb_true_iff, mem_not_In.
    destruct (get_verdict x (f_report f)) as [v|] eqn:G.
    - rewrite !bind_unit, !check_ok, fault_kind, valid_keys_In. assert (G' := G). apply get_verdict_spec in G as [G1 G2]; [|assumption]. split.
      + intros (A & B & C & D). split; [assumption|]. split; [eauto|]. destruct (f_valid f); exact D.
      + intros (A & (v' & V1 & V2 & V3) & D). assert (v = v').
        { assert (get_verdict x (f_report f) = Some v') by (apply get_verdict_spec; auto). congruence. }
        subst v'. destruct A as [A1 A2]. repeat split; auto. destruct (f_valid f); exact D.
    - split; [intros [_ Q]; discriminate|]. intros (_ & (v & V1 & V2 & _) & _). exfalso. eapply get_verdict_none; eauto.
  Qed.

  Lemma validate_disputes_ok : forall d active past slot x, 0 < E -> (forall v, In v (x_verdicts x) -> v_epoch v < 2 ^ 32 - 1) ->
    validate_disputes V E verify d active past slot x = Ok tt <->
    acceptable V verify (not_older (slot / E)) d active past (slot / E) x.
  Proof.
    intros d active past slot x HE Hb.
    assert (FULL : (check (sorted_by v_report (x_verdicts x)) VerdictsNotSorted = Ok tt /\
        check (sorted_by c_key (x_culprits x)) CulpritsNotSorted = Ok tt /\
        check (sorted_by f_key (x_faults x)) FaultsNotSorted = Ok tt /\
        check (no_dup (map v_report (x_verdicts x))) DuplicateVerdict = Ok tt /\
        first_err (validate_verdict V E verify d active past slot x) (x_verdicts x) = Ok tt /\
        check (no_dup (map c_key (x_culprits x))) DuplicateCulprit = Ok tt /\
        first_err (validate_culprit V verify d active past x) (x_culprits x) = Ok tt /\
        check (no_dup (map f_key (x_faults x))) DuplicateFault = Ok tt /\
        first_err (validate_fault V verify d active past x) (x_faults x) = Ok tt) <->
      acceptable V verify (not_older (slot / E)) d active past (slot / E) x).
    { rewrite !check_ok, !first_err_ok. unfold acceptable. rewrite <- !sorted_no_dup. split.
      - intros (A1 & A2 & A3 & A4 & A5 & A6 & A7 & A8 & A9).
        assert (Hn : NoDup (map v_report (x_verdicts x))) by now apply no_dup_NoDup.
        repeat (split; [tauto|]). split; [|split].
        + intros v Hv. apply validate_verdict_ok; auto.
        + intros c Hc. apply validate_culprit_ok; auto.
        + intros f Hf. apply validate_fault_ok; auto.
      - intros ((A1 & A4) & (A2 & A6) & (A3 & A8) & A5 & A7 & A9).
        assert (Hn : NoDup (map v_report (x_verdicts x))) by now apply no_dup_NoDup.
        repeat (split; [assumption|]). split; [|split; [assumption|split; [|split; [assumption|]]]].
        + intros v Hv. apply validate_verdict_ok; auto.
        + intros c Hc. apply validate_culprit_ok; auto.
        + intros f Hf. apply validate_fault_ok; auto. }
    rewrite <- FULL. unfold validate_disputes. clear FULL. set (VV := validate_verdict V E verify d active past slot x).
    set (VC := validate_culprit V verify d active past x). set (VF := validate_fault V verify d active past x). clearbody VV VC VF.
    destruct (x_culprits x) as [|c cs].
    - destruct (x_faults x) as [|f fs].
      + destruct (x_verdicts x) as [|v vs]; [cbn; tauto|]. rewrite !bind_unit. cbn [first_err map no_dup sorted_by check]. tauto.
      + destruct (x_verdicts x) as [|v vs]; rewrite !bind_unit; cbn [first_err map no_dup sorted_by check]; tauto.
    - destruct (x_faults x) as [|f fs], (x_verdicts x) as [|v vs]; rewrite !bind_unit; cbn [first_err map no_dup sorted_by check]; tauto.
  Qed.

  (** The judged sets. *)
  Lemma insert_sorted_perm : forall a l, Permutation (insert_sorted a l) (a :: l).
  Proof.
    induction l as [|b l IH]; cbn; [reflexivity|]. destruct (a <=? b); [reflexivity|]. rewrite IH. apply perm_swap.
  Qed.
  Lemma sort_perm : forall l, Permutation (vec_sort l) l.
  Proof. induction l as [|a l IH]; cbn; [reflexivity|]. rewrite insert_sorted_perm. now constructor. Qed.
  Lemma insert_sorted_sorted : forall a l, StronglySorted N.le l -> StronglySorted N.le (insert_sorted a l).
  Proof.
    induction l as [|b l IH]; intros H; cbn; [repeat constructor|]. inversion H as [|? ? H1 H2]; subst. destruct (N.leb_spec a b).
    - constructor; [assumption|]. constructor; [assumption|]. rewrite Forall_forall in *. intros c Hc. specialize (H2 c Hc). lia.
    - constructor; [auto|]. apply Forall_forall. intros c Hc. apply (Permutation_in _ (insert_sorted_perm a l)) in Hc.
      rewrite Forall_forall in H2. destruct Hc as [<-|Hc]; [lia|auto].
  Qed.
  Lemma sort_sorted : forall l, StronglySorted N.le (vec_sort l).
  Proof. induction l as [|a l IH]; cbn; [constructor|]. now apply insert_sorted_sorted. Qed.
  Lemma sort_In : forall l x, In x (vec_sort l) <-> In x l.
  Proof. intros. split; apply Permutation_in; [apply sort_perm|symmetry; apply sort_perm]. Qed.
  Lemma sort_NoDup : forall l, NoDup (vec_sort l) <-> NoDup l.
  Proof. intros. split; apply Permutation_NoDup; [apply sort_perm|symmetry; apply sort_perm]. Qed.
  Lemma sorted_le_lt : forall l, StronglySorted N.le l -> NoDup l -> ascending l.
  Proof.
    induction l as [|a l IH]; intros Hs Hn; [exact I|]. inversion Hs; subst. inversion Hn; subst. apply ascending_cons. split; auto.
    intros b Hb. match goal with H : Forall _ l |- _ => rewrite Forall_forall in H; specialize (H b Hb) end.
    assert (a <> b) by (intros ->; contradiction). lia.
  Qed.
  Lemma ascending_sorted : forall l, ascending l -> StronglySorted N.le l.
  Proof.
    induction l as [|a l IH]; intros H; [constructor|]. apply ascending_cons in H as [H1 H2]. constructor; auto.
    apply Forall_forall. intros b Hb. specialize (H1 b Hb). lia.
  Qed.

  (** What a successful transition implies, whatever the epochs named. *)
  Lemma transition_ok : forall d active past slot x d', transition_disputes V E verify d active past slot x = Ok d' ->
    validate_disputes V E verify d active past slot x = Ok tt /\
    d' = mk_judged (vec_sort (good d ++ map v_report (filter (is_eval V IsGood) (x_verdicts x))))
           (vec_sort (bad d ++ map v_report (filter (is_eval V IsBad) (x_verdicts x))))
           (vec_sort (wonky d ++ map v_report (filter (is_eval V IsWonky) (x_verdicts x))))
           (vec_sort (punish d ++ collect_offender_keys x)).
  Proof.
    intros d active past slot x d' H. unfold transition_disputes in H. destruct (validate_disputes V E verify d active past slot x) as [[]|?|]; try discriminate.
    cbn in H. injection H as <-. auto.
  Qed.
  Lemma validate_core : forall d active past slot x, validate_disputes V E verify d active past slot x = Ok tt ->
    NoDup (map v_report (x_verdicts x)) /\
    (forall v, In v (x_verdicts x) -> ~ In (v_report v) (all_report_hashes d)) /\
    NoDup (map c_key (x_culprits x)) /\ NoDup (map f_key (x_faults x)) /\
    (forall k, In k (collect_offender_keys x) -> ~ In k (punish d)) /\
    (forall v, In v (x_verdicts x) -> settled_good V v \/ settled_bad v \/ settled_wonky V v).
  Proof.
    intros d active past slot x H.
    assert (Hn : NoDup (map v_report (x_verdicts x)) /\ first_err (validate_verdict V E verify d active past slot x) (x_verdicts x) = Ok tt /\
      NoDup (map c_key (x_culprits x)) /\ NoDup (map f_key (x_faults x)) /\
      first_err (validate_culprit V verify d active past x) (x_culprits x) = Ok tt /\
      first_err (validate_fault V verify d active past x) (x_faults x) = Ok tt).
    { unfold validate_disputes in H. set (VV := validate_verdict V E verify d active past slot x) in *.
      set (VC := validate_culprit V verify d active past x) in *. set (VF := validate_fault V verify d active past x) in *. clearbody VV VC VF.
      rewrite <- !no_dup_NoDup.
      destruct (x_culprits x) as [|c cs].
      - destruct (x_faults x) as [|f fs].
        + destruct (x_verdicts x) as [|v vs]; [cbn; tauto|]. rewrite !bind_unit, !check_ok in H. cbn [first_err map no_dup sorted_by check]. tauto.
        + destruct (x_verdicts x) as [|v vs]; rewrite !bind_unit, !check_ok in H; cbn [first_err map no_dup sorted_by check] in *; tauto.
      - destruct (x_faults x) as [|f fs], (x_verdicts x) as [|v vs]; rewrite !bind_unit, !check_ok in H; cbn [first_err map no_dup sorted_by check] in *; tauto. }
    destruct Hn as (A & B & C & D & F & G). rewrite first_err_ok in B, F, G. repeat split; auto.
    - intros v Hv. specialize (B v Hv). unfold validate_verdict in B. cbv zeta in B. rewrite !bind_unit, !check_ok in B.
      destruct B as (_ & _ & B & _). now apply negb_true_iff, mem_not_In in B.
    - intros k Hk. unfold collect_offender_keys in Hk. apply in_app_iff in Hk as [Hk|Hk]; apply in_map_iff in Hk as (o & <- & Ho).
      + specialize (F o Ho). unfold validate_culprit in F. rewrite bind_unit, check_ok in F. destruct F as [F _]. now apply negb_true_iff, mem_not_In in F.
      + specialize (G o Ho). unfold validate_fault in G. rewrite bind_unit, check_ok in G. destruct G as [G _]. now apply negb_true_iff, mem_not_In in G.
    - intros v Hv. specialize (B v Hv). unfold validate_verdict in B. cbv zeta in B. rewrite !bind_unit in B. destruct B as (_ & B & _).
      apply vote_check in B. tauto.
  Qed.

  Definition dwf (d : judged) : Prop :=
    StronglySorted N.le (good d) /\ StronglySorted N.le (bad d) /\ StronglySorted N.le (wonky d) /\ StronglySorted N.le (punish d) /\
    NoDup (all_report_hashes d).
  Lemma perm_NoDup : forall A (l l' : list A), Permutation l l' -> NoDup l' -> NoDup l.
  Proof. intros A l l' P H. eapply Permutation_NoDup; [symmetry; exact P|exact H]. Qed.
  Lemma partition3 : forall x, Permutation
    (map v_report (filter (is_eval V IsGood) x) ++ map v_report (filter (is_eval V IsBad) x) ++ map v_report (filter (is_eval V IsWonky) x))
    (map v_report (filter (fun v => is_eval V IsGood v || is_eval V IsBad v || is_eval V IsWonky v) x)).
  Proof.
    intros x. rewrite <- !map_app. apply Permutation_map. induction x as [|v x IH]; [reflexivity|]. cbn [filter].
    destruct (is_eval V IsGood v) eqn:G, (is_eval V IsBad v) eqn:B, (is_eval V IsWonky v) eqn:W;
      try (exfalso; unfold is_eval in G, B, W; destruct (evaluate_verdict V v); discriminate); cbn [orb].
    - cbn. now constructor.
    - etransitivity; [symmetry; apply Permutation_middle|]. now constructor.
    - rewrite app_assoc. etransitivity; [symmetry; apply Permutation_middle|]. rewrite <- app_assoc. now constructor.
    - exact IH.
  Qed.
  Lemma dwf_step : forall d active past slot x d', dwf d -> transition_disputes V E verify d active past slot x = Ok d' -> dwf d'.
  Proof.
    intros d active past slot x d' (_ & _ & _ & _ & Hn) H. apply transition_ok in H as [Hv ->].
    apply validate_core in Hv as (Nv & Nin & _ & _ & _ & _).
    unfold dwf. cbn [good bad wonky punish]. repeat (split; [apply sort_sorted|]).
    unfold all_report_hashes in *. cbn [good bad wonky].
    set (g := map v_report (filter (is_eval V IsGood) (x_verdicts x))). set (b := map v_report (filter (is_eval V IsBad) (x_verdicts x))).
    set (w := map v_report (filter (is_eval V IsWonky) (x_verdicts x))).
    eapply perm_NoDup with (l' := ((good d ++ bad d ++ wonky d) ++ (g ++ b ++ w))%list).
    { rewrite !sort_perm. rewrite <- !app_assoc. apply Permutation_app_head.
      transitivity (bad d ++ g ++ b ++ wonky d ++ w)%list.
      - rewrite (app_assoc g). rewrite (Permutation_app_comm g (bad d)). rewrite <- app_assoc. reflexivity.
      - apply Permutation_app_head. rewrite (app_assoc g b). rewrite (app_assoc (g ++ b)). rewrite (Permutation_app_comm (g ++ b) (wonky d)).
        rewrite <- !app_assoc. reflexivity. }
    apply NoDup_app_intro; [assumption| |].
    - eapply perm_NoDup; [apply partition3|]. apply NoDup_map_filter. assumption.
    - intros h Hh Hg. apply (Permutation_in _ (partition3 _)) in Hg. apply in_map_iff in Hg as (v & <- & Hg). apply filter_In in Hg as [Hg _].
      exact (Nin v Hg Hh).
  Qed.

  Lemma step_In : forall d active past slot x d', transition_disputes V E verify d active past slot x = Ok d' ->
    (forall h, In h (good d') <-> In h (good d) \/ exists v, In v (x_verdicts x) /\ v_report v = h /\ settled_good V v) /\
    (forall h, In h (bad d') <-> In h (bad d) \/ exists v, In v (x_verdicts x) /\ v_report v = h /\ settled_bad v) /\
    (forall h, In h (wonky d') <-> In h (wonky d) \/ exists v, In v (x_verdicts x) /\ v_report v = h /\ settled_wonky V v) /\
    (forall k, In k (punish d') <-> In k (punish d) \/ In k (map c_key (x_culprits x)) \/ In k (map f_key (x_faults x))).
  Proof.
    intros d active past slot x d' H. apply transition_ok in H as [_ ->]. cbn [good bad wonky punish].
    assert (K : forall e P, (forall v, is_eval V e v = true <-> P v) -> forall l h,
      In h (vec_sort (l ++ map v_report (filter (is_eval V e) (x_verdicts x)))) <->
      In h l \/ exists v, In v (x_verdicts x) /\ v_report v = h /\ P v).
    { intros e P HP l h. rewrite sort_In, in_app_iff, in_map_iff. split.
      - intros [?|(v & <- & Hv)]; [auto|]. apply filter_In in Hv as [Hv Q]. right. exists v. apply HP in Q. auto.
      - intros [?|(v & Hv & <- & Q)]; [auto|]. right. exists v. split; [reflexivity|]. apply filter_In. split; [assumption|]. now apply HP. }
    split; [exact (K _ _ is_eval_good _)|]. split; [exact (K _ _ is_eval_bad _)|]. split; [exact (K _ _ is_eval_wonky _)|].
    intros k. rewrite sort_In. unfold collect_offender_keys. rewrite !in_app_iff. reflexivity.
  Qed.

  Lemma dchain_spec : forall d0 xs d, dwf d0 -> dchain V E verify d0 xs d -> dwf d /\
    (forall h, In h (good d) <-> In h (good d0) \/ exists x v, In x xs /\ In v (x_verdicts x) /\ v_report v = h /\ settled_good V v) /\
    (forall h, In h (bad d) <-> In h (bad d0) \/ exists x v, In x xs /\ In v (x_verdicts x) /\ v_report v = h /\ settled_bad v) /\
    (forall h, In h (wonky d) <-> In h (wonky d0) \/ exists x v, In x xs /\ In v (x_verdicts x) /\ v_report v = h /\ settled_wonky V v) /\
    (forall k, In k (punish d) <-> In k (punish d0) \/ exists x, In x xs /\ (In k (map c_key (x_culprits x)) \/ In k (map f_key (x_faults x)))).
  Proof.
    intros d0 xs d W C. induction C as [|xs d active past slot x d' C IH T].
    - split; [assumption|]. repeat split; auto; intros [?|(? & Q)]; auto; try destruct Q as (? & [] & _); destruct Q as ([] & _).
    - destruct IH as (W' & I1 & I2 & I3 & I4). split; [eapply dwf_step; eauto|].
      destruct (step_In _ _ _ _ _ _ T) as (S1 & S2 & S3 & S4).
      assert (K : forall (Q : disputes_xt -> Prop), (exists y, In y (xs ++ [x]) /\ Q y) <-> (exists y, In y xs /\ Q y) \/ Q x).
      { intros Q. split.
        - intros (y & Hy & HQ). apply in_app_iff in Hy as [Hy|[<-|[]]]; eauto.
        - intros [(y & Hy & HQ)|HQ]; [exists y|exists x]; split; auto; apply in_app_iff; auto with datatypes. }
      assert (L : forall (P : verdict -> Prop) h, (exists y v, In y (xs ++ [x]) /\ In v (x_verdicts y) /\ v_report v = h /\ P v) <->
        (exists y v, In y xs /\ In v (x_verdicts y) /\ v_report v = h /\ P v) \/ (exists v, In v (x_verdicts x) /\ v_report v = h /\ P v)).
      { intros P h. specialize (K (fun y => exists v, In v (x_verdicts y) /\ v_report v = h /\ P v)). split.
        - intros (y & v & Hy & R). destruct K as [K _]. destruct K as [(z & Hz & u & R')|R']; eauto 8.
        - intros [(y & v & Hy & R)|R]; destruct K as [_ K]; [destruct K as (z & Hz & u & R'); eauto|destruct K as (z & Hz & u & R'); eauto]. }
      split; [intros h; rewrite S1, I1, L; tauto|]. split; [intros h; rewrite S2, I2, L; tauto|].
      split; [intros h; rewrite S3, I3, L; tauto|]. intros k. rewrite S4, I4, K. tauto.
  Qed.
  Lemma punish_NoDup : forall d0 xs d, NoDup (punish d0) -> dchain V E verify d0 xs d ->
    (forall x k, In x xs -> In k (map c_key (x_culprits x)) -> ~ In k (map f_key (x_faults x))) -> NoDup (punish d).
  Proof.
    intros d0 xs d W C. induction C as [|xs d active past slot x d' C IH T]; intros Hd; [assumption|].
    apply transition_ok in T as [Hv ->]. cbn [punish]. apply sort_NoDup. apply validate_core in Hv as (_ & _ & Nc & Nf & Np & _).
    apply NoDup_app_intro.
    - apply IH. intros y k Hy. apply Hd. apply in_app_iff. auto.
    - unfold collect_offender_keys. apply NoDup_app_intro; auto. intros k. apply Hd. apply in_app_iff. right. now left.
    - intros k Hk Ho. exact (Np k Ho Hk).
  Qed.
End P.

(** Signing contexts. *)
Lemma app_len_inj : forall A (a b c d : list A), length a = length c -> (a ++ b = c ++ d)%list -> a = c /\ b = d.
Proof.
  induction a as [|x a IH]; intros b [|y c] d L Q; cbn in *; try discriminate; [auto|]. injection Q as -> Q. apply IH in Q as [-> ->]; auto.
Qed.
