(** The privileges after a round do not depend on the order of the services. *)
From Verif Require Import Base Base_Proofs PvmMem_Model PvmProg_Model PvmStep_Model PvmInit_Model Sandbox_Model Sandbox_Spec Sandbox_Proofs Host_Model Host_Spec Acc_Model Round_Model Round_Spec Round1_Proofs Round2_Proofs Round3_Proofs.
From Coq Require Import Permutation.
Set Implicit Arguments.
Open Scope N_scope.

Lemma nth_ext_error : forall A (l l' : list A), length l = length l' -> (forall c, (c < length l)%nat -> nth_error l c = nth_error l' c) -> l = l'.
Proof.
  induction l as [|a l IH]; intros [|b l'] L H; try discriminate L; [reflexivity|]. injection L as L. assert (E : Some a = Some b) by (apply (H 0%nat); cbn; lia). injection E as ->. f_equal. apply IH; [exact L|].
  intros c C. apply (H (S c)). cbn. lia.
Qed.
Lemma privs_fold : forall q l u, privs q u l = fold_left (fun r x => let! u := r in merge_priv q (fst x) u (snd x)) l (Ok u).
Proof.
  intros q. induction l as [|[t p] l IH]; intros u; [reflexivity|]. cbn [privs fold_left fst snd bind]. destruct (merge_priv q t u p); [apply IH| |]; cbn [bind].
  - clear. induction l as [|x l IH]; [reflexivity | exact IH].
  - clear. induction l as [|x l IH]; [reflexivity | exact IH].
Qed.
Theorem merge_order : forall q l, confirmed q -> NoDup (map fst l) -> (forall t p, In (t, p) l -> from_calls q t p) ->
  exists p', (forall l', Permutation l l' -> exists u, fold_left (fun r x => let! u := r in merge_priv q (fst x) u (snd x)) l' (Ok q) = Ok u /\ confirm u = p') /\
    others_after q l p' /\
    forall c a, nth_error (p_assign q) c = Some a ->
      (forall b, p_assign_bless (own l q (p_manager q)) = Some b -> nth_error b c = Some a -> a <> p_manager q -> assigner (own l q a) (N.of_nat c) = a) -> assigner_after q l p' c a.
Proof.
  intros q l Q Nd F. assert (F' : forall t p, In (t, p) l -> from q t p) by (intros t p I; apply calls_from; auto).
  assert (K : forall l', Permutation l l' -> exists u, privs q q l' = Ok u /\ inv q (rev l') u /\ NoDup (map fst l') /\ (forall t p, In (t, p) l' -> from q t p)).
  { intros l' P. assert (Nd' : NoDup (map fst l')) by (eapply Permutation_NoDup; [apply Permutation_map, P | exact Nd]).
    assert (Fp : forall t p, In (t, p) l' -> from q t p) by (intros t p I; apply F'; eapply Permutation_in; [apply Permutation_sym, P | exact I]).
    destruct (@privs_inv q l' [] q Q) as [u [E I]]; [rewrite app_nil_r; exact Nd' | exact Fp | apply inv_start, Q|]. rewrite app_nil_r in I. exists u. auto. }
  destruct (K l (Permutation_refl l)) as [u [E [I _]]]. destruct (@inv_end q l u Q Nd F' I) as [Oth Asg]. exists (confirm u). split; [|split; [exact Oth | exact Asg]].
  intros l' P. destruct (K l' P) as [u' [E' [I' [Nd' Fp]]]]. exists u'. rewrite <- privs_fold. split; [exact E'|].
  destruct (@inv_end q l' u' Q Nd' Fp I') as [[O1 O2 O3 O4 [O5 O6] O7 [O8 [O9 O10]]] Asg'].
  assert (O : forall x, own l' q x = own l q x) by (intros x; symmetry; apply own_perm; assumption).
  destruct Oth as [T1 T2 T3 T4 [T5 T6] T7 [T8 [T9 T10]]]. rewrite !O in *.
  assert (As : p_assign (confirm u') = p_assign (confirm u)).
  { assert (Br : forall w lw, inv q (rev lw) w -> Permutation l lw -> p_assign_bless w = p_assign_bless (own l q (p_manager q))).
    { intros w lw [[_ [_ [_ J]]] _ _ _ _ _ _ _] Pw. rewrite J. f_equal. assert (Nw : NoDup (map fst lw)) by (eapply Permutation_NoDup; [apply Permutation_map, Pw | exact Nd]).
      transitivity (own lw q (p_manager q)); [symmetry; apply own_perm; [exact Nw | apply Permutation_rev] | symmetry; apply own_perm; assumption]. }
    pose proof (Br u l I (Permutation_refl l)) as B1. pose proof (Br u' l' I' P) as B2. destruct (p_assign_bless (own l q (p_manager q))) as [b|] eqn:B; [unfold confirm; cbn [p_assign]; rewrite B1, B2; reflexivity|].
    apply nth_ext_error; [congruence|]. intros c C. rewrite O8 in C. apply nth_error_Some in C. destruct (nth_error (p_assign q) c) as [a|] eqn:A; [|congruence].
    assert (X : assigner_after q l (confirm u) c a) by (apply Asg; [exact A | intros b Hb; discriminate Hb]). assert (Y : assigner_after q l' (confirm u') c a) by (apply Asg'; [exact A | intros b Hb; exfalso; first [discriminate Hb | rewrite ?O, ?B in Hb; discriminate Hb]]).
    unfold assigner_after in X, Y. rewrite !O in Y. congruence. }
  assert (Qs : p_queues (confirm u') = p_queues (confirm u)).
  { apply nth_ext_error; [congruence|]. intros c C. rewrite O5 in C. destruct Q as [_ [_ [_ [_ Q]]]]. rewrite Q in C. apply nth_error_Some in C. destruct (nth_error (p_assign q) c) as [a|] eqn:A; [|congruence]. rewrite (O6 c a A), (T6 c a A), O. reflexivity. }
  cbv zeta in O3, O4, T3, T4. rewrite O in O3. rewrite O in O4. rewrite ?O in O7. rewrite <- T1 in O1. rewrite <- T2 in O2. rewrite <- T3 in O3. rewrite <- T4 in O4. rewrite <- T7 in O7. rewrite <- T9 in O9. rewrite <- T10 in O10. clear - O1 O2 O3 O4 O7 O9 O10 As Qs.
  destruct (confirm u') as [a1 a2 a3 a4 a5 a6 a7 a8 a9], (confirm u) as [b1 b2 b3 b4 b5 b6 b7 b8 b9]. simpl in *. congruence.
Qed.
