(** The privileges after a round. *)
From Verif Require Import Base Base_Proofs PvmMem_Model PvmProg_Model PvmStep_Model PvmInit_Model Sandbox_Model Sandbox_Spec Sandbox_Proofs Host_Model Host_Spec Acc_Model Round_Model Round_Spec Round1_Proofs Round2_Proofs.
From Coq Require Import Permutation.
Set Implicit Arguments.
Open Scope N_scope.

Lemma privs_inv : forall q l d u, confirmed q -> NoDup (map fst (l ++ d)) -> (forall t p, In (t, p) l -> from q t p) -> inv q d u ->
  exists u', privs q u l = Ok u' /\ inv q (rev l ++ d) u'.
Proof.
  intros q. induction l as [|[t p] l IH]; intros d u Q Nd F I; [exists u; split; [reflexivity | exact I]|]. cbn [privs app map fst] in *. inversion Nd as [|x y N1 N2]; subst.
  assert (Out : ~ In t (map fst d)) by (intros X; apply N1; rewrite map_app; apply in_or_app; right; exact X).
  destruct (@step_inv q d u t p Q Out (F t p (or_introl eq_refl)) I) as [u1 [E1 I1]]. rewrite E1. cbn [bind].
  assert (Nd' : NoDup (map fst (l ++ (t, p) :: d))).
  { rewrite map_app in *. cbn [map fst]. apply (Permutation_NoDup (l := t :: map fst l ++ map fst d)); [apply Permutation_middle | constructor; assumption]. }
  destruct (IH ((t, p) :: d) u1 Q Nd' (fun t0 p0 J => F t0 p0 (or_intror J)) I1) as [u2 [E2 I2]]. exists u2. split; [exact E2|]. cbn [rev]. rewrite <- app_assoc. exact I2.
Qed.
Lemma own_perm : forall l l' q x, NoDup (map fst l) -> Permutation l l' -> own l q x = own l' q x.
Proof.
  intros l l' q x Nd P. assert (Nd' : NoDup (map fst l')) by (eapply Permutation_NoDup; [apply Permutation_map, P | exact Nd]).
  destruct (in_dec N.eq_dec x (map fst l)) as [I|O].
  - apply in_map_iff in I. destruct I as [[t p] [E I]]. cbn [fst] in E. subst t. rewrite (@own_in l q x p Nd I). symmetry. apply own_in; [exact Nd'|]. eapply Permutation_in; eassumption.
  - rewrite (@own_out l q x O). symmetry. apply own_out. intros X. apply O. eapply Permutation_in; [apply Permutation_map, Permutation_sym, P | exact X].
Qed.
(** [fold_left set_at] *)
Lemma fold_set_nth : forall (self : list (N * N)) l c, NoDup (map fst self) -> nth_error (fold_left (fun l x => set_at l (N.to_nat (fst x)) (snd x)) self l) c =
  match nth_error l c with None => None | Some a => Some (match aget self (N.of_nat c) with Some b => b | None => a end) end.
Proof.
  induction self as [|[k v] self IH]; intros l c Nd; [cbn; destruct (nth_error l c); reflexivity|]. cbn [fold_left fst snd map] in *. inversion Nd as [|x y N1 N2]; subst. rewrite IH by exact N2.
  rewrite set_at_nth. assert (X : aget ((k, v) :: self) (N.of_nat c) = if N.eq_dec k (N.of_nat c) then Some v else aget self (N.of_nat c)) by (unfold mget; cbn [find fst]; destruct (N.eq_dec k (N.of_nat c)); reflexivity). rewrite X.
  destruct (Nat.eq_dec (N.to_nat k) c) as [E|D]; destruct (N.eq_dec k (N.of_nat c)) as [E'|D']; try lia; [|reflexivity].
  destruct (nth_error l c); [|reflexivity]. assert (No : aget self (N.of_nat c) = None); [|rewrite No; reflexivity].
  destruct (aget self (N.of_nat c)) eqn:Y; [|reflexivity]. exfalso. apply N1. unfold mget in Y. destruct (find (fun e : N * N => if N.eq_dec (fst e) (N.of_nat c) then true else false) self) as [[k1 z]|] eqn:F; [|discriminate].
  apply find_some in F. destruct F as [F1 F2]. cbn [fst] in F2. destruct (N.eq_dec k1 (N.of_nat c)) as [->|]; [|discriminate]. rewrite E'. apply (in_map fst) in F1. exact F1.
Qed.
Lemma fold_set_len : forall (self : list (N * N)) l, length (fold_left (fun l x => set_at l (N.to_nat (fst x)) (snd x)) self l) = length l.
Proof. induction self as [|[k v] self IH]; intros l; [reflexivity|]. cbn [fold_left]. rewrite IH. apply set_at_len. Qed.

Theorem inv_end : forall q l u, confirmed q -> NoDup (map fst l) -> (forall t p, In (t, p) l -> from q t p) -> inv q (rev l) u ->
  others_after q l (confirm u) /\
    forall c a, nth_error (p_assign q) c = Some a ->
      (forall b, p_assign_bless (own l q (p_manager q)) = Some b -> nth_error b c = Some a -> a <> p_manager q -> assigner (own l q a) (N.of_nat c) = a) -> assigner_after q l (confirm u) c a.
Proof.
  intros q l u Q Nd F I. pose proof Q as [Q1 [Q2 [Q3 [Q4 Q5]]]].
  assert (O : forall x, own (rev l) q x = own l q x) by (intros x; symmetry; apply own_perm; [exact Nd | apply Permutation_rev]).
  assert (Fx : forall x, from q x (own l q x)).
  { intros x. destruct (in_dec N.eq_dec x (map fst l)) as [J|J]; [|rewrite own_out by exact J; apply from_start, Q]. apply in_map_iff in J. destruct J as [[t p] [Z J]]. cbn [fst] in Z. subst t. rewrite (@own_in l q x p Nd J). auto. }
  destruct I as [[I1 [I2 [I3 I4]]] I5 I6 I7 I8 I9 [I10 I11] I12]. set (m := p_manager q) in *. rewrite O in *. pose proof (Fx m) as Fm.
  split.
  - split; cbn [confirm p_manager p_always p_designate p_registrar p_queues p_staging p_assign p_assign_bless p_assign_self]; fold m; try assumption.
    + pose proof (@role_end p_designate q (rev l) (p_designate u) m (ro_last (p_designate q)) I8) as X. rewrite !O in X. apply X; [apply (f_pairs Fm) | apply (f_last Fm)].
    + pose proof (@role_end p_registrar q (rev l) (p_registrar u) m (ro_last (p_registrar q)) I9) as X. rewrite !O in X. apply X; [apply (f_pairs Fm) | apply (f_last Fm)].
    + split; [exact I10|]. intros c a X. rewrite (I11 c a X), O. reflexivity.
    + split; [|auto]. destruct (p_assign_bless u) as [b|] eqn:B; [apply (f_len Fm); congruence | rewrite fold_set_len, I3; reflexivity].
  - intros c a X K. unfold assigner_after, confirm, R. cbn [p_assign]. fold m. rewrite I4 in *. destruct (p_assign_bless (own l q m)) as [b|] eqn:B.
    + assert (Len : length b = length (p_assign q)) by (apply (f_len Fm); exact B). assert (Lc : (c < length b)%nat) by (rewrite Len; apply nth_error_Some; congruence).
      destruct (nth_error b c) as [z|] eqn:Y; [|apply nth_error_None in Y; lia]. f_equal.
      assert (Am : assigner (own l q m) (N.of_nat c) = z) by (unfold assigner; rewrite B, Nat2N.id; apply nth_error_nth, Y). rewrite Am.
      destruct (N.eqb_spec z a) as [->|D]; [|reflexivity]. destruct (N.eq_dec a m) as [->|Da]; [symmetry; exact Am | symmetry; apply (K b eq_refl Y Da)].
    + rewrite fold_set_nth, I3, X by exact I5. f_equal. destruct (f_unblessed Fm B) as [G1 [G2 [G3 [G4 G5]]]].
      assert (Am : a <> m -> assigner (own l q m) (N.of_nat c) = a).
      { intros D. unfold assigner. rewrite B. destruct (aget (p_assign_self (own l q m)) (N.of_nat c)) as [z|] eqn:Z; [apply G5 in Z; congruence|]. rewrite Nat2N.id. destruct (f_last Fm) as [-> _]. apply nth_error_nth, X. }
      assert (Self : match aget (p_assign_self u) (N.of_nat c) with Some b => b | None => a end = assigner (own l q a) (N.of_nat c)).
      { destruct (aget (p_assign_self u) (N.of_nat c)) as [z|] eqn:Z; [destruct (I6 c z Z) as [a0 [W1 [W2 _]]]; rewrite O in W2; congruence|]. destruct (I7 c a X Z) as [W|[_ W]]; [rewrite O in W; congruence | contradiction]. }
      rewrite Self. destruct (N.eq_dec a m) as [->|D]; [destruct (_ =? _) eqn:W; reflexivity | rewrite (Am D), N.eqb_refl; reflexivity].
Qed.

Theorem privs_ok : forall q l, confirmed q -> NoDup (map fst l) -> (forall t p, In (t, p) l -> from q t p) ->
  exists u, privs q q l = Ok u /\ others_after q l (confirm u) /\
    forall c a, nth_error (p_assign q) c = Some a ->
      (forall b, p_assign_bless (own l q (p_manager q)) = Some b -> nth_error b c = Some a -> a <> p_manager q -> assigner (own l q a) (N.of_nat c) = a) -> assigner_after q l (confirm u) c a.
Proof.
  intros q l Q Nd F. destruct (@privs_inv q l [] q Q) as [u [E I]]; [rewrite app_nil_r; exact Nd | exact F | apply inv_start, Q|]. rewrite app_nil_r in I. exists u. split; [exact E|]. apply inv_end; assumption.
Qed.
Lemma inv_skip : forall q d u t, ~ In t (map fst d) -> inv q d u -> inv q ((t, q) :: d) u.
Proof.
  intros q d u t Out [I1 I2 I3 I4 I5 I6 I7 I8]. assert (O : forall x, own ((t, q) :: d) q x = own d q x) by (intros x; rewrite own_cons; destruct (N.eq_dec t x) as [<-|]; [symmetry; apply own_out, Out | reflexivity]).
  split; try assumption.
  - rewrite O. exact I1.
  - intros c a E. destruct (I3 c a E) as [a0 H]. exists a0. rewrite O. exact H.
  - intros c a0 E1 E2. rewrite O. auto.
  - unfold role_inv. rewrite !O. exact I5.
  - unfold role_inv. rewrite !O. exact I6.
  - split; [apply I7|]. intros c a E. rewrite O. apply I7, E.
  - rewrite O. exact I8.
Qed.
