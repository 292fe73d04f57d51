(** Money across a round. *)
From Verif Require Import Base Base_Proofs Sandbox_Model Sandbox_Spec Sandbox_Proofs Host_Model Host_Spec Host4_Proofs Host5_Proofs Acc_Model Acc_Spec Round_Model Round_Spec Round2_Spec Round4_Proofs Round5_Proofs.
From Coq Require Import Permutation ZArith.
Set Implicit Arguments.
Open Scope N_scope.

Definition bal (w : gstate) (s : N) : N := match g_meta w s with Some m => m_balance m | None => 0 end.
Definition tot (ids : list N) (w : gstate) : N := sum (map (bal w) ids).
Lemma tot_filter : forall w ids, tot ids w = tot (filter (fun s => if has_dec w s then true else false) ids) w.
Proof.
  intros w. induction ids as [|s ids IH]; [reflexivity|]. unfold tot in *. cbn [filter]. destruct (has_dec w s) as [H|H]; cbn [map sum]; rewrite IH; [reflexivity|]. unfold bal at 1. rewrite (not_has H). lia.
Qed.
Lemma tot_holds : forall w ids, NoDup ids -> (forall s, has w s -> In s ids) -> holds w (tot ids w).
Proof.
  intros w ids D C. exists (filter (fun s => if has_dec w s then true else false) ids). split; [apply NoDup_filter, D|]. split; [|apply tot_filter].
  intros s. rewrite filter_In. destruct (has_dec w s); split; [intros _; assumption | intros H; split; [apply C, H | reflexivity] | intros [_ X]; discriminate | intros X; contradiction].
Qed.
Lemma holds_tot : forall w v ids, holds w v -> NoDup ids -> (forall s, has w s -> In s ids) -> v = tot ids w.
Proof.
  intros w v ids [l [D [I ->]]] Di C. destruct (tot_holds Di C) as [l' [D' [I' E']]]. rewrite E'. apply sum_perm, Permutation_map, NoDup_Permutation; [assumption..|]. intros s. rewrite I, I'. reflexivity.
Qed.
Lemma cover : forall ws : list gstate, (forall w, In w ws -> exists v, holds w v) -> exists ids, NoDup ids /\ forall w s, In w ws -> has w s -> In s ids.
Proof.
  induction ws as [|w ws IH]; intros H; [exists []; split; [constructor | intros w s []]|]. destruct IH as [ids [D C]]; [intros x X; apply H; right; exact X|]. destruct (H w (or_introl eq_refl)) as [v [l [Dl [I _]]]].
  exists (nodup N.eq_dec (l ++ ids)). split; [apply NoDup_nodup|]. intros x s [<-|X] Hs; apply nodup_In, in_or_app; [left; apply I, Hs | right; apply (C x s X Hs)].
Qed.

Open Scope Z_scope.
Definition zsum (l : list Z) : Z := fold_right Z.add 0 l.
Lemma zsum_one : forall (A : Type) (key : A -> N) (f : A -> Z) l a, NoDup (map key l) -> In a l -> (forall b, In b l -> key b <> key a -> f b = 0) -> zsum (map f l) = f a.
Proof.
  intros A key f. induction l as [|b l IH]; intros a D I H; [contradiction|]. inversion D; subst. cbn [map zsum fold_right]. fold (zsum (map f l)). destruct I as [->|I].
  - assert (E : zsum (map f l) = 0); [|lia]. clear IH D. assert (Z : forall b, In b l -> f b = 0) by (intros b X; apply H; [right; exact X|]; intros E; apply H2; rewrite <- E; apply in_map, X).
    clear - Z. induction l as [|b l IH]; [reflexivity|]. cbn [map zsum fold_right]. fold (zsum (map f l)). rewrite (Z b (or_introl eq_refl)), IH; [reflexivity|]. intros c X. apply Z. right. exact X.
  - rewrite (IH a H3 I); [|intros c X; apply H; right; exact X]. rewrite (H b); [lia | left; reflexivity|]. intros E. apply H2. rewrite E. apply in_map, I.
Qed.
Lemma zsum_least : forall (A : Type) (key : A -> N) (f : A -> Z) l a, NoDup (map key l) -> In a l -> (forall b, In b l -> key b <> key a -> 0 <= f b) -> f a <= zsum (map f l).
Proof.
  intros A key f. induction l as [|b l IH]; intros a D I H; [contradiction|]. inversion D; subst. cbn [map zsum fold_right]. fold (zsum (map f l)). destruct I as [->|I].
  - assert (E : 0 <= zsum (map f l)); [|lia]. clear IH D. assert (Z : forall b, In b l -> 0 <= f b) by (intros b X; apply H; [right; exact X|]; intros E; apply H2; rewrite <- E; apply in_map, X).
    clear - Z. induction l as [|b l IH]; [apply Z.le_refl|]. cbn [map zsum fold_right]. fold (zsum (map f l)). pose proof (Z b (or_introl eq_refl)). assert (0 <= zsum (map f l)); [|lia]. apply IH. intros c X. apply Z. right. exact X.
  - pose proof (IH a H3 I (fun c X => H c (or_intror X))). assert (0 <= f b); [|lia]. apply (H b); [left; reflexivity|]. intros E. apply H2. rewrite E. apply in_map, I.
Qed.
Lemma zsum_le : forall (A : Type) (f g : A -> Z) l, (forall a, In a l -> f a <= g a) -> zsum (map f l) <= zsum (map g l).
Proof. intros A f g. induction l as [|a l IH]; intros H; [apply Z.le_refl|]. cbn [map zsum fold_right]. fold (zsum (map f l)) (zsum (map g l)). pose proof (H a (or_introl eq_refl)). pose proof (IH (fun b X => H b (or_intror X))). lia. Qed.
Lemma zsum_eq : forall (A : Type) (f g : A -> Z) l, (forall a, In a l -> f a = g a) -> zsum (map f l) = zsum (map g l).
Proof. intros A f g l H. f_equal. apply map_ext_in, H. Qed.
Lemma zsum_add : forall (A : Type) (f g : A -> Z) l, zsum (map (fun a => f a + g a) l) = zsum (map f l) + zsum (map g l).
Proof. intros A f g. induction l as [|a l IH]; [reflexivity|]. cbn [map zsum fold_right]. fold (zsum (map f l)) (zsum (map g l)) (zsum (map (fun a => f a + g a) l)). lia. Qed.
Lemma zsum_swap : forall (A B : Type) (f : A -> B -> Z) la lb, zsum (map (fun a => zsum (map (f a) lb)) la) = zsum (map (fun b => zsum (map (fun a => f a b) la)) lb).
Proof.
  intros A B f. induction la as [|a la IH]; intros lb.
  - cbn [map zsum fold_right]. induction lb as [|b lb IH]; [reflexivity|]. cbn [map zsum fold_right]. fold (zsum (map (fun b : B => 0) lb)). rewrite <- IH. reflexivity.
  - cbn [map zsum fold_right]. fold (zsum (map (fun a => zsum (map (f a) lb)) la)). rewrite IH. rewrite <- zsum_add. apply zsum_eq. intros b _. reflexivity.
Qed.
Lemma tot_zsum : forall ids w, Z.of_N (tot ids w) = zsum (map (fun s => Z.of_N (bal w s)) ids).
Proof. intros ids w. induction ids as [|s ids IH]; [reflexivity|]. unfold tot in *. cbn [map sum zsum fold_right]. fold (zsum (map (fun s => Z.of_N (bal w s)) ids)). lia. Qed.
Lemma tot_diff : forall ids a b, zsum (map (fun s => Z.of_N (bal a s) - Z.of_N (bal b s)) ids) = Z.of_N (tot ids a) - Z.of_N (tot ids b).
Proof.
  intros ids a b. rewrite !tot_zsum. induction ids as [|s ids IH]; [reflexivity|]. cbn [map zsum fold_right].
  fold (zsum (map (fun s => Z.of_N (bal a s)) ids)) (zsum (map (fun s => Z.of_N (bal b s)) ids)) (zsum (map (fun s => Z.of_N (bal a s) - Z.of_N (bal b s)) ids)). lia.
Qed.

(** One account *)
Lemma alike_bal : forall s a b, alike s a b -> bal a s = bal b s. Proof. intros s a b [A _]. unfold bal. rewrite A. reflexivity. Qed.
Section Merge.
  Variables (d : gstate) (rs : list (N * gstate)) (w : gstate).
  Hypothesis ND : NoDup (map fst rs).
  Hypothesis Own : forall t r, In (t, r) rs -> own_work d t r /\ has d t.
  Hypothesis Cm : compatible d rs.
  Hypothesis Mg : merged d rs w.
  Hypothesis Rich : forall t r t' r', In (t, r) rs -> In (t', r') rs -> removes d t r t' -> (bal d t' <= bal r' t')%N.
  Let diff (s : N) (x : N * gstate) : Z := Z.of_N (bal (snd x) s) - Z.of_N (bal d s).
  Lemma own_pair : forall t r r', In (t, r) rs -> In (t, r') rs -> r = r'.
  Proof.
    clear - ND. induction rs as [|[a b] l IH]; intros t r r' H1 H2; [contradiction|]. inversion ND; subst. cbn [fst] in *. destruct H1 as [H1|H1], H2 as [H2|H2].
    - congruence.
    - inversion H1; subst. exfalso. apply H3. change t with (fst (t, r')). apply in_map, H2.
    - inversion H2; subst. exfalso. apply H3. change t with (fst (t, r)). apply in_map, H1.
    - eapply IH; eassumption.
  Qed.
  Lemma not_any : forall (P : N -> gstate -> Prop), (forall t r, In (t, r) rs -> {P t r} + {~ P t r}) -> (exists t r, In (t, r) rs /\ P t r) \/ (forall t r, In (t, r) rs -> ~ P t r).
  Proof.
    intros P. clear. induction rs as [|[a b] l IH]; intros D; [right; intros t r []|]. destruct (D a b (or_introl eq_refl)) as [X|X]; [left; exists a, b; split; [left; reflexivity | exact X]|].
    destruct IH as [[t [r [I Y]]]|Y]; [intros t r I; apply D; right; exact I | left; exists t, r; split; [right; exact I | exact Y] | right; intros t r [E|I]; [inversion E; subst; exact X | apply Y, I]].
  Qed.
  Lemma account_diff : forall s, Z.of_N (bal w s) - Z.of_N (bal d s) <= zsum (map (diff s) rs) /\
    ((forall t r, In (t, r) rs -> ~ removes d t r s) \/ ~ In s (map fst rs) -> Z.of_N (bal w s) - Z.of_N (bal d s) = zsum (map (diff s) rs)).
  Proof.
    intros s. destruct (Mg s) as [M1 M2].
    destruct (@not_any (fun t r => removes d t r s)) as [[t0 [r0 [I0 R0]]]|NR]; [intros; apply removes_dec| |].
    - destruct (M1 (ex_intro _ t0 (ex_intro _ r0 (conj I0 R0)))) as [W _]. pose proof R0 as [Nt [Hd Nr]].
      assert (F0 : diff s (t0, r0) = - Z.of_N (bal d s)) by (unfold diff; cbn [snd]; unfold bal at 1; rewrite (not_has Nr); lia).
      assert (W0 : bal w s = 0%N) by (unfold bal; rewrite W; reflexivity).
      assert (Oth : forall b, In b rs -> fst b <> t0 -> fst b <> s -> diff s b = 0).
      { intros [t r] I Dt Ds. cbn [fst] in *. destruct (proj1 (Own _ _ I) s) as [A|[[_ [A _]]|[A _]]]; [congruence | unfold diff; cbn [snd]; rewrite (alike_bal A); lia | contradiction|].
        exfalso. apply Dt. eapply (@Cm t r t0 r0 s); [exact I | exact I0|]. right. split; assumption. }
      rewrite W0. split.
      + assert (L := @zsum_least _ (@fst N gstate) (diff s) rs (t0, r0) ND I0). rewrite F0 in L. cbn [fst] in L. assert (L' : - Z.of_N (bal d s) <= zsum (map (diff s) rs)); [|lia]. apply L. intros b Ib Db.
        destruct (N.eq_dec (fst b) s) as [E|E]; [|rewrite (Oth b Ib Db E); lia]. destruct b as [t r]. cbn [fst snd] in *. subst t. unfold diff. cbn [snd]. pose proof (@Rich _ _ _ _ I0 Ib R0). lia.
      + intros [X|X]; [exfalso; apply (X t0 r0 I0 R0)|]. rewrite (@zsum_one _ (@fst N gstate) (diff s) rs (t0, r0) ND I0), F0; [lia|]. intros b Ib Db. cbn [fst] in Db. apply Oth; [assumption..|]. intros E. apply X. rewrite <- E. apply in_map, Ib.
    - assert (Q : Z.of_N (bal w s) - Z.of_N (bal d s) = zsum (map (diff s) rs)); [|split; [lia | intros _; exact Q]]. destruct (M2 NR) as [A [B C]]. clear M1 M2.
      destruct (in_dec N.eq_dec s (map fst rs)) as [Is|Is].
      + apply in_map_iff in Is. destruct Is as [[t r] [E I]]. cbn [fst] in E. subst t. rewrite (@zsum_one _ (@fst N gstate) (diff s) rs (s, r) ND I); [unfold diff; cbn [snd]; rewrite (alike_bal (A r I)); reflexivity|].
        intros [t r'] I' Dt. cbn [fst] in Dt. destruct (proj1 (Own _ _ I') s) as [Z|[[_ [Z _]]|[Z _]]]; [congruence | unfold diff; cbn [snd]; rewrite (alike_bal Z); lia | exfalso; apply Z, (proj2 (Own _ _ I)) | exfalso; apply (NR t r' I' Z)].
      + destruct (@not_any (fun t r => makes d t r s)) as [[t0 [r0 [I0 R0]]]|NM]; [intros; apply makes_dec| |].
        * rewrite (@zsum_one _ (@fst N gstate) (diff s) rs (t0, r0) ND I0); [unfold diff; cbn [snd]; rewrite (alike_bal (B t0 r0 I0 R0)); reflexivity|].
          intros [t r] I Dt. cbn [fst] in Dt. assert (Ds : s <> t) by (intros ->; apply Is; change t with (fst (t, r)); apply in_map, I).
          destruct (proj1 (Own _ _ I) s Ds) as [Z|[Z|[Z _]]]; [unfold diff; cbn [snd]; rewrite (alike_bal Z); lia | exfalso; apply Dt; eapply (@Cm t r t0 r0 s); [exact I | exact I0 | left; split; assumption] | exfalso; apply (NR t r I Z)].
        * rewrite (alike_bal (C Is NM)). rewrite (@zsum_eq _ (diff s) (fun _ => 0) rs); [|intros [t r] I].
          -- clear. induction rs as [|x l IH]; [cbn; lia|]. cbn [map zsum fold_right]. fold (zsum (map (fun _ : N * gstate => 0) l)). lia.
          -- assert (Ds : s <> t) by (intros ->; apply Is; change t with (fst (t, r)); apply in_map, I). destruct (proj1 (Own _ _ I) s Ds) as [Z|[Z|[Z _]]]; [unfold diff; cbn [snd]; rewrite (alike_bal Z); lia | exfalso; apply (NM t r I Z) | exfalso; apply (NR t r I Z)].
  Qed.
End Merge.

(** The round *)
Lemma merged_has : forall d rs w s, (forall t r, In (t, r) rs -> own_work d t r) -> merged d rs w -> has w s -> has d s \/ exists t r, In (t, r) rs /\ has r s.
Proof.
  intros d rs w s Own Mg H. destruct (Mg s) as [M1 M2]. destruct (@not_any rs (fun t r => has r s)) as [X|X]; [intros; apply has_dec | right; exact X|]. left. 
  destruct (has_dec d s) as [Hd|Hd]; [exact Hd|]. exfalso.
  assert (NR : forall t r, In (t, r) rs -> ~ removes d t r s) by (intros t r I [_ [Y _]]; contradiction).
  destruct (M2 NR) as [A [B C]]. destruct (in_dec N.eq_dec s (map fst rs)) as [Is|Is].
  - apply in_map_iff in Is. destruct Is as [[t r] [E I]]. cbn [fst] in E. subst t. apply (X s r I). apply (alike_has (A r I)), H.
  - apply Hd. apply (alike_has (C Is (fun t r I M => X t r I (proj2 (proj2 M))))), H.
Qed.
Theorem merged_conserves : forall d rs w v (rx : N -> N * N), NoDup (map fst rs) -> (forall t r, In (t, r) rs -> own_work d t r /\ has d t) -> compatible d rs -> merged d rs w ->
  (forall t r t' r', In (t, r) rs -> In (t', r') rs -> removes d t r t' -> snd (rx t') = 0%N /\ forall s, ~ removes d t' r' s /\ ~ makes d t' r' s) ->
  holds d v -> (forall t r, In (t, r) rs -> exists v', holds r v' /\ (v' + snd (rx t) = v + fst (rx t))%N) ->
  exists v', holds w v' /\ (v' + sum (map (fun x => snd (rx (fst x))) rs) <= v + sum (map (fun x => fst (rx (fst x))) rs))%N /\
    ((forall t r t' r', In (t, r) rs -> In (t', r') rs -> ~ removes d t r t') -> (v' + sum (map (fun x => snd (rx (fst x))) rs) = v + sum (map (fun x => fst (rx (fst x))) rs))%N).
Proof.
  intros d rs w v rx ND Own Cm Mg Qt V Vr.
  destruct (cover (d :: map snd rs)) as [ids [Di Ci]].
  { intros x [<-|X]; [exists v; exact V|]. apply in_map_iff in X. destruct X as [[t r] [E I]]. cbn [snd] in E. subst r. destruct (Vr t x I) as [v' [X _]]. exists v'. exact X. }
  assert (Cd : forall s, has d s -> In s ids) by (intros s; apply Ci; left; reflexivity).
  assert (Cr : forall t r s, In (t, r) rs -> has r s -> In s ids) by (intros t r s I; apply Ci; right; change r with (snd (t, r)); apply in_map, I).
  assert (Cw : forall s, has w s -> In s ids).
  { intros s Hs. destruct (@merged_has d rs w s (fun t r I => proj1 (Own t r I)) Mg Hs) as [H|[t [r [I H]]]]; [apply Cd, H | apply (Cr t r s I H)]. }
  pose proof (holds_tot V Di Cd) as Ev.
  assert (Er : forall x, In x rs -> zsum (map (fun s => Z.of_N (bal (snd x) s) - Z.of_N (bal d s)) ids) = Z.of_N (fst (rx (fst x))) - Z.of_N (snd (rx (fst x)))).
  { intros [t r] I. cbn [fst snd]. rewrite tot_diff. destruct (Vr t r I) as [v' [H E]]. rewrite <- (holds_tot H Di (fun s => Cr t r s I)), <- Ev. lia. }
  assert (Rich : forall t r t' r', In (t, r) rs -> In (t', r') rs -> removes d t r t' -> (bal d t' <= bal r' t')%N).
  { intros t r t' r' I I' R. destruct (Qt t r t' r' I I' R) as [X Q].
    assert (Z : zsum (map (fun s => Z.of_N (bal r' s) - Z.of_N (bal d s)) ids) = Z.of_N (bal r' t') - Z.of_N (bal d t')).
    { apply (@zsum_one _ (fun s : N => s) (fun s => Z.of_N (bal r' s) - Z.of_N (bal d s)) ids t'); [rewrite map_id; exact Di | apply Cd, R|].
      intros s Is Ds. destruct (proj1 (Own t' r' I') s Ds) as [A|[A|[A _]]]; [rewrite (alike_bal A); lia | exfalso; apply (proj2 (Q s)), A | exfalso; apply (proj1 (Q s)), A]. }
    pose proof (Er (t', r') I') as E. cbn [fst snd] in E. rewrite Z, X in E. lia. }
  exists (tot ids w). split; [apply tot_holds; assumption|].
  assert (Sw : zsum (map (fun s => zsum (map (fun x => Z.of_N (bal (snd x) s) - Z.of_N (bal d s)) rs)) ids) = Z.of_N (sum (map (fun x => fst (rx (fst x))) rs)) - Z.of_N (sum (map (fun x => snd (rx (fst x))) rs))).
  { rewrite (zsum_swap (fun s x => Z.of_N (bal (snd x) s) - Z.of_N (bal d s)) ids rs). rewrite (@zsum_eq _ _ (fun x : N * gstate => Z.of_N (fst (rx (fst x))) - Z.of_N (snd (rx (fst x)))) rs Er).
    clear. induction rs as [|x l IH]; [reflexivity|]. cbn [map zsum fold_right sum]. fold (zsum (map (fun x : N * gstate => Z.of_N (fst (rx (fst x))) - Z.of_N (snd (rx (fst x)))) l)). lia. }
  pose proof (fun s => @account_diff d rs w ND Own Cm Mg Rich s) as P. pose proof (tot_diff ids w d) as Td. rewrite <- Ev in Td. split.
  - pose proof (@zsum_le _ _ _ ids (fun s _ => proj1 (P s))) as L. cbn beta in L. rewrite Td, Sw in L. lia.
  - intros NR. assert (L : zsum (map (fun s => Z.of_N (bal w s) - Z.of_N (bal d s)) ids) = zsum (map (fun s => zsum (map (fun x => Z.of_N (bal (snd x) s) - Z.of_N (bal d s)) rs)) ids)); [|rewrite Td, Sw in L; lia].
    apply zsum_eq. intros s _. apply (proj2 (P s)). destruct (in_dec N.eq_dec s (map fst rs)) as [Is|Is]; [|right; exact Is]. left. intros t r I R. apply in_map_iff in Is. destruct Is as [[t' r'] [E I']]. cbn [fst] in E. subst t'. apply (NR t r s r' I I' R).
Qed.
Lemma provided_holds : forall e l w w' v, provided e l w w' -> holds w v -> holds w' v.
Proof. intros e l w w' v [P _] H. eapply holds_ext; [|exact H]. exact P. Qed.
