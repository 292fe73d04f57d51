(** The round as a whole. *)
From Verif Require Import Base Base_Proofs PvmMem_Model PvmProg_Model PvmStep_Model PvmInit_Model Sandbox_Model Sandbox_Spec Sandbox_Proofs Host_Model Host_Spec Acc_Model Round_Model Round_Spec Round2_Spec Round1_Proofs Round2_Proofs Round3_Proofs Round4_Proofs Round5_Proofs.
From Coq Require Import Permutation.
Set Implicit Arguments.
Open Scope N_scope.

Lemma take_ran : forall G e base q metered results r, fold_left (take G e base q metered) results r = fold_left (take G e base q metered) (map (fun x => (fst x, Some (snd x))) (ran results)) r.
Proof.
  intros G e base q metered. induction results as [|[t [a|]] l IH]; intros r; [reflexivity | |]; unfold ran in *; cbn [fold_left flat_map snd fst app map]; [apply IH|].
  assert (X : take G e base q metered r (t, None) = r) by (destruct r; reflexivity). rewrite X. apply IH.
Qed.
Lemma take_err : forall G e base q metered l x, fold_left (take G e base q metered) l (Err x) = Err x.
Proof. intros G e base q metered. induction l as [|a l IH]; intros x; [reflexivity|]. cbn [fold_left]. unfold take at 2. cbn [bind]. apply IH. Qed.

Section Round.
  Variables (G : gstate) (ch : list N) (e : env) (base : accounts) (q : priv) (metered : N -> bool).
  Hypotheses (Bok : sb_ok G ch base) (Gp : proper G) (Dp : proper (view G base)) (Q : confirmed q).
  Let d := view G base.
  Definition gas_of (l : list (N * acc_out)) := flat_map (fun x => if metered (fst x) then [(fst x, a_gas (snd x))] else []) l.
  Definition outputs_of (l : list (N * acc_out)) := flat_map (fun x => if metered (fst x) then match a_yield (snd x) with Some h => [(fst x, h)] | None => [] end else []) l.
  Definition xfers_of (l : list (N * acc_out)) := flat_map (fun x => if metered (fst x) then a_xfers (snd x) else []) l.
  Record st (done : list (N * acc_out)) (o : round_out) : Prop := mk_st {
    s_ok : sb_ok G ch (u_sb (o_union o));
    s_made : forall s, In s (u_made (o_union o)) <-> exists t r, In (t, r) (worlds G base done) /\ makes d t r s;
    s_gone : forall s, In s (u_gone (o_union o)) <-> exists t r, In (t, r) (worlds G base done) /\ removes d t r s;
    s_world : exists w, merged d (worlds G base done) w /\ proper w /\ provided e (provs metered done) w (view G (u_sb (o_union o)));
    s_priv : inv q (rev (changed done)) (u_priv (o_union o));
    s_out : o_gas o = gas_of done /\ o_outputs o = outputs_of done /\ o_xfers o = xfers_of done }.
  Lemma worlds_app : forall a b, worlds G base (a ++ b) = worlds G base a ++ worlds G base b. Proof. intros. unfold worlds. apply map_app. Qed.
  Lemma worlds_in : forall l t r, In (t, r) (worlds G base l) -> exists a, In (t, a) l /\ r = left_by G base (a_sb a).
  Proof. intros l t r I. apply in_map_iff in I. destruct I as [[t0 a] [E I]]. injection E as <- <-. eauto. Qed.
  Lemma in_worlds : forall l t a, In (t, a) l -> In (t, left_by G base (a_sb a)) (worlds G base l).
  Proof. intros l t a I. apply in_map_iff. exists (t, a). auto. Qed.
  Lemma worlds_fst : forall l, map fst (worlds G base l) = map fst l. Proof. intros. unfold worlds. rewrite map_map. reflexivity. Qed.
  Lemma compat_sub : forall a b, compatible d (a ++ b) -> compatible d a.
  Proof. intros a b C t r t' r' s I I'. apply C; apply in_or_app; left; assumption. Qed.

  Lemma take_step : forall done t a o rest, NoDup (map fst (done ++ (t, a) :: rest)) -> (forall x b, In (x, b) (done ++ (t, a) :: rest) -> sound G ch base x b /\ from q x (a_priv b)) ->
    compatible d (worlds G base (done ++ (t, a) :: rest)) -> removed_quiet G base q (done ++ (t, a) :: rest) -> in_time G base metered (done ++ (t, a) :: rest) ->
    (forall s i, In (s, i) (provs metered (done ++ (t, a) :: rest)) -> N.of_nat (length i) < 2 ^ 32) -> apart e (provs metered (done ++ (t, a) :: rest)) ->
    st done o -> exists o', take G e base q metered (Ok o) (t, Some a) = Ok o' /\ st (done ++ [(t, a)]) o'.
  Proof.
    intros done t a o rest Nd So Co Qu Ti Le Ap [S1 S2 S3 [w [S4 [S5 S6]]] S7 [S8 [S9 S10]]]. set (r := left_by G base (a_sb a)). set (u := o_union o) in *.
    assert (Ia : In (t, a) (done ++ (t, a) :: rest)) by (apply in_or_app; right; left; reflexivity). destruct (So t a Ia) as [Sa Fa].
    assert (Nt : ~ In t (map fst done)). { rewrite map_app in Nd. cbn [map fst] in Nd. apply NoDup_remove_2 in Nd. intros X. apply Nd, in_or_app. left. exact X. }
    pose proof Sa as [_ Sp [_ [_ Ht]] _]. fold d in Ht. fold r in Sp.
    assert (Cd : compatible d (worlds G base done ++ [(t, r)])).
    { replace (done ++ (t, a) :: rest) with ((done ++ [(t, a)]) ++ rest) in Co by (rewrite <- app_assoc; reflexivity). rewrite worlds_app in Co. apply compat_sub in Co. rewrite worlds_app in Co. exact Co. }
    assert (Meta : forall s, has (view G (u_sb u)) s <-> has w s) by (intros s; unfold has; rewrite (proj1 S6); reflexivity).
    assert (Hd : forall t' r', In (t', r') (worlds G base done) -> has d t').
    { intros t' r' I. apply worlds_in in I. destruct I as [b [I _]]. destruct (So t' b) as [[_ _ [_ [_ X]] _] _]; [apply in_or_app; left; exact I | exact X]. }
    assert (Prv : provs metered (done ++ (t, a) :: rest) = (provs metered done ++ (if metered t then a_prov a else [])) ++ provs metered rest) by (unfold provs; rewrite flat_map_app; cbn [flat_map fst snd]; rewrite <- app_assoc; reflexivity).
    assert (Dw : worlds G base (done ++ [(t, a)]) = worlds G base done ++ [(t, r)]) by (rewrite worlds_app; reflexivity).
    (* the merge *)
    assert (Mg : exists u' w', merge G base q t u (a_sb a) (a_priv a) = Ok u' /\ sb_ok G ch (u_sb u') /\ (forall s, In s (u_made u') <-> exists t' r', In (t', r') (worlds G base (done ++ [(t, a)])) /\ makes d t' r' s) /\
      (forall s, In s (u_gone u') <-> exists t' r', In (t', r') (worlds G base (done ++ [(t, a)])) /\ removes d t' r' s) /\
      merged d (worlds G base (done ++ [(t, a)])) w' /\ proper w' /\ provided e (provs metered done) w' (view G (u_sb u')) /\ inv q (rev (changed (done ++ [(t, a)]))) (u_priv u')).
    { assert (Rev : rev (changed (done ++ [(t, a)])) = (t, a_priv a) :: rev (changed done)) by (unfold changed; rewrite map_app, rev_app_distr; reflexivity).
      assert (Nt' : ~ In t (map fst (rev (changed done)))) by (rewrite map_rev; intros X; apply in_rev in X; unfold changed in X; rewrite map_map in X; exact (Nt X)).
      destruct (has_dec w t) as [Hw|Hw].
      - (* there *) assert (Kept : forall t' r', In (t', r') (worlds G base done) -> ~ removes d t' r' t).
        { intros t' r' I Rm. destruct (S4 t) as [X _]. destruct X as [X _]; [eauto|]. apply Hw, X. }
        destruct (@step_inv q (rev (changed done)) (u_priv u) t (a_priv a) Q Nt' Fa S7) as [p' [Ep Ip]].
        destruct (@merge_ok G ch base q t u a p' Bok S1 Sa) as [u' [E [U1 [U2 [U3 [U4 [U5 U6]]]]]]]; [apply Meta, Hw | exact Ep | |].
        + intros s H. fold r d in H. split; intros I.
          * apply S2 in I. destruct I as [t' [r' [I Mk]]]. destruct H as [H|H]; [|destruct Mk as [_ [Mk _]], H as [_ [H _]]; contradiction].
            apply Nt. rewrite (Cd t r t' r' s); [rewrite <- worlds_fst; apply in_map_iff; exists (t', r'); auto | apply in_or_app; right; left; reflexivity | apply in_or_app; left; exact I | left; split; assumption].
          * apply S3 in I. destruct I as [t' [r' [I Mk]]]. destruct H as [H|H]; [destruct Mk as [_ [Mk _]], H as [_ [H _]]; contradiction|].
            apply Nt. rewrite (Cd t r t' r' s); [rewrite <- worlds_fst; apply in_map_iff; exists (t', r'); auto | apply in_or_app; right; left; reflexivity | apply in_or_app; left; exact I | right; split; assumption].
        + exists u', (merge_world d t r w). fold r d in U3, U4, U5, U6. split; [exact E|]. split; [exact U2|].
          assert (Snoc : forall (R : gstate -> N -> gstate -> N -> Prop) s, (exists t' r', In (t', r') (worlds G base (done ++ [(t, a)])) /\ R d t' r' s) <-> R d t r s \/ exists t' r', In (t', r') (worlds G base done) /\ R d t' r' s).
          { intros R0 s. rewrite Dw. split.
            - intros [t' [r' [I H]]]. apply in_app_or in I. destruct I as [I|[I|[]]]; [right; eauto|]. injection I as <- <-. left. exact H.
            - intros [H|[t' [r' [I H]]]]; [exists t, r; split; [apply in_or_app; right; left; reflexivity | exact H] | exists t', r'; split; [apply in_or_app; left; exact I | exact H]]. }
          split; [intros s; rewrite U3, S2, (Snoc makes); reflexivity|]. split; [intros s; rewrite U4, S3, (Snoc removes); reflexivity|].
          split; [rewrite Dw; apply merged_step; try assumption; rewrite worlds_fst; exact Nt|]. split; [apply merge_world_proper; assumption|]. split; [|rewrite Rev, U1; exact Ip].
          eapply provided_step; [exact S6|]. intros s. pose proof (merge_world_at d t r w s) as At. destruct (touched d t r s) eqn:T.
          * right. apply touched_iff in T. split; [eapply alike_trans; [apply U5, T | apply alike_sym, At]|]. destruct (has_dec r s) as [Hr|Hr]; [left | right; rewrite (alike_has At); exact Hr].
            intros i I. unfold provs in I. apply in_flat_map in I. destruct I as [[t0 a0] [I1 I2]]. cbn [fst snd] in I2. destruct (metered t0) eqn:M0; [|destruct I2].
            apply in_split in I1. destruct I1 as [l1 [l2 ->]]. destruct (Ti l1 t0 a0 (l2 ++ (t, a) :: rest) s i) as [Y1 Y2]; [rewrite <- app_assoc; reflexivity | exact M0 | exact I2|].
            destruct T as [->|[T|T]]; [apply Y1; rewrite map_app; apply in_or_app; right; left; reflexivity | | destruct T as [_ [_ T]]; contradiction].
            apply (Y2 t r); [rewrite worlds_app; apply in_or_app; right; left; reflexivity | exact T].
          * left. split; [exact At|]. apply U6. intros X. apply touched_iff in X. congruence.
      - (* gone *)
        assert (Rm : exists t' r', In (t', r') (worlds G base done) /\ removes d t' r' t).
        { destruct (existsb (fun x => if removes_dec d (fst x) (snd x) t then true else false) (worlds G base done)) eqn:X.
          - apply existsb_exists in X. destruct X as [[t' r'] [I X]]. cbn [fst snd] in X. destruct (removes_dec d t' r' t); [eauto | discriminate].
          - exfalso. apply Hw. assert (No : forall t' r', In (t', r') (worlds G base done) -> ~ removes d t' r' t).
            { intros t' r' I H. assert (Y : existsb (fun x => if removes_dec d (fst x) (snd x) t then true else false) (worlds G base done) = true); [|congruence]. apply existsb_exists. exists (t', r'). split; [exact I|]. cbn [fst snd]. destruct (removes_dec d t' r' t); [reflexivity | contradiction]. }
            destruct (S4 t) as [_ X2]. destruct (X2 No) as [_ [_ X3]]. apply (alike_has (X3 ltac:(rewrite worlds_fst; exact Nt) ltac:(intros t' r' I [_ [Z _]]; contradiction))). exact Ht. }
        pose proof Rm as [t' [r' [I0 R0]]].
        assert (Qt : quiet d q t r (a_priv a)) by (apply (Qu t' r' t a); [rewrite worlds_app; apply in_or_app; left; exact I0 | exact Ia | exact R0]). destruct Qt as [Qp Qm].
        assert (Hg : has G t).
        { apply worlds_in in I0. destruct I0 as [b [I0 ->]]. destruct (So t' b) as [[Sb1 Sb2 Sb3 Sb4] _]; [apply in_or_app; left; exact I0|]. destruct R0 as [R1 [R2 R3]].
          destruct (aget (a_sb b) t) as [x|] eqn:Ex.
          - destruct (proj2 Sb1 t x Ex) as [M _]. unfold md_ok in M. assert (Vn : se_val (b_md x) = None) by (rewrite (alike_has (left_in G base _ _ Ex)) in R3; apply not_has in R3; cbn [view g_meta] in R3; unfold vmeta in R3; rewrite Ex in R3; exact R3).
            destruct (se_status (b_md x)); [destruct M; congruence | destruct M as [M _]; congruence | destruct M as [M _]; congruence | apply M].
          - rewrite (alike_has (@left_out G base _ t Ex)) in R3. contradiction. }
        destruct (@merge_skip G ch base q t u a S1) as [sb [E [A V]]]; [rewrite Meta; exact Hw | exact Hg|].
        exists (mk_union sb (u_priv u) (u_made u) (u_gone u)), w. cbn [u_sb u_made u_gone u_priv]. split; [exact E|]. split; [exact A|].
        assert (Snoc : forall (R : gstate -> N -> gstate -> N -> Prop) s, ~ R d t r s -> ((exists t' r', In (t', r') (worlds G base (done ++ [(t, a)])) /\ R d t' r' s) <-> exists t' r', In (t', r') (worlds G base done) /\ R d t' r' s)).
        { intros R1 s Nr. rewrite Dw. split.
          - intros [x [y [I H]]]. apply in_app_or in I. destruct I as [I|[I|[]]]; [eauto|]. injection I as <- <-. contradiction.
          - intros [x [y [I H]]]. exists x, y. split; [apply in_or_app; left; exact I | exact H]. }
        split; [intros s; rewrite S2, (Snoc makes s (proj1 (Qm s))); reflexivity|]. split; [intros s; rewrite S3, (Snoc removes s (proj2 (Qm s))); reflexivity|].
        split; [rewrite Dw; apply merged_skip; auto|]. split; [exact S5|]. split.
        + eapply provided_step; [exact S6|]. intros s. left. split; [apply alike_refl | apply same_alike, V].
        + rewrite Rev, Qp. apply inv_skip; assumption. }
    destruct Mg as [u' [w' [E [M1 [M2 [M3 [M4 [M5 [M6 M7]]]]]]]]]. unfold take. cbn [bind]. fold u. rewrite E. cbn [bind].
    assert (Gs : forall {B : Type} (f : N * acc_out -> list B), flat_map f (done ++ [(t, a)]) = flat_map f done ++ f (t, a)) by (intros B f; rewrite flat_map_app; cbn [flat_map]; rewrite app_nil_r; reflexivity).
    destruct (metered t) eqn:Mt.
    - destruct (@provide_ok G ch e (a_prov a) (u_sb u') (provs metered done) w' Gp M5 M1 M6) as [sb' [Ep [Ap' Pp]]].
      + intros s i I. apply (Le s). rewrite Prv. apply in_or_app. left. apply in_or_app. right. exact I.
      + intros s i s' i' I I'. rewrite Prv in Ap. apply Ap with (s := s) (s' := s'); apply in_or_app; left; assumption.
      + rewrite Ep. cbn [bind]. eexists. split; [reflexivity|]. split; cbn [o_union u_sb u_made u_gone u_priv o_gas o_outputs o_xfers]; try assumption.
        * exists w'. split; [exact M4|]. split; [exact M5|]. unfold provs. rewrite Gs. cbn [fst snd]. rewrite Mt. exact Pp.
        * unfold gas_of, outputs_of, xfers_of. rewrite !Gs. cbn [fst snd]. rewrite Mt, S8, S9, S10. split; [reflexivity|]. split; [destruct (a_yield a); rewrite ?app_nil_r; reflexivity | reflexivity].
    - eexists. split; [reflexivity|]. split; cbn [o_union u_sb u_made u_gone u_priv o_gas o_outputs o_xfers]; try assumption.
      + exists w'. split; [exact M4|]. split; [exact M5|]. unfold provs. rewrite Gs. cbn [fst snd]. rewrite Mt, app_nil_r. exact M6.
      + unfold gas_of, outputs_of, xfers_of. rewrite !Gs. cbn [fst snd]. rewrite Mt, !app_nil_r. auto.
  Qed.
  Lemma take_all : forall l done o, NoDup (map fst (done ++ l)) -> (forall x b, In (x, b) (done ++ l) -> sound G ch base x b /\ from q x (a_priv b)) ->
    compatible d (worlds G base (done ++ l)) -> removed_quiet G base q (done ++ l) -> in_time G base metered (done ++ l) ->
    (forall s i, In (s, i) (provs metered (done ++ l)) -> N.of_nat (length i) < 2 ^ 32) -> apart e (provs metered (done ++ l)) ->
    st done o -> exists o', fold_left (take G e base q metered) (map (fun x => (fst x, Some (snd x))) l) (Ok o) = Ok o' /\ st (done ++ l) o'.
  Proof.
    induction l as [|[t a] l IH]; intros done o H1 H2 H3 H4 H5 H6 H7 S; [exists o; split; [reflexivity | rewrite app_nil_r; exact S]|]. cbn [map fold_left fst snd].
    destruct (@take_step done t a o l H1 H2 H3 H4 H5 H6 H7 S) as [o1 [E1 S1]]. rewrite E1.
    replace (done ++ (t, a) :: l) with ((done ++ [(t, a)]) ++ l) in * by (rewrite <- app_assoc; reflexivity). apply IH; assumption.
  Qed.
  Theorem round_ok : forall results, let l := ran results in NoDup (map fst l) -> (forall t a, In (t, a) l -> sound G ch base t a /\ from q t (a_priv a)) ->
    compatible d (worlds G base l) -> removed_quiet G base q l -> in_time G base metered l -> (forall s i, In (s, i) (provs metered l) -> N.of_nat (length i) < 2 ^ 32) -> apart e (provs metered l) ->
    exists o u0, round G e metered base q results = Ok o /\ u_priv (o_union o) = confirm u0 /\ inv q (rev (changed l)) u0 /\ sb_ok G ch (u_sb (o_union o)) /\
      (exists w, merged d (worlds G base l) w /\ proper w /\ provided e (provs metered l) w (view G (u_sb (o_union o)))) /\
      o_gas o = gas_of l /\ o_outputs o = outputs_of l /\ o_xfers o = xfers_of l.
  Proof.
    intros results l H1 H2 H3 H4 H5 H6 H7. unfold round. rewrite take_ran. fold l.
    destruct (@take_all l [] (mk_rout (mk_union base q [] []) [] [] []) H1 H2 H3 H4 H5 H6 H7) as [o [E [S1 S2 S3 S4 S5 S6]]].
    - split; cbn [o_union u_sb u_made u_gone u_priv o_gas o_outputs o_xfers]; try assumption.
      + intros s. split; [intros [] | intros [t [r [[] _]]]].
      + intros s. split; [intros [] | intros [t [r [[] _]]]].
      + exists d. split; [apply merged_nil|]. split; [exact Dp|]. split; [reflexivity|]. split; [intros s i [] | reflexivity].
      + apply inv_start, Q.
      + repeat split.
    - rewrite E. cbn [bind]. do 2 eexists. split; [reflexivity|]. cbn [o_union u_sb u_priv o_gas o_outputs o_xfers]. split; [reflexivity|]. cbn [app] in *. auto.
  Qed.
End Round.
