(** One service's accumulation gives a result as the merge wants it. *)
From Verif Require Import Base Base_Proofs PvmMem_Model PvmProg_Model PvmStep_Model PvmInit_Model Codec_Model Sandbox_Model Sandbox_Spec Sandbox_Proofs Host_Model Host_Spec Host_Proofs Host4_Proofs Host5_Proofs Host6_Proofs Host7_Proofs
  Acc_Model Acc_Spec Acc_Proofs Acc2_Proofs Round_Model Round_Spec Round2_Spec Round4_Proofs Round9_Proofs.
Set Implicit Arguments.
Open Scope N_scope.

(** The accounts other than [t]'s are as they were, or were of the state and are gone *)
Definition left_alone (G d : gstate) (t : N) (sb : accounts) : Prop :=
  forall s, s <> t -> has d s -> account_eq (view G sb) d s \/ (has G s /\ ~ has (view G sb) s /\ exists m, g_meta d s = Some m /\ m_code m = given_to t).
Lemma host_alone : forall G ch e n s c h c' d, ready G ch e c -> permitted G ch (seen G (fst c)) n s -> host (stp G) e n s c = Ok (h, c') -> young e G d ->
  left_alone G d (r_host (snd (fst c))) (fst (fst c)) -> left_alone G d (r_host (snd (fst c))) (fst (fst c')).
Proof.
  intros G ch e n s c h c' d R P E Y K x Dx Hx. destruct (@host_kept G ch e n s c h c' R P E) as [[_ Aw] _]. destruct (K x Dx Hx) as [A|[A [B B2]]]; [|right; split; [exact A | split; [apply Aw; assumption | exact B2]]].
  destruct (@one_step G ch e n s c h c' R P E) as [[-> Q]|[N17 [x' [St [Er Sm]]]]]; [rewrite Q; left; exact A|].
  assert (T : tidy e (seen G (fst c))) by (destruct R as [_ [_ [_ [_ [T _]]]]]; exact T).
  assert (Hc : g_meta (fst (seen G (fst c))) x <> None) by (cbn [seen fst]; rewrite (proj1 A); exact Hx).
  destruct (step_isolated T St Dx) as [I|[[I _]|[I Ic]]].
  - left. eapply aeq_trans; [apply same_aeq; exact Sm|]. eapply aeq_trans; [exact I | exact A].
  - contradiction.
  - right. assert (Z : ~ has (view G (fst (fst c'))) x) by (unfold has; rewrite (proj1 Sm), I; intros F; apply F; reflexivity). split; [|split; [exact Z|]]; [|destruct Ic as [mm [Im Ic]]; exists mm; split; [rewrite <- (proj1 A); exact Im | exact Ic]].
    destruct (has_dec G x) as [Hg|Hg]; [exact Hg|]. exfalso. destruct (step_removed T St Dx Hc I) as [h0 [len [a [y [L1 L2]]]]]. cbn [seen fst] in L1. rewrite (proj2 A) in L1. pose proof (Y x h0 len a y Hx Hg L1). lia.
Qed.
Lemma calls_alone : forall G ch e d t l c hs c', ready G ch e c -> permitted_run G ch e l c -> host_calls (stp G) e l c = Ok (hs, c') -> young e G d -> t = r_host (snd (fst c)) ->
  left_alone G d t (fst (fst c)) -> left_alone G d t (fst (snd c)) -> left_alone G d t (fst (fst c')) /\ left_alone G d t (fst (snd c')).
Proof.
  intros G ch e d t. induction l as [|[n s] l IH]; intros c hs c' R P E Y Et K1 K2; cbn [host_calls] in E; [inversion E; subst; auto|]. destruct P as [P0 P].
  destruct (host (stp G) e n s c) as [[h c1]|x|] eqn:Eh; try discriminate. cbn [bind] in E. destruct (host_calls (stp G) e l c1) as [[hs1 c2]|x|] eqn:El; try discriminate. cbn [bind] in E. inversion E; subst.
  destruct (@host_kept G ch e n s c h c1 R P0 Eh) as [_ H3]. destruct (@one G ch e n s c h c1 R P0 Eh) as [X' [GP [R1 [S1 S2]]]].
  assert (Eh' : r_host (snd (fst c)) = r_host (snd (fst c1))).
  { destruct (@one_step G ch e n s c h c1 R P0 Eh) as [[_ ->]|[_ [x' [St [Er _]]]]]; [reflexivity|]. rewrite Er. symmetry. apply (proj2 (@tidy_step e n s (seen G (fst c)) h x' (proj1 (proj2 (proj2 (proj2 (proj2 R))))) St)). }
  apply (IH c1 hs1 c' R1 (P _ _ eq_refl) El Y Eh').
  - eapply host_alone; eassumption.
  - destruct H3 as [->| ->]; assumption.
Qed.
Lemma calls_host : forall G ch e l c hs c', ready G ch e c -> permitted_run G ch e l c -> host_calls (stp G) e l c = Ok (hs, c') -> r_host (snd (fst c')) = r_host (snd (fst c)).
Proof.
  intros G ch e. induction l as [|[n s] l IH]; intros c hs c' R P E; cbn [host_calls] in E; [inversion E; subst; auto|]. destruct P as [P0 P].
  destruct (host (stp G) e n s c) as [[h c1]|x|] eqn:Eh; try discriminate. cbn [bind] in E. destruct (host_calls (stp G) e l c1) as [[hs1 c2]|x|] eqn:El; try discriminate. cbn [bind] in E. inversion E; subst.
  destruct (@one G ch e n s c h c1 R P0 Eh) as [X' [GP [R1 [S1 S2]]]]. rewrite (IH c1 hs1 c' R1 (P _ _ eq_refl) El).
  destruct (@one_step G ch e n s c h c1 R P0 Eh) as [[_ ->]|[_ [x' [St [Er _]]]]]; [reflexivity|]. rewrite Er. apply (proj2 (@tidy_step e n s (seen G (fst c)) h x' (proj1 (proj2 (proj2 (proj2 (proj2 R))))) St)).
Qed.

Lemma left_proper : forall G base rsb, proper (view G base) -> proper (view G rsb) -> proper (left_by G base rsb).
Proof. intros G base rsb A B s H k. cbn [left_by g_meta g_ent] in *. destruct (aget rsb s); [apply (B s H k) | apply (A s H k)]. Qed.
Lemma none_empty : forall w s, proper w -> ~ has w s -> empty s w. Proof. intros w s P H. split; [apply not_has, H | apply P, not_has, H]. Qed.
(** What is left is what the sandbox shows *)
Lemma left_view : forall G ch base rsb t, proper G -> proper (view G base) -> proper (view G rsb) -> sb_ok G ch base -> kept G base rsb -> left_alone G (view G base) t rsb -> aget rsb t <> None ->
  forall s, alike s (left_by G base rsb) (view G rsb).
Proof.
  intros G ch base rsb t PG Pb Pr Ob K L T s. destruct (aget rsb s) as [b|] eqn:E; [eapply left_in; exact E|]. eapply alike_trans; [apply left_out; exact E|].
  assert (V : alike s (view G rsb) G) by (split; intros; cbn [view g_meta g_ent]; [unfold vmeta | unfold vent]; rewrite E; reflexivity).
  eapply alike_trans; [|apply alike_sym; exact V].
  destruct (aget base s) as [bb|] eqn:Eb; [|split; intros; cbn [view g_meta g_ent]; [unfold vmeta | unfold vent]; rewrite Eb; reflexivity].
  assert (NG : ~ has G s) by (intros X; apply (K s X); [rewrite Eb; discriminate | exact E]).
  assert (Dt : s <> t) by (intros ->; contradiction).
  assert (NB : ~ has (view G base) s).
  { intros X. destruct (L s Dt X) as [[A _]|[A _]]; [|contradiction]. apply NG. unfold has in *. rewrite <- (proj1 V), A. exact X. }
  apply empty_alike; apply none_empty; assumption.
Qed.
Lemma alone_work : forall G d t sb r, proper d -> proper r -> (forall s, alike s r (view G sb)) -> left_alone G d t sb -> own_work d t r.
Proof.
  intros G d t sb r Pd Pr V L s Ds. destruct (has_dec d s) as [H|H].
  - destruct (L s Ds H) as [A|[_ [A B]]]; [left; eapply alike_trans; [apply V | exact A]|]. right. right. split; [|exact B]. split; [congruence|]. split; [exact H|]. rewrite (alike_has (V s)). exact A.
  - destruct (has_dec r s) as [H2|H2]; [right; left; split; [congruence | auto]|]. left. apply empty_alike; apply none_empty; assumption.
Qed.

Theorem accumulate_sound : forall fuel G ch e base q t recv inputs limit entropy out,
  proper G -> sb_ok G ch base -> In t ch -> e_now e + e_expiry e < 2 ^ 32 -> settled e (view G base) t -> young e G (view G base) -> e_cores e = N.of_nat (length (p_assign q)) ->
  used_well fuel G ch e base q t recv inputs limit entropy ->
  accumulate fuel G e base q t recv inputs limit entropy = Some (Ok (Some out)) ->
  let d := view G base in let r := left_by G base (a_sb out) in
  sound G ch base t out /\ from_calls q t (a_priv out) /\ own_work d t r /\
  (forall v, holds d v -> exists v', holds r v' /\ v' + sum (map t_amount (a_xfers out)) = v + recv) /\
  settled e r t /\ (forall m, g_meta d t = Some m -> g_ent d t (KPreimage (m_code m)) = None -> out = mk_acc (a_sb out) q [] None 0 [] /\ forall s, s <> t -> alike s r d) /\ (extra e G d -> extra e G r).
Proof.
  intros fuel G ch e base q t recv inputs limit entropy out PG O I Eo St Y Ec U H d r.
  destruct (@accumulate_full fuel G ch e base q t recv inputs limit entropy out PG O I Eo St H) as [m [M C]]. fold d in M, C.
  assert (Td : exists p i, tidy e (d, mk_rest t p i [] None [])) by exact St. destruct Td as [p0 [i0 Td]]. pose proof (td_proper _ _ Td) as Pd. cbn [fst] in Pd.
  destruct (td_host _ _ Td) as [mt [Mt _]]. cbn [fst snd r_host] in Mt. pose proof (proper_received t recv Pd) as Pw.
  assert (Ht : has d t) by (unfold has; rewrite Mt; discriminate).
  destruct C as [[Eq [At [Go [Ob [Dom _]]]]]|[v [code [o [c0 [x [y [l [hs [Gv [_ [_ [Fr [Rd [Kp [Ct [Inv [Hc [_ [Esb [Epr [Exf [Epv _]]]]]]]]]]]]]]]]]]]]]]].
  - (* it did not run *)
    assert (V : forall s, alike s r (received d t recv)).
    { intros s. destruct (N.eq_dec s t) as [->|Ds].
      - destruct (aget (a_sb out) t) as [b|] eqn:Et; [|exfalso; apply (proj2 (Dom t) eq_refl), Et]. eapply alike_trans; [eapply left_in; exact Et | exact At].
      - assert (En : aget (a_sb out) s = None) by (destruct (aget (a_sb out) s) eqn:En; [exfalso; apply Ds, Dom; rewrite En; discriminate | reflexivity]).
        eapply alike_trans; [apply left_out; exact En|]. split; intros; unfold received; cbn [with_meta g_meta g_ent]; [|reflexivity]. destruct (N.eqb_spec s t); [contradiction | reflexivity]. }
    assert (Hr : has r t) by (apply (alike_has (V t)); unfold has; rewrite M; discriminate).
    assert (Pr : proper r). { intros s Hs k. rewrite (proj2 (V s)). apply Pw. rewrite <- (proj1 (V s)). exact Hs. }
    assert (Off : forall s, s <> t -> alike s r d).
    { intros s Ds. eapply alike_trans; [apply V|]. split; intros; unfold received; cbn [with_meta g_meta g_ent]; [|reflexivity]. destruct (N.eqb_spec s t); [contradiction | reflexivity]. }
    split; [split|split; [|split; [|split; [|split; [|split]]]]].
    + exact Ob.
    + exact Pr.
    + split; [|split; assumption]. destruct (in_dec N.eq_dec t (map fst (a_sb out))) as [J|J]; [exact J|]. exfalso. apply (proj2 (Dom t) eq_refl). apply mget_None. exact J.
    + intros s Ds Hg Hb X. apply Hb. apply (alike_has (Off s Ds)). exact X.
    + rewrite Eq. cbn [a_priv]. exists accounts, (stp G), e, [], base, 0, [], ((base, mk_rest t q 0 [] None []), (base, mk_rest t q 0 [] None [])). split; [exact Ec|]. split; [reflexivity | left; reflexivity].
    + intros s Ds. left. apply Off, Ds.
    + intros v V0. exists (v + recv). split; [|rewrite Eq; cbn [a_xfers map sum]; lia]. eapply holds_ext; [|eapply holds_received; [exact V0 | exact Mt]]. intros s. apply (V s).
    + destruct (@settled_received e d t q (first e t entropy) recv St) as [Td' [[j Jf] _]].
      destruct (@settled_received e d t q j recv St) as [Tj _]. assert (Ff : first_free (received d t recv) j j).
      { destruct Jf as [[J1 J2] J3]. exists 0. split; [|split; [exact J3 | intros l Hl; lia]]. unfold cyc. rewrite N.add_0_r. change (2 ^ 32) with 4294967296 in *. change (2 ^ 16) with 65536 in *. change (2 ^ 8) with 256 in *. rewrite N.mod_small by lia. lia. }
      exists q, j. eapply tidy_same; [apply (Tj j Ff) | apply alike_same, V | reflexivity | reflexivity].
    + intros _ _ _. split; [exact Eq | exact Off].
    + intros X. apply (@extra_same e G (received d t recv)); [apply same_sym, alike_same, V | apply extra_received, X].
  - (* it ran *)
    destruct Kp as [Kp Bg]. pose proof (U code c0 (a_gas out) o (x, y) l Bg Inv) as Pm. destruct Fr as [Sm [i [_ Er]]].
    assert (L0 : left_alone G d t (fst c0)).
    { intros s Ds Hs. left. eapply aeq_trans; [apply same_aeq; exact Sm|]. apply aeq_meta. exact Ds. }
    assert (A0 : away G base (fst c0)).
    { intros s Hg Hb X. apply Hb. unfold has in *. rewrite (proj1 Sm) in X. unfold received in X. cbn [with_meta g_meta] in X. destruct (N.eqb_spec s t) as [->|]; [exact Ht | exact X]. }
    assert (Eh : t = r_host (snd (fst (c0, c0)))) by (cbn [fst]; rewrite Er; reflexivity).
    destruct (@calls_kept G ch e base l (c0, c0) hs (x, y) Rd Pm Hc) as [[K1 A1] [K2 A2]]; [split; assumption | split; assumption|]. cbn [fst snd] in K1, A1, K2, A2.
    destruct (@calls_kept G ch e (fst c0) l (c0, c0) hs (x, y) Rd Pm Hc) as [[J1 _] [J2 _]]; [split; [apply kept_refl | apply away_refl] | split; [apply kept_refl | apply away_refl]|]. cbn [fst snd] in J1, J2.
    destruct (@calls_alone G ch e d t l (c0, c0) hs (x, y) Rd Pm Hc Y Eh L0 L0) as [L1 L2]. cbn [fst snd] in L1, L2.
    pose proof (@calls_ready G ch e l (c0, c0) hs (x, y) Rd Pm Hc) as Re. pose proof (@calls_host G ch e l (c0, c0) hs (x, y) Rd Pm Hc) as Hh. rewrite <- Eh in Hh. cbn [fst snd] in Hh.
    destruct Re as [_ [_ [_ [O1 [T1 [O2 [T2 Hy]]]]]]]. cbn [fst snd] in O1, T1, O2, T2, Hy. rewrite Hh in Hy.
    assert (Z : let z := result_from o x y in sb_ok G ch (fst z) /\ tidy e (seen G z) /\ r_host (snd z) = t /\ kept G base (fst z) /\ away G base (fst z) /\ left_alone G d t (fst z) /\ kept G (fst c0) (fst z)).
    { destruct o; cbn [result_from]; repeat (split; [assumption|]); assumption. }
    cbn zeta in Z. pose proof (fun v => @trace_conserves G ch e c0 l hs x y o (received d t recv) v Rd Pm Hc Sm) as Cs.
    assert (Pz : a_priv out = r_priv (snd x) \/ a_priv out = r_priv (snd y)) by (rewrite Epr; destruct o; cbn [result_from]; auto).
    subst r. rewrite Esb, Exf. set (z := result_from o x y) in *. destruct Z as [Oz [Tz [Hz [Kz [Az [Lz Jz]]]]]]. set (r := left_by G base (fst z)).
    assert (Tin : aget (fst z) t <> None).
    { destruct (has_dec G t) as [Hg|Hg]; [apply (Jz t Hg Ct)|]. intros X. destruct (td_host _ _ Tz) as [mz [Mz _]]. cbn [seen fst snd] in Mz. rewrite Hz in Mz. cbn [view g_meta] in Mz. unfold vmeta in Mz. rewrite X in Mz. apply Hg. unfold has. rewrite Mz. discriminate. }
    pose proof (td_proper _ _ Tz) as Pv. cbn [seen fst] in Pv.
    assert (V : forall s, alike s r (view G (fst z))) by (eapply left_view; eassumption).
    assert (Pr : proper r) by (apply left_proper; assumption).
    assert (Hr : has r t). { apply (alike_has (V t)). destruct (td_host _ _ Tz) as [mz [Mz _]]. cbn [seen fst snd] in Mz. rewrite Hz in Mz. unfold has. rewrite Mz. discriminate. }
    split; [split|split; [|split; [|split; [|split; [|split]]]]]; rewrite ?Esb.
    + exact Oz.
    + exact Pr.
    + split; [|split; assumption]. destruct (in_dec N.eq_dec t (map fst (fst z))) as [J|J]; [exact J|]. exfalso. apply Tin. apply mget_None. exact J.
    + intros s Ds Hg Hb X. apply (Az s Hg Hb). apply (alike_has (V s)). exact X.
    + destruct c0 as [sb0 r0]. cbn [snd] in Er. subst r0. exists accounts, (stp G), e, l, sb0, i, hs, (x, y). split; [exact Ec|]. split; [exact Hc | exact Pz].
    + eapply alone_work; eassumption.
    + intros v0 V0. destruct (Cs (v0 + recv)) as [v' [C1 C2]]; [rewrite Er; reflexivity | eapply holds_received; [exact V0 | exact Mt]|]. exists v'. split; [|exact C2]. eapply holds_ext; [|exact C1]. intros s. apply (V s).
    + exists q, (r_next (snd z)). eapply (@tidy_same e (view G (fst z)) r (snd z)); [exact Tz | apply alike_same, V | rewrite Hz; reflexivity | reflexivity].
    + intros m' M' N'. exfalso. rewrite Mt in M'. inversion M'; subst m'. unfold received in M, Gv. cbn [with_meta g_meta g_ent] in M, Gv. rewrite N.eqb_refl, Mt in M. cbn [option_map] in M. inversion M; subst m. cbn [set_balance m_code] in Gv. congruence.
    + intros X. assert (X0 : extra e G (view G (fst c0))) by (apply (@extra_same e G (received d t recv)); [apply same_sym, Sm | apply extra_received, X]).
      destruct (@calls_extra G ch e l (c0, c0) hs (x, y) Rd Pm Hc X0 X0) as [X1 X2]. cbn [fst snd] in X1, X2. apply (@extra_same e G (view G (fst z))); [apply same_sym, alike_same, V|]. subst z. destruct o; cbn [result_from]; assumption.
Qed.
