(** The accounts a sandbox knows of: only a new account leaves it. *)
From Verif Require Import Base Base_Proofs PvmMem_Model PvmProg_Model PvmStep_Model Sandbox_Model Sandbox_Spec Sandbox_Proofs Host_Model Host_Spec Host_Proofs Host2_Proofs Host3_Proofs Host4_Proofs Host5_Proofs Host6_Proofs.
Set Implicit Arguments.
Open Scope N_scope.

Definition kept (G : gstate) (a b : accounts) : Prop := forall s, has G s -> aget a s <> None -> aget b s <> None.
(** What the state has and the sandbox does not show stays away *)
Definition away (G : gstate) (a b : accounts) : Prop := forall s, has G s -> ~ has (view G a) s -> ~ has (view G b) s.
Lemma kept_refl : forall G a, kept G a a. Proof. intros G a s _ H. exact H. Qed.
Lemma kept_trans : forall G a b c, kept G a b -> kept G b c -> kept G a c. Proof. intros G a b c A B s H K. apply B; [exact H | apply A; assumption]. Qed.
Lemma away_refl : forall G a, away G a a. Proof. intros G a s _ H. exact H. Qed.
Lemma away_trans : forall G a b c, away G a b -> away G b c -> away G a c. Proof. intros G a b c A B s H K. apply B; [exact H | apply A; assumption]. Qed.
Lemma kept_set : forall G a s b, kept G a (aset a s b). Proof. intros G a s b x _ H. rewrite mget_mset. destruct (N.eq_dec s x); [discriminate | exact H]. Qed.
Lemma kept_ensure : forall G a s, kept G a (ensure G a s). Proof. intros G a s. unfold ensure. destruct (aget a s); [apply kept_refl|]. destruct (g_meta G s); [apply kept_set | apply kept_refl]. Qed.
Lemma kept_after : forall G a s b, kept G a (aset (ensure G a s) s b). Proof. intros. eapply kept_trans; [apply kept_ensure | apply kept_set]. Qed.
Lemma kept_get : forall G a s k, kept G a (fst (get_entry G a s k)).
Proof. intros. unfold get_entry. destruct (aget (ensure G a s) s); [|apply kept_ensure]. destruct (get_or_load _ _ _). apply kept_after. Qed.
Lemma kept_insert : forall G a s k v, kept G a (fst (insert_entry G a s k v)).
Proof. intros. unfold insert_entry. destruct (aget (ensure G a s) s); [|apply kept_ensure]. destruct (get_or_load _ _ _). apply kept_after. Qed.
Lemma kept_remove : forall G a s k, kept G a (fst (remove_entry G a s k)).
Proof.
  intros. unfold remove_entry. destruct (aget (ensure G a s) s); [|apply kept_ensure]. destruct (get_or_load _ _ _) as [m [e|]]; [destruct (se_val e); [destruct (clean_of e)|]|]; apply kept_after.
Qed.
Lemma step_kept : forall G ch sb o, sb_ok G ch sb -> (forall s h len, o = Eject s h len -> has G s -> ~ In s ch) -> kept G sb (fst (step G sb o)).
Proof.
  intros G ch sb o A L. destruct o; cbn [step].
  - apply kept_refl.
  - apply kept_ensure.
  - apply kept_ensure.
  - unfold change_meta. destruct (aget (ensure G sb s) s) as [b|]; [|apply kept_ensure]. destruct (se_val (b_md b)) as [m|]; [|apply kept_ensure]. destruct (f m); [apply kept_after | apply kept_ensure].
  - pose proof (@kept_get G sb s k) as X. destruct (get_entry G sb s k). exact X.
  - pose proof (@kept_insert G sb s k v) as X. destruct (insert_entry G sb s k v) as [y [z|z|]]; exact X.
  - pose proof (@kept_remove G sb s k) as X. destruct (remove_entry G sb s k). exact X.
  - unfold extend_slots. pose proof (@kept_get G sb s (KLookup h len)) as X. destruct (get_entry G sb s (KLookup h len)) as [y [l|]]; [|exact X]. destruct (_ <=? _)%nat; [|exact X]. eapply kept_trans; [exact X | apply kept_insert].
  - unfold drain_slots. pose proof (@kept_get G sb s (KLookup h len)) as X. destruct (get_entry G sb s (KLookup h len)) as [y [l|]]; [|exact X]. eapply kept_trans; [exact X | apply kept_insert].
  - unfold eject_account, get_meta, get_meta_clean. pose proof (@kept_ensure G sb s) as K. pose proof (ensure_ok s A) as B.
    destruct (aget (ensure G sb s) s) as [b|] eqn:E; [|exact K]. destruct (se_val (b_md b)) as [m|] eqn:V; [|exact K]. rewrite (ensure_idem G _ s E), E.
    destruct (clean_of (b_md b)) as [c|] eqn:C.
    + pose proof (@kept_remove G (ensure G sb s) s (KPreimage h)) as K2. destruct (remove_entry G (ensure G sb s) s (KPreimage h)) as [sb2 o2]. cbn [fst] in K2.
      pose proof (@kept_remove G sb2 s (KLookup h len)) as K3. destruct (remove_entry G sb2 s (KLookup h len)) as [sb3 o3]. cbn [fst] in K3.
      assert (K4 : kept G sb sb3) by (eapply kept_trans; [exact K | eapply kept_trans; eassumption]). destruct (aget (ensure G sb3 s) s); cbn [fst].
      * eapply kept_trans; [exact K4 | apply kept_after].
      * exact K4.
    + cbn [fst]. intros x Hx Kx. rewrite mget_mdel. destruct (N.eq_dec s x) as [<-|]; [|apply K; assumption]. exfalso. destruct (proj2 B _ _ E) as [Q _]. red in Q. unfold clean_of in C. destruct (se_status (b_md b)).
      * congruence. * destruct Q as [_ [Q _]]. apply Hx, Q. * destruct Q as [_ [_ Q]]. apply (L s h len eq_refl Hx Q). * destruct Q. congruence.
  - unfold new_account. pose proof (@kept_insert G (aset sb s (mk_asb (new_added m) [])) s (KLookup h len) []) as X. destruct (insert_entry G (aset sb s (mk_asb (new_added m) [])) s (KLookup h len) []) as [y [z|z|]]; (eapply kept_trans; [apply kept_set | exact X]).
Qed.
Lemma next_away : forall G ch w o s, allowed G ch w o -> has G s -> ~ has w s -> ~ has (fst (next w o)) s.
Proof.
  intros G ch w o x A H K. unfold has in *. destruct o; cbn [next fst] in *; try exact K.
  - destruct (g_meta w s) as [m|] eqn:M; [|exact K]. destruct (f m); [|exact K]. cbn [fst with_meta g_meta]. destruct (N.eqb_spec x s) as [->|]; [exfalso; apply K; rewrite M; discriminate | exact K].
  - destruct (g_ent w s (KLookup h len)); [|exact K]. destruct (_ <=? _)%nat; exact K.
  - destruct (g_ent w s (KLookup h len)); exact K.
  - cbn [without g_meta]. destruct (x =? s); [intros X; apply X; reflexivity | exact K].
  - cbn [with_ent with_meta without g_meta]. destruct (N.eqb_spec x s) as [->|]; [contradiction | exact K].
Qed.
Lemma wp_kept : forall R (p : aprog R) G ch sb w (Q : gstate -> R -> Prop), proper G -> proper w -> sb_ok G ch sb -> same (view G sb) w -> wp G ch p w Q ->
  kept G sb (fst (exec (stp G) p sb)) /\ away G sb (fst (exec (stp G) p sb)).
Proof.
  induction p as [r|o k IH]; intros G ch sb w Q P W A V H; [split; [apply kept_refl | apply away_refl]|]. cbn [wp] in H. destruct H as [L [I H]]. cbn [exec].
  destruct (@step_ok G ch sb w o P W A V L) as [A1 [V1 R1]]. pose proof (@next_proper G ch w o W L) as W1.
  assert (K : kept G sb (fst (stp G sb o))) by (apply (@step_kept G ch); [exact A | intros s h len -> Hg; cbn [allowed] in L; apply L, Hg]).
  assert (Aw : away G sb (fst (stp G sb o))).
  { intros s Hg Hn. assert (X : ~ has (fst (next w o)) s) by (eapply next_away; [exact L | exact Hg|]; unfold has in *; rewrite <- (proj1 V); exact Hn). unfold has in *. rewrite (proj1 V1). exact X. }
  destruct (stp G sb o) as [sb1 x]. cbn [fst snd] in *. subst x.
  assert (A2 : sb_ok G ch sb1) by (eapply sb_ok_incl; [|exact A1]; apply incl_app; [assumption | apply incl_refl]).
  destruct (IH _ G ch sb1 _ Q P W1 A2 V1 H) as [K2 Aw2]. split; [eapply kept_trans | eapply away_trans]; eassumption.
Qed.
Lemma host_kept : forall G ch e n s c h c', ready G ch e c -> permitted G ch (seen G (fst c)) n s -> host (stp G) e n s c = Ok (h, c') ->
  (kept G (fst (fst c)) (fst (fst c')) /\ away G (fst (fst c)) (fst (fst c'))) /\ (snd c' = snd c \/ snd c' = fst c).
Proof.
  intros G ch e n s [[sb r] [sb2 r2]] h c' [PG [Eo [I [O1 [T1 [O2 [T2 Hh]]]]]]] Pm E. cbn [fst snd] in *. unfold host in E. destruct (N.eqb_spec n 17) as [->|N17].
  - destruct (v_gas s <? 10)%Z; inversion E; subst; cbn [fst snd]; (split; [split; [apply kept_refl | apply away_refl]|]); auto.
  - destruct (td_host _ _ T1) as [m [M Sol]]. cbn [seen fst snd] in *.
    assert (W : wp G ch (call e n s r) (view G sb) (post (gp e n s m (view G sb, r)) (view G sb, r))).
    { destruct Pm as [Ml [Gs [Ft Rest]]] eqn:PE. apply call_ok; try assumption. }
    pose proof (@wp_kept _ _ G ch sb (view G sb) _ PG (td_proper _ _ T1) O1 (same_refl _) W) as K.
    destruct (exec (stp G) (call e n s r) sb) as [sb' [[h' r']|x|]]; cbn [fst] in *; inversion E; subst; cbn [fst snd]. split; [exact K | left; reflexivity].
Qed.
Lemma calls_kept : forall G ch e sb0 l c hs c', ready G ch e c -> permitted_run G ch e l c -> host_calls (stp G) e l c = Ok (hs, c') ->
  (kept G sb0 (fst (fst c)) /\ away G sb0 (fst (fst c))) -> (kept G sb0 (fst (snd c)) /\ away G sb0 (fst (snd c))) ->
  (kept G sb0 (fst (fst c')) /\ away G sb0 (fst (fst c'))) /\ (kept G sb0 (fst (snd c')) /\ away G sb0 (fst (snd c'))).
Proof.
  intros G ch e sb0. induction l as [|[n s] l IH]; intros c hs c' R P E K1 K2; cbn [host_calls] in E; [inversion E; subst; auto|]. destruct P as [P0 P].
  destruct (host (stp G) e n s c) as [[h c1]|x|] eqn:Eh; try discriminate. cbn [bind] in E. destruct (host_calls (stp G) e l c1) as [[hs1 c2]|x|] eqn:El; try discriminate. cbn [bind] in E. inversion E; subst.
  destruct (@host_kept G ch e n s c h c1 R P0 Eh) as [[H1 H2] H3]. destruct (@one G ch e n s c h c1 R P0 Eh) as [_ [_ [R1 _]]].
  apply (IH c1 hs1 c' R1 (P _ _ eq_refl) El).
  - destruct K1. split; [eapply kept_trans | eapply away_trans]; eassumption.
  - destruct H3 as [->| ->]; assumption.
Qed.
