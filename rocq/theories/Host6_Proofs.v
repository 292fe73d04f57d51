From Verif Require Import Base Base_Proofs PvmMem_Model PvmProg_Model PvmStep_Model Sandbox_Model Sandbox_Spec Sandbox_Proofs Host_Model Host_Spec Host_Proofs Host2_Proofs Host3_Proofs Host4_Proofs Host5_Proofs.
Set Implicit Arguments.
Open Scope N_scope.
Notation stp := Sandbox_Model.step.

Theorem calls_exact : forall G ch e l c, ready G ch e c -> permitted_run G ch e l c ->
  exists hs c' X', host_calls (stp G) e l c = Ok (hs, c') /\ gp_calls e l (seen G (fst c), seen G (snd c)) hs X' /\ stands G (fst c') (fst X') /\ stands G (snd c') (snd X').
Proof.
  intros G ch e l c R P. destruct (@run_calls G ch e l c (seen G (fst c), seen G (snd c)) R (stands_seen _ _) (stands_seen _ _) P) as [hs [c' [X' [A [B [_ [C D]]]]]]].
  exists hs, c', X'. auto.
Qed.
Theorem calls_ready : forall G ch e l c hs c', ready G ch e c -> permitted_run G ch e l c -> host_calls (stp G) e l c = Ok (hs, c') -> ready G ch e c'.
Proof.
  intros G ch e l c hs c' R P E. destruct (@run_calls G ch e l c (seen G (fst c), seen G (snd c)) R (stands_seen _ _) (stands_seen _ _) P) as [hs0 [c0 [X' [A [B [C D]]]]]].
  rewrite E in A. inversion A; subst. assumption.
Qed.
Lemma worth_stands : forall G c x v, stands G c x -> (worth G c v <-> exists b, holds (fst x) b /\ v = b + deferred (snd x)).
Proof.
  intros G c x v [E [Sm _]]. unfold worth. rewrite E. split; intros [b [H K]]; exists b; (split; [|assumption]); eapply holds_ext; try exact H; intros i; [symmetry|]; apply Sm.
Qed.
Theorem calls_conserve : forall G ch e l c hs c' v, ready G ch e c -> permitted_run G ch e l c -> host_calls (stp G) e l c = Ok (hs, c') ->
  worth G (fst c) v -> worth G (snd c) v -> worth G (fst c') v /\ worth G (snd c') v.
Proof.
  intros G ch e l c hs c' v R P E W1 W2. destruct (@run_calls G ch e l c (seen G (fst c), seen G (snd c)) R (stands_seen _ _) (stands_seen _ _) P) as [hs0 [c0 [X' [A [B [C [D1 D2]]]]]]].
  rewrite E in A. inversion A; subst hs0 c0. destruct R as [_ [_ [_ [_ [T1 [_ [T2 _]]]]]]].
  destruct (@calls_inv (fun x => exists b, holds (fst x) b /\ v = b + deferred (snd x)) e) with (l := l) (c := (seen G (fst c), seen G (snd c))) (hs := hs) (c' := X') as [Q1 Q2]; try assumption.
  - intros n s x h x' T St [b [Hb Eb]]. destruct (step_conserves T St Hb) as [b' [Hb' Eb']]. exists b'. split; [assumption|]. lia.
  - split; [apply (worth_stands v D1) | apply (worth_stands v D2)]; assumption.
Qed.
Theorem calls_solvent : forall G ch e l c hs c', ready G ch e c -> permitted_run G ch e l c -> host_calls (stp G) e l c = Ok (hs, c') ->
  forall d, d = fst c' \/ d = snd c' ->
    (forall s m, g_meta (view G (fst d)) s = Some m -> counted (view G (fst d)) s m) /\
    exists m, g_meta (view G (fst d)) (r_host (snd (fst c))) = Some m /\ least m <= m_balance m.
Proof.
  intros G ch e l c hs c' R P E d Hd.
  assert (H : r_host (snd (fst c')) = r_host (snd (fst c))).
  { destruct (@run_calls G ch e l c (seen G (fst c), seen G (snd c)) R (stands_seen _ _) (stands_seen _ _) P) as [hs0 [c0 [X' [A [B [C [[D1 _] [D2 _]]]]]]]]. rewrite E in A. inversion A; subst hs0 c0.
    destruct R as [_ [_ [_ [_ [T1 [_ [T2 Hh]]]]]]].
    destruct (@calls_inv (fun x => r_host (snd x) = r_host (snd (fst c))) e) with (l := l) (c := (seen G (fst c), seen G (snd c))) (hs := hs) (c' := X') as [Q1 Q2]; try assumption.
    - intros n s x h x' T St Q. destruct (tidy_step T St) as [_ X]. congruence.
    - reflexivity.
    - congruence. }
  pose proof (@calls_ready G ch e l c hs c' R P E) as [_ [_ [_ [_ [T1 [_ [T2 Hh]]]]]]].
  assert (T : tidy e (seen G d) /\ r_host (snd d) = r_host (snd (fst c))) by (destruct Hd as [->| ->]; split; congruence). destruct T as [T Q].
  split; [apply (td_counted _ _ T)|]. rewrite <- Q. apply (td_host _ _ T).
Qed.

(** ** One call *)
Lemma one : forall G ch e n s c h c', ready G ch e c -> permitted G ch (seen G (fst c)) n s -> host (stp G) e n s c = Ok (h, c') ->
  exists X', gp_pair e n s (seen G (fst c), seen G (snd c)) h X' /\ ready G ch e c' /\ stands G (fst c') (fst X') /\ stands G (snd c') (snd X').
Proof.
  intros G ch e n s c h c' R P E. destruct (@one_call G ch e n s c (seen G (fst c), seen G (snd c)) R (stands_seen _ _) (stands_seen _ _) P) as [h0 [c0 [X' [A [B [C D]]]]]].
  rewrite E in A. inversion A; subst. exists X'. auto.
Qed.
Lemma one_step : forall G ch e n s c h c', ready G ch e c -> permitted G ch (seen G (fst c)) n s -> host (stp G) e n s c = Ok (h, c') ->
  (n = 17 /\ fst c' = fst c) \/ (n <> 17 /\ exists x', gp_step e n s (seen G (fst c)) h x' /\ stands G (fst c') x').
Proof.
  intros G ch e n s c h c' R P E. destruct (N.eq_dec n 17) as [->|D].
  - left. split; [reflexivity|]. unfold host in E. destruct c as [x y]. cbn [N.eqb Pos.eqb] in E. destruct (v_gas s <? 10)%Z; inversion E; reflexivity.
  - right. split; [assumption|]. destruct (@one G ch e n s c h c' R P E) as [X' [A [_ [B _]]]]. unfold gp_pair in A. destruct (N.eqb_spec n 17); [contradiction|]. cbn [andb] in A. destruct A as [A _]. exists (fst X'). auto.
Qed.
Lemma same_aeq : forall a b t, same a b -> account_eq a b t. Proof. intros a b t [A B]. split; [apply A | intros k; apply B]. Qed.
Theorem call_isolated : forall G ch e n s c h c' t, ready G ch e c -> permitted G ch (seen G (fst c)) n s -> host (stp G) e n s c = Ok (h, c') ->
  let w := view G (fst (fst c)) in let w' := view G (fst (fst c')) in let host := r_host (snd (fst c)) in
  t <> host ->
  account_eq w' w t \/
  (g_meta w t = None /\ exists m, g_meta w' t = Some m /\ m_parent m = host) \/
  (g_meta w' t = None /\ exists m, g_meta w t = Some m /\ m_code m = given_to host).
Proof.
  intros G ch e n s c h c' t R P E w w' hs D. destruct (@one_step G ch e n s c h c' R P E) as [[-> Q]|[N17 [x' [St [Er Sm]]]]].
  - left. subst w w'. rewrite Q. split; reflexivity.
  - destruct R as [_ [_ [_ [_ [T _]]]]]. destruct (step_isolated T St D) as [A|[[A B]|[A B]]].
    + left. eapply aeq_trans; [apply same_aeq; exact Sm | exact A].
    + right. left. split; [exact A|]; destruct B as [m B]; exists m; destruct Sm as [Sm _]; subst w'; cbn [fst] in Sm; rewrite Sm; exact B.
    + right. right. split; [destruct Sm as [Sm _]; subst w'; rewrite Sm; exact A | exact B].
Qed.
Theorem call_refused : forall G ch e n s c h c', ready G ch e c -> permitted G ch (seen G (fst c)) n s -> host (stp G) e n s c = Ok (h, c') ->
  refused h -> looks G (fst c') (fst c) /\ looks G (snd c') (snd c).
Proof.
  intros G ch e n s c h c' R P E F. assert (Y : snd c' = if (n =? 17) && negb (v_gas s <? 10)%Z then fst c else snd c).
  { unfold host in E. destruct c as [x y]. cbn [fst snd]. destruct (n =? 17); cbn [andb].
    - destruct (v_gas s <? 10)%Z; inversion E; reflexivity.
    - destruct (exec _ _ _) as [a [[h0 r]| |]]; inversion E; reflexivity. }
  destruct (@one_step G ch e n s c h c' R P E) as [[-> Q]|[N17 [x' [St [Er Sm]]]]].
  - cbn [N.eqb Pos.eqb andb] in Y. destruct (Z.ltb_spec (v_gas s) 10) as [L|L]; cbn [negb] in Y.
    + rewrite Q, Y. split; split; try reflexivity; split; reflexivity.
    + exfalso. unfold host in E. destruct c as [x y]. cbn [N.eqb Pos.eqb] in E. destruct (Z.ltb_spec (v_gas s) 10); [lia|]. inversion E; subst h. destruct F as [F|[k [F1 F2]]]; cbn [h_exit h_r7] in *; [congruence|].
      inversion F2; subst k. destruct P as [_ [Gs _]]. change (2 ^ 63 - 1)%Z with 9223372036854775807%Z in Gs.
      unfold WHO, FULL, CORE, CASH, LOW, HUH in F1. cbn [In] in F1. change (2 ^ 64) with 18446744073709551616 in F1. lia.
  - destruct (N.eqb_spec n 17); [contradiction|]. cbn [andb] in Y. rewrite Y. split; [|split; [reflexivity | split; reflexivity]].
    destruct R as [_ [_ [_ [_ [T _]]]]]. assert (x' = seen G (fst c)) as ->.
    { eapply step_refused; try eassumption. intros m M. destruct P as [_ [_ [B _]]]. destruct (B _ _ M) as [_ [X _]]. lia. }
    split; [exact Er | exact Sm].
Qed.
(** ** Ids *)
Theorem call_new : forall G ch e s c h c', ready G ch e c -> permitted G ch (seen G (fst c)) 18 s -> host (stp G) e 18 s c = Ok (h, c') ->
  looks G (fst c') (fst c) \/
  exists id, h = code id /\ g_meta (view G (fst (fst c))) id = None /\ has (view G (fst (fst c'))) id /\
    ((in_cycle id /\ id = r_next (snd (fst c)) /\ first_free (view G (fst (fst c'))) (cyc id 42) (r_next (snd (fst c')))) \/
     (id < 65536 /\ id = reg s 12 /\ holder (p_registrar (r_priv (snd (fst c)))) = r_host (snd (fst c)) /\ r_next (snd (fst c')) = r_next (snd (fst c)))).
Proof.
  intros G ch e s c h c' R P E. destruct (@one_step G ch e 18 s c h c' R P E) as [[X _]|[N17 [x' [St [Er Sm]]]]]; [discriminate|].
  destruct R as [_ [_ [_ [_ [T _]]]]]. destruct (gp_step_new T St) as [->|[id [-> Md]]]; [left; split; [exact Er | exact Sm]|].
  right. exists id. destruct Md as [[m [hs [cost [len [M [L [Ll [Co Hw]]]]]]]] NI Id Gr]. cbn [fst snd seen] in *. split; [reflexivity|]. split; [assumption|].
  assert (Eq : forall i, g_meta (view G (fst (fst c'))) i = g_meta (fst x') i) by (destruct Sm as [Sm _]; exact Sm).
  split.
  { unfold has. rewrite Eq, Hw. cbn [with_ent with_meta g_meta]. rewrite N.eqb_refl. discriminate. }
  rewrite Er. destruct Id as [[-> [j [[k [J1 [J2 J3]]] ->]]]|[A [B [C ->]]]]; [left | right; auto].
  destruct (td_next _ _ T) as [Nc _]. cbn [fst snd seen] in Nc. split; [assumption|]. split; [reflexivity|]. cbn [set_next r_next]. exists k. split; [assumption|]. rewrite Eq. split; [assumption|].
  intros l Hl. rewrite Eq. apply J3. assumption.
Qed.
Theorem next_free : forall G ch e l c hs c', ready G ch e c -> permitted_run G ch e l c -> host_calls (stp G) e l c = Ok (hs, c') ->
  in_cycle (r_next (snd (fst c'))) /\ g_meta (view G (fst (fst c'))) (r_next (snd (fst c'))) = None.
Proof. intros G ch e l c hs c' R P E. destruct (@calls_ready G ch e l c hs c' R P E) as [_ [_ [_ [_ [T _]]]]]. apply (td_next _ _ T). Qed.
Theorem search_ok : forall G ch sb i, proper G -> sb_ok G ch sb -> proper (view G sb) -> in_cycle i -> (exists j, in_cycle j /\ ~ has (view G sb) j) ->
  exists sb' j, exec (stp G) (check i) sb = (sb', Ok j) /\ same (view G sb') (view G sb) /\ first_free (view G sb) i j.
Proof.
  intros G ch sb i P O W I [j [J F]].
  assert (J' : exists j, in_cycle j /\ g_meta (view G sb) j = None). { exists j. split; [assumption|]. unfold has in F. destruct (g_meta (view G sb) j); [exfalso; apply F; discriminate | reflexivity]. }
  destruct (@wp_exec _ (check i) G ch sb (view G sb) _ P W O (same_refl _) (@check_ok G ch (view G sb) i I J')) as [w [[-> [k [E1 E2]]] [_ [E3 _]]]].
  destruct (exec (stp G) (check i) sb) as [sb' r]. cbn [fst snd] in *. subst r. exists sb', k. auto.
Qed.
