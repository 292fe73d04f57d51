From Verif Require Import Base Base_Proofs PvmMem_Model PvmProg_Model PvmStep_Model PvmInit_Model Codec_Model Codec_Spec Codec_Proofs Codec2_Proofs Sandbox_Model Sandbox_Spec Sandbox_Proofs Host_Model Host_Spec Host_Proofs Host2_Proofs Host3_Proofs Host4_Proofs Host5_Proofs Host6_Proofs Host7_Proofs Acc_Model Acc_Spec Acc_Proofs.
Set Implicit Arguments.
Open Scope N_scope.

Section Noted.
  Context {A : Type} (do : A -> sop -> A * sout) (e : env).
  Notation ctx := (((A * rest) * (A * rest))%type).
  Lemma noted_run : forall t p f s c k x s' c', invoke_extended (host do e) f t p s c = Some (Ok (x, s', c')) ->
    exists l hs, invoke_extended (noted (host do e)) f t p s (c, k) = Some (Ok (x, s', (c', k ++ l))) /\ host_calls do e l c = Ok (hs, c') /\ Forall (fun a => host_allowed t (fst a) = true) l.
  Proof.
    intros t p. induction f as [|f IH]; intros s c k x s' c' H; [discriminate|]. cbn [invoke_extended] in *.
    destruct (invoke_general (S f) p s) as [[[x0 s1]|z|]|]; try discriminate.
    destruct x0; try (inversion H; subst; exists [], []; rewrite app_nil_r; split; [reflexivity | split; [reflexivity | constructor]]).
    unfold execute_host in *. remember (if host_allowed t h then h else 255) as n eqn:Q. destruct (N.eqb_spec n 255) as [QE|QE].
    { cbn [h_exit what_result] in *. destruct (apply_host s1 what_result) as [s2| |]; try discriminate.
      destruct (v_gas s2 <? 0)%Z; [inversion H; subst; exists [], []; rewrite app_nil_r; split; [reflexivity | split; [reflexivity | constructor]]|]. apply IH; assumption. }
    assert (Al : host_allowed t n = true) by (destruct (host_allowed t h) eqn:?; congruence). clear Q.
    unfold noted. cbn [fst snd]. destruct (host do e n s1 c) as [[hc c1]| |] eqn:E; try discriminate. cbn [bind].
    assert (One : forall l hs, host_calls do e l c1 = Ok (hs, c') -> host_calls do e ((n, s1) :: l) c = Ok (hc :: hs, c')) by (intros l hs X; cbn [host_calls]; rewrite E; cbn [bind]; rewrite X; reflexivity).
    destruct (h_exit hc); try discriminate; destruct (apply_host s1 hc) as [s2| |]; try discriminate;
      try (inversion H; subst; exists [(n, s1)], [hc]; split; [reflexivity | split; [apply One; reflexivity | constructor; [assumption | constructor]]]).
    destruct (v_gas s2 <? 0)%Z; [inversion H; subst; exists [(n, s1)], [hc]; split; [reflexivity | split; [apply One; reflexivity | constructor; [assumption | constructor]]]|].
    destruct (IH _ _ (k ++ [(n, s1)]) _ _ _ H) as [l [hs [X [Y Z]]]].
    exists ((n, s1) :: l), (hc :: hs). rewrite <- app_assoc in X. cbn [app] in X. split; [exact X | split; [apply One; exact Y | constructor; assumption]].
  Qed.
  Theorem noted_invoke : forall f t blob pc limit args c g o c', invoke_with_args (host do e) f t blob pc limit args c = Some (Ok (g, o, c')) ->
    exists l hs, invoke_with_args (noted (host do e)) f t blob pc limit args (c, []) = Some (Ok (g, o, (c', l))) /\ host_calls do e l c = Ok (hs, c').
  Proof.
    intros f t blob pc limit args c g o c' H. unfold invoke_with_args in *. destruct (prepare blob) as [fp| |]; try discriminate. unfold run_prepared in *.
    destruct (new_pvm (fst fp) args) as [s0|]; [|inversion H; subst; exists [], []; split; reflexivity].
    destruct (invoke_extended (host do e) _ _ _ _ _) as [[[[x s] c1]| |]|] eqn:E; try discriminate. destruct (result_of limit x s) as [[g' o']| |] eqn:R; cbn [bind] in H; try discriminate.
    inversion H; subst. destruct (@noted_run _ _ _ _ _ [] _ _ _ E) as [l [hs [X [Y _]]]]. exists l, hs. rewrite X. rewrite R. split; [reflexivity | assumption].
  Qed.
End Noted.

Lemma first_ok : forall t entropy e, first_id t entropy e = first e t entropy.
Proof. intros. unfold first_id, first, S_MIN, CYCLE. rewrite N.add_comm. reflexivity. Qed.
Lemma first_in : forall e t entropy, in_cycle (first e t entropy).
Proof. intros. unfold in_cycle, first. match goal with |- context [?a mod ?b] => pose proof (N.mod_lt a b) end. lia. Qed.
Lemma free_cycle : forall w i j, first_free w i j -> in_cycle j.
Proof. intros w i j [k [-> _]]. apply cyc_in. Qed.
Lemma ff_same : forall w w' i j, same w w' -> first_free w i j -> first_free w' i j.
Proof. intros w w' i j [E _] [k [A [B C]]]. exists k. rewrite <- E. repeat split; try assumption. intros l L. rewrite <- E. apply C. assumption. Qed.

Theorem context_fresh : forall G ch e sb w p t entropy, proper G -> sb_ok G ch sb -> same (view G sb) w -> proper w -> (exists j, in_cycle j /\ g_meta w j = None) ->
  exists c, new_context G e sb p t entropy = Ok c /\ fresh G e w t p entropy c /\ sb_ok G ch (fst c) /\ kept G sb (fst c).
Proof.
  intros G ch e sb w p t entropy P O Sm W J. unfold new_context. rewrite first_ok.
  destruct (@wp_exec _ (check (first e t entropy)) G ch sb w _ P W O Sm (@check_ok G ch w _ (first_in e t entropy) J)) as [w' [[-> [j [Q F]]] [O' [S' _]]]].
  destruct (@wp_kept _ (check (first e t entropy)) G ch sb w _ P W O Sm (@check_ok G ch w _ (first_in e t entropy) J)) as [K _].
  destruct (exec (Sandbox_Model.step G) (check (first e t entropy)) sb) as [sb' r]. cbn [fst snd] in *. subst r. eexists. split; [reflexivity|]. cbn [fst snd]. split; [|split; assumption].
  split; [assumption|]. exists j. split; [assumption | reflexivity].
Qed.
Lemma wp_change_fail : forall G ch s f w (Q : gstate -> bool -> Prop), In s ch -> (g_meta w s = None \/ exists m, g_meta w s = Some m /\ f m = None) -> Q w false -> wp G ch (try (Change s f)) w Q.
Proof.
  intros G ch s f w Q I H K. simpl. repeat split; [intros x [<-|[]]; assumption|]. destruct H as [H|[m [H F]]]; rewrite H; [|rewrite F]; exact K.
Qed.
Lemma code_prog_ok : forall G ch t w, wp G ch (code_prog t) w (fun w' r => w' = w /\
  r = match g_meta w t with
      | None => Ok None
      | Some m => match g_ent w t (KPreimage (m_code m)) with None => Ok None | Some v => let! c := lift ECodec (split_code v) in Ok (Some c) end
      end).
Proof.
  intros G ch t w. unfold code_prog. apply wp_bind, wp_meta. destruct (g_meta w t) as [m|]; [|split; reflexivity]. apply wp_bind, wp_entry. destruct (g_ent w t _); split; reflexivity.
Qed.

Lemma received_0 : forall w t, same (received w t 0) w.
Proof.
  intros w t. unfold received. split; [|reflexivity]. intros s. cbn [with_meta g_meta]. destruct (N.eqb_spec s t) as [->|D]; [|reflexivity]. destruct (g_meta w t) as [m|]; [|reflexivity].
  cbn [option_map]. rewrite N.add_0_r. destruct m; reflexivity.
Qed.
Lemma settled_received : forall e w t p q v, settled e w t -> (forall i, first_free (received w t v) q i -> tidy e (received w t v, mk_rest t p i [] None [])) /\
  (exists j, in_cycle j /\ g_meta (received w t v) j = None) /\ exists m, g_meta w t = Some m.
Proof.
  intros e w t p q v [p0 [i0 T]]. destruct (td_host _ _ T) as [m [M L]]. destruct (td_next _ _ T) as [Nc Nx]. cbn [fst snd r_host r_next] in *.
  assert (E : received w t v = with_meta w t (Some (set_balance m (m_balance m + v)))) by (unfold received; rewrite M; reflexivity). rewrite E. split; [|split].
  - intros i F. pose proof (free_cycle F) as C. destruct F as [k [J1 [J2 J3]]].
    pose proof (@tidy_meta e w (mk_rest t p0 i0 [] None []) (mk_rest t p i0 [] None []) m T M eq_refl eq_refl (set_balance m (m_balance m + v)) eq_refl eq_refl) as X.
    assert (Y : least (set_balance m (m_balance m + v)) <= m_balance (set_balance m (m_balance m + v))) by (change (least (set_balance m (m_balance m + v))) with (least m); cbn [m_balance set_balance]; lia).
    specialize (X Y). cbn [r_host] in X. destruct X as [X1 X2 X3 X4 X5 X6 X7]. split; try assumption. cbn [fst snd r_next] in *. split; assumption.
  - exists i0. split; [assumption|]. cbn [with_meta g_meta]. destruct (N.eqb_spec i0 t); [congruence | assumption].
  - exists m. assumption.
Qed.
Lemma proper_received : forall w t v, proper w -> proper (received w t v).
Proof.
  intros w t v P s H k. unfold received in *. cbn [with_meta g_meta g_ent] in *. apply P. revert H. destruct (N.eqb_spec s t) as [Q|D]; [rewrite Q; destruct (g_meta w t); [discriminate | reflexivity] | auto].
Qed.

Lemma has_dec' : forall w s, {has w s} + {~ has w s}. Proof. intros w s. unfold has. destruct (g_meta w s); [left; discriminate | right; intros X; apply X; reflexivity]. Qed.
Theorem accumulate_full : forall fuel G ch e sb p t recv inputs limit entropy out,
  proper G -> sb_ok G ch sb -> In t ch -> e_now e + e_expiry e < 2 ^ 32 -> settled e (view G sb) t ->
  accumulate fuel G e sb p t recv inputs limit entropy = Some (Ok (Some out)) ->
  let w := received (view G sb) t recv in
  exists m, g_meta w t = Some m /\
  ((out = mk_acc (a_sb out) p [] None 0 [] /\ account_eq (view G (a_sb out)) w t /\ (forall s, s <> t -> account_eq (view G (a_sb out)) G s) /\ sb_ok G ch (a_sb out) /\ (forall s, aget (a_sb out) s <> None <-> s = t) /\
    match g_ent w t (KPreimage (m_code m)) with None => True | Some v => exists code, split_code v = Ok code /\ 4000000 < N.of_nat (length code) end) \/
  exists v code o c0 x y l hs,
    g_ent w t (KPreimage (m_code m)) = Some v /\ split_code v = Ok code /\ N.of_nat (length code) <= 4000000 /\
    fresh G e w t p entropy c0 /\ ready G ch e (c0, c0) /\ (kept G sb (fst c0) /\ begun G e sb p t recv entropy code c0) /\ aget (fst c0) t <> None /\
    invoke_with_args (noted (host (stp G) e)) fuel Accumulate code 5 limit (integer_encode (e_now e) ++ integer_encode t ++ integer_encode inputs) ((c0, c0), [])
      = Some (Ok (a_gas out, o, ((x, y), l))) /\
    host_calls (stp G) e l (c0, c0) = Ok (hs, (x, y)) /\ fallback (stp G) e l c0 y /\
    a_sb out = fst (result_from o x y) /\ a_priv out = r_priv (snd (result_from o x y)) /\ a_xfers out = r_xfers (snd (result_from o x y)) /\
    a_prov out = r_prov (snd (result_from o x y)) /\ a_yield out = yield_from o x y).
Proof.
  intros fuel G ch e sb p t recv inputs limit entropy out P O I Eo St H w.
  destruct (@settled_received e (view G sb) t p (first e t entropy) recv St) as [Td [J [m0 M0]]]. fold w in Td, J.
  assert (Pv : proper (view G sb)) by (destruct St as [p0 [i0 T]]; apply (td_proper _ _ T)).
  assert (Pw : proper w) by (apply proper_received; assumption).
  assert (Mw : g_meta w t = Some (set_balance m0 (m_balance m0 + recv))) by (unfold w, received; cbn [with_meta g_meta]; rewrite N.eqb_refl, M0; reflexivity).
  exists (set_balance m0 (m_balance m0 + recv)). split; [exact Mw|].
  unfold accumulate in H.
  destruct (@wp_exec _ (active_of t) G ch sb (view G sb) (fun w' b => w' = view G sb /\ b = true) P Pv O (same_refl _)) as [w1 [[-> B] [O1 [S1 _]]]].
  { apply wp_active. rewrite M0. split; reflexivity. }
  assert (K1 : kept G sb (fst (exec (stp G) (active_of t) sb)) /\ aget (fst (exec (stp G) (active_of t) sb)) t <> None).
  { cbn [active_of exec Sandbox_Model.step exists_active fst]. split; [apply kept_ensure|]. intros X. apply ensure_get in X. cbn [view g_meta] in M0. unfold vmeta in M0. destruct X as [X1 X2]. rewrite X1 in M0. congruence. }
  destruct (exec (stp G) (active_of t) sb) as [sb1 b] eqn:E1. cbn [fst snd] in *. subst b. cbn [negb] in H.
  assert (Rc : exists sb2 ok, (if 0 <? recv
       then exec (stp G) (try (Change t (fun m => if m_balance m + recv <? 2 ^ 64 then Some (set_balance m (m_balance m + recv)) else None))) sb1 else (sb1, true)) = (sb2, ok) /\
       (ok = true -> sb_ok G ch sb2 /\ same (view G sb2) w /\ kept G sb sb2 /\ aget sb2 t <> None)).
  { destruct (N.ltb_spec 0 recv) as [L|L].
    - destruct (m_balance m0 + recv <? 2 ^ 64) eqn:Ov.
      + destruct (@wp_exec _ (try (Change t (fun m => if m_balance m + recv <? 2 ^ 64 then Some (set_balance m (m_balance m + recv)) else None))) G ch sb1 (view G sb) (fun w' b => w' = w) P Pv O1 S1)
          as [w2 [-> [O2 [S2 _]]]].
        { eapply wp_change; [assumption | exact M0 | rewrite Ov; reflexivity|]. unfold w, received. rewrite M0. reflexivity. }
        assert (Kx : forall f x, aget sb1 x <> None -> aget (fst (exec (stp G) (try (Change t f)) sb1)) x <> None).
        { intros f x. cbn [try exec Sandbox_Model.step]. unfold change_meta. destruct K1 as [_ K1]. destruct (aget sb1 t) as [bt|] eqn:Bt; [|contradiction]. rewrite (ensure_idem G _ t Bt), Bt. destruct (se_val (b_md bt)) as [mm|]; [|auto]. destruct (f mm); [|auto]. cbn [fst]. rewrite mget_mset. destruct (N.eq_dec t x); [discriminate | auto]. }
        match type of O2 with sb_ok _ _ (fst (exec _ (try (Change _ ?f)) _)) => specialize (Kx f) end.
        destruct (exec _ _ _) as [sb2 ok]. exists sb2, ok. split; [reflexivity|]. intros _. split; [assumption|]. split; [assumption|]. cbn [fst] in Kx. split; [intros x Hx Ix; apply Kx, K1; assumption | apply Kx, K1].
      + destruct (@wp_exec _ (try (Change t (fun m => if m_balance m + recv <? 2 ^ 64 then Some (set_balance m (m_balance m + recv)) else None))) G ch sb1 (view G sb) (fun w' b => b = false) P Pv O1 S1)
          as [w2 [Q _]].
        { apply wp_change_fail; [assumption | right; exists m0; rewrite Ov; auto | reflexivity]. }
        destruct (exec _ _ _) as [sb2 ok]. cbn [snd] in Q. exists sb2, ok. split; [reflexivity|]. congruence.
    - assert (recv = 0) by lia. subst recv. exists sb1, true. split; [reflexivity|]. intros _. split; [assumption|]. split; [|exact K1]. eapply same_trans; [exact S1|]. apply same_sym, received_0. }
  destruct Rc as [sb2 [ok [Ec Rc]]]. rewrite Ec in H. destruct ok; [|discriminate]. cbn [negb] in H. destruct (Rc eq_refl) as [O2 [S2 K2]].
  destruct (@wp_exec _ (code_prog t) G ch sb2 w _ P Pw O2 S2 (code_prog_ok G ch t w)) as [w3 [[-> Cd] [O3 [S3 _]]]].
  assert (K3 : forall x, aget sb2 x <> None -> aget (fst (exec (stp G) (code_prog t) sb2)) x <> None).
  { intros x Hx. destruct K2 as [_ K2]. destruct (aget sb2 t) as [bt|] eqn:Bt; [|contradiction]. unfold code_prog. cbn [pbind meta_of exec Sandbox_Model.step]. unfold get_meta. rewrite (ensure_idem G _ t Bt), Bt. destruct (se_val (b_md bt)) as [mm|]; [|exact Hx].
    cbn [pbind entry_of exec Sandbox_Model.step]. unfold get_entry. rewrite (ensure_idem G _ t Bt), Bt. destruct (get_or_load _ _ _). cbn [pbind exec fst]. rewrite mget_mset. destruct (N.eq_dec t x); [discriminate | exact Hx]. }
  assert (Op : opening G sb t recv = exec (stp G) (code_prog t) sb2) by (unfold opening; rewrite E1; cbn [fst]; destruct (0 <? recv); [rewrite Ec | injection Ec as ->]; reflexivity).
  destruct (exec (stp G) (code_prog t) sb2) as [sb3 cr]. cbn [fst snd] in *. assert (K4 : kept G sb sb3 /\ aget sb3 t <> None) by (destruct K2 as [K2 K2']; split; [intros x Hx Ix; apply K3, K2; assumption | apply K3, K2']). rewrite Mw in Cd. cbn [m_code set_balance] in *.
  assert (Early : account_eq (view G (filter (fun x => fst x =? t) sb3)) w t /\ (forall s, s <> t -> account_eq (view G (filter (fun x => fst x =? t) sb3)) G s) /\ sb_ok G ch (filter (fun x => fst x =? t) sb3) /\ (forall s, aget (filter (fun x => fst x =? t) sb3) s <> None <-> s = t)).
  { assert (F1 : aget (filter (fun x => fst x =? t) sb3) t = aget sb3 t).
    { unfold mget. f_equal. clear. induction sb3 as [|[a b] l IH]; [reflexivity|]. cbn [filter fst find]. destruct (N.eqb_spec a t) as [->|D]; cbn [find fst].
      - destruct (N.eq_dec t t); [reflexivity | contradiction].
      - destruct (N.eq_dec a t); [contradiction | apply IH]. }
    assert (F2 : forall s, s <> t -> aget (filter (fun x => fst x =? t) sb3) s = None).
    { intros s D. unfold mget. clear - D. induction sb3 as [|[a b] l IH]; [reflexivity|]. cbn [filter fst find]. destruct (N.eqb_spec a t) as [->|Da]; cbn [find fst]; [|apply IH].
      destruct (N.eq_dec t s); [congruence | apply IH]. }
    split; [|split; [|split]].
    - destruct S3 as [A B]. split; [rewrite <- A | intros k; rewrite <- B]; cbn [view g_meta g_ent]; unfold vmeta, vent; rewrite F1; reflexivity.
    - intros s D. split; [|intros k]; cbn [view g_meta g_ent]; unfold vmeta, vent; rewrite (F2 s D); reflexivity.
    - split.
      + destruct O3 as [Nd _]. clear - Nd. induction sb3 as [|[a b] l IH]; [constructor|]. cbn [map fst] in Nd. inversion Nd as [|z y N1 N2]; subst. cbn [filter fst]. destruct (a =? t); [|auto]. cbn [map fst]. constructor; [|auto].
        intros J. apply in_map_iff in J. destruct J as [z [Z J]]. apply filter_In in J. apply N1. apply in_map_iff. exists z. tauto.
      + intros s b Es. destruct (N.eq_dec s t) as [->|D]; [rewrite F1 in Es; apply O3, Es | rewrite (F2 s D) in Es; discriminate].
    - intros s. destruct (N.eq_dec s t) as [->|D]; [rewrite F1; split; [reflexivity | intros _; apply K4] | rewrite (F2 s D); split; [congruence | contradiction]]. }
  destruct Early as [Ea [Eb [Ec1 Ed]]].
  destruct (g_ent w t (KPreimage (m_code m0))) as [v|] eqn:Ev.
  - destruct (split_code v) as [code|z|] eqn:Sp; cbn [lift bind] in Cd; subst cr; try discriminate. destruct (N.ltb_spec 4000000 (N.of_nat (length code))) as [Lc|Lc].
    + left. inversion H; subst out. cbn [a_sb]. split; [reflexivity|]. split; [assumption|]. split; [assumption|]. split; [assumption|]. split; [assumption|]. exists code. split; [reflexivity | assumption].
    + right. destruct (@context_fresh G ch e sb3 w p t entropy P O3 S3 Pw J) as [c0 [Ec0 [Fr [O4 K5]]]]. rewrite Ec0 in H.
      destruct (invoke_with_args _ _ _ _ _ _ _ _) as [[[[gas o] [x y]]| |]|] eqn:Iv; try discriminate. inversion H; subst out.
      destruct (@noted_invoke _ _ _ _ _ _ _ _ _ _ _ _ _ Iv) as [l [hs [Nt Hc]]].
      exists v, code, o, c0, x, y, l, hs. split; [reflexivity|]. split; [assumption|]. split; [assumption|]. split; [assumption|]. split.
      { destruct Fr as [Fs [i [Ff Fe]]]. assert (T : tidy e (seen G c0)).
        { apply tidy_seen with (x := (w, mk_rest t p i [] None [])); [split; [exact Fe | exact Fs] | apply Td; exact Ff]. }
        unfold ready. cbn [fst snd]. rewrite Fe. cbn [r_host]. auto 12. }
      split; [split; [eapply kept_trans; [apply K4 | exact K5] | exists sb3; split; [exact Op | exact Ec0]]|]. split.
      { intros X. destruct (has_dec' G t) as [Hg|Hg]; [exact (K5 t Hg (proj2 K4) X)|]. destruct Fr as [[Fs _] _]. specialize (Fs t). rewrite Mw in Fs. cbn [view g_meta] in Fs. unfold vmeta in Fs. rewrite X in Fs. apply Hg. red. congruence. }
      split; [destruct o; exact Nt|]. split; [assumption|]. split; [apply (falls_back _ _ _ _ Hc)|].
      destruct o as [b| | |]; cbn [collect a_sb a_priv a_xfers a_prov a_yield result_from yield_from]; repeat split.
      replace (N.of_nat (length b) =? 32) with (length b =? 32)%nat; [reflexivity|]. destruct (Nat.eqb_spec (length b) 32), (N.eqb_spec (N.of_nat (length b)) 32); lia || reflexivity.
  - subst cr. left. inversion H; subst out. cbn [a_sb]. split; [reflexivity|]. split; [assumption|]. split; [assumption|]. split; [assumption|]. split; [assumption|]. exact Logic.I.
Qed.

Theorem accumulate_ok : forall fuel G ch e sb p t recv inputs limit entropy out,
  proper G -> sb_ok G ch sb -> In t ch -> e_now e + e_expiry e < 2 ^ 32 -> settled e (view G sb) t ->
  accumulate fuel G e sb p t recv inputs limit entropy = Some (Ok (Some out)) ->
  let w := received (view G sb) t recv in
  exists m, g_meta w t = Some m /\
  ((out = mk_acc (a_sb out) p [] None 0 [] /\ account_eq (view G (a_sb out)) w t /\ (forall s, s <> t -> account_eq (view G (a_sb out)) G s) /\
    match g_ent w t (KPreimage (m_code m)) with None => True | Some v => exists code, split_code v = Ok code /\ 4000000 < N.of_nat (length code) end) \/
  exists v code o c0 x y l hs,
    g_ent w t (KPreimage (m_code m)) = Some v /\ split_code v = Ok code /\ N.of_nat (length code) <= 4000000 /\
    fresh G e w t p entropy c0 /\ ready G ch e (c0, c0) /\
    invoke_with_args (noted (host (stp G) e)) fuel Accumulate code 5 limit (integer_encode (e_now e) ++ integer_encode t ++ integer_encode inputs) ((c0, c0), [])
      = Some (Ok (a_gas out, o, ((x, y), l))) /\
    host_calls (stp G) e l (c0, c0) = Ok (hs, (x, y)) /\ fallback (stp G) e l c0 y /\
    a_sb out = fst (result_from o x y) /\ a_priv out = r_priv (snd (result_from o x y)) /\ a_xfers out = r_xfers (snd (result_from o x y)) /\
    a_prov out = r_prov (snd (result_from o x y)) /\ a_yield out = yield_from o x y).
Proof.
  intros fuel G ch e sb p t recv inputs limit entropy out P O I Eo St H w. destruct (@accumulate_full fuel G ch e sb p t recv inputs limit entropy out P O I Eo St H) as [m [M C]]. exists m. split; [exact M|].
  destruct C as [[A [B [D [_ [_ F]]]]]|[v [code [o [c0 [x [y [l [hs [A [B [D [E [F [_ [_ X]]]]]]]]]]]]]]]]; [left; repeat (split; [assumption|]); assumption | right; exists v, code, o, c0, x, y, l, hs; repeat (split; [assumption|]); exact X].
Qed.

Lemma holds_received : forall w t m v recv, holds w v -> g_meta w t = Some m -> holds (received w t recv) (v + recv).
Proof.
  intros w t m v recv V M. destruct (@holds_meta w v t m (set_balance m (m_balance m + recv)) V M) as [u [E X]]. unfold received. rewrite M. cbn [option_map]. cbn [m_balance set_balance] in X.
  replace (v + recv) with (m_balance m + recv + u) by lia. exact X.
Qed.
Theorem trace_conserves : forall G ch e c0 l hs x y o w v, ready G ch e (c0, c0) -> permitted_run G ch e l (c0, c0) -> host_calls (stp G) e l (c0, c0) = Ok (hs, (x, y)) ->
  same (view G (fst c0)) w -> r_xfers (snd c0) = [] -> holds w v ->
  exists v', holds (view G (fst (result_from o x y))) v' /\ v' + sum (map t_amount (r_xfers (snd (result_from o x y)))) = v.
Proof.
  intros G ch e c0 l hs x y o w v R P E [Sm _] X V.
  assert (W : worth G c0 v). { exists v. split; [eapply holds_ext; [|exact V]; intros i; apply Sm|]. unfold deferred. rewrite X. cbn [map sum]. lia. }
  destruct (@calls_conserve G ch e l (c0, c0) hs (x, y) v R P E W W) as [[a [A1 A2]] [b [B1 B2]]]. cbn [fst snd] in *. unfold deferred in *.
  destruct o; cbn [result_from]; [exists a | exists a | exists b | exists b]; (split; [assumption | lia]).
Qed.
Lemma octets_128 : forall md, Forall (fun b => b < 128) md -> encode_seq (encode (TUint 8)) md = Ok md.
Proof.
  induction 1 as [|b md B _ IH]; [reflexivity|]. cbn [encode_seq]. change (encode (TUint 8) b) with (@Ok cerr bytes (integer_encode b)). cbn [bind]. rewrite IH. cbn [bind].
  assert (E : integer_encode b = [b]).
  { unfold integer_encode. destruct (N.eqb_spec b 0) as [->|D]; [reflexivity|]. assert (b < 2 ^ 56) by lia. destruct (N.ltb_spec b (2 ^ 56)); [|lia].
    assert (L : N.log2 b / 7 = 0). { apply N.div_small. assert (N.log2 b < 7); [|lia]. apply N.log2_lt_pow2; lia. }
    rewrite L. cbn [N.eqb N.mul N.to_nat seq map]. change (2 ^ 0) with 1. rewrite N.div_1_r. rewrite (N.mod_small b 256) by lia. reflexivity. }
  rewrite E. reflexivity.
Qed.
Theorem split_ok : forall md code, Forall (fun b => b < 128) md -> N.of_nat (length md) < 2 ^ 63 -> split_code (integer_encode (N.of_nat (length md)) ++ md ++ code) = Ok code.
Proof.
  intros md code F L. unfold split_code.
  destruct (@codec_roundtrip (TVec 1 (TUint 8)) md) as [bs [E [_ D]]].
  - simpl. lia.
  - cbn [wf]. split; [|change isize_max with (2 ^ 63 - 1); lia]. eapply Forall_impl; [|exact F]. cbn beta. intros b B. change (wf (TUint 8) b) with (b < 2 ^ 8). lia.
  - change (encode (TVec 1 (TUint 8)) md) with (let! x := encode_seq (encode (TUint 8)) md in @Ok cerr bytes (integer_encode (N.of_nat (length md)) ++ x)) in E.
    rewrite (octets_128 F) in E. cbn [bind] in E. inversion E; subst bs. rewrite app_assoc, D. reflexivity.
Qed.
