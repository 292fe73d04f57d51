From Verif Require Import Base Base_Proofs PvmMem_Model PvmProg_Model PvmStep_Model PvmInit_Model Codec_Model Sandbox_Model Sandbox_Spec Sandbox_Proofs Host_Model Host_Spec Host_Proofs Host2_Proofs Host3_Proofs Host4_Proofs Host5_Proofs Acc_Model Acc_Spec.
Set Implicit Arguments.
Open Scope N_scope.

Section Do.
  Context {A : Type} (do : A -> sop -> A * sout) (e : env).
  Notation ctx := (((A * rest) * (A * rest))%type).
  Lemma calls_app : forall l1 l2 c, host_calls do e (l1 ++ l2) c =
    (let! (h1, c1) := host_calls do e l1 c in let! (h2, c2) := host_calls do e l2 c1 in Ok (h1 ++ h2, c2)).
  Proof.
    induction l1 as [|[n s] l1 IH]; intros l2 c; cbn [host_calls app bind].
    - destruct (host_calls do e l2 c) as [[h c2]| |]; reflexivity.
    - destruct (host do e n s c) as [[h c1]| |]; cbn [bind]; try reflexivity. rewrite IH. destruct (host_calls do e l1 c1) as [[h1 c2]| |]; cbn [bind]; try reflexivity.
      destruct (host_calls do e l2 c2) as [[h2 c3]| |]; reflexivity.
  Qed.
  Lemma host_second : forall n s c h c', host do e n s c = Ok (h, c') -> snd c' = if is_point (n, s) then fst c else snd c.
  Proof.
    intros n s [x y] h c' H. unfold host in H. unfold is_point. cbn [fst snd] in *. destruct (N.eqb_spec n 17) as [->|D]; cbn [andb].
    - replace (10 <=? v_gas s)%Z with (negb (v_gas s <? 10)%Z) by lia. destruct (v_gas s <? 10)%Z; inversion H; reflexivity.
    - destruct (exec do (call e n s (snd x)) (fst x)) as [a [[h0 r]| |]]; inversion H; reflexivity.
  Qed.
  Lemma no_point : forall l c hs c', existsb is_point l = false -> host_calls do e l c = Ok (hs, c') -> snd c' = snd c.
  Proof.
    induction l as [|[n s] l IH]; intros c hs c' E H; cbn [host_calls existsb] in *; [inversion H; reflexivity|]. apply Bool.orb_false_iff in E. destruct E as [E1 E2].
    destruct (host do e n s c) as [[h c1]| |] eqn:X; cbn [bind] in H; try discriminate. destruct (host_calls do e l c1) as [[h1 c2]| |] eqn:Y; cbn [bind] in H; try discriminate.
    inversion H; subst. rewrite (IH _ _ _ E2 Y), (host_second _ _ _ X), E1. reflexivity.
  Qed.
  Theorem checkpoint : forall l1 s l2 c h1 x y hs c', host_calls do e l1 c = Ok (h1, (x, y)) -> is_point (17, s) = true -> existsb is_point l2 = false ->
    host_calls do e (l1 ++ (17, s) :: l2) c = Ok (hs, c') -> snd c' = x.
  Proof.
    intros l1 s l2 c h1 x y hs c' E P N H. rewrite calls_app, E in H. cbn [bind host_calls] in H. destruct (host do e 17 s (x, y)) as [[h d]| |] eqn:X; cbn [bind] in H; try discriminate.
    destruct (host_calls do e l2 d) as [[h2 d2]| |] eqn:Y; cbn [bind] in H; try discriminate. inversion H; subst. rewrite (no_point _ _ N Y), (host_second _ _ _ X), P. reflexivity.
  Qed.
  Lemma last_point : forall l, existsb is_point l = true -> exists l1 s l2, l = l1 ++ (17, s) :: l2 /\ is_point (17, s) = true /\ existsb is_point l2 = false.
  Proof.
    induction l as [|[n s] l IH]; intros H; [discriminate|]. destruct (existsb is_point l) eqn:E.
    - destruct (IH eq_refl) as [l1 [s1 [l2 [-> X]]]]. exists ((n, s) :: l1), s1, l2. split; [reflexivity | exact X].
    - cbn [existsb] in H. rewrite E, Bool.orb_false_r in H. assert (n = 17) as ->. { unfold is_point in H. cbn [fst] in H. apply andb_prop in H. destruct H as [H _]. lia. }
      exists [], s, l. repeat split; assumption.
  Qed.
  Theorem falls_back : forall l c hs c', host_calls do e l (c, c) = Ok (hs, c') -> fallback do e l c (snd c').
  Proof.
    intros l c hs c' H. destruct (existsb is_point l) eqn:E.
    - right. destruct (last_point l E) as [l1 [s [l2 [-> [P N]]]]]. rewrite calls_app in H. destruct (host_calls do e l1 (c, c)) as [[h1 [x y]]| |] eqn:X; cbn [bind] in H; try discriminate.
      exists l1, s, l2, h1, y. repeat split; try assumption. rewrite X. f_equal. f_equal. f_equal. symmetry. eapply checkpoint; try eassumption.
      rewrite calls_app, X. exact H.
    - left. split; [exact E|]. rewrite (no_point _ _ E H). reflexivity.
  Qed.

  (** Every run of a program is a list of calls *)
  Theorem run_is_calls : forall t p f s c x s' c', invoke_extended (host do e) f t p s c = Some (Ok (x, s', c')) ->
    exists l hs, host_calls do e l c = Ok (hs, c') /\ Forall (fun a => host_allowed t (fst a) = true) l.
  Proof.
    intros t p. induction f as [|f IH]; intros s c x s' c' H; [discriminate|]. cbn [invoke_extended] in H.
    destruct (invoke_general (S f) p s) as [[[x0 s1]|z|]|]; try discriminate.
    destruct x0; try (inversion H; subst; exists [], []; split; [reflexivity | constructor]).
    unfold execute_host in H. match type of H with context [host_allowed t ?h] => destruct (host_allowed t h) eqn:Al end; [|change (255 =? 255) with true in H; cbv iota in H].
    - match type of H with context [if ?a =? 255 then _ else _] => rename a into h; destruct (N.eqb_spec h 255) as [->|D] end.
      { destruct t; discriminate. }
      destruct (host do e h s1 c) as [[hc c1]| |] eqn:E; try discriminate.
      assert (One : forall l hs, host_calls do e l c1 = Ok (hs, c') -> Forall (fun a => host_allowed t (fst a) = true) l ->
        exists l hs, host_calls do e l c = Ok (hs, c') /\ Forall (fun a => host_allowed t (fst a) = true) l).
      { intros l hs X Y. exists ((h, s1) :: l), (hc :: hs). split; [|constructor; assumption]. cbn [host_calls]. rewrite E. cbn [bind]. rewrite X. reflexivity. }
      assert (Z : c1 = c' -> exists l hs, host_calls do e l c = Ok (hs, c') /\ Forall (fun a => host_allowed t (fst a) = true) l).
      { intros ->. apply (One [] []); [reflexivity | constructor]. }
      destruct (h_exit hc); try discriminate; destruct (apply_host s1 hc) as [s2| |]; try discriminate; try (inversion H; subst; apply Z; reflexivity).
      destruct (v_gas s2 <? 0)%Z; [inversion H; subst; apply Z; reflexivity|]. destruct (IH _ _ _ _ _ H) as [l [hs [X Y]]]. eapply One; eassumption.
    - cbn [h_exit what_result] in H. destruct (apply_host s1 what_result) as [s2| |]; try discriminate.
      destruct (v_gas s2 <? 0)%Z; [inversion H; subst; exists [], []; split; [reflexivity | constructor]|]. apply (IH _ _ _ _ _ H).
  Qed.
  Theorem invoke_is_calls : forall f t blob pc limit args c g o c', invoke_with_args (host do e) f t blob pc limit args c = Some (Ok (g, o, c')) ->
    exists l hs, host_calls do e l c = Ok (hs, c') /\ Forall (fun a => host_allowed t (fst a) = true) l.
  Proof.
    intros f t blob pc limit args c g o c' H. unfold invoke_with_args in H. destruct (prepare blob) as [fp| |]; try discriminate. unfold run_prepared in H.
    destruct (new_pvm (fst fp) args) as [s0|]; [|inversion H; subst; exists [], []; split; [reflexivity | constructor]].
    destruct (invoke_extended _ _ _ _ _ _) as [[[[x s] c1]| |]|] eqn:E; try discriminate. destruct (result_of limit x s) as [[g' o']| |]; cbn [bind] in H; try discriminate.
    inversion H; subst. apply (run_is_calls _ _ _ _ _ E).
  Qed.
End Do.
