From Verif Require Import Base Base_Proofs LVec_Model.
Ltac Zify.zify_post_hook ::= Z.div_mod_to_equations.

Section P.
  Context {T : Type}.
  Variable MAX : nat.

  Lemma lstep_bounded : forall (v v' : list T) o, length v <= MAX -> lstep MAX v o = Some v' -> length v' <= MAX.
  Proof.
    intros v v' o Hv H. destruct o; cbn [lstep] in H.
    - unfold try_push in H. destruct (Nat.leb_spec MAX (length v)); inversion H; subst; [assumption|].
      rewrite app_length; cbn; lia.
    - unfold try_extend in H. destruct (Nat.ltb_spec MAX (length v + length w)); inversion H; subst; [assumption|].
      rewrite app_length; lia.
    - unfold shift_push in H. destruct (Nat.eqb_spec (length v) MAX).
      + destruct v as [|o v0]; [discriminate|]. inversion H; subst. rewrite app_length. cbn in *. lia.
      + inversion H; subst. rewrite app_length; cbn; lia.
    - unfold remove_at in H. destruct (nth_error v i) eqn:E; [|discriminate].
      assert (Hv' : v' = firstn i v ++ skipn (S i) v) by congruence.
      rewrite Hv', app_length, firstn_length, skipn_length. lia.
    - unfold set_at in H. destruct (Nat.ltb_spec i (length v)); [|discriminate].
      assert (Hv' : v' = firstn i v ++ x :: skipn (S i) v) by congruence.
      rewrite Hv', app_length, firstn_length. cbn [length]. rewrite skipn_length. lia.
    - unfold limited_try_from in H. destruct (Nat.ltb_spec MAX (length w)); inversion H; subst; assumption || lia.
  Qed.

  Lemma lrun_bounded : forall os (v v' : list T), length v <= MAX -> lrun MAX v os = Some v' -> length v' <= MAX.
  Proof.
    induction os as [|o os IH]; intros v v' Hv H; cbn [lrun] in H; [now inversion H; subst|].
    destruct (lstep MAX v o) as [v1|] eqn:E; [|discriminate]. eapply IH; [|exact H]. eapply lstep_bounded; eassumption.
  Qed.

  (* last n elements *)
  Definition lastn (n : nat) (l : list T) : list T := skipn (length l - n) l.

  Lemma shift_push_window : forall (v : list T) x, 0 < MAX -> length v <= MAX ->
    exists o v', shift_push MAX v x = Ok (o, v') /\ v' = lastn MAX (v ++ [x]) /\
      (length v < MAX -> o = None) /\ (length v = MAX -> o = hd_error v).
  Proof.
    intros v x H0 Hv. unfold shift_push, lastn. rewrite app_length. cbn [length].
    destruct (Nat.eqb_spec (length v) MAX) as [He|He].
    - destruct v as [|o v0]; [cbn in *; lia|]. exists (Some o), (v0 ++ [x]). split; [reflexivity|].
      split; [|split; [lia|reflexivity]].
      rewrite He. replace (MAX + 1 - MAX) with 1 by lia. reflexivity.
    - exists None, (v ++ [x]). split; [reflexivity|]. split; [|split; [reflexivity|lia]].
      replace (length v + 1 - MAX) with 0 by lia. reflexivity.
  Qed.

  Lemma lastn_step : forall (w : list T) x, 0 < MAX -> lastn MAX (lastn MAX w ++ [x]) = lastn MAX (w ++ [x]).
  Proof.
    intros w x H0. unfold lastn. rewrite !app_length. cbn [length].
    rewrite skipn_length.
    destruct (Nat.le_gt_cases (length w) MAX) as [H|H].
    - replace (length w - MAX) with 0 by lia. cbn [skipn]. f_equal. lia.
    - replace (length w - (length w - MAX) + 1 - MAX) with 1 by lia.
      replace (length w + 1 - MAX) with (S (length w - MAX)) by lia.
      rewrite !skipn_app. rewrite !skipn_skipn || idtac.
      replace (length w - MAX) with (length w - MAX) by lia.
      rewrite skipn_length.
      replace (1 - (length w - (length w - MAX))) with 0 by lia.
      replace (S (length w - MAX) - length w) with 0 by lia. cbn [skipn]. f_equal.
      generalize (length w - MAX) as k. clear. intros k. revert w.
      induction k as [|k IH]; intros [|a w]; cbn in *; auto.
  Qed.

  Lemma shift_run_window : forall xs (v v' : list T), 0 < MAX -> length v <= MAX ->
    lrun MAX v (map LShift xs) = Some v' -> v' = lastn MAX (v ++ xs).
  Proof.
    assert (G : forall xs (w v' : list T), 0 < MAX ->
      lrun MAX (lastn MAX w) (map LShift xs) = Some v' -> v' = lastn MAX (w ++ xs)).
    { induction xs as [|x xs IH]; intros w v' H0 H.
      - inversion H; subst. now rewrite app_nil_r.
      - cbn [map lrun lstep] in H.
        destruct (shift_push_window (lastn MAX w) x H0) as (o & u & E & Hu & _).
        { unfold lastn. rewrite skipn_length. lia. }
        rewrite E in H. rewrite Hu, lastn_step in H by assumption.
        apply IH in H; [|assumption]. now rewrite <- app_assoc in H. }
    intros xs v v' H0 Hv H. apply (G xs v v' H0). unfold lastn.
    replace (length v - MAX) with 0 by lia. exact H.
  Qed.

  Lemma shift_run_total : forall xs (v : list T), 0 < MAX -> length v <= MAX ->
    exists v', lrun MAX v (map LShift xs) = Some v'.
  Proof.
    induction xs as [|x xs IH]; intros v H0 Hv; [eexists; reflexivity|]. cbn [map lrun lstep].
    destruct (shift_push_window v x H0 Hv) as (o & u & E & Hu & _). rewrite E. apply IH; [assumption|].
    subst u. unfold lastn. rewrite skipn_length. lia.
  Qed.

  Lemma try_push_iff : forall (v v' : list T) x, try_push MAX v x = Ok v' <-> length v < MAX /\ v' = v ++ [x].
  Proof.
    intros. unfold try_push. destruct (Nat.leb_spec MAX (length v)); split; intros H1; try discriminate;
      try (destruct H1; lia).
    - split; [lia|congruence].
    - destruct H1; now subst.
  Qed.
  Lemma try_extend_iff : forall (v v' w : list T), try_extend MAX v w = Ok v' <-> length v + length w <= MAX /\ v' = v ++ w.
  Proof.
    intros. unfold try_extend. destruct (Nat.ltb_spec MAX (length v + length w)); split; intros H1; try discriminate;
      try (destruct H1; lia).
    - split; [lia|congruence].
    - destruct H1; now subst.
  Qed.
  Lemma limited_try_from_iff : forall (w v' : list T), limited_try_from MAX w = Ok v' <-> length w <= MAX /\ v' = w.
  Proof.
    intros. unfold limited_try_from. destruct (Nat.ltb_spec MAX (length w)); split; intros H1; try discriminate;
      try (destruct H1; lia).
    - split; [lia|congruence].
    - destruct H1; now subst.
  Qed.
  Lemma fixed_try_from_iff : forall (w v' : list T), fixed_try_from MAX w = Ok v' <-> length w = MAX /\ v' = w.
  Proof.
    intros. unfold fixed_try_from. destruct (Nat.eqb_spec (length w) MAX); cbn [negb]; split; intros H1; try discriminate;
      try (destruct H1; lia).
    - split; [lia|congruence].
    - destruct H1; now subst.
  Qed.
End P.

Lemma zero_pad_spec : forall block data, 0 < block ->
  exists k, zero_pad block data = Ok (data ++ repeat 0%N k) /\
    (length data + k) mod block = 0 /\ 0 < length data + k /\ (data <> [] -> k < block) /\ (data = [] -> k = block).
Proof.
  intros block data Hb. unfold zero_pad. destruct (Nat.eqb_spec block 0); [lia|].
  destruct data as [|d data'].
  - exists block. cbn [length]. rewrite firstn_nil, Nat.sub_0_r. split; [reflexivity|].
    rewrite Nat.add_0_l, Nat.mod_same by lia. repeat split; try lia; congruence.
  - set (data := d :: data') in *. assert (Hl : 0 < length data) by (subst data; cbn; lia).
    set (q := (length data + block - 1) / block).
    assert (Hq : q * block >= length data /\ q * block < length data + block).
    { subst q. pose proof (Nat.div_mod_eq (length data + block - 1) block) as E.
      pose proof (Nat.mod_upper_bound (length data + block - 1) block ltac:(lia)).
      nia. }
    exists (q * block - length data).
    rewrite firstn_all2 by lia. split; [reflexivity|].
    replace (length data + (q * block - length data)) with (q * block) by lia.
    rewrite Nat.mod_mul by lia. repeat split; try lia. discriminate.
Qed.
