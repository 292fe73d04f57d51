(** The statistics of a history of blocks. *)
From Verif Require Import Base Base_Proofs Stats_Model Stats_Spec Stats_Proofs Stats2_Proofs Stats3_Proofs Stats4_Proofs.
From Coq Require Import Sorted Lia.
Open Scope N_scope.

Section History.
  Variables V C : nat.
  Variable E : N.

  Definition turned (ep : bool) (s : stats) : stats := if ep then new_epoch s else s.
  Definition credited (b : sblock) (xs : list vstat) : list vstat := map (fun v => vplus (nth v xs no_v) (activity v [b])) (seq 0 V).
  Definition next (kv : vstat -> vstat) (kc : cstat -> cstat) (ks : sstat -> sstat) (ep : bool) (b : sblock) (s : stats) : stats :=
    mk_stats (map kv (credited b (curr (turned ep s)))) (prev (turned ep s)) (map (fun c => kc (core_activity c b)) (seq 0 C)) (map (on_snd ks) (service_map b)).
  Definition fits_next (ep : bool) (b : sblock) (s : stats) : Prop :=
    Forall fits_v (credited b (curr (turned ep s))) /\ (forall c, (c < C)%nat -> fits_c (core_activity c b)) /\ Forall (fun p => fits_s (snd p)) (service_map b).
  Definition sized (s : stats) : Prop := length (curr s) = V /\ Forall fits_v (curr s).

  Lemma map_same : forall (A : Type) (l : list A), map (fun x => x) l = l.
  Proof. induction l; simpl; congruence. Qed.
  Lemma on_snd_same : forall (A : Type) (l : list (N * A)), map (on_snd (fun x => x)) l = l.
  Proof. induction l as [|[k x] l IH]; simpl; auto. rewrite IH. auto. Qed.
  Lemma fits_no_v : fits_v no_v.
  Proof. repeat split; reflexivity. Qed.
  Lemma turned_sized : forall ep s, sized s -> sized (turned ep s).
  Proof.
    intros [|] s [H1 H2]; [|split; auto]. split; cbn; [rewrite repeat_length; auto|]. apply Forall_forall. intros x Hx. apply repeat_spec in Hx. subst. apply fits_no_v.
  Qed.
  Lemma credited_fold : forall b l, length l = V ->
    fold_left (fun l d => alter (fst d) (fun x => vadd x (snd d)) l) (vevents V b) l = credited b l.
  Proof. intros. exact (epoch_activity V [b] l H). Qed.
  Lemma shape_of : forall l : list vstat, length l = V -> length l = V /\ Forall (fun _ => True) l.
  Proof. intros. split; auto. apply Forall_forall. auto. Qed.

  Lemma transition_release : forall ep b s, good V C b -> sized s -> transition false C ep b s = Ok (next kept_v kept_c kept_s ep b s).
  Proof.
    intros ep b s G S. destruct (turned_sized ep s S) as [S1 S2]. unfold transition. fold (turned ep s).
    pose proof (a_release _ _ _ _ _ _ (validator_algebra V C) (curr (turned ep s)) b (shape_of _ S1) S2 G) as H. cbv beta in H. rewrite H. cbn [bind].
    rewrite (core_stats_release V), (service_release V C) by auto. cbn [bind]. rewrite credited_fold; auto.
  Qed.
  Lemma transition_exact : forall chk ep b s, good V C b -> sized s -> fits_next ep b s ->
    transition chk C ep b s = Ok (next (fun x => x) (fun x => x) (fun x => x) ep b s).
  Proof.
    intros chk ep b s G S (F1 & F2 & F3). destruct (turned_sized ep s S) as [S1 S2]. unfold transition. fold (turned ep s).
    rewrite <- credited_fold in F1 by auto.
    pose proof (a_exact _ _ _ _ _ _ (validator_algebra V C) chk (curr (turned ep s)) b (shape_of _ S1) G F1) as H. cbv beta in H. rewrite H. cbn [bind].
    rewrite (core_stats_exact V), (service_exact V C) by auto. cbn [bind]. rewrite credited_fold by auto. unfold next. rewrite map_same, on_snd_same. auto.
  Qed.
  Lemma transition_debug : forall ep b s s', good V C b -> sized s -> transition true C ep b s = Ok s' -> fits_next ep b s.
  Proof.
    intros ep b s s' G S H. destruct (turned_sized ep s S) as [S1 S2]. unfold transition in H. fold (turned ep s) in H.
    destruct (validator_stats true b (curr (turned ep s))) as [vs| |] eqn:E1; try discriminate H. cbn [bind] in H.
    destruct (core_stats true C b) as [cs| |] eqn:E2; try discriminate H. cbn [bind] in H.
    destruct (service_stats true b) as [ss| |] eqn:E3; try discriminate H.
    split; [|split].
    - rewrite <- credited_fold by auto. exact (a_debug _ _ _ _ _ _ (validator_algebra V C) (curr (turned ep s)) b vs (shape_of _ S1) S2 G E1).
    - eapply core_stats_debug; eauto.
    - eapply service_debug; eauto.
  Qed.

  Fixpoint run (kv : vstat -> vstat) (kc : cstat -> cstat) (ks : sstat -> sstat) (slot : N) (s : stats) (bs : list sblock) : stats :=
    match bs with [] => s | b :: bs' => run kv kc ks (b_slot b) (next kv kc ks (slot / E <? b_slot b / E) b s) bs' end.
  Definition same_v (x : vstat) := x. Definition same_c (x : cstat) := x. Definition same_s (x : sstat) := x.
  Fixpoint fits_run (slot : N) (s : stats) (bs : list sblock) : Prop :=
    match bs with [] => True | b :: bs' => fits_next (slot / E <? b_slot b / E) b s /\ fits_run (b_slot b) (next same_v same_c same_s (slot / E <? b_slot b / E) b s) bs' end.

  Lemma credited_length : forall b l, length (credited b l) = V.
  Proof. intros. unfold credited. rewrite map_length, seq_length. auto. Qed.
  Lemma next_sized_kept : forall ep b s, sized (next kept_v kept_c kept_s ep b s).
  Proof.
    intros. split; cbn [next curr]; [rewrite map_length; apply credited_length|]. apply Forall_forall. intros x Hx. apply in_map_iff in Hx.
    destruct Hx as (y & <- & _). apply (a_fits _ _ _ _ _ _ v_algebra). auto.
  Qed.
  Lemma next_sized_exact : forall ep b s, fits_next ep b s -> sized (next same_v same_c same_s ep b s).
  Proof.
    intros ep b s (F & _). split; cbn [next curr]; [rewrite map_length; apply credited_length|]. unfold same_v. rewrite map_same. auto.
  Qed.
  Lemma history_release : forall bs slot s, Forall (good V C) bs -> sized s -> history false C E slot s bs = Ok (run kept_v kept_c kept_s slot s bs).
  Proof.
    induction bs as [|b bs IH]; intros slot s G S; auto. inversion G; subst. cbn [history run]. rewrite transition_release by auto. cbn [bind].
    apply IH; auto. apply next_sized_kept.
  Qed.
  Lemma history_exact : forall chk bs slot s, Forall (good V C) bs -> sized s -> fits_run slot s bs ->
    history chk C E slot s bs = Ok (run same_v same_c same_s slot s bs).
  Proof.
    intro chk. induction bs as [|b bs IH]; intros slot s G S F; auto. inversion G; subst. destruct F as [F1 F2]. cbn [history run].
    rewrite transition_exact by auto. cbn [bind]. apply IH; auto. apply next_sized_exact. auto.
  Qed.
  Lemma history_debug : forall bs slot s s', Forall (good V C) bs -> sized s -> history true C E slot s bs = Ok s' -> fits_run slot s bs.
  Proof.
    induction bs as [|b bs IH]; intros slot s s' G S H; [exact I|]. inversion G; subst. cbn [history fits_run] in *.
    destruct (transition true C (slot / E <? b_slot b / E) b s) as [s1| |] eqn:E1; try discriminate H. cbn [bind] in H.
    pose proof (transition_debug _ _ _ _ H2 S E1) as F. split; auto.
    rewrite transition_exact in E1 by auto. inversion E1; subst. eapply IH; eauto. apply next_sized_exact. auto.
  Qed.

  (** *** Epochs *)
  Lemma latest_app : forall bs b, latest (bs ++ [b]) = Some b.
  Proof. intros. unfold latest. rewrite app_length. cbn [length]. replace (length bs + 1 - 1)%nat with (length bs) by lia. rewrite nth_error_app2, Nat.sub_diag by lia. auto. Qed.
  Lemma latest_in : forall bs l, latest bs = Some l -> In l bs.
  Proof. intros. eapply nth_error_In; eauto. Qed.
  Lemma latest_cases : forall bs : list sblock, bs = [] \/ exists bs' l, bs = bs' ++ [l].
  Proof. intros. destruct bs as [|b bs] using rev_ind; eauto. Qed.
  (** blocks in order: no block's epoch is after a later block's *)
  Definition ordered (bs : list sblock) : Prop := forall l b, latest bs = Some l -> In b bs -> b_slot b <= b_slot l.
  Lemma filter_none : forall (A : Type) (f : A -> bool) l, (forall x, In x l -> f x = false) -> filter f l = [].
  Proof. induction l; simpl; intros; auto. rewrite H by auto. apply IHl. auto. Qed.
  Lemma filter_all : forall (A : Type) (f : A -> bool) l, (forall x, In x l -> f x = true) -> filter f l = l.
  Proof. induction l; simpl; intros; auto. rewrite H by auto. f_equal. apply IHl. auto. Qed.
  Lemma epoch_le : forall a b, a <= b -> a / E <= b / E.
  Proof. intros. destruct (N.eq_dec E 0) as [->|Z]; [destruct a, b; cbn; lia|]. apply N.div_le_mono; auto. Qed.
  Lemma same_refl : forall b, same_epoch E b b = true.
  Proof. intros. apply N.eqb_refl. Qed.

  Lemma epochs_first : forall b, this_epoch E [b] = [b] /\ last_epoch E [b] = [].
  Proof. intros. unfold last_epoch, this_epoch, latest. cbn. rewrite same_refl. cbn. auto. Qed.
  Lemma epochs_stay : forall bs l b, latest bs = Some l -> b_slot l / E = b_slot b / E ->
    this_epoch E (bs ++ [b]) = this_epoch E bs ++ [b] /\ last_epoch E (bs ++ [b]) = last_epoch E bs.
  Proof.
    intros bs l b L H. unfold last_epoch. rewrite latest_app, L. unfold this_epoch at 1 2. rewrite latest_app, L.
    assert (X : forall x, same_epoch E b x = same_epoch E l x) by (intro x; unfold same_epoch; rewrite H; auto).
    rewrite !filter_app. cbn [filter]. rewrite same_refl. cbn [negb]. rewrite app_nil_r.
    rewrite (filter_ext _ _ X). split; auto. f_equal. apply filter_ext. intro x. rewrite X. auto.
  Qed.
  Lemma epochs_turn : forall bs l b, latest bs = Some l -> ordered bs -> b_slot l / E < b_slot b / E ->
    this_epoch E (bs ++ [b]) = [b] /\ last_epoch E (bs ++ [b]) = this_epoch E bs.
  Proof.
    intros bs l b L O H. unfold last_epoch. rewrite latest_app. unfold this_epoch at 1. rewrite latest_app.
    assert (X : forall x, In x bs -> same_epoch E b x = false).
    { intros x Hx. unfold same_epoch. apply N.eqb_neq. specialize (O l x L Hx). apply epoch_le in O. lia. }
    rewrite !filter_app. cbn [filter]. rewrite same_refl. cbn [negb]. rewrite app_nil_r.
    rewrite (filter_none _ (same_epoch E b)), (filter_all _ (fun x => negb (same_epoch E b x))); auto.
    intros x Hx. rewrite X; auto.
  Qed.

  Lemma activity_app : forall v bs b, activity v (bs ++ [b]) = vplus (activity v bs) (activity v [b]).
  Proof.
    induction bs as [|a bs IH]; intros b.
    - destruct (activity v ([] ++ [b])) eqn:X. simpl in X. rewrite X. rewrite <- (vplus_0 (mk_vstat _ _ _ _ _ _)) at 1. auto.
    - cbn [app]. rewrite activity_cons, IH, <- vplus_assoc, <- activity_cons. auto.
  Qed.
  Lemma nth_map_seq : forall (A : Type) (f : nat -> A) n z v, (v < n)%nat -> nth v (map f (seq 0 n)) z = f v.
  Proof. intros. apply nth_error_nth. apply nth_error_map_seq. auto. Qed.
  Lemma repeat_map : forall v0 : vstat, repeat v0 V = map (fun _ => v0) (seq 0 V).
  Proof. intros. apply Stats3_Proofs.nth_ext; [rewrite repeat_length, map_length, seq_length; auto|]. intros i Hi. rewrite repeat_length in Hi. rewrite nth_error_map_seq, nth_error_repeat; auto. Qed.

  Section Keep.
    Variables (kv : vstat -> vstat) (kc : cstat -> cstat) (ks : sstat -> sstat).
    Hypothesis kv_plus : forall x y, kv (vplus (kv x) y) = kv (vplus x y).
    Hypothesis kv_0 : kv no_v = no_v.
    Definition keeps (s : stats) (bs : list sblock) : Prop :=
      curr s = map (fun v => kv (activity v (this_epoch E bs))) (seq 0 V) /\ prev s = map (fun v => kv (activity v (last_epoch E bs))) (seq 0 V).
    Lemma run_keeps : forall bs don slot s, keeps s don -> match latest don with Some l => slot = b_slot l | None => don = [] end ->
      ordered don -> StronglySorted N.lt (slot :: map b_slot bs) ->
      keeps (run kv kc ks slot s bs) (don ++ bs) /\
      forall l, latest bs = Some l -> cores (run kv kc ks slot s bs) = map (fun c => kc (core_activity c l)) (seq 0 C) /\
        services (run kv kc ks slot s bs) = map (on_snd ks) (service_map l).
    Proof.
      induction bs as [|b bs IH]; intros don slot s K L O S.
      - rewrite app_nil_r. split; [exact K|]. intros l Hl. discriminate Hl.
      - cbn [map] in S. inversion S; subst. inversion H2; subst. cbn [run].
        assert (K' : keeps (next kv kc ks (slot / E <? b_slot b / E) b s) (don ++ [b])).
        { destruct K as [K1 K2]. unfold keeps, next. cbn [curr prev]. unfold credited. rewrite map_map.
          destruct (latest don) as [l|] eqn:El.
          - subst slot. pose proof (epoch_le _ _ (N.lt_le_incl _ _ H3)) as Le.
            destruct (b_slot l / E <? b_slot b / E) eqn:Ep; cbn [turned new_epoch curr prev].
            + apply N.ltb_lt in Ep. destruct (epochs_turn don l b El O Ep) as [-> ->]. split; [|exact K1]. rewrite K1, map_length, seq_length, repeat_map.
              apply map_ext_in. intros v Hv. apply in_seq in Hv. rewrite nth_map_seq by lia. rewrite vplus_0. auto.
            + apply N.ltb_ge in Ep. destruct (epochs_stay don l b El ltac:(lia)) as [-> ->]. split; [|exact K2]. rewrite K1.
              apply map_ext_in. intros v Hv. apply in_seq in Hv. rewrite nth_map_seq by lia. rewrite kv_plus, activity_app. auto.
          - subst don. destruct (epochs_first b) as [T1 T2]. cbn [app]. rewrite T1, T2.
            assert (K1' : curr s = repeat no_v V) by (rewrite K1, repeat_map; apply map_ext; intro; exact kv_0).
            assert (K2' : prev s = repeat no_v V) by (rewrite K2, repeat_map; apply map_ext; intro; exact kv_0).
            assert (Z : map (fun v => kv (activity v [])) (seq 0 V) = repeat no_v V) by (rewrite repeat_map; apply map_ext; intro; exact kv_0).
            rewrite Z. assert (Q : map (fun v => kv (vplus (nth v (repeat no_v V) no_v) (activity v [b]))) (seq 0 V) = map (fun v => kv (activity v [b])) (seq 0 V)).
            { apply map_ext_in. intros v Hv. apply in_seq in Hv. rewrite repeat_map, nth_map_seq, vplus_0 by lia. auto. }
            destruct (slot / E <? b_slot b / E); cbn [turned new_epoch curr prev].
            + rewrite K1', repeat_length. split; auto.
            + rewrite K1', K2'. split; auto. }
        specialize (IH (don ++ [b]) (b_slot b) (next kv kc ks (slot / E <? b_slot b / E) b s) K').
        rewrite latest_app in IH. specialize (IH eq_refl).
        assert (O' : ordered (don ++ [b])).
        { intros l x Hl Hx. rewrite latest_app in Hl. inversion Hl; subst. apply in_app_or in Hx. destruct Hx as [Hx|[<-|[]]]; [|lia].
          destruct (latest don) as [l'|] eqn:El; [|subst don; destruct Hx]. specialize (O l' x El Hx). lia. }
        specialize (IH O' H1). destruct IH as [IH1 IH2]. rewrite <- app_assoc in IH1. cbn [app] in IH1. split; [exact IH1|].
        intros l Hl. destruct bs as [|b' bs].
        + cbn in Hl. inversion Hl; subst. cbn [run next cores services]. auto.
        + apply IH2. clear S. unfold latest in *. cbn [length] in *. replace (S (S (length bs)) - 1)%nat with (S (length bs)) in Hl by lia. cbn [nth_error] in Hl.
          replace (S (length bs) - 1)%nat with (length bs) by lia. exact Hl.
    Qed.
    Lemma run_statistics : forall bs slot l, latest bs = Some l -> StronglySorted N.lt (slot :: map b_slot bs) ->
      service_entries ks l (map (on_snd ks) (service_map l)) ->
      statistics_are kv kc ks V C E bs l (run kv kc ks slot (genesis V C) bs).
    Proof.
      intros bs slot l L S SE. destruct (run_keeps bs [] slot (genesis V C)) as [[K1 K2] K3]; auto.
      - unfold keeps, genesis. cbn [curr prev]. rewrite repeat_map. split; apply map_ext; intro; symmetry; exact kv_0.
      - reflexivity.
      - intros x b Hx. discriminate Hx.
      - destruct (K3 l L) as [K4 K5]. unfold statistics_are. rewrite K4, K5. auto.
    Qed.
  End Keep.

  Lemma kept_plus : forall x y, kept_v (vplus (kept_v x) y) = kept_v (vplus x y).
  Proof.
    intros. unfold kept_v, vplus. cbn [v_blocks v_tickets v_preimages v_octets v_guarantees v_assurances]. rewrite !mod_add_l. auto.
  Qed.
  Lemma genesis_sized : sized (genesis V C).
  Proof. split; cbn; [apply repeat_length|]. apply Forall_forall. intros x Hx. apply repeat_spec in Hx. subst. apply fits_no_v. Qed.
  Lemma good_latest : forall bs l, Forall (good V C) bs -> latest bs = Some l -> good V C l.
  Proof. intros bs l G L. rewrite Forall_forall in G. apply G. apply latest_in. auto. Qed.

  Theorem release_ok : forall bs slot l, Forall (good V C) bs -> increasing_slots slot bs -> latest bs = Some l ->
    exists s, history false C E slot (genesis V C) bs = Ok s /\ statistics_are kept_v kept_c kept_s V C E bs l s.
  Proof.
    intros bs slot l G S L. exists (run kept_v kept_c kept_s slot (genesis V C) bs). split; [apply history_release; auto; apply genesis_sized|].
    apply run_statistics; auto; [exact kept_plus|]. eapply service_entries_kept. eapply good_latest; eauto.
  Qed.
  Lemma exact_run : forall bs slot l, Forall (good V C) bs -> increasing_slots slot bs -> latest bs = Some l ->
    statistics_are same_v same_c same_s V C E bs l (run same_v same_c same_s slot (genesis V C) bs).
  Proof.
    intros. apply run_statistics; auto. unfold same_s. rewrite on_snd_same. eapply service_entries_exact. eapply good_latest; eauto.
  Qed.
  Theorem debug_ok : forall bs slot l s, Forall (good V C) bs -> increasing_slots slot bs -> latest bs = Some l ->
    history true C E slot (genesis V C) bs = Ok s ->
    statistics_are (fun x => x) (fun x => x) (fun x => x) V C E bs l s /\ history false C E slot (genesis V C) bs = Ok s.
  Proof.
    intros bs slot l s G S L H. pose proof (history_debug bs slot _ s G genesis_sized H) as F.
    rewrite history_exact in H by (auto using genesis_sized). inversion H; subst. split; [apply exact_run; auto|].
    rewrite history_exact by (auto using genesis_sized). auto.
  Qed.

  (** When everything fits. *)
  Lemma fits_plus : forall x y, fits_v (vplus x y) -> fits_v x.
  Proof. intros. unfold fits_v, vplus in *. cbn [v_blocks v_tickets v_preimages v_octets v_guarantees v_assurances] in *. repeat split; lia. Qed.
  Lemma activity_split : forall v l1 l2, activity v (l1 ++ l2) = vplus (activity v l1) (activity v l2).
  Proof.
    induction l1 as [|a l1 IH]; intros l2.
    - cbn [app]. symmetry. exact (vplus_0 (activity v l2)).
    - cbn [app]. rewrite activity_cons, IH, <- vplus_assoc, <- activity_cons. auto.
  Qed.
  Lemma fits_run_ok : forall bs don slot s, Forall (good V C) bs ->
    (forall v b, In b (don ++ bs) -> fits_v (activity v (filter (same_epoch E b) (don ++ bs)))) ->
    (forall b, In b bs -> (forall c, (c < C)%nat -> fits_c (core_activity c b)) /\ (forall i, active i b -> fits_s (service_activity i b))) ->
    keeps same_v s don -> match latest don with Some l => slot = b_slot l | None => don = [] end -> ordered don -> StronglySorted N.lt (slot :: map b_slot bs) ->
    fits_run slot s bs.
  Proof.
    induction bs as [|b bs IH]; intros don slot s G F1 F2 K L O S; [exact I|]. inversion G; subst. cbn [fits_run].
    pose proof (run_keeps same_v same_c same_s (fun x y => eq_refl) eq_refl [b] don slot s K L O) as R. cbn [run] in R.
    assert (S1 : StronglySorted N.lt (slot :: map b_slot [b])).
    { cbn [map] in *. inversion S; subst. inversion H4; subst. repeat constructor; auto. }
    destruct (R S1) as [K' _]. clear R.
    assert (O' : ordered (don ++ [b])).
    { intros l x Hl Hx. rewrite latest_app in Hl. inversion Hl; subst. apply in_app_or in Hx. destruct Hx as [Hx|[<-|[]]]; [|lia].
      cbn [map] in S1. inversion S1 as [|? ? ? Q]. rewrite Forall_forall in Q. specialize (Q _ (or_introl eq_refl)).
      destruct (latest don) as [l'|] eqn:El; [|subst don; destruct Hx]. specialize (O l' x El Hx). lia. }
    split.
    - split; [|split].
      + destruct K' as [K' _]. cbn [next curr] in K'. unfold same_v at 1 in K'. rewrite map_same in K'. rewrite K'.
        apply Forall_forall. intros x Hx. apply in_map_iff in Hx. destruct Hx as (v & <- & _). unfold same_v.
        specialize (F1 v b ltac:(apply in_or_app; right; left; auto)).
        unfold this_epoch. rewrite latest_app. replace (don ++ b :: bs) with ((don ++ [b]) ++ bs) in F1 by (rewrite <- app_assoc; auto).
        rewrite filter_app, activity_split in F1. eapply fits_plus; eauto.
      + apply F2. left. auto.
      + apply Forall_forall. intros [i x] Hx. cbn [snd]. apply (service_map_in V C) in Hx; auto. destruct Hx as [A ->]. apply F2; auto. left. auto.
    - apply (IH (don ++ [b])); auto.
      + intros v x Hx. rewrite <- app_assoc in Hx |- *. apply F1. exact Hx.
      + intros. apply F2. right. auto.
      + rewrite latest_app. auto.
      + cbn [map] in S. inversion S; subst. auto.
  Qed.
  Theorem exact_ok : forall chk bs slot l, Forall (good V C) bs -> increasing_slots slot bs -> latest bs = Some l ->
    (forall v b, In b bs -> fits_v (activity v (filter (same_epoch E b) bs))) ->
    (forall b c, In b bs -> (c < C)%nat -> fits_c (core_activity c b)) ->
    (forall b i, In b bs -> active i b -> fits_s (service_activity i b)) ->
    exists s, history chk C E slot (genesis V C) bs = Ok s /\ statistics_are (fun x => x) (fun x => x) (fun x => x) V C E bs l s.
  Proof.
    intros chk bs slot l G S L F1 F2 F3. eexists. split; [apply history_exact; auto using genesis_sized|apply exact_run; auto].
    apply (fits_run_ok bs [] slot (genesis V C)); auto.
    - unfold keeps, genesis. cbn [curr prev]. rewrite repeat_map. split; reflexivity.
    - reflexivity.
    - intros x b Hx. discriminate Hx.
  Qed.
End History.
