From Verif Require Import Base Base_Proofs PvmMem_Model PvmProg_Model PvmStep_Model Sandbox_Model Sandbox_Spec Sandbox_Proofs Host_Model Host_Spec Host_Proofs Host2_Proofs Host3_Proofs.
From Coq Require Import Permutation.
Set Implicit Arguments.
Open Scope N_scope.

(** ** The accounts stay in order *)
Lemma sum_app : forall a b, sum (a ++ b) = sum a + sum b. Proof. induction a; intros; simpl; [|rewrite IHa]; lia. Qed.
Lemma sum_perm : forall a b, Permutation a b -> sum a = sum b. Proof. intros a b P. induction P; simpl; lia. Qed.
Lemma split_key : forall (k : ekey) ks, NoDup ks -> In k ks -> exists l, Permutation ks (k :: l) /\ ~ In k l /\ NoDup l.
Proof.
  intros k ks N I. apply in_split in I. destruct I as [a [b ->]]. exists (a ++ b). pose proof (NoDup_remove _ _ _ N) as [A B].
  split; [symmetry; apply Permutation_middle | split; assumption].
Qed.
Lemma sum_map_ext : forall (f g : ekey -> N) l, (forall k, In k l -> f k = g k) -> sum (map f l) = sum (map g l).
Proof. induction l as [|a l IH]; intros H; simpl; [reflexivity|]. rewrite H, IH; [reflexivity | intros; apply H; right; assumption | left; reflexivity]. Qed.
(** The weight of an entry *)
Definition wt (w : gstate) (s : N) (k : ekey) : N := match g_ent w s k with Some v => octets_of k v | None => 0 end.
Lemma counted_put : forall w s m k new, counted w s m -> counted (with_ent w s k new) s (recount m k (g_ent w s k) new).
Proof.
  intros w s m k new [ks [N [I [A B]]]]. fold (wt w s) in B. change (m_octets m = sum (map (wt w s) ks)) in B.
  assert (X : exists l, NoDup l /\ ~ In k l /\ (forall j, In j l <-> j <> k /\ g_ent w s j <> None) /\
    m_items m = (match g_ent w s k with Some _ => items_of k | None => 0 end) + sum (map items_of l) /\ m_octets m = wt w s k + sum (map (wt w s) l)).
  { destruct (g_ent w s k) as [o|] eqn:E.
    - destruct (@split_key k ks N) as [l [P [Nk Nl]]]; [apply I; congruence|]. exists l. split; [assumption|]. split; [assumption|]. split; [|split].
      + intros j. rewrite <- I. split.
        * intros H. split; [intros ->; contradiction | rewrite P; right; assumption].
        * intros [H1 H2]. rewrite P in H2. destruct H2; [congruence | assumption].
      + rewrite A, (sum_perm (Permutation_map items_of P)). reflexivity.
      + rewrite B, (sum_perm (Permutation_map (wt w s) P)). reflexivity.
    - exists ks. assert (Nk : ~ In k ks) by (rewrite I; congruence). repeat split; try assumption.
      + intros ->. contradiction. + apply I. assumption. + intros [_ H]. apply I. assumption.
      + unfold wt at 1. rewrite E. assumption. }
  destruct X as [l [Nl [Nk [Il [Al Bl]]]]].
  assert (WE : forall j, j <> k -> g_ent (with_ent w s k new) s j = g_ent w s j).
  { intros j D. cbn [with_ent g_ent]. rewrite N.eqb_refl. destruct (ekey_eq j k); [contradiction | reflexivity]. }
  assert (WK : g_ent (with_ent w s k new) s k = new).
  { cbn [with_ent g_ent]. rewrite N.eqb_refl. destruct (ekey_eq k k); [reflexivity | contradiction]. }
  assert (SL : sum (map (wt (with_ent w s k new) s) l) = sum (map (wt w s) l)).
  { apply sum_map_ext. intros j Hj. unfold wt. rewrite WE; [reflexivity|]. intros ->. contradiction. }
  unfold wt in Bl at 1. exists (match new with Some _ => k :: l | None => l end). split; [|split; [|split]].
  - destruct new; [constructor; assumption | assumption].
  - intros j. destruct (ekey_eq j k) as [->|D].
    + rewrite WK. destruct new; [split; [congruence | left; reflexivity]|]. split; [contradiction | congruence].
    + rewrite WE by assumption. destruct new; [simpl; rewrite Il; split; [intros [->|[? ?]]; [contradiction | assumption] | right; auto]|]. rewrite Il. tauto.
  - cbn [recount set_usage m_items]. rewrite Al. destruct (g_ent w s k), new; cbn [map sum]; lia.
  - cbn [recount set_usage m_octets]. rewrite Bl. fold (wt (with_ent w s k new) s). destruct (g_ent w s k), new as [v|]; cbn [map sum];
      try (replace (wt (with_ent w s k (Some v)) s k) with (octets_of k v) by (unfold wt; rewrite WK; reflexivity)); rewrite SL; lia.
Qed.
Lemma counted_same : forall w w' s m m', (forall k, g_ent w' s k = g_ent w s k) -> m_items m' = m_items m -> m_octets m' = m_octets m -> counted w s m -> counted w' s m'.
Proof.
  intros w w' s m m' E I O [ks [N [X [A B]]]]. exists ks. split; [assumption|]. split; [intros k; rewrite E; apply X|]. split; [congruence|].
  rewrite O, B. apply sum_map_ext. intros k _. rewrite E. reflexivity.
Qed.
Lemma tidy_same : forall e w w' r r', tidy e (w, r) -> same w' w -> r_host r' = r_host r -> r_next r' = r_next r -> tidy e (w', r').
Proof.
  intros e w w' r r' [P C R S L [m H] Nx] [E1 E2] Hh Hn. cbn [fst snd] in *. split; cbn [fst snd].
  - intros s H0 k. rewrite E2. apply P. rewrite <- E1. assumption.
  - intros s m0 H0. rewrite E1 in H0. eapply counted_same; [| | |apply C; exact H0]; [intros; apply E2 | reflexivity | reflexivity].
  - intros s h. rewrite E2. intros H0. destruct (R s h H0) as [len X]. exists len. rewrite E2. assumption.
  - intros s h len l. rewrite E2. apply S.
  - intros s h len. rewrite E2. apply L.
  - exists m. rewrite Hh, E1. assumption.
  - rewrite Hn, E1. assumption.
Qed.
Section Tidy.
  Variables (e : env) (w : gstate) (r r' : rest) (m : meta).
  Hypothesis (T : tidy e (w, r)) (M : g_meta w (r_host r) = Some m) (Hh : r_host r' = r_host r) (Hn : r_next r' = r_next r).
  Lemma next_host : r_next r <> r_host r. Proof. intros E. destruct (td_next _ _ T) as [_ X]. cbn [fst snd] in X. congruence. Qed.
  Lemma tidy_meta : forall m', m_items m' = m_items m -> m_octets m' = m_octets m -> least m' <= m_balance m' -> tidy e (with_meta w (r_host r) (Some m'), r').
  Proof.
    intros m' I O L. destruct T as [P C R S Sh H Nx]. cbn [fst snd] in *. split; cbn [fst snd].
    - intros s H0 k. cbn [with_meta g_meta g_ent] in *. destruct (s =? r_host r); [discriminate | apply P; assumption].
    - intros s m0 H0. cbn [with_meta g_meta] in H0. destruct (N.eqb_spec s (r_host r)) as [->|D].
      + inversion H0; subst. apply (@counted_same w _ _ m); auto.
      + apply (@counted_same w _ _ m0); auto.
    - exact R. - exact S. - exact Sh.
    - exists m'. rewrite Hh. cbn [with_meta g_meta]. rewrite N.eqb_refl. auto.
    - rewrite Hn. cbn [with_meta g_meta]. destruct (N.eqb_spec (r_next r) (r_host r)) as [Q|Q]; [exfalso; apply (next_host Q) | exact Nx].
  Qed.
  Lemma tidy_ent : forall k new, least (recount m k (g_ent w (r_host r) k) new) <= m_balance m ->
    (match k, new with
     | KPreimage h, Some _ => False
     | KLookup h len, Some l => (length l <= 3)%nat /\ Forall (fun t => t <= e_now e) l /\ len < 2 ^ 32
     | KLookup h len, None => g_ent w (r_host r) (KPreimage h) = None
     | _, _ => True end) ->
    tidy e (replace w (r_host r) m k new, r').
  Proof.
    intros k new L Cd. destruct T as [P C R S Sh H Nx]. cbn [fst snd] in *. 
    assert (GE : forall s j, g_ent (replace w (r_host r) m k new) s j = if s =? r_host r then if ekey_eq j k then new else g_ent w s j else g_ent w s j) by reflexivity.
    assert (GM : forall s, g_meta (replace w (r_host r) m k new) s = if s =? r_host r then Some (recount m k (g_ent w (r_host r) k) new) else g_meta w s) by reflexivity.
    split; cbn [fst snd].
    - intros s H0 j. rewrite GM in H0. rewrite GE. destruct (s =? r_host r); [discriminate | apply P; assumption].
    - intros s m0 H0. rewrite GM in H0. destruct (N.eqb_spec s (r_host r)) as [->|D].
      + inversion H0; subst. apply (@counted_same (with_ent w (r_host r) k new) _ _ (recount m k (g_ent w (r_host r) k) new)); auto.
        apply counted_put, C. assumption.
      + apply (@counted_same w _ _ m0); auto. intros j. rewrite GE. destruct (N.eqb_spec s (r_host r)); [contradiction | reflexivity].
    - intros s h. rewrite GE. destruct (N.eqb_spec s (r_host r)) as [->|D].
      + intros H0. destruct (ekey_eq (KPreimage h) k) as [<-|D]; [destruct new; contradiction|]. destruct (R _ _ H0) as [len X].
        destruct k as [k|k|h0 len0].
        * exists len. rewrite GE, N.eqb_refl. destruct (ekey_eq _ _); [discriminate | assumption].
        * exists len. rewrite GE, N.eqb_refl. destruct (ekey_eq _ _); [discriminate | assumption].
        * destruct new as [l|].
          { exists len. rewrite GE, N.eqb_refl. destruct (ekey_eq _ _); [congruence | assumption]. }
          { exists len. rewrite GE, N.eqb_refl. destruct (ekey_eq (KLookup h len) (KLookup h0 len0)) as [Q|Q]; [|assumption]. inversion Q; subst. contradiction. }
      + intros H0. destruct (R _ _ H0) as [len X]. exists len. rewrite GE. destruct (N.eqb_spec s (r_host r)); [contradiction | assumption].
    - intros s h len l. rewrite GE. destruct (s =? r_host r); [|apply S]. destruct (ekey_eq (KLookup h len) k) as [<-|D]; [|apply S].
      intros ->. tauto.
    - intros s h len. rewrite GE. destruct (s =? r_host r); [|apply Sh]. destruct (ekey_eq (KLookup h len) k) as [<-|D]; [|apply Sh].
      intros X. destruct new; [tauto | congruence].
    - exists (recount m k (g_ent w (r_host r) k) new). rewrite Hh, GM, N.eqb_refl. split; [reflexivity | exact L].
    - rewrite Hn, GM. destruct (N.eqb_spec (r_next r) (r_host r)) as [Q|Q]; [exfalso; apply (next_host Q) | exact Nx].
  Qed.
  Lemma host_least : least m <= m_balance m. Proof. destruct (td_host _ _ T) as [m0 [A B]]. cbn [fst snd] in A. congruence. Qed.
  (** A slot list replaced by another *)
  Lemma tidy_slots : forall h len l l', g_ent w (r_host r) (KLookup h len) = Some l -> (length l' <= 3)%nat -> Forall (fun t => t <= e_now e) l' ->
    tidy e (with_ent w (r_host r) (KLookup h len) (Some l'), r').
  Proof.
    intros h len l l' E A B. assert (Q : recount m (KLookup h len) (Some l) (Some l') = m).
    { destruct (@counted_le _ _ _ _ _ (td_counted _ _ T _ _ M) E) as [C1 C2]. unfold recount. cbn [items_of octets_of] in *.
      replace (m_items m - 2 + 2) with (m_items m) by lia. replace (m_octets m - (81 + len) + (81 + len)) with (m_octets m) by lia. apply set_usage_id. }
    apply (@tidy_same e (replace w (r_host r) m (KLookup h len) (Some l')) _ r' r'); [|unfold replace; rewrite E, Q|reflexivity|reflexivity].
    - apply tidy_ent; [rewrite E, Q; apply host_least|]. repeat split; try assumption. apply (td_short _ _ T (r_host r) h len). cbn [fst]. congruence.
    - samer.
  Qed.
  Lemma tidy_unprovide : forall h, tidy e (with_ent w (r_host r) (KPreimage h) None, r').
  Proof.
    intros h. assert (Q : recount m (KPreimage h) (g_ent w (r_host r) (KPreimage h)) None = m).
    { unfold recount. cbn [items_of octets_of]. destruct (g_ent _ _ _); rewrite !N.sub_0_r, !N.add_0_r; apply set_usage_id. }
    apply (@tidy_same e (replace w (r_host r) m (KPreimage h) None) _ r' r'); [|unfold replace; rewrite Q|reflexivity|reflexivity].
    - apply tidy_ent; [rewrite Q; apply host_least | exact Logic.I].
    - samer.
  Qed.
End Tidy.

(** ** One call *)
Definition quiet (e : env) (x : world) (o : outcome) : Prop :=
  r_host (snd (snd o)) = r_host (snd x) /\ r_next (snd (snd o)) = r_next (snd x) /\ tidy e (snd o).
Lemma pairs_in : forall (A B : Type) (x : A * B) P, (forall a b, x = (a, b) -> P (a, b)) -> P x. Proof. intros A B [a b] P H. apply H. reflexivity. Qed.
Section Step.
  Variables (e : env) (w : gstate) (r : rest) (m : meta) (s : vm).
  Notation x := (w, r).
  Hypothesis (T : tidy e x) (M : g_meta w (r_host r) = Some m).
  Lemma quiet_id : forall h, quiet e x (h, x). Proof. intros h. split; [reflexivity|]. split; [reflexivity | exact T]. Qed.
  Lemma quiet_rest : forall h r', r_host r' = r_host r -> r_next r' = r_next r -> quiet e x (h, (w, r')).
  Proof. intros h r' A B. split; [assumption|]. split; [assumption|]. cbn [snd]. eapply tidy_same; [exact T | apply same_refl | assumption | assumption]. Qed.
  Ltac q := first [apply quiet_id | unfold says; apply quiet_id].
  Lemma quiet_gives : forall d a o n, quiet e x (gives s x d a o n).
  Proof. intros. unfold gives. destruct (_ && _); apply quiet_id. Qed.
  Lemma quiet_fetch : quiet e x (gp_fetch e s x).
  Proof. unfold gp_fetch. destruct (if existsb _ _ then _ else _); [apply quiet_gives | q]. Qed.
  Lemma quiet_lookup : quiet e x (gp_lookup s x).
  Proof. unfold gp_lookup. destruct (rd _ _ _); [|q]. destruct (named _ _); [|q]. destruct (g_ent _ _ _); [apply quiet_gives | q]. Qed.
  Lemma quiet_read : quiet e x (gp_read s x).
  Proof. unfold gp_read. destruct (rd _ _ _); [|q]. destruct (named _ _); [|q]. destruct (g_ent _ _ _); [apply quiet_gives | q]. Qed.
  Lemma quiet_info : quiet e x (gp_info s x).
  Proof. unfold gp_info. destruct (named _ _); [|q]. match goal with |- context [match g_meta ?a ?b with _ => _ end] => destruct (g_meta a b) end; [apply quiet_gives | q]. Qed.
  Lemma quiet_write : quiet e x (gp_write m s x).
  Proof.
    unfold gp_write. destruct (rd _ _ _) as [k|]; [|q]. destruct (if reg s 10 =? 0 then _ else _) as [v|]; [|q].
    set (new := if reg s 10 =? 0 then None else Some v). cbn zeta. destruct (N.ltb_spec (m_balance m) (least (recount m (KStorage k) (g_ent w (r_host r) (KStorage k)) new))); [q|].
    split; [reflexivity|]. split; [reflexivity|]. cbn [says snd]. eapply tidy_ent; try eassumption; try reflexivity; exact Logic.I.
  Qed.
  Lemma quiet_bless : quiet e x (gp_bless e s x).
  Proof. unfold gp_bless. destruct (rd _ _ _); [|q]. destruct (if reg s 11 <? 2 ^ 32 then _ else _); [|q]. destruct (_ && _ && _); [|q]. unfold says. apply quiet_rest; reflexivity. Qed.
  Lemma quiet_assign : quiet e x (gp_assign e s x).
  Proof. unfold gp_assign. destruct (rd _ _ _); [|q]. destruct (_ <=? _); [q|]. destruct (negb _); [q|]. destruct (2 ^ 32 <=? _); [q|]. unfold says. apply quiet_rest; reflexivity. Qed.
  Lemma quiet_designate : quiet e x (gp_designate e s x).
  Proof. unfold gp_designate. destruct (rd _ _ _); [|q]. destruct (negb _); [q|]. unfold says. apply quiet_rest; reflexivity. Qed.
  Lemma quiet_upgrade : quiet e x (gp_upgrade m s x).
  Proof.
    unfold gp_upgrade. destruct (rd _ _ _); [|q]. split; [reflexivity|]. split; [reflexivity|]. cbn [says fst snd]. eapply tidy_meta; try eassumption; try reflexivity.
    apply (host_least T M).
  Qed.
  Lemma quiet_transfer : quiet e x (gp_transfer m s x).
  Proof.
    unfold gp_transfer. destruct (rd _ _ _); [|q]. destruct (if reg s 7 <? 2 ^ 32 then _ else _); [|q]. destruct (_ <? _); [q|].
    destruct (N.ltb_spec (m_balance m) (least m + reg s 8)); [q|]. cbn zeta. destruct (_ <? _)%Z; [q|]. split; [reflexivity|]. split; [reflexivity|]. cbn [says fst snd].
    eapply tidy_meta; try eassumption; try reflexivity. change (least (set_balance m (m_balance m - reg s 8))) with (least m). cbn [m_balance set_balance]. lia.
  Qed.
  Lemma quiet_query : quiet e x (gp_query s x).
  Proof. unfold gp_query. destruct (rd _ _ _); [|q]. destruct (g_ent _ _ _) as [[|? [|? [|? ?]]]|]; q. Qed.
  Lemma quiet_solicit : quiet e x (gp_solicit e m s x).
  Proof.
    unfold gp_solicit. destruct (rd _ _ _) as [h|]; [|q]. cbn zeta. destruct (g_ent w (r_host r) (KLookup h (reg s 8))) as [l|] eqn:E.
    - destruct l as [|a [|b [|c l]]]; try q. destruct (td_slotted _ _ T _ _ _ _ E) as [A B]. split; [reflexivity|]. split; [reflexivity|]. cbn [says fst snd].
      eapply tidy_slots; try eassumption; try reflexivity; try (simpl; lia). inversion B as [|? ? B1 B2]; subst. inversion B2; subst. repeat constructor; try assumption. lia.
    - destruct (N.leb_spec (2 ^ 32) (reg s 8)); cbn [orb]; [q|]. destruct (N.ltb_spec (m_balance m) (least (recount m (KLookup h (reg s 8)) None (Some [])))); [q|].
      split; [reflexivity|]. split; [reflexivity|]. cbn [says fst snd]. eapply tidy_ent; try eassumption; try reflexivity; [rewrite E; assumption|].
      repeat split; [simpl; lia | constructor | assumption].
  Qed.
  Lemma quiet_forget : quiet e x (gp_forget e m s x).
  Proof.
    unfold gp_forget. destruct (rd _ _ _) as [h|]; [|q]. cbn zeta. destruct (g_ent w (r_host r) (KLookup h (reg s 8))) as [l|] eqn:E; [|q].
    assert (Dr : quiet e x (says OK (with_ent (replace w (r_host r) m (KLookup h (reg s 8)) None) (r_host r) (KPreimage h) None, r))).
    { split; [reflexivity|]. split; [reflexivity|]. cbn [says fst snd]. set (w1 := with_ent w (r_host r) (KPreimage h) None).
      assert (T1 : tidy e (w1, r)) by (eapply tidy_unprovide; try eassumption; reflexivity).
      assert (E1 : g_ent w1 (r_host r) (KLookup h (reg s 8)) = Some l).
      { subst w1. cbn [with_ent g_ent]. rewrite N.eqb_refl. destruct (ekey_eq _ _); [discriminate | assumption]. }
      apply (@tidy_same e (replace w1 (r_host r) m (KLookup h (reg s 8)) None) _ r r); [| |reflexivity|reflexivity].
      - eapply tidy_ent; try eassumption; try reflexivity.
        + rewrite E1. pose proof (host_least T M). destruct (@counted_le _ _ _ _ _ (td_counted _ _ T _ _ M) E) as [C1 C2].
          unfold least, recount in *. cbn [m_items m_octets m_gratis set_usage items_of octets_of] in *. lia.
        + subst w1. cbn [with_ent g_ent]. rewrite N.eqb_refl. destruct (ekey_eq (KPreimage h) (KPreimage h)); [reflexivity | congruence].
      - unfold replace. rewrite E1, E. subst w1. samer. }
    destruct (td_slotted _ _ T _ _ _ _ E) as [A B]. 
    destruct l as [|a [|b [|c [|? ?]]]]; [exact Dr | | | | q]; 
      repeat match goal with H : Forall _ (_ :: _) |- _ => apply Forall_inv in H as ?; apply Forall_inv_tail in H end.
    - split; [reflexivity|]. split; [reflexivity|]. cbn [says fst snd]. eapply tidy_slots; try eassumption; try reflexivity; try (simpl; lia). repeat constructor; try assumption; lia.
    - destruct (_ <? _); [exact Dr | q].
    - destruct (_ <? _); [|q]. split; [reflexivity|]. split; [reflexivity|]. cbn [says fst snd]. eapply tidy_slots; try eassumption; try reflexivity; try (simpl; lia). repeat constructor; try assumption; lia.
  Qed.
  Lemma quiet_yield : quiet e x (gp_yield s x).
  Proof. unfold gp_yield. destruct (rd _ _ _); [|q]. unfold says. apply quiet_rest; reflexivity. Qed.
  Lemma quiet_provide : quiet e x (gp_provide e s x).
  Proof.
    unfold gp_provide. destruct (rd _ _ _); [|q]. destruct (named _ _); [|q]. destruct (is_some _); [|q]. destruct (g_ent _ _ _) as [[|? ?]|]; try q.
    destruct (in_dec _ _ _); [q|]. unfold says. apply quiet_rest; reflexivity.
  Qed.
  Lemma tidy_without : forall t d, t <> r_host r -> g_meta w t = Some d ->
    tidy e (without (with_meta w (r_host r) (Some (set_balance m (m_balance m + m_balance d)))) t, r).
  Proof.
    intros t d D Ed. set (m' := set_balance m _). assert (T1 : tidy e (with_meta w (r_host r) (Some m'), r)).
    { eapply tidy_meta; try eassumption; try reflexivity. pose proof (host_least T M). change (least m') with (least m). subst m'. cbn [m_balance set_balance]. lia. }
    set (w1 := with_meta w (r_host r) (Some m')) in *. clearbody w1. destruct T1 as [P C R S Sh [m0 [H0 H1]] [N1 N2]]. cbn [fst snd] in *.
    assert (GE : forall i j, g_ent (without w1 t) i j = if i =? t then None else g_ent w1 i j) by reflexivity.
    assert (GM : forall i, g_meta (without w1 t) i = if i =? t then None else g_meta w1 i) by reflexivity.
    split; cbn [fst snd].
    - intros i Hi j. rewrite GM in Hi. rewrite GE. destruct (i =? t); [reflexivity | apply P; assumption].
    - intros i mi Hi. rewrite GM in Hi. destruct (N.eqb_spec i t); [discriminate|]. apply (@counted_same w1 _ _ mi); auto.
      intros j. rewrite GE. destruct (N.eqb_spec i t); [contradiction | reflexivity].
    - intros i h. rewrite GE. destruct (N.eqb_spec i t); [congruence|]. intros X. destruct (R _ _ X) as [len Y]. exists len. rewrite GE. destruct (N.eqb_spec i t); [contradiction | assumption].
    - intros i h len l. rewrite GE. destruct (i =? t); [discriminate | apply S].
    - intros i h len. rewrite GE. destruct (i =? t); [congruence | apply Sh].
    - exists m0. rewrite GM. destruct (N.eqb_spec (r_host r) t); [congruence | auto].
    - rewrite GM. destruct (r_next r =? t); auto.
  Qed.
  Lemma quiet_eject : quiet e x (gp_eject e m s x).
  Proof.
    unfold gp_eject. destruct (rd _ _ _) as [h|]; [|q]. cbn zeta. destruct (reg s 7 <? 2 ^ 32); cbn [andb]; [|q]. destruct (N.eqb_spec (reg s 7) (r_host r)) as [Q|Q]; cbn [negb]; [q|].
    destruct (g_meta w (reg s 7)) as [d|] eqn:D; [|q]. destruct (list_eq_dec _ _ _); [|q]. destruct (g_ent _ _ _) as [[|a [|y [|? ?]]]|]; try q. destruct (_ && _); [|q].
    split; [reflexivity|]. split; [reflexivity|]. cbn [says fst snd]. apply tidy_without; assumption.
  Qed.
  Lemma tidy_made : forall id h cost g1 g2 gr now len r', g_meta w id = None -> least m + cost <= m_balance m -> len < 2 ^ 32 ->
    let w0 := with_ent (with_meta (with_meta w (r_host r) (Some (set_balance m (m_balance m - cost)))) id (Some (mk_meta h cost g1 g2 (81 + len) gr 2 now 0 (r_host r)))) id (KLookup h len) (Some []) in
    r_host r' = r_host r -> in_cycle (r_next r') -> g_meta w0 (r_next r') = None -> tidy e (w0, r').
  Proof.
    intros id h cost g1 g2 gr now len r' Ni L Ll w0 Hh Nc Nx. assert (Ih : id <> r_host r) by congruence. set (m' := set_balance m (m_balance m - cost)) in *.
    set (new := mk_meta h cost g1 g2 (81 + len) gr 2 now 0 (r_host r)) in *. assert (T1 : tidy e (with_meta w (r_host r) (Some m'), r)).
    { eapply tidy_meta; try eassumption; try reflexivity. change (least m') with (least m). subst m'. cbn [m_balance set_balance]. lia. }
    assert (N1 : g_meta (with_meta w (r_host r) (Some m')) id = None) by (cbn [with_meta g_meta]; destruct (N.eqb_spec id (r_host r)); [contradiction | assumption]).
    set (w1 := with_meta w (r_host r) (Some m')) in *. clearbody w1. destruct T1 as [P C R S Sh [m0 [H0 H1]] _]. cbn [fst snd] in *.
    assert (GE : forall i j, g_ent w0 i j = if i =? id then if ekey_eq j (KLookup h len) then Some [] else g_ent w1 i j else g_ent w1 i j) by reflexivity.
    assert (GM : forall i, g_meta w0 i = if i =? id then Some new else g_meta w1 i) by reflexivity. clearbody w0.
    pose proof (P id N1) as P1. split; cbn [fst snd].
    - intros i Hi j. rewrite GM in Hi. rewrite GE. destruct (i =? id); [discriminate | apply P; assumption].
    - intros i mi Hi. rewrite GM in Hi. destruct (N.eqb_spec i id) as [->|D].
      + inversion Hi; subst mi. exists [KLookup h len]. split; [constructor; [intros [] | constructor]|]. split; [|split].
        * intros k. rewrite GE, N.eqb_refl. destruct (ekey_eq k (KLookup h len)) as [->|D]; [split; [congruence | left; reflexivity]|]. rewrite P1. split; [intros [X|[]]; congruence | congruence].
        * reflexivity.
        * cbn [map sum]. rewrite GE, N.eqb_refl. destruct (ekey_eq (KLookup h len) (KLookup h len)); [|congruence]. cbn [octets_of m_octets new]. lia.
      + apply (@counted_same w1 _ _ mi); auto. intros j. rewrite GE. destruct (N.eqb_spec i id); [contradiction | reflexivity].
    - intros i h0. rewrite GE. destruct (N.eqb_spec i id) as [->|D].
      + destruct (ekey_eq (KPreimage h0) (KLookup h len)); [discriminate|]. rewrite P1. congruence.
      + intros X. destruct (R _ _ X) as [l Y]. exists l. rewrite GE. destruct (N.eqb_spec i id); [contradiction | assumption].
    - intros i h0 l0 l. rewrite GE. destruct (N.eqb_spec i id) as [->|D]; [|apply S]. destruct (ekey_eq _ _); [|apply S].
      intros X. inversion X; subst. split; [simpl; lia | constructor].
    - intros i h0 l0. rewrite GE. destruct (N.eqb_spec i id) as [->|D]; [|apply Sh]. destruct (ekey_eq (KLookup h0 l0) (KLookup h len)) as [Q|Q]; [inversion Q; subst; intros; assumption | apply Sh].
    - exists m0. rewrite Hh, GM. destruct (N.eqb_spec (r_host r) id); [congruence | auto].
    - auto.
  Qed.
End Step.

(** NEW, when it makes an account *)
Lemma gp_new_cases : forall e w r m s, let x := (w, r) in
  (exists h, gp_new e m s x = (h, x)) \/
  (exists h id cost len, gp_new e m s x = (code id, (with_ent (with_meta (with_meta w (r_host r) (Some (set_balance m (m_balance m - cost)))) id
      (Some (mk_meta h cost (reg s 9) (reg s 10) (81 + len) (reg s 11) 2 (e_now e) 0 (r_host r)))) id (KLookup h len) (Some []), r)) /\
     least m + cost <= m_balance m /\ len < 2 ^ 32 /\ cost = 201 + len - reg s 11 /\
     (id = r_next r \/ id < 65536 /\ id = reg s 12 /\ g_meta w id = None /\ holder (p_registrar (r_priv r)) = r_host r) /\
     (reg s 11 = 0 \/ p_manager (r_priv r) = r_host r)).
Proof.
  intros e w r m s x. unfold gp_new. subst x. destruct (rd _ _ _) as [h|]; [|left; eexists; reflexivity]. cbn zeta.
  destruct (N.leb_spec (2 ^ 32) (reg s 8)); [left; eexists; reflexivity|]. destruct (negb (reg s 11 =? 0) && _) eqn:Gr; [left; eexists; reflexivity|].
  set (cost := least (mk_meta _ _ _ _ _ _ _ _ _ _)). destruct (N.ltb_spec (m_balance m) (least m + cost)); [left; eexists; reflexivity|].
  set (special := (reg s 12 <? 65536) && _). destruct (special && is_some _) eqn:TK; [left; eexists; reflexivity|]. right.
  exists h, (if special then reg s 12 else r_next r), cost, (reg s 8). split; [reflexivity|]. split; [assumption|]. split; [assumption|]. split.
  { subst cost. unfold least. cbn [m_items m_octets m_gratis]. lia. } split.
  - destruct special eqn:SP; [|left; reflexivity]. right. subst special. apply andb_prop in SP. destruct SP as [A B]. split; [lia|]. split; [reflexivity|].
    cbn [andb] in TK. split; [destruct (g_meta w (reg s 12)); [discriminate | reflexivity]|]. apply N.eqb_eq. assumption.
  - destruct (N.eqb_spec (reg s 11) 0); [left; assumption|]. cbn [negb andb] in Gr. right. apply N.eqb_eq. destruct (p_manager (r_priv r) =? r_host r); [reflexivity | discriminate].
Qed.

Lemma gp_quiet : forall e n s m x, tidy e x -> g_meta (fst x) (r_host (snd x)) = Some m -> n <> 18 -> quiet e x (gp e n s m x).
Proof.
  intros e n s m [w r] T M D. cbn [fst snd] in M. unfold gp. destruct ((v_gas s <? 10)%Z && negb (n =? 100)); [apply quiet_id; assumption|].
  assert (W : quiet e (w, r) (what_result, (w, r))) by (apply quiet_id; assumption).
  destruct n as [|n]; [apply quiet_id; assumption|].
  destruct n as [n|n|]; [destruct n as [n|n|] .. |]; try (destruct n as [n|n|]); try (destruct n as [n|n|]); try (destruct n as [n|n|]); try exact W; try contradiction;
    first [apply quiet_fetch | apply quiet_lookup | apply quiet_read | apply quiet_write | apply quiet_info | apply quiet_bless | apply quiet_assign | apply quiet_designate
      | apply quiet_upgrade | apply quiet_transfer | apply quiet_eject | apply quiet_query | apply quiet_solicit | apply quiet_forget | apply quiet_yield | apply quiet_provide]; assumption.
Qed.
Lemma gp_step_quiet : forall e n s x h x', tidy e x -> n <> 18 -> gp_step e n s x h x' ->
  exists m, g_meta (fst x) (r_host (snd x)) = Some m /\ gp e n s m x = (h, x') /\ quiet e x (h, x').
Proof.
  intros e n s x h x' T D [m [M H]]. exists m. split; [assumption|]. pose proof (@gp_quiet e n s m x T M D) as Q.
  destruct (gp e n s m x) as [h0 [w0 r0]] eqn:E. destruct H as [-> [Hw H]]. destruct Q as [Q1 [Q2 Q3]]. cbn [fst snd] in *.
  destruct (td_next _ _ Q3) as [_ Q4]. cbn [fst snd] in Q4. rewrite Q2 in Q4. rewrite Q4, andb_false_r in H. destruct x' as [w' r']. cbn [fst snd] in *. subst.
  split; [reflexivity|]. split; [assumption|]. split; assumption.
Qed.
(** NEW: what the step does when an account is made *)
Record made (e : env) (s : vm) (x x' : world) (id : N) : Prop := mk_made {
  ma_host : exists m h cost len, g_meta (fst x) (r_host (snd x)) = Some m /\ least m + cost <= m_balance m /\ len < 2 ^ 32 /\ cost = 201 + len - reg s 11 /\
    fst x' = with_ent (with_meta (with_meta (fst x) (r_host (snd x)) (Some (set_balance m (m_balance m - cost)))) id
      (Some (mk_meta h cost (reg s 9) (reg s 10) (81 + len) (reg s 11) 2 (e_now e) 0 (r_host (snd x))))) id (KLookup h len) (Some []);
  ma_free : g_meta (fst x) id = None;
  ma_id : id = r_next (snd x) /\ (exists j, first_free (fst x') (cyc id 42) j /\ snd x' = set_next (snd x) j) \/
    id < 65536 /\ id = reg s 12 /\ holder (p_registrar (r_priv (snd x))) = r_host (snd x) /\ snd x' = snd x;
  ma_gratis : reg s 11 = 0 \/ p_manager (r_priv (snd x)) = r_host (snd x) }.
Lemma gp_step_new : forall e s x h x', tidy e x -> gp_step e 18 s x h x' -> x' = x \/ exists id, h = code id /\ made e s x x' id.
Proof.
  intros e s [w r] h [w' r'] T [m [M H]]. cbn [fst snd] in *. destruct (td_next _ _ T) as [Nc Nx]. cbn [fst snd] in *. unfold gp in H.
  destruct ((v_gas s <? 10)%Z && negb (18 =? 100)).
  { destruct H as [_ [-> H]]. rewrite Nx in H. cbn [is_some negb andb] in H. subst. left. reflexivity. }
  destruct (@gp_new_cases e w r m s) as [[h0 E]|[c [id [cost [len [E [L [Ll [Co [Id Gr]]]]]]]]]]; rewrite E in H.
  - destruct H as [_ [-> H]]. rewrite Nx in H. cbn [is_some negb andb] in H. subst. left. reflexivity.
  - right. exists id. cbn [fst snd] in H. destruct H as [-> [-> H]]. split; [reflexivity|].
    assert (NI : g_meta w id = None) by (destruct Id as [->|[_ [_ [X _]]]]; assumption). 
    split; cbn [fst snd]; [exists m, c, cost, len; repeat split; assumption | assumption | | assumption].
    destruct Id as [->|[Id [Ir [_ Ih]]]].
    + left. split; [reflexivity|]. rewrite Nx in H. cbn [with_ent with_meta g_meta is_some negb andb] in H. rewrite N.eqb_refl in H. exact H.
    + right. split; [assumption|]. split; [assumption|]. split; [assumption|]. cbn [with_ent with_meta g_meta] in H. rewrite Nx in H. cbn [is_some negb] in H.
      destruct (N.eqb_spec (r_next r) id) as [Q|Q]; [destruct Nc; lia|]. destruct (N.eqb_spec (r_next r) (r_host r)) as [Q'|Q']; [congruence|]. rewrite ?Nx in H. exact H.
Qed.
Lemma tidy_step : forall e n s x h x', tidy e x -> gp_step e n s x h x' -> tidy e x' /\ r_host (snd x') = r_host (snd x).
Proof.
  intros e n s x h x' T H. destruct (N.eq_dec n 18) as [->|D].
  - destruct (gp_step_new T H) as [->|[id [_ Md]]]; [auto|]. destruct Md as [[m [c [cost [len [M [L [Ll [Co Hw]]]]]]]] NI Id Gr]. destruct x as [w r], x' as [w' r']. cbn [fst snd] in *.
    destruct (td_next _ _ T) as [Nc Nx]. cbn [fst snd] in *. 
    assert (Hh : r_host r' = r_host r) by (destruct Id as [[_ [j [_ ->]]]|[_ [_ [_ ->]]]]; reflexivity). split; [|assumption]. rewrite Hw. eapply tidy_made; try eassumption.
    + destruct Id as [[_ [j [[k [-> _]] ->]]]|[_ [_ [_ ->]]]]; [apply cyc_in | assumption].
    + rewrite <- Hw. destruct Id as [[_ [j [[k [_ [F _]]] ->]]]|[Il [_ [_ ->]]]]; [exact F|]. rewrite Hw. cbn [with_ent with_meta g_meta].
      destruct (N.eqb_spec (r_next r) id) as [Q|Q]; [destruct Nc; lia|]. destruct (N.eqb_spec (r_next r) (r_host r)) as [Q'|Q']; [congruence | assumption].
  - destruct (gp_step_quiet T D H) as [m [_ [_ [Q1 [_ Q2]]]]]. auto.
Qed.
