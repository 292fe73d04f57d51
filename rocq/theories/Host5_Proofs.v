From Verif Require Import Base Base_Proofs PvmMem_Model PvmProg_Model PvmStep_Model Sandbox_Model Sandbox_Spec Sandbox_Proofs Host_Model Host_Spec Host_Proofs Host2_Proofs Host3_Proofs Host4_Proofs.
From Coq Require Import Permutation.
Set Implicit Arguments.
Open Scope N_scope.

(** ** Histories *)
Lemma permitted_same : forall G ch w w' r n s, same w w' -> permitted G ch (w, r) n s -> permitted G ch (w', r) n s.
Proof.
  intros G ch w w' r n s [E _] [P1 [P2 [P3 [P4 [P5 [P6 P7]]]]]]. cbn [fst snd] in *. unfold has in *. split; [assumption|]. split; [assumption|]. cbn [fst snd].
  split; [intros t m; rewrite <- E; apply P3|]. split; [intros A B C D; apply P4; auto; unfold has in *; rewrite E; assumption|].
  split; [intros A t m h B; rewrite <- !E; apply P5; assumption|]. split; [intros A i B C; apply P6; auto; unfold has in *; rewrite E; assumption|].
  intros A. destruct (P7 A) as [i [I1 [I2 I3]]]. exists i. rewrite <- E. auto.
Qed.
Lemma gp_step_same : forall e n s x h x', is_outcome (gp e n s (match g_meta (fst x) (r_host (snd x)) with Some m => m | None => mk_meta [] 0 0 0 0 0 0 0 0 0 end) x) x h x' ->
  has (fst x) (r_host (snd x)) -> gp_step e n s x h x'.
Proof. intros e n s x h x' H X. unfold has in X. destruct (g_meta (fst x) (r_host (snd x))) as [m|] eqn:E; [|contradiction]. exists m. split; [assumption|]. exact H. Qed.
Lemma seen_tidy : forall G e c x, stands G c x -> tidy e (seen G c) -> tidy e x.
Proof. intros G e [sb r] [w r'] [A B] T. cbn [fst snd] in *. subst r'. eapply tidy_same; [exact T | apply same_sym; exact B | reflexivity | reflexivity]. Qed.
Lemma tidy_seen : forall G e c x, stands G c x -> tidy e x -> tidy e (seen G c).
Proof. intros G e [sb r] [w r'] [A B] T. cbn [fst snd] in *. subst r'. eapply tidy_same; [exact T | exact B | reflexivity | reflexivity]. Qed.
Lemma stands_seen : forall G c, stands G c (seen G c). Proof. intros G [sb r]. split; [reflexivity | apply same_refl]. Qed.

Lemma one_call : forall G ch e n s c X, ready G ch e c -> stands G (fst c) (fst X) -> stands G (snd c) (snd X) -> permitted G ch (seen G (fst c)) n s ->
  exists h c' X', host (Sandbox_Model.step G) e n s c = Ok (h, c') /\ gp_pair e n s X h X' /\ ready G ch e c' /\ stands G (fst c') (fst X') /\ stands G (snd c') (snd X').
Proof.
  intros G ch e n s [[sb r] [sb2 r2]] [[w rw] Y] [PG [Eo [I [O1 [T1 [O2 [T2 Hh]]]]]]] S1 S2 Pm. cbn [fst snd] in *.
  unfold host. destruct (N.eqb_spec n 17) as [->|N17].
  - unfold gp_pair. replace (10 <=? v_gas s)%Z with (negb (v_gas s <? 10)%Z) by lia. cbn [N.eqb Pos.eqb].
    destruct (v_gas s <? 10)%Z; cbn [negb andb].
    + do 3 eexists. split; [reflexivity|]. split; [split; reflexivity|]. cbn [fst snd]. split; [unfold ready; cbn [fst snd]; auto 12|]. split; assumption.
    + do 3 eexists. split; [reflexivity|]. split; [split; reflexivity|]. cbn [fst snd]. split; [unfold ready; cbn [fst snd]; auto 12|]. split; assumption.
  - destruct S1 as [Er Sw]. cbn [fst snd] in *. subst rw. assert (T : tidy e (w, r)) by (eapply tidy_same; [exact T1 | apply same_sym; exact Sw | reflexivity | reflexivity]).
    destruct (td_host _ _ T) as [m [M Sol]]. cbn [fst snd] in *. pose proof (permitted_same Sw Pm) as Pw.
    assert (W : wp G ch (call e n s r) w (post (gp e n s m (w, r)) (w, r))).
    { destruct Pw as [Ml [Gs [Ft Rest]]] eqn:PE. apply call_ok; try assumption. }
    destruct (@wp_exec _ _ G ch sb w _ PG (td_proper _ _ T) O1 Sw W) as [w' [Q [O' [S' P']]]].
    destruct (exec (Sandbox_Model.step G) (call e n s r) sb) as [sb' a]. cbn [fst snd] in *. destruct Q as [h [[wx rx] [-> [Ho Hs]]]]. cbn [fst snd] in *.
    assert (St : gp_step e n s (w, r) h (wx, rx)). { exists m. split; [exact M|]. exact Ho. }
    destruct (tidy_step T St) as [T' Hh']. cbn [fst snd] in *.
    exists h, ((sb', rx), (sb2, r2)), ((wx, rx), Y). split; [reflexivity|]. assert (SS : stands G (sb', rx) (wx, rx)) by (split; [reflexivity | cbn [fst snd]; eapply same_trans; eassumption]).
    split; [|split; [|split; assumption]].
    + unfold gp_pair. destruct (N.eqb_spec n 17); [contradiction|]. cbn [andb]. split; [exact St | reflexivity].
    + split; [assumption|]. split; [assumption|]. cbn [fst snd]. rewrite Hh'. split; [assumption|]. split; [assumption|]. split; [eapply tidy_seen; eassumption|]. split; [assumption|].
      split; assumption.
Qed.
Theorem run_calls : forall G ch e l c X, ready G ch e c -> stands G (fst c) (fst X) -> stands G (snd c) (snd X) -> permitted_run G ch e l c ->
  exists hs c' X', host_calls (Sandbox_Model.step G) e l c = Ok (hs, c') /\ gp_calls e l X hs X' /\ ready G ch e c' /\ stands G (fst c') (fst X') /\ stands G (snd c') (snd X').
Proof.
  intros G ch e. induction l as [|[n s] l IH]; intros c X R S1 S2 P.
  - exists [], c, X. split; [reflexivity|]. split; [reflexivity|]. auto.
  - destruct P as [P0 P]. destruct (@one_call G ch e n s c X R S1 S2 P0) as [h [c1 [X1 [E [St [R1 [S1' S2']]]]]]]. destruct (IH c1 X1 R1 S1' S2' (P _ _ E)) as [hs [c2 [X2 [E2 [St2 [R2 [S3 S4]]]]]]].
    exists (h :: hs), c2, X2. cbn [host_calls]. rewrite E. cbn [bind]. rewrite E2. cbn [bind]. split; [reflexivity|]. split; [exists X1; split; assumption|]. auto.
Qed.

(** ** Money *)
Notation bal w := (fun i => match g_meta w i with Some m => m_balance m | None => 0 end).
Lemma nsum_ext : forall (f g : N -> N) l, (forall k, In k l -> f k = g k) -> sum (map f l) = sum (map g l).
Proof. induction l as [|a l IH]; intros H; simpl; [reflexivity|]. rewrite H, IH; [reflexivity | intros; apply H; right; assumption | left; reflexivity]. Qed.
Lemma holds_ext : forall w w' v, (forall i, g_meta w' i = g_meta w i) -> holds w v -> holds w' v.
Proof.
  intros w w' v E [ids [N [I S]]]. exists ids. split; [assumption|]. split; [intros i; unfold has; rewrite E; apply I|]. rewrite S. apply nsum_ext. intros i _. rewrite E. reflexivity.
Qed.
Lemma nsplit : forall (k : N) ks, NoDup ks -> In k ks -> exists l, Permutation ks (k :: l) /\ ~ In k l /\ NoDup l.
Proof.
  intros k ks N I. apply in_split in I. destruct I as [a [b ->]]. exists (a ++ b). pose proof (NoDup_remove _ _ _ N) as [A B].
  split; [symmetry; apply Permutation_middle | split; assumption].
Qed.
Lemma holds_split : forall w v t m, holds w v -> g_meta w t = Some m -> exists u l, v = m_balance m + u /\ NoDup l /\ ~ In t l /\ (forall i, In i l <-> has w i /\ i <> t) /\ u = sum (map (bal w) l).
Proof.
  intros w v t m [ids [N [I S]]] M. destruct (@nsplit t ids N) as [l [P [Nt Nl]]]; [apply I; unfold has; congruence|]. exists (sum (map (bal w) l)), l.
  split; [rewrite S, (sum_perm (Permutation_map _ P)); cbn [map sum]; rewrite M; reflexivity|]. split; [assumption|]. split; [assumption|]. split; [|reflexivity].
  intros i. rewrite <- I, P. cbn [In]. split; [intros H; split; [right; assumption | intros ->; contradiction] | intros [[->|H] D]; [contradiction | assumption]].
Qed.
Lemma holds_meta : forall w v t m m', holds w v -> g_meta w t = Some m -> exists u, v = m_balance m + u /\ holds (with_meta w t (Some m')) (m_balance m' + u).
Proof.
  intros w v t m m' H M. destruct (holds_split t H M) as [u [l [E [Nl [Nt [I S]]]]]]. exists u. split; [assumption|]. exists (t :: l). split; [constructor; assumption|]. split.
  - intros i. unfold has. cbn [with_meta g_meta In]. destruct (N.eqb_spec i t) as [->|D]; [split; [congruence | left; reflexivity]|]. rewrite I. unfold has.
    split; [intros [X|[X _]]; congruence | intros X; right; auto].
  - cbn [map sum with_meta g_meta]. rewrite N.eqb_refl. f_equal. rewrite S. apply nsum_ext. intros i Hi. destruct (N.eqb_spec i t) as [->|D]; [contradiction | reflexivity].
Qed.
Lemma holds_new : forall w v t m, holds w v -> g_meta w t = None -> holds (with_meta w t (Some m)) (m_balance m + v).
Proof.
  intros w v t m [ids [N [I S]]] M. assert (Nt : ~ In t ids) by (rewrite I; unfold has; congruence). exists (t :: ids). split; [constructor; assumption|]. split.
  - intros i. unfold has. cbn [with_meta g_meta In]. destruct (N.eqb_spec i t) as [->|D]; [split; [congruence | left; reflexivity]|]. rewrite I. unfold has.
    split; [intros [X|X]; congruence | intros X; right; auto].
  - cbn [map sum with_meta g_meta]. rewrite N.eqb_refl. f_equal. rewrite S. apply nsum_ext. intros i Hi. destruct (N.eqb_spec i t) as [->|D]; [contradiction | reflexivity].
Qed.
Lemma holds_without : forall w v t m, holds w v -> g_meta w t = Some m -> exists u, v = m_balance m + u /\ holds (without w t) u.
Proof.
  intros w v t m H M. destruct (holds_split t H M) as [u [l [E [Nl [Nt [I S]]]]]]. exists u. split; [assumption|]. exists l. split; [assumption|]. split.
  - intros i. unfold has. cbn [without g_meta]. rewrite I. destruct (N.eqb_spec i t) as [->|D]; [split; [intros []; contradiction | congruence]|]. unfold has. tauto.
  - rewrite S. apply nsum_ext. intros i Hi. cbn [without g_meta]. destruct (N.eqb_spec i t) as [->|D]; [contradiction | reflexivity].
Qed.
Lemma holds_unique : forall w a b, holds w a -> holds w b -> a = b.
Proof.
  intros w a b [l [N [I ->]]] [l' [N' [I' ->]]]. apply sum_perm, Permutation_map, NoDup_Permutation; try assumption. intros i. rewrite I, I'. tauto.
Qed.

(** ** What a call may do, apart from making an account *)
Inductive effect (e : env) (s : vm) (x : world) (m : meta) : world -> Prop :=
| EffRest : forall r', r_xfers r' = r_xfers (snd x) -> effect e s x m (fst x, r')
| EffHost : forall w' m' r', r_xfers r' = r_xfers (snd x) -> g_meta w' (r_host (snd x)) = Some m' -> m_balance m' = m_balance m ->
    (forall t, t <> r_host (snd x) -> account_eq w' (fst x) t) -> effect e s x m (w', r')
| EffPay : forall a f, a <= m_balance m -> t_amount f = a ->
    effect e s x m (with_meta (fst x) (r_host (snd x)) (Some (set_balance m (m_balance m - a))), add_xfer (snd x) f)
| EffEject : forall t d, t <> r_host (snd x) -> g_meta (fst x) t = Some d -> m_code d = given_to (r_host (snd x)) ->
    (exists h len a y, g_ent (fst x) t (KLookup h len) = Some [a; y] /\ y + e_expiry e < e_now e) ->
    effect e s x m (without (with_meta (fst x) (r_host (snd x)) (Some (set_balance m (m_balance m + m_balance d)))) t, snd x).
Lemma eff_id : forall e s x m, effect e s x m x. Proof. intros e s [w r] m. apply (@EffRest e s (w, r) m r). reflexivity. Qed.
Lemma aeq_ent : forall w t k v u, u <> t -> account_eq (with_ent w t k v) w u.
Proof. intros w t k v u D. split; [reflexivity|]. intros j. cbn [with_ent g_ent]. destruct (N.eqb_spec u t); [contradiction | reflexivity]. Qed.
Lemma aeq_meta : forall w t m u, u <> t -> account_eq (with_meta w t m) w u.
Proof. intros w t m u D. split; [|reflexivity]. cbn [with_meta g_meta]. destruct (N.eqb_spec u t); [contradiction | reflexivity]. Qed.
Lemma aeq_trans : forall a b c u, account_eq a b u -> account_eq b c u -> account_eq a c u.
Proof. intros a b c u [A1 A2] [B1 B2]. split; [congruence|]. intros k. rewrite A2. apply B2. Qed.
Section Effects.
  Variables (e : env) (w : gstate) (r : rest) (m : meta) (s : vm).
  Notation x := (w, r).
  Hypothesis (M : g_meta w (r_host r) = Some m).
  Ltac z := first [apply eff_id | unfold says; cbn [fst snd]; apply eff_id].
  Lemma eff_gives : forall d a o n, effect e s x m (snd (gives s x d a o n)). Proof. intros. unfold gives. destruct (_ && _); z. Qed.
  Lemma eff_replace : forall k v, effect e s x m (replace w (r_host r) m k v, r).
  Proof.
    intros k v. eapply EffHost; [reflexivity | unfold replace; cbn [with_meta g_meta snd]; rewrite N.eqb_refl; reflexivity | reflexivity|].
    cbn [fst snd]. intros t D. eapply aeq_trans; [apply aeq_meta; assumption | apply aeq_ent; assumption].
  Qed.
  Lemma eff_ent : forall k v, effect e s x m (with_ent w (r_host r) k v, r).
  Proof. intros k v. eapply EffHost; [reflexivity | exact M | reflexivity|]. cbn [fst snd]. intros t D. apply aeq_ent. assumption. Qed.
  Lemma gp_effect : forall n, n <> 18 -> effect e s x m (snd (gp e n s m x)).
  Proof.
    intros n D. unfold gp. destruct ((v_gas s <? 10)%Z && negb (n =? 100)); [z|]. assert (W : effect e s x m (snd (what_result, x))) by z.
    destruct n as [|n]; [z|].
    destruct n as [n|n|]; [destruct n as [n|n|] .. |]; try (destruct n as [n|n|]); try (destruct n as [n|n|]); try (destruct n as [n|n|]); try exact W; try contradiction.
    all: unfold gp_fetch, gp_lookup, gp_read, gp_write, gp_info, gp_bless, gp_assign, gp_designate, gp_upgrade, gp_transfer, gp_eject, gp_query, gp_solicit, gp_forget, gp_yield, gp_provide; cbn zeta.
    all: repeat (match goal with |- effect _ _ _ _ (snd ?t) => match t with context [match ?c with _ => _ end] => destruct c eqn:? end end; try z; try apply eff_gives).
    all: unfold says; cbn [fst snd].
    all: try apply eff_replace; try apply eff_ent; try (apply (@EffRest e s (w, r) m); reflexivity).
    all: try (eapply EffHost; [reflexivity | cbn [with_meta with_ent replace g_meta snd fst]; rewrite N.eqb_refl; reflexivity | reflexivity | cbn [fst snd]; intros t0 D0;
      first [apply aeq_meta; assumption | eapply aeq_trans; [apply aeq_ent; assumption|]; eapply aeq_trans; [apply aeq_meta; assumption | apply aeq_ent; assumption]]]).
    all: try (apply EffPay; [lia | reflexivity]).
    all: try (apply EffEject; assumption).
    match goal with H : (if ?c then _ else None) = Some _ |- _ => destruct c eqn:C; [|discriminate] end.
    apply andb_prop in C. destruct C as [_ C]. apply Bool.negb_true_iff, N.eqb_neq in C. apply (@EffEject e s x m); try assumption.
    match goal with H : _ && _ = true |- _ => apply andb_prop in H; destruct H as [_ H]; apply N.ltb_lt in H end. do 4 eexists. split; eassumption.
  Qed.
End Effects.
Lemma step_effect : forall e n s x h x', tidy e x -> n <> 18 -> gp_step e n s x h x' -> exists m, g_meta (fst x) (r_host (snd x)) = Some m /\ effect e s x m x'.
Proof.
  intros e n s x h x' T D H. destruct (gp_step_quiet T D H) as [m [M [E _]]]. exists m. split; [assumption|]. destruct x as [w r]. pose proof (@gp_effect e w r m s M n D) as X.
  rewrite E in X. exact X.
Qed.
Lemma step_conserves : forall e n s x h x' v, tidy e x -> gp_step e n s x h x' -> holds (fst x) v -> exists v', holds (fst x') v' /\ v' + deferred (snd x') = v + deferred (snd x).
Proof.
  intros e n s [w r] h [w' r'] v T H V. cbn [fst snd] in *. destruct (N.eq_dec n 18) as [->|D].
  - destruct (gp_step_new T H) as [E|[id [_ Md]]]; [inversion E; subst; exists v; auto|]. destruct Md as [[m [c [cost [len [M [L [Ll [Co Hw]]]]]]]] NI Id Gr]. cbn [fst snd] in *.
    assert (Dr : deferred r' = deferred r) by (destruct Id as [[_ [j [_ ->]]]|[_ [_ [_ ->]]]]; reflexivity).
    destruct (@holds_meta _ _ _ _ (set_balance m (m_balance m - cost)) V M) as [u [E1 V1]].
    assert (N1 : g_meta (with_meta w (r_host r) (Some (set_balance m (m_balance m - cost)))) id = None).
    { cbn [with_meta g_meta]. destruct (N.eqb_spec id (r_host r)); [congruence | assumption]. }
    pose proof (@holds_new _ _ _ (mk_meta c cost (reg s 9) (reg s 10) (81 + len) (reg s 11) 2 (e_now e) 0 (r_host r)) V1 N1) as V2. cbn [m_balance set_balance] in V2.
    eexists. split; [rewrite Hw; eapply holds_ext; [|exact V2]; reflexivity|]. rewrite Dr. cbn [m_balance]. lia.
  - destruct (step_effect T D H) as [m [M E]]. cbn [fst snd] in *. inversion E; subst; cbn [fst snd] in *.
    + exists v. split; [assumption|]. unfold deferred. match goal with H : r_xfers _ = r_xfers _ |- _ => rewrite H end. reflexivity.
    + exists v. split; [|unfold deferred; match goal with H : r_xfers _ = r_xfers _ |- _ => rewrite H end; reflexivity].
      destruct (@holds_meta _ _ _ _ m' V M) as [u [E1 V1]]. match goal with H : m_balance m' = _ |- _ => rewrite H, <- E1 in V1 end. eapply holds_ext; [|exact V1].
      intros i. cbn [with_meta g_meta]. destruct (N.eqb_spec i (r_host r)) as [->|Di]; [assumption|]. match goal with H : forall t, t <> _ -> account_eq _ _ _ |- _ => apply (H i Di) end.
    + destruct (@holds_meta _ _ _ _ (set_balance m (m_balance m - t_amount f)) V M) as [u [E1 V1]]. eexists. split; [exact V1|]. cbn [m_balance set_balance].
      unfold deferred. cbn [add_xfer r_xfers]. rewrite map_app, sum_app. cbn [map sum]. lia.
    + destruct (@holds_meta _ _ _ _ (set_balance m (m_balance m + m_balance d)) V M) as [u [E1 V1]]. cbn [m_balance set_balance] in V1.
      assert (Md : g_meta (with_meta w (r_host r') (Some (set_balance m (m_balance m + m_balance d)))) t = Some d).
      { cbn [with_meta g_meta]. destruct (N.eqb_spec t (r_host r')); [contradiction | assumption]. }
      destruct (holds_without _ V1 Md) as [u' [E2 V2]]. exists u'. split; [assumption|]. lia.
Qed.
(** The other accounts *)
Lemma step_isolated : forall e n s x h x' t, tidy e x -> gp_step e n s x h x' -> t <> r_host (snd x) ->
  account_eq (fst x') (fst x) t \/
  (g_meta (fst x) t = None /\ exists m, g_meta (fst x') t = Some m /\ m_parent m = r_host (snd x)) \/
  (g_meta (fst x') t = None /\ exists m, g_meta (fst x) t = Some m /\ m_code m = given_to (r_host (snd x))).
Proof.
  intros e n s [w r] h [w' r'] t T H Dt. cbn [fst snd] in *. destruct (N.eq_dec n 18) as [->|D].
  - destruct (gp_step_new T H) as [E|[id [_ Md]]]; [inversion E; subst; left; split; reflexivity|]. destruct Md as [[m [c [cost [len [M [L [Ll [Co Hw]]]]]]]] NI Id Gr]. cbn [fst snd] in *.
    destruct (N.eq_dec t id) as [->|Di].
    + right. left. split; [assumption|]. eexists. rewrite Hw. cbn [with_ent with_meta g_meta]. rewrite N.eqb_refl. split; reflexivity.
    + left. rewrite Hw. eapply aeq_trans; [apply aeq_ent; assumption|]. eapply aeq_trans; [apply aeq_meta; assumption|]. apply aeq_meta. assumption.
  - destruct (step_effect T D H) as [m [M E]]. cbn [fst snd] in *. inversion E; subst; cbn [fst snd] in *.
    + left. split; reflexivity.
    + left. match goal with H : forall t, t <> _ -> account_eq _ _ _ |- _ => apply (H t Dt) end.
    + left. apply aeq_meta. assumption.
    + destruct (N.eq_dec t t0) as [->|Di].
      * right. right. split; [cbn [without g_meta]; rewrite N.eqb_refl; reflexivity | exists d; auto].
      * left. split; cbn [without with_meta g_meta g_ent]; intros; (destruct (N.eqb_spec t t0); [contradiction|]); [|reflexivity]. destruct (N.eqb_spec t (r_host r')); [contradiction | reflexivity].
Qed.

(** An account that goes had a request that expired *)
Lemma step_removed : forall e n s x h x' t, tidy e x -> gp_step e n s x h x' -> t <> r_host (snd x) -> g_meta (fst x) t <> None -> g_meta (fst x') t = None ->
  exists h len a y, g_ent (fst x) t (KLookup h len) = Some [a; y] /\ y + e_expiry e < e_now e.
Proof.
  intros e n s [w r] h [w' r'] t T H Dt Y Z. cbn [fst snd] in *. destruct (N.eq_dec n 18) as [->|D].
  - destruct (gp_step_new T H) as [E|[id [_ Md]]]; [inversion E; subst; congruence|]. destruct Md as [[m [c [cost [len [M [L [Ll [Co Hw]]]]]]]] NI Id Gr]. cbn [fst snd] in *.
    exfalso. rewrite Hw in Z. cbn [with_ent with_meta g_meta] in Z. destruct (N.eqb_spec t id); [discriminate|]. destruct (N.eqb_spec t (r_host r)); [discriminate | contradiction].
  - destruct (step_effect T D H) as [m [M E]]. cbn [fst snd] in *. inversion E; subst; cbn [fst snd] in *.
    + contradiction.
    + exfalso. match goal with H : forall t, t <> _ -> account_eq _ _ _ |- _ => destruct (H t Dt) as [X _]; congruence end.
    + exfalso. cbn [with_meta g_meta] in Z. destruct (N.eqb_spec t (r_host r)); [contradiction | congruence].
    + destruct (N.eq_dec t t0) as [->|Di]; [assumption|]. exfalso. cbn [without with_meta g_meta] in Z. destruct (N.eqb_spec t t0); [contradiction|]. destruct (N.eqb_spec t (r_host r')); [contradiction | congruence].
Qed.

(** A refusal *)
Definition fine (o : outcome) (x : world) : Prop := snd o = x \/ ~ refused (fst o).
Lemma fine_code : forall c x y, c < 2 ^ 64 - 9 \/ c = NONE -> fine (code c, x) y.
Proof.
  intros c x y H. right. intros [A|[b [A B]]]; cbn [fst code h_exit h_r7] in *; [congruence|]. inversion B; subst b.
  unfold WHO, FULL, CORE, CASH, LOW, HUH, NONE in *. cbn [In] in A. lia.
Qed.
Lemma gp_fine : forall e n s m x, tidy e x -> g_meta (fst x) (r_host (snd x)) = Some m -> m_octets m < 2 ^ 63 -> fine (gp e n s m x) x.
Proof.
  intros e n s m [w r] T M F. cbn [fst snd] in *. unfold gp. destruct ((v_gas s <? 10)%Z && negb (n =? 100)); [left; reflexivity|].
  assert (W : fine (what_result, (w, r)) (w, r)) by (left; reflexivity). assert (OKl : OK < 2 ^ 64 - 9 \/ OK = NONE) by (left; reflexivity).
  destruct n as [|n]; [left; reflexivity|]. 
  destruct n as [n|n|]; [destruct n as [n|n|] .. |]; try (destruct n as [n|n|]); try (destruct n as [n|n|]); try (destruct n as [n|n|]); try exact W.
  all: unfold gp_fetch, gp_lookup, gp_read, gp_write, gp_info, gp_bless, gp_assign, gp_designate, gp_upgrade, gp_transfer, gp_eject, gp_query, gp_solicit, gp_forget, gp_yield, gp_provide; cbn zeta.
  all: try (repeat (match goal with |- fine ?t _ => match t with context [match ?c with _ => _ end] => destruct c eqn:? end end; 
         try (left; reflexivity); try (unfold gives; destruct (_ && _); left; reflexivity)); unfold says; try (apply fine_code; assumption); fail).
  - (* NEW *) destruct (@gp_new_cases e w r m s) as [[h0 E]|[c [id [cost [len [E [L [Ll [Co [Id Gr]]]]]]]]]]; rewrite E; [left; reflexivity|].
    apply fine_code. left. destruct Id as [->|[Id _]]; [destruct (td_next _ _ T) as [[_ Nc] _]; cbn [fst snd] in Nc; change (2 ^ 64) with (2 ^ 32 * 2 ^ 32); lia|]. lia.
  - (* WRITE *) destruct (rd _ _ _) as [k|]; [|left; reflexivity]. destruct (if reg s 10 =? 0 then _ else _); [|left; reflexivity]. destruct (_ <? _); [left; reflexivity|].
    unfold says. apply fine_code. destruct (g_ent w (r_host r) (KStorage k)) as [o|] eqn:E; [|right; reflexivity]. left.
    destruct (@counted_le _ _ _ _ _ (td_counted _ _ T _ _ M) E) as [_ C2]. cbn [octets_of] in C2. change (2 ^ 63) with 9223372036854775808 in F. change (2 ^ 64) with 18446744073709551616. lia.
Qed.
Lemma step_refused : forall e n s x h x', tidy e x -> (forall m, g_meta (fst x) (r_host (snd x)) = Some m -> m_octets m < 2 ^ 63) -> gp_step e n s x h x' -> refused h -> x' = x.
Proof.
  intros e n s x h x' T F [m [M H]] R. pose proof (@gp_fine e n s m x T M (F m M)) as Fi. destruct (gp e n s m x) as [h0 [w0 r0]]. destruct H as [-> [Hw H]].
  destruct Fi as [Fi|Fi]; [|cbn [fst] in Fi; contradiction]. cbn [snd] in Fi. subst x. cbn [fst snd] in *. destruct (td_next _ _ T) as [_ Nx]. cbn [fst snd] in Nx. rewrite Nx in H. cbn [is_some negb andb] in H.
  destruct x'. cbn [fst snd] in *. congruence.
Qed.

(** ** Histories of steps *)
Lemma gp_pair_tidy : forall e n s c h c', tidy e (fst c) -> tidy e (snd c) -> gp_pair e n s c h c' -> tidy e (fst c') /\ tidy e (snd c').
Proof.
  intros e n s c h c' T1 T2 H. unfold gp_pair in H. destruct ((n =? 17) && _); [destruct H as [_ ->]; auto|]. destruct (n =? 17); [destruct H as [_ ->]; auto|].
  destruct H as [H ->]. split; [apply (tidy_step T1 H) | assumption].
Qed.
(** What holds of a context and survives every step of the first holds of both in the end *)
Lemma calls_inv : forall (P : world -> Prop) e, (forall n s x h x', tidy e x -> gp_step e n s x h x' -> P x -> P x') ->
  forall l c hs c', tidy e (fst c) -> tidy e (snd c) -> gp_calls e l c hs c' -> P (fst c) -> P (snd c) -> P (fst c') /\ P (snd c').
Proof.
  intros P e St. induction l as [|[n s] l IH]; intros c hs c' T1 T2 H P1 P2; destruct hs as [|h hs]; simpl in H; try contradiction; [subst; auto|].
  destruct H as [d [H1 H2]]. destruct (@gp_pair_tidy e n s c h d T1 T2 H1) as [T3 T4]. apply (IH d hs c' T3 T4 H2).
  - unfold gp_pair in H1. destruct ((n =? 17) && _); [destruct H1 as [_ ->]; assumption|]. destruct (n =? 17); [destruct H1 as [_ ->]; assumption|]. destruct H1 as [H1 _]. apply (St n s (fst c) h (fst d)); assumption.
  - unfold gp_pair in H1. destruct ((n =? 17) && _); [destruct H1 as [_ ->]; assumption|]. destruct (n =? 17); [destruct H1 as [_ ->]; assumption|]. destruct H1 as [_ ->]. assumption.
Qed.
