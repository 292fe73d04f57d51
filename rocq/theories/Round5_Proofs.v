(** The round as a whole. *)
From Verif Require Import Base Base_Proofs PvmMem_Model PvmProg_Model PvmStep_Model PvmInit_Model Sandbox_Model Sandbox_Spec Sandbox_Proofs Host_Model Host_Spec Acc_Model Round_Model Round_Spec Round2_Spec Round1_Proofs Round2_Proofs Round3_Proofs Round4_Proofs.
From Coq Require Import Permutation.
Set Implicit Arguments.
Open Scope N_scope.

(** ** Preimages *)
Lemma solicited_alike : forall e w w' s i, alike s w w' -> solicited e w s i -> solicited e w' s i.
Proof. intros e w w' s i A [H1 H2]. split; [apply (alike_has A), H1 | rewrite <- (proj2 A); exact H2]. Qed.
Lemma provided_step : forall e P w v w' v', provided e P w v -> (forall s, (alike s w' w /\ alike s v' v) \/ (alike s v' w' /\ ((forall i, ~ In (s, i) P) \/ ~ has w' s))) -> provided e P w' v'.
Proof.
  intros e P w v w' v' [P1 [P2 P3]] H. split; [|split].
  - intros s. destruct (H s) as [[[A _] [B _]]|[[A _] _]]; [rewrite A, B; apply P1 | exact A].
  - intros s i I S. destruct (H s) as [[A B]|[A [N|N]]]; [|destruct (N _ I) | destruct N; apply S]. rewrite !(proj2 B). apply P2; [exact I | eapply solicited_alike; eassumption].
  - intros s k K. destruct (H s) as [[A B]|[A _]]; [|apply A]. rewrite (proj2 A), (proj2 B). apply P3. intros i I S. apply K; [exact I|]. eapply solicited_alike; [apply alike_sym, A | exact S].
Qed.
Lemma provided_proper : forall e P w v, provided e P w v -> proper w -> proper v.
Proof. intros e P w v [P1 [P2 P3]] W s E k. rewrite P1 in E. rewrite P3; [apply W, E|]. intros i _ [H _]. contradiction. Qed.
Definition apart (e : env) (P : list (N * bytes)) : Prop := forall s i s' i', In (s, i) P -> In (s', i') P -> e_hash e i = e_hash e i' -> i = i'.

Lemma provide_one_ok : forall G ch e sb s i P w, proper G -> proper w -> sb_ok G ch sb -> provided e P w (view G sb) -> N.of_nat (length i) < 2 ^ 32 ->
  (forall s' i', In (s', i') P -> e_hash e i = e_hash e i' -> i = i') ->
  exists sb', provide_one G e (Ok sb) (s, i) = Ok sb' /\ sb_ok G ch sb' /\ provided e (P ++ [(s, i)]) w (view G sb').
Proof.
  intros G ch e sb s i P w Pg Pw A Pr L Inj. unfold provide_one. cbn [bind]. rewrite N.mod_small by exact L. set (h := e_hash e i). set (len := N.of_nat (length i)).
  destruct (exists_active_ok s A) as [A1 [V1 R]]. destruct (exists_active G sb s) as [sb1 there]. cbn [fst snd] in *. pose proof Pr as [P1 [P2 P3]].
  assert (None_new : forall v, same v (view G sb) -> (solicited e w s i -> exists i', In (s, i') P /\ solicited e w s i' /\ i' = i) -> provided e (P ++ [(s, i)]) w v).
  { intros v Sv O. split; [|split].
    - intros x. rewrite (proj1 Sv). apply P1.
    - intros x j I S. rewrite !(proj2 Sv). apply in_app_or in I. destruct I as [I|[I|[]]]; [apply P2; assumption|]. injection I as <- <-. destruct (O S) as [i' [O1 [O2 ->]]]. apply P2; assumption.
    - intros x k K. rewrite (proj2 Sv). apply P3. intros j I S. apply K; [apply in_or_app; left; exact I | exact S]. }
  destruct there; cbn [negb].
  2:{ exists sb1. split; [reflexivity|]. split; [exact A1|]. apply None_new; [exact V1|]. intros [S _]. exfalso. apply S. rewrite <- P1. cbn [view g_meta]. destruct (vmeta G sb s); [discriminate | reflexivity]. }
  assert (Hw : has w s) by (red; rewrite <- P1; cbn [view g_meta]; destruct (vmeta G sb s); [discriminate | discriminate]).
  destruct (get_entry_ok s (KLookup h len) Pg A1) as [A2 [V2 R2]]. destruct (get_entry G sb1 s (KLookup h len)) as [sb2 o]. cbn [fst snd] in *.
  assert (V20 : same (view G sb2) (view G sb)) by (eapply same_trans; eassumption).
  assert (Ro : o = g_ent (view G sb) s (KLookup h len)) by (rewrite R2; apply V1). clear R2.
  assert (Had : o <> Some [] -> solicited e w s i -> exists i', In (s, i') P /\ solicited e w s i' /\ i' = i).
  { intros O S. (* the entry is not as it was: provided before *)
    destruct (in_dec (fun a b : N * bytes => ltac:(decide equality; [apply list_eq_dec, N.eq_dec | apply N.eq_dec]) : {a = b} + {a <> b}) (s, i) P) as [I|I]; [exists i; auto|]. exfalso. apply O. rewrite Ro, P3; [apply S|].
    intros j J Sj. split; [discriminate|]. intros E. injection E as E1 E2. apply I. rewrite (Inj s j J E1). exact J. }
  destruct o as [[|x o]|]; [|exists sb2; split; [reflexivity|]; split; [exact A2|]; apply None_new; [exact V20 | apply Had; discriminate] | exists sb2; split; [reflexivity|]; split; [exact A2|]; apply None_new; [exact V20 | apply Had; discriminate]].
  assert (Pv : proper (view G sb)) by (eapply provided_proper; eassumption).
  assert (X : vmeta G sb2 s <> None) by (rewrite (vmeta_same s V20); change (has (view G sb) s); red; rewrite P1; exact Hw).
  destruct (insert_entry_ok s (KPreimage h) i A2 X) as [A3 [V3 _]]. set (sb3 := fst (insert_entry G sb2 s (KPreimage h) i)) in *.
  assert (P3' : proper (view G sb3)).
  { eapply same_proper; [apply same_sym; exact V3|]. intros y E k. cbn [with_ent g_meta g_ent] in *. assert (Y : g_ent (view G sb2) y k = None) by (rewrite (proj2 V20); apply Pv; rewrite <- (proj1 V20); exact E). rewrite Y. destruct (N.eqb_spec y s) as [->|]; [exfalso; apply X; exact E | reflexivity]. }
  destruct (extend_ok s h len [e_now e] Pg P3' A3) as [A4 V4].
  assert (Lk : vent G sb3 s (KLookup h len) = Some []).
  { change (g_ent (view G sb3) s (KLookup h len) = Some []). rewrite (proj2 V3). cbn [with_ent g_ent]. rewrite N.eqb_refl. destruct (ekey_eq (KLookup h len) (KPreimage h)); [discriminate|]. rewrite (proj2 V20). congruence. }
  rewrite Lk in V4. cbn [length plus Nat.leb app] in V4. destruct (extend_slots G sb3 s h len [e_now e]) as [sb4 b]. cbn [fst snd] in *. destruct V4 as [V4 ->].
  exists sb4. split; [reflexivity|]. split; [exact A4|].
  assert (M4 : forall y, g_meta (view G sb4) y = g_meta (view G sb) y) by (intros y; rewrite (proj1 V4); cbn [with_ent g_meta]; rewrite (proj1 V3); cbn [with_ent g_meta]; apply V20).
  assert (E4 : forall y k, g_ent (view G sb4) y k = if N.eqb y s then if ekey_eq k (KLookup h len) then Some [e_now e] else if ekey_eq k (KPreimage h) then Some i else g_ent (view G sb) y k else g_ent (view G sb) y k).
  { intros y k. rewrite (proj2 V4). cbn [with_ent g_ent]. rewrite (proj2 V3). cbn [with_ent g_ent]. rewrite (proj2 V20). destruct (y =? s); [|reflexivity]. destruct (ekey_eq k (KLookup h len)); [reflexivity|]. destruct (ekey_eq k (KPreimage h)); reflexivity. }
  assert (Si : solicited e w s i).
  { split; [exact Hw|]. fold h len. destruct (g_ent w s (KLookup h len)) as [l|] eqn:Y.
    - destruct l; [reflexivity|]. exfalso. rewrite P3, Y in Ro; [discriminate|]. intros j _ [_ Sj]. split; [discriminate|]. intros Z. rewrite <- Z, Y in Sj. discriminate.
    - exfalso. rewrite P3, Y in Ro; [discriminate|]. intros j _ [_ Sj]. split; [discriminate|]. intros Z. rewrite <- Z, Y in Sj. discriminate. }
  split; [|split].
  - intros y. rewrite M4. apply P1.
  - intros y j I S. rewrite !E4. destruct (N.eqb_spec y s) as [->|D].
    + destruct (ekey_eq (KPreimage (e_hash e j)) (KLookup h len)); [discriminate|].
      apply in_app_or in I. destruct I as [I|[I|[]]].
      * destruct (P2 _ _ I S) as [Q1 Q2]. rewrite Q1, Q2. destruct (ekey_eq (KPreimage (e_hash e j)) (KPreimage h)) as [Z|]; [injection Z as Z; rewrite (Inj s j I (eq_sym Z)); split; [reflexivity|]|]; destruct (ekey_eq _ _); try reflexivity; try (split; reflexivity); destruct (ekey_eq _ (KPreimage h)); try discriminate; try reflexivity; split; reflexivity.
      * injection I as <-. fold h len. destruct (ekey_eq (KPreimage h) (KPreimage h)); [|contradiction]. destruct (ekey_eq (KLookup h len) (KLookup h len)); [|contradiction]. split; reflexivity.
    + apply in_app_or in I. destruct I as [I|[I|[]]]; [apply P2; assumption | congruence].
  - intros y k K. rewrite E4. destruct (N.eqb_spec y s) as [->|D].
    + assert (Ii : In (s, i) (P ++ [(s, i)])) by (apply in_or_app; right; left; reflexivity). destruct (K i Ii Si) as [K1 K2]. fold h len in K1, K2. destruct (ekey_eq k (KLookup h len)); [contradiction|]. destruct (ekey_eq k (KPreimage h)); [contradiction|].
      apply P3. intros j I S. apply K; [apply in_or_app; left; exact I | exact S].
    + apply P3. intros j I S. apply K; [apply in_or_app; left; exact I | exact S].
Qed.
Lemma provide_ok : forall G ch e l sb P w, proper G -> proper w -> sb_ok G ch sb -> provided e P w (view G sb) -> (forall s i, In (s, i) l -> N.of_nat (length i) < 2 ^ 32) -> apart e (P ++ l) ->
  exists sb', provide G e sb l = Ok sb' /\ sb_ok G ch sb' /\ provided e (P ++ l) w (view G sb').
Proof.
  intros G ch e. induction l as [|[s i] l IH]; intros sb P w Pg Pw A Pr L Inj; [exists sb; split; [reflexivity|]; rewrite app_nil_r; auto|]. unfold provide. cbn [fold_left].
  destruct (@provide_one_ok G ch e sb s i P w Pg Pw A Pr) as [sb1 [E1 [A1 Pr1]]].
  - apply (L s), or_introl, eq_refl.
  - intros s' i' I. apply (Inj s i s' i'); apply in_or_app; [right; left; reflexivity | left; exact I].
  - rewrite E1. destruct (IH sb1 (P ++ [(s, i)]) w Pg Pw A1 Pr1) as [sb2 [E2 [A2 Pr2]]].
    + intros s0 i0 I. apply (L s0), or_intror, I.
    + rewrite <- app_assoc. exact Inj.
    + exists sb2. rewrite <- app_assoc in Pr2. auto.
Qed.

(** ** The union of the worlds *)
Lemma makes_dec : forall d t r s, {makes d t r s} + {~ makes d t r s}.
Proof. intros d t r s. unfold makes. destruct (N.eq_dec t s); [right; tauto|]. destruct (has_dec d s), (has_dec r s); try (right; tauto). left. tauto. Qed.
Lemma removes_dec : forall d t r s, {removes d t r s} + {~ removes d t r s}.
Proof. intros d t r s. unfold removes. destruct (N.eq_dec t s); [right; tauto|]. destruct (has_dec d s), (has_dec r s); try (right; tauto). left. tauto. Qed.
Definition touched (d : gstate) (t : N) (r : gstate) (s : N) : bool := if N.eq_dec s t then true else if makes_dec d t r s then true else if removes_dec d t r s then true else false.
Lemma touched_iff : forall d t r s, touched d t r s = true <-> s = t \/ makes d t r s \/ removes d t r s.
Proof. intros d t r s. unfold touched. destruct (N.eq_dec s t), (makes_dec d t r s), (removes_dec d t r s); split; intros; try tauto; try congruence. Qed.
Definition merge_world (d : gstate) (t : N) (r w : gstate) : gstate := mk_g (fun s => if touched d t r s then g_meta r s else g_meta w s) (fun s k => if touched d t r s then g_ent r s k else g_ent w s k).
Lemma merge_world_at : forall d t r w s, alike s (merge_world d t r w) (if touched d t r s then r else w).
Proof. intros. split; intros; cbn; destruct (touched d t r s); reflexivity. Qed.
Lemma merge_world_proper : forall d t r w, proper r -> proper w -> proper (merge_world d t r w).
Proof. intros d t r w R W s E k. cbn in *. destruct (touched d t r s); auto. Qed.

Lemma merged_nil : forall d, merged d [] d.
Proof. intros d s. split; [intros [t [r [[] _]]]|]. intros _. split; [intros r []|]. split; [intros t r []|]. intros _ _. apply alike_refl. Qed.
Lemma merged_step : forall d rs t r w, merged d rs w -> compatible d (rs ++ [(t, r)]) -> ~ In t (map fst rs) -> has d t -> (forall t' r', In (t', r') rs -> has d t') -> proper r -> (forall t' r', In (t', r') rs -> ~ removes d t' r' t) ->
  merged d (rs ++ [(t, r)]) (merge_world d t r w).
Proof.
  intros d rs t r w M C Nt Ht Hd Pr Kept s. pose proof (merge_world_at d t r w s) as At. destruct (M s) as [M1 M2]. split.
  - intros [t' [r' [I Rm]]]. apply in_app_or in I. destruct (touched d t r s) eqn:T.
    + apply touched_iff in T. eapply alike_empty; [apply alike_sym, At|]. assert (X : removes d t r s).
      { destruct I as [I|[I|[]]]; [|congruence]. destruct T as [->|[T|T]]; [destruct (Kept _ _ I Rm) | destruct Rm as [_ [Rm _]], T as [_ [T _]]; contradiction | exact T]. }
      destruct X as [_ [_ X]]. apply not_has in X. split; [exact X | apply Pr, X].
    + eapply alike_empty; [apply alike_sym, At|]. apply M1. destruct I as [I|[I|[]]]; [eauto|]. injection I as <- <-. assert (Y : touched d t r s = true) by (apply touched_iff; tauto). congruence.
  - intros No. assert (No' : forall t' r', In (t', r') rs -> ~ removes d t' r' s) by (intros t' r' I; apply No, in_or_app; left; exact I). destruct (M2 No') as [M3 [M4 M5]].
    assert (Nr : ~ removes d t r s) by (apply No, in_or_app; right; left; reflexivity). split; [|split].
    + intros r' I. apply in_app_or in I. eapply alike_trans; [exact At|]. destruct I as [I|[I|[]]].
      * assert (T : touched d t r s = false). { destruct (touched d t r s) eqn:T; [|reflexivity]. apply touched_iff in T. destruct T as [->|[T|T]]; [destruct Nt; apply in_map_iff; exists (t, r'); auto | destruct T as [_ [T _]]; destruct (T (Hd _ _ I)) | contradiction]. }
        rewrite T. auto.
      * injection I as -> ->. assert (T : touched d s r' s = true) by (apply touched_iff; auto). rewrite T. apply alike_refl.
    + intros t' r' I Mk. eapply alike_trans; [exact At|]. apply in_app_or in I. destruct I as [I|[I|[]]].
      * assert (T : touched d t r s = false).
        { destruct (touched d t r s) eqn:T; [|reflexivity]. apply touched_iff in T. destruct T as [->|[T|T]]; [destruct Mk as [_ [Mk _]]; contradiction | | contradiction].
          exfalso. apply Nt. rewrite (C t r t' r' s); [apply in_map_iff; exists (t', r'); auto | apply in_or_app; right; left; reflexivity | apply in_or_app; left; exact I | left; split; assumption]. }
        rewrite T. eapply M4; eassumption.
      * injection I as <- <-. assert (T : touched d t r s = true) by (apply touched_iff; auto). rewrite T. apply alike_refl.
    + intros Nh Nm. eapply alike_trans; [exact At|]. rewrite map_app in Nh. assert (T : touched d t r s = false).
      { destruct (touched d t r s) eqn:T; [|reflexivity]. apply touched_iff in T. destruct T as [->|[T|T]]; [exfalso; apply Nh, in_or_app; right; left; reflexivity | | contradiction]. exfalso. apply (Nm t r); [apply in_or_app; right; left; reflexivity | exact T]. }
      rewrite T. apply M5; [intros X; apply Nh, in_or_app; left; exact X | intros t' r' I; apply Nm, in_or_app; left; exact I].
Qed.
Lemma merged_skip : forall d rs t r w, merged d rs w -> (exists t' r', In (t', r') rs /\ removes d t' r' t) -> (forall s, ~ makes d t r s /\ ~ removes d t r s) -> merged d (rs ++ [(t, r)]) w.
Proof.
  intros d rs t r w M [t0 [r0 [I0 R0]]] Q s. destruct (M s) as [M1 M2]. split.
  - intros [t' [r' [I Rm]]]. apply M1. apply in_app_or in I. destruct I as [I|[I|[]]]; [eauto|]. injection I as <- <-. destruct (Q s); contradiction.
  - intros No. destruct M2 as [M3 [M4 M5]]; [intros t' r' I; apply No, in_or_app; left; exact I|]. split; [|split].
    + intros r' I. apply in_app_or in I. destruct I as [I|[I|[]]]; [auto|]. injection I as -> ->. exfalso. apply (No t0 r0); [apply in_or_app; left; exact I0 | exact R0].
    + intros t' r' I Mk. apply in_app_or in I. destruct I as [I|[I|[]]]; [eauto|]. injection I as <- <-. destruct (Q s); contradiction.
    + intros Nh Nm. apply M5; [intros X; apply Nh; rewrite map_app; apply in_or_app; left; exact X | intros t' r' I; apply Nm, in_or_app; left; exact I].
Qed.
