From Verif Require Import Base PvmMem_Model PvmProg_Model PvmStep_Model Sandbox_Model Sandbox_Spec Sandbox_Proofs Host_Model Host_Spec.
From Coq Require Import Permutation.
Set Implicit Arguments.
Open Scope N_scope.

(** ** Running a program of account operations on a sandbox and on the accounts *)
Fixpoint wp {R} (G : gstate) (ch : list N) (p : aprog R) (w : gstate) (Q : gstate -> R -> Prop) : Prop :=
  match p with
  | Ret r => Q w r
  | Do o k => allowed G ch w o /\ incl (changes o) ch /\ wp G ch (k (snd (next w o))) (fst (next w o)) Q
  end.
Lemma wp_mono : forall R (p : aprog R) G ch w (Q Q' : gstate -> R -> Prop), wp G ch p w Q -> (forall w r, Q w r -> Q' w r) -> wp G ch p w Q'.
Proof. induction p as [r|o k IH]; intros G ch w Q Q' H I; simpl in *; [auto|]. destruct H as [A [B C]]. repeat split; try assumption. eapply IH; eassumption. Qed.
Lemma wp_bind : forall A B (p : aprog A) (k : A -> aprog B) G ch w (Q : gstate -> B -> Prop),
  wp G ch p w (fun w r => wp G ch (k r) w Q) -> wp G ch (pbind p k) w Q.
Proof. induction p as [r|o f IH]; intros k G ch w Q H; simpl in *; [assumption|]. destruct H as [X [Y Z]]. repeat split; try assumption. apply IH. assumption. Qed.
Lemma wp_exec : forall R (p : aprog R) G ch sb w (Q : gstate -> R -> Prop), proper G -> proper w -> sb_ok G ch sb -> same (view G sb) w -> wp G ch p w Q ->
  exists w', Q w' (snd (exec (Sandbox_Model.step G) p sb)) /\ sb_ok G ch (fst (exec (Sandbox_Model.step G) p sb)) /\
    same (view G (fst (exec (Sandbox_Model.step G) p sb))) w' /\ proper w'.
Proof.
  induction p as [r|o k IH]; intros G ch sb w Q P W A V H; simpl in *; [exists w; auto|]. destruct H as [L [I H]].
  destruct (@step_ok G ch sb w o P W A V L) as [A1 [V1 R1]]. pose proof (@next_proper G ch w o W L) as W1.
  destruct (Sandbox_Model.step G sb o) as [sb1 x]. simpl in *. subst x.
  eapply IH; try eassumption. eapply sb_ok_incl; [|exact A1]. apply incl_app; [assumption | apply incl_refl].
Qed.

Section Wp.
  Variables (G : gstate) (ch : list N).
  Notation WP := (@wp _ G ch).
  Lemma wp_meta : forall s w (Q : gstate -> option meta -> Prop), Q w (g_meta w s) -> wp G ch (meta_of s) w Q.
  Proof. intros s w Q H. simpl. repeat split; [intros x []|exact H]. Qed.
  Lemma wp_entry : forall s k w (Q : gstate -> option (list N) -> Prop), Q w (g_ent w s k) -> wp G ch (entry_of s k) w Q.
  Proof. intros s k w Q H. simpl. repeat split; [intros x []|exact H]. Qed.
  Lemma wp_exists : forall s w (Q : gstate -> bool -> Prop), Q w (is_some (g_meta w s)) -> wp G ch (exists_of s) w Q.
  Proof. intros s w Q H. simpl. repeat split; [intros x []|exact H]. Qed.
  Lemma wp_active : forall s w (Q : gstate -> bool -> Prop), Q w (is_some (g_meta w s)) -> wp G ch (active_of s) w Q.
  Proof. intros s w Q H. simpl. repeat split; [intros x []|exact H]. Qed.
  Lemma wp_change : forall s f w m m' (Q : gstate -> bool -> Prop), In s ch -> g_meta w s = Some m -> f m = Some m' ->
    Q (with_meta w s (Some m')) true -> wp G ch (try (Change s f)) w Q.
  Proof. intros s f w m m' Q I M F H. simpl. rewrite M, F. repeat split; [intros x [<-|[]]; assumption | exact H]. Qed.
  Lemma wp_put : forall s k v w (Q : gstate -> bool -> Prop), has w s -> Q (with_ent w s k (Some v)) true -> wp G ch (try (Put s k v)) w Q.
  Proof. intros s k v w Q X H. simpl. repeat split; [exact X | intros x [] | exact H]. Qed.
  Lemma wp_del : forall s k w (Q : gstate -> bool -> Prop), Q (with_ent w s k None) true -> wp G ch (try (Del s k)) w Q.
  Proof. intros s k w Q H. simpl. repeat split; [intros x [] | exact H]. Qed.
  Lemma wp_push : forall s h len ts l w (Q : gstate -> bool -> Prop), g_ent w s (KLookup h len) = Some l -> (length l + length ts <= 3)%nat ->
    Q (with_ent w s (KLookup h len) (Some (l ++ ts))) true -> wp G ch (try (Push s h len ts)) w Q.
  Proof. intros s h len ts l w Q E L H. simpl. rewrite E. apply Nat.leb_le in L. rewrite L. repeat split; [intros x [] | exact H]. Qed.
  Lemma wp_drain : forall s h len l w (Q : gstate -> bool -> Prop), g_ent w s (KLookup h len) = Some l ->
    Q (with_ent w s (KLookup h len) (Some [])) true -> wp G ch (try (Drain s h len)) w Q.
  Proof. intros s h len l w Q E H. simpl. rewrite E. repeat split; [intros x [] | exact H]. Qed.
  Lemma wp_eject : forall s h len w (Q : gstate -> bool -> Prop), has w s ->
    (forall k, k <> KLookup h len -> k <> KPreimage h -> g_ent w s k = None) -> (has G s -> ~ In s ch) ->
    Q (without w s) true -> wp G ch (try (Eject s h len)) w Q.
  Proof. intros s h len w Q A B C H. simpl. repeat split; try assumption; [intros x [] ]. Qed.
  Lemma wp_new : forall s m h len w (Q : gstate -> bool -> Prop), ~ has G s ->
    Q (with_ent (with_meta (without w s) s (Some m)) s (KLookup h len) (Some [])) true -> wp G ch (try (New s m h len)) w Q.
  Proof. intros s m h len w Q A H. simpl. repeat split; try assumption; [intros x [] ]. Qed.
End Wp.

(** ** The next free id *)
Definition MOD : N := 2 ^ 32 - 2 ^ 16 - 2 ^ 8.
Lemma cyc_in : forall i k, in_cycle (cyc i k).
Proof. intros i k. unfold in_cycle, cyc. pose proof (N.mod_lt (i - 65536 + k) (2 ^ 32 - 2 ^ 16 - 2 ^ 8)). lia. Qed.
Lemma cyc_add : forall i a b, cyc (cyc i a) b = cyc i (a + b).
Proof.
  intros i a b. unfold cyc. f_equal. change (2 ^ 32 - 2 ^ 16 - 2 ^ 8) with MOD. assert (MZ : MOD <> 0) by discriminate.
  replace (65536 + (i - 65536 + a) mod MOD - 65536) with ((i - 65536 + a) mod MOD) by lia. rewrite N.add_mod_idemp_l by assumption. f_equal. lia.
Qed.
Lemma cyc_0 : forall i, in_cycle i -> cyc i 0 = i.
Proof. intros i H. unfold in_cycle, cyc in *. rewrite N.add_0_r, N.mod_small by lia. lia. Qed.
Lemma advance_cyc : forall i k, advance i k = cyc i k.
Proof. intros i k. unfold advance, cyc, S_MIN, CYCLE. rewrite N.add_comm. reflexivity. Qed.
Lemma cyc_all : forall i j, in_cycle i -> in_cycle j -> exists k, k < MOD /\ j = cyc i k.
Proof.
  intros i j Hi Hj. unfold in_cycle in *. exists ((j + MOD - i) mod MOD). assert (MZ : MOD <> 0) by discriminate. split; [apply N.mod_lt; assumption|].
  unfold cyc. fold MOD. rewrite N.add_mod_idemp_r by assumption. replace (i - 65536 + (j + MOD - i)) with ((j - 65536) + 1 * MOD) by (unfold MOD; lia).
  rewrite N.mod_add by assumption. rewrite N.mod_small by (unfold MOD; lia). lia.
Qed.
Definition found (w : gstate) (i n : N) (r : N + N) : Prop :=
  match r with
  | inr j => exists k, k < n /\ j = cyc i k /\ g_meta w j = None /\ forall l, l < k -> g_meta w (cyc i l) <> None
  | inl j => j = cyc i n /\ forall l, l < n -> g_meta w (cyc i l) <> None
  end.
Lemma find_loop_ok : forall G ch w n i, in_cycle i -> wp G ch (find_loop n i) w (fun w' r => w' = w /\ found w i (Npos n) r).
Proof.
  intros G ch w. assert (T : forall i, in_cycle i -> wp G ch (try_id i) w (fun w' r => w' = w /\ found w i 1 r)).
  { intros i H. unfold try_id. apply wp_bind. apply wp_exists. simpl. split; [reflexivity|]. destruct (g_meta w i) eqn:E; simpl.
    - rewrite advance_cyc. split; [reflexivity|]. intros l Hl. replace l with 0 by lia. rewrite cyc_0 by assumption. congruence.
    - exists 0. rewrite cyc_0 by assumption. repeat split; try lia; assumption. }
  assert (C : forall a b i (p : aprog (N + N)) (k : N -> aprog (N + N)),
    wp G ch p w (fun w' r => w' = w /\ found w i a r) -> (forall j, in_cycle j -> wp G ch (k j) w (fun w' r => w' = w /\ found w j b r)) ->
    wp G ch (let* x := p in match x with inl i => k i | inr i => Ret (inr i) end) w (fun w' r => w' = w /\ found w i (a + b) r)).
  { intros a b i p k Hp Hk. apply wp_bind. eapply wp_mono; [exact Hp|]. intros w' r [-> F]. destruct r as [j|j]; simpl in F.
    - destruct F as [-> T1]. eapply wp_mono; [apply Hk, cyc_in|]. intros w' r [-> F]. split; [reflexivity|]. destruct r as [j'|j']; simpl in F |- *.
      + destruct F as [-> F]. rewrite cyc_add. split; [reflexivity|]. intros l Hl. destruct (N.lt_ge_cases l a) as [L|L]; [apply T1; assumption|].
        replace l with (a + (l - a)) by lia. rewrite <- cyc_add. apply F. lia.
      + destruct F as [k0 [K [-> [Fr F]]]]. exists (a + k0). rewrite cyc_add in Fr |- *. repeat split; try assumption; try lia.
        intros l Hl. destruct (N.lt_ge_cases l a) as [L|L]; [apply T1; assumption|]. replace l with (a + (l - a)) by lia. rewrite <- cyc_add. apply F. lia.
    - simpl. split; [reflexivity|]. destruct F as [k0 [K [E [Fr F]]]]. exists k0. repeat split; try assumption. lia. }
  induction n as [n IH|n IH|]; intros i H.
  - cbn [find_loop]. replace (Npos (xI n)) with (1 + (Npos n + Npos n)) by lia. apply (C 1 (Npos n + Npos n) i (try_id i) (fun i => _)); [apply T; assumption|].
    intros j Hj. apply (C (Npos n) (Npos n)); [apply IH; assumption | intros; apply IH; assumption].
  - cbn [find_loop]. replace (Npos (xO n)) with (Npos n + Npos n) by lia. apply (C (Npos n) (Npos n)); [apply IH; assumption | intros; apply IH; assumption].
  - apply T. assumption.
Qed.
Lemma check_ok : forall G ch w i, in_cycle i -> (exists j, in_cycle j /\ g_meta w j = None) ->
  wp G ch (check i) w (fun w' r => w' = w /\ exists j, r = Ok j /\ first_free w i j).
Proof.
  intros G ch w i H [j [J F]]. unfold check. apply wp_bind. eapply wp_mono; [apply find_loop_ok; assumption|]. intros w' r [-> X]. simpl. split; [reflexivity|].
  destruct r as [j'|j']; simpl in X.
  - exfalso. destruct X as [_ X]. destruct (@cyc_all i j H J) as [k [K E]]. apply (X k K). congruence.
  - exists j'. split; [reflexivity|]. destruct X as [k [K [E [Fr X]]]]. exists k. auto.
Qed.
