(** Accounts stay in order. *)
From Verif Require Import Base Base_Proofs PvmMem_Model PvmProg_Model PvmStep_Model PvmInit_Model Codec_Model Sandbox_Model Sandbox_Spec Sandbox_Proofs Host_Model Host_Spec Host_Proofs Host4_Proofs Host5_Proofs Host6_Proofs Host7_Proofs
  Acc_Model Acc_Spec Acc_Proofs Acc2_Proofs Round_Model Round_Spec Round2_Spec.
Set Implicit Arguments.
Open Scope N_scope.

(** ** Under the host calls *)
Definition entry_ok (e : env) (k : ekey) (old new : option (list N)) : Prop :=
  new = old \/ new = None \/ (exists b, k = KStorage b) \/ exists h len l, k = KLookup h len /\ new = Some l /\ (l = [] \/ exists l', l = l' ++ [e_now e]).
Definition entries_ok (e : env) (w w' : gstate) : Prop := forall t k, entry_ok e k (g_ent w t k) (g_ent w' t k).
Lemma entries_refl : forall e w, entries_ok e w w. Proof. intros e w t k. left. reflexivity. Qed.
Lemma entries_trans : forall e a b c, entries_ok e a b -> entries_ok e b c -> entries_ok e a c.
Proof.
  intros e a b c A B t k. destruct (B t k) as [E|[E|[E|E]]]; [rewrite E; apply A | right; left; exact E | right; right; left; exact E | right; right; right; exact E].
Qed.
Lemma entries_ent : forall e w s k v, entry_ok e k (g_ent w s k) v -> entries_ok e w (with_ent w s k v).
Proof.
  intros e w s k v H t j. cbn [with_ent g_ent]. destruct (N.eqb_spec t s) as [->|D]; [|left; reflexivity]. destruct (ekey_eq j k) as [->|D]; [exact H | left; reflexivity].
Qed.
Lemma entries_meta : forall e w s m, entries_ok e w (with_meta w s m). Proof. intros e w s m t k. left. reflexivity. Qed.
Lemma entries_without : forall e w s, entries_ok e w (without w s). Proof. intros e w s t k. cbn [without g_ent]. destruct (t =? s); [right; left | left]; reflexivity. Qed.
Lemma entries_replace : forall e w s m k v, entry_ok e k (g_ent w s k) v -> entries_ok e w (replace w s m k v).
Proof. intros e w s m k v H t j. exact (@entries_ent e w s k v H t j). Qed.

Lemma gp_entries : forall e n s m x, n <> 18 -> entries_ok e (fst x) (fst (snd (gp e n s m x))).
Proof.
  intros e n s m [w r] D. unfold gp. destruct ((v_gas s <? 10)%Z && negb (n =? 100)); [apply entries_refl|].
  assert (W : entries_ok e (fst (w, r)) (fst (snd (what_result, (w, r))))) by apply entries_refl. destruct n as [|n]; [apply entries_refl|].
  destruct n as [n|n|]; [destruct n as [n|n|] .. |]; try (destruct n as [n|n|]); try (destruct n as [n|n|]); try (destruct n as [n|n|]); try exact W; try contradiction.
  all: unfold gp_fetch, gp_lookup, gp_read, gp_write, gp_info, gp_bless, gp_assign, gp_designate, gp_upgrade, gp_transfer, gp_eject, gp_query, gp_solicit, gp_forget, gp_yield, gp_provide; cbn zeta.
  all: repeat (match goal with |- entries_ok _ _ (fst (snd ?t)) => match t with context [match ?c with _ => _ end] => destruct c eqn:? end end;
         try apply entries_refl; try (unfold gives; destruct (_ && _); apply entries_refl)).
  all: unfold says; cbn [fst snd]; try apply entries_refl; try apply entries_meta.
  all: try (apply entries_replace; right; right; left; eexists; reflexivity).
  all: try (apply entries_replace; right; right; right; do 3 eexists; split; [reflexivity|]; split; [reflexivity | left; reflexivity]).
  all: try (apply entries_ent; right; right; right; do 3 eexists; split; [reflexivity|]; split; [reflexivity | right];
            match goal with |- exists l', [?a; ?b; e_now _] = _ => exists [a; b] | |- exists l', [?a; e_now _] = _ => exists [a] end; reflexivity).
  all: try (eapply entries_trans; [eapply entries_trans; [apply entries_meta | apply entries_without] |]; apply entries_refl).
  all: try (eapply entries_trans; [apply entries_replace; right; left; reflexivity | apply entries_ent; right; left; reflexivity]).
Qed.
Lemma step_entries : forall e n s x h x', tidy e x -> gp_step e n s x h x' -> entries_ok e (fst x) (fst x').
Proof.
  intros e n s x h x' T H. destruct (N.eq_dec n 18) as [->|D].
  - destruct (gp_step_new T H) as [->|[id [_ Md]]]; [apply entries_refl|]. destruct Md as [[m [c [cost [len [M [L [Ll [Co Hw]]]]]]]] NI Id Gr]. rewrite Hw.
    eapply entries_trans; [apply entries_meta|]. eapply entries_trans; [apply entries_meta|]. apply entries_ent. right. right. right. do 3 eexists. split; [reflexivity|]. split; [reflexivity | left; reflexivity].
  - destruct (gp_step_quiet T D H) as [m [M [E _]]]. pose proof (@gp_entries e n s m x D) as X. rewrite E in X. exact X.
Qed.
Definition solvent (w : gstate) : Prop := forall s m, g_meta w s = Some m -> least m <= m_balance m.
Lemma step_solvent : forall e n s x h x', tidy e x -> gp_step e n s x h x' -> solvent (fst x) -> solvent (fst x').
Proof.
  intros e n s x h x' T H S t m M. destruct (@tidy_step e n s x h x' T H) as [T' Hh]. destruct (N.eq_dec t (r_host (snd x))) as [->|D].
  - destruct (td_host _ _ T') as [m' [M' L]]. rewrite Hh, M in M'. inversion M'; subst. exact L.
  - destruct (N.eq_dec n 18) as [->|D18].
    + destruct (gp_step_new T H) as [->|[id [_ Md]]]; [apply (S t m M)|]. destruct Md as [[m0 [c [cost [len [M0 [L [Ll [Co Hw]]]]]]]] NI Id Gr]. rewrite Hw in M. cbn [with_ent with_meta g_meta] in M.
      destruct (N.eqb_spec t id) as [->|Di].
      * match type of M with Some ?q = Some m => assert (Q : m = q) by congruence; rewrite Q end. unfold least. cbn [m_items m_octets m_gratis m_balance]. lia.
      * destruct (N.eqb_spec t (r_host (snd x))); [contradiction | apply (S t m M)].
    + destruct (step_isolated T H D) as [[A _]|[[A [m' [B C]]]|[A _]]]; [rewrite A in M; apply (S t m M) | | congruence].
      destruct (step_effect T D18 H) as [m0 [M0 E]]. exfalso. inversion E; subst; cbn [fst snd] in *; try congruence.
      * match goal with H : forall t, t <> _ -> account_eq _ _ _ |- _ => destruct (H t D) as [X _]; congruence end.
      * cbn [with_meta g_meta] in B. destruct (N.eqb_spec t (r_host (snd x))); [contradiction | congruence].
      * cbn [without with_meta g_meta] in B. destruct (t =? t0); [discriminate|]. destruct (N.eqb_spec t (r_host (snd x))); [contradiction | congruence].
Qed.
Definition extra (e : env) (G w : gstate) : Prop := solvent w /\ young e G w /\ no_given w.
Lemma step_extra : forall e G n s x h x', tidy e x -> gp_step e n s x h x' -> extra e G (fst x) -> extra e G (fst x').
Proof.
  intros e G n s x h x' T H [S [Y Ng]]. pose proof (@step_entries e n s x h x' T H) as E. split; [eapply step_solvent; eassumption|]. split.
  - intros t k len a y Ht Hg L. destruct (E t (KLookup k len)) as [X|[X|[[b X]|[h0 [len0 [l [_ [X Z]]]]]]]].
    + rewrite X in L. apply (Y t k len a y); try assumption. intros F. rewrite (td_proper _ _ T t F) in L. discriminate.
    + congruence.
    + discriminate.
    + rewrite L in X. inversion X; subst l. destruct Z as [Z|[l' Z]]; [discriminate|]. destruct l' as [|a0 [|b0 l']]; [discriminate Z | inversion Z; subst; lia | destruct l'; discriminate Z].
  - intros t k. destruct (E t (KPreimage (given_to k))) as [X|[X|[[b X]|[h0 [len0 [l [X _]]]]]]]; try discriminate; [rewrite X; apply Ng | exact X].
Qed.
Lemma extra_same : forall e G w w', same w w' -> extra e G w -> extra e G w'.
Proof.
  intros e G w w' [A B] [S [Y Ng]]. split; [|split].
  - intros s m M. apply (S s m). rewrite A. exact M.
  - intros s h len a y H Hg L. apply (Y s h len a y); [unfold has in *; rewrite A; exact H | exact Hg | rewrite B; exact L].
  - intros s h. rewrite <- B. apply Ng.
Qed.
Lemma calls_extra : forall G ch e l c hs c', ready G ch e c -> permitted_run G ch e l c -> host_calls (stp G) e l c = Ok (hs, c') ->
  extra e G (view G (fst (fst c))) -> extra e G (view G (fst (snd c))) -> extra e G (view G (fst (fst c'))) /\ extra e G (view G (fst (snd c'))).
Proof.
  intros G ch e l c hs c' R P E W1 W2. destruct (@run_calls G ch e l c (seen G (fst c), seen G (snd c)) R (stands_seen _ _) (stands_seen _ _) P) as [hs0 [c0 [X' [A [B [C [D1 D2]]]]]]].
  rewrite E in A. inversion A; subst hs0 c0. destruct R as [_ [_ [_ [_ [T1 [_ [T2 _]]]]]]].
  destruct (@calls_inv (fun x => extra e G (fst x)) e) with (l := l) (c := (seen G (fst c), seen G (snd c))) (hs := hs) (c' := X') as [Q1 Q2]; try assumption.
  - intros n s x h x' T St. eapply step_extra; eassumption.
  - split; [apply (extra_same (same_sym (proj2 D1)) Q1) | apply (extra_same (same_sym (proj2 D2)) Q2)].
Qed.
(** ** Of an account *)
Lemma counted_alike : forall w w' s m, alike s w w' -> counted w s m -> counted w' s m.
Proof. intros w w' s m [_ A]. apply counted_same; try reflexivity. intros k. symmetry. apply A. Qed.
Lemma orderly_alike : forall e G w w' s, alike s w w' -> orderly e G w s -> orderly e G w' s.
Proof.
  intros e G w w' s L [C R S Sh V Y Gv]. pose proof L as [A B]. split.
  - intros m M. apply (counted_alike L). apply C. congruence.
  - intros h H. rewrite <- B in H. destruct (R h H) as [len X]. exists len. rewrite <- B. exact X.
  - intros h len l. rewrite <- B. apply S.
  - intros h len. rewrite <- B. apply Sh.
  - intros m M. apply V. congruence.
  - unfold has in *. rewrite <- A. intros H Hg h len a y. rewrite <- B. apply Y; assumption.
  - intros h. rewrite <- B. apply Gv.
Qed.
Lemma sane_extra : forall e G w t p i, tidy e (w, mk_rest t p i [] None []) -> extra e G w -> sane e G w.
Proof.
  intros e G w t p i [P C R S Sh H Nx] [V [Y Gv]]. cbn [fst snd] in *. split; [exact P|]. intros s. split; try solve [apply C | apply R | apply S | apply Sh | apply V | apply Gv].
  intros Hs Hg h len a y. apply Y; assumption.
Qed.
Lemma sane_parts : forall e G w, sane e G w -> extra e G w /\ forall t, has w t -> roomy w -> settled e w t.
Proof.
  intros e G w [P O]. split.
  - split; [intros s m; apply (or_solvent _ _ _ _ (O s))|]. split; [intros s h len a y H Hg; apply (or_young _ _ _ _ (O s) H Hg) | intros s h; apply (or_given _ _ _ _ (O s))].
  - intros t Ht [i [Ic If]]. exists (mk_priv 0 [] None [] (mk_role 0 None None) (mk_role 0 None None) [] [] None), i. split; cbn [fst snd r_host r_next].
    + exact P.
    + intros s. apply (or_counted _ _ _ _ (O s)).
    + intros s. apply (or_requested _ _ _ _ (O s)).
    + intros s. apply (or_slotted _ _ _ _ (O s)).
    + intros s. apply (or_short _ _ _ _ (O s)).
    + unfold has in Ht. destruct (g_meta w t) as [m|] eqn:M; [|congruence]. exists m. split; [reflexivity | apply (or_solvent _ _ _ _ (O t) m M)].
    + auto.
Qed.
Lemma extra_received : forall e G w t recv, extra e G w -> extra e G (received w t recv).
Proof.
  intros e G w t recv [V [Y Gv]]. split; [|split; [|exact Gv]].
  - intros s m M. unfold received in M. cbn [with_meta g_meta] in M. destruct (N.eqb_spec s t) as [->|]; [|apply (V s m M)]. destruct (g_meta w t) as [m0|] eqn:M0; [|discriminate]. cbn [option_map] in M. inversion M; subst. pose proof (V t m0 M0). unfold least in *. cbn [set_balance m_items m_octets m_gratis m_balance]. lia.
  - intros s h len a y H Hg L. apply (Y s h len a y); [|exact Hg | exact L]. unfold has, received in H. cbn [with_meta g_meta] in H. unfold has. destruct (N.eqb_spec s t) as [->|]; [|exact H]. destruct (g_meta w t); [discriminate | exact H].
Qed.
