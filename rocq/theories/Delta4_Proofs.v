(** The accounts after a block's accumulation. *)
From Verif Require Import Base Base_Proofs PvmMem_Model PvmProg_Model PvmStep_Model PvmInit_Model Codec_Model Queue_Model Gas_Model Gas_Spec Sandbox_Model Sandbox_Spec Sandbox_Proofs Host_Model Host_Spec Host_Proofs Host2_Proofs Host3_Proofs Host4_Proofs Host5_Proofs Host6_Proofs
  Acc_Model Acc_Spec Acc_Proofs Acc2_Proofs Round_Model Round_Spec Round2_Spec Round1_Proofs Round8_Proofs Round9_Proofs Delta_Model Delta_Spec Delta_Proofs Delta3_Proofs.
Set Implicit Arguments.
Open Scope N_scope.

Lemma sane_same : forall e G w w', same w w' -> sane e G w -> sane e G w'.
Proof.
  intros e G w w' [Sm Se] [P O]. split; [intros s Hs k; rewrite <- Se; apply P; rewrite Sm; exact Hs|]. intros s. destruct (O s) as [A B C D E F H]. split.
  - intros m M. rewrite <- Sm in M. destruct (A m M) as [ks [K1 [K2 [K3 K4]]]]. exists ks. split; [exact K1|]. split; [intros k; rewrite K2, Se; reflexivity|]. split; [exact K3|]. rewrite K4. f_equal. apply map_ext. intros k. rewrite Se. reflexivity.
  - intros h. rewrite <- Se. intros X. destruct (B h X) as [len Y]. exists len. rewrite <- Se. exact Y.
  - intros h len ts. rewrite <- Se. apply C.
  - intros h len. rewrite <- Se. apply D.
  - intros m M. rewrite <- Sm in M. exact (E m M).
  - intros X Y h len a y. rewrite <- Se. apply F; [|exact Y]. unfold has in *. rewrite Sm. exact X.
  - intros h. rewrite <- Se. apply H.
Qed.
Lemma order_sane : forall e w, in_order (e_now e) w -> sane e w w.
Proof. intros e w [P O]. split; [exact P|]. intros s. destruct (O s) as (A & B & C & D & E). split; try assumption; [intros m M; apply (A m M) | intros m' M; apply (A m' M) | intros X Y; contradiction]. Qed.
Lemma sane_order : forall e G w, sane e G w -> in_order (e_now e) w.
Proof. intros e G w [P O]. split; [exact P|]. intros s. destruct (O s) as [A B C D E F H]. split; [intros m M; split; auto|]. split; [exact B|]. split; [exact C|]. split; [exact D | exact H]. Qed.
Lemma order_later : forall now now' w, now <= now' -> in_order now w -> in_order now' w.
Proof.
  intros now now' w L [P O]. split; [exact P|]. intros s. destruct (O s) as (A & B & C & D & E). split; [exact A|]. split; [exact B|]. split; [|auto]. intros h len ts X. destruct (C h len ts X) as [C1 C2]. split; [exact C1|].
  eapply Forall_impl; [|exact C2]. cbn beta. intros a La. lia.
Qed.
Lemma start_steady : forall x q limit reports always, in_order (e_now (x_env x)) (x_G x) -> confirmed q -> e_cores (x_env x) = N.of_nat (length (p_assign q)) -> steady x [] (start q limit reports always).
Proof.
  intros x q limit reports always O C L. split; cbn [start l_sb l_priv]; [split; [constructor | intros s b E; discriminate] | | split; assumption]. apply order_sane in O. eapply sane_same; [|exact O]. split; reflexivity.
Qed.
Theorem block_accounts : forall n x q limit reports always l, in_order (e_now (x_env x)) (x_G x) -> e_now (x_env x) + e_expiry (x_env x) < 2 ^ 32 -> confirmed q -> e_cores (x_env x) = N.of_nat (length (p_assign q)) ->
  all_fair x (start q limit reports always) -> outer n x q limit reports always = Some (Ok l) ->
  confirmed (l_priv l) /\ length (p_assign (l_priv l)) = length (p_assign q) /\
  forall sb, reordered (l_sb l) sb -> exists G', apply (x_G x) sb = Ok G' /\ in_order (e_now (x_env x)) G' /\
    forall v, holds (x_G x) v -> exists v', holds G' v' /\ v' <= v /\ (all_lossless x (start q limit reports always) -> v' = v).
Proof.
  intros n x q limit reports always l O Ex C L Fa H. pose proof (@start_steady x q limit reports always O C L) as S0. destruct (@loop_rounds x n _ _ H []) as [[ch R] X].
  destruct (@rounds_steady x (start q limit reports always) (proj1 O) Ex S0 Fa ch l R) as [[S1 S2 [S3 S4]] Cn]. split; [exact S3|]. split; [lia|].
  intros sb Re. destruct (reordered_ok Re S1) as [A' V']. assert (Sv : sane (x_env x) (x_G x) (view (x_G x) sb)) by (eapply sane_same; [apply same_sym, V' | exact S2]).
  destruct (apply_view A' (proj1 Sv)) as [G' [E S]]. exists G'. split; [exact E|]. split.
  - eapply sane_order. eapply sane_same; [apply same_sym, S | exact Sv].
  - intros v Hv. destruct (Cn v) as [v' [Hv' [Le Eq]]]; [exact Hv|]. rewrite X in Le, Eq. cbn [map sum start l_xfers] in Le, Eq. exists v'. split; [|split; [lia | intros Lo; specialize (Eq Lo); lia]].
    eapply holds_ext; [|exact Hv']. intros i. rewrite (proj1 S i). apply (proj1 V').
Qed.
