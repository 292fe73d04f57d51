(** The stored statistics are read back unchanged. *)
From Verif Require Import Base Base_Proofs Codec_Model Codec_Spec Codec_Proofs Codec2_Proofs Codec3_Proofs Stats_Model Stats_Spec StatsCodec_Model.
From Coq Require Import Sorted Lia.
Open Scope N_scope.

(** Statistics as the types hold them. *)
Definition held (V C : nat) (s : stats) : Prop :=
  length (curr s) = V /\ Forall fits_v (curr s) /\ length (prev s) = V /\ Forall fits_v (prev s) /\
  length (cores s) = C /\ Forall fits_c (cores s) /\
  StronglySorted N.lt (map fst (services s)) /\ Forall (fun p => fst p < 2 ^ 32 /\ fits_s (snd p)) (services s).

Lemma sorted_count : forall l a B, StronglySorted N.lt l -> Forall (fun x => a <= x /\ x < B) l -> l = [] \/ a + N.of_nat (length l) <= B.
Proof.
  induction l as [|x l IH]; intros a B S F; auto. right. inversion S; subst. inversion F; subst. cbn [length].
  assert (F' : Forall (fun y => x + 1 <= y /\ y < B) l).
  { apply Forall_forall. intros y Hy. rewrite Forall_forall in H2, H4. specialize (H2 y Hy). specialize (H4 y Hy). lia. }
  destruct (IH (x + 1) B H1 F') as [->|H]; cbn [length]; lia.
Qed.
Lemma sorted_increasing : forall l, StronglySorted N.lt l -> increasing (cmp (TFix 32 4)) l.
Proof.
  intros l S i j x y L Hx Hy. cbn [cmp]. change (N.compare x y = Lt). apply N.compare_lt_iff. revert i j x y L Hx Hy.
  induction S as [|a l S IH F]; intros i j x y L Hx Hy; [destruct i; discriminate Hx|].
  destruct j; [lia|]. cbn [nth_error] in Hy. destruct i; cbn [nth_error] in Hx.
  - inversion Hx; subst. rewrite Forall_forall in F. apply F. eapply nth_error_In; eauto.
  - apply (IH i j); auto. lia.
Qed.
Lemma stats_ty_ok : forall V C, ty_ok (t_stats V C).
Proof. intros. cbn. repeat split; lia. Qed.
Lemma held_wf : forall V C s, held V C s -> wf (t_stats V C) (of_stats V C s).
Proof.
  intros V C s (A1 & A2 & B1 & B2 & C1 & C2 & D1 & D2).
  change ((wf (TArr V t_vstat) (map of_v (curr s)) /\ wf (TArr V t_vstat) (map of_v (prev s))) /\ wf (TArr C t_cstat) (map of_c (cores s)) /\
    wf (TMap (TFix 32 4) t_sstat) (map (fun p => (fst p, of_s (snd p))) (services s))).
  assert (WV : forall l, Forall fits_v l -> Forall (wf t_vstat) (map of_v l)).
  { intros l F. apply Forall_forall. intros x Hx. apply in_map_iff in Hx. destruct Hx as (y & <- & Hy). rewrite Forall_forall in F.
    destruct (F y Hy) as (F1 & F2 & F3 & F4 & F5 & F6). exact (conj F1 (conj F2 (conj F3 (conj F4 (conj F5 F6))))). }
  split; [split; (split; [apply WV; auto|rewrite map_length; auto])|]. split.
  - split; [|rewrite map_length; auto]. apply Forall_forall. intros x Hx. apply in_map_iff in Hx. destruct Hx as (y & <- & Hy). rewrite Forall_forall in C2.
    destruct (C2 y Hy) as (F1 & F2 & F3 & F4 & F5 & F6 & F7 & F8). exact (conj F1 (conj F2 (conj F3 (conj F4 (conj F5 (conj F6 (conj F7 F8))))))).
  - split; [|split].
    + apply Forall_forall. intros x Hx. apply in_map_iff in Hx. destruct Hx as ([k y] & <- & Hy). rewrite Forall_forall in D2.
      destruct (D2 _ Hy) as (K & F1 & F2 & F3 & F4 & F5 & F6 & F7 & F8 & F9 & F10). cbn [fst snd] in *. split; [exact K|].
      exact (conj F1 (conj F2 (conj F3 (conj F4 (conj F5 (conj F6 (conj F7 (conj F8 (conj F9 F10))))))))).
    + rewrite map_length. destruct (sorted_count (map fst (services s)) 0 (2 ^ 32) D1) as [E|E].
      * apply Forall_forall. intros x Hx. apply in_map_iff in Hx. destruct Hx as (p & <- & Hp). rewrite Forall_forall in D2. destruct (D2 p Hp). split; [lia|auto].
      * destruct (services s); [reflexivity|discriminate E].
      * rewrite map_length in E. eapply N.le_lt_trans; [|apply (eq_refl : 2 ^ 32 < 2 ^ 64)]. lia.
    + rewrite map_map. cbn [fst]. apply sorted_increasing. auto.
Qed.
Lemma to_of : forall V C s, to_stats V C (of_stats V C s) = s.
Proof.
  intros V C [a b c d]. unfold to_stats, of_stats. cbn [fst snd curr prev cores services]. rewrite !map_map. f_equal.
  - rewrite <- (map_id a) at 2. apply map_ext. intros []; reflexivity.
  - rewrite <- (map_id b) at 2. apply map_ext. intros []; reflexivity.
  - rewrite <- (map_id c) at 2. apply map_ext. intros []; reflexivity.
  - rewrite <- (map_id d) at 2. apply map_ext. intros [k []]; reflexivity.
Qed.
Lemma store_load : forall V C s, held V C s -> exists bs, store V C s = Ok bs /\ Bytes bs /\ forall rest, load V C (bs ++ rest) = Ok (s, rest).
Proof.
  intros V C s H. destruct (codec_roundtrip (t_stats V C) (of_stats V C s) (stats_ty_ok V C) (held_wf V C s H)) as (bs & E & B & D).
  exists bs. split; auto. split; auto. intro rest. unfold load. rewrite D. cbn [bind]. rewrite to_of. auto.
Qed.
