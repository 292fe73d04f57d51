(** C42 (disputes), C45, C55: the disputes extrinsic, the judged sets, signing contexts. V = VALIDATOR_COUNT, E = EPOCH_LENGTH. *)
From Verif Require Import Base Queue_Model Disputes_Model Disputes_Spec Disputes_Proofs.
From Coq Require Import Permutation Sorted.
Open Scope N_scope.

(** * C42, disputes *)
(** A disputes extrinsic is accepted exactly when it is acceptable, with verdicts of the previous epoch or later. (An epoch index
    of 2^32 - 1 makes the code's addition overflow.) *)
Theorem disputes_accepted_iff : forall V E verify d active past slot x, 0 < V -> 0 < E ->
  (forall v, In v (x_verdicts x) -> v_epoch v < 2 ^ 32 - 1) ->
  validate_disputes V E verify d active past slot x = Ok tt <->
  acceptable V verify (not_older (slot / E)) d active past (slot / E) x.
Proof. intros. apply validate_disputes_ok; assumption. Qed.

(** The toy signature scheme of the examples: the signature of a message by key k is k plus the message's first bytes. *)
Definition toy_verify (k : N) (m : bytes) (s : N) : bool := s =? 1000 * k + fold_right N.add 0 (firstn 20 m).
Definition toy_sign (k : N) (m : bytes) : N := 1000 * k + fold_right N.add 0 (firstn 20 m).
Definition toy_judgment (valid : bool) (keys : list N) (report i : N) : judgment :=
  mk_judgment valid i (toy_sign (nth (N.to_nat i) keys 0) ((if valid then X_1 else X_0) ++ hbytes report)).
Definition act := [10; 11; 12; 13; 14; 15].
Definition pst := [20; 21; 22; 23; 24; 25].
(** Report 7 is bad: five of six validators say so. Validator 15 guaranteed it and also voted for it; 14 guaranteed it. *)
Definition bad_xt : disputes_xt :=
  mk_xt [mk_verdict 7 3 (map (toy_judgment false act 7) [0; 1; 2; 3; 4])]
        [mk_culprit 7 14 (toy_sign 14 (X_G ++ hbytes 7)); mk_culprit 7 15 (toy_sign 15 (X_G ++ hbytes 7))]
        [mk_fault 7 true 15 (toy_sign 15 (X_1 ++ hbytes 7))].
Definition d_empty := mk_judged [] [] [] [].
Example disputes_case : validate_disputes 6 12 toy_verify d_empty act pst 40 bad_xt = Ok tt /\
  transition_disputes 6 12 toy_verify (mk_judged [3] [9] [] [4]) act pst 40 bad_xt = Ok (mk_judged [3] [7; 9] [] [4; 14; 15; 15]).
Proof. vm_compute. auto. Qed.

(** The documented rule, "the epoch must be the current or the previous one", is not enforced: verdicts naming a future epoch
    pass, and are checked against the past validator set. *)
Theorem disputes_epoch_refuted : exists x, validate_disputes 6 12 toy_verify d_empty act pst 40 x = Ok tt /\
  ~ acceptable 6 toy_verify (current_or_previous (40 / 12)) d_empty act pst (40 / 12) x /\
  exists v, In v (x_verdicts x) /\ 40 / 12 + 90 < v_epoch v.
Proof.
  exists (mk_xt [mk_verdict 7 100 (map (toy_judgment false pst 7) [0; 1; 2; 3; 4])]
        [mk_culprit 7 14 (toy_sign 14 (X_G ++ hbytes 7)); mk_culprit 7 15 (toy_sign 15 (X_G ++ hbytes 7))] []).
  split; [vm_compute; reflexivity|]. split.
  - intros (_ & _ & _ & A & _). destruct (A _ (or_introl eq_refl)) as (R & _). unfold current_or_previous in R. cbn [v_epoch] in R.
    change (40 / 12) with 3 in R. destruct R; discriminate.
  - eexists. split; [left; reflexivity|]. vm_compute. reflexivity.
Qed.
(** With the epoch restricted as documented, acceptance is exactly acceptability. *)
Theorem disputes_epoch_partial : forall V E verify d active past slot x, 0 < V -> 0 < E -> slot / E < 2 ^ 32 - 1 ->
  (forall v, In v (x_verdicts x) -> current_or_previous (slot / E) (v_epoch v)) ->
  validate_disputes V E verify d active past slot x = Ok tt <->
  acceptable V verify (current_or_previous (slot / E)) d active past (slot / E) x.
Proof.
  intros V E verify d active past slot x HV HE Hs Hr. rewrite disputes_accepted_iff; auto.
  - assert (K : forall v, In v (x_verdicts x) -> acceptable_verdict V verify (not_older (slot / E)) d active past (slot / E) x v <->
      acceptable_verdict V verify (current_or_previous (slot / E)) d active past (slot / E) x v).
    { intros v Hv. specialize (Hr v Hv). unfold acceptable_verdict. assert (not_older (slot / E) (v_epoch v)) by (unfold not_older; destruct Hr; lia). tauto. }
    unfold acceptable. split; intros (A & B & C & D & F); repeat (split; [assumption|]); (split; [|exact F]); intros v Hv; apply (K v Hv); auto.
  - intros v Hv. destruct (Hr v Hv); lia.
Qed.

(** * C45 *)
(** After any chain of accepted extrinsics: the three sets are sorted, hold each report once and in one set only; nothing is
    lost, and what is added is exactly what the verdicts and the culprits and faults say. *)
Theorem judged_sets_history : forall V E verify d0 xs d, 0 < V ->
  StronglySorted N.le (good d0) -> StronglySorted N.le (bad d0) -> StronglySorted N.le (wonky d0) -> StronglySorted N.le (punish d0) ->
  NoDup (good d0 ++ bad d0 ++ wonky d0) ->
  dchain V E verify d0 xs d ->
  (ascending (good d) /\ ascending (bad d) /\ ascending (wonky d) /\ StronglySorted N.le (punish d) /\ NoDup (good d ++ bad d ++ wonky d)) /\
  (forall h, In h (good d) <-> In h (good d0) \/ exists x v, In x xs /\ In v (x_verdicts x) /\ v_report v = h /\ settled_good V v) /\
  (forall h, In h (bad d) <-> In h (bad d0) \/ exists x v, In x xs /\ In v (x_verdicts x) /\ v_report v = h /\ settled_bad v) /\
  (forall h, In h (wonky d) <-> In h (wonky d0) \/ exists x v, In x xs /\ In v (x_verdicts x) /\ v_report v = h /\ settled_wonky V v) /\
  (forall k, In k (punish d) <-> In k (punish d0) \/ exists x, In x xs /\ (In k (map c_key (x_culprits x)) \/ In k (map f_key (x_faults x)))).
Proof.
  intros V E verify d0 xs d HV S1 S2 S3 S4 Hn C.
  destruct (dchain_spec V E verify HV d0 xs d) as ((W1 & W2 & W3 & W4 & W5) & R); [unfold dwf; auto|assumption|].
  split; [|exact R]. unfold all_report_hashes in W5. assert (Hg := Queue_Proofs.NoDup_app_l _ _ _ W5). assert (Hbw := Queue_Proofs.NoDup_app_r _ _ _ W5).
  split; [eapply sorted_le_lt; eauto|]. split; [eapply sorted_le_lt; eauto; exact (Queue_Proofs.NoDup_app_l _ _ _ Hbw)|].
  split; [eapply sorted_le_lt; eauto; exact (Queue_Proofs.NoDup_app_r _ _ _ Hbw)|]. split; assumption.
Qed.
(** The offenders are not kept as a set: a validator that both guaranteed a bad report and voted for it enters the list twice, so
    the state differs from the specified union of sets. *)
Theorem punish_set_refuted : exists xs d, dchain 6 12 toy_verify d_empty xs d /\ ~ NoDup (punish d).
Proof.
  exists ([] ++ [bad_xt])%list, (mk_judged [] [7] [] [14; 15; 15]). split.
  - eapply dchain_snoc with (active := act) (past := pst) (slot := 40); [constructor|vm_compute; reflexivity].
  - intros H. inversion H as [|? ? _ H']; subst. inversion H' as [|? ? N _]; subst. apply N. now left.
Qed.
Theorem punish_set_partial : forall V E verify d0 xs d, 0 < V -> NoDup (punish d0) -> dchain V E verify d0 xs d ->
  (forall x k, In x xs -> In k (map c_key (x_culprits x)) -> ~ In k (map f_key (x_faults x))) -> NoDup (punish d).
Proof. intros. eapply punish_NoDup; eauto. Qed.

(** * C55 *)
(** Messages signed for different purposes never coincide: 32 bytes follow each context, 33 after the ticket one. *)
Definition contexts : list (bytes * nat) :=
  [(X_A, 32); (X_B, 32); (X_E, 32); (X_F, 32); (X_G, 32); (X_I, 32); (X_T, 33); (X_U, 32); (X_1, 32); (X_0, 32)]%nat.
Theorem signing_contexts_separated : forall i j c n c' n' p p', nth_error contexts i = Some (c, n) -> nth_error contexts j = Some (c', n') ->
  length p = n -> length p' = n' -> (c ++ p = c' ++ p')%list -> i = j /\ p = p'.
Proof.
  intros i j c n c' n' p p' Hi Hj Lp Lp' Q. assert (Hc := nth_error_In _ _ Hi). assert (Hc' := nth_error_In _ _ Hj).
  assert (L := f_equal (@length N) Q). rewrite !app_length, Lp, Lp' in L.
  assert (K : length c = length c').
  { assert (A : forallb (fun a => forallb (fun b => implb (length (fst a) + snd a =? length (fst b) + snd b)%nat (length (fst a) =? length (fst b))%nat) contexts) contexts = true)
      by (vm_compute; reflexivity).
    rewrite forallb_forall in A. specialize (A _ Hc). rewrite forallb_forall in A. specialize (A _ Hc'). cbn [fst snd] in A.
    rewrite (proj2 (Nat.eqb_eq _ _) L) in A. cbn in A. now apply Nat.eqb_eq. }
  destruct (app_len_inj _ _ _ _ _ K Q) as [<- Qp]. split; [|exact Qp].
  assert (ND : NoDup (map fst contexts)).
  { apply (NoDup_count_occ' (list_eq_dec N.eq_dec)). intros x Hx. vm_compute in Hx. repeat (destruct Hx as [<-|Hx]; [vm_compute; reflexivity|]). destruct Hx. }
  assert (Ei := map_nth_error fst i contexts Hi). assert (Ej := map_nth_error fst j contexts Hj).
  apply (proj1 (NoDup_nth_error (map fst contexts)) ND); [|now rewrite Ei, Ej]. apply nth_error_Some. now rewrite Ei.
Qed.
Example signing_contexts_case : length X_1 = length X_B /\ X_1 <> X_B /\ length (X_T ++ repeat 0 33)%list = 48%nat.
Proof. vm_compute. repeat split. discriminate. Qed.

Print Assumptions disputes_accepted_iff.
Print Assumptions disputes_epoch_refuted.
Print Assumptions disputes_epoch_partial.
Print Assumptions judged_sets_history.
Print Assumptions punish_set_refuted.
Print Assumptions punish_set_partial.
Print Assumptions signing_contexts_separated.
