(** Lemmas for FlowPre_Props.v. *)
From Verif Require Import Base Base_Proofs Sched_Model Sched_Spec Sched_Proofs Flow_Model Flow_Proofs FlowPre_Spec.

Section Pre.
  Context {X : Type}.
  Notation value := (value X).
  Notation prog := (prog comp value (option (list X))).
  Lemma prior_kept : forall (p : prog) k v, ~ adds p k -> prior (fst (alone comp_eq p v)) k = prior v k.
  Proof.
    induction p as [a|k0 c IH|k0 c IH|k0 r f c IH|k0 x c IH]; intros k v A; cbn [alone].
    - reflexivity.
    - apply IH. intros [x [c' W]]. apply A. exists x, c'. eapply in_get. exact W.
    - apply IH. intros [x [c' W]]. apply A. exists x, c'. eapply in_clean. exact W.
    - assert (Z : forall b, ~ adds (c b) k) by (intros b [x [c' W]]; apply A; exists x, c'; eapply in_mut; exact W).
      destruct (now v k0) as [x|]; [|apply IH; apply Z]. destruct (f x) as [y|]; [|apply IH; apply Z]. rewrite IH by apply Z. destruct r; reflexivity.
    - assert (Z : forall b, ~ adds (c b) k) by (intros b [y [c' W]]; apply A; exists y, c'; eapply in_add; exact W).
      destruct (now v k0) as [y|]; [apply IH; apply Z|]. rewrite IH by apply Z. cbn [create prior]. unfold set. destruct (comp_eq k k0) as [->|D]; [|reflexivity].
      exfalso. apply A. exists x, c. constructor.
  Qed.
  Lemma prior_kept_all : forall (l : list prog) k v, (forall p, In p l -> ~ adds p k) -> prior (fst (in_order comp_eq l v)) k = prior v k.
  Proof.
    induction l as [|p l IH]; intros k v A; [reflexivity|]. cbn [in_order]. pose proof (prior_kept p k v (A p (or_introl eq_refl))) as Q.
    destruct (alone comp_eq p v) as [v1 a]. cbn [fst] in Q. specialize (IH k v1 (fun q I => A q (or_intror I))). destruct (in_order comp_eq l v1) as [v2 r]. cbn [fst] in *. congruence.
  Qed.
  Lemma now_kept : forall (p : prog) k v, ~ changes p k -> now (fst (alone comp_eq p v)) k = now v k.
  Proof.
    assert (G : forall (p : prog) k v, ~ changes p k -> so_far (fst (alone comp_eq p v)) k = so_far v k).
    { induction p as [a|k0 c IH|k0 c IH|k0 r f c IH|k0 x c IH]; intros k v A; cbn [alone].
      - reflexivity.
      - apply IH. intros [[r [f [c' W]]]|[x [c' W]]]; apply A; [left; exists r, f, c'|right; exists x, c']; eapply in_get; exact W.
      - apply IH. intros [[r [f [c' W]]]|[x [c' W]]]; apply A; [left; exists r, f, c'|right; exists x, c']; eapply in_clean; exact W.
      - assert (Z : forall b, ~ changes (c b) k) by (intros b [[r' [f' [c' W]]]|[x [c' W]]]; apply A; [left; exists r', f', c'|right; exists x, c']; eapply in_mut; exact W).
        destruct (now v k0) as [x|]; [|apply IH; apply Z]. destruct (f x) as [y|]; [|apply IH; apply Z]. rewrite IH by apply Z.
        assert (k <> k0) by (intros ->; apply A; left; exists r, f, c; constructor). destruct r; cbn; unfold set; destruct (comp_eq k k0); congruence.
      - assert (Z : forall b, ~ changes (c b) k) by (intros b [[r' [f' [c' W]]]|[y [c' W]]]; apply A; [left; exists r', f', c'|right; exists y, c']; eapply in_add; exact W).
        destruct (now v k0) as [y|]; [apply IH; apply Z|]. rewrite IH by apply Z. cbn. unfold set.
        assert (k <> k0) by (intros ->; apply A; right; exists x, c; constructor). destruct (comp_eq k k0); congruence. }
    intros p k v A. unfold now. rewrite G by exact A. rewrite prior_kept by (intro B; apply A; right; exact B). reflexivity.
  Qed.
  Lemma now_kept_all : forall (l : list prog) k v, (forall p, In p l -> ~ changes p k) -> now (fst (in_order comp_eq l v)) k = now v k.
  Proof.
    induction l as [|p l IH]; intros k v A; [reflexivity|]. cbn [in_order]. pose proof (now_kept p k v (A p (or_introl eq_refl))) as Q.
    destruct (alone comp_eq p v) as [v1 a]. cbn [fst] in Q. specialize (IH k v1 (fun q I => A q (or_intror I))). destruct (in_order comp_eq l v1) as [v2 r]. cbn [fst] in *. congruence.
  Qed.
  Definition account_entry (k : comp) : Prop := match k with Preimage _ _ | Lookup _ _ _ => True | _ => False end.
  Lemma first_adds : forall b k p, account_entry k -> In p (first_tasks (X := X) b) -> ~ adds p k.
  Proof.
    intros b k p E I A. apply In_nth_error in I. destruct I as [i I]. destruct (first_apart b (fun _ => True)) as [F _]; [auto|].
    specialize (F i p k I (or_intror A)). destruct k; cbn in E, F; try contradiction; discriminate F.
  Qed.
  Lemma second_adds : forall b k p, account_entry k -> In p (second_tasks (X := X) b) -> ~ adds p k.
  Proof.
    intros b k p E I A. apply In_nth_error in I. destruct I as [i I]. destruct (second_apart b (fun _ => True) Logic.I) as [F _].
    specialize (F i p k I (or_intror A)). destruct k; cbn in E, F; try contradiction; discriminate F.
  Qed.
  Lemma last_adds : forall b ra rb k i p, account_entry k -> nth_error (last_tasks (X := X) b ra rb) i = Some p -> i <> 3%nat -> ~ adds p k.
  Proof.
    intros b ra rb k i p E I D A. destruct (last_apart b ra rb (fun _ => True)) as [F _].
    specialize (F i p k I (or_intror A)). destruct k; cbn in E, F; try contradiction; congruence.
  Qed.
  Lemma first_time : forall b p, In p (first_tasks (X := X) b) -> ~ changes p Timeslot.
  Proof.
    intros b p I A. apply In_nth_error in I. destruct I as [i I]. destruct (first_apart b (fun _ => True)) as [F _]; [auto|]. specialize (F i p Timeslot I A). discriminate F.
  Qed.
  Lemma second_time : forall b p, In p (second_tasks (X := X) b) -> ~ changes p Timeslot.
  Proof.
    intros b p I A. apply In_nth_error in I. destruct I as [i I]. destruct (second_apart b (fun _ => True) Logic.I) as [F _]. specialize (F i p Timeslot I A). discriminate F.
  Qed.
  Lemma last_time : forall b ra rb p, In p (last_tasks (X := X) b ra rb) -> ~ changes p Timeslot.
  Proof.
    intros b ra rb p I A. apply In_nth_error in I. destruct I as [i I]. destruct (last_apart b ra rb (fun _ => True)) as [F _]. specialize (F i p Timeslot I A). discriminate F.
  Qed.
  Lemma untouched_db : forall db s (v : view comp value), represents db s v -> untouched v -> forall k, now v k = db k /\ prior v k = db k.
  Proof.
    intros db s v R U k. unfold now. rewrite U. destruct (R k) as [R' _]. rewrite U in R'. destruct (cached s k) as [e|]; [|destruct R'; split; assumption].
    destruct R' as [P Q]. destruct (e_kind e); try discriminate Q. destruct Q as [_ [_ Q]]. rewrite Q. split; exact P.
  Qed.
  (** ** The preimages task *)
  Lemma check_sound : forall ie l (c : prog) v, snd (alone comp_eq (check_preimages ie l c) v) <> None -> Forall (wanted ie (prior v)) l /\ snd (alone comp_eq c v) <> None.
  Proof.
    induction l as [|x l IH]; intros c v H; cbn [check_preimages alone] in H; [split; [constructor|exact H]|].
    destruct (prior v (Preimage (x_service x) (x_hash x))) eqn:E1; cbn [alone] in H; [exfalso; apply H; reflexivity|].
    destruct (prior v (Lookup (x_service x) (x_hash x) (x_len x))) as [e|] eqn:E2; cbn [alone] in H; [|exfalso; apply H; reflexivity].
    destruct (ie e) eqn:E3; cbn [alone] in H; [|exfalso; apply H; reflexivity]. apply IH in H. destruct H as [H1 H2]. split; [|exact H2].
    constructor; [|exact H1]. split; [exact E1|]. exists e. split; assumption.
  Qed.
  Lemma check_complete : forall ie l (c : prog) v, Forall (wanted ie (prior v)) l -> alone comp_eq (check_preimages ie l c) v = alone comp_eq c v.
  Proof.
    induction l as [|x l IH]; intros c v H; cbn [check_preimages alone]; [reflexivity|]. inversion H as [|? ? [E1 [e [E2 E3]]] H']; subst.
    rewrite E1. cbn [alone]. rewrite E2, E3. apply IH. exact H'.
  Qed.
  Lemma integrate_ok : forall ie push t l v, (forall e, ie e = true -> push t e <> None) -> snd (alone comp_eq (integrate (X := X) ie push t l) v) <> None.
  Proof.
    induction l as [|x l IH]; intros v P; cbn [integrate alone]; [discriminate|]. set (kp := Preimage (x_service x) (x_hash x)). set (kl := Lookup (x_service x) (x_hash x) (x_len x)).
    destruct (now v kp) as [h|] eqn:Ep.
    { destruct (now v kl); apply IH; exact P. }
    destruct (now v kl) as [e|] eqn:El; [|apply IH; exact P]. destruct (ie e) eqn:Ee; [|apply IH; exact P]. unfold change. cbn [alone]. rewrite El.
    destruct (push t e) as [y|] eqn:Ey; [|exfalso; exact (P e Ee Ey)]. cbn [alone]. assert (Ep' : now (update comp_eq v kl y) kp = None).
    { unfold now, update. cbn [so_far prior]. unfold set. destruct (comp_eq kp kl) as [Z|_]; [discriminate Z|exact Ep]. }
    rewrite Ep'. apply IH. exact P.
  Qed.
  (** ** Reaching the last stage *)
  Lemma last_reached : forall (b : block_data X) v r, preimages_answer (snd (stages_in_order comp_eq (block_flow b) v)) = Some r ->
    exists v', r = snd (alone comp_eq (preimages_task (b_is_empty b) (b_push b) (b_preimages b)) v') /\
      (forall k, account_entry k -> ~ adds (b_safrole b) k -> (forall rs, ~ adds (b_accumulate b rs) k) -> prior v' k = prior v k) /\
      (~ changes (b_safrole b) Timeslot -> (forall rs, ~ changes (b_accumulate b rs) Timeslot) -> now v' Timeslot = now v Timeslot).
  Proof.
    intros b v r. unfold block_flow. cbn [stages_in_order].
    assert (K1 : forall k, account_entry k -> prior (fst (in_order comp_eq (first_tasks b) v)) k = prior v k) by (intros k E; apply prior_kept_all; intros p Ip; exact (first_adds b k p E Ip)).
    assert (T1 : now (fst (in_order comp_eq (first_tasks b) v)) Timeslot = now v Timeslot) by (apply now_kept_all; exact (first_time b)).
    destruct (in_order comp_eq (first_tasks b) v) as [v1 r1]. cbn [fst] in K1, T1. unfold go_on at 1. destruct (all_ok r1); [|discriminate]. cbn [stages_in_order].
    assert (K2 : forall k, ~ adds (b_safrole b) k -> prior (fst (in_order comp_eq [b_safrole b] v1)) k = prior v1 k) by (intros k A; apply prior_kept_all; intros p [<-|[]]; exact A).
    assert (T2 : ~ changes (b_safrole b) Timeslot -> now (fst (in_order comp_eq [b_safrole b] v1)) Timeslot = now v1 Timeslot) by (intro A; apply now_kept_all; intros p [<-|[]]; exact A).
    destruct (in_order comp_eq [b_safrole b] v1) as [v2 r2]. cbn [fst] in K2, T2. unfold go_on at 1. destruct (all_ok r2); [|discriminate]. cbn [stages_in_order].
    assert (K3 : forall k, account_entry k -> prior (fst (in_order comp_eq (second_tasks b) v2)) k = prior v2 k) by (intros k E; apply prior_kept_all; intros p Ip; exact (second_adds b k p E Ip)).
    assert (T3 : now (fst (in_order comp_eq (second_tasks b) v2)) Timeslot = now v2 Timeslot) by (apply now_kept_all; exact (second_time b)).
    destruct (in_order comp_eq (second_tasks b) v2) as [v3 r3]. cbn [fst] in K3, T3. unfold go_on at 1. destruct (all_ok r3); [|discriminate]. cbn [stages_in_order].
    assert (K4 : forall k, (forall rs, ~ adds (b_accumulate b rs) k) -> prior (fst (in_order comp_eq [b_accumulate b r3] v3)) k = prior v3 k) by (intros k A; apply prior_kept_all; intros p [<-|[]]; apply A).
    assert (T4 : (forall rs, ~ changes (b_accumulate b rs) Timeslot) -> now (fst (in_order comp_eq [b_accumulate b r3] v3)) Timeslot = now v3 Timeslot) by (intro A; apply now_kept_all; intros p [<-|[]]; apply A).
    destruct (in_order comp_eq [b_accumulate b r3] v3) as [v4 r4]. cbn [fst] in K4, T4. unfold go_on at 1. destruct (all_ok r4); [|discriminate]. cbn [stages_in_order].
    pose proof (last_adds b r3 r4) as K5. pose proof (last_time b r3 r4) as T5. revert K5 T5. unfold last_tasks. cbn [in_order]. intros K5 T5.
    destruct (alone comp_eq (pool_task (b_pool b)) v4) as [w1 a1] eqn:E1. destruct (alone comp_eq (stamp_task (b_stamp b) (b_services b r4)) w1) as [w2 a2] eqn:E2.
    destruct (alone comp_eq (stats_task (b_epoch b) (b_roll b) (b_keys_ok b) (b_count b r3) (b_stats b r4)) w2) as [w3 a3] eqn:E3.
    destruct (alone comp_eq (preimages_task (b_is_empty b) (b_push b) (b_preimages b)) w3) as [w4 a4] eqn:E4.
    intro H. exists w3. split.
    { rewrite E4. cbn [snd]. destruct (stages_in_order comp_eq (go_on [a1; a2; a3; a4] _) w4) as [w5 rs]. cbn in H. congruence. }
    split. 2:{ intros A1 A2. rewrite <- T1, <- (T2 A1), <- T3, <- (T4 A2).
      assert (Z1 := now_kept _ Timeslot v4 (T5 _ (or_introl eq_refl))). rewrite E1 in Z1. cbn [fst] in Z1.
      assert (Z2 := now_kept _ Timeslot w1 (T5 _ (or_intror (or_introl eq_refl)))). rewrite E2 in Z2. cbn [fst] in Z2.
      assert (Z3 := now_kept _ Timeslot w2 (T5 _ (or_intror (or_intror (or_introl eq_refl))))). rewrite E3 in Z3. cbn [fst] in Z3. congruence. }
    intros k Ek A1 A2. rewrite <- (K1 k Ek), <- (K2 k A1), <- (K3 k Ek), <- (K4 k A2).
    assert (Z1 := prior_kept _ k v4 (K5 k 0%nat _ Ek eq_refl ltac:(discriminate))). rewrite E1 in Z1. cbn [fst] in Z1.
    assert (Z2 := prior_kept _ k w1 (K5 k 1%nat _ Ek eq_refl ltac:(discriminate))). rewrite E2 in Z2. cbn [fst] in Z2.
    assert (Z3 := prior_kept _ k w2 (K5 k 2%nat _ Ek eq_refl ltac:(discriminate))). rewrite E3 in Z3. cbn [fst] in Z3. congruence.
  Qed.
End Pre.
