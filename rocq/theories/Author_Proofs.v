(** Lemmas for Author_Props.v. *)
From Coq Require Import Strings.String.
From Verif Require Import Base Base_Proofs Safrole_Model Safrole_Proofs Disputes_Model Author_Model Author_Spec.
Open Scope list_scope. Open Scope N_scope.

Lemma check_ok : forall b e u, check b e = Ok u -> b = true.
Proof. intros [] e u Q; [reflexivity|discriminate]. Qed.
Lemma demand_ok : forall A (o : option A) e x, demand o e = Ok x -> o = Some x.
Proof. intros A [] e x Q; inversion Q; reflexivity. Qed.
Lemma lift_ok : forall A (r : result unit A) x, lift r = Ok x -> r = Ok x.
Proof. intros A [] x Q; inversion Q; reflexivity. Qed.
Ltac ok_step Q := let E := fresh "E" in match type of Q with bind ?r _ = Ok _ => destruct r eqn:E; cbn [bind] in Q; try discriminate Q end.

Ltac ok_as Q E := match type of Q with bind ?r _ = Ok _ => destruct r eqn:E; cbn [bind] in Q; try discriminate Q end.

Section P.
  Context {Xt R O : Type} (z : env Xt R O).
  (** ** The first phase *)
  Lemma phase1_facts : forall now s b s' m, phase1 (z_E z) (z_D z) (z_H z) (z_ring z) (z_V z) now s b = Ok (s', m) ->
    validate_timeslot now (s_slot s) (b_slot b) = Ok tt /\ s_slot s' = b_slot b /\ s_e0 s' = s_e0 s /\
    predict_slot_sealer (z_E z) (z_D z) (z_H z) (z_V z) s (b_slot b) = get_slot_sealer (z_E z) (s_sealers s') (b_slot b) /\
    predict_entropy_3 (z_E z) s (b_slot b) = s_e3 s' /\ predict_active_set (z_E z) s (b_slot b) = s_active s'.
  Proof.
    intros now s b s' m Q. pose proof (step_predict (z_E z) (z_D z) (z_H z) (z_ring z) (z_V z) now s b (phase2 (z_H z) s' b) m) as P.
    unfold step in P. rewrite Q in P. specialize (P eq_refl). destruct P as [P1 [P2 [P3 _]]]. cbn [phase2 s_sealers s_e3 s_active] in P1, P2, P3.
    assert (G : validate_timeslot now (s_slot s) (b_slot b) = Ok tt /\ s_slot s' = b_slot b /\ s_e0 s' = s_e0 s).
    { clear P1 P2 P3. unfold phase1 in Q. ok_step Q. destruct a. ok_step Q. destruct a as [[[pe ri] sl] ac]. ok_step Q. ok_step Q. inversion Q; subst. split; [reflexivity|split; reflexivity]. }
    destruct G as [G1 [G2 G3]]. do 5 (split; [assumption|]). assumption.
  Qed.
  Lemma phase1_later : forall now now' s b r, phase1 (z_E z) (z_D z) (z_H z) (z_ring z) (z_V z) now s b = Ok r -> is_in_future now' (b_slot b) = false ->
    phase1 (z_E z) (z_D z) (z_H z) (z_ring z) (z_V z) now' s b = Ok r.
  Proof.
    intros now now' s b r Q F. unfold phase1 in Q |- *. ok_step Q.
    assert (Z : validate_timeslot now' (s_slot s) (b_slot b) = Ok a).
    { destruct a. unfold validate_timeslot in *. destruct ((s_slot s =? 0) && (b_slot b =? 0))%bool; [reflexivity|]. destruct (b_slot b <=? s_slot s); [discriminate|]. rewrite F. reflexivity. }
    rewrite Z. cbn [bind]. exact Q.
  Qed.
  Lemma exec1_later : forall now now' s slot root x r, exec1 z now s slot root x = Ok r -> is_in_future now' slot = false -> exec1 z now' s slot root x = Ok r.
  Proof.
    intros now now' s slot root x r Q F. unfold exec1 in Q |- *. ok_step Q. ok_step Q. ok_step Q. ok_step Q. cbn [bind].
    apply lift_ok in E2. rewrite (phase1_later _ now' _ _ _ E2 F). cbn [lift bind]. exact Q.
  Qed.
  Lemma exec1_facts : forall now s slot root x s' m off, exec1 z now s slot root x = Ok (s', m, off) ->
    validate_timeslot now (s_slot (saf s)) slot = Ok tt /\ s_slot (saf s') = slot /\ s_e0 (saf s') = s_e0 (saf s) /\
    predict_slot_sealer (z_E z) (z_D z) (z_H z) (z_V z) (saf s) slot = get_slot_sealer (z_E z) (s_sealers (saf s')) slot /\
    predict_entropy_3 (z_E z) (saf s) slot = s_e3 (saf s') /\ predict_active_set (z_E z) (saf s) slot = s_active (saf s').
  Proof.
    intros now s slot root x s' m off Q. unfold exec1 in Q. ok_step Q. ok_step Q. ok_step Q. ok_step Q. destruct a2 as [p q]. inversion Q; subst. cbn [saf fst].
    apply lift_ok in E2. apply phase1_facts in E2. exact E2.
  Qed.
  Lemma begun_slot : forall now slot, now_jam_timeslot now = Some slot -> forall now', now <= now' -> is_in_future now' slot = false.
  Proof.
    intros now slot Q now' L. unfold now_jam_timeslot in Q. destruct (now <? era) eqn:Ee; [discriminate|]. inversion Q as [Q']. apply N.ltb_ge in Ee.
    unfold is_in_future, slot_beginning. apply N.ltb_ge. destruct (slot =? 0) eqn:Z; rewrite Q'; rewrite Z; [lia|]. rewrite <- Q'.
    assert (B : slot_duration * ((now - era) / slot_duration) <= now - era) by (apply N.mul_div_le; discriminate).
    set (q := (now - era) / slot_duration) in *. assert ((q - 1) * slot_duration <= slot_duration * q) by (unfold slot_duration; lia). lia.
  Qed.

  Lemma begun_iff : forall now slot, is_in_future now slot = false <-> begun now slot.
  Proof.
    intros now slot. unfold is_in_future, slot_beginning, begun. rewrite N.ltb_ge. change era with 1735732800. change slot_duration with 6.
    destruct (slot =? 0) eqn:Z; [apply N.eqb_eq in Z; subst slot; change ((0 - 1) * 6) with 0; rewrite N.add_0_r; reflexivity|reflexivity].
  Qed.
  (** ** Import *)
  Lemma check_before_iff : forall now n (b : blk Xt), check_before z now n b = Ok tt <-> extends z n b /\ begun now (h_slot (h_data (k_header b))).
  Proof.
    intros now n b. rewrite <- begun_iff. unfold check_before, extends. set (d := h_data (k_header b)). split.
    - intro Q. ok_step Q. apply check_ok in E. ok_step Q. apply check_ok in E0. ok_step Q. apply check_ok in E1. ok_step Q. apply demand_ok in E2. ok_step Q. apply check_ok in E3. apply check_ok in Q.
      apply N.ltb_lt in E. apply Bool.negb_true_iff in E0. apply N.eqb_eq in E1. apply N.eqb_eq in E3. apply N.eqb_eq in Q. subst. repeat split; try assumption.
    - intros [[A [B [C F]]] G]. apply N.ltb_lt in C. rewrite C. cbn [check bind]. rewrite G. cbn [negb check bind]. rewrite A, N.eqb_refl. cbn [check bind].
      rewrite A in B. rewrite B. cbn [demand bind]. rewrite N.eqb_refl. cbn [check bind]. rewrite F, N.eqb_refl. reflexivity.
  Qed.
  Lemma check_markers_iff : forall h m off, check_markers (h_data h) m off = Ok tt <-> rightly_marked h m off.
  Proof.
    intros h m off. unfold check_markers, rightly_marked. destruct (marker_eq _ _) as [A|A]; cbn [check bind]; [|split; [discriminate|intros [Z _]; contradiction]].
    destruct (winning_eq _ _) as [B|B]; cbn [check bind]; [|split; [discriminate|intros [_ [Z _]]; contradiction]].
    destruct (list_eq_dec _ _ _) as [C|C]; cbn [check]; [|split; [discriminate|intros [_ [_ Z]]; contradiction]]. split; [intros _; repeat split; assumption|reflexivity].
  Qed.
  Lemma key_at_iff : forall l i k, key_at z l i = Some k <-> i < N.of_nat (z_V z) /\ exists v, nth_error l (N.to_nat i) = Some v /\ kband v = k.
  Proof.
    intros l i k. unfold key_at. destruct (i <? N.of_nat (z_V z)) eqn:L.
    - apply N.ltb_lt in L. destruct (nth_error l (N.to_nat i)) as [v|]; cbn [option_map]; split.
      + intro Q. inversion Q; subst. split; [exact L|]. exists v. split; reflexivity.
      + intros [_ [v' [Q <-]]]. inversion Q; subst. reflexivity.
      + discriminate.
      + intros [_ [v' [Q _]]]. discriminate.
    - apply N.ltb_ge in L. split; [discriminate|]. intros [Q _]. lia.
  Qed.
  Lemma check_after_iff : forall (s : st R) h m off, check_after z s h m off = Ok tt <-> rightly_sealed z (saf s) h /\ rightly_marked h m off.
  Proof.
    intros s h m off. unfold check_after, rightly_sealed. set (d := h_data h). rewrite <- check_markers_iff. fold d.
    unfold verify_block_seal, verify_vrf_output, seal_context, get_slot_sealer, phase. fold d. change X_T with (str "jam_ticket_seal"%string). change X_F with (str "jam_fallback_seal"%string). change X_E with (str "jam_entropy"%string).
    split.
    - intro Q. ok_as Q Esl. apply lift_ok in Esl. ok_as Q Ek. apply demand_ok in Ek. apply key_at_iff in Ek. destruct Ek as [L [v [Nv Kv]]]. subst a0.
      ok_as Q Es. destruct a0. ok_as Q Ev. destruct a0. split; [|exact Q]. exists v. split; [exact Nv|]. split; [exact L|].
      destruct (z_out z (h_seal h)) as [o|] eqn:Oo; [|discriminate Ev]. cbn [demand bind] in Ev. apply check_ok in Ev.
      ok_as Es Ec. apply check_ok in Es. split; [|exists o; split; [reflexivity|exact Ev]].
      destruct (s_sealers (saf s)) as [l|l].
      + destruct (nth_error l (N.to_nat (h_slot d mod z_E z))) as [t|] eqn:Nt; [|discriminate]. inversion Esl; subst a; clear Esl. apply check_ok in Ec. apply N.eqb_eq in Ec. subst o.
        exists t. split; [reflexivity|]. split; [reflexivity|exact Es].
      + destruct (nth_error l (N.to_nat (h_slot d mod z_E z))) as [k|] eqn:Nt; [|discriminate]. inversion Esl; subst a; clear Esl. apply check_ok in Ec. apply N.eqb_eq in Ec. subst k.
        split; [reflexivity|exact Es].
    - intros [[v [Nv [L [S1 [o [Oo S2]]]]]] M]. assert (K : key_at z (s_active (saf s)) (h_author d) = Some (kband v)) by (apply key_at_iff; split; [exact L|]; exists v; split; [exact Nv|reflexivity]).
      destruct (s_sealers (saf s)) as [l|l].
      + destruct S1 as [t [Nt [Ot Vt]]]. rewrite Nt. cbn [lift bind]. rewrite K. cbn [demand bind]. rewrite Ot, N.eqb_refl. cbn [check bind]. rewrite Vt. cbn [check bind].
        rewrite Ot in Oo. inversion Oo; subst o. cbn [demand bind]. rewrite S2. cbn [check bind]. exact M.
      + destruct S1 as [Nt Vt]. rewrite Nt. cbn [lift bind]. rewrite K. cbn [demand bind]. rewrite N.eqb_refl. cbn [check bind]. rewrite Vt. cbn [check bind].
        rewrite Oo. cbn [demand bind]. rewrite S2. cbn [check bind]. exact M.
  Qed.
  Lemma import_iff : forall now n (b : blk Xt) n', h_parent (h_data (k_header b)) <> 0 ->
    (import z now n b = Ok n' <->
     exists s1 m off s2 o s3, extends z n b /\ begun now (h_slot (h_data (k_header b))) /\
       exec1 z now (nd_work n) (h_slot (h_data (k_header b))) (h_root (h_data (k_header b))) (k_xts b) = Ok (s1, m, off) /\
       rightly_sealed z (saf s1) (k_header b) /\ rightly_marked (k_header b) m off /\
       exec2 z s1 (h_data (k_header b)) (k_xts b) = Ok (s2, o) /\ exec3 z s2 o (z_hash z (k_header b)) = Ok s3 /\ n' = accepted n (k_header b) s3).
  Proof.
    intros now n b n' P. unfold import. apply N.eqb_neq in P. rewrite P. split.
    - intro Q. ok_step Q. destruct a. ok_step Q. destruct a as [[s1 m] off]. cbn [fst snd] in Q. ok_step Q. destruct a. ok_step Q. destruct a as [s2 o]. cbn [fst snd] in Q. ok_step Q. inversion Q; subst n'; clear Q.
      apply check_before_iff in E. apply check_after_iff in E1. destruct E as [X1 X2], E1 as [Y1 Y2]. exists s1, m, off, s2, o, a. do 7 (split; [first [assumption|reflexivity]|]). reflexivity.
    - intros [s1 [m [off [s2 [o [s3 [A [B [C [F [G [I [J ->]]]]]]]]]]]]].
      assert (X : check_before z now n b = Ok tt) by (apply check_before_iff; split; assumption). rewrite X. cbn [bind]. rewrite C. cbn [bind fst snd].
      assert (Y : check_after z s1 (k_header b) m off = Ok tt) by (apply check_after_iff; split; assumption). rewrite Y. cbn [bind]. rewrite I. cbn [bind fst snd]. rewrite J. reflexivity.
  Qed.

  (** ** Authoring *)
  Lemma authored_sealed : forall now (n : node R) slot index pk sk n1 b, vrf_complete z -> z_keystore z pk = Some sk ->
    author_header z now n index sk = Ok (n1, b) -> now_jam_timeslot now = Some slot ->
    (forall k, predict_slot_sealer (z_E z) (z_D z) (z_H z) (z_V z) (saf (nd_work n)) slot = Ok (SKey k) -> k = pk) ->
    key_at z (predict_active_set (z_E z) (saf (nd_work n)) slot) index = Some pk ->
    exists s1 m off, exec1 z now (nd_work n) slot (z_root z (nd_db n)) (z_no_xts z) = Ok (s1, m, off) /\ rightly_sealed z (saf s1) (k_header b) /\ rightly_marked (k_header b) m off /\
      n1 = with_work n s1 /\ k_xts b = z_no_xts z /\ h_parent (h_data (k_header b)) = z_hash z (nd_best n) /\ h_root (h_data (k_header b)) = z_root z (nd_db n) /\
      h_slot (h_data (k_header b)) = slot /\ h_xt (h_data (k_header b)) = z_xt_hash z (z_no_xts z).
  Proof.
    intros now n slot index pk sk n1 b VC KS Q T SK KA. unfold author_header in Q. rewrite T in Q. cbn [demand bind] in Q. ok_step Q. destruct a as [[s1 m] off]. cbn [fst snd] in Q.
    destruct (exec1_facts _ _ _ _ _ _ _ _ E) as [_ [Sl [_ [P1 [P2 P3]]]]]. rewrite Sl in Q. ok_step Q. apply lift_ok in E0. ok_step Q. ok_step Q. inversion Q; subst n1 b; clear Q.
    cbn [k_header k_xts h_data h_parent h_root h_slot h_xt]. exists s1, m, off. split; [reflexivity|]. split; [|split; [repeat split|]; repeat split].
    rewrite E0 in P1. rewrite P3 in KA. apply key_at_iff in KA. destruct KA as [L [v [Nv Kv]]]. set (d := mk_hd _ _ _ _ _ _ _ _ _) in *.
    exists v. cbn [h_data h_author h_seal h_slot h_vrf d]. split; [exact Nv|]. split; [exact L|]. rewrite Kv.
    unfold get_slot_sealer, phase in E0. unfold sign_vrf in E1. unfold sign_seal, seal_context in E2. ok_step E2. apply demand_ok in E3. destruct (VC _ _ _ _ _ KS E3) as [V1 [V2 V3]].
    change X_T with (str "jam_ticket_seal"%string) in *. change X_F with (str "jam_fallback_seal"%string) in *. change X_E with (str "jam_entropy"%string) in *.
    destruct (s_sealers (saf s1)) as [l|l].
    - destruct (nth_error l (N.to_nat (slot mod z_E z))) as [t|] eqn:Nt; [|discriminate]. inversion E0; subst a; clear E0. destruct (z_out z a2) as [o|] eqn:Oo; [|discriminate].
      ok_step E2. apply check_ok in E0. apply N.eqb_eq in E0. inversion E2; subst a1; clear E2. subst o. cbn [bind] in E1. apply demand_ok in E1. destruct (VC _ _ _ _ _ KS E1) as [W1 _].
      split; [exists t; split; [reflexivity|]; split; [exact Oo|exact V1]|]. exists (tid t). split; [exact Oo|exact W1].
    - destruct (nth_error l (N.to_nat (slot mod z_E z))) as [k|] eqn:Nt; [|discriminate]. inversion E0; subst a; clear E0. inversion E2; subst a1; clear E2.
      assert (k = pk) by (apply SK; exact P1). subst k. ok_step E1. ok_step E0. apply demand_ok in E2. apply demand_ok in E0. apply demand_ok in E1.
      destruct (VC _ _ _ _ _ KS E1) as [W1 _]. split; [split; [reflexivity|exact V1]|]. exists a. split; [rewrite <- (V3 _ _ E2); exact E0|exact W1].
  Qed.
  Lemma extend_accepted : forall (a b : node R) slot now now' a' k,
    vrf_complete z -> same_chain z a b -> z_hash z (nd_best a) <> 0 -> now_jam_timeslot now = Some slot -> 0 < slot -> now <= now' ->
    (forall i, nd_index a = Some i -> key_at z (predict_active_set (z_E z) (saf (nd_db a)) slot) i = Some (nd_key a)) ->
    extend_chain z slot now true a = Ok (Some (a', k)) ->
    exists b', import z now' b k = Ok b' /\ same_chain z a' (with_root z b' (z_hash z (k_header k))) /\ nd_best a' = k_header k /\ nd_key a' = nd_key a /\ nd_index a' = nd_index a.
  Proof.
    intros a b slot now now' a' k VC [Dab [Bab [Sa [Sb [[Ra La] [Rb Lb]]]]]] HB T SP L KA Q. unfold extend_chain, extend1 in Q. ok_step Q. destruct a0 as [[n1 b1]|]; [|discriminate].
    ok_step E. unfold is_author_of_slot in E0. destruct a0; [|discriminate]. ok_step E0. apply lift_ok in E1. destruct a0 as [t|key]; [discriminate|]. inversion E0 as [E0']; clear E0. apply N.eqb_eq in E0'. subst key.
    ok_step E. apply demand_ok in E0. ok_step E. apply demand_ok in E2. ok_step E. destruct a2 as [n2 b2]. cbn [fst snd] in E. inversion E; subst n1 b1; clear E.
    unfold settled in Sa, Sb. destruct (authored_sealed _ _ _ _ _ _ _ _ VC E2 E3 T) as [s1 [m [off [X1 [X2 [X3 [-> [X5 [X6 [X7 [X8 X9]]]]]]]]]]].
    { intros k0 Z. rewrite Sa in Z. rewrite E1 in Z. inversion Z. reflexivity. }
    { rewrite Sa. apply KA. exact E0. }
    unfold extend2 in Q. cbn [check bind] in Q. unfold author_state in Q. cbn [with_best with_work nd_work] in Q. match type of Q with bind ?r _ = _ => destruct r as [r2| |] eqn:Xa; cbn [bind] in Q; try discriminate Q end.
    match type of Xa with bind ?r _ = _ => destruct r as [[s2 o]| |] eqn:E; cbn [bind fst snd] in Xa; try discriminate Xa end.
    match type of Xa with bind ?r _ = _ => destruct r as [s3| |] eqn:E4; cbn [bind] in Xa; try discriminate Xa end.
    inversion Xa; subst r2; clear Xa. inversion Q; subst a' k; clear Q. exists (accepted b (k_header b2) s3). split; [|split; [|split; [reflexivity|split; reflexivity]]].
    - assert (HP : h_parent (h_data (k_header b2)) <> 0) by (rewrite X6; exact HB). apply (import_iff now' b b2 _ HP). exists s1, m, off, s2, o, s3.
      assert (F : is_in_future now' slot = false) by (apply (begun_slot now); assumption).
      split; [unfold extends; rewrite X6, X7, X8, X9, X5, <- Bab; split; [reflexivity|split; [|split; [|reflexivity]]]|].
      + rewrite Bab, Rb, Dab. reflexivity.
      + rewrite <- La. apply exec1_facts in X1. destruct X1 as [VT _]. rewrite Sa in VT. unfold validate_timeslot in VT.
        destruct ((s_slot (saf (nd_db a)) =? 0) && (slot =? 0))%bool eqn:Z; [apply andb_true_iff in Z; destruct Z as [_ Z]; apply N.eqb_eq in Z; lia|].
        destruct (slot <=? s_slot (saf (nd_db a))) eqn:Y; [discriminate|]. apply N.leb_gt in Y. exact Y.
      + split; [apply begun_iff; rewrite X8; exact F|]. rewrite X8, X7, X5. split; [replace (nd_work b) with (nd_work a) by congruence; apply (exec1_later now); assumption|].
        split; [exact X2|]. split; [exact X3|]. split; [rewrite <- X5; exact E|]. split; [exact E4|reflexivity].
    - cbn. assert (SL : s_slot (saf s3) = h_slot (h_data (k_header b2))).
      { rewrite X8. apply exec1_facts in X1. destruct X1 as [_ [Y _]]. rewrite <- Y. clear - E E4. unfold exec2 in E. ok_step E. ok_step E. inversion E; subst; clear E. unfold exec3 in E4. ok_step E4. inversion E4; subst. reflexivity. }
      repeat split; try exact SL; cbn; rewrite N.eqb_refl; reflexivity.
  Qed.
  (** ** Many nodes *)
  Lemma same_sym : forall a b : node R, same_chain z a b -> same_chain z b a.
  Proof. intros a b [A [B [C [F [G I]]]]]. repeat split; first [symmetry; assumption|assumption|apply G|apply I]. Qed.
  Lemma same_trans : forall a b c : node R, same_chain z a b -> same_chain z b c -> same_chain z a c.
  Proof. intros a b c [A [B [C [F [G I]]]]] [A' [B' [C' [F' [G' I']]]]]. repeat split; first [congruence|assumption|apply G|apply I']. Qed.
  Lemma turns_same : forall ns ns' : nat -> node R, vrf_complete z -> turns z ns ns' -> (forall i j, same_chain z (ns i) (ns j)) -> forall i j, same_chain z (ns' i) (ns' j).
  Proof.
    intros ns ns' VC T. induction T as [ns|ns i slot now a k ns1 ns2 T1 T2 T3 T4 T5 T6 T7 T8 IH]; intros S; [exact S|]. apply IH. clear IH T8 ns2.
    assert (Z : forall j, same_chain z a (ns1 j)).
    { intro j. destruct (Nat.eq_dec j i) as [->|N].
      - rewrite T6. destruct (extend_accepted (ns i) (ns i) slot now now a k VC (S i i) T3 T1 T2 (N.le_refl _) T4 T5) as [b' [_ [Y _]]]. apply (same_trans _ _ _ Y). apply same_sym. exact Y.
      - destruct (T7 j N) as [now' [L Dl]]. destruct (extend_accepted (ns i) (ns j) slot now now' a k VC (S i j) T3 T1 T2 L T4 T5) as [b' [X [Y _]]].
        unfold deliver in Dl. rewrite X in Dl. inversion Dl. exact Y. }
    intros x y. apply (same_trans _ a); [apply same_sym|]; apply Z.
  Qed.
  (** ** A block that was not announced *)
  Lemma wedged : forall l (n n' : node R), nd_roots n (z_hash z (nd_best n)) = None -> Forall (fun p => h_parent (h_data (k_header (snd p))) <> 0) l ->
    deliver_all z n l = Some n' -> nd_best n' = nd_best n /\ nd_db n' = nd_db n.
  Proof.
    induction l as [|[now b] l IH]; intros n n' NR F Q; cbn [deliver_all] in Q; [inversion Q; split; reflexivity|]. inversion F as [|? ? P F']; subst. cbn [snd] in P.
    unfold deliver in Q. destruct (import z now n b) as [n1| |] eqn:Im; [|specialize (IH _ _ (NR : nd_roots (rollback n) (z_hash z (nd_best (rollback n))) = None) F' Q); exact IH|discriminate].
    apply (import_iff now n b n1 P) in Im. destruct Im as [s1 [m [off [s2 [o [s3 [[X [Y _]] _]]]]]]]. rewrite X, NR in Y. discriminate.
  Qed.
  (** ** Entropy *)
  Lemma exec23_entropy : forall s d x s2 o k s3, exec2 z s d x = Ok (s2, o) -> exec3 z s2 o k = Ok s3 -> exists v, z_out z (h_vrf d) = Some v /\ s_e0 (saf s3) = z_H z (s_e0 (saf s) ++ hbytes v).
  Proof.
    intros s d x s2 o k s3 Q Q'. unfold exec2 in Q. ok_step Q. apply demand_ok in E. ok_step Q. inversion Q; subst; clear Q. unfold exec3 in Q'. ok_step Q'. inversion Q'; subst. exists a. split; [exact E|reflexivity].
  Qed.
End P.
