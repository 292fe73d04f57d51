From Coq Require Import Sorted.
From Verif Require Import Base Base_Proofs Import_Model Fuzz_Model Fuzz_Spec Fuzz_Proofs.
Open Scope N_scope.

Section Sim.
  Context {R B : Type} (cap : nat) (root : state -> N).
  Notation fblock := (@fblock B).
  Context (exec : R -> option aset -> state -> fblock -> R * option outcome) (gen : R -> state -> fblock -> R * option (list (N * option bytes))).
  Context (full : Prop).
  Notation target := (@target R). Notation staged := (@staged R). Notation forest := (@forest R). Notation post := (@post R).

  Definition committed_with (s : state) (a : option delta) : state := match a with Some d => commit s d | None => s end.
  Definition staged_ok (t : target) (f : forest) (h : N) (b : staged) : Prop :=
    exists q, posts f h = Some q /\ committed_with (n_state (t_node t)) (st_artifact b) = p_state q /\ st_ring b = p_ring q /\ st_slot b = p_slot q /\
      an_add cap (n_anc (t_node t)) (st_slot b, h) = p_anc q /\ n_roots (t_node t) h = Some (root (p_state q)) /\ h <> tip f /\ ascending (p_state q) /\
      (forall d, st_artifact b = Some d -> NoDup (map fst d)) /\
      (full -> apply_changes (t_keys t) (st_changes b) = map fst (p_state q)).
  Definition inv (forking ancestors : bool) (t : target) (f : forest) : Prop :=
    (exists q, posts f (tip f) = Some q /\ n_state (t_node t) = p_state q /\ n_ring (t_node t) = p_ring q /\ n_anc (t_node t) = p_anc q /\
       n_best (t_node t) = (tip f, p_slot q) /\ n_roots (t_node t) (tip f) = Some (root (p_state q)) /\ ascending (p_state q) /\
       (full -> t_keys t = map fst (p_state q))) /\
    t_hash t = tip f /\ t_final t = Some (tip f) /\ sorted (t_keys t) /\ t_forking t = forking /\ t_ancestors t = ancestors /\ t_session t = true /\
    (forall h, In h (kids f) <-> find_staged (t_staged t) h <> None) /\
    (forall h b, find_staged (t_staged t) h = Some b -> staged_ok t f h b) /\
    (forking = false -> kids f = []).

  Lemma existsb_eq l p : existsb (N.eqb p) l = true <-> In p l.
  Proof. rewrite existsb_exists. split; [intros (x & H & E); apply N.eqb_eq in E; subst; auto|intro H; exists p; split; auto; apply N.eqb_refl]. Qed.

  Lemma settle_inv fk an t f p : inv fk an t f -> inv fk an (finalize_parent cap t p) (settle f p).
  Proof.
    intros V. unfold finalize_parent, settle. destruct V as (T & Hh & Hf & Hs & Hk & Ha & Hse & Hd & Hst & Hnf).
    destruct (existsb (N.eqb p) (kids f)) eqn:E.
    - apply existsb_eq in E. pose proof (proj1 (Hd p) E) as E1. destruct (find_staged (t_staged t) p) as [b|] eqn:Fb; [|congruence].
      destruct (Hst p b Fb) as (q & Q1 & Q2 & Q3 & Q4 & Q5 & Q6 & Q7 & Q8 & Q9 & Q10).
      unfold inv. cbn [t_node n_state n_ring n_anc n_best n_roots t_hash t_final t_keys t_forking t_ancestors t_session t_staged tip kids posts find_staged find option_map].
      split; [|do 2 (split; [reflexivity|]); split; [apply apply_changes_sorted; auto|]; do 3 (split; [assumption|]); split; [cbn; intuition|]; split; [discriminate|reflexivity]].
      exists q. split; auto. split; [exact Q2|]. split; auto. split; auto. split; [congruence|]. split; auto.
    - destruct (find_staged (t_staged t) p) as [b|] eqn:Fb.
      + assert (In p (kids f)) by (apply Hd; congruence). apply existsb_eq in H. congruence.
      + unfold inv. tauto.
  Qed.

  Lemma get_tip_parent (t : target) (f : forest) (b : fblock) fk an q : inv fk an t f -> posts f (tip f) = Some q -> fb_parent b <> 0 ->
    header_ok (t_node t) b = (fb_parent b =? tip f) && ((p_slot q <? fb_slot b) && (fb_root b =? root (p_state q)) && fb_xt b).
  Proof.
    intros ((q' & Q1 & Q2 & Q3 & Q4 & Q5 & Q6 & Q7 & Q8) & _) Hq P. assert (q' = q) by congruence. subst q'. unfold header_ok. rewrite Q5. cbn [fst snd].
    destruct (fb_parent b =? tip f) eqn:E.
    - apply N.eqb_eq in E. rewrite E, Q6. rewrite andb_true_r. reflexivity.
    - cbn [andb]. rewrite andb_false_r. reflexivity.
  Qed.
  Lemma find_staged_put (l : list (N * staged)) h b x : find_staged ((h, b) :: filter (fun e => negb (fst e =? h)) l) x = if h =? x then Some b else find_staged l x.
  Proof.
    unfold find_staged. cbn [find fst]. destruct (h =? x) eqn:E; [reflexivity|]. apply N.eqb_neq in E. f_equal. induction l as [|[k c] l IH]; auto.
    cbn [filter fst]. destruct (k =? h) eqn:Q; cbn [negb find fst].
    - rewrite IH. apply N.eqb_eq in Q. subst. rewrite (proj2 (N.eqb_neq _ _) E). reflexivity.
    - rewrite IH. reflexivity.
  Qed.
  Lemma keys_after s o ks : ascending s -> outcome_fits s o -> no_new_preimage o -> ks = map fst s -> apply_changes ks (o_accounts o) = map fst (after s o).
  Proof.
    intros A (F1 & F2 & F3 & F4) P ->. apply sorted_ext; [apply apply_changes_sorted; exact A|apply after_ascending; exact A|]. intro x.
    rewrite apply_changes_in by auto. rewrite (in_keys_get (after s o)). unfold after. rewrite updates_get by auto. unfold after_rest. rewrite rest_get by auto.
    unfold after_accounts. rewrite fits_get by auto. rewrite in_keys_get. reflexivity.
  Qed.

  Definition allowed (b : fblock) : Prop := fb_parent b <> 0 /\ fb_hash b <> fb_parent b /\
    (full -> forall r a s r' o, ascending s -> exec r a s b = (r', Some o) -> outcome_fits s o /\ no_new_preimage o).

  Lemma import_inv fk an t f b : inv fk an t f -> allowed b ->
    inv fk an (fst (process_import cap root exec gen t b)) (fst (grow cap root exec fk an f b)) /\
    snd (process_import cap root exec gen t b) = snd (grow cap root exec fk an f b).
  Proof.
    intros V0 (P0 & PH & PF). unfold process_import, grow. apply (settle_inv fk an t f (fb_parent b)) in V0.
    set (t1 := finalize_parent cap t (fb_parent b)) in *. set (f1 := settle f (fb_parent b)) in *. clearbody t1 f1. clear t f. rename t1 into t. rename f1 into f.
    pose proof V0 as ((q & Q1 & Q2 & Q3 & Q4 & Q5 & Q6 & Q7 & Q8) & Hh & Hf & Hs & Hk & Ha & Hse & Hd & Hst & Hnf).
    pose proof (@get_tip_parent t f b fk an q V0 Q1 P0) as HO. unfold import_block, run_block. unfold is_genesis. rewrite (proj2 (N.eqb_neq _ _) P0). rewrite HO. cbn zeta.
    rewrite Q1. unfold child.
    assert (FAIL : forall r, inv fk an (with_node t (with_ring (with_ring (t_node t) r) (n_ring (t_node t)))) f).
    { intro r. unfold inv, with_node, with_ring, staged_ok. cbn. unfold inv, staged_ok in V0. exact V0. }
    destruct (fb_parent b =? tip f) eqn:Et; cbn [andb]; [|cbn [fst snd]; split; [apply FAIL|reflexivity]].
    destruct ((p_slot q <? fb_slot b) && (fb_root b =? root (p_state q)) && fb_xt b) eqn:Ec; [|cbn [fst snd]; split; [apply FAIL|reflexivity]].
    rewrite Q2, Q3, Q4, Ha. destruct (exec (p_ring q) (if an then Some (p_anc q) else None) (p_state q) b) as [r [o|]] eqn:Ex; [|cbn [fst snd]; split; [rewrite <- Q3; apply FAIL|reflexivity]].
    apply N.eqb_eq in Et. pose proof (commit_after _ o Q7) as CA.
    assert (AF : ascending (after (p_state q) o)) by (apply after_ascending; auto).
    assert (KF : full -> apply_changes (t_keys t) (o_accounts o) = map fst (after (p_state q) o)).
    { intro F. destruct (PF F _ _ _ _ _ Q7 Ex) as [F1 F2]. apply keys_after; auto. }
    assert (NT : fb_hash b <> tip f) by congruence.
    unfold commit_mode, is_genesis. rewrite (proj2 (N.eqb_neq _ _) P0), Hk, Hf, Et, N.eqb_refl. cbn [p_state].
    destruct fk; cbn [negb orb].
    - (* staged *)
      assert (ART : exists art, (match dirty (touches o) with
                     | [] => (with_ring (t_node t) r, Some (root (p_state q), o_accounts o, None))
                     | _ :: _ => (with_ring (t_node t) r, Some (root (commit (p_state q) (dirty (touches o))), o_accounts o, Some (dirty (touches o)))) end)
                     = (with_ring (t_node t) r, Some (root (after (p_state q) o), o_accounts o, art)) /\
                committed_with (p_state q) art = after (p_state q) o /\ forall d, art = Some d -> NoDup (map fst d)).
      { rewrite CA. destruct (dirty (touches o)) as [|e d] eqn:D.
        - exists None. cbn in CA. rewrite <- CA. split; [reflexivity|]. split; [reflexivity|discriminate].
        - exists (Some (e :: d)). split; [reflexivity|]. split; [exact CA|]. intros d' [= <-]. rewrite <- D. apply dirty_nodup. }
      destruct ART as (art & -> & AC & AN). cbn [fst snd]. split; [|reflexivity].
      unfold inv. cbn [t_node set_root_of with_ring n_state n_ring n_anc n_best n_roots t_hash t_final t_keys t_forking t_ancestors t_session t_staged tip kids posts].
      split; [|do 6 (split; [first [assumption|reflexivity]|]); split; [|split; [|discriminate]]].
      + exists q. unfold learn. rewrite (proj2 (N.eqb_neq (tip f) (fb_hash b))) by congruence. tauto.
      + intro h. rewrite find_staged_put. cbn [In]. destruct (fb_hash b =? h) eqn:E; [apply N.eqb_eq in E; intuition congruence|]. apply N.eqb_neq in E. rewrite Hd. intuition congruence.
      + intros h sb. rewrite find_staged_put. destruct (fb_hash b =? h) eqn:E.
        * apply N.eqb_eq in E. subst h. intros [= <-]. unfold staged_ok. cbn [t_node set_root_of with_ring n_state n_ring n_anc n_best n_roots t_keys st_artifact st_ring st_slot st_changes posts tip].
          unfold learn. rewrite N.eqb_refl. eexists. split; [reflexivity|]. cbn [p_state p_ring p_slot p_anc]. rewrite Q2, Q4. do 4 (split; [auto|]). do 3 (split; [auto|]). auto.
        * intro Hx. destruct (Hst h sb Hx) as (q' & S1 & S2 & S3 & S4 & S5 & S6 & S7 & S8 & S9 & S10). exists q'.
          cbn [t_node set_root_of with_ring n_state n_ring n_anc n_best n_roots t_keys posts tip]. unfold learn. rewrite (N.eqb_sym h), E. tauto.
    - (* committed *)
      cbn [fst snd]. rewrite CA. split; [|reflexivity].
      unfold inv. cbn [t_node set_root_of n_state n_ring n_anc n_best n_roots t_hash t_final t_keys t_forking t_ancestors t_session t_staged tip kids posts].
      assert (K0 : kids f = []) by auto.
      split; [|do 2 (split; [reflexivity|]); split; [apply apply_changes_sorted; auto|]; do 3 (split; [first [assumption|reflexivity]|]); split; [|split; [|reflexivity]]].
      + unfold learn. rewrite !N.eqb_refl. eexists. split; [reflexivity|]. cbn [p_state p_ring p_anc p_slot]. tauto.
      + intro h. rewrite <- Hd, K0. tauto.
      + intros h sb Hx. exfalso. assert (In h (kids f)) by (apply Hd; congruence). rewrite K0 in H. contradiction.
  Qed.
End Sim.
