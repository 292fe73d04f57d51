From Verif Require Import Base Base_Proofs Queue_Model Queue_Spec Queue_Proofs Disputes_Model Disputes_Spec Disputes_Proofs Reports_Model Reports_Spec.
From Coq Require Import Sorted.
Open Scope N_scope.

Lemma bind_ok : forall Er A B (r : result Er A) (k : A -> result Er B) b, bind r k = Ok b <-> exists a, r = Ok a /\ k a = Ok b.
Proof. intros Er A B [a|e|] k b; cbn; split; try discriminate; [eauto|now intros (x & [= <-] & K)|now intros (x & Q & _)..]. Qed.
Lemma map_err_ok : forall A B (f : A -> result rxt_err B) l bs, map_err f l = Ok bs <-> Forall2 (fun a b => f a = Ok b) l bs.
Proof.
  induction l as [|a l IH]; intros bs; cbn [map_err].
  - split; [intros [= <-]; constructor|intros H; inversion H; reflexivity].
  - rewrite bind_ok. split.
    + intros (b & Q & K). apply bind_ok in K as (bs' & Q2 & [= <-]). constructor; auto. now apply IH.
    + intros H. inversion H; subst. exists y. split; auto. apply bind_ok. exists l'. split; [now apply IH|reflexivity].
Qed.
Lemma F2_impl : forall A B (P Q : A -> B -> Prop) l l', (forall a b, In a l -> P a b -> Q a b) -> Forall2 P l l' -> Forall2 Q l l'.
Proof. intros A B P Q l l' H F. revert H. induction F; intros H'; constructor; auto with datatypes. Qed.
Lemma find_first : forall A (f : A -> bool) (P : A -> Prop) l x, (forall y, f y = true <-> P y) ->
  (find f l = Some x <-> first_such P l x).
Proof.
  intros A f P l x HP. split.
  - induction l as [|a l IH]; cbn; [discriminate|]. destruct (f a) eqn:F.
    + intros [= <-]. exists [], l. repeat split; [now apply HP|intros ? []].
    + intros Q. destruct (IH Q) as (b & c & -> & Px & Hb). exists (a :: b), c. repeat split; auto.
      intros y [<-|Hy] Py; [apply HP in Py; congruence|now apply (Hb y)].
  - intros (b & c & -> & Px & Hb). induction b as [|y b IH]; cbn.
    + apply HP in Px. now rewrite Px.
    + destruct (f y) eqn:F; [exfalso; apply (Hb y); [now left|now apply HP]|]. apply IH. intros z Hz. apply Hb. now right.
Qed.
Lemma find_none : forall A (f : A -> bool) l, find f l = None <-> forall y, In y l -> f y = false.
Proof.
  induction l as [|a l IH]; cbn; [intuition|]. destruct (f a) eqn:F.
  - split; [discriminate|]. intros H. rewrite H in F by now left. discriminate.
  - rewrite IH. split; [intros H y [<-|Hy]; auto|auto].
Qed.
Lemma in_combine_seq : forall A (l : list A) c b s, In (c, b) (combine (seq s (length l)) l) <-> (s <= c)%nat /\ nth_error l (c - s) = Some b.
Proof.
  induction l as [|a l IH]; intros c b s; cbn [length seq combine].
  - cbn. split; [intros []|intros [_ H]]. destruct (c - s)%nat; discriminate.
  - cbn [In]. rewrite IH. split.
    + intros [[= <- <-]|[L Q]].
      * split; [lia|]. now rewrite Nat.sub_diag.
      * split; [lia|]. replace (c - s)%nat with (S (c - S s)) by lia. exact Q.
    + intros [L Q]. destruct (Nat.eq_dec s c) as [->|Ne].
      * left. rewrite Nat.sub_diag in Q. cbn in Q. congruence.
      * right. split; [lia|]. replace (c - s)%nat with (S (c - S s)) in Q by lia. exact Q.
Qed.
Lemma at_core_nth : forall p c r t, at_core p c = Some (r, t) <-> nth_error p c = Some (Some (r, t)).
Proof.
  intros p c r t. unfold at_core. split.
  - intros H. destruct (lt_dec c (length p)) as [L|L]; [|rewrite nth_overflow in H by lia; discriminate]. rewrite (nth_error_nth' p None L). now rewrite H.
  - intros H. now apply nth_error_nth.
Qed.
Lemma pair_eqb_spec : forall a b, pair_eqb a b = true <-> a = b.
Proof. intros [a1 a2] [b1 b2]. unfold pair_eqb. cbn. rewrite andb_true_iff, !N.eqb_eq. split; [intros [-> ->]|intros [= -> ->]]; auto. Qed.
Lemma pending_pkgs_In : forall p x, In x (pending_pkgs p) <-> exists c r t, at_core p c = Some (r, t) /\ w_pkg r = x.
Proof.
  intros p x. unfold pending_pkgs. rewrite in_flat_map. split.
  - intros ([[r t]|] & H1 & H2); [|destruct H2]. destruct H2 as [<-|[]]. apply In_nth_error in H1 as [c H1]. exists c, r, t. split; [now apply at_core_nth|reflexivity].
  - intros (c & r & t & H & <-). apply at_core_nth in H. apply nth_error_In in H. exists (Some (r, t)). split; [assumption|now left].
Qed.
Lemma in_reported_iff : forall hs p, in_reported hs p = true <-> exists root, reported hs p root.
Proof.
  intros hs p. unfold in_reported, reported. rewrite existsb_exists. split.
  - intros (h & Hh & M). apply mem_In, in_map_iff in M as ([q root] & Q & Hin). cbn in Q. subst q. eauto.
  - intros (root & h & Hh & Hin). exists h. split; [assumption|]. apply mem_In, in_map_iff. exists (p, root). auto.
Qed.
Lemma creds_sorted_iff : forall l, creds_sorted l = true /\ no_dup (map cr_index l) = true <-> ascending (map cr_index l).
Proof.
  induction l as [|a l IH]; [cbn; intuition|]. split.
  - intros [Hs Hn]. cbn [map no_dup] in Hn. apply andb_true_iff in Hn as [Hm Hn]. apply negb_true_iff, mem_not_In in Hm.
    destruct l as [|b l]; [exact I|]. cbn [creds_sorted] in Hs. apply andb_true_iff in Hs as [Hle Hs]. cbn [map ascending].
    split; [|apply IH; auto]. apply orb_true_iff in Hle as [Q|Q]; [now apply N.ltb_lt|]. apply andb_true_iff in Q as [Q _]. apply N.eqb_eq in Q. exfalso. apply Hm. now left.
  - intros Ha. assert (Hn := ascending_NoDup _ Ha). split; [|now apply no_dup_NoDup]. destruct l as [|b l]; [reflexivity|].
    cbn [map ascending] in Ha. destruct Ha as [L Ha]. cbn [creds_sorted]. rewrite (proj2 (N.ltb_lt _ _) L). cbn [orb andb]. now apply IH in Ha as [Ha _].
Qed.
Lemma rotation_bound : forall R a b, R * (a / R - 1) <= b <-> a / R <= b / R + 1.
Proof.
  intros R a b. destruct (N.eq_dec R 0) as [->|HR].
  - assert (a / 0 = 0) by now destruct a. rewrite H. lia.
  - split; intros H.
    + assert (a / R - 1 <= b / R) by (apply N.div_le_lower_bound; assumption). lia.
    + assert (R * (b / R) <= b) by (apply N.mul_div_le; assumption). nia.
Qed.

Section P.
  Variables (V C U R L : N).
  Variable verify : N -> bytes -> N -> bool.
  Variable report_hash : wreport -> N.
  Variable avail_hash : N -> list bool -> N.
  Notation validate_assurances := (validate_assurances verify avail_hash).
  Notation validate_assurance := (validate_assurance verify avail_hash).

  (** Assurances *)
  Lemma validate_assurance_ok : forall parent active p a,
    validate_assurance parent active p a = Ok tt <-> acceptable_assurance verify avail_hash parent active p a.
  Proof.
    intros parent active p a. unfold Reports_Model.validate_assurance, acceptable_assurance. rewrite bind_unit, check_ok, N.eqb_eq.
    destruct (nth_error active (N.to_nat (a_index a))) as [k|].
    - rewrite bind_unit, check_ok, first_err_ok.
      assert (K : (forall cb : nat * bool, In cb (combine (seq 0 (length (a_bits a))) (a_bits a)) ->
          (if snd cb then match nth_error p (fst cb) with None => Panic | Some None => Err NoPendingReportForCore | Some (Some _) => Ok tt end else Ok tt) = Ok tt)
        <-> (forall c, nth_error (a_bits a) c = Some true -> exists r t, at_core p c = Some (r, t))).
      { split.
        - intros H c Hc. specialize (H (c, true)). cbn in H. rewrite in_combine_seq in H. rewrite Nat.sub_0_r in H. specialize (H (conj (Nat.le_0_l _) Hc)).
          destruct (nth_error p c) as [[[r t]|]|] eqn:N; try discriminate. exists r, t. now apply at_core_nth.
        - intros H [c b] Hin. apply in_combine_seq in Hin as [_ Hc]. rewrite Nat.sub_0_r in Hc. cbn. destruct b; [|reflexivity].
          destruct (H c Hc) as (r & t & Q). apply at_core_nth in Q. now rewrite Q. }
      rewrite K. split; [intros (Q1 & Q2 & Q3); repeat split; eauto|intros (Q1 & (key & [= <-] & Q2) & Q3); auto].
    - split; [intros [_ Q]; discriminate|intros (_ & (key & Q & _) & _); discriminate].
  Qed.
  Lemma validate_assurances_ok : forall parent active p x,
    validate_assurances parent active p x = Ok tt <-> acceptable_assurances verify avail_hash parent active p x.
  Proof.
    intros parent active p x. unfold acceptable_assurances. destruct x as [|a x].
    - cbn. intuition.
    - unfold Reports_Model.validate_assurances. rewrite !bind_unit, !check_ok, first_err_ok, <- sorted_no_dup.
      setoid_rewrite validate_assurance_ok. tauto.
  Qed.

  Lemma add_bits_length : forall counts bits, length (add_bits counts bits) = length counts.
  Proof. intros. unfold add_bits. now rewrite map_length, seq_length. Qed.
  Lemma add_bits_nth : forall counts bits c, (c < length counts)%nat -> nth c (add_bits counts bits) 0 = nth c counts 0 + (if nth c bits false then 1 else 0).
  Proof.
    intros counts bits c Hc. unfold add_bits. set (f := fun i => nth i counts 0 + (if nth i bits false then 1 else 0)).
    rewrite (nth_indep _ 0 (f O)) by (now rewrite map_length, seq_length). rewrite map_nth, seq_nth by assumption. reflexivity.
  Qed.
  Lemma fold_bits : forall x counts c, (c < length counts)%nat ->
    nth c (fold_left (fun counts a => add_bits counts (a_bits a)) x counts) 0 = nth c counts 0 + Reports_Spec.votes x c.
  Proof.
    induction x as [|a x IH]; intros counts c Hc; cbn [fold_left].
    - unfold Reports_Spec.votes. cbn. lia.
    - rewrite IH by (now rewrite add_bits_length). rewrite add_bits_nth by assumption. unfold Reports_Spec.votes. cbn [filter]. destruct (nth c (a_bits a) false); cbn [length]; lia.
  Qed.
  Lemma counts_votes : forall x c, (c < N.to_nat C)%nat -> nth c (assurance_counts C x) 0 = Reports_Spec.votes x c.
  Proof.
    intros x c Hc. unfold assurance_counts. rewrite fold_bits by (now rewrite repeat_length). rewrite nth_repeat. lia.
  Qed.
  Lemma available_In : forall x c, In c (available_cores V C x) <-> (c < N.to_nat C)%nat /\ 2 * V / 3 + 1 <= Reports_Spec.votes x c.
  Proof.
    intros x c. unfold available_cores. rewrite filter_In, in_seq, N.leb_le. unfold super_majority. split.
    - intros [H1 H2]. rewrite counts_votes in H2 by lia. split; [lia|assumption].
    - intros [H1 H2]. rewrite counts_votes by lia. split; [lia|assumption].
  Qed.
  Lemma sorted_filter_seq : forall f n s, StronglySorted lt (filter f (seq s n)).
  Proof.
    intros f n. induction n as [|n IH]; intros s; cbn [seq filter]; [constructor|]. destruct (f s); [|apply IH]. constructor; [apply IH|].
    apply Forall_forall. intros x Hx. apply filter_In in Hx as [Hx _]. apply in_seq in Hx. lia.
  Qed.
  Lemma votes_engaged : forall parent active p x c, acceptable_assurances verify avail_hash parent active p x -> 1 <= Reports_Spec.votes x c ->
    exists r t, at_core p c = Some (r, t).
  Proof.
    intros parent active p x c [_ H] Hv. unfold Reports_Spec.votes in Hv. destruct (filter (fun a => nth c (a_bits a) false) x) as [|a l] eqn:F; [cbn in Hv; lia|].
    assert (In a (a :: l)) by now left. rewrite <- F in H0. apply filter_In in H0 as [H1 H2]. destruct (H a H1) as (_ & _ & K). apply K.
    destruct (lt_dec c (length (a_bits a))) as [Hl|Hl]; [|rewrite nth_overflow in H2 by lia; discriminate]. rewrite (nth_error_nth' _ false Hl). now rewrite H2.
  Qed.

  (** Pending *)
  Lemma collect_available_ok : forall p cores rs, collect_available C p cores = Ok rs <->
    Forall2 (fun c r => N.of_nat c < C /\ exists t, at_core p c = Some (r, t)) cores rs.
  Proof.
    intros p. induction cores as [|c cs IH]; intros rs; cbn [collect_available].
    - split; [intros [= <-]; constructor|intros H; inversion H; reflexivity].
    - destruct (N.ltb_spec (N.of_nat c) C) as [Hc|Hc]; cbn [negb].
      + destruct (nth_error p c) as [[[r t]|]|] eqn:E.
        * rewrite bind_ok. split.
          -- intros (rs' & Q & [= <-]). constructor; [|now apply IH]. split; [assumption|]. exists t. now apply at_core_nth.
          -- intros H. inversion H as [|? ? ? l' [_ (t' & Q)] H2]; subst. apply at_core_nth in Q. rewrite E in Q. injection Q as -> ->. exists l'. split; [now apply IH|reflexivity].
        * split; [discriminate|]. intros H. inversion H as [|? ? ? l' [_ (t' & Q)] H2]; subst. apply at_core_nth in Q. congruence.
        * split; [discriminate|]. intros H. inversion H as [|? ? ? l' [_ (t' & Q)] H2]; subst. apply at_core_nth in Q. congruence.
      + split; [discriminate|]. intros H. inversion H as [|? ? ? l' [Q _] H2]; subst. lia.
  Qed.
  Lemma at_set : forall p c x i, (c < length p)%nat -> at_core (set_nth c x p) i = if Nat.eq_dec i c then x else at_core p i.
  Proof. intros p c x i Hc. unfold at_core. rewrite nth_set_nth by assumption. reflexivity. Qed.
  Lemma remove_cores_ok : forall cores p, (forall c, In c cores -> (c < N.to_nat C)%nat) -> length p = N.to_nat C ->
    exists p', remove_cores C p cores = Ok p' /\ length p' = length p /\
      forall i, at_core p' i = if in_dec Nat.eq_dec i cores then None else at_core p i.
  Proof.
    induction cores as [|c cs IH]; intros p Hc Hp; cbn [remove_cores].
    - exists p. repeat split.
    - assert (Hc0 := Hc c ltac:(now left)). unfold remove_by_core. rewrite (proj2 (N.ltb_lt _ _)) by lia. rewrite (proj2 (Nat.ltb_lt _ _)) by lia. cbn [bind].
      destruct (IH (set_nth c None p)) as (p' & Q1 & Q2 & Q3); [auto with datatypes|rewrite set_nth_length by lia; assumption|].
      exists p'. split; [assumption|]. split; [rewrite Q2, set_nth_length by lia; reflexivity|]. intros i. rewrite Q3, at_set by lia.
      destruct (in_dec Nat.eq_dec i cs), (in_dec Nat.eq_dec i (c :: cs)) as [I1|I1], (Nat.eq_dec i c); try reflexivity; exfalso; cbn in I1; intuition.
  Qed.
  Lemma timed_out_In : forall p slot c, In c (timed_out_cores U p slot) <-> exists r t, at_core p c = Some (r, t) /\ t + U <= slot.
  Proof.
    intros p slot c. unfold timed_out_cores. rewrite filter_In, in_seq. fold (at_core p c). split.
    - intros [H1 H2]. destruct (at_core p c) as [[r t]|]; [|discriminate]. apply N.leb_le in H2. eauto.
    - intros (r & t & Q & H). rewrite Q. split; [|now apply N.leb_le]. apply at_core_nth in Q. assert (nth_error p c <> None) by congruence. apply nth_error_Some in H0. lia.
  Qed.
  Lemma clear_ok : forall parent active slot p x p' rs, length p = N.to_nat C ->
    clear_availables V C U verify avail_hash parent active slot p x = Ok (p', rs) <->
    acceptable_assurances verify avail_hash parent active p x /\ length p' = N.to_nat C /\
    Forall2 (fun c r => exists t, at_core p c = Some (r, t)) (available_cores V C x) rs /\
    (forall c, at_core p' c = if in_dec Nat.eq_dec c (available_cores V C x ++ timed_out_cores U p slot) then None else at_core p c).
  Proof.
    intros parent active slot p x p' rs Hp. unfold clear_availables. rewrite bind_unit, validate_assurances_ok.
    destruct (remove_cores_ok (available_cores V C x ++ timed_out_cores U p slot) p) as (q & Q1 & Q2 & Q3); [|assumption|].
    { intros c Hc. apply in_app_or in Hc as [Hc|Hc]; [apply available_In in Hc; lia|]. apply timed_out_In in Hc as (r & t & Q & _). apply at_core_nth in Q.
      assert (nth_error p c <> None) by congruence. apply nth_error_Some in H. lia. }
    rewrite bind_ok, Q1. cbn [bind]. split.
    - intros (A & rs0 & Hrs & [= -> ->]). split; [assumption|]. split; [congruence|]. split; [|assumption].
      apply collect_available_ok in Hrs. clear - Hrs. induction Hrs as [|c r cs rs [_ K] _ IH]; constructor; auto.
    - intros (A & Hl & Hrs & Hat). split; [assumption|]. exists rs. split.
      + apply collect_available_ok. assert (Hin : forall c, In c (available_cores V C x) -> N.of_nat c < C) by (intros c Hc; apply available_In in Hc; lia).
        revert Hrs Hin. generalize (available_cores V C x). clear. intros cs Hrs Hin. induction Hrs as [|c r cs rs K _ IH]; constructor; auto with datatypes.
      + do 2 f_equal. apply (nth_ext _ _ None None); [congruence|]. intros n _. fold (at_core q n). fold (at_core p' n). now rewrite Q3, Hat.
  Qed.

  Lemma remove_hash_length : forall h p, length (remove_by_hash report_hash p h) = length p.
  Proof. intros h. induction p as [|[[r t]|] p IH]; cbn; auto. destruct (report_hash r =? h); cbn; auto. Qed.
  Lemma remove_hash_at : forall h p c, distinct_hashes report_hash p ->
    at_core (remove_by_hash report_hash p h) c = match at_core p c with Some (r, t) => if report_hash r =? h then None else Some (r, t) | None => None end.
  Proof.
    intros h. induction p as [|o p IH]; intros c D.
    - cbn. destruct c; reflexivity.
    - assert (D' : distinct_hashes report_hash p) by (intros i j r r' t t' Hi Hj Q; specialize (D (S i) (S j) r r' t t' Hi Hj Q); lia).
      destruct o as [[r t]|]; cbn [remove_by_hash].
      + destruct (N.eqb_spec (report_hash r) h) as [Q|Q].
        * destruct c as [|c].
          -- unfold at_core. cbn [nth]. now rewrite (proj2 (N.eqb_eq _ _) Q).
          -- change (at_core p c = match at_core p c with Some (r0, t0) => if report_hash r0 =? h then None else Some (r0, t0) | None => None end).
             destruct (at_core p c) as [[r' t']|] eqn:Ec; [|reflexivity]. destruct (N.eqb_spec (report_hash r') h) as [Q'|Q']; [|reflexivity].
             exfalso. specialize (D O (S c) r r' t t' eq_refl Ec ltac:(congruence)). discriminate.
        * destruct c as [|c]; [unfold at_core; cbn [nth]; destruct (N.eqb_spec (report_hash r) h); [contradiction|reflexivity]|]. exact (IH c D').
      + destruct c as [|c]; [reflexivity|exact (IH c D')].
  Qed.
  Lemma distinct_sub : forall p q, (forall c r t, at_core q c = Some (r, t) -> at_core p c = Some (r, t)) -> distinct_hashes report_hash p -> distinct_hashes report_hash q.
  Proof. intros p q H D i j r r' t t' Hi Hj. apply D with (t := t) (t' := t'); auto. Qed.
  Lemma eliminate_at : forall js p, distinct_hashes report_hash p ->
    length (eliminate_invalid report_hash p js) = length p /\
    forall c r t, at_core (eliminate_invalid report_hash p js) c = Some (r, t) <-> at_core p c = Some (r, t) /\ ~ In (report_hash r) js.
  Proof.
    unfold eliminate_invalid. induction js as [|h js IH]; intros p D; cbn [fold_left].
    - split; [reflexivity|]. intros. cbn. tauto.
    - destruct (IH (remove_by_hash report_hash p h)) as [I1 I2].
      { apply (distinct_sub p); [|assumption]. intros c r t. rewrite remove_hash_at by assumption. destruct (at_core p c) as [[r' t']|]; [|discriminate]. destruct (_ =? _); [discriminate|auto]. }
      rewrite I1, remove_hash_length. split; [reflexivity|]. intros c r t. rewrite I2, remove_hash_at by assumption. cbn [In].
      destruct (at_core p c) as [[r' t']|]; [|split; intros [? ?]; discriminate]. destruct (N.eqb_spec (report_hash r') h) as [Q|Q].
      + split; [intros [? _]; discriminate|]. intros [[= -> ->] K]. exfalso. apply K. now left.
      + split; intros [[= -> ->] K]; split; auto; intuition congruence.
  Qed.

  Lemma place_ok : forall slot rs p, (forall r, In r rs -> w_core r < N.of_nat (length p)) -> NoDup (map w_core rs) ->
    exists p', place p slot rs = Ok p' /\ length p' = length p /\
      (forall r, In r rs -> at_core p' (N.to_nat (w_core r)) = Some (r, slot)) /\
      (forall c, (forall r, In r rs -> w_core r <> N.of_nat c) -> at_core p' c = at_core p c).
  Proof.
    intros slot. induction rs as [|r rs IH]; intros p Hc Nd; cbn [place].
    - exists p. repeat split; auto. intros r [].
    - assert (Hr := Hc r ltac:(now left)). rewrite (proj2 (Nat.ltb_lt _ _)) by lia. cbn [map] in Nd. inversion Nd as [|? ? N1 N2]; subst.
      destruct (IH (set_nth (N.to_nat (w_core r)) (Some (r, slot)) p)) as (p' & Q1 & Q2 & Q3 & Q4); [intros r' H'; rewrite set_nth_length by lia; auto with datatypes|assumption|].
      exists p'. split; [assumption|]. split; [rewrite Q2, set_nth_length by lia; reflexivity|]. split.
      + intros r' [<-|H']; [|auto]. rewrite Q4.
        * rewrite at_set by lia. destruct (Nat.eq_dec _ _); [reflexivity|contradiction].
        * intros r' H' Q. apply N1. apply in_map_iff. exists r'. split; [lia|assumption].
      + intros c H. rewrite Q4 by auto with datatypes. rewrite at_set by lia. destruct (Nat.eq_dec c (N.to_nat (w_core r))) as [->|]; [|reflexivity].
        exfalso. apply (H r); [now left|]. lia.
  Qed.
  Lemma place_ok_inv : forall slot rs p p', place p slot rs = Ok p' -> forall r, In r rs -> w_core r < N.of_nat (length p).
  Proof.
    intros slot. induction rs as [|r rs IH]; intros p p' H r' Hr; cbn [place] in H; [destruct Hr|destruct Hr as [<-|H']].
    - destruct (Nat.ltb_spec (N.to_nat (w_core r)) (length p)); [lia|discriminate].
    - destruct (Nat.ltb_spec (N.to_nat (w_core r)) (length p)); [|discriminate]. specialize (IH _ _ H r' H'). now rewrite set_nth_length in IH by lia.
  Qed.

  (** Guarantees *)
  Lemma total_gas_le : forall w, total_gas w <= 10000000 <-> fold_right N.add 0 (map wd_gas (w_digests w)) <= 10000000.
  Proof. intros w. unfold total_gas. cbv zeta. destruct (N.ltb_spec (fold_right N.add 0 (map wd_gas (w_digests w))) (2 ^ 64)); lia. Qed.
  Lemma validate_work_report_ok : forall k x w,
    validate_work_report C L k x w = Ok tt <-> acceptable_report C L k x w.
  Proof.
    intros k x w. unfold validate_work_report, acceptable_report. cbv zeta. fold (manifests k x).
    rewrite !bind_unit, !first_err_ok, !check_ok, !N.leb_le, total_gas_le, N.ltb_lt.
    assert (K1 : match nth_error (k_pending k) (N.to_nat (w_core w)) with None => Panic | Some (Some _) => Err PendingReportExists | Some None => Ok tt end = Ok tt
        <-> nth_error (k_pending k) (N.to_nat (w_core w)) = Some None).
    { destruct (nth_error _ _) as [[?|]|]; intuition discriminate. }
    assert (K2 : match nth_error (k_pools k) (N.to_nat (w_core w)) with None => Panic | Some pool => check (mem (w_auth w) pool) InvalidAuthorizerHash end = Ok tt
        <-> exists pool, nth_error (k_pools k) (N.to_nat (w_core w)) = Some pool /\ In (w_auth w) pool).
    { clear K1. destruct (nth_error _ _) as [pool|]; [rewrite check_ok, mem_In|]; split; [eauto|now intros (? & [= <-] & ?)|discriminate|now intros (? & ? & _)]. }
    assert (K3 : match find (fun h => h_hash h =? w_anchor w) (k_history k) with
               | None => Err AnchorBlockNotFound
               | Some h => let! _ := check (h_state h =? w_anchor_state w) InvalidAnchorStateRoot in
                           check (h_beefy h =? w_anchor_beefy w) InvalidAnchorBeefyRoot
               end = Ok tt <->
        exists h, first_such (fun h => h_hash h = w_anchor w) (k_history k) h /\ h_state h = w_anchor_state w /\ h_beefy h = w_anchor_beefy w).
    { clear K1 K2. assert (F : forall h, find (fun h => h_hash h =? w_anchor w) (k_history k) = Some h <-> first_such (fun h => h_hash h = w_anchor w) (k_history k) h).
      { intros h. apply find_first. intros y. apply N.eqb_eq. }
      destruct (find _ _) as [h|].
      - rewrite bind_unit, !check_ok, !N.eqb_eq. split; [intros [? ?]; exists h; split; [now apply F|auto]|]. intros (h' & Q & ? & ?). apply F in Q. injection Q as <-. auto.
      - split; [discriminate|]. intros (h & Q & _). apply F in Q. discriminate. }
    assert (K4 : match k_ancestors k with
               | None => Ok tt
               | Some l => check (existsb (pair_eqb (w_lookup_slot w, w_lookup_anchor w)) l) LookupAnchorNotFound
               end = Ok tt <-> forall l, k_ancestors k = Some l -> In (w_lookup_slot w, w_lookup_anchor w) l).
    { destruct (k_ancestors k) as [l|]; [|intuition discriminate]. rewrite check_ok, existsb_exists. split.
      - intros (y & Hy & Q) l' [= <-]. apply pair_eqb_spec in Q. now subst.
      - intros H. eexists. split; [exact (H l eq_refl)|now apply pair_eqb_spec]. }
    assert (K5 : negb (in_reported (k_history k) (w_pkg w)) = true <-> forall root, ~ reported (k_history k) (w_pkg w) root).
    { rewrite negb_true_iff, <- not_true_iff_false, in_reported_iff. split; [intros H root Q; apply H; eauto|intros H (root & Q); exact (H root Q)]. }
    assert (K6 : negb (mem (w_pkg w) (k_accumulated k ++ k_queued k ++ pending_pkgs (k_prior_pending k))) = true <->
       ~ In (w_pkg w) (k_accumulated k) /\ ~ In (w_pkg w) (k_queued k) /\ (forall c r t, at_core (k_prior_pending k) c = Some (r, t) -> w_pkg r <> w_pkg w)).
    { rewrite negb_true_iff, mem_not_In, !in_app_iff, pending_pkgs_In. split.
      - intros H. split; [tauto|]. split; [tauto|]. intros c r t Q Q2. apply H. right. right. eauto.
      - intros (A & B & D) [H|[H|(c & r & t & Q & Q2)]]; [auto..|]. exact (D c r t Q Q2). }
    assert (K7 : (forall a, In a (w_lookups w) -> match find (fun m => fst m =? fst a) (manifests k x) with
                                  | None => Err SegmentsRootNotFound
                                  | Some m => check (snd m =? snd a) SegmentsRootInvalid
                                  end = Ok tt) <->
       forall pkg root, In (pkg, root) (w_lookups w) -> first_such (fun m => fst m = pkg) (manifests k x) (pkg, root)).
    { assert (F : forall pkg m, find (fun m => fst m =? pkg) (manifests k x) = Some m <-> first_such (fun m => fst m = pkg) (manifests k x) m).
      { intros pkg m. apply find_first. intros y. apply N.eqb_eq. }
      split.
      - intros H pkg root Hin. specialize (H _ Hin). cbn in H. destruct (find (fun m => fst m =? pkg) (manifests k x)) as [m|] eqn:Q; [|discriminate]. apply check_ok, N.eqb_eq in H. apply F in Q.
        assert (Q' := Q). destruct Q' as (b & c & _ & Q' & _). destruct m as [m1 m2]. cbn in *. now subst.
      - intros H [pkg root] Hin. specialize (H _ _ Hin). apply F in H. cbn. rewrite H. cbn. now rewrite N.eqb_refl. }
    assert (K8 : (forall a, In a (w_prereq w) ->
       check (mem a (map (fun g => w_pkg (gu_report g)) x) || in_reported (k_history k) a) PrerequisiteNotFound = Ok tt) <->
       forall pkg, In pkg (w_prereq w) -> (exists g, In g x /\ w_pkg (gu_report g) = pkg) \/ exists root, reported (k_history k) pkg root).
    { setoid_rewrite check_ok. setoid_rewrite orb_true_iff. setoid_rewrite mem_In. setoid_rewrite in_reported_iff. setoid_rewrite in_map_iff.
      split; intros H p Hp; (destruct (H p Hp) as [(g & A & B)|Q]; [left; eauto|right; assumption]). }
    assert (K9 : (forall d, In d (w_digests w) -> match k_service k (wd_service d) with
                                  | None => Err AccountNotFound | Some (g, _) => check (g <=? wd_gas d) GasLimitTooLow end = Ok tt) /\
        (forall d, In d (w_digests w) -> match k_service k (wd_service d) with
                                  | None => Err AccountNotFound | Some (_, code) => check (code =? wd_code d) InvalidCodeHash end = Ok tt) <->
       (forall d, In d (w_digests w) -> exists g, k_service k (wd_service d) = Some (g, wd_code d) /\ g <= wd_gas d)).
    { split.
      - intros [A B] d Hd. specialize (A d Hd). specialize (B d Hd). destruct (k_service k (wd_service d)) as [[g code]|]; [|discriminate].
        apply check_ok in A, B. apply N.leb_le in A. apply N.eqb_eq in B. subst code. eauto.
      - intros H. split; intros d Hd; destruct (H d Hd) as (g & -> & Q); apply check_ok; [now apply N.leb_le|apply N.eqb_refl]. }
    assert (K10 : k_slot k - L <= w_lookup_slot w <-> k_slot k <= w_lookup_slot w + L) by lia.
    assert (K11 : N.of_nat (length (w_prereq w) + length (w_lookups w)) <= 8 <-> (length (w_prereq w) + length (w_lookups w) <= 8)%nat) by lia.
    rewrite K1, K2, K3, K4, K5, K6, K7, K8, K10, K11, <- K9. tauto.
  Qed.

  Lemma validate_credential_ok : forall k g c key,
    validate_credential R verify report_hash k (gu_report g) (gu_slot g) c = Ok key <->
    gu_slot g <= k_slot k /\ k_slot k / R <= gu_slot g / R + 1 /\ guarantor R verify report_hash k g c key.
  Proof.
    intros k g c key. unfold validate_credential, guarantor. fold (assignment R k (gu_slot g)). destruct (assignment R k (gu_slot g)) as [cores keys]. cbn [fst snd].
    destruct (nth_error keys (N.to_nat (cr_index c))) as [key'|].
    - rewrite !bind_unit, !check_ok, negb_true_iff, N.eqb_neq, !N.leb_le, rotation_bound.
      destruct (nth_error cores (N.to_nat (cr_index c))) as [core|].
      + rewrite bind_unit, check_ok, N.eqb_eq. split.
        * intros (A & B & D & F & -> & [= ->]). auto 8.
        * intros (D & F & [= ->] & A & [= ->] & B). auto 8.
      + split; [intros (_ & _ & _ & _ & Q); discriminate|intros (_ & _ & _ & _ & Q & _); discriminate].
    - split; [discriminate|intros (_ & _ & Q & _); discriminate].
  Qed.
  Lemma Forall2_exists : forall A B (P : A -> B -> Prop) l, (exists bs, Forall2 P l bs) <-> forall a, In a l -> exists b, P a b.
  Proof.
    induction l as [|a l IH].
    - split; [intros _ ? []|intros _; exists []; constructor].
    - split.
      + intros (bs & H) a' Ha. inversion H; subst. destruct Ha as [<-|Ha]; [eauto|]. apply (proj1 IH); eauto.
      + intros H. destruct (H a ltac:(now left)) as [b Hb]. destruct (proj2 IH) as [bs Hbs]; [intros; apply H; now right|]. exists (b :: bs). now constructor.
  Qed.
  Lemma validate_guarantee_ok : forall k x g keys,
    validate_guarantee C R L verify report_hash k x g = Ok keys <->
    acceptable_guarantee C R L verify report_hash k x g /\ Forall2 (guarantor R verify report_hash k g) (gu_creds g) keys.
  Proof.
    intros k x g keys. unfold validate_guarantee, acceptable_guarantee. cbv zeta. rewrite !bind_unit, validate_work_report_ok, !check_ok, map_err_ok.
    assert (K : ((length (gu_creds g) =? 2)%nat || (length (gu_creds g) =? 3)%nat)%bool = true <-> (length (gu_creds g) = 2 \/ length (gu_creds g) = 3)%nat).
    { rewrite orb_true_iff, !Nat.eqb_eq. reflexivity. }
    rewrite K. clear K. rewrite <- creds_sorted_iff. split.
    - intros (A & B & D & F & Q).
      assert (Hg : Forall2 (guarantor R verify report_hash k g) (gu_creds g) keys).
      { revert Q. apply F2_impl. intros c key _ H. apply validate_credential_ok in H. tauto. }
      assert (Ht : gu_slot g <= k_slot k /\ k_slot k / R <= gu_slot g / R + 1).
      { destruct (gu_creds g) as [|c cs]; [cbn in B; lia|]. inversion Q as [|? ? ? ? H _]; subst. apply validate_credential_ok in H. tauto. }
      assert (He := proj1 (Forall2_exists _ _ _ _) (ex_intro _ keys Hg)). tauto.
    - intros ((A & B & D & F & G & _) & Q). do 4 (split; [tauto|]).
      revert Q. apply F2_impl. intros c key _ H. apply validate_credential_ok. tauto.
  Qed.
  Lemma validate_guarantees_ok : forall k x keys,
    validate_guarantees C R L verify report_hash k x = Ok keys <->
    acceptable_guarantees C R L verify report_hash k x /\
    exists kss, keys = concat kss /\ Forall2 (fun g ks => Forall2 (guarantor R verify report_hash k g) (gu_creds g) ks) x kss.
  Proof.
    intros k x keys. unfold acceptable_guarantees.
    assert (E : x <> [] -> validate_guarantees C R L verify report_hash k x =
        (let! _ := check (sorted_by (fun g => w_core (gu_report g)) x) GuaranteesNotSorted in
         let! _ := check (no_dup (map (fun g => w_core (gu_report g)) x)) DuplicateCoreIndex in
         let! _ := check (no_dup (map (fun g => w_pkg (gu_report g)) x)) DuplicateWorkPackageHash in
         let! keys := map_err (validate_guarantee C R L verify report_hash k x) x in Ok (concat keys))) by (destruct x; [congruence|reflexivity]).
    destruct x as [|g0 x0] eqn:Ex.
    - cbn. split.
      + intros [= <-]. split; [split; [exact I|]; split; [constructor|intros ? []]|]. exists []. split; [reflexivity|constructor].
      + intros (_ & kss & -> & H). inversion H. reflexivity.
    - rewrite <- Ex in *. rewrite E by (subst; discriminate). rewrite !bind_unit, !check_ok, bind_ok, <- sorted_no_dup, <- no_dup_NoDup. split.
      + intros (A & B & D & kss & Q & [= <-]). apply map_err_ok in Q.
        assert (H : Forall2 (fun g ks => acceptable_guarantee C R L verify report_hash k x g /\ Forall2 (guarantor R verify report_hash k g) (gu_creds g) ks) x kss).
        { revert Q. apply F2_impl. intros g ks _ Q. now apply validate_guarantee_ok. }
        split; [split; [tauto|]; split; [assumption|]|].
        * intros g Hg. destruct (proj1 (Forall2_exists _ _ _ x) (ex_intro _ kss H) g Hg) as (ks & Hk & _). exact Hk.
        * exists kss. split; [reflexivity|]. revert H. apply F2_impl. intros g ks _ [_ Q']. exact Q'.
      + intros (((A & B) & D & F) & kss & -> & H). do 3 (split; [assumption|]). exists kss. split; [|reflexivity]. apply map_err_ok.
        revert H. apply F2_impl. intros g ks Hg Q. apply validate_guarantee_ok. split; auto.
  Qed.

  Notation reports_block := (reports_block V C U R L verify report_hash avail_hash).

  Lemma eliminate_sub : forall js p c r t, at_core (eliminate_invalid report_hash p js) c = Some (r, t) -> at_core p c = Some (r, t).
  Proof.
    unfold eliminate_invalid. induction js as [|h js IH]; intros p c r t H; cbn [fold_left] in H; [assumption|]. apply IH in H. clear IH.
    revert c H. induction p as [|[[r' t']|] p IH]; intros c H; cbn [remove_by_hash] in H; [assumption|..].
    - destruct (report_hash r' =? h).
      + destruct c; [discriminate|exact H].
      + destruct c; [exact H|exact (IH c H)].
    - destruct c; [discriminate|exact (IH c H)].
  Qed.
  Lemma eliminate_length : forall js p, length (eliminate_invalid report_hash p js) = length p.
  Proof. unfold eliminate_invalid. induction js as [|h js IH]; intros p; cbn [fold_left]; [reflexivity|]. now rewrite IH, remove_hash_length. Qed.

  (** One block, with the intermediate states in view. *)
  Lemma block_inv : forall p b p' rs, length p = N.to_nat C -> reports_block p b = Ok (p', rs) ->
    exists p1 p2, p1 = eliminate_invalid report_hash p (rb_judged b) /\ length p1 = N.to_nat C /\ length p2 = N.to_nat C /\ length p' = N.to_nat C /\
      acceptable_assurances verify avail_hash (rb_parent b) (rb_active b) p1 (rb_assurances b) /\
      Forall2 (fun c r => exists t, at_core p1 c = Some (r, t)) (available_cores V C (rb_assurances b)) rs /\
      (forall c, at_core p2 c = if in_dec Nat.eq_dec c (available_cores V C (rb_assurances b) ++ timed_out_cores U p1 (k_slot (rb_ctx b))) then None else at_core p1 c) /\
      acceptable_guarantees C R L verify report_hash (with_pending (rb_ctx b) p2 p) (rb_guarantees b) /\
      (forall g, In g (rb_guarantees b) -> at_core p' (N.to_nat (w_core (gu_report g))) = Some (gu_report g, k_slot (rb_ctx b))) /\
      (forall c, (forall g, In g (rb_guarantees b) -> w_core (gu_report g) <> N.of_nat c) -> at_core p' c = at_core p2 c).
  Proof.
    intros p b p' rs Hp H. unfold Reports_Model.reports_block in H. cbv zeta in H.
    apply bind_ok in H as ([p2 rs2] & H1 & H2). apply bind_ok in H2 as ([p3 keys] & H2 & [= -> ->]).
    assert (Hl : length (eliminate_invalid report_hash p (rb_judged b)) = N.to_nat C) by (now rewrite eliminate_length).
    apply clear_ok in H1 as (A1 & A2 & A3 & A4); [|assumption].
    unfold update_entries in H2. apply bind_ok in H2 as (keys' & G1 & G2). apply bind_ok in G2 as (p3' & G2 & [= -> ->]). cbn [k_pending k_slot with_pending] in G2.
    apply validate_guarantees_ok in G1 as [G1 _].
    assert (Nd : NoDup (map w_core (map gu_report (rb_guarantees b)))).
    { rewrite map_map. destruct G1 as [Q _]. now apply ascending_NoDup. }
    destruct (place_ok (k_slot (rb_ctx b)) (map gu_report (rb_guarantees b)) p2 (place_ok_inv _ _ _ _ G2) Nd) as (p4 & P1 & P2 & P3 & P4).
    rewrite G2 in P1. injection P1 as <-.
    exists (eliminate_invalid report_hash p (rb_judged b)), p2. repeat (split; [auto; congruence|]). split.
    - intros g Hg. apply P3. now apply in_map.
    - intros c Hc. apply P4. intros r Hr. apply in_map_iff in Hr as (g & <- & Hg). auto.
  Qed.

  Lemma block_spec : forall p b p' rs, length p = N.to_nat C -> distinct_hashes report_hash p -> reports_block p b = Ok (p', rs) ->
    length p' = N.to_nat C /\
    (forall c, (c < N.to_nat C)%nat ->
      (forall g, In g (rb_guarantees b) -> w_core (gu_report g) = N.of_nat c ->
         at_core p' c = Some (gu_report g, k_slot (rb_ctx b)) /\ forall r t, at_core p c = Some (r, t) -> leaves V U report_hash b c r t) /\
      ((forall g, In g (rb_guarantees b) -> w_core (gu_report g) <> N.of_nat c) ->
         forall r t, at_core p' c = Some (r, t) <-> at_core p c = Some (r, t) /\ ~ leaves V U report_hash b c r t)) /\
    exists cores, StronglySorted lt cores /\ (forall c, In c cores <-> (c < N.to_nat C)%nat /\ assured V b c) /\
      Forall2 (fun c r => exists t, at_core p c = Some (r, t) /\ ~ In (report_hash r) (rb_judged b)) cores rs.
  Proof.
    intros p b p' rs Hp D H. destruct (block_inv _ _ _ _ Hp H) as (p1 & p2 & E1 & L1 & L2 & L3 & A & F & P2 & G & W & K).
    assert (X : forall c r t, at_core p1 c = Some (r, t) <-> at_core p c = Some (r, t) /\ ~ In (report_hash r) (rb_judged b)).
    { subst p1. apply (eliminate_at (rb_judged b) p D). }
    assert (Y : forall c r t, (c < N.to_nat C)%nat -> (at_core p2 c = Some (r, t) <-> at_core p c = Some (r, t) /\ ~ leaves V U report_hash b c r t)).
    { intros c r t Hc. rewrite P2. destruct (in_dec _ _ _) as [I|I].
      - split; [discriminate|]. intros [Q N]. exfalso. apply N. unfold leaves. apply in_app_or in I as [I|I].
        + apply available_In in I. right. left. apply I.
        + apply timed_out_In in I as (r' & t' & Q' & T). apply X in Q'. right. right. destruct Q' as [Q' _]. rewrite Q in Q'. now injection Q' as <- <-.
      - rewrite X. unfold leaves. split.
        + intros [Q N]. split; [assumption|]. intros [M|[M|M]]; [contradiction|..]; apply I, in_or_app.
          * left. apply available_In. split; assumption.
          * right. apply timed_out_In. exists r, t. split; [now apply X|assumption].
        + intros [Q N]. split; [assumption|]. intros M. apply N. now left. }
    split; [assumption|]. split.
    - intros c Hc. split.
      + intros g Hg Q. rewrite <- (Nat2N.id c), <- Q. split; [auto|]. intros r t Hr. rewrite Q, Nat2N.id in *.
        destruct G as (_ & _ & G). destruct (G g Hg) as ((_ & _ & _ & _ & Hfree & _) & _). cbn [k_pending with_pending] in Hfree. rewrite Q, Nat2N.id in Hfree.
        assert (N2 : at_core p2 c = None) by (unfold at_core; now apply nth_error_nth).
        rewrite P2 in N2. destruct (in_dec _ _ _) as [I|I].
        * apply in_app_or in I as [I|I]; [right; left; now apply available_In in I|]. apply timed_out_In in I as (r' & t' & Q' & T). apply X in Q' as [Q' _]. rewrite Hr in Q'. injection Q' as <- <-. now right; right.
        * left. destruct (in_dec N.eq_dec (report_hash r) (rb_judged b)) as [J|J]; [assumption|]. assert (at_core p1 c = Some (r, t)) by now apply X. congruence.
      + intros Hng r t. rewrite K by assumption. now apply Y.
    - exists (available_cores V C (rb_assurances b)). split; [apply sorted_filter_seq|]. split; [apply available_In|].
      revert F. apply F2_impl. intros c r _ (t & Q). apply X in Q. eauto.
  Qed.

  (** No error about missing reports once the assurances are acceptable. *)
  Lemma clear_total : forall parent active slot p x, length p = N.to_nat C -> acceptable_assurances verify avail_hash parent active p x ->
    exists p' rs, clear_availables V C U verify avail_hash parent active slot p x = Ok (p', rs).
  Proof.
    intros parent active slot p x Hp A.
    assert (H : exists rs, Forall2 (fun c r => exists t, at_core p c = Some (r, t)) (available_cores V C x) rs).
    { apply Forall2_exists. intros c Hc. apply available_In in Hc as [Hc Hv]. eapply votes_engaged; [exact A|lia]. }
    destruct H as [rs Hrs].
    destruct (remove_cores_ok (available_cores V C x ++ timed_out_cores U p slot) p) as (q & Q1 & Q2 & Q3); [|assumption|].
    { intros c Hc. apply in_app_or in Hc as [Hc|Hc]; [apply available_In in Hc; lia|]. apply timed_out_In in Hc as (r & t & Q & _). apply at_core_nth in Q.
      assert (nth_error p c <> None) by congruence. apply nth_error_Some in H. lia. }
    exists q, rs. apply clear_ok; [assumption|]. split; [assumption|]. split; [congruence|]. split; assumption.
  Qed.

  (** The pipeline *)
  Definition pinv (E : N) (p : pending) (s : astate) : Prop :=
    length p = N.to_nat C /\ wf_state E s /\ uniq_inv s /\
    (forall c r t, at_core p c = Some (r, t) -> w_core r = N.of_nat c) /\
    (forall i j r r' t t', at_core p i = Some (r, t) -> at_core p j = Some (r', t') -> w_pkg r = w_pkg r' -> i = j) /\
    (forall c r t, at_core p c = Some (r, t) -> ~ In (w_pkg r) (concat (as_hist s)) /\ ~ In (w_pkg r) (pkgs (map fst (concat (as_queue s))))).

  Lemma step_origin : forall E s b s' acc, (0 < E)%N -> wf_state E s -> as_slot s < ab_slot b -> astep E s b = Ok (s', acc) ->
    forall p, In p (pkgs (map fst (concat (as_queue s')))) \/ In p (concat (as_hist s')) ->
      In p (pkgs (map fst (concat (as_queue s)))) \/ In p (concat (as_hist s)) \/ In p (pkgs (ab_available b)).
  Proof.
    intros E s b s' acc HE W Hlt A p Hp. destruct (astep_inv _ _ _ _ _ HE W A) as (full & newq & Cq & -> & Hc & Hh & Hs & h0 & Hq).
    assert (Hnew : newq = new_entries (ab_available b) (as_hist s)) by (apply collect_inv in Cq; tauto).
    destruct Hp as [Hp|Hp].
    - unfold pkgs in Hp. rewrite map_map in Hp. apply in_map_iff in Hp as ([r ds'] & <- & Hr). cbn.
      destruct (queue_entries_from _ _ _ _ _ _ _ _ HE Hlt Hq r ds' Hr) as (ds & [Hf|Hf] & _).
      + subst newq. apply new_entries_In in Hf as [Hf _]. right. right. now apply in_map.
      + left. unfold pkgs. rewrite map_map. apply in_map_iff. exists (r, ds). auto.
    - rewrite Hh in Hp. apply concat_lastn_incl in Hp. apply in_app_or in Hp as [Hp|Hp]; [auto|]. apply (proj1 (bset_of_In _ _)) in Hp.
      unfold pkgs in Hp. apply in_map_iff in Hp as (r & <- & Hr). assert (Hr' : In r full) by (rewrite <- (firstn_skipn (ab_count b) full); apply in_or_app; now left).
      apply in_split in Hr' as (l1 & l2 & E2). destruct (collect_order _ _ _ _ _ _ _ Cq _ _ _ E2) as [[X _]|(ds & Wt & _)].
      + right. right. now apply in_map.
      + destruct Wt as [se Hse Hin|X _ _ _].
        * left. unfold pkgs. rewrite map_map. apply in_map_iff. exists (r, ds). split; [reflexivity|]. apply in_concat. eauto.
        * right. right. now apply in_map.
  Qed.

  Lemma pinv_step : forall E p s b p' rs s' acc n, 0 < E -> pinv E p s -> as_slot s < k_slot (rb_ctx b) -> reads_state s b ->
    reports_block p b = Ok (p', rs) ->
    astep E s (mk_ab (k_slot (rb_ctx b)) (map to_report rs) n) = Ok (s', acc) ->
    pinv E p' s' /\ fresh_available s (mk_ab (k_slot (rb_ctx b)) (map to_report rs) n).
  Proof.
    intros E p s b p' rs s' acc n HE (Hl & W & Uq & Own & Inj & Dis) Hlt [RQ RH] H A.
    destruct (block_inv _ _ _ _ Hl H) as (p1 & p2 & E1 & L1 & L2 & L3 & As & F & P2 & G & Wr & K).
    assert (S1 : forall c r t, at_core p1 c = Some (r, t) -> at_core p c = Some (r, t)) by (subst p1; intros c r t; apply eliminate_sub).
    assert (S2 : forall c r t, at_core p2 c = Some (r, t) -> at_core p c = Some (r, t) /\ ~ In c (available_cores V C (rb_assurances b))).
    { intros c r t Q. rewrite P2 in Q. destruct (in_dec _ _ _) as [I|I]; [discriminate|]. split; [auto|]. intros M. apply I, in_or_app. now left. }
    assert (Rs : forall x, In x (pkgs (map to_report rs)) -> exists c r t, In c (available_cores V C (rb_assurances b)) /\ at_core p c = Some (r, t) /\ w_pkg r = x).
    { clear - F S1. unfold pkgs. rewrite map_map. cbn. induction F as [|c r cs rs (t & Q) _ IH]; intros x Hx; [destruct Hx|]. destruct Hx as [<-|Hx].
      - exists c, r, t. repeat split; auto with datatypes.
      - destruct (IH x Hx) as (c' & r' & t' & ? & ? & ?). exists c', r', t'. repeat split; auto with datatypes. }
    assert (Fr : fresh_available s (mk_ab (k_slot (rb_ctx b)) (map to_report rs) n)).
    { split; cbn [ab_available].
      - assert (Nd : NoDup (available_cores V C (rb_assurances b))) by (apply NoDup_filter, seq_NoDup).
        unfold pkgs. rewrite map_map. cbn. clear - F S1 Nd Inj. revert Nd. induction F as [|c r cs rs (t & Q) F IH]; intros Nd; [constructor|]. inversion Nd as [|? ? N1 N2]; subst.
        cbn [map]. constructor; [|auto]. intros Hin. apply in_map_iff in Hin as (r' & Ew & Hr'). apply N1.
        clear - F S1 Q Inj Ew Hr'. induction F as [|c' r0 cs rs (t' & Q') F IH]; [destruct Hr'|]. destruct Hr' as [->|Hr'].
        + left. apply (Inj c' c r' r t' t); auto.
        + right. auto.
      - intros x Hx. destruct (Rs x Hx) as (c & r & t & _ & Q & <-). exact (Dis c r t Q). }
    split; [|exact Fr].
    destruct (uniq_step E s (mk_ab (k_slot (rb_ctx b)) (map to_report rs) n) s' acc HE W Hlt Uq Fr A) as (W' & Uq' & _).
    destruct G as (Asc & Ndp & Gok).
    (* where a report of the new pending set comes from *)
    assert (Org : forall c r t, at_core p' c = Some (r, t) ->
       (exists g, In g (rb_guarantees b) /\ gu_report g = r /\ w_core r = N.of_nat c) \/
       ((forall g, In g (rb_guarantees b) -> w_core (gu_report g) <> N.of_nat c) /\ at_core p c = Some (r, t) /\ ~ In c (available_cores V C (rb_assurances b)))).
    { intros c r t Q. destruct (find (fun g => w_core (gu_report g) =? N.of_nat c) (rb_guarantees b)) as [g|] eqn:Fi.
      - apply find_some in Fi as [Hg Ec]. apply N.eqb_eq in Ec. left. exists g. specialize (Wr g Hg). rewrite Ec, Nat2N.id in Wr. rewrite Wr in Q. injection Q as <- <-. auto.
      - right. assert (Hn : forall g, In g (rb_guarantees b) -> w_core (gu_report g) <> N.of_nat c).
        { intros g Hg. rewrite find_none in Fi. specialize (Fi g Hg). now apply N.eqb_neq in Fi. }
        split; [assumption|]. rewrite K in Q by assumption. auto. }
    assert (Gnew : forall g, In g (rb_guarantees b) -> ~ In (w_pkg (gu_report g)) (concat (as_hist s)) /\ ~ In (w_pkg (gu_report g)) (pkgs (map fst (concat (as_queue s)))) /\
        (forall c r t, at_core p c = Some (r, t) -> w_pkg r <> w_pkg (gu_report g))).
    { intros g Hg. destruct (Gok g Hg) as ((_ & _ & _ & _ & _ & _ & _ & _ & _ & _ & N1 & N2 & N3 & _) & _). cbn [k_accumulated k_queued k_prior_pending with_pending] in *.
      split; [now rewrite <- RH|]. split; [now rewrite <- RQ|exact N3]. }
    split; [assumption|]. split; [assumption|]. split; [assumption|]. split; [|split].
    - intros c r t Q. destruct (Org c r t Q) as [(g & _ & _ & Ec)|(_ & Q' & _)]; eauto.
    - intros i j r r' t t' Qi Qj Ep. destruct (Org i r t Qi) as [(g & Hg & <- & Ei)|(_ & Pi & Ai)], (Org j r' t' Qj) as [(g' & Hg' & <- & Ej)|(_ & Pj & Aj)].
      + assert (g = g').
        { clear - Hg Hg' Ep Ndp. induction (rb_guarantees b) as [|a l IH]; [destruct Hg|]. cbn [map] in Ndp. inversion Ndp as [|? ? N1 N2]; subst.
          destruct Hg as [->|Hg], Hg' as [->|Hg']; auto; exfalso; apply N1.
          - rewrite Ep. apply in_map_iff. eauto.
          - rewrite <- Ep. apply in_map_iff. eauto. }
        subst g'. lia.
      + exfalso. destruct (Gnew g Hg) as (_ & _ & N3). apply (N3 j r' t' Pj). auto.
      + exfalso. destruct (Gnew g' Hg') as (_ & _ & N3). apply (N3 i r t Pi). auto.
      + eapply Inj; eauto.
    - intros c r t Q.
      assert (Z : ~ (In (w_pkg r) (pkgs (map fst (concat (as_queue s')))) \/ In (w_pkg r) (concat (as_hist s')))).
      { intros Hin. apply (step_origin E s (mk_ab (k_slot (rb_ctx b)) (map to_report rs) n) s' acc HE W Hlt A) in Hin. cbn [ab_available] in Hin.
        destruct (Org c r t Q) as [(g & Hg & <- & Ec)|(_ & Q' & Ac)].
        - destruct (Gnew g Hg) as (N1 & N2 & N3). destruct Hin as [Hin|[Hin|Hin]]; [auto..|]. destruct (Rs _ Hin) as (c' & r' & t' & _ & Q' & Ew). exact (N3 _ _ _ Q' Ew).
        - destruct (Dis c r t Q') as [N1 N2]. destruct Hin as [Hin|[Hin|Hin]]; [auto..|]. destruct (Rs _ Hin) as (c' & r' & t'' & Ac' & Q'' & Ew).
          assert (c' = c) by (eapply Inj; eauto). subst c'. contradiction. }
      tauto.
  Qed.
  Lemma pinv_genesis : forall E t, pinv E (repeat None (N.to_nat C)) (agenesis E t).
  Proof.
    intros E t. assert (N : forall c, at_core (repeat None (N.to_nat C)) c = None) by (intros c; unfold at_core; apply nth_repeat).
    split; [apply repeat_length|]. split; [apply genesis_wf|]. split; [apply genesis_uniq|].
    split; [|split]; intros; rewrite N in *; discriminate.
  Qed.
  Notation pipeline := (pipeline V C U R L verify report_hash avail_hash).
  Lemma pipeline_inv : forall E t log p s, 0 < E -> pipeline E (pgenesis C E t) log (p, s) -> pinv E p s.
  Proof.
    intros E t log p s HE H. remember (p, s) as ps eqn:Q. revert p s Q. remember (pgenesis C E t) as g eqn:Eg. induction H as [|log p0 s0 b p' rs s' acc _ IH Hlt Rd B A]; intros p s Q.
    - subst g. unfold pgenesis in Q. injection Q as <- <-. apply pinv_genesis.
    - injection Q as <- <-. specialize (IH _ _ eq_refl). exact (proj1 (pinv_step _ _ _ _ _ _ _ _ _ HE IH Hlt Rd B A)).
  Qed.
  Lemma pending_pkgs_NoDup : forall p, (forall i j r r' t t', at_core p i = Some (r, t) -> at_core p j = Some (r', t') -> w_pkg r = w_pkg r' -> i = j) -> NoDup (pending_pkgs p).
  Proof.
    induction p as [|o p IH]; intros Inj; [constructor|]. unfold pending_pkgs. cbn [flat_map]. fold (pending_pkgs p).
    assert (NoDup (pending_pkgs p)) by (apply IH; intros i j r r' t t' Hi Hj Q; specialize (Inj (S i) (S j) r r' t t' Hi Hj Q); lia).
    destruct o as [[r t]|]; cbn [app]; [|assumption]. constructor; [|assumption]. intros Hin. apply pending_pkgs_In in Hin as (c & r' & t' & Q & Ew).
    specialize (Inj O (S c) r r' t t' eq_refl Q (eq_sym Ew)). discriminate.
  Qed.
  Lemma pipeline_once : forall E t log p s, 0 < E -> pipeline E (pgenesis C E t) log (p, s) ->
    NoDup (pending_pkgs p ++ pkgs (map fst (concat (as_queue s))) ++ concat (as_hist s)) /\
    (forall c r u, at_core p c = Some (r, u) -> w_core r = N.of_nat c) /\
    ((forall i j r r' u u', at_core p i = Some (r, u) -> at_core p j = Some (r', u') -> report_hash r = report_hash r' -> r = r') -> distinct_hashes report_hash p).
  Proof.
    intros E t log p s HE H. destruct (pipeline_inv _ _ _ _ _ HE H) as (Hl & W & (U1 & U2 & U3) & Own & Inj & Dis). split; [|split].
    - apply NoDup_app_intro.
      + now apply pending_pkgs_NoDup.
      + apply NoDup_app_intro; auto.
      + intros x Hx Hy. apply pending_pkgs_In in Hx as (c & r & u & Q & <-). destruct (Dis c r u Q) as [D1 D2]. apply in_app_or in Hy as [Hy|Hy]; auto.
    - exact Own.
    - intros Col i j r r' u u' Hi Hj Q. assert (r = r') by eauto. subst r'. eapply Inj; eauto.
  Qed.
  Lemma pipeline_step_fresh : forall E t log p s b p' rs s' acc, 0 < E -> pipeline E (pgenesis C E t) log (p, s) -> as_slot s < k_slot (rb_ctx (pb_reports b)) ->
    reads_state s (pb_reports b) -> reports_block p (pb_reports b) = Ok (p', rs) ->
    astep E s (mk_ab (k_slot (rb_ctx (pb_reports b))) (map to_report rs) (pb_count b)) = Ok (s', acc) ->
    NoDup (pkgs acc) /\ (forall x, In x (pkgs acc) -> ~ In x (concat (as_hist s))) /\
    forall x, In x (pkgs acc) -> In x (pending_pkgs p) \/ In x (pkgs (map fst (concat (as_queue s)))).
  Proof.
    intros E t log p s b p' rs s' acc HE H Hlt Rd B A. assert (I := pipeline_inv _ _ _ _ _ HE H).
    destruct (pinv_step _ _ _ _ _ _ _ _ _ HE I Hlt Rd B A) as [_ Fr]. destruct I as (Hl & W & Uq & Own & Inj & Dis).
    destruct (uniq_step E s (mk_ab (k_slot (rb_ctx (pb_reports b))) (map to_report rs) (pb_count b)) s' acc HE W Hlt Uq Fr A) as (_ & _ & N1 & N2). split; [assumption|]. split; [assumption|].
    intros x Hx. destruct (astep_inv _ _ _ _ _ HE W A) as (full & newq & Cq & -> & Hc & Hh & Hs & h0 & Hq).
    cbn [ab_count ab_available] in *. unfold pkgs in Hx. apply in_map_iff in Hx as (r & <- & Hr).
    assert (Hr' : In r full) by (rewrite <- (firstn_skipn (pb_count b) full); apply in_or_app; now left).
    assert (Av : In r (map to_report rs) -> In (rp_pkg r) (pending_pkgs p)).
    { intros Hin. destruct (block_inv _ _ _ _ Hl B) as (p1 & p2 & E1 & L1 & L2 & L3 & As & F & _). apply in_map_iff in Hin as (w & <- & Hw). cbn.
      apply pending_pkgs_In. clear - F E1 Hw. subst p1. induction F as [|c r cs rs (u & Q) _ IH]; [destruct Hw|]. destruct Hw as [->|Hw]; [|auto]. apply eliminate_sub in Q. eauto 6. }
    apply in_split in Hr' as (l1 & l2 & E2). destruct (collect_order _ _ _ _ _ _ _ Cq _ _ _ E2) as [[X _]|(ds & Wt & _)]; [auto|].
    destruct Wt as [se Hse Hin|X _ _ _]; [|auto]. right. unfold pkgs. rewrite map_map. apply in_map_iff. exists (r, ds). split; [reflexivity|]. apply in_concat. eauto.
  Qed.
End P.
