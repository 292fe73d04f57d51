(** C14-C18, C50-C52: Safrole. E = EPOCH_LENGTH, D = TICKET_CONTEST_DURATION, V = VALIDATOR_COUNT; [H] is any hash function,
    [ring_of] any ring-commitment function. *)
From Verif Require Import Base Safrole_Model Safrole_Spec Safrole_Proofs.
From Coq Require Import Permutation Sorted.

(** * C14: the ticket accumulator *)
(** Whatever entries the heap chooses among equal ids, it holds the best E tickets submitted, *)
Theorem accumulator_keeps_best : forall E submitted h, heap_adds E [] submitted h -> best E submitted h.
Proof. exact heap_adds_best. Qed.
(** as does any extension of an accumulator that did. *)
Theorem accumulator_extends : forall E submitted0 h submitted h', best E submitted0 h -> heap_adds E h submitted h' ->
  best E (submitted0 ++ submitted) h'.
Proof. intros. eapply heap_adds_best_gen; eauto. Qed.
(** The ids kept do not depend on arrival order or on the heap's choices, *)
Theorem accumulator_ids_order_independent : forall E ts1 ts2 h1 h2, Permutation ts1 ts2 ->
  heap_adds E [] ts1 h1 -> heap_adds E [] ts2 h2 -> Permutation (map tid h1) (map tid h2).
Proof.
  intros E ts1 ts2 h1 h2 P A1 A2. eapply best_ids_unique; [apply heap_adds_best, A1|apply heap_adds_best, A2|now apply Permutation_map].
Qed.
(** nor do the tickets kept, when ids are distinct. *)
Theorem accumulator_order_independent : forall E ts1 ts2 h1 h2, NoDup (map tid ts1) -> Permutation ts1 ts2 ->
  heap_adds E [] ts1 h1 -> heap_adds E [] ts2 h2 -> Permutation h1 h2.
Proof. intros E ts1 ts2 h1 h2 ND P A1 A2. eapply best_unique; eauto using heap_adds_best. Qed.
(** Finding: with two tickets of equal id and different attempt, the result depends on arrival order. *)
Theorem accumulator_order_refuted : exists E ts1 ts2 h1 h2, Permutation ts1 ts2 /\
  heap_adds E [] ts1 h1 /\ heap_adds E [] ts2 h2 /\ ~ Permutation h1 h2.
Proof.
  set (a := mk_ticket 5 0). set (b := mk_ticket 5 1). exists 1%N, [a; b], [b; a], [a], [b]. split; [constructor|].
  assert (G : forall x y, tid x = tid y -> heap_adds 1 [] [x; y] [x]).
  { intros x y Exy. apply has_cons with (h1 := [x]); [apply ha_room; [cbn; lia|constructor; constructor]|].
    apply has_cons with (h1 := [x]); [|constructor]. apply ha_reject with (m := x) (rest := []); [cbn; lia|reflexivity|intros ? []|lia]. }
  split; [now apply G|]. split; [now apply G|]. intros P. apply Permutation_length_1 in P. discriminate.
Qed.
(** The executable model used below is one of these heaps, kept sorted. *)
Theorem accumulator_model : forall E ts h, StronglySorted (fun x y => tid x <= tid y)%N h ->
  heap_adds E h ts (acc_add_multiple E h ts) /\ StronglySorted (fun x y => tid x <= tid y)%N (acc_add_multiple E h ts).
Proof. intros E ts h S. destruct (acc_add_multiple_refines E ts h S). auto. Qed.
Example accumulator_case : acc_add_multiple 2 [] [mk_ticket 9 0; mk_ticket 4 1; mk_ticket 7 0; mk_ticket 1 1] = [mk_ticket 1 1; mk_ticket 4 1].
Proof. reflexivity. Qed.

(** * C52: an accepted tickets extrinsic has no useless ticket, and only useless ones are refused for uselessness *)
Theorem accepted_tickets_all_kept : forall E D maxlen curr acc news ts h,
  StronglySorted (fun x y => tid x <= tid y)%N acc -> (N.of_nat (length acc) <= E)%N -> (N.of_nat maxlen <= E)%N ->
  validate_tickets E D maxlen curr acc news = Ok ts -> best E (acc ++ ts) h ->
  ts = news /\ incl news h.
Proof.
  intros E D maxlen curr acc news ts h Sa La Hm Hv B. unfold validate_tickets in Hv. destruct news as [|n0 news0].
  - inversion Hv. split; [reflexivity|intros ? []].
  - remember (n0 :: news0) as news eqn:En. clear En n0 news0.
    destruct (N.leb D (phase E curr)); [discriminate|]. destruct (Nat.ltb_spec maxlen (length news)); [discriminate|].
    destruct (windows_sorted news) eqn:W; [|discriminate]. cbn [negb] in Hv.
    destruct (no_dup_ids [] news); [|discriminate]. cbn [negb] in Hv. destruct (existsb _ news); [discriminate|].
    destruct (useless E acc news) eqn:U; [discriminate|]. inversion Hv; subst ts. split; [reflexivity|].
    eapply not_useless_kept; eauto using windows_sorted_ok. lia.
Qed.
(** It is within the contest and the limit, strictly ascending in ids, and new to the accumulator. *)
Theorem accepted_tickets_proper : forall E D maxlen curr acc news ts, validate_tickets E D maxlen curr acc news = Ok ts -> news <> [] ->
  (phase E curr < D)%N /\ length news <= maxlen /\ StronglySorted (fun x y => tid x < tid y)%N news /\ (forall t, In t news -> ~ In t acc).
Proof.
  intros E D maxlen curr acc news ts Hv Ne. unfold validate_tickets in Hv. destruct news as [|n0 news0]; [contradiction|]. remember (n0 :: news0) as news eqn:En. clear En n0 news0 Ne.
  destruct (N.leb_spec D (phase E curr)) as [|L1]; [discriminate|]. destruct (Nat.ltb_spec maxlen (length news)) as [|L2]; [discriminate|].
  destruct (windows_sorted news) eqn:W; [|discriminate]. cbn [negb] in Hv. destruct (no_dup_ids [] news) eqn:U; [|discriminate]. cbn [negb] in Hv.
  destruct (existsb _ news) eqn:X; [discriminate|]. split; [exact L1|]. split; [exact L2|]. split.
  - pose proof (windows_sorted_ok _ W) as So. clear - So U. revert U. generalize (@nil N). induction So as [|x l So IH Fa]; intros seen U; [constructor|].
    cbn [no_dup_ids] in U. apply andb_prop in U. destruct U as (_ & U). constructor; [exact (IH _ U)|].
    assert (G : forall l seen, no_dup_ids seen l = true -> forall a, In a seen -> ~ In a (map tid l)).
    { clear. induction l as [|y l IH]; intros seen U a Ia Im; [destruct Im|]. cbn [no_dup_ids] in U. apply andb_prop in U. destruct U as (U1 & U2). destruct Im as [E|Im].
      - apply Bool.negb_true_iff in U1. assert (Q : existsb (N.eqb (tid y)) seen = true) by (apply existsb_exists; exists a; split; [exact Ia|]; apply N.eqb_eq; exact E). congruence.
      - exact (IH _ U2 a (or_intror Ia) Im). }
    specialize (G l _ U (tid x) (or_introl eq_refl)). rewrite Forall_forall in *. intros y Iy. specialize (Fa y Iy).
    assert (tid x <> tid y) by (intro Q; apply G; rewrite Q; apply in_map; exact Iy). cbv beta in Fa. apply N.le_neq. auto.
  - intros t It Ia. assert (Q : existsb (fun t => existsb (fun x => same_ticket x t) acc) news = true).
    { apply existsb_exists. exists t. split; [exact It|]. apply existsb_exists. exists t. split; [exact Ia|]. unfold same_ticket. rewrite !N.eqb_refl. reflexivity. }
    congruence.
Qed.
Theorem useless_tickets_dropped : forall E acc news h,
  StronglySorted (fun x y => tid x <= tid y)%N acc -> (N.of_nat (length acc) <= E)%N ->
  StronglySorted (fun x y => tid x <= tid y)%N news -> NoDup (map tid (acc ++ news)) ->
  best E (acc ++ news) h -> useless E acc news = true -> exists t, In t news /\ ~ In t h.
Proof. intros E acc news h A B C ND Hb U. exact (useless_dropped E acc news h A C B ND U Hb). Qed.
Example tickets_case :
  validate_tickets 3 10 2 4 [mk_ticket 2 0; mk_ticket 6 0; mk_ticket 8 0] [mk_ticket 1 0; mk_ticket 5 1] = Ok [mk_ticket 1 0; mk_ticket 5 1] /\
  validate_tickets 3 10 2 4 [mk_ticket 2 0; mk_ticket 6 0; mk_ticket 8 0] [mk_ticket 1 0; mk_ticket 7 1] = Err tt.
Proof. split; reflexivity. Qed.

(** * C15: outside-in *)
Theorem outside_in_positions : forall (T : Type) (v : list T) dflt, v <> [] ->
  exists w, outside_in_vec v = Ok w /\ length w = length v /\
    forall i, i < length v -> nth i w dflt = if Nat.even i then nth (i / 2) v dflt else nth (length v - 1 - i / 2) v dflt.
Proof.
  intros T v dflt Hv. eexists. split; [apply (outside_in_ok v dflt Hv)|]. split; [now rewrite map_length, seq_length|].
  intros i Hi. set (f := fun i => nth (outside_in_index (length v) i) v dflt).
  rewrite nth_indep with (d' := f 0) by (now rewrite map_length, seq_length).
  rewrite (map_nth f), seq_nth by assumption. unfold f. cbn [Nat.add]. unfold outside_in_index. now destruct (Nat.even i).
Qed.
Theorem outside_in_permutation : forall (T : Type) (v w : list T), outside_in_vec v = Ok w -> Permutation w v.
Proof. exact (fun T => @outside_in_perm T). Qed.
(** Finding (not reachable from the transition, which calls it on full accumulators only): the empty vector. *)
Theorem outside_in_empty_refuted : forall T : Type, @outside_in_vec T [] = Panic.
Proof. reflexivity. Qed.
Example outside_in_case : outside_in_vec [1; 2; 3; 4; 5] = Ok [1; 5; 2; 4; 3].
Proof. reflexivity. Qed.

(** * C16: predictions *)
Theorem predictions_match : forall E D H ring_of V now s b s' m, step E D H ring_of V now s b = Ok (s', m) ->
  predict_slot_sealer E D H V s (b_slot b) = get_slot_sealer E (s_sealers s') (b_slot b) /\
  predict_entropy_3 E s (b_slot b) = s_e3 s' /\
  predict_active_set E s (b_slot b) = s_active s' /\
  predict_past_set E s (b_slot b) = s_past s'.
Proof. exact step_predict. Qed.

(** * C17: entropy *)
(** Entry 0 absorbs every block's VRF output, *)
Theorem entropy_accumulates : forall E D H ring_of V s0 bs s log, chain E D H ring_of V s0 bs s log ->
  s_e0 s = fold_left (fun e b => H (e ++ b_vrf b)) bs (s_e0 s0).
Proof. exact entropy_fold. Qed.
(** the others are constant within an epoch (as are the validator sets, ring root and slot sealers), *)
Theorem constant_within_epoch : forall E D H ring_of V s0 bs s log, chain E D H ring_of V s0 bs s log ->
  epoch E (s_slot s) = epoch E (s_slot s0) ->
  s_e1 s = s_e1 s0 /\ s_e2 s = s_e2 s0 /\ s_e3 s = s_e3 s0 /\ s_active s = s_active s0 /\ s_past s = s_past s0 /\
  s_pending s = s_pending s0 /\ s_ring s = s_ring s0 /\ s_sealers s = s_sealers s0 /\
  (forall a m, In (a, m) log -> m_epoch m = None).
Proof. exact within_epoch. Qed.
(** and throughout an epoch entered by block b they are what entries 0..2 were just before b; likewise the sets. *)
Theorem rotates_at_epoch_change : forall E D H ring_of V s1 now b s2 m bs s3 log,
  step E D H ring_of V now s1 b = Ok (s2, m) -> (epoch E (s_slot s1) < epoch E (b_slot b))%N ->
  chain E D H ring_of V s2 bs s3 log -> epoch E (s_slot s3) = epoch E (b_slot b) ->
  s_e1 s3 = s_e0 s1 /\ s_e2 s3 = s_e1 s1 /\ s_e3 s3 = s_e2 s1 /\ s_active s3 = s_pending s1 /\ s_past s3 = s_active s1 /\
  s_pending s3 = nullify_punished (b_punish b) (s_staging s1).
Proof. exact across_epoch. Qed.

(** * C51: validator sets and epoch marker *)
Theorem punished_not_in_pending : forall E D H ring_of V now s b s' m, step E D H ring_of V now s b = Ok (s', m) ->
  (epoch E (s_slot s) < epoch E (b_slot b))%N ->
  (forall k, In k (s_pending s') -> In (ked k) (s_punish s') -> k = null_key) /\
  s_ring s' = ring_of (s_pending s').
Proof.
  intros E D H ring_of V now s b s' m Hs He. pose proof (step_inv _ _ _ _ _ _ _ _ _ _ Hs) as F.
  apply progressed_spec in He. destruct (sf_new _ _ _ _ _ _ _ _ _ _ F He) as (_ & _ & _ & _ & _ & Hp & Hr & _).
  split; [|assumption]. rewrite Hp, (sf_punish _ _ _ _ _ _ _ _ _ _ F). apply nullify_spec.
Qed.
Theorem epoch_marker_announces : forall E D H ring_of V now s b s' m, step E D H ring_of V now s b = Ok (s', m) ->
  (m_epoch m <> None <-> (epoch E (s_slot s) < epoch E (b_slot b))%N) /\
  (forall em, m_epoch m = Some em -> em_entropy em = s_e1 s' /\ em_tickets_entropy em = s_e2 s' /\
     em_validators em = map (fun k => (kband k, ked k)) (s_pending s')).
Proof.
  intros E D H ring_of V now s b s' m Hs. pose proof (step_inv _ _ _ _ _ _ _ _ _ _ Hs) as F.
  rewrite <- progressed_spec. destruct (epoch_progressed E (s_slot s) (b_slot b)) eqn:Ep.
  - destruct (sf_new _ _ _ _ _ _ _ _ _ _ F Ep) as (-> & -> & _ & _ & _ & _ & _ & _ & _ & ->). split; [split; congruence|].
    intros em [= <-]. auto.
  - destruct (sf_same _ _ _ _ _ _ _ _ _ _ F Ep) as (_ & _ & _ & _ & _ & _ & _ & _ & _ & ->). split; [split; congruence|]. discriminate.
Qed.

(** * C18: time slots *)
Theorem timeslot_accepted_iff : forall now prior slot, validate_timeslot now prior slot = Ok tt <->
  (prior = 0 /\ slot = 0)%N \/ (prior < slot /\ slot_beginning slot <= now)%N.
Proof. exact validate_slot_iff. Qed.
Theorem slots_strictly_increase : forall E D H ring_of V s0 bs s log, chain E D H ring_of V s0 bs s log ->
  forall l1 l2 l3 a m b m', log = l1 ++ (a, m) :: l2 ++ (b, m') :: l3 -> (a < b \/ a = 0 /\ b = 0)%N.
Proof. intros E D H ring_of V s0 bs s log C. exact (proj2 (slots_increase _ _ _ _ _ _ _ _ _ C)). Qed.
(** Finding: a block whose slot has not begun by the node's own clock is accepted, *)
Theorem future_slot_refuted : exists now prior slot c, validate_timeslot now prior slot = Ok tt /\
  now_jam_timeslot now = Some c /\ (c < slot)%N.
Proof. exists (era + 6)%N, 1%N, 2%N, 1%N. repeat split; reflexivity. Qed.
(** by one slot at most. *)
Theorem future_slot_partial : forall now prior slot, validate_timeslot now prior slot = Ok tt -> (0 < slot)%N ->
  exists c, now_jam_timeslot now = Some c /\ (slot <= c + 1)%N.
Proof.
  intros now prior slot Hv Hs. apply validate_slot_iff in Hv. destruct Hv as [|[_ Hb]]; [lia|].
  unfold slot_beginning in Hb. destruct (N.eqb_spec slot 0); [lia|]. unfold now_jam_timeslot.
  destruct (N.ltb_spec now era); [exfalso; unfold slot_duration in Hb; lia|]. eexists. split; [reflexivity|].
  assert (slot - 1 <= (now - era) / slot_duration)%N; [|lia]. apply N.div_le_lower_bound; [discriminate|]. lia.
Qed.

(** * C124: the sealers of an epoch without winning tickets *)
(** They are keys of the epoch's own validators, each drawn by hashing the epoch's entropy with its position. *)
Theorem fallback_sealers : forall E D H ring_of V now s b s' m l, step E D H ring_of V now s b = Ok (s', m) -> (epoch E (s_slot s) < epoch E (b_slot b))%N ->
  s_sealers s' = Keys l ->
  length l = N.to_nat E /\
  forall i, i < N.to_nat E -> exists k, nth_error (s_active s') (N.to_nat (le_val (firstn 4 (H (s_e2 s' ++ le_bytes 4 (N.of_nat i)))) mod N.of_nat V)) = Some k /\ nth_error l i = Some (kband k).
Proof.
  intros E D H ring_of V now s b s' m l St Ep Sl. unfold step in St. destruct (phase1 E D H ring_of V now s b) as [[t m']| |] eqn:P1; cbn [bind] in St; try discriminate St.
  assert (s' = phase2 H t b) by (cbn [fst snd] in St; congruence). subst s'. clear St. unfold phase1 in P1.
  destruct (validate_timeslot now (s_slot s) (b_slot b)); cbn [bind] in P1; try discriminate P1.
  assert (Pr : epoch_progressed E (s_slot s) (b_slot b) = true) by (apply N.ltb_lt; exact Ep). rewrite Pr in P1.
  destruct (compute_next_slot_sealers E D H V s (b_slot b) (s_pending s) (s_e1 s)) as [sl| |] eqn:Cn; cbn [bind] in P1; try discriminate P1.
  match type of P1 with bind ?x _ = _ => destruct x as [acc'| |]; cbn [bind] in P1; try discriminate P1 end.
  match type of P1 with bind ?x _ = _ => destruct x as [ms| |]; cbn [bind] in P1; try discriminate P1 end.
  injection P1 as Et _.
  subst t. cbn [fst phase2 s_sealers s_active s_e2] in *. subst sl. unfold compute_next_slot_sealers in Cn. destruct (is_fallback E D s (b_slot b)).
  2: { destruct (outside_in_vec (s_acc s)); discriminate Cn. }
  destruct (generate_fallback_keys E H V (s_pending s) (s_e1 s)) as [ks| |] eqn:G; cbn [bind] in Cn; try discriminate Cn. assert (ks = l) by congruence. subst ks. unfold generate_fallback_keys in G.
  assert (A : forall is l, fallback_keys_from H V (s_pending s) (s_e1 s) is = Ok l -> length l = length is /\
    forall j i, nth_error is j = Some i -> exists k, nth_error (s_pending s) (N.to_nat (le_val (firstn 4 (H (s_e1 s ++ le_bytes 4 (N.of_nat i)))) mod N.of_nat V)) = Some k /\ nth_error l j = Some (kband k)).
  { clear. induction is as [|i is IH]; intros l G; cbn [fallback_keys_from] in G.
    - assert (l = []) by congruence. subst l. split; [reflexivity|]. intros [|j] i0 Hj; discriminate Hj.
    - destruct (nth_error (s_pending s) (fallback_index H V (s_e1 s) i)) as [k|] eqn:K; [|discriminate G]. destruct (fallback_keys_from H V (s_pending s) (s_e1 s) is) as [r| |] eqn:R; try discriminate G.
      assert (l = kband k :: r) by congruence. subst l. destruct (IH r eq_refl) as (L & IH2). split; [cbn; rewrite L; reflexivity|]. intros [|j] i0 Hj.
      + cbn in Hj. assert (i0 = i) by congruence. subst i0. exists k. split; [exact K|reflexivity].
      + exact (IH2 j i0 Hj). }
  destruct (A _ _ G) as (L & B). rewrite seq_length in L. split; [exact L|]. intros i Hi. apply (B i i). rewrite (nth_error_nth' _ 0) by (rewrite seq_length; exact Hi). rewrite seq_nth by exact Hi. reflexivity.
Qed.
(** Keys and not tickets seal it exactly when an epoch was skipped, or the last block came before the end of the contest, or too few tickets came. *)
Theorem fallback_when : forall E D H ring_of V now s b s' m, step E D H ring_of V now s b = Ok (s', m) -> (epoch E (s_slot s) < epoch E (b_slot b))%N ->
  ((exists l, s_sealers s' = Keys l) <-> (epoch E (s_slot s) + 1 < epoch E (b_slot b) \/ phase E (s_slot s) < D \/ N.of_nat (length (s_acc s)) <> E)%N).
Proof.
  intros E D H ring_of V now s b s' m St Ep. unfold step in St. destruct (phase1 E D H ring_of V now s b) as [[t m']| |] eqn:P1; cbn [bind] in St; try discriminate St.
  assert (s' = phase2 H t b) by (cbn [fst snd] in St; congruence). subst s'. clear St. unfold phase1 in P1.
  destruct (validate_timeslot now (s_slot s) (b_slot b)); cbn [bind] in P1; try discriminate P1.
  assert (Pr : epoch_progressed E (s_slot s) (b_slot b) = true) by (apply N.ltb_lt; exact Ep). rewrite Pr in P1.
  destruct (compute_next_slot_sealers E D H V s (b_slot b) (s_pending s) (s_e1 s)) as [sl| |] eqn:Cn; cbn [bind] in P1; try discriminate P1.
  match type of P1 with bind ?x _ = _ => destruct x as [acc'| |]; cbn [bind] in P1; try discriminate P1 end.
  match type of P1 with bind ?x _ = _ => destruct x as [ms| |]; cbn [bind] in P1; try discriminate P1 end.
  assert (Es : s_sealers (phase2 H t b) = sl) by (injection P1 as Et _; subst t; reflexivity).
  rewrite Es. clear P1 Es. unfold compute_next_slot_sealers in Cn. destruct (is_fallback E D s (b_slot b)) eqn:F; unfold is_fallback, is_full in F.
  - destruct (generate_fallback_keys E H V (s_pending s) (s_e1 s)) as [ks| |]; cbn [bind] in Cn; try discriminate Cn. split; [|intros _; exists ks; congruence]. intros _.
    apply Bool.orb_prop in F. destruct F as [F|F]; [apply Bool.orb_prop in F; destruct F as [F|F]; apply N.ltb_lt in F; auto|]. apply Bool.negb_true_iff in F. apply N.eqb_neq in F. auto.
  - destruct (outside_in_vec (s_acc s)) as [v| |]; cbn [bind] in Cn; try discriminate Cn. split; [intros (l & Q); congruence|]. intro K. exfalso.
    apply Bool.orb_false_iff in F. destruct F as (F & F3). apply Bool.orb_false_iff in F. destruct F as (F1 & F2). apply N.ltb_ge in F1. apply N.ltb_ge in F2. apply Bool.negb_false_iff in F3. apply N.eqb_eq in F3.
    destruct K as [K|[K|K]]; [lia|lia|contradiction].
Qed.
Print Assumptions accepted_tickets_proper.
Print Assumptions fallback_sealers.
Print Assumptions fallback_when.

(** * C50: the winning-tickets marker and the next epoch's sealers *)
Theorem winning_marker_is_next_sealers : forall E D H ring_of V, (0 < E)%N -> forall s0 bs s log,
  start_ok E D s0 -> chain E D H ring_of V s0 bs s log ->
  forall now b s' m, step E D H ring_of V now s b = Ok (s', m) -> (epoch E (s_slot s) < epoch E (b_slot b))%N ->
  forall l, s_sealers s' = Tickets l <->
    (epoch E (b_slot b) = epoch E (s_slot s) + 1)%N /\
    exists a m', In (a, m') log /\ epoch E a = epoch E (s_slot s) /\ m_winning m' = Some l.
Proof. exact winning_matches. Qed.
Theorem winning_marker_once_per_epoch : forall E D H ring_of V, (0 < E)%N -> forall s0 bs s log,
  start_ok E D s0 -> chain E D H ring_of V s0 bs s log ->
  forall l1 l2 l3 a m b m', log = l1 ++ (a, m) :: l2 ++ (b, m') :: l3 ->
    m_winning m <> None -> m_winning m' <> None -> epoch E a <> epoch E b.
Proof. intros E D H ring_of V HE s0 bs s log Hok C. exact (wi_once _ _ _ _ (winv_chain _ _ _ _ _ HE _ _ _ _ Hok C)). Qed.

(** A concrete history with E = 3, D = 2, one validator: three tickets in slot 1, the marker in slot 2, tickets seal epoch 1. *)
Definition ex_H (x : bytes) : bytes := firstn 32 (x ++ repeat 0%N 32).
Definition ex_now : N := (era + 1000)%N.
Definition ex_k (n : N) : vkey := mk_vkey n (n + 1) (n + 2).
Definition ex_s0 : sstate :=
  mk_s 0 [1%N] [2%N] [3%N] [4%N] [ex_k 10] [ex_k 20] [ex_k 30] [ex_k 40] [] (Keys [20; 20; 20])%N [] [].
Definition ex_t (n : N) := mk_ticket n 0.
Definition ex_b1 := mk_b 1 [ex_t 3; ex_t 5; ex_t 9] [] [7%N] None.
Definition ex_b2 := mk_b 2 [] [11%N] [8%N] None.
Definition ex_b3 := mk_b 3 [] [11%N] [9%N] (Some [ex_k 50]).
Definition ex_run : result unit (sstate * markers * (sstate * markers) * (sstate * markers)) :=
  let st := step 3 2 ex_H (fun ks => map kband ks) 1 ex_now in
  let! r1 := st ex_s0 ex_b1 in let! r2 := st (fst r1) ex_b2 in let! r3 := st (fst r2) ex_b3 in Ok (r1, r2, r3).
Example safrole_history_case : exists s1 m1 s2 m2 s3 m3, ex_run = Ok ((s1, m1), (s2, m2), (s3, m3)) /\
  start_ok 3 2 ex_s0 /\ m_winning m2 = Some [ex_t 3; ex_t 9; ex_t 5] /\ s_sealers s3 = Tickets [ex_t 3; ex_t 9; ex_t 5] /\
  s_pending s3 = [null_key] /\ s_active s3 = [ex_k 40] /\ s_past s3 = [ex_k 20] /\ s_e3 s3 = [3%N] /\
  predict_slot_sealer 3 2 ex_H 1 s2 3 = Ok (STicket (ex_t 3)).
Proof.
  do 6 eexists. split; [vm_compute; reflexivity|]. split.
  - split; [vm_compute; reflexivity|]. split; [vm_compute; discriminate|constructor].
  - repeat split.
Qed.
(** An epoch skipped: the sealers are drawn keys of the new active set. *)
Definition ex_hash (x : bytes) : bytes := [nth 1 x 0; 0; 0; 0]%N.
Example fallback_case : exists s' m, step 3 2 ex_hash (fun ks => map kband ks) 2 ex_now (mk_s 0 [1] [2] [3] [4] [ex_k 10; ex_k 11] [ex_k 20; ex_k 21] [ex_k 30; ex_k 31] [ex_k 40; ex_k 41] [] (Keys [20; 20; 20]) [] [])%N
    (mk_b 7 [] [] [7%N] None) = Ok (s', m) /\ s_sealers s' = Keys [40; 41; 40]%N /\ (epoch 3 0 < epoch 3 7)%N.
Proof. do 2 eexists. split; [vm_compute; reflexivity|]. split; reflexivity. Qed.

Print Assumptions accumulator_keeps_best.
Print Assumptions accumulator_extends.
Print Assumptions accumulator_ids_order_independent.
Print Assumptions accumulator_order_independent.
Print Assumptions accumulator_order_refuted.
Print Assumptions accumulator_model.
Print Assumptions accepted_tickets_all_kept.
Print Assumptions useless_tickets_dropped.
Print Assumptions outside_in_positions.
Print Assumptions outside_in_permutation.
Print Assumptions outside_in_empty_refuted.
Print Assumptions predictions_match.
Print Assumptions entropy_accumulates.
Print Assumptions constant_within_epoch.
Print Assumptions rotates_at_epoch_change.
Print Assumptions punished_not_in_pending.
Print Assumptions epoch_marker_announces.
Print Assumptions timeslot_accepted_iff.
Print Assumptions slots_strictly_increase.
Print Assumptions future_slot_refuted.
Print Assumptions future_slot_partial.
Print Assumptions winning_marker_is_next_sealers.
Print Assumptions winning_marker_once_per_epoch.
