(** C19-C22: authorizer pools, accumulatable reports, accumulation queue and history.
    P = MAX_AUTH_POOL_SIZE, Q = AUTH_QUEUE_SIZE, E = EPOCH_LENGTH. *)
From Verif Require Import Base LVec_Model Queue_Model Queue_Spec Queue_Proofs.
From Coq Require Import Sorted.

(** * C19 *)
(** A block never fails on the pools; each core's new pool is the old one without the used authorizer, with the slot's queue
    entry appended, cut to its last P elements. *)
Theorem auth_pool_update : forall P Q guarantees queue slot pools, 0 < P -> (forall p, In p pools -> length p <= P) ->
  exists pools', transition_auth_pool P Q guarantees queue slot pools = Ok pools' /\ length pools' = length pools /\
    forall core pool, nth_error pools core = Some pool ->
      nth_error pools' core = Some (lastn P (after_use guarantees core pool ++ queue_entry Q queue core slot)).
Proof. exact auth_pool_step. Qed.
(** After any history the pools are bounded, and every authorizer in a pool was there at the start or came from the queue of
    that core at the slot of some block. *)
Theorem auth_pool_history : forall P Q pools0 blocks pools, 0 < P -> (forall p, In p pools0 -> length p <= P) ->
  pool_chain P Q pools0 blocks pools ->
  length pools = length pools0 /\ (forall p, In p pools -> length p <= P) /\
  forall core pool x, nth_error pools core = Some pool -> In x pool ->
    (exists p0, nth_error pools0 core = Some p0 /\ In x p0) \/
    (exists g q slot, In (g, q, slot) blocks /\ In x (queue_entry Q q core slot)).
Proof. exact pool_chain_spec. Qed.
Example auth_pool_case : transition_auth_pool 3 2 [mk_guar 1 7] [[10; 11]; [20; 21]; [30]]%N 5 [[1; 2; 3]; [7; 8; 7]; [9]]%N
  = Ok [[2; 3; 11]; [8; 7; 21]; [9]]%N.
Proof. reflexivity. Qed.

(** * C20 *)
(** Selection always terminates with a result. *)
Theorem accumulatable_terminates : forall E available queue hist slot, (0 < E)%N -> N.of_nat (length queue) = E ->
  exists acc newq, collect_accumulatable_reports E available queue hist slot = Ok (acc, newq).
Proof.
  intros E available queue hist slot HE HL. apply collect_ok. assert (slot mod E < E)%N by (apply N.mod_lt; lia). lia.
Qed.
(** A report comes out only when it waits for nothing but packages that come out before it. *)
Theorem accumulatable_in_order : forall E available queue hist slot acc newq,
  collect_accumulatable_reports E available queue hist slot = Ok (acc, newq) ->
  forall before r after, acc = before ++ r :: after ->
    (In r available /\ rp_pre r ++ rp_look r = []) \/
    (exists ds, waiting available queue hist r ds /\ forall d, In d ds -> In d (pkgs before)).
Proof. exact collect_order. Qed.
(** Nothing ready is left: what does not come out still waits for a package that does not come out. *)
Theorem accumulatable_complete : forall E available queue hist slot acc newq,
  collect_accumulatable_reports E available queue hist slot = Ok (acc, newq) ->
  (forall r, In r available -> rp_pre r ++ rp_look r = [] -> In r acc) /\
  (forall se r ds, In se queue -> In (r, ds) se -> In (rp_pkg r) (pkgs acc) \/ exists d, In d ds /\ ~ In d (pkgs acc)) /\
  (forall r, In r available -> rp_pre r ++ rp_look r <> [] -> ~ In (rp_pkg r) (concat hist) ->
     In (rp_pkg r) (pkgs acc) \/ exists d, In d (rp_pre r ++ rp_look r) /\ ~ In d (concat hist) /\ ~ In d (pkgs acc)).
Proof. exact collect_complete. Qed.
(** No package comes out twice. *)
Theorem accumulatable_once : forall E available queue hist slot acc newq,
  collect_accumulatable_reports E available queue hist slot = Ok (acc, newq) ->
  NoDup (pkgs available ++ pkgs (map fst (concat queue))) -> NoDup (pkgs acc).
Proof. exact collect_NoDup. Qed.
(** Over any history from genesis, whatever number of reports each block gets through, every accumulated report was
    preceded by the accumulation of all its prerequisites and of all packages whose segment roots it uses. *)
Theorem dependencies_accumulated_first : forall E slot0 log s, (0 < E)%N -> achain E (agenesis E slot0) log s ->
  forall before r after, accumulated log = before ++ r :: after ->
    forall d, In d (rp_pre r ++ rp_look r) -> In d (pkgs before).
Proof.
  intros E slot0 log s HE C. destruct (achain_dep E _ [] log s HE (genesis_wf E slot0) (genesis_dep E slot0) C) as (_ & _ & O). exact O.
Qed.
(** Over any history in which newly available packages are neither queued nor recently accumulated, the history window never
    holds a package twice, no queued package is in it, and no block accumulates a package that is in it. *)
Theorem accumulated_once_per_window : forall E slot0 s, (0 < E)%N -> fresh_chain E (agenesis E slot0) s ->
  NoDup (concat (as_hist s)) /\
  (forall p, In p (pkgs (map fst (concat (as_queue s)))) -> ~ In p (concat (as_hist s))) /\
  forall b s' acc, (as_slot s < ab_slot b)%N -> fresh_available s b -> astep E s b = Ok (s', acc) ->
    NoDup (pkgs acc) /\ forall p, In p (pkgs acc) -> ~ In p (concat (as_hist s)).
Proof.
  intros E slot0 s HE C. destruct (fresh_chain_uniq E _ s HE (genesis_wf E slot0) (genesis_uniq E slot0) C) as (W & U).
  split; [apply U|]. split; [apply U|]. intros b s' acc Hlt F A. destruct (uniq_step _ _ _ _ _ HE W Hlt U F A) as (_ & _ & X). exact X.
Qed.

Definition ex_r (p : N) (pre look : list N) := mk_report p pre look p.
Definition ex_b1 := mk_ab 1 [ex_r 1 [] []; ex_r 2 [1%N] [3%N]; ex_r 4 [9%N] []] 1.
Definition ex_b2 := mk_ab 3 [ex_r 3 [1%N] []; ex_r 5 [] []] 3.
Example accumulate_case : exists s1 s2 a1 a2,
  astep 3 (agenesis 3 0) ex_b1 = Ok (s1, a1) /\ astep 3 s1 ex_b2 = Ok (s2, a2) /\
  pkgs a1 = [1%N] /\ pkgs a2 = [5; 3; 2]%N /\
  as_queue s2 = [[]; [(ex_r 4 [9%N] [], [9%N])]; []] /\ as_hist s2 = [[]; [1%N]; [2; 3; 5]%N] /\
  achain 3 (agenesis 3 0) [(ex_b1, a1); (ex_b2, a2)] s2 /\ fresh_chain 3 (agenesis 3 0) s2.
Proof.
  do 4 eexists. split; [vm_compute; reflexivity|]. split; [vm_compute; reflexivity|]. repeat split.
  - apply (ac_snoc 3 _ [(ex_b1, [ex_r 1 [] []])] (mk_as 1 [[]; [(ex_r 2 [1%N] [3%N], [3%N]); (ex_r 4 [9%N] [], [9%N])]; []] [[]; []; [1%N]])); [|reflexivity|vm_compute; reflexivity].
    apply (ac_snoc 3 _ [] (agenesis 3 0)); [constructor|reflexivity|vm_compute; reflexivity].
  - eapply fc_snoc with (b := ex_b2); [eapply fc_snoc with (b := ex_b1)| | |].
    + constructor.
    + reflexivity.
    + split; [cbn; repeat constructor; cbn; intuition discriminate|]. cbn. intuition.
    + vm_compute; reflexivity.
    + reflexivity.
    + split; [cbn; repeat constructor; cbn; intuition discriminate|]. cbn. intros p [<-|[<-|[]]]; intuition discriminate.
    + vm_compute; reflexivity.
Qed.

(** * C21 *)
(** One block: every slot of the last epoch. *)
Theorem queue_ring_step : forall E queued prior curr h acc queue queue', (0 < E)%N -> (prior < curr)%N ->
  transition_accumulate_queue E queued prior curr (h ++ [acc]) queue = Ok queue' ->
  forall x : Z, (Z.of_N curr - Z.of_N E < x <= Z.of_N curr)%Z ->
    (x = Z.of_N curr -> without acc queued (entry_at E queue' x)) /\
    ((Z.of_N prior < x < Z.of_N curr)%Z -> entry_at E queue' x = []) /\
    ((x <= Z.of_N prior)%Z -> without acc (entry_at E queue x) (entry_at E queue' x)).
Proof.
  intros E queued prior curr h acc queue queue' HE Hlt T x Hx. destruct (queue_step _ _ _ _ _ _ _ _ HE Hlt T) as (_ & _ & S).
  rewrite (S x Hx). split; [|split]; intros H.
  - destruct (Z.eq_dec x (Z.of_N curr)); [apply without_edit|lia].
  - destruct (Z.eq_dec x (Z.of_N curr)); [lia|]. destruct (Z_lt_dec (Z.of_N prior) x); [reflexivity|lia].
  - destruct (Z.eq_dec x (Z.of_N curr)); [lia|]. destruct (Z_lt_dec (Z.of_N prior) x); [lia|apply without_edit].
Qed.
(** It never fails on a ring of E entries. *)
Theorem queue_ring_total : forall E queued prior curr h acc queue, (prior <= curr)%N -> N.of_nat (length queue) = E ->
  exists queue', transition_accumulate_queue E queued prior curr (h ++ [acc]) queue = Ok queue'.
Proof.
  intros E queued prior curr h acc queue Hl HL. unfold transition_accumulate_queue. rewrite rev_unit.
  destruct (N.ltb_spec curr prior); [lia|]. apply N.eqb_eq in HL. rewrite HL. cbn [negb]. eauto.
Qed.
(** Any number of blocks: each slot of the last epoch holds what its own block put there (nothing, if it had no block; the
    initial entry, if it precedes the start), less everything accumulated since. *)
Theorem queue_ring_history : forall E t0 q0 log t q, (0 < E)%N -> N.of_nat (length q0) = E -> qchain E t0 q0 log t q ->
  forall x : Z, (Z.of_N t - Z.of_N E < x <= Z.of_N t)%Z ->
    content x (if Z_le_dec x (Z.of_N t0) then entry_at E q0 x else []) log (entry_at E q x).
Proof. intros E t0 q0 log t q HE HL C. exact (proj2 (qchain_content E t0 q0 log t q HE HL C)). Qed.
Example queue_ring_case :
  let e p ds := (ex_r p ds [], ds) in
  let q0 := [[e 1 [5]]; [e 2 [6]]; [e 3 [5; 6]]; [e 4 [7]]]%N in
  transition_accumulate_queue 4 [e 8 [5; 9]]%N 5 7 [[]; [5]]%N q0 = Ok [[(ex_r 1 [5] [], [])]; [e 2 [6]]; []; [(ex_r 8 [5; 9] [], [9])]]%N.
Proof. reflexivity. Qed.

(** * C22 *)
(** Over any history the accumulation history is the window of the last E sets, *)
Theorem history_is_window : forall E s0 log s, (0 < E)%N ->
  N.of_nat (length (as_queue s0)) = E -> N.of_nat (length (as_hist s0)) = E -> achain E s0 log s ->
  as_hist s = lastn (N.to_nat E) (as_hist s0 ++ map (fun x => bset_of (pkgs (snd x))) log).
Proof. intros E s0 log s HE H1 H2 C. apply (achain_history E s0 log s HE); [split; assumption|assumption]. Qed.
(** its sets are sorted, without repetition, with exactly the accumulated packages, *)
Theorem history_set : forall xs, StronglySorted N.lt (bset_of xs) /\ forall x, In x (bset_of xs) <-> In x xs.
Proof. intros xs. split; [apply bset_of_sorted|intros; apply bset_of_In]. Qed.
(** and the union lookup is their union. *)
Theorem history_union_is_union : forall h, StronglySorted N.lt (history_union h) /\ forall x, In x (history_union h) <-> exists set, In set h /\ In x set.
Proof. intros h. split; [apply bset_of_sorted|]. intros x. rewrite history_union_In, in_concat. reflexivity. Qed.
(** The number of accumulated reports cannot exceed the accumulatable ones. *)
Theorem history_count_checked : forall E acc count h, length acc < count ->
  transition_accumulate_history E acc count h = Err InvalidAccumulateCount.
Proof. intros. unfold transition_accumulate_history. destruct (Nat.ltb_spec (length acc) count); [reflexivity|lia]. Qed.
Example history_case : transition_accumulate_history 2 [ex_r 9 [] []; ex_r 3 [] []; ex_r 4 [] []] 2 [[1]; [2]]%N = Ok [[2]; [3; 9]]%N.
Proof. reflexivity. Qed.

Print Assumptions auth_pool_update.
Print Assumptions auth_pool_history.
Print Assumptions accumulatable_terminates.
Print Assumptions accumulatable_in_order.
Print Assumptions accumulatable_complete.
Print Assumptions accumulatable_once.
Print Assumptions dependencies_accumulated_first.
Print Assumptions accumulated_once_per_window.
Print Assumptions queue_ring_step.
Print Assumptions queue_ring_total.
Print Assumptions queue_ring_history.
Print Assumptions history_is_window.
Print Assumptions history_set.
Print Assumptions history_union_is_union.
Print Assumptions history_count_checked.
