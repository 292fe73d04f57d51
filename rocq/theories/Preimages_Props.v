(** C37, C42 (preimages), C57: the preimages extrinsic and historical lookup. H is the hash, D = PREIMAGE_EXPIRATION_PERIOD. *)
From Verif Require Import Base Preimages_Model Preimages_Spec Preimages_Proofs.
Open Scope N_scope.

(** * C42, preimages *)
Theorem preimages_accepted_iff : forall H st x, validate_preimages H st x = Ok tt <-> acceptable_preimages H st x.
Proof. exact validate_preimages_ok. Qed.
(** An accepted extrinsic is integrated without failing: the entries still wanted after accumulation become available from this
    slot on, and nothing else changes. *)
Theorem preimages_integrated : forall H st0 st t x, validate_preimages H st0 x = Ok tt ->
  (forall e e', In e x -> In e' x -> H (pe_data e) = H (pe_data e') -> pe_data e = pe_data e') ->
  exists st', integrate_preimages H st0 st t x = Ok st' /\
  (forall e, In e x -> wanted H st e ->
     pre st' (pe_service e) (H (pe_data e)) = Some (pe_data e) /\ look st' (pe_service e) (H (pe_data e)) (dlen (pe_data e)) = Some [t]) /\
  (forall s h, (forall e, In e x -> wanted H st e -> (pe_service e, H (pe_data e)) <> (s, h)) -> pre st' s h = pre st s h) /\
  (forall s h n, (forall e, In e x -> wanted H st e -> (pe_service e, H (pe_data e), dlen (pe_data e)) <> (s, h, n)) -> look st' s h n = look st s h n).
Proof.
  intros H st0 st t x V Nc. eexists. split; [unfold integrate_preimages; rewrite V; reflexivity|]. apply integrate_all.
  - apply validate_preimages_ok in V as [Ha _]. now apply strictly_NoDup.
  - intros [s d] [s' d'] He He' Es Eh. cbn in *. subst s'. f_equal. exact (Nc _ _ He He' Eh).
Qed.
Definition toy_hash (d : bytes) : N := fold_right (fun b acc => b + 256 * acc) (N.of_nat (length d)) d.
Definition asked : pstate := prun toy_hash 100 pempty [(3, Solicit true 1 (toy_hash [7; 8]) 2); (3, Solicit true 2 (toy_hash [7; 8]) 2); (4, Solicit true 2 (toy_hash [9]) 1)].
(** Two services want the same data; the third entry was forgotten during the block. *)
Example preimages_case :
  let x := [mk_pe 1 [7; 8]; mk_pe 2 [7; 8]; mk_pe 2 [9]] in
  validate_preimages toy_hash asked x = Ok tt /\
  validate_preimages toy_hash asked [mk_pe 2 [9]; mk_pe 2 [7; 8]] = Err PreimagesNotSorted /\
  validate_preimages toy_hash asked [mk_pe 1 [9]] = Err PreimageNotSolicited /\
  match integrate_preimages toy_hash asked (papply toy_hash 100 asked 5 (Forget 2 (toy_hash [9]) 1)) 5 x with
  | Ok st' => historical_lookup st' 1 5 (toy_hash [7; 8]) = Some [7; 8] /\ historical_lookup st' 1 4 (toy_hash [7; 8]) = None /\
              historical_lookup st' 2 5 (toy_hash [9]) = None
  | _ => False
  end.
Proof. vm_compute. repeat split. Qed.

(** * C37 *)
Theorem historical_lookup_iff : forall st s t h d, historical_lookup st s t h = Some d <->
  pre st s h = Some d /\
  ((exists x, look st s h (dlen d) = Some [x] /\ x <= t) \/
   (exists x y, look st s h (dlen d) = Some [x; y] /\ x <= t < y) \/
   (exists x y z, look st s h (dlen d) = Some [x; y; z] /\ (x <= t < y \/ z <= t))).
Proof.
  intros st s t h d. unfold historical_lookup. split.
  - destruct (pre st s h) as [d'|]; [|discriminate]. destruct (look st s h (dlen d')) as [l|] eqn:El; [|discriminate].
    destruct (record_valid l t) eqn:Ev; [|discriminate]. intros [= ->]. split; [reflexivity|]. rewrite El.
    destruct l as [|x [|y [|z [|w l]]]]; cbn in Ev; try discriminate.
    + left. exists x. apply N.leb_le in Ev. auto.
    + right. left. exists x, y. apply andb_true_iff in Ev as [A B]. apply N.leb_le in A. apply N.ltb_lt in B. auto.
    + right. right. exists x, y, z. apply orb_true_iff in Ev as [Ev|Ev]; [apply andb_true_iff in Ev as [A B]; apply N.leb_le in A; apply N.ltb_lt in B|apply N.leb_le in Ev]; auto.
  - intros [-> Hr]. destruct Hr as [(x & -> & L)|[(x & y & -> & L & L')|(x & y & z & -> & L)]]; cbn.
    + apply N.leb_le in L. now rewrite L.
    + apply N.leb_le in L. apply N.ltb_lt in L'. now rewrite L, L'.
    + destruct (N.leb_spec x t), (N.ltb_spec t y), (N.leb_spec z t); cbn; try reflexivity; lia.
Qed.
(** For a record as every history leaves them, availability flips at each recorded slot, starting from unavailable. *)
Theorem availability_flips : forall l t, (length l <= 3)%nat -> nondecreasing l -> record_valid l t = Nat.odd (changes_by t l).
Proof. exact (record_valid_odd toy_hash). Qed.
Theorem records_reachable : forall H D ops, no_collision H ops -> timely D ops -> right_lengths H D ops ->
  let st := prun H D pempty ops in
  (forall s h n l, look st s h n = Some l -> (length l <= 3)%nat /\ nondecreasing l /\ (l <> [] -> exists d, pre st s h = Some d /\ dlen d = n)) /\
  (forall s h d, pre st s h = Some d -> H d = h /\ In d (data_of ops) /\ exists x l, look st s h (dlen d) = Some (x :: l)).
Proof.
  intros H D ops Nc T Rl st.
  destruct (history_inv H D ops ops Nc (fun d i => i) T Rl (fold_right N.max 0 (map fst ops))) as [I1 I2].
  - clear. induction ops as [|[t' o'] ops IH]; intros t o Hin; [destruct Hin|]. destruct Hin as [[= -> ->]|Hin]; cbn [map fst fold_right]; [lia|]. specialize (IH _ _ Hin). lia.
  - split; [|exact I2]. intros s h n l El. destruct (I1 _ _ _ _ El) as (A & B & _ & Cc). auto.
Qed.
Definition busy : list (N * pop) :=
  [(3, Solicit true 1 (toy_hash [7; 8]) 2); (5, Integrate 1 [7; 8]); (9, Forget 1 (toy_hash [7; 8]) 2); (20, Solicit true 1 (toy_hash [7; 8]) 2)].
Example lookup_case : let st := prun toy_hash 100 pempty busy in
  look st 1 (toy_hash [7; 8]) 2 = Some [5; 9; 20] /\
  map (fun t => match historical_lookup st 1 t (toy_hash [7; 8]) with Some _ => true | None => false end) [4; 5; 8; 9; 19; 20; 1000]
  = [false; true; true; false; false; true; true].
Proof. vm_compute. auto. Qed.
Fixpoint rl_check H D (st : pstate) (ops : list (N * pop)) : bool :=
  match ops with
  | [] => true
  | (t, o) :: r => match o with Forget s h n => match pre st s h with Some d => dlen d =? n | None => true end | _ => true end && rl_check H D (papply H D st t o) r
  end.
Lemma rl_check_ok : forall H D ops, rl_check H D pempty ops = true -> right_lengths H D ops.
Proof.
  intros H D ops Hc l1 t o l2 ->. enough (G : forall st, rl_check H D st (l1 ++ (t, o) :: l2) = true -> right_length (prun H D st l1) o) by auto. clear Hc.
  induction l1 as [|[t' o'] l1 IH]; intros st Hc; cbn [app rl_check] in Hc; apply andb_true_iff in Hc as [A B]; [|exact (IH _ B)].
  destruct o; cbn in *; auto. intros d Hd. rewrite Hd in A. now apply N.eqb_eq.
Qed.
Example records_case : no_collision toy_hash busy /\ timely 100 busy /\ right_lengths toy_hash 100 busy.
Proof.
  split; [|split; [|apply rl_check_ok; reflexivity]].
  - cbn. intros d d' [<-|[]] [<-|[]] _. reflexivity.
  - split; [cbn; lia|]. cbn. intros t o [[= <- _]|[[= <- _]|[[= <- _]|[[= <- _]|[]]]]]; lia.
Qed.

(** * C57 *)
(** What a past slot's lookup answers stays the answer for the retention period D: whatever services and authors do at slots
    tau+1 ... tau+D, the lookup as of slot tau gives the same data, for every service and hash. This fails in general ... *)
Theorem lookup_stable_refuted : exists ops later tau s h d, no_collision toy_hash (ops ++ later) /\ timely 100 (ops ++ later) /\
  (forall t o, In (t, o) later -> tau < t <= tau + 100) /\
  historical_lookup (prun toy_hash 100 pempty ops) s tau h = Some d /\
  historical_lookup (prun toy_hash 100 pempty (ops ++ later)) s tau h = None.
Proof.
  (* The service also asks for the same hash with a wrong length, and forgets that request: the live data goes. *)
  exists [(3, Solicit true 1 (toy_hash [7; 8]) 2); (5, Integrate 1 [7; 8])],
    [(6, Solicit true 1 (toy_hash [7; 8]) 3); (7, Forget 1 (toy_hash [7; 8]) 3)], 5, 1, (toy_hash [7; 8]), [7; 8].
  split; [cbn; intros d d' [<-|[]] [<-|[]] _; reflexivity|]. split.
  { split; [cbn; lia|]. cbn. intros t o [[= <- _]|[[= <- _]|[[= <- _]|[[= <- _]|[]]]]]; lia. }
  split; [cbn; intros t o [[= <- _]|[[= <- _]|[]]]; lia|]. split; vm_compute; reflexivity.
Qed.
(** ... and holds if no service forgets a request made with a length that is not the length of the stored data. *)
Theorem lookup_stable_partial : forall H D ops later, no_collision H (ops ++ later) -> timely D (ops ++ later) -> right_lengths H D (ops ++ later) ->
  forall tau, (forall t o, In (t, o) later -> tau < t <= tau + D) ->
  forall s h, historical_lookup (prun H D pempty (ops ++ later)) s tau h = historical_lookup (prun H D pempty ops) s tau h.
Proof. exact history_stable. Qed.
Example lookup_stable_case :
  let later := [(109, Forget 1 (toy_hash [7; 8]) 2); (110, Forget 1 (toy_hash [7; 8]) 2)] in
  right_lengths toy_hash 100 (busy ++ later) /\ timely 100 (busy ++ later) /\ no_collision toy_hash (busy ++ later) /\
  look (prun toy_hash 100 pempty (busy ++ later)) 1 (toy_hash [7; 8]) 2 = Some [20; 110] /\
  historical_lookup (prun toy_hash 100 pempty busy) 1 8 (toy_hash [7; 8]) = Some [7; 8] /\
  historical_lookup (prun toy_hash 100 pempty (busy ++ later)) 1 8 (toy_hash [7; 8]) = None /\
  historical_lookup (prun toy_hash 100 pempty (busy ++ later)) 1 30 (toy_hash [7; 8]) = Some [7; 8].
Proof.
  cbv zeta. split; [apply rl_check_ok; reflexivity|]. split.
  { split; [cbn; lia|]. cbn. intros t o [[= <- _]|[[= <- _]|[[= <- _]|[[= <- _]|[[= <- _]|[[= <- _]|[]]]]]]]; lia. }
  split; [cbn; intros d d' [<-|[]] [<-|[]] _; reflexivity|]. vm_compute. repeat split.
Qed.
(** SOLICIT and FORGET say what happened: an unchanged state exactly when the code is not OK. *)
Theorem forget_effect : forall D st s h n t, let r := host_forget D st s h n t in
  (snd r <> hOK -> fst r = st) /\
  (forall s' h' n', (s', h', n') <> (s, h, n) -> look (fst r) s' h' n' = look st s' h' n') /\
  (forall s' h', (s', h') <> (s, h) -> pre (fst r) s' h' = pre st s' h') /\
  (snd r = hOK -> t + D < 2 ^ 32 -> (forall l x, look st s h n = Some l -> In x l -> x <= t) ->
     (look st s h n = Some [] /\ look (fst r) s h n = None /\ pre (fst r) s h = None) \/
     (exists x, look st s h n = Some [x] /\ look (fst r) s h n = Some [x; t] /\ pre (fst r) s h = pre st s h) \/
     (exists x y, look st s h n = Some [x; y] /\ y + D < t /\ look (fst r) s h n = None /\ pre (fst r) s h = None) \/
     (exists x y z, look st s h n = Some [x; y; z] /\ y + D < t /\ look (fst r) s h n = Some [z; t] /\ pre (fst r) s h = pre st s h)).
Proof.
  intros D st s h n t r. unfold r, host_forget.
  destruct (look st s h n) as [[|x [|y [|z [|w l]]]]|] eqn:El; try destruct (expired D y t) eqn:Ex; cbn [fst snd];
    (split; [congruence|]); (split; [intros s' h' n' Ne; try rewrite (set_look_other _ s h n _ s' h' n' Ne); reflexivity|]);
    (split; [intros s' h' Ne; cbn [pre set_look]; try rewrite (set_pre_other _ s h _ s' h' Ne); reflexivity|]); intros Hok HD Hx; try discriminate Hok.
  - left. rewrite set_look_same. cbn [pre set_look]. rewrite set_pre_same. auto.
  - right. left. exists x. rewrite set_look_same. auto.
  - right. right. left. exists x, y. rewrite set_look_same. cbn [pre set_look]. rewrite set_pre_same.
    rewrite expired_spec in Ex; [apply N.ltb_lt in Ex; auto|apply (Hx _ y eq_refl); cbn; auto|assumption].
  - right. right. right. exists x, y, z. rewrite set_look_same.
    rewrite expired_spec in Ex; [apply N.ltb_lt in Ex; auto|apply (Hx _ y eq_refl); cbn; auto|assumption].
Qed.
Example forget_case : let st := prun toy_hash 100 pempty busy in
  snd (host_forget 100 st 1 (toy_hash [7; 8]) 2 109) = hHUH /\ snd (host_forget 100 st 1 (toy_hash [7; 8]) 2 110) = hOK.
Proof. vm_compute. auto. Qed.
(** Near the end of the slot range the retention check wraps around (release build), and a request can be dropped at once. *)
Theorem forget_expiry_refuted : exists st x y t, x <= y <= t /\ t < 2 ^ 32 /\ look st 1 2 3 = Some [x; y] /\ ~ y + 19200 < t /\
  snd (host_forget 19200 st 1 2 3 t) = hOK.
Proof.
  exists (set_look pempty 1 2 3 (Some [5; 2 ^ 32 - 9])), 5, (2 ^ 32 - 9), (2 ^ 32 - 8). repeat split; try (vm_compute; congruence).
Qed.

Print Assumptions preimages_accepted_iff.
Print Assumptions preimages_integrated.
Print Assumptions historical_lookup_iff.
Print Assumptions availability_flips.
Print Assumptions records_reachable.
Print Assumptions lookup_stable_refuted.
Print Assumptions lookup_stable_partial.
Print Assumptions forget_effect.
Print Assumptions forget_expiry_refuted.
