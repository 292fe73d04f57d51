(** C53: the ring cache. [H] commits to a validator set; runs interleave the steps of block imports with those of the
    background ring computations in any order, including computations that fail or finish late. *)
From Verif Require Import Base Safrole_Model RingCache_Model RingCache_Proofs.

(** At every epoch change the ring root comes from the staging set with the offenders removed (the required set, up to a
    collision between the two sets), from any start, in any interleaving, with rejected blocks anywhere. *)
Theorem ring_root_of_required_set : forall H slot staging_set punish pending lhash events s' used required,
  run H (fresh slot staging_set punish pending lhash) events = Some s' ->
  In (UsedForRoot used required) (r_obs s') -> H used = H required.
Proof. intros H slot st pu pe lh es s' u r R. exact (proj2 (root_run H _ _ _ (root_fresh H slot st pu pe lh) R) u r). Qed.

(** Full claim for tickets: the verifier used is always that of the pending set. It is false: *)
(** (a) after a rejected block, since its offenders stay removed from the cached ring; *)
Theorem ticket_ring_after_reject_refuted : exists H slot staging_set punish pending lhash events s' used required,
  (forall a b, H a = H b -> a = b) /\
  run H (fresh slot staging_set punish pending lhash) events = Some s' /\
  In (UsedForTickets used required) (r_obs s') /\ used <> required.
Proof.
  set (k := mk_vkey 1 2 3).
  exists ex_hash, 0%N, [k], [], [k], [],
    [Begin (mk_rb 1 true [] false None); Rotate; Disputes; Safrole; TicketsXt; Designate;
     Begin (mk_rb 2 false [2%N] false None); Reject 1 [k] [] [k];
     Begin (mk_rb 3 true [] true None); Rotate; Disputes; Safrole; TicketsXt].
  eexists. exists [null_key], [k]. split; [apply ex_hash_inj|]. split; [vm_compute; reflexivity|]. split; [cbn; auto|discriminate].
Qed.
(** (b) when a block that opens an epoch also designates a new staging set. *)
Theorem ticket_ring_same_slot_refuted : exists H slot staging_set punish pending lhash events s' used required,
  (forall a b, H a = H b -> a = b) /\
  (forall e, In e events -> match e with Reject _ _ _ _ => False | _ => True end) /\
  run H (fresh slot staging_set punish pending lhash) events = Some s' /\
  In (UsedForTickets used required) (r_obs s') /\ used <> required.
Proof.
  set (k := mk_vkey 1 2 3).
  exists ex_hash, 0%N, [null_key], [], [null_key], [],
    [Begin (mk_rb 1 true [] false (Some [k])); Rotate; Disputes; Safrole; TicketsXt; Designate;
     Begin (mk_rb 2 true [] false None); Rotate; Disputes; Safrole; TicketsXt; Designate;
     Begin (mk_rb 3 false [2%N] true None); Rotate; Disputes; Safrole; TicketsXt].
  eexists. exists [null_key], [k]. split; [apply ex_hash_inj|]. split.
  { intros e He. repeat (destruct He as [<-|He]; [exact I|]). destruct He. }
  split; [vm_compute; reflexivity|]. split; [cbn; auto|discriminate].
Qed.
(** Outside those two cases it holds in every interleaving: missing are histories with rejected blocks or with a block that
    both opens an epoch and designates a staging set. *)
Theorem ticket_ring_of_pending_set_partial : forall H slot staging_set punish pending lhash events s' used required,
  (forall a b, H a = H b -> a = b) ->
  (forall e, In e events -> match e with
                            | Reject _ _ _ _ => False
                            | Begin b => rb_opens b = true -> rb_designate b = None
                            | _ => True end) ->
  run H (fresh slot staging_set punish pending lhash) events = Some s' ->
  In (UsedForTickets used required) (r_obs s') -> used = required.
Proof.
  intros H slot st pu pe lh es s' u r Hi Hes R Hin. apply (ring_ok H Hi slot st pu pe lh es s') in Hin; auto.
  apply Forall_forall. intros e He. specialize (Hes e He). destruct e; auto.
Qed.

(** A history with a designation, a late background computation and cache hits for both uses. *)
Example ring_cache_case :
  let k1 := mk_vkey 1 2 3 in let k2 := mk_vkey 4 5 6 in
  exists s', run ex_hash (fresh 0 [k1] [] [k1] [])
    [Begin (mk_rb 1 false [] false (Some [k1; k2])); Rotate; Disputes; Safrole; TicketsXt; Designate; TaskCheck 0;
     Begin (mk_rb 2 true [] false None); Rotate; Disputes; TaskWrite 0; Safrole; TicketsXt; Designate;
     Begin (mk_rb 3 true [5%N] true None); Rotate; Disputes; Safrole; TicketsXt; Designate;
     Begin (mk_rb 4 false [] true None); Rotate; Disputes; Safrole; TicketsXt; Designate] = Some s' /\
    r_obs s' = [UsedForRoot [k1; k2] [k1; k2]; UsedForRoot [k1; null_key] [k1; null_key];
                UsedForTickets [k1; null_key] [k1; null_key]; UsedForTickets [k1; null_key] [k1; null_key]] /\
    r_curr s' = Some (mk_ctx 1 [k1; null_key]).
Proof. eexists. split; [vm_compute; reflexivity|]. split; reflexivity. Qed.

Print Assumptions ring_root_of_required_set.
Print Assumptions ticket_ring_after_reject_refuted.
Print Assumptions ticket_ring_same_slot_refuted.
Print Assumptions ticket_ring_of_pending_set_partial.
