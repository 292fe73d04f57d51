(** Safrole: ticket accumulator, slot sealers, entropy, validator-set rotation, header markers, and their predictions. *)
From Verif Require Import Base.
From Coq Require Import Permutation Sorted.

(** common/src/types/ticket.rs:9-14. The 32-byte id is the number whose big-endian bytes it is: the derived order on
    byte arrays is the order on these numbers. *)
Record ticket := mk_ticket { tid : N; tattempt : N }.

(** crypto/src/types/validator_keys.rs: the Bandersnatch and Ed25519 keys and the rest; keys are opaque numbers, the
    all-zero default is 0. crypto/src/types/validator_keys.rs:61-66. *)
Record vkey := mk_vkey { kband : N; ked : N; krest : N }.
(** The default of crypto/src/types/validator_keys.rs:61-66. *)
Definition null_key : vkey := mk_vkey 0 0 0.

(** state/src/types/validators.rs:39-48. *)
Definition nullify_punished (punish : list N) (ks : list vkey) : list vkey :=
  map (fun k => if existsb (N.eqb (ked k)) punish then null_key else k) ks.

(** ** Sorting by id: [BinaryHeap::into_sorted_vec]. With distinct ids the ascending order is unique; among equal ids the
    real heap's order is unspecified (see [heap_add] and [sorted_vec] below, which leave it open). Used at state/src/types/safrole.rs:328-355. *)
Fixpoint insert_ticket (t : ticket) (l : list ticket) : list ticket :=
  match l with
  | [] => [t]
  | x :: l' => if (tid t <? tid x)%N then t :: x :: l' else x :: insert_ticket t l'
  end.

Section Spec.
  Variable E : N.          (* EPOCH_LENGTH *)
  Variable D : N.          (* TICKET_CONTEST_DURATION *)
  Variable H : bytes -> bytes.            (* Blake2b-256 *)
  Variable ring_of : list vkey -> bytes.  (* RingVrfVerifier::new + compute_ring_root; failures not modelled *)

  (** state/src/types/timeslot.rs:67-77. *)
  Definition epoch (slot : N) : N := (slot / E)%N.
  (** Part of state/src/types/timeslot.rs:67-77. *)
  Definition phase (slot : N) : N := (slot mod E)%N.

  (** state/src/types/safrole.rs:338-350: [TicketAccumulator::add] on the heap held as an ascending list; [pop] removes the
      last (largest) entry. *)
  Definition acc_add (h : list ticket) (t : ticket) : list ticket :=
    if (N.of_nat (length h) <? E)%N then insert_ticket t h
    else match rev h with
         | [] => h
         | m :: _ => if (tid t <? tid m)%N then insert_ticket t (removelast h) else h
         end.
  (** safrole.rs:351-355. *)
  Definition acc_add_multiple (h : list ticket) (ts : list ticket) : list ticket := fold_left acc_add ts h.
  (** safrole.rs:328-330. *)
  Definition is_full (h : list ticket) : bool := (N.of_nat (length h) =? E)%N.

  (** The same function with the heap's freedom left open: the heap is a bag, [peek] and [pop] agree on some maximal
      entry, chosen by the heap's internal layout. state/src/types/safrole.rs:338-355. *)
  Inductive heap_add : list ticket -> ticket -> list ticket -> Prop :=
  | ha_room : forall h t h', (N.of_nat (length h) < E)%N -> Permutation h' (t :: h) -> heap_add h t h'
  | ha_replace : forall h t m rest h', (E <= N.of_nat (length h))%N -> Permutation h (m :: rest) ->
      (forall x, In x rest -> (tid x <= tid m)%N) -> (tid t < tid m)%N -> Permutation h' (t :: rest) -> heap_add h t h'
  | ha_reject : forall h t m rest, (E <= N.of_nat (length h))%N -> Permutation h (m :: rest) ->
      (forall x, In x rest -> (tid x <= tid m)%N) -> (tid m <= tid t)%N -> heap_add h t h
  | ha_empty : forall t, E = 0%N -> heap_add [] t [].
  (** state/src/types/safrole.rs:338-355. *)
  Inductive heap_adds : list ticket -> list ticket -> list ticket -> Prop :=
  | has_nil : forall h, heap_adds h [] h
  | has_cons : forall h t ts h1 h2, heap_add h t h1 -> heap_adds h1 ts h2 -> heap_adds h (t :: ts) h2.
  (** into_sorted_vec: some ascending arrangement of the bag. state/src/types/safrole.rs:328-355. *)
  Definition sorted_vec (h v : list ticket) : Prop := Permutation v h /\ StronglySorted (fun x y => (tid x <= tid y)%N) v.

  (** safrole.rs:208-227: the two-pointer loop. [Panic]: [len - 1] underflows on the empty vector (debug build; in release
      it loops). [fuel] bounds the iterations; len + 1 is always enough (see the proofs). *)
  Fixpoint outside_in_loop {T} (fuel : nat) (v : list T) (left right : nat) (acc : list T) : list T :=
    match fuel with
    | 0 => acc
    | S fuel =>
        if Nat.leb left right then
          let acc1 := match nth_error v left with Some x => acc ++ [x] | None => acc end in
          let acc2 := if Nat.eqb left right then acc1
                      else match nth_error v right with Some x => acc1 ++ [x] | None => acc1 end in
          outside_in_loop fuel v (left + 1) (right - 1) acc2
        else acc
    end.
  (** Part of safrole.rs:208-227. *)
  Definition outside_in_vec {T} (v : list T) : result unit (list T) :=
    match v with
    | [] => Panic
    | _ => Ok (outside_in_loop (S (length v)) v 0 (length v - 1) [])
    end.

  (** safrole.rs: SlotSealers. state/src/types/safrole.rs:124-127. *)
  Inductive sealers := Tickets (l : list ticket) | Keys (l : list N).
  (** state/src/types/safrole.rs:112-115. *)
  Inductive sealer := STicket (t : ticket) | SKey (k : N).

  (** safrole.rs:248-267. *)
  Definition fallback_index (V : nat) (entropy : bytes) (i : nat) : nat :=
    N.to_nat (le_val (firstn 4 (H (entropy ++ le_bytes 4 (N.of_nat i)))) mod N.of_nat V).
  (** Part of safrole.rs:248-267. *)
  Fixpoint fallback_keys_from (V : nat) (ks : list vkey) (entropy : bytes) (is : list nat) : result unit (list N) :=
    match is with
    | [] => Ok []
    | i :: is' =>
        match nth_error ks (fallback_index V entropy i) with
        | None => Err tt
        | Some k => match fallback_keys_from V ks entropy is' with
                    | Ok l => Ok (kband k :: l) | Err e => Err e | Panic => Panic end
        end
    end.
  Variable V : nat.   (* VALIDATOR_COUNT Part of safrole.rs:248-267. *)
  Definition generate_fallback_keys (ks : list vkey) (entropy : bytes) : result unit (list N) :=
    fallback_keys_from V ks entropy (seq 0 (N.to_nat E)).

  (** safrole.rs:236-246; [Panic]: index out of bounds. *)
  Definition get_slot_sealer (s : sealers) (slot : N) : result unit sealer :=
    match s with
    | Tickets l => match nth_error l (N.to_nat (phase slot)) with Some t => Ok (STicket t) | None => Panic end
    | Keys l => match nth_error l (N.to_nat (phase slot)) with Some k => Ok (SKey k) | None => Panic end
    end.

  (** The part of the state the Safrole transitions read or write. state/src/types/safrole.rs:44-55 and the state's timeslot, entropy and validator sets. *)
  Record sstate := mk_s {
    s_slot : N;
    s_e0 : bytes; s_e1 : bytes; s_e2 : bytes; s_e3 : bytes;
    s_staging : list vkey; s_active : list vkey; s_past : list vkey;
    s_pending : list vkey; s_ring : bytes; s_sealers : sealers; s_acc : list ticket;
    s_punish : list N }.

  (** The part of a block they read: the header slot, the validated tickets (output of TicketsXtValidator), the punish set
      after the disputes extrinsic, the VRF output of the header, and the staging set chosen during accumulation, if any. The arguments of node/src/roles/executor.rs:70-310. *)
  Record sblock := mk_b {
    b_slot : N; b_tickets : list ticket; b_punish : list N; b_vrf : bytes; b_staging : option (list vkey) }.

  (** transition/src/state/timeslot.rs:31-56 and state/src/types/timeslot.rs:79-92; [now] is the clock in unix seconds.
      The slot arithmetic is u32/u64 and cannot wrap. *)
  Definition era : N := 1735732800.
  (** Part of transition/src/state/timeslot.rs:31-56; state/src/types/timeslot.rs:79-92. *)
  Definition slot_duration : N := 6.
  (** Part of transition/src/state/timeslot.rs:31-56; state/src/types/timeslot.rs:79-92. *)
  Definition slot_beginning (slot : N) : N :=
    if (slot =? 0)%N then era else (era + (slot - 1) * slot_duration)%N.
  (** Part of transition/src/state/timeslot.rs:31-56; state/src/types/timeslot.rs:79-92. *)
  Definition is_in_future (now slot : N) : bool := (now <? slot_beginning slot)%N.
  (** Part of transition/src/state/timeslot.rs:31-56; state/src/types/timeslot.rs:79-92. *)
  Definition validate_timeslot (now prior current : N) : result unit unit :=
    if ((prior =? 0) && (current =? 0))%N%bool then Ok tt
    else if (current <=? prior)%N then Err tt
    else if is_in_future now current then Err tt
    else Ok tt.
  (** clock/src/lib.rs:29-47: the slot the clock is in. *)
  Definition now_jam_timeslot (now : N) : option N :=
    if (now <? era)%N then None else Some ((now - era) / slot_duration)%N.

  (** transition/src/state/safrole.rs:106-139. *)
  Definition is_fallback (s : sstate) (curr : N) : bool :=
    ((epoch (s_slot s) + 1 <? epoch curr) || (phase (s_slot s) <? D) || negb (is_full (s_acc s)))%N%bool.
  (** Part of transition/src/state/safrole.rs:106-139. *)
  Definition compute_next_slot_sealers (s : sstate) (curr : N) (active : list vkey) (eta2 : bytes) : result unit sealers :=
    if is_fallback s curr then
      let! ks := generate_fallback_keys active eta2 in Ok (Keys ks)
    else let! v := outside_in_vec (s_acc s) in Ok (Tickets v).

  (** transition/src/state_prediction/mod.rs:8-10. *)
  Definition epoch_progressed (prior curr : N) : bool := (epoch prior <? epoch curr)%N.

  (** block/src/types/block.rs:57-61. *)
  Record epoch_marker := mk_em { em_entropy : bytes; em_tickets_entropy : bytes; em_validators : list (N * N) }.
  (** state/src/types/safrole.rs:35-38. *)
  Record markers := mk_m { m_epoch : option epoch_marker; m_winning : option (list ticket) }.

  (** transition/src/state/safrole.rs:178-192, 194-238; [s] is the pre-state, [pending'] the new pending set. *)
  Definition mark_header (s : sstate) (curr : N) (pending' : list vkey) : result unit markers :=
    let progressed := epoch_progressed (s_slot s) curr in
    let em := if progressed then Some (mk_em (s_e0 s) (s_e1 s) (map (fun k => (kband k, ked k)) pending')) else None in
    let needs := (negb progressed && (phase (s_slot s) <? D) && (D <=? phase curr) && is_full (s_acc s))%N%bool in
    if needs then let! v := outside_in_vec (s_acc s) in Ok (mk_m em (Some v)) else Ok (mk_m em None).

  (** node/src/roles/executor.rs:70-180 (first phase) with the transitions it calls: timeslot.rs:11-29, entropy.rs:13-33,
      validators.rs:11-53, safrole.rs:39-177. The disputes transition contributes the new punish set. All *_clean reads
      are reads of the pre-state [s]. *)
  Definition phase1 (now : N) (s : sstate) (b : sblock) : result unit (sstate * markers) :=
    let! _ := validate_timeslot now (s_slot s) (b_slot b) in
    let curr := b_slot b in
    let progressed := epoch_progressed (s_slot s) curr in
    (* disputes, entropy, past set, active set *)
    let e3' := if progressed then s_e2 s else s_e3 s in
    let e2' := if progressed then s_e1 s else s_e2 s in
    let e1' := if progressed then s_e0 s else s_e1 s in
    let past' := if progressed then s_active s else s_past s in
    let active' := if progressed then s_pending s else s_active s in
    (* safrole *)
    let! saf :=
      (if progressed then
         let staging := nullify_punished (b_punish b) (s_staging s) in
         let! sl := compute_next_slot_sealers s curr active' e2' in
         Ok (staging, ring_of staging, sl, [])
       else Ok (s_pending s, s_ring s, s_sealers s, s_acc s)) in
    let '(pending', ring', sealers', acc0) := saf in
    let! acc' :=
      (match b_tickets b with
       | [] => Ok acc0
       | ts => if (D <=? phase curr)%N then Err tt else Ok (acc_add_multiple acc0 ts)
       end) in
    let! ms := mark_header s curr pending' in
    Ok (mk_s curr (s_e0 s) e1' e2' e3' (s_staging s) active' past' pending' ring' sealers' acc' (b_punish b), ms).

  (** executor.rs:183-310 (second phase), the two writes in this part of the state: entropy.rs:41-60 and
      transition/src/state/privileges.rs:11-31. *)
  Definition phase2 (s : sstate) (b : sblock) : sstate :=
    mk_s (s_slot s) (H (s_e0 s ++ b_vrf b)) (s_e1 s) (s_e2 s) (s_e3 s)
      (match b_staging b with Some x => x | None => s_staging s end)
      (s_active s) (s_past s) (s_pending s) (s_ring s) (s_sealers s) (s_acc s) (s_punish s).
  (** node/src/roles/executor.rs:70-310. *)
  Definition step (now : N) (s : sstate) (b : sblock) : result unit (sstate * markers) :=
    let! r := phase1 now s b in Ok (phase2 (fst r) b, snd r).

  (** ** Predictions (transition/src/state_prediction): slot_sealers.rs:21-46, entropy.rs:7-20, validator_sets.rs:10-38 *)
  Definition predict_slot_sealer (s : sstate) (slot : N) : result unit sealer :=
    if epoch_progressed (s_slot s) slot then
      let! sl := compute_next_slot_sealers s slot (s_pending s) (s_e1 s) in get_slot_sealer sl slot
    else get_slot_sealer (s_sealers s) slot.
  (** transition/src/state_prediction/entropy.rs:7-20, validator_sets.rs:10-38. *)
  Definition predict_entropy_3 (s : sstate) (slot : N) : bytes :=
    if epoch_progressed (s_slot s) slot then s_e2 s else s_e3 s.
  (** transition/src/state_prediction/entropy.rs:7-20, validator_sets.rs:10-38. *)
  Definition predict_active_set (s : sstate) (slot : N) : list vkey :=
    if epoch_progressed (s_slot s) slot then s_pending s else s_active s.
  (** transition/src/state_prediction/entropy.rs:7-20, validator_sets.rs:10-38. *)
  Definition predict_past_set (s : sstate) (slot : N) : list vkey :=
    if epoch_progressed (s_slot s) slot then s_active s else s_past s.

  (** ** extrinsics/src/validation/tickets.rs:60-153, without the proof checks (VRF output = ticket id, ring proof): the
      tests on the list of new tickets against the accumulator. *)
  Definition same_ticket (a b : ticket) : bool := ((tid a =? tid b) && (tattempt a =? tattempt b))%N%bool.
  (** Part of extrinsics/src/validation/tickets.rs:60-153. *)
  Fixpoint windows_sorted (l : list ticket) : bool :=
    match l with
    | a :: ((b :: _) as r) => (negb (tid b <? tid a)%N && windows_sorted r)%bool
    | _ => true
    end.
  (** Part of extrinsics/src/validation/tickets.rs:60-153. *)
  Fixpoint no_dup_ids (seen : list N) (l : list ticket) : bool :=
    match l with
    | [] => true
    | t :: r => (negb (existsb (N.eqb (tid t)) seen) && no_dup_ids (tid t :: seen) r)%bool
    end.
  (** Part of extrinsics/src/validation/tickets.rs:60-153. *)
  Definition useless (acc news : list ticket) : bool :=
    let la := length acc in let ln := length news in let e := N.to_nat E in
    if Nat.ltb e (la + ln) then
      let overflow := la + ln - e in
      if Nat.leb overflow la then
        match nth_error acc (la - overflow), rev news with
        | Some threshold, largest :: _ => negb (tid largest <? tid threshold)%N
        | _, _ => false
        end
      else false
    else false.
  (** Part of extrinsics/src/validation/tickets.rs:60-153. *)
  Definition validate_tickets (maxlen : nat) (curr : N) (acc news : list ticket) : result unit (list ticket) :=
    match news with
    | [] => Ok []
    | _ =>
        if (D <=? phase curr)%N then Err tt
        else if Nat.ltb maxlen (length news) then Err tt
        else if negb (windows_sorted news) then Err tt
        else if negb (no_dup_ids [] news) then Err tt
        else if existsb (fun t => existsb (fun x => same_ticket x t) acc) news then Err tt
        else if useless acc news then Err tt
        else Ok news
    end.
End Spec.
