(** The ring-context cache of the state manager (state/src/manager.rs:88-113, 330-498) with the background tasks that fill
    it (transition/src/ring_cache.rs) and the block transitions that use it (node/src/roles/executor.rs:75-160). *)
From Verif Require Import Base Safrole_Model.

(** A ring context is computed from a validator set and never from anything else, so the model keeps the set; "using" a
    context means using the ring verifier and ring root of its set. manager.rs:88-94. *)
Record ctx := mk_ctx { c_at : N; c_set : list vkey }.

(** What a block does that concerns the cache: its slot, whether it opens an epoch, the offenders of its disputes, whether
    it carries tickets, the staging set it designates, if any. node/src/roles/executor.rs:70-330, as far as the cache is concerned. *)
Record rblock := mk_rb { rb_slot : N; rb_opens : bool; rb_offenders : list N; rb_tickets : bool; rb_designate : option (list vkey) }.

(** How far the block being imported has got. The points of node/src/roles/executor.rs:70-330 between which background tasks may run. *)
Inductive pc := Idle | Nullified (b : rblock) | Rotated (b : rblock) | Disputed (b : rblock) | SafroleDone (b : rblock) | TicketsDone (b : rblock).

(** Observation: the set whose ring was used, and the set whose ring should be used. Where the ring is used: transition/src/state/safrole.rs:59-70, extrinsics/src/validation/tickets.rs:141-149. *)
Inductive obs := UsedForRoot (used required : list vkey) | UsedForTickets (used required : list vkey).

(** state/src/manager.rs:97-103, state/src/manager.rs:121-126, and the parts of the state they depend on. *)
Record rc := mk_rc {
  r_slot : N;                    (* slot of the last block begun *)
  r_staging_set : list vkey;     (* state: iota *)
  r_punish : list N;             (* state: punish set, counted from the moment the block's offenders are known *)
  r_pending : list vkey;         (* state: gamma_P, counted from the rotation on *)
  r_curr : option ctx; r_staging : option ctx;          (* RingCache *)
  r_lslot : N; r_lhash : bytes;                         (* LastStagingSetTransitionContext *)
  r_tasks : list (N * list vkey * bytes);               (* background computations running *)
  r_armed : list (N * list vkey);                       (* those that have passed the guard but not yet written *)
  r_pc : pc;
  r_obs : list obs }.

(** The steps of node/src/roles/executor.rs:70-330 and of transition/src/ring_cache.rs:20-70. *)
Inductive ev :=
| Begin (b : rblock) | Rotate | Disputes | Safrole | TicketsXt | Designate
| TaskCheck (i : nat) | TaskWrite (i : nat) | TaskFail (i : nat)
| Reject (slot : N) (staging_set : list vkey) (punish : list N) (pending : list vkey).

Section RC.
  Variable H : list vkey -> bytes.     (* Blake2b of the encoded set The end of a background task, transition/src/ring_cache.rs:20-70. *)

  Fixpoint remove_nth {A} (i : nat) (l : list A) : list A :=
    match l, i with [], _ => [] | _ :: l', 0 => l' | x :: l', S i' => x :: remove_nth i' l' end.

  (** state/src/manager.rs:473-498. *)
  Definition has_punished (punish : list N) (ks : list vkey) : bool := existsb (fun k => existsb (N.eqb (ked k)) punish) ks.

  (** manager.rs:430-441. *)
  Definition update_staging (c : option ctx) (new : ctx) : option ctx :=
    match c with
    | Some e => if (c_at new <=? c_at e)%N then Some e else Some new
    | None => Some new
    end.
  (** manager.rs:330-378: result: the set used, and the new [curr]. *)
  Definition get_curr (s : rc) (slot : N) (validator_set : list vkey) : list vkey * option ctx :=
    let miss := (validator_set, Some (mk_ctx slot validator_set)) in
    match r_curr s with
    | Some e =>
        if (r_lslot s <? c_at e)%N then (c_set e, r_curr s)
        else if ((r_lslot s =? c_at e)%N && (if list_eq_dec N.eq_dec (r_lhash s) (H (c_set e)) then true else false))%bool
             then (c_set e, r_curr s)
        else miss
    | None => miss
    end.
  (** manager.rs:381-424: result: the set used, and the new [staging]. *)
  Definition get_staging (s : rc) (slot : N) (validator_set : list vkey) : list vkey * option ctx :=
    let miss := (validator_set, update_staging (r_staging s) (mk_ctx slot validator_set)) in
    match r_staging s with
    | Some e =>
        if ((r_lslot s <=? c_at e)%N && (if list_eq_dec N.eq_dec (r_lhash s) (H (c_set e)) then true else false))%bool
        then (c_set e, r_staging s)
        else miss
    | None => miss
    end.

  (** The steps cited at each event: node/src/roles/executor.rs:70-330, state/src/manager.rs:330-498. *)
  Definition exec (s : rc) (e : ev) : option rc :=
    match e, r_pc s with
    | Begin b, Idle =>
        (* executor.rs:79-100: slots increase; nullify_offenders_from_staging_ring_cache (manager.rs:473-498) *)
        if (r_slot s <? rb_slot b)%N then
          let off := rb_offenders b in
          let '(st', lh') := match r_staging s with
                             | Some c => (Some (mk_ctx (c_at c) (nullify_punished off (c_set c))),
                                          if has_punished off (c_set c) then H (nullify_punished off (c_set c)) else r_lhash s)
                             | None => (None, r_lhash s) end in
          Some (mk_rc (rb_slot b) (r_staging_set s) (r_punish s ++ off) (r_pending s) (r_curr s) st' (r_lslot s) lh'
                  (r_tasks s) (r_armed s) (Nullified b) (r_obs s))
        else None
    | Rotate, Nullified b =>
        (* executor.rs:102-105, manager.rs:109-111; the pending set installed later in this block (safrole.rs:88) *)
        Some (mk_rc (r_slot s) (r_staging_set s) (r_punish s)
                (if rb_opens b then nullify_punished (r_punish s) (r_staging_set s) else r_pending s)
                (if rb_opens b then r_staging s else r_curr s) (r_staging s) (r_lslot s) (r_lhash s)
                (r_tasks s) (r_armed s) (Rotated b) (r_obs s))
    | Disputes, Rotated b =>
        (* transition/src/state/disputes.rs:41-47 *)
        Some (mk_rc (r_slot s) (r_staging_set s) (r_punish s) (r_pending s) (r_curr s) (r_staging s) (r_lslot s)
                (H (nullify_punished (r_punish s) (r_staging_set s)))
                (r_tasks s) (r_armed s) (Disputed b) (r_obs s))
    | Safrole, Disputed b =>
        (* safrole.rs:59-70 *)
        if rb_opens b then
          let req := nullify_punished (r_punish s) (r_staging_set s) in
          let '(used, st') := get_staging s (rb_slot b) req in
          Some (mk_rc (r_slot s) (r_staging_set s) (r_punish s) (r_pending s) (r_curr s) st' (r_lslot s) (r_lhash s)
                  (r_tasks s) (r_armed s) (SafroleDone b) (r_obs s ++ [UsedForRoot used req]))
        else Some (mk_rc (r_slot s) (r_staging_set s) (r_punish s) (r_pending s) (r_curr s) (r_staging s) (r_lslot s) (r_lhash s)
                  (r_tasks s) (r_armed s) (SafroleDone b) (r_obs s))
    | TicketsXt, SafroleDone b =>
        (* extrinsics/src/validation/tickets.rs:141-149 *)
        if rb_tickets b then
          let '(used, cu') := get_curr s (rb_slot b) (r_pending s) in
          Some (mk_rc (r_slot s) (r_staging_set s) (r_punish s) (r_pending s) cu' (r_staging s) (r_lslot s) (r_lhash s)
                  (r_tasks s) (r_armed s) (TicketsDone b) (r_obs s ++ [UsedForTickets used (r_pending s)]))
        else Some (mk_rc (r_slot s) (r_staging_set s) (r_punish s) (r_pending s) (r_curr s) (r_staging s) (r_lslot s) (r_lhash s)
                  (r_tasks s) (r_armed s) (TicketsDone b) (r_obs s))
    | Designate, TicketsDone b =>
        (* transition/src/state/privileges.rs:15-47 *)
        match rb_designate b with
        | Some ks =>
            let eff := nullify_punished (r_punish s) ks in
            Some (mk_rc (r_slot s) ks (r_punish s) (r_pending s) (r_curr s) (r_staging s) (rb_slot b) (H eff)
                    (r_tasks s ++ [(rb_slot b, eff, H eff)]) (r_armed s) Idle (r_obs s))
        | None =>
            Some (mk_rc (r_slot s) (r_staging_set s) (r_punish s) (r_pending s) (r_curr s) (r_staging s) (r_lslot s) (r_lhash s)
                    (r_tasks s) (r_armed s) Idle (r_obs s))
        end
    | TaskCheck i, _ =>
        (* manager.rs:443-458, the two comparisons; the lock is released before the write *)
        match nth_error (r_tasks s) i with
        | Some (t, ks, h) =>
            let ok := ((r_lslot s =? t)%N && (if list_eq_dec N.eq_dec (r_lhash s) h then true else false))%bool in
            Some (mk_rc (r_slot s) (r_staging_set s) (r_punish s) (r_pending s) (r_curr s) (r_staging s) (r_lslot s) (r_lhash s)
                    (remove_nth i (r_tasks s)) (if ok then r_armed s ++ [(t, ks)] else r_armed s) (r_pc s) (r_obs s))
        | None => None
        end
    | TaskWrite i, _ =>
        (* manager.rs:460 *)
        match nth_error (r_armed s) i with
        | Some (t, ks) =>
            Some (mk_rc (r_slot s) (r_staging_set s) (r_punish s) (r_pending s) (r_curr s)
                    (update_staging (r_staging s) (mk_ctx t ks)) (r_lslot s) (r_lhash s)
                    (r_tasks s) (remove_nth i (r_armed s)) (r_pc s) (r_obs s))
        | None => None
        end
    | TaskFail i, _ =>
        (* ring_cache.rs:36-41, 63-67 *)
        Some (mk_rc (r_slot s) (r_staging_set s) (r_punish s) (r_pending s) (r_curr s) (r_staging s) (r_lslot s) (r_lhash s)
                (remove_nth i (r_tasks s)) (r_armed s) (r_pc s) (r_obs s))
    | Reject sl st pu pe, _ =>
        (* node/src/roles/importer.rs:140-144: the state is rolled back, the cache is not *)
        Some (mk_rc sl st pu pe (r_curr s) (r_staging s) (r_lslot s) (r_lhash s) (r_tasks s) (r_armed s) Idle (r_obs s))
    | _, _ => None
    end.

  (** The steps cited at each event: node/src/roles/executor.rs:70-330, state/src/manager.rs:330-498. *)
  Fixpoint run (s : rc) (es : list ev) : option rc :=
    match es with [] => Some s | e :: es' => match exec s e with Some s' => run s' es' | None => None end end.

  (** manager.rs:258-262: a fresh node on any state. *)
  Definition fresh (slot : N) (staging_set : list vkey) (punish : list N) (pending : list vkey) (lhash : bytes) : rc :=
    mk_rc slot staging_set punish pending None None 0 lhash [] [] Idle [].
End RC.
