(** The state components as the database holds them: how each is written and read. *)
From Verif Require Import Base Codec_Model Block_Model Stats_Model StatsCodec_Model.
Open Scope N_scope.

(** crypto/src/types/validator_keys.rs:58-66. *)
Record vk := mk_vk { vk_band : bytes; vk_ed : bytes; vk_bls : bytes; vk_meta : bytes }.
(** common/src/types/ticket.rs:8-14. *)
Record tkt := mk_tkt { tk_id : bytes; tk_attempt : N }.
(** state/src/types/safrole.rs:122-126. *)
Inductive sealing := ByTickets (l : list tkt) | ByKeys (l : list bytes).
(** state/src/types/safrole.rs:43-56. The ticket accumulator, a heap whose equality is that of its ascending sequence
    (safrole.rs:286-300), is that sequence; see [put_ticket]. *)
Record safrole := mk_safrole { sf_pending : list vk; sf_root : bytes; sf_sealers : sealing; sf_tickets : list tkt }.
(** state/src/types/history.rs:91-102. *)
Record recent := mk_recent { re_header : bytes; re_mmr : bytes; re_state : bytes; re_packages : list (bytes * bytes) }.
(** state/src/types/privileges.rs:20-31. *)
Record privileged := mk_privileged { pv_manager : N; pv_assign : list N; pv_designate : N; pv_registrar : N; pv_always : list (N * N) }.
(** state/src/types/services.rs:116-141. *)
Record account := mk_account { at_version : N; at_code : bytes; at_balance : N; at_gas : N; at_transfer_gas : N; at_octets : N; at_gratis : N;
  at_items : N; at_created : N; at_accumulated : N; at_parent : N }.

(** In-memory sizes of the elements of the components' [Vec]s, which matter only to the capacity-overflow check: state/src/types/history.rs:19-30,
    accumulate.rs:15-17, history.rs:169, safrole.rs:386. *)
Record msizes := { sz_recent : N; sz_peak : N; sz_queued : N; sz_output : N; sz_tkt : N; sz_package : N }.

Section Entries.
  Variable P : params.
  Variable Z : msizes.
  Variable POOL HISTORY QUEUE : nat.    (* MAX_AUTH_POOL_SIZE, BLOCK_HISTORY_LENGTH, AUTH_QUEUE_SIZE *)
  Let V := validator_count P.
  Let C := N.to_nat (core_count P).
  Let E := epoch_length P.

  (** state/src/state_utils.rs:97-140 [StateEntryType], without the test-only [Raw]. *)
  Inductive entry :=
  | EPool (l : list (list bytes)) | EQueue (l : list (list bytes)) | EHistory (l : list recent) (peaks : list (option bytes))
  | ESafrole (s : safrole) | EDisputes (good bad wonky offenders : list bytes) | EEntropy (l : list bytes)
  | EStaging (l : list vk) | EActive (l : list vk) | EPast (l : list vk)
  | EPending (l : list (option (interp (t_report P) * N))) | ESlot (t : N) | EPrivileges (p : privileged) | EStatistics (s : stats)
  | EReady (l : list (list (interp (t_report P) * list bytes))) | EAccumulated (l : list (list bytes)) | EOutputs (l : list (N * bytes))
  | EAccount (a : account) | EStorage (b : bytes) | ELookup (l : list N) | EPreimage (b : bytes).

  (** Which component: the type [T] the reader asks for, state/src/state_utils.rs:97-140. *)
  Inductive sort := KPool | KQueue | KHistory | KSafrole | KDisputes | KEntropy | KStaging | KActive | KPast | KPending | KSlot | KPrivileges
  | KStatistics | KReady | KAccumulated | KOutputs | KAccount | KStorage | KLookup | KPreimage.
  (** state/src/state_utils.rs:97-140. *)
  Definition sort_of (e : entry) : sort :=
    match e with
    | EPool _ => KPool | EQueue _ => KQueue | EHistory _ _ => KHistory | ESafrole _ => KSafrole | EDisputes _ _ _ _ => KDisputes
    | EEntropy _ => KEntropy | EStaging _ => KStaging | EActive _ => KActive | EPast _ => KPast | EPending _ => KPending | ESlot _ => KSlot
    | EPrivileges _ => KPrivileges | EStatistics _ => KStatistics | EReady _ => KReady | EAccumulated _ => KAccumulated
    | EOutputs _ => KOutputs | EAccount _ => KAccount | EStorage _ => KStorage | ELookup _ => KLookup | EPreimage _ => KPreimage
    end.

  (** state/src/types/authorizer.rs:17-24: FixedVec<LimitedVec<AuthHash, MAX_AUTH_POOL_SIZE>, CORE_COUNT>. *)
  Definition t_pool := TArr C (TLim 32 (N.of_nat POOL) t_hash).
  (** state/src/types/authorizer.rs:50-57: FixedVec<FixedVec<AuthHash, AUTH_QUEUE_SIZE>, CORE_COUNT>. *)
  Definition t_queue := TArr C (TArr QUEUE t_hash).
  (** state/src/types/history.rs:123-149; ReportedWorkPackage: common/src/types/workloads/work_report.rs:108-114. *)
  Definition t_recent := t_hash ** t_hash ** t_hash ** TVec (sz_package Z) (t_hash ** t_hash).
  (** state/src/types/history.rs:19-30; merkle/src/mmr.rs:40-60. *)
  Definition t_history := TLim (sz_recent Z) (N.of_nat HISTORY) t_recent ** TVec (sz_peak Z) (TOption t_hash).
  (** state/src/types/disputes.rs:13-23. *)
  Definition t_judged := TVec 32 t_hash ** TVec 32 t_hash ** TVec 32 t_hash ** TVec 32 t_hash.
  (** state/src/types/entropy.rs:12-13: [EntropyHash; 4]. *)
  Definition t_entropy := TArr 4 t_hash.
  (** crypto/src/types/validator_keys.rs:58-66, 20-26; public_keys.rs:57. *)
  Definition t_vk := TByteArr 32 ** TByteArr 32 ** TByteArr 144 ** TByteArr 128.
  (** crypto/src/types/validator_keys.rs:108-112; state/src/types/validators.rs:106-107, 133-134, 160-161. *)
  Definition t_validators := TArr V t_vk.
  (** state/src/types/reports.rs:23-29, 126-145. *)
  Definition t_pending := TArr C (TOption (t_report P ** t_u32_4)).
  (** state/src/types/privileges.rs:55-100. *)
  Definition t_privileges := t_u32_4 ** TArr C t_u32_4 ** t_u32_4 ** t_u32_4 ** TMap (TUint 32) (TUint 64).
  (** state/src/types/accumulate.rs:15-27. *)
  Definition t_ready := TArr E (TVec (sz_queued Z) (t_report P ** TSet t_hash)).
  (** state/src/types/accumulate.rs:17, 106-109. *)
  Definition t_accumulated := TArr E (TSet t_hash).
  (** state/src/types/history.rs:168-169; pvm/pvm-types/src/invoke_results.rs:30-52. *)
  Definition t_outputs := TVec (sz_output Z) (t_u32_4 ** t_hash).
  (** state/src/types/services.rs:180-222. *)
  Definition t_account := TUint 8 ** t_hash ** t_u64_8 ** t_u64_8 ** t_u64_8 ** t_u64_8 ** t_u64_8 ** t_u32_4 ** t_u32_4 ** t_u32_4 ** t_u32_4.

  (** Fields in the order of crypto/src/types/validator_keys.rs:61-66. *)
  Definition of_vk (k : vk) : interp t_vk := (vk_band k, (vk_ed k, (vk_bls k, vk_meta k))).
  (** crypto/src/types/validator_keys.rs:61-66. *)
  Definition to_vk (i : interp t_vk) : vk := let '(a, (b, (c, d))) := i in mk_vk a b c d.
  (** Fields in the order of common/src/types/ticket.rs:9-14. *)
  Definition of_tkt (t : tkt) : interp t_ticket := (tk_id t, tk_attempt t).
  (** common/src/types/ticket.rs:9-14. *)
  Definition to_tkt (i : interp t_ticket) : tkt := mk_tkt (fst i) (snd i).
  (** Fields in the order of state/src/types/history.rs:131-137. *)
  Definition of_recent (r : recent) : interp t_recent := (re_header r, (re_mmr r, (re_state r, re_packages r))).
  (** state/src/types/history.rs:141-148. *)
  Definition to_recent (i : interp t_recent) : recent := let '(a, (b, (c, d))) := i in mk_recent a b c d.
  (** Fields in the order of state/src/types/privileges.rs:60-69. *)
  Definition of_privileged (p : privileged) : interp t_privileges := (pv_manager p, (pv_assign p, (pv_designate p, (pv_registrar p, pv_always p)))).
  (** state/src/types/privileges.rs:72-100. *)
  Definition to_privileged (i : interp t_privileges) : privileged := let '(a, (b, (c, (d, e)))) := i in mk_privileged a b c d e.
  (** Fields in the order of state/src/types/services.rs:185-198. *)
  Definition of_account (a : account) : interp t_account :=
    (at_version a, (at_code a, (at_balance a, (at_gas a, (at_transfer_gas a, (at_octets a, (at_gratis a, (at_items a, (at_created a, (at_accumulated a, at_parent a)))))))))).
  (** state/src/types/services.rs:201-222. *)
  Definition to_account (i : interp t_account) : account :=
    let '(a, (b, (c, (d, (e, (f, (g, (h, (j, (k, l)))))))))) := i in mk_account a b c d e f g h j k l.

  (** state/src/types/safrole.rs:153-172: a discriminator, then the epoch's tickets or keys. *)
  Definition write_sealers (s : sealing) : result cerr bytes :=
    match s with
    | ByTickets l => let! x := encode (TArr E t_ticket) (map of_tkt l) in Ok (integer_encode 0 ++ x)
    | ByKeys l => let! x := encode (TArr E (TByteArr 32)) l in Ok (integer_encode 1 ++ x)
    end.
  (** state/src/types/safrole.rs:174-207. *)
  Definition read_sealers : dec sealing := fun inp =>
    let! (tag, r) := integer_decode 8 inp in
    if tag =? 0 then let! (l, r') := decode (TArr E t_ticket) r in Ok (ByTickets (map to_tkt l), r')
    else if tag =? 1 then let! (l, r') := decode (TArr E (TByteArr 32)) r in Ok (ByKeys l, r')
    else Err InputError.

  (** The order of tickets, by identifier alone: common/src/types/ticket.rs:28-38. *)
  Definition id_lt (a b : tkt) : bool := match cmp_list N.compare (tk_id a) (tk_id b) with Lt => true | _ => false end.
  (** A ticket pushed onto the heap held in ascending order: state/src/types/safrole.rs:335-350. Among equal identifiers the heap's
      order is its own; here the later follows. *)
  Fixpoint put_ticket (t : tkt) (l : list tkt) : list tkt :=
    match l with [] => [t] | x :: l' => if id_lt t x then t :: l else x :: put_ticket t l' end.
  (** state/src/types/safrole.rs:335-350 [TicketAccumulator::add]: when full, the greatest makes room for a lesser. *)
  Definition add_tkt (h : list tkt) (t : tkt) : list tkt :=
    if (length h <? E)%nat then put_ticket t h
    else match rev h with [] => h | m :: _ => if id_lt t m then put_ticket t (removelast h) else h end.
  (** state/src/types/safrole.rs:377-391: the sequence is read, then added ticket by ticket to an empty accumulator. *)
  Definition read_tickets : dec (list tkt) := fun inp =>
    let! (l, r) := decode (TVec (sz_tkt Z) t_ticket) inp in Ok (fold_left add_tkt (map to_tkt l) [], r).
  (** state/src/types/safrole.rs:366-375: the ascending sequence. *)
  Definition write_tickets (l : list tkt) : result cerr bytes := encode (TVec (sz_tkt Z) t_ticket) (map of_tkt l).

  (** state/src/types/safrole.rs:43-56, derived. *)
  Definition write_safrole (s : safrole) : result cerr bytes :=
    let! a := encode t_validators (map of_vk (sf_pending s)) in
    let! b := encode (TByteArr 144) (sf_root s) in
    let! c := write_sealers (sf_sealers s) in
    let! d := write_tickets (sf_tickets s) in Ok (a ++ b ++ c ++ d).
  (** state/src/types/safrole.rs:90-110. *)
  Definition read_safrole : dec safrole := fun inp =>
    let! (a, r) := decode t_validators inp in
    let! (b, r) := decode (TByteArr 144) r in
    let! (c, r) := read_sealers r in
    let! (d, r) := read_tickets r in Ok (mk_safrole (map to_vk a) b c d, r).

  (** state/src/types/services.rs:501-513: the count, then each timeslot in four octets. *)
  Definition write_lookup (l : list N) : result cerr bytes :=
    let! x := encode_seq (fun t => encode_fixed t 4) l in Ok (integer_encode (N.of_nat (length l)) ++ x).
  (** state/src/types/services.rs:515-535: the timeslots are read before their number is held against three. *)
  Definition read_lookup : dec (list N) := fun inp =>
    let! (n, r) := integer_decode 64 inp in
    if alloc_ok 4 n then
      let! (l, r') := decode_seq (decode_fixed 32 4) (N.to_nat n) r in
      if (length l <=? 3)%nat then Ok (l, r') else Err InvalidSize
    else Panic.

  (** state/src/state_utils.rs:145-195 [StateEntryType::encode_to]. *)
  Definition write_entry (e : entry) : result cerr bytes :=
    match e with
    | EPool l => encode t_pool l
    | EQueue l => encode t_queue l
    | EHistory l peaks => encode t_history (map of_recent l, peaks)
    | ESafrole s => write_safrole s
    | EDisputes g b w o => encode t_judged (g, (b, (w, o)))
    | EEntropy l => encode t_entropy l
    | EStaging l | EActive l | EPast l => encode t_validators (map of_vk l)
    | EPending l => encode t_pending l
    | ESlot t => encode t_u32_4 t                                   (* timeslot.rs:16-24 *)
    | EPrivileges p => encode t_privileges (of_privileged p)
    | EStatistics s => store V C s
    | EReady l => encode t_ready l
    | EAccumulated l => encode t_accumulated l
    | EOutputs l => encode t_outputs l
    | EAccount a => encode t_account (of_account a)
    | EStorage b | EPreimage b => Ok b                              (* services.rs:389-397, 465-473 *)
    | ELookup l => write_lookup l
    end.

  (** state/src/manager.rs:911, 948: [T::decode] of the octets found; what it leaves of them is not looked at. *)
  Definition read_entry (k : sort) (inp : bytes) : result cerr entry :=
    match k with
    | KPool => let! (l, _) := decode t_pool inp in Ok (EPool l)
    | KQueue => let! (l, _) := decode t_queue inp in Ok (EQueue l)
    | KHistory => let! (i, _) := decode t_history inp in Ok (EHistory (map to_recent (fst i)) (snd i))
    | KSafrole => let! (s, _) := read_safrole inp in Ok (ESafrole s)
    | KDisputes => let! (i, _) := decode t_judged inp in let '(g, (b, (w, o))) := i in Ok (EDisputes g b w o)
    | KEntropy => let! (l, _) := decode t_entropy inp in Ok (EEntropy l)
    | KStaging => let! (l, _) := decode t_validators inp in Ok (EStaging (map to_vk l))
    | KActive => let! (l, _) := decode t_validators inp in Ok (EActive (map to_vk l))
    | KPast => let! (l, _) := decode t_validators inp in Ok (EPast (map to_vk l))
    | KPending => let! (l, _) := decode t_pending inp in Ok (EPending l)
    | KSlot => let! (t, _) := decode t_u32_4 inp in Ok (ESlot t)
    | KPrivileges => let! (i, _) := decode t_privileges inp in Ok (EPrivileges (to_privileged i))
    | KStatistics => let! (s, _) := load V C inp in Ok (EStatistics s)
    | KReady => let! (l, _) := decode t_ready inp in Ok (EReady l)
    | KAccumulated => let! (l, _) := decode t_accumulated inp in Ok (EAccumulated l)
    | KOutputs => let! (l, _) := decode t_outputs inp in Ok (EOutputs l)
    | KAccount => let! (i, _) := decode t_account inp in Ok (EAccount (to_account i))
    | KStorage => Ok (EStorage inp)                                 (* services.rs:399-410: the whole input *)
    | KPreimage => Ok (EPreimage inp)                               (* services.rs:475-486 *)
    | KLookup => let! (l, _) := read_lookup inp in Ok (ELookup l)
    end.
End Entries.
