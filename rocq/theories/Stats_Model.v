(** On-chain activity statistics: per-epoch validator statistics, per-block core and service statistics. *)
From Verif Require Import Base.
Open Scope N_scope.

(** common/src/types/workloads/work_report.rs:274-285 [RefineStats]. *)
Record rstats := mk_rstats { u_gas : N; u_imports : N; u_xts : N; u_octets : N; u_exports : N }.
(** work_report.rs:300-313 [WorkDigest]: the fields the statistics read. *)
Record digest := mk_digest { d_service : N; d_stats : rstats }.
(** work_report.rs [WorkReport] and [AvailSpecs]: core index, bundle length, exported segment count, digests. common/src/types/workloads/work_report.rs:384-401, common/src/types/workloads/work_report.rs:15-26. *)
Record report := mk_report { r_core : nat; r_bundle : N; r_segments : N; r_digests : list digest }.

(** state/src/types/statistics.rs:44-57 [ValidatorStatsEntry]. *)
Record vstat := mk_vstat { v_blocks : N; v_tickets : N; v_preimages : N; v_octets : N; v_guarantees : N; v_assurances : N }.
(** statistics.rs:206-225 [CoreStatsEntry]. *)
Record cstat := mk_cstat { c_da : N; c_assurers : N; c_imports : N; c_xts : N; c_octets : N; c_exports : N; c_bundle : N; c_gas : N }.
(** statistics.rs:273-295 [ServiceStatsEntry]. *)
Record sstat := mk_sstat { s_preimages : N; s_blobs : N; s_digests : N; s_gas : N; s_imports : N; s_xts : N; s_octets : N;
  s_exports : N; s_acc_digests : N; s_acc_gas : N }.
(** statistics.rs:23-30, 169-173 [OnChainStatistics] with its [ValidatorStats] flattened; the BTreeMap of services is the
    list of its entries in key order. *)
Record stats := mk_stats { curr : list vstat; prev : list vstat; cores : list cstat; services : list (N * sstat) }.

(** The [Default] of each entry. state/src/types/statistics.rs:44-57. *)
Definition no_v : vstat := mk_vstat 0 0 0 0 0 0.
(** state/src/types/statistics.rs:212-229. *)
Definition no_c : cstat := mk_cstat 0 0 0 0 0 0 0 0.
(** state/src/types/statistics.rs:279-300. *)
Definition no_s : sstat := mk_sstat 0 0 0 0 0 0 0 0 0 0.

(** What the statistics transition is given for one block: transition/src/state/statistics.rs:17-25, with the active set's
    Ed25519 keys (lines 76-83) and, in place of the [AccumulateStats], what those are computed from
    (pvm/pvm-types/src/stats.rs:27-31). An extrinsic is reduced to what is read: the number of tickets, each preimage's
    service and length, each assurance's validator and core bits. [b_order] is the order in which the hash set of
    accumulated services happens to be enumerated. *)
Record sblock := mk_sblock { b_slot : N; b_author : nat; b_keys : list N; b_tickets : N; b_preimages : list (N * N);
  b_assurances : list (nat * list bool); b_guarantees : list report; b_reporters : list N; b_available : list report;
  b_accumulated : list report; b_gas : list (N * N); b_order : list N }.

(** Indexing a fixed vector: out of range panics. Used at transition/src/state/statistics.rs:70-149. *)
Fixpoint at_index {A : Type} (i : nat) (f : A -> result unit A) (l : list A) : result unit (list A) :=
  match l, i with
  | [], _ => Panic
  | x :: l', O => let! y := f x in Ok (y :: l')
  | x :: l', S i' => let! r := at_index i' f l' in Ok (x :: r)
  end.

(** [BTreeMap::entry(k).or_default()] followed by an update: statistics.rs:385-387. Also used for the hash maps of
    stats.rs:33-46, whose order is not observed. *)
Fixpoint entry {A : Type} (d : A) (k : N) (f : A -> result unit A) (m : list (N * A)) : result unit (list (N * A)) :=
  match m with
  | [] => let! y := f d in Ok [(k, y)]
  | (k', x) :: m' =>
      if k <? k' then let! y := f d in Ok ((k, y) :: m)
      else if k =? k' then let! y := f x in Ok ((k, y) :: m')
      else let! r := entry d k f m' in Ok ((k', x) :: r)
  end.
(** Used at pvm/pvm-types/src/stats.rs:27-75. *)
Fixpoint lookup {A : Type} (k : N) (m : list (N * A)) : option A :=
  match m with [] => None | (k', x) :: m' => if k =? k' then Some x else lookup k m' end.

(** A [for] loop. The loops of transition/src/state/statistics.rs:51-180. *)
Fixpoint each {A S : Type} (f : S -> A -> result unit S) (s : S) (l : list A) : result unit S :=
  match l with [] => Ok s | a :: l' => let! s' := f s a in each f s' l' end.

Section Build.
  (** Overflow checks: on in debug builds, where overflow panics; off in release builds, where it wraps. *)
  Variable chk : bool.
  (** The additions and multiplications of transition/src/state/statistics.rs:51-180. *)
  Definition plus (w a b : N) : result unit N :=
    if a + b <? 2 ^ w then Ok (a + b) else if chk then Panic else Ok ((a + b) mod 2 ^ w).
  (** The additions and multiplications of transition/src/state/statistics.rs:51-180. *)
  Definition times (w a b : N) : result unit N :=
    if a * b <? 2 ^ w then Ok (a * b) else if chk then Panic else Ok ((a * b) mod 2 ^ w).
  (** [as u16], [as u32]. Used at transition/src/state/statistics.rs:132-180. *)
  Definition cast (w a : N) : N := a mod 2 ^ w.

  (** transition/src/state/statistics.rs:91-95. *)
  Definition credit_author (tickets preimages octets : N) (x : vstat) : result unit vstat :=
    let! b := plus 32 (v_blocks x) 1 in
    let! t := plus 32 (v_tickets x) (cast 32 tickets) in
    let! p := plus 32 (v_preimages x) (cast 32 preimages) in
    let! o := plus 32 (v_octets x) (cast 32 octets) in
    Ok (mk_vstat b t p o (v_guarantees x) (v_assurances x)).
  (** block/src/types/extrinsics/preimages.rs:23-25 [total_preimage_data_len]. *)
  Definition total_len (ps : list (N * N)) : result unit N := each (fun a p => plus 64 a (snd p)) 0 ps.
  (** statistics.rs:97-116, the body for one validator. *)
  Definition credit_validator (reported assured : bool) (x : vstat) : result unit vstat :=
    let! g := (if reported then plus 32 (v_guarantees x) 1 else Ok (v_guarantees x)) in
    let! a := (if assured then plus 32 (v_assurances x) 1 else Ok (v_assurances x)) in
    Ok (mk_vstat (v_blocks x) (v_tickets x) (v_preimages x) (v_octets x) g a).
  (** statistics.rs:97-116: the enumerated entries zipped with the keys. *)
  Fixpoint credit_all (b : sblock) (i : nat) (xs : list vstat) (keys : list N) : result unit (list vstat) :=
    match xs, keys with
    | x :: xs', k :: keys' =>
        let! y := credit_validator (existsb (N.eqb k) (b_reporters b)) (existsb (fun a => Nat.eqb (fst a) i) (b_assurances b)) x in
        let! r := credit_all b (S i) xs' keys' in Ok (y :: r)
    | _, _ => Ok xs
    end.
  (** statistics.rs:51-68 [handle_new_epoch_transition]; the default fixed vector holds default entries. *)
  Definition new_epoch (s : stats) : stats :=
    mk_stats (repeat no_v (length (curr s))) (curr s) (cores s) (services s).
  (** statistics.rs:70-122 [handle_validator_stats_accumulation]. *)
  Definition validator_stats (b : sblock) (xs : list vstat) : result unit (list vstat) :=
    let! octets := total_len (b_preimages b) in
    let! ys := at_index (b_author b) (credit_author (b_tickets b) (N.of_nat (length (b_preimages b))) octets) xs in
    credit_all b 0 ys (b_keys b).

  (** state/src/types/statistics.rs:244-252 [CoreStatsEntry::accumulate_refine_stats]. *)
  Definition core_refine (x : cstat) (d : digest) : result unit cstat :=
    let u := d_stats d in
    let! i := plus 16 (c_imports x) (u_imports u) in
    let! t := plus 16 (c_xts x) (u_xts u) in
    let! o := plus 32 (c_octets x) (u_octets u) in
    let! e := plus 16 (c_exports x) (u_exports u) in
    let! g := plus 64 (c_gas x) (u_gas u) in
    Ok (mk_cstat (c_da x) (c_assurers x) i t o e (c_bundle x) g).
  (** transition/src/state/statistics.rs:134-140, one report. *)
  Definition core_report (cs : list cstat) (r : report) : result unit (list cstat) :=
    at_index (r_core r) (fun x =>
      let! l := plus 32 (c_bundle x) (r_bundle r) in
      each core_refine (mk_cstat (c_da x) (c_assurers x) (c_imports x) (c_xts x) (c_octets x) (c_exports x) l (c_gas x)) (r_digests r)) cs.
  (** statistics.rs:141-145, one report; [SEGMENT_SIZE] is 4104. *)
  Definition core_available (cs : list cstat) (r : report) : result unit (list cstat) :=
    at_index (r_core r) (fun x =>
      let! k := times 32 4104 65 in
      let! s := times 32 k ((r_segments r + 63) / 64) in
      let! n := plus 32 (r_bundle r) s in
      let! d := plus 32 (c_da x) n in
      Ok (mk_cstat d (c_assurers x) (c_imports x) (c_xts x) (c_octets x) (c_exports x) (c_bundle x) (c_gas x))) cs.
  (** block/src/types/extrinsics/assurances.rs:47-56 [cores_assurances_counts]: the body for one assurance, bits from
      core [i] on. *)
  Fixpoint count_bits (i : nat) (counts : list N) (bits : list bool) : result unit (list N) :=
    match bits with
    | [] => Ok counts
    | t :: bits' => let! c := at_index i (fun x => plus 64 x (if t : bool then 1 else 0)) counts in count_bits (S i) c bits'
    end.
  (** Part of block/src/types/extrinsics/assurances.rs:47-56. *)
  Definition cores_assurances_counts (C : nat) (l : list (nat * list bool)) : result unit (list N) :=
    each (fun counts a => count_bits 0 counts (snd a)) (repeat 0 C) l.
  (** statistics.rs:146-149. *)
  Fixpoint core_assured (i : nat) (cs : list cstat) (counts : list N) : result unit (list cstat) :=
    match counts with
    | [] => Ok cs
    | n :: counts' =>
        let! cs' := at_index i (fun x => Ok (mk_cstat (c_da x) (cast 16 n) (c_imports x) (c_xts x) (c_octets x) (c_exports x) (c_bundle x) (c_gas x))) cs in
        core_assured (S i) cs' counts'
    end.
  (** statistics.rs:132-149. *)
  Definition core_stats (C : nat) (b : sblock) : result unit (list cstat) :=
    let! a := each core_report (repeat no_c C) (b_guarantees b) in
    let! d := each core_available a (b_available b) in
    let! n := cores_assurances_counts C (b_assurances b) in
    core_assured 0 d n.

  (** state/src/types/statistics.rs:325-332 [ServiceStatsEntry::accumulate_refine_stats]. *)
  Definition service_refine (u : rstats) (x : sstat) : result unit sstat :=
    let! n := plus 32 (s_digests x) 1 in
    let! g := plus 64 (s_gas x) (u_gas u) in
    let! i := plus 32 (s_imports x) (u_imports u) in
    let! t := plus 32 (s_xts x) (u_xts u) in
    let! o := plus 32 (s_octets x) (u_octets u) in
    let! e := plus 32 (s_exports x) (u_exports u) in
    Ok (mk_sstat (s_preimages x) (s_blobs x) n g i t o e (s_acc_digests x) (s_acc_gas x)).
  (** statistics.rs:334-337 [add_preimage_load]. *)
  Definition service_preimage (len : N) (x : sstat) : result unit sstat :=
    let! n := plus 16 (s_preimages x) 1 in
    let! l := plus 32 (s_blobs x) (cast 32 len) in
    Ok (mk_sstat n l (s_digests x) (s_gas x) (s_imports x) (s_xts x) (s_octets x) (s_exports x) (s_acc_digests x) (s_acc_gas x)).
  (** transition/src/state/statistics.rs:165-169. *)
  Definition service_acc (gas n : N) (x : sstat) : result unit sstat :=
    let! g := plus 64 (s_acc_gas x) gas in
    let! d := plus 32 (s_acc_digests x) n in
    Ok (mk_sstat (s_preimages x) (s_blobs x) (s_digests x) (s_gas x) (s_imports x) (s_xts x) (s_octets x) (s_exports x) d g).

  (** pvm/pvm-types/src/stats.rs:27-75 [from_accumulated_reports]: per-service digest counts and gas, then one entry for
      each service, in the hash set's order, whose gas or count is not zero. *)
  Definition accumulate_stats (reports : list report) (gas : list (N * N)) (order : list N) : result unit (list (N * (N * N))) :=
    let! ds := each (fun m d => entry 0 (d_service d) (fun c => plus 64 c 1) m) [] (flat_map r_digests reports) in
    let! gs := each (fun m p => entry 0 (fst p) (fun c => plus 64 c (snd p)) m) [] gas in
    Ok (flat_map (fun s =>
          let g := match lookup s gs with Some g => g | None => 0 end in
          let n := cast 32 (match lookup s ds with Some n => n | None => 0 end) in
          if (0 <? g) || (0 <? n) then [(s, (g, n))] else []) order).

  (** transition/src/state/statistics.rs:151-169. *)
  Definition service_stats (b : sblock) : result unit (list (N * sstat)) :=
    let! acc := accumulate_stats (b_accumulated b) (b_gas b) (b_order b) in
    let! a := each (fun m d => entry no_s (d_service d) (service_refine (d_stats d)) m) [] (flat_map r_digests (b_guarantees b)) in
    let! p := each (fun m p => entry no_s (fst p) (service_preimage (snd p)) m) a (b_preimages b) in
    each (fun m e => entry no_s (fst e) (service_acc (fst (snd e)) (snd (snd e))) m) p acc.

  (** transition/src/state/statistics.rs:17-49 [transition_onchain_statistics]. The accumulate statistics are computed
      earlier in the block; their overflow panic is placed with the services here. *)
  Definition transition (C : nat) (epoch_progressed : bool) (b : sblock) (s : stats) : result unit stats :=
    let s1 := if epoch_progressed then new_epoch s else s in
    let! vs := validator_stats b (curr s1) in
    let! cs := core_stats C b in
    let! ss := service_stats b in
    Ok (mk_stats vs (prev s1) cs ss).

  (** A history of blocks: the epoch has progressed when the previous slot lies in an earlier epoch,
      node/src/roles/executor.rs:93-94; [E] is the epoch length. *)
  Fixpoint history (C : nat) (E : N) (slot : N) (s : stats) (bs : list sblock) : result unit stats :=
    match bs with
    | [] => Ok s
    | b :: bs' =>
        let! s' := transition C (slot / E <? b_slot b / E) b s in
        history C E (b_slot b) s' bs'
    end.
End Build.
