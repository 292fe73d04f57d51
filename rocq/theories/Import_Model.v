(** Block import and the recent block history: node/src/roles/importer.rs, node/src/roles/executor.rs, transition/src/state/history.rs,
    state/src/types/history.rs, node/src/jam_node/init.rs. Header hashes, state roots and package hashes are numbers, MMR contents are
    bytes. *)
From Verif Require Import Base LVec_Model Merkle_Model Safrole_Model.
Open Scope N_scope.

(** ** Recent block history *)
(** state/src/types/history.rs:95-105. *)
Record bentry := mk_be { be_hash : N; be_beefy : bytes; be_state : N; be_reported : list (N * N) }.
(** history.rs:24-31: entries, oldest first, and the BEEFY belt. *)
Record bhistory := mk_bh { bh_entries : list bentry; bh_belt : list (option bytes) }.

(** transition/src/state/history.rs:20-43. *)
Definition set_root (r : N) (e : bentry) : bentry := mk_be (be_hash e) (be_beefy e) r (be_reported e).
(** Part of transition/src/state/history.rs:20-43. *)
Definition set_parent_root (h : bhistory) (r : N) : bhistory :=
  match rev (bh_entries h) with
  | [] => h
  | e :: before => mk_bh (rev before ++ [set_root r e]) (bh_belt h)
  end.
(** ReportedWorkPackage derives its order: package hash, then segment root. [sort_unstable] on equal elements is unobservable. common/src/types/workloads/work_report.rs:109-114; sorted at transition/src/state/history.rs:71-85. *)
Definition pkg_leb (a b : N * N) : bool := (fst a <? fst b) || ((fst a =? fst b) && (snd a <=? snd b)).
(** common/src/types/workloads/work_report.rs:109-114; sorted at transition/src/state/history.rs:71-85. *)
Fixpoint pkg_insert (a : N * N) (l : list (N * N)) : list (N * N) :=
  match l with [] => [a] | b :: r => if pkg_leb a b then a :: l else b :: pkg_insert a r end.
(** common/src/types/workloads/work_report.rs:109-114; sorted at transition/src/state/history.rs:71-85. *)
Definition pkg_sort (l : list (N * N)) : list (N * N) := fold_right pkg_insert [] l.

(** ** Ancestor set: block/src/ancestors.rs. Entries are (slot, hash), ordered lexicographically. The min-heap is its ascending list. *)
(** block/src/ancestors.rs:13-19. *)
Record aset := mk_aset { an_heap : list (N * N); an_set : list (N * N) }.
(** block/src/ancestors.rs:7. *)
Definition ent_eqb (a b : N * N) : bool := (fst a =? fst b) && (snd a =? snd b).
(** block/src/ancestors.rs:57-59. *)
Definition an_contains (a : aset) (e : N * N) : bool := existsb (ent_eqb e) (an_set a).
(** ancestors.rs:58-79. *)
Definition an_add (cap : nat) (a : aset) (e : N * N) : aset :=
  if an_contains a e then a
  else if negb (length (an_heap a) =? cap)%nat then mk_aset (pkg_insert e (an_heap a)) (e :: an_set a)
  else match an_heap a with
       | [] => a
       | m :: h => if pkg_leb e m then a
                   else mk_aset (pkg_insert e h) (e :: filter (fun x => negb (ent_eqb x m)) (an_set a))
       end.
(** ancestors.rs:87-93: the heap is filtered by hash alone. *)
Definition an_remove (a : aset) (e : N * N) : aset :=
  if an_contains a e then mk_aset (filter (fun x => negb (snd x =? snd e)) (an_heap a)) (filter (fun x => negb (ent_eqb x e)) (an_set a))
  else a.

Section Import.
  (** BLOCK_HISTORY_LENGTH; Keccak-256. *)
  Variable HL : nat.
  Variable K : bytes -> bytes.

  (** state/src/types/history.rs:193-211: service id in 4 bytes, then the output hash. *)
  Definition accumulate_root (outs : list (N * bytes)) : bytes := wb_root K (map (fun o => (le_bytes 4 (fst o) ++ snd o)%list) outs).
  (** transition/src/state/history.rs:71-85, 96-129. *)
  Definition history_append (h : bhistory) (acc_root : bytes) (header_hash : N) (reported : list (N * N)) : result lverr bhistory :=
    let belt := mmr_append K (bh_belt h) acc_root in
    let! r := shift_push HL (bh_entries h) (mk_be header_hash (super_peak K belt) 0 (pkg_sort reported)) in
    Ok (mk_bh (snd r) belt).

  (** ** Importing. The rest of the chain state and the transitions of it are parameters: [stf1] up to the header checks after
      Safrole (run_state_transition_pre_header_commitment), [header_ok] those checks (seal, VRF, author, markers), [stf2] the rest. [stf2]
      gives the accumulation outputs; it may read the history. [genesis] is run_genesis_state_transition. [root] is the Merkle root of the
      whole state; [xt_hash] the hash of the extrinsics. *)
  Variables (S0 Xt Mk : Type).
  (** block/src/types/block.rs:31-34, block/src/types/block.rs:77-96. *)
  Record iblock := mk_ib { ib_parent : N; ib_slot : N; ib_root : N; ib_xt_hash : N; ib_xts : Xt; ib_reported : list (N * N); ib_hash : N }.
  Variable stf1 : S0 -> iblock -> option (S0 * Mk).
  Variable header_ok : S0 -> iblock -> Mk -> bool.
  Variable stf2 : S0 -> bhistory -> iblock -> option (S0 * list (N * bytes)).
  Variable genesis : S0 -> iblock -> option S0.
  Variable root : S0 -> bhistory -> N.
  Variable xt_hash : Xt -> N.

  (** The node's databases: best header (hash and slot), post-state roots by header hash, committed state, header store. storage/src/node_storage.rs:33-38. *)
  Record node_st := mk_n { n_best : N; n_best_slot : N; n_roots : N -> option N; n_state : S0; n_hist : bhistory; n_headers : list N }.
  (** node/src/roles/importer.rs:40-95. *)
  Inductive ierr := InvalidTimeslot | TimeslotInFuture_i | InvalidParentHash | PriorStateRootNotFound | InvalidPriorStateRoot | InvalidXtHash
    | ExecutionError | HeaderError.
  (** [?] and [return Err] of node/src/roles/importer.rs:354-417. *)
  Definition ensure (b : bool) (e : ierr) : result ierr unit := if b then Ok tt else Err e.
  (** [?] and [return Err] of node/src/roles/importer.rs:354-417. *)
  Definition require {A} (o : option A) (e : ierr) : result ierr A := match o with Some a => Ok a | None => Err e end.

  (** importer.rs:354-417: [now] is the wall clock. *)
  Definition validate_header (now : N) (n : node_st) (b : iblock) : result ierr unit :=
    let! _ := ensure (n_best_slot n <? ib_slot b) InvalidTimeslot in
    let! _ := ensure (negb (is_in_future now (ib_slot b))) TimeslotInFuture_i in
    let! _ := ensure (ib_parent b =? n_best n) InvalidParentHash in
    let! r := require (n_roots n (ib_parent b)) PriorStateRootNotFound in
    let! _ := ensure (r =? ib_root b) InvalidPriorStateRoot in
    ensure (ib_xt_hash b =? xt_hash (ib_xts b)) InvalidXtHash.

  (** importer.rs:509-552, the non-genesis branch. The block's root goes into the history in the first phase (executor.rs:137). *)
  Definition run_stf (n : node_st) (b : iblock) : result ierr (S0 * bhistory) :=
    let h1 := set_parent_root (n_hist n) (ib_root b) in
    let! (s1, m) := require (stf1 (n_state n) b) ExecutionError in
    let! _ := ensure (header_ok s1 b m) HeaderError in
    let! (s2, outs) := require (stf2 s1 h1 b) ExecutionError in
    match history_append h1 (accumulate_root outs) (ib_hash b) (ib_reported b) with
    | Ok h2 => Ok (s2, h2)
    | Err _ => Err ExecutionError
    | Panic => Panic
    end.
  (** importer.rs:515-524, executor.rs:317-399: AccumulateRoot::default() and no reported packages. *)
  Definition run_genesis (n : node_st) (b : iblock) : result ierr (S0 * bhistory) :=
    let! s := require (genesis (n_state n) b) ExecutionError in
    match history_append (set_parent_root (n_hist n) (ib_root b)) zero_hash (ib_hash b) [] with
    | Ok h2 => Ok (s, h2)
    | Err _ => Err ExecutionError
    | Panic => Panic
    end.
  (** importer.rs:152-203 in Immediate mode, and 119-149 for the root database. block/src/types/block.rs:37-39: a block is taken for the
      genesis block when its parent hash is zero. *)
  Definition import_block (now : N) (n : node_st) (b : iblock) : result ierr node_st :=
    if ib_parent b =? 0 then
      let! (s, h) := run_genesis n b in
      Ok (mk_n (n_best n) (n_best_slot n) (n_roots n) s h (ib_hash b :: n_headers n))
    else
      let! _ := validate_header now n b in
      let! (s, h) := run_stf n b in
      Ok (mk_n (ib_hash b) (ib_slot b) (n_roots n) s h (ib_hash b :: n_headers n)).
  (** node/src/roles/importer.rs:119-149. *)
  Definition record_root (n : node_st) (hash : N) : node_st :=
    mk_n (n_best n) (n_best_slot n) (fun k => if k =? hash then Some (root (n_state n) (n_hist n)) else n_roots n k) (n_state n) (n_hist n) (n_headers n).
  (** One submission to the importer task: accepted or not, and the node afterwards. A rejected block's state changes are rolled back. node/src/roles/importer.rs:119-149. *)
  Definition submit (now : N) (n : node_st) (b : iblock) : bool * node_st :=
    match import_block now n b with
    | Ok n' => (true, record_root n' (ib_hash b))
    | _ => (false, n)
    end.
  (** node/src/roles/importer.rs:119-149. *)
  Definition run_importer (n : node_st) (l : list (N * iblock)) : node_st := fold_left (fun n x => snd (submit (fst x) n (snd x))) l n.
End Import.
Arguments mk_ib {Xt}. Arguments ib_parent {Xt}. Arguments ib_slot {Xt}. Arguments ib_root {Xt}. Arguments ib_xt_hash {Xt}.
Arguments ib_xts {Xt}. Arguments ib_reported {Xt}. Arguments ib_hash {Xt}.
Arguments mk_n {S0}. Arguments n_best {S0}. Arguments n_best_slot {S0}. Arguments n_roots {S0}. Arguments n_state {S0}.
Arguments n_hist {S0}. Arguments n_headers {S0}.
