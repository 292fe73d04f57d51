(** The fuzz target: a node driven over a socket, keeping at most one level of unresolved forks. *)
From Verif Require Import Base Import_Model.
Open Scope N_scope.

(** ** Finite maps from state keys (31 octets, as numbers) to values, held in ascending order of keys: what the state trie
    and [BTreeSet<TrieKey>] iterate in. A state as state/src/manager.rs:128-134 shows it through get_raw_state_entry_from_db: a finite map. *)
Definition state := list (N * bytes).
(** A state as state/src/manager.rs:128-134 shows it through get_raw_state_entry_from_db: a finite map. *)
Fixpoint get (s : state) (k : N) : option bytes :=
  match s with [] => None | (k', v) :: s' => if k =? k' then Some v else get s' k end.
(** A state as state/src/manager.rs:128-134 shows it through get_raw_state_entry_from_db: a finite map. *)
Fixpoint put (s : state) (k : N) (v : bytes) : state :=
  match s with
  | [] => [(k, v)]
  | (k', v') :: s' => if k <? k' then (k, v) :: s else if k =? k' then (k, v) :: s' else (k', v') :: put s' k v
  end.
(** A state as state/src/manager.rs:128-134 shows it through get_raw_state_entry_from_db: a finite map. *)
Definition del (s : state) (k : N) : state := filter (fun e => negb (fst e =? k)) s.
(** [BTreeSet::insert] and [BTreeSet::remove]. On the key sets of fuzz/src/fuzz_target.rs:84-87. *)
Fixpoint key_insert (l : list N) (k : N) : list N :=
  match l with [] => [k] | x :: l' => if k <? x then k :: l else if k =? x then l else x :: key_insert l' k end.
(** On the key sets of fuzz/src/fuzz_target.rs:84-87. *)
Definition key_remove (l : list N) (k : N) : list N := filter (fun x => negb (x =? k)) l.

(** What a block's transition does to one entry: state/src/cache.rs (StateMut), transition/src/state/services.rs:166-324 (SandboxEntryStatus). *)
Inductive change := Added (v : bytes) | Updated (v : bytes) | Removed.
(** The entries a block's transition touches, in the order it touches them: those accumulation changes, by service (services.rs:119-160);
    those other stages update; those the preimages extrinsic changes (services.rs, [transition_services_integrate_preimages]). *)
Record outcome := mk_outcome { o_accounts : list (list (N * change)); o_rest : list (N * bytes); o_preimages : list (N * change) }.
(** state/src/cache.rs:300-420: the dirty entries, one per key, the latest value; [None] is a removal. *)
Definition delta := list (N * option bytes).
(** Part of state/src/cache.rs:300-420. *)
Fixpoint find_delta (d : delta) (k : N) : option (option bytes) :=
  match d with [] => None | (k', o) :: d' => if k =? k' then Some o else find_delta d' k end.
(** Part of state/src/cache.rs:300-420. *)
Definition set_delta (d : delta) (k : N) (o : option bytes) : delta := (k, o) :: filter (fun e => negb (fst e =? k)) d.
(** Part of state/src/cache.rs:300-420. *)
Definition value_of (c : change) : option bytes := match c with Added v | Updated v => Some v | Removed => None end.
(** Part of state/src/cache.rs:300-420. *)
Definition touches (o : outcome) : list (N * option bytes) :=
  (map (fun c => (fst c, value_of (snd c))) (concat (o_accounts o)) ++ map (fun e => (fst e, Some (snd e))) (o_rest o)
   ++ map (fun c => (fst c, value_of (snd c))) (o_preimages o))%list.
(** Part of state/src/cache.rs:300-420. *)
Definition dirty (l : list (N * option bytes)) : delta := fold_left (fun d e => set_delta d (fst e) (snd e)) l [].
(** Writing the dirty entries: state/src/manager.rs [commit_dirty_cache] and [apply_dirty_cache_commit]. state/src/manager.rs:841-869. *)
Definition commit (s : state) (d : delta) : state := fold_left (fun s e => match snd e with Some v => put s (fst e) v | None => del s (fst e) end) d s.

Section Target.
  (** [R]: the ring cache with the last staging-set transition. [B]: what a block has besides the fields below.
      [cap]: capacity of the ancestor set. [root]: the state root (C33). [exec]: the transition of a block over a ring cache, the
      ancestors (if they are to be checked) and a prior state, with the header checks that follow it; [gen]: that of a block without a
      parent (node/src/roles/executor.rs:360-399). Both leave a ring cache behind even if they fail. Panics and database failures are not
      modelled, nor are the tasks that fill the ring cache later (RingCache_Model). *)
  Context {R B : Type} (cap : nat) (root : state -> N).
  (** block/src/types/block.rs:31-34, block/src/types/block.rs:77-96. *)
  Record fblock := mk_fblock { fb_hash : N; fb_parent : N; fb_slot : N; fb_root : N; fb_xt : bool; fb_body : B }.
  Context (exec : R -> option aset -> state -> fblock -> R * option outcome) (gen : R -> state -> fblock -> R * option (list (N * option bytes))).
  (** Where a new storage starts: the default header's hash, an empty ring cache. *)
  Context (default_hash : N) (ring0 : R).

  (** storage/src/node_storage.rs: the committed state, the ring cache, the best header's hash and slot, the post-state roots by header hash, the ancestor set. storage/src/node_storage.rs:33-38. *)
  Record node := mk_node { n_state : state; n_ring : R; n_best : N * N; n_roots : N -> option N; n_anc : aset }.
  (** fuzz_target.rs:105-112 [StagedBlock], with the header's slot. *)
  Record staged := mk_staged { st_slot : N; st_changes : list (list (N * change)); st_artifact : option delta; st_ring : R }.
  (** fuzz_target.rs:83-87, 144-149, 171-180: the runner. [t_session]: the session has been initialized. *)
  Record target := mk_target { t_node : node; t_hash : N; t_keys : list N; t_final : option N; t_staged : list (N * staged);
    t_ancestors : bool; t_forking : bool; t_state_init : bool; t_session : bool }.
  (** fuzz/src/fuzz_target.rs:184-198. *)
  Definition new_node : node := mk_node [] ring0 (default_hash, 0) (fun _ => None) (mk_aset [] []).
  (** fuzz_target.rs:184-198 [new]. The default header hash of [LatestStateKeys] is zero. *)
  Definition new_target : target := mk_target new_node 0 [] None [] false false false false.
  (** fuzz_target.rs:212-219 [reset_state_context]. *)
  Definition reset (t : target) : target := mk_target new_node 0 [] None [] (t_ancestors t) (t_forking t) false (t_session t).

  (** Updates of fields; fuzz/src/fuzz_target.rs:371-417, 569-625. *)
  Definition with_node (t : target) (n : node) : target :=
    mk_target n (t_hash t) (t_keys t) (t_final t) (t_staged t) (t_ancestors t) (t_forking t) (t_state_init t) (t_session t).
  (** Updates of fields; fuzz/src/fuzz_target.rs:371-417, 569-625. *)
  Definition with_ring (n : node) (r : R) : node := mk_node (n_state n) r (n_best n) (n_roots n) (n_anc n).
  (** Updates of fields; fuzz/src/fuzz_target.rs:371-417, 569-625. *)
  Definition set_root_of (n : node) (h r : N) : node := mk_node (n_state n) (n_ring n) (n_best n) (fun x => if x =? h then Some r else n_roots n x) (n_anc n).

  (** fuzz_target.rs:238-247 [apply_account_state_changes]; services.rs:166-324: the keys accumulation adds and those it removes, by service. *)
  Definition added_keys (g : list (N * change)) : list N := flat_map (fun c => match snd c with Added _ => [fst c] | _ => [] end) g.
  (** Part of fuzz_target.rs:238-247; services.rs:166-324. *)
  Definition removed_keys (g : list (N * change)) : list N := flat_map (fun c => match snd c with Removed => [fst c] | _ => [] end) g.
  (** Part of fuzz_target.rs:238-247; services.rs:166-324. *)
  Definition apply_changes (keys : list N) (cs : list (list (N * change))) : list N :=
    fold_left (fun ks g => fold_left key_remove (removed_keys g) (fold_left key_insert (added_keys g) ks)) cs keys.

  (** fuzz_target.rs:250-266 [apply_state_deltas_to_state_keys]. *)
  Definition delta_keys (keys : list N) (d : delta) : list N :=
    fold_left (fun ks e => match snd e with Some _ => key_insert ks (fst e) | None => key_remove ks (fst e) end) d keys.
  (** fuzz_target.rs:269-300 [collect_state_from_keys]. *)
  Definition collect_state (n : node) (keys : list N) (d : delta) : state :=
    flat_map (fun k => match find_delta d k with
                       | Some None => []
                       | Some (Some v) => [(k, v)]
                       | None => match get (n_state n) k with Some v => [(k, v)] | None => [] end
                       end) keys.
  (** The map of staged blocks, fuzz/src/fuzz_target.rs:144-149. *)
  Definition find_staged (l : list (N * staged)) (h : N) : option staged := option_map snd (find (fun e => fst e =? h) l).
  (** fuzz_target.rs:304-334 [build_state_for_hash]: a hash that is neither the latest nor staged gets the latest state. *)
  Definition state_for (t : target) (h : N) : state :=
    if t_hash t =? h then collect_state (t_node t) (t_keys t) []
    else match find_staged (t_staged t) h with
         | Some b => let d := match st_artifact b with Some d => d | None => [] end in
                     collect_state (t_node t) (delta_keys (t_keys t) d) d
         | None => collect_state (t_node t) (t_keys t) []
         end.

  (** node/src/roles/importer.rs:98-103. *)
  Inductive mode := Immediate | StageOnly.
  (** block/src/types/block.rs [is_genesis]: the parent hash is zero. block/src/types/block.rs:37-39. *)
  Definition is_genesis (b : fblock) : bool := fb_parent b =? 0.
  (** fuzz_target.rs:336-349 [determine_block_commit_mode]. *)
  Definition commit_mode (t : target) (b : fblock) : mode :=
    if negb (t_forking t) || is_genesis b then Immediate
    else match t_final t with Some f => if fb_parent b =? f then StageOnly else Immediate | None => Immediate end.

  (** importer.rs:272-281, 412-476 [validate_block_header_prior_stf]; the check against the clock is compiled out of the fuzz target. *)
  Definition header_ok (n : node) (b : fblock) : bool :=
    (snd (n_best n) <? fb_slot b) && (fb_parent b =? fst (n_best n))
    && (match n_roots n (fb_parent b) with Some r => fb_root b =? r | None => false end) && fb_xt b.
  (** importer.rs:178-199 and the execution it calls: the dirty entries and the account changes, which are accumulation's alone
      (executor.rs:140-215: the preimages stage reports none; executor.rs:395: none for a block without parent). *)
  Definition run_block (t : target) (b : fblock) : R * option (delta * list (list (N * change))) :=
    let n := t_node t in
    if is_genesis b then
      match gen (n_ring n) (n_state n) b with (r, Some l) => (r, Some (dirty l, [])) | (r, None) => (r, None) end
    else if header_ok n b then
      match exec (n_ring n) (if t_ancestors t then Some (n_anc n) else None) (n_state n) b with
      | (r, Some o) => (r, Some (dirty (touches o), o_accounts o))
      | (r, None) => (r, None)
      end
    else (n_ring n, None).
  (** importer.rs:150-199, 530-575 [import_block]: the node after it, and the root, the account changes and the artifact it returns. *)
  Definition import_block (t : target) (m : mode) (b : fblock) : node * option (N * list (list (N * change)) * option delta) :=
    let n := t_node t in
    match run_block t b with
    | (r, None) => (with_ring n r, None)
    | (r, Some (d, cs)) =>
        match m with
        | Immediate =>
            let s := commit (n_state n) d in
            (mk_node s r (if is_genesis b then n_best n else (fb_hash b, fb_slot b)) (n_roots n) (an_add cap (n_anc n) (fb_slot b, fb_hash b)), Some (root s, cs, None))
        | StageOnly =>
            match d with
            | [] => (with_ring n r, Some (root (n_state n), cs, None))
            | _ => (with_ring n r, Some (root (commit (n_state n) d), cs, Some d))
            end
        end
    end.

  (** fuzz_target.rs:371-417 [apply_staged_block_commit], [finalize_if_parent_staged]. *)
  Definition finalize_parent (t : target) (p : N) : target :=
    match find_staged (t_staged t) p with
    | None => t
    | Some b =>
        let n := t_node t in
        let s := match st_artifact b with Some d => commit (n_state n) d | None => n_state n end in
        mk_target (mk_node s (st_ring b) (p, st_slot b) (n_roots n) (an_add cap (n_anc n) (st_slot b, p)))
          p (apply_changes (t_keys t) (st_changes b)) (Some p) [] (t_ancestors t) (t_forking t) (t_state_init t) (t_session t)
    end.

  (** fuzz/src/types.rs:239-247. *)
  Inductive message :=
  | PeerInfo (ancestors forking : bool)
  | Initialize (hash slot : N) (kvs : list (N * bytes)) (ancestry : list (N * N))
  | ImportBlock (b : fblock)
  | GetState (h : N)
  | Other.
  (** fuzz/src/types.rs:239-247. *)
  Inductive reply := Peer | Root (r : N) | State (s : state) | Failed.

  (** fuzz_target.rs:569-625. Adding the raw entries of an [Initialize] into an empty storage cannot fail; a key given twice has its last value. *)
  Definition initialize (t : target) (hash slot : N) (kvs : list (N * bytes)) (ancestry : list (N * N)) : target * reply :=
    let t := if t_state_init t then reset t else t in
    let n := t_node t in
    let s := fold_left (fun s e => put s (fst e) (snd e)) kvs (n_state n) in
    let anc := if t_ancestors t then fold_left (an_add cap) ancestry (n_anc n) else n_anc n in
    let n' := set_root_of (mk_node s (n_ring n) (hash, slot) (n_roots n) anc) hash (root s) in
    (mk_target n' hash (fold_left key_insert (map fst kvs) (t_keys t)) (Some hash) [] (t_ancestors t) (t_forking t) true true, Root (root s)).
  (** fuzz_target.rs:626-709. *)
  Definition process_import (t : target) (b : fblock) : target * reply :=
    let h := fb_hash b in
    let t := finalize_parent t (fb_parent b) in
    let m := commit_mode t b in
    let before := n_ring (t_node t) in
    match import_block t m b with
    | (n, None) => (with_node t (with_ring n before), Failed)
    | (n, Some (r, cs, art)) =>
        match m with
        | Immediate =>
            (mk_target (set_root_of n h r) h (apply_changes (t_keys t) cs) (Some h) (t_staged t) (t_ancestors t) (t_forking t) (t_state_init t) (t_session t), Root r)
        | StageOnly =>
            (mk_target (set_root_of (with_ring n before) h r) (t_hash t) (t_keys t) (t_final t)
               ((h, mk_staged (fb_slot b) cs art (n_ring n)) :: filter (fun e => negb (fst e =? h)) (t_staged t))
               (t_ancestors t) (t_forking t) (t_state_init t) (t_session t), Root r)
        end
    end.
  (** fuzz_target.rs:562-723 [process_message]: [None] ends the session. *)
  Definition process (t : target) (m : message) : option (target * reply) :=
    match m with
    | Initialize h sl kvs anc => if t_session t then None else Some (initialize t h sl kvs anc)
    | ImportBlock b => Some (process_import t b)
    | GetState h => Some (t, State (state_for t h))
    | _ => None
    end.
  (** The loop of fuzz/src/fuzz_target.rs:478-560. *)
  Fixpoint messages (t : target) (l : list message) : target * list reply :=
    match l with
    | [] => (t, [])
    | m :: l' => match process t m with None => (t, []) | Some (t', r) => let (t'', rs) := messages t' l' in (t'', r :: rs) end
    end.
  (** fuzz_target.rs:478-560 [handle_fuzzer_session], [handle_handshake]. *)
  Definition session (t : target) (l : list message) : target * list reply :=
    match l with
    | PeerInfo a f :: l' =>
        let (t', rs) := messages (mk_target (t_node t) (t_hash t) (t_keys t) (t_final t) (t_staged t) a f (t_state_init t) false) l' in (t', Peer :: rs)
    | _ => (t, [])
    end.
  (** fuzz_target.rs:420-476 [run_as_fuzz_target]: every connection but the first starts from a reset. *)
  Fixpoint later_sessions (t : target) (ls : list (list message)) : list (list reply) :=
    match ls with [] => [] | l :: ls' => let (t', rs) := session (reset t) l in rs :: later_sessions t' ls' end.
  (** fuzz/src/fuzz_target.rs:420-476. *)
  Definition sessions (ls : list (list message)) : list (list reply) :=
    match ls with [] => [] | l :: ls' => let (t', rs) := session new_target l in rs :: later_sessions t' ls' end.
End Target.
Arguments mk_fblock {B}.
Arguments Initialize {B}. Arguments PeerInfo {B}. Arguments GetState {B}. Arguments Other {B}. Arguments ImportBlock {B}.
