(** How a node comes up: node/src/jam_node/init.rs:19-98 (storing the genesis block and state, the node's validator index, the peers to dial),
    over the state manager of StateCache_Model and the store of Trie_Model.
    Simplifications: headers, extrinsics and state components are abstract types with the functions the code uses on them (header hash, extrinsics hash in the header,
    encoding, the validators in a validator set); opening the databases and binding the socket succeed; a column of a database is a list of writes, newest first;
    each write of a column is atomic and durable when it returns. The dirty keys are committed in an order given by [ord]. *)
From Verif Require Import Base Trie_Model StateCache_Model StateKeys_Model.
From Verif Require Net_Model.

(** A validator: its Bandersnatch key, and its Ed25519 key and address as a peer (crypto/src/types/validator_keys.rs:58-66, network/src/peers.rs:91-117). *)
Record vkv := mk_vkv { vk_band : N; vk_peer : Net_Model.peer }.
(** crypto/src/types/validator_keys.rs:150-157: the first place of the key. *)
Fixpoint get_validator_index (l : list vkv) (k : N) : option nat :=
  match l with [] => None | v :: l' => if N.eqb (vk_band v) k then Some O else option_map S (get_validator_index l' k) end.

Section Boot.
  Context (H : bytes -> bytes) {V : Type} (enc : V -> bytes) (dec : path -> bytes -> option V).
  (** Headers with their hash and the extrinsics hash they carry; extrinsics; the validators of a validator-set component. *)
  Context {Hd X : Type} (header_hash : Hd -> bytes) (xt_hash : Hd -> bytes) (set_of : V -> list vkv).

  (** What is on disk: the header, extrinsics and state-root columns and the state. storage/src/node_storage.rs:33-38. *)
  Record disk := mk_disk { k_headers : list (bytes * Hd); k_xts : list (bytes * X); k_roots : list (bytes * bytes); k_store : store }.
  (** A database created by config/src/lib.rs:100-112 (create_if_missing). *)
  Definition empty_disk : disk := mk_disk [] [] [] empty_store.
  (** The genesis block's header, the default extrinsics and the sixteen state components of node/src/genesis/mod.rs:24-55, by their number. *)
  Record genesis := mk_gen { g_header : Hd; g_xts : X; g_vals : N -> V }.
  (** The key of component [i] in the trie: state/src/state_utils.rs:313-340. *)
  Definition chapter (i : N) : path := bits (simple_key i).
  (** The order of state/src/state_utils.rs:278-308. *)
  Definition chapters : list N := [1; 2; 3; 4; 5; 6; 7; 8; 9; 10; 11; 12; 13; 14; 15; 16]%N.
  (** state/src/state_utils.rs:278-308: stops at the first refusal. *)
  Fixpoint add_all (s : sm) (l : list (path * V)) : sm * result merr unit :=
    match l with
    | [] => (s, Ok tt)
    | (k, v) :: l' => match add dec s k v with
                      | (s1, Ok _) => add_all s1 l'
                      | (s1, r) => (s1, r)
                      end
    end.
  (** The components in the order they are added. state/src/state_utils.rs:278-308. *)
  Definition genesis_entries (g : genesis) : list (path * V) := map (fun i => (chapter i, g_vals g i)) chapters.

  (** A running node: its disk, state manager, best header (in memory only: block/src/header_db.rs:66), own validator index and peers. node/src/jam_node/mod.rs. *)
  Record booted := mk_node { n_disk : disk; n_sm : sm (V := V); n_best : Hd; n_index : option nat; n_peers : list Net_Model.peer }.
  (** Why coming up fails: the errors of node/src/jam_node/init.rs:19-98. *)
  Inductive berr := BState (e : merr) | BNoSet.
  (** The disk with another state store; part of node/src/jam_node/init.rs:39-40. *)
  Definition with_store (d : disk) (s : store) : disk := mk_disk (k_headers d) (k_xts d) (k_roots d) s.
  (** init.rs:24-27: the genesis header. *)
  Definition after_header (g : genesis) (d : disk) : disk := mk_disk ((header_hash (g_header g), g_header g) :: k_headers d) (k_xts d) (k_roots d) (k_store d).
  (** init.rs:29-33: the genesis extrinsics, under the zero hash. *)
  Definition after_xts (g : genesis) (d : disk) : disk := let d := after_header g d in mk_disk (k_headers d) ((zero_hash, g_xts g) :: k_xts d) (k_roots d) (k_store d).
  (** The state manager of a node that has just opened the disk: an empty cache over the stored trie, whose root starts as the default (merkle_db.rs:24-36). *)
  Definition open_state (d : disk) : sm (V := V) := mk_sm [] [] (restart (k_store d)).
  (** init.rs:39-46: the root of the committed genesis state, under the genesis hash. *)
  Definition after_root (g : genesis) (d : disk) : disk :=
    mk_disk (k_headers d) (k_xts d) ((header_hash (g_header g), store_root (k_store d)) :: k_roots d) (k_store d).

  (** A validator set read from the state; part of node/src/jam_node/init.rs:84-91 and storage/src/node_storage.rs:112-121. *)
  Definition read_set (r : sm (V := V) * result merr (option V)) : sm (V := V) * result berr (list vkv) :=
    match r with
    | (s, Ok (Some v)) => (s, Ok (set_of v))
    | (s, Ok None) => (s, Err BNoSet)
    | (s, Err x) => (s, Err (BState x))
    | (s, Panic) => (s, Panic)
    end.
  (** init.rs:84-97 and storage/src/node_storage.rs:112-121: the index in the active set, then the peers of the past, active and staging sets. *)
  Definition finish_boot (d : disk) (s : sm (V := V)) (best : Hd) (me : N) (local : bytes) : disk * result berr booted :=
    match read_set (get_clean dec s (chapter 8)) with
    | (s1, Ok act) =>
        match read_set (get dec s1 (chapter 9)) with
        | (s2, Ok past) =>
            match read_set (get dec s2 (chapter 8)) with
            | (s3, Ok act') =>
                match read_set (get dec s3 (chapter 7)) with
                | (s4, Ok stag) => (d, Ok (mk_node d s4 best (get_validator_index act me) (Net_Model.load_peers local (map vk_peer past) (map vk_peer act') (map vk_peer stag))))
                | (_, Err x) => (d, Err x) | (_, Panic) => (d, Panic)
                end
            | (_, Err x) => (d, Err x) | (_, Panic) => (d, Panic)
            end
        | (_, Err x) => (d, Err x) | (_, Panic) => (d, Panic)
        end
    | (_, Err x) => (d, Err x) | (_, Panic) => (d, Panic)
    end.
  (** init.rs:19-98: the disk afterwards and the node, or why there is none. *)
  Definition init_node (g : genesis) (ord : list path -> list path) (me : N) (local : bytes) (d : disk) : disk * result berr booted :=
    let d2 := after_xts g d in
    match add_all (open_state d) (genesis_entries g) with
    | (_, Err x) => (d2, Err (BState x))
    | (_, Panic) => (d2, Panic)
    | (s1, Ok _) =>
        match commit_cache H enc s1 ord with
        | (s2, Err x) => (with_store d2 (m_store s2), Err (BState x))
        | (s2, Panic) => (with_store d2 (m_store s2), Panic)
        | (s2, Ok _) => finish_boot (after_root g (with_store d2 (m_store s2))) s2 (g_header g) me local
        end
    end.

  (** The disks a crash while coming up can leave, in the order they arise: before the header, before the extrinsics, before the state, between the two batches of the trie,
      before the state's values, before the root, at the end. Only the first three when the components cannot be added. Crash points of init.rs:19-46 with
      state/src/manager.rs:841-869 and merkle_db.rs:158-171. *)
  Definition crash_points (g : genesis) (ord : list path -> list path) (d : disk) : list disk :=
    [d; after_header g d; after_xts g d] ++
    match add_all (open_state d) (genesis_entries g) with
    | (s1, Ok _) =>
        let es := map (to_entry enc) (collect_dirty s1 ord) in
        let d2 := after_xts g d in
        [with_store d2 (crash_between H (m_store s1) es); with_store d2 (crash_before_state H (m_store s1) es)] ++
        match commit_cache H enc s1 ord with
        | (s2, Ok _) => [with_store d2 (m_store s2); after_root g (with_store d2 (m_store s2))]
        | _ => []
        end
    | _ => []
    end.
  (** A block as storage/src/node_storage.rs:123-136 serves it: the header, then the extrinsics under the hash the header carries. *)
  Definition get_block (d : disk) (h : bytes) : option (Hd * X) :=
    match Net_Model.col_get (k_headers d) h with
    | Some hd => option_map (fun x => (hd, x)) (Net_Model.col_get (k_xts d) (xt_hash hd))
    | None => None
    end.
End Boot.
