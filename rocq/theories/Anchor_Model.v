(** Which blocks a node lets a guaranteed report name as its lookup anchor: what the node puts into its ancestor set as it goes through its chain, and what the
    guarantees check of the next block then reads of it. block/src/header_db.rs, node/src/roles/importer.rs, node/src/roles/author.rs, node/src/jam_node/init.rs.
    The check itself is [Reports_Model.validate_work_report], the set [Import_Model.an_add]. A header is its slot and hash. *)
From Verif Require Import Base Import_Model Reports_Model.
Open Scope N_scope.

(** How a header gets to be the best one: the genesis block (node/src/jam_node/init.rs:19-25), an imported block (node/src/roles/importer.rs:151-175),
    a block of the node's own (node/src/roles/author.rs:344-354, node/src/scheduler/chain_extension.rs:53-61). *)
Inductive became := Genesis (e : N * N) | Imported (e : N * N) | Authored (e : N * N).
(** block/src/header_db.rs:128-140 (insert_header: the set and the database) for an imported block, header_db.rs:92-99 (commit_header: the database only) for the others. *)
Definition note_header (cap : nat) (a : aset) (b : became) : aset := match b with Imported e => an_add cap a e | Genesis _ | Authored _ => a end.
(** The ancestor set after a history, from the empty one of a new process (header_db.rs:70-80). MAX_LOOKUP_ANCHOR_AGE is the capacity (block/src/ancestors.rs:23-29). *)
Definition ancestors_after (L : N) (l : list became) : aset := fold_left (note_header (N.to_nat L)) l (mk_aset [] []).
(** What the guarantees of the next block are checked against, with the rest of the context from [k]: extrinsics/src/validation/guarantees.rs:73-84, 445-453. *)
Definition node_ctx (L : N) (with_ancestors : bool) (l : list became) (k : gctx) : gctx :=
  mk_gctx (k_service k) (k_pending k) (k_prior_pending k) (k_pools k) (k_history k) (k_queued k) (k_accumulated k)
    (if with_ancestors then Some (an_set (ancestors_after L l)) else None) (k_slot k) (k_current k) (k_previous k).
(** node/src/roles/importer.rs:129, node/src/roles/author.rs:92, 112: what the node passes when it imports and when it authors. *)
Definition node_with_ancestors : bool := false.
