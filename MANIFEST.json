{
 "claims": [
  {
   "property": "C01",
   "status": "proved",
   "theorems": [
    "compact_int_is_graypaper_code",
    "compact_int_graypaper_code_unique",
    "compact_int_roundtrip"
   ],
   "note": ""
  },
  {
   "property": "C02",
   "status": "proved",
   "theorems": [
    "compact_int_length",
    "compact_int_size_hint",
    "compact_int_prefix_free",
    "compact_int_minimal"
   ],
   "note": ""
  },
  {
   "property": "C03",
   "status": "partial",
   "theorems": [
    "compact_int_canonical_refuted",
    "compact_int_canonical_partial"
   ],
   "note": "The full claim is false of the code: non-shortest forms such as [0x80,0x05] are accepted (compact_int_canonical_refuted). Proved instead: an accepted form that is as short as the encoder's is the encoder's."
  },
  {
   "property": "C04",
   "status": "proved",
   "theorems": [
    "fixed_int_encode_iff",
    "fixed_int_roundtrip",
    "fixed_int_decode_canonical"
   ],
   "note": ""
  },
  {
   "property": "C05",
   "status": "proved",
   "theorems": [
    "composite_roundtrip",
    "composite_prefix_free",
    "composite_decode_local",
    "block_roundtrip"
   ],
   "note": "The type grammar covers every codec impl; the block type is given as an instance."
  },
  {
   "property": "C06",
   "status": "partial",
   "theorems": [
    "composite_canonical_refuted",
    "composite_canonical_partial",
    "decode_total_refuted"
   ],
   "note": "False of the code for bit strings, maps, sets and anything with a compact length; proved for the fragment without variable-length parts."
  },
  {
   "property": "C07",
   "status": "proved",
   "theorems": [
    "limited_vec_bounded",
    "limited_vec_try_push",
    "limited_vec_try_extend",
    "limited_vec_try_from",
    "limited_vec_window",
    "limited_vec_evicts_oldest",
    "fixed_vec_try_from",
    "fixed_vec_size_refuted"
   ],
   "note": "Finding: FixedVec::new and FromIterator do not enforce the size (fixed_vec_size_refuted); shift_push panics for MAX = 0."
  },
  {
   "property": "C08",
   "status": "proved",
   "theorems": [
    "wb_root_is_tree",
    "wb_root_small",
    "merkle_trace_verifies",
    "merkle_trace_log_length",
    "merkle_proof_sound",
    "wb_root_commits",
    "wb_root_variable_size_refuted",
    "wb_root_length_refuted"
   ],
   "note": "The commitment holds for items of one fixed size (the documented precondition of node); it fails for items of different sizes, and across different counts, for every hash (two refutations)."
  },
  {
   "property": "C09",
   "status": "proved",
   "theorems": [
    "cd_leaves",
    "cd_root_is_tree",
    "page_proof_verifies",
    "page_out_of_range_refuted"
   ],
   "note": "For pages that start inside the data; a page beyond the data panics (finding)."
  },
  {
   "property": "C10",
   "status": "proved",
   "theorems": [
    "mmr_peaks_are_digits",
    "mmr_recursive_same",
    "super_peak_is",
    "super_peak_commits"
   ],
   "note": ""
  },
  {
   "property": "C11",
   "status": "proved",
   "theorems": [
    "zero_pad_correct"
   ],
   "note": ""
  },
  {
   "property": "C12",
   "status": "proved",
   "theorems": [
    "shuffle_is_fisher_yates",
    "shuffle_is_permutation",
    "shuffle_with_hash_is_permutation",
    "shuffle_value_independent",
    "shuffle_reaches_every_permutation",
    "shuffle_residues_unique",
    "randoms_drawn"
   ],
   "note": ""
  },
  {
   "property": "C13",
   "status": "proved",
   "theorems": [
    "rotation_balanced",
    "rotation_is_shift_of_epoch_start",
    "previous_rotation",
    "rotation_by_entropy"
   ],
   "note": ""
  },
  {
   "property": "C14",
   "status": "proved",
   "theorems": [
    "accumulator_keeps_best",
    "accumulator_extends",
    "accumulator_ids_order_independent",
    "accumulator_order_independent",
    "accumulator_order_refuted",
    "accumulator_model"
   ],
   "note": "Order-independence of the tickets themselves needs distinct ids: Ticket's Ord ignores the attempt (accumulator_order_refuted). Ids are VRF outputs and validation refuses duplicates."
  },
  {
   "property": "C15",
   "status": "proved",
   "theorems": [
    "outside_in_positions",
    "outside_in_permutation",
    "outside_in_empty_refuted"
   ],
   "note": ""
  },
  {
   "property": "C16",
   "status": "proved",
   "theorems": [
    "predictions_match"
   ],
   "note": ""
  },
  {
   "property": "C17",
   "status": "proved",
   "theorems": [
    "entropy_accumulates",
    "constant_within_epoch",
    "rotates_at_epoch_change"
   ],
   "note": ""
  },
  {
   "property": "C18",
   "status": "partial",
   "theorems": [
    "timeslot_accepted_iff",
    "slots_strictly_increase",
    "future_slot_refuted",
    "future_slot_partial"
   ],
   "note": "False of the code as stated: the future check counts slot 1 as starting at the era, so a block is accepted up to one slot before its slot begins."
  },
  {
   "property": "C19",
   "status": "proved",
   "theorems": [
    "auth_pool_update",
    "auth_pool_history"
   ],
   "note": ""
  },
  {
   "property": "C20",
   "status": "proved",
   "theorems": [
    "accumulatable_terminates",
    "accumulatable_in_order",
    "accumulatable_complete",
    "accumulatable_once",
    "dependencies_accumulated_first",
    "accumulated_once_per_window"
   ],
   "note": "'Once' needs distinct input packages, which guarantee validation checks; stated as a hypothesis."
  },
  {
   "property": "C21",
   "status": "proved",
   "theorems": [
    "queue_ring_step",
    "queue_ring_total",
    "queue_ring_history"
   ],
   "note": ""
  },
  {
   "property": "C22",
   "status": "proved",
   "theorems": [
    "history_is_window",
    "history_set",
    "history_union_is_union",
    "history_count_checked"
   ],
   "note": ""
  },
  {
   "property": "C23",
   "status": "proved",
   "theorems": [
    "max_processable_longest_prefix"
   ],
   "note": ""
  },
  {
   "property": "C24",
   "status": "proved",
   "theorems": [
    "accumulation_gas_bounded",
    "accumulation_shares_partition",
    "accumulation_terminates"
   ],
   "note": "Service behaviour is an arbitrary oracle; termination assumes each service keeps to its gas limit and pays for its transfers."
  },
  {
   "property": "C25",
   "status": "proved",
   "theorems": [
    "pending_core_update",
    "package_in_pipeline_once",
    "pipeline_accumulates_fresh"
   ],
   "note": "Reports are removed by hash, so the per-block theorem assumes pending reports have distinct hashes; package_in_pipeline_once shows this holds along every chain unless two different pending reports have the same hash."
  },
  {
   "property": "C26",
   "status": "proved",
   "theorems": [
    "memory_read_exact",
    "memory_read_byte_exact",
    "memory_write_exact",
    "memory_history",
    "memory_range_checks"
   ],
   "note": "The memory of memory.rs for every size, contents and permission map: exact results of reads and writes, page-fault addresses, the forbidden first 64 KiB and arbitrary histories of writes."
  },
  {
   "property": "C27",
   "status": "partial",
   "theorems": [
    "arithmetic_definite",
    "arithmetic_one_exact",
    "arithmetic_immediate_exact",
    "arithmetic_two_exact_partial",
    "remainder_refuted",
    "remainder64_refuted",
    "step_exact_partial",
    "step_any_partial"
   ],
   "note": "Every arithmetic, bit, shift, rotate, compare and division opcode for all 64-bit operands, and the step that executes it for every loaded program. False for the signed remainder of the most negative dividend: the node's result has the wrong sign."
  },
  {
   "property": "C28",
   "status": "partial",
   "theorems": [
    "instructions_bounded",
    "run_ends",
    "out_of_gas_exact",
    "host_instructions_bounded",
    "host_run_ends",
    "host_run_shape",
    "host_out_of_gas_exact",
    "invocation_gas_bound",
    "invocation_terminates",
    "invocation_out_of_gas",
    "large_limit_refuted"
   ],
   "note": "For every program, machine and host functions. A limit of 2^63 or more is taken as negative, so such an invocation ends at once as out of gas with everything used (large_limit_refuted); the bound on gas used holds there too."
  },
  {
   "property": "C29",
   "status": "partial",
   "theorems": [
    "skip_distance_exact",
    "block_starts_partial",
    "block_starts_exact_partial",
    "block_starts_refuted",
    "step_exact_partial",
    "step_any_partial",
    "no_instruction_panics"
   ],
   "note": "Skip distances are exact. A terminator at position 0 does not make the next position a block start in the node, so block starts and jumps are exact for all other programs."
  },
  {
   "property": "C30",
   "status": "partial",
   "theorems": [
    "program_decodes",
    "program_reencode_partial",
    "program_reencode_refuted",
    "program_loads_iff",
    "program_parts_crash_partial",
    "program_crash_refuted",
    "program_parts_crash_refuted",
    "long_instruction_refuted"
   ],
   "note": "Decoding recovers every encoded program. False in general: several byte strings decode to one program, and short instructions or announced jump tables of 2^61 entries crash the node."
  },
  {
   "property": "C31",
   "status": "proved",
   "theorems": [
    "standard_exact",
    "standard_total",
    "admitted_exact",
    "regions_apart",
    "initial_machine"
   ],
   "note": "For every standard program and argument string: regions, guard gaps, rights, contents, heap and stack marks and registers."
  },
  {
   "property": "C32",
   "status": "partial",
   "theorems": [
    "state_cache_partial",
    "clean_read_refuted",
    "remove_add_refuted",
    "add_remove_refuted",
    "add_remove_commit_refuted",
    "raw_read_refuted",
    "overlap_refuted",
    "dirty_evict_refuted"
   ],
   "note": "Every answer of every tidy history of typed and raw accesses, commits (in any order of the dirty keys), rollbacks, prepared and applied blocks, evictions of unchanged entries and two-step reads, over the modelled trie and state database. False outside it: a clean read sees an uncommitted addition, remove-then-add and add-then-remove of one key break the commit (and a rollback of the latter leaves a phantom value), a typed read of a pending raw entry and a read overlapping a change lose the change."
  },
  {
   "property": "C33",
   "status": "partial",
   "theorems": [
    "trie_root_exact_partial",
    "trie_root_order_partial",
    "trie_reads_exact_partial",
    "trie_empty_refuted",
    "trie_batch_order_refuted",
    "trie_add_twice_refuted"
   ],
   "note": "Every valid history of batches that never removes all keys commits, its root is the specification's root of the map, and reads are reads of the map. False otherwise: removing the last key fails, a batch replacing the only key fails in one of its orders, and adding a present key crashes."
  },
  {
   "property": "C34",
   "status": "proved",
   "theorems": [
    "node_size",
    "node_roundtrip",
    "node_distinct",
    "leaf_encoding",
    "branch_encoding",
    "branch_keeps_hashes",
    "stored_nodes_decode"
   ],
   "note": "All nodes, and all nodes any valid history stores."
  },
  {
   "property": "C35",
   "status": "partial",
   "theorems": [
    "state_keys_exact",
    "state_keys_distinct_partial",
    "item_keys_agree",
    "state_keys_distinct_refuted"
   ],
   "note": "Keys have the specified bytes for every entry, and entries with equal keys are equal or two strings hashed for them agree in 27 bytes of hash, as long as no request has length 2^32-1 or 2^32-2. False for those: a request of length 2^32-2 has the key of the preimage with its hash, and one of length 2^32-1 that of the storage item named by its hash."
  },
  {
   "property": "C36",
   "status": "partial",
   "theorems": [
    "cached_db_partial",
    "cached_db_returns",
    "cached_db_formats",
    "cached_db_formats_strict",
    "node_db_partial",
    "cached_db_refuted"
   ],
   "note": "For every schedule of calls, evictions, failing writes, crashes and restarts, provided disk reads work and calls about one key overlap only if they are reads; batches are all or nothing. False otherwise: a read overlapping a write can leave the old value in the cache, and a failing disk read is answered as an absent key."
  },
  {
   "property": "C37",
   "status": "proved",
   "theorems": [
    "historical_lookup_iff",
    "availability_flips",
    "records_reachable"
   ],
   "note": ""
  },
  {
   "property": "C38",
   "status": "partial",
   "theorems": [
    "id_search",
    "new_id_partial",
    "next_id_free_partial"
   ],
   "note": "The search ends at the first unused id of the range for every set of accounts that leaves one; NEW uses the context's next id, or a small one asked for by the registrar, and neither was in use; the next id stays in the range and unused over every history of permitted calls."
  },
  {
   "property": "C39",
   "status": "partial",
   "theorems": [
    "host_calls_conserve_partial",
    "host_calls_solvent_partial",
    "host_call_refused_partial",
    "eject_changed_refuted"
   ],
   "note": "For every history of permitted host calls, in the context and in the checkpoint: balances and deferred transfers keep their total, counts are those of the entries, the host keeps its threshold, and a refused call changes nothing. False outside: ejecting an account that was changed in an earlier round pays its balance out and leaves the account."
  },
  {
   "property": "C40",
   "status": "partial",
   "theorems": [
    "sandbox_overlay_partial",
    "sandbox_eject_changed_refuted",
    "sandbox_recreate_refuted",
    "sandbox_remove_answer_refuted"
   ],
   "note": "Every answer of every allowed sequence of sandbox operations, and the result of applying the sandbox in any iteration order. False outside it: ejecting an account whose metadata was changed before brings it back with its balance, and an id that is ejected and made again shows the old account's entries and cannot be applied; removing a sandbox-only entry answers that there was none."
  },
  {
   "property": "C41",
   "status": "partial",
   "theorems": [
    "privileges_merge_partial",
    "assigner_merge_refuted"
   ],
   "note": "For every set of services and every history of host calls of each, in every order; the assigner of a core is wrong in one case: the manager BLESSes, leaves that core's assigner, and the assigner assigned the core to another in the same round. Then its choice is dropped."
  },
  {
   "property": "C42",
   "status": "partial",
   "theorems": [
    "disputes_accepted_iff",
    "disputes_epoch_refuted",
    "disputes_epoch_partial",
    "assurances_accepted_iff",
    "assurances_never_fail_later",
    "guarantees_accepted_iff",
    "accepted_tickets_all_kept",
    "preimages_accepted_iff",
    "preimages_integrated"
   ],
   "note": "Exact for assurances, guarantees and preimages. Disputes: verdicts of any future epoch are accepted (refuted); exact when the epoch is the current or previous one. Tickets: accepted tickets are all kept, with their order and attempt checks in the premise."
  },
  {
   "property": "C43",
   "status": "proved",
   "theorems": [
    "erasure_roundtrip",
    "padding_unique",
    "recover_insufficient"
   ],
   "note": "For every Reed-Solomon crate whose codewords are systematic and recoverable from any msg_chunks of their words (reed_solomon_code in Erasure_Spec.v); the crate itself is not modelled. The word transposition, merging and padding around it are."
  },
  {
   "property": "C44",
   "status": "partial",
   "theorems": [
    "block_history_window_partial",
    "parentless_block_refuted"
   ],
   "note": "Proved for any mix of accepted and rejected submissions none of which claims the zero parent hash, over arbitrary state transitions, state roots and hash functions: window, header hashes, Beefy roots, sorted reported packages and state roots. A submitted block with a zero parent hash is applied without any check and overwrites the recorded state root of the best block (parentless_block_refuted)."
  },
  {
   "property": "C45",
   "status": "proved",
   "theorems": [
    "judged_sets_history"
   ],
   "note": ""
  },
  {
   "property": "C46",
   "status": "proved",
   "theorems": [
    "extrinsic_hash_commitment",
    "header_hash_commitment"
   ],
   "note": ""
  },
  {
   "property": "C47",
   "status": "partial",
   "theorems": [
    "size_hint_exact_partial",
    "size_hint_exact_refuted"
   ],
   "note": "False for sets, maps, bit strings and FixedVec (refuted); exact for everything else."
  },
  {
   "property": "C48",
   "status": "partial",
   "theorems": [
    "mmr_eq_refuted",
    "super_peak_commits"
   ],
   "note": "False of the code: equality ignores the slots. The super-peak does commit to the sequence of occupied peaks."
  },
  {
   "property": "C49",
   "status": "partial",
   "theorems": [
    "tasks_any_schedule_partial",
    "tasks_finish",
    "block_any_schedule_partial",
    "block_schedules_agree_partial",
    "block_executes",
    "lost_update_refuted",
    "evicted_update_refuted"
   ],
   "note": "False in general: if the active or past validator set is not cached at an epoch change, a clean read that missed the cache can put the old set over the new one (lost_update_refuted); and a component evicted between its loading and its change makes the transition fail (evicted_update_refuted). Proved for every schedule when the two sets are cached at the start of the first stage on an epoch change and the cache does not drop what the running tasks change. What tasks compute from what they read is a parameter, except for the entropy."
  },
  {
   "property": "C50",
   "status": "proved",
   "theorems": [
    "winning_marker_is_next_sealers",
    "winning_marker_once_per_epoch"
   ],
   "note": ""
  },
  {
   "property": "C51",
   "status": "proved",
   "theorems": [
    "punished_not_in_pending",
    "epoch_marker_announces"
   ],
   "note": ""
  },
  {
   "property": "C52",
   "status": "proved",
   "theorems": [
    "accepted_tickets_all_kept",
    "accepted_tickets_proper",
    "useless_tickets_dropped"
   ],
   "note": ""
  },
  {
   "property": "C53",
   "status": "partial",
   "theorems": [
    "ring_root_of_required_set",
    "ticket_ring_after_reject_refuted",
    "ticket_ring_same_slot_refuted",
    "ticket_ring_of_pending_set_partial"
   ],
   "note": "The ring-root half is proved in full. The ticket half is false of the code: the cache is not restored when a block is rejected, and the hit rule for the current entry can pick a stale set when an epoch-opening block also designates; proved outside those two cases."
  },
  {
   "property": "C54",
   "status": "partial",
   "theorems": [
    "accumulation_gas_failure_refuted",
    "accumulation_no_gas_failure_partial"
   ],
   "note": "False of the code: always-accumulate gas is not reserved when the first round's reports are chosen. Proved when it fits beside them."
  },
  {
   "property": "C55",
   "status": "proved",
   "theorems": [
    "signing_contexts_separated"
   ],
   "note": ""
  },
  {
   "property": "C56",
   "status": "partial",
   "theorems": [
    "punish_set_refuted",
    "punish_set_partial"
   ],
   "note": "False of the code: a key that is both culprit and fault in one extrinsic is recorded twice. Proved when no key is both."
  },
  {
   "property": "C57",
   "status": "partial",
   "theorems": [
    "lookup_stable_refuted",
    "lookup_stable_partial",
    "forget_effect",
    "forget_expiry_refuted"
   ],
   "note": "False in general: forgetting a second request for the same hash with another length deletes the live data. Proved when every forget uses the stored data's length and slots stay below 2^32 - D, where the code's addition wraps (forget_expiry_refuted)."
  },
  {
   "property": "C58",
   "status": "partial",
   "theorems": [
    "applied_blocks_link_partial",
    "applied_block_checked_partial",
    "rejected_block_changes_nothing",
    "parentless_block_refuted"
   ],
   "note": "Full claim for every submission with a nonzero parent hash. False for a zero parent hash: such a block is taken for the genesis block at any time and applied with no header check. The transition itself and the header checks are arbitrary functions."
  },
  {
   "property": "C59",
   "status": "proved",
   "theorems": [
    "ancestor_set_latest",
    "ancestor_remove_refuted"
   ],
   "note": "Additions, which is what the importer does. Finding: removal (unused by the importer) drops every slot's entry with the same hash from the heap but one from the set, so the two go out of step (ancestor_remove_refuted)."
  },
  {
   "property": "C60",
   "status": "proved",
   "theorems": [
    "instruction_exact"
   ],
   "note": "All formats, all programs that load."
  },
  {
   "property": "C61",
   "status": "partial",
   "theorems": [
    "sbrk_grows_partial",
    "sbrk_grows_refuted"
   ],
   "note": "Proved when old end plus size stays within 32 bits. False otherwise: the heap end wraps, a later sbrk then makes read-only pages writable, and a request of 2^32 bytes succeeds without granting memory."
  },
  {
   "property": "C62",
   "status": "partial",
   "theorems": [
    "run_exact_partial",
    "result_never_fails_partial",
    "halt_output_exact",
    "guest_error_refuted",
    "guest_load_error_refuted",
    "halt_error_refuted",
    "bad_code_error_refuted",
    "bad_code_crash_refuted"
   ],
   "note": "Proved: runs that avoid the listed instructions never fail, and results are exact. False: loads and stores across 2^32, halting with register 7 at 2^32 or more, and undecodable code return errors, and a truncated instruction crashes the node."
  },
  {
   "property": "C63",
   "status": "partial",
   "theorems": [
    "host_call_dispatch",
    "unknown_call_what",
    "host_result_applied",
    "ecalli_exact_partial",
    "ecalli_refuted"
   ],
   "note": "Exact for immediates below 256. False beyond: the node takes the immediate modulo 256, so ecalli 260 is call 4."
  },
  {
   "property": "C64",
   "status": "partial",
   "theorems": [
    "fault_exact_partial",
    "byte_fault_refuted",
    "store_fault_counter_refuted"
   ],
   "note": "Proved outside the listed deviations. False: one-byte loads report the address itself instead of its page, and a faulting store resets the program counter to 0."
  },
  {
   "property": "C65",
   "status": "proved",
   "theorems": [
    "program_cache_transparent"
   ],
   "note": "For every hash function and history."
  },
  {
   "property": "C66",
   "status": "proved",
   "theorems": [
    "trie_root_binds"
   ],
   "note": "For every pair of finite states; the colliding strings are ones that were hashed. The first bit of a left child's hash is not part of the branch, hence 255 bits."
  },
  {
   "property": "C67",
   "status": "partial",
   "theorems": [
    "prepare_writes_nothing",
    "restart_exact_partial",
    "restart_root_refuted",
    "failed_commit_leaks_refuted",
    "crash_loses_key_refuted",
    "crash_wrong_value_refuted",
    "crash_dangling_refuted",
    "stale_artifact_refuted"
   ],
   "note": "Proved: preparing writes nothing and clean restarts keep the map. False: the root is zero after a restart until the next write, a failed batch leaks into the next, a crash between the node and leaf-path batches loses or confuses keys, a crash before the state database is written leaves dangling leaves, and a prepared commit applied after another corrupts it."
  },
  {
   "property": "C68",
   "status": "partial",
   "theorems": [
    "host_calls_exact_partial",
    "free_account_refuted"
   ],
   "note": "Over the sandbox of C40, for every history of permitted calls (no count near its limit, no account of the state ejected after a change or made again after an ejection, an id left). The tables are in Host_Spec. BLESS has no guard: any service can make itself manager and registrar for the rest of its accumulation and make an account with a small id and free storage."
  },
  {
   "property": "C69",
   "status": "partial",
   "theorems": [
    "host_call_isolated_partial"
   ],
   "note": "For every permitted call."
  },
  {
   "property": "C70",
   "status": "proved",
   "theorems": [
    "checkpoint_kept",
    "no_checkpoint_kept"
   ],
   "note": "For every host of account operations."
  },
  {
   "property": "C71",
   "status": "proved",
   "theorems": [
    "accumulation_outcome"
   ],
   "note": "For every program blob, over the interpreter model of C27-C31; the calls are the ones the program made."
  },
  {
   "property": "C72",
   "status": "partial",
   "theorems": [
    "accumulation_conserves_partial"
   ],
   "note": "For the calls of any program run by C71, if each is permitted."
  },
  {
   "property": "C73",
   "status": "partial",
   "theorems": [
    "service_code_partial",
    "service_code_refuted"
   ],
   "note": "For metadata of octets below 128. Otherwise octets of the code are eaten or decoding fails, and with it the block."
  },
  {
   "property": "C74",
   "status": "partial",
   "theorems": [
    "round_partial",
    "provided_late_refuted"
   ],
   "note": "For rounds whose host calls are permitted (C68), in which no two services make the same account and no preimage is provided to a service that accumulates, or is made, later in the round: such a preimage is lost."
  },
  {
   "property": "C75",
   "status": "proved",
   "theorems": [
    "block_terminates"
   ],
   "note": "With the interpreter, host calls and accounts modelled: no assumption on the services. The fuel of an invocation is any number of at least 2^63."
  },
  {
   "property": "C76",
   "status": "proved",
   "theorems": [
    "block_gas"
   ],
   "note": "Of the modelled programs and host calls, not of an oracle as in C24."
  },
  {
   "property": "C77",
   "status": "partial",
   "theorems": [
    "block_accounts_partial",
    "block_inputs"
   ],
   "note": "For blocks whose services keep to [all_fair] (permitted host calls, no two services making the same account in a round, preimages provided in time)."
  },
  {
   "property": "C78",
   "status": "partial",
   "theorems": [
    "block_succeeds_partial",
    "block_no_gas_failure_partial",
    "block_clash_refuted",
    "block_transfer_refuted",
    "block_register_refuted"
   ],
   "note": "False of the code: a TRANSFER with 2^63 of gas, a regular end with 2^32 or more in register 7, code that does not decode (C73), and two services that make the same small account each fail the block. Proved when every accumulation ends without an error and no two services make the same account."
  },
  {
   "property": "C79",
   "status": "proved",
   "theorems": [
    "erasure_root_of_shares",
    "shares_suffice",
    "erasure_root_binds",
    "paged_proof_content",
    "paged_proofs_cover",
    "avail_lengths"
   ],
   "note": "Same assumption on the Reed-Solomon crate as C43. Settles the TODO at avail_spec.rs:49: a page always fits. The lengths in the specification are exact below 2^32 octets and 2^16 exports."
  },
  {
   "property": "C80",
   "status": "partial",
   "theorems": [
    "recover_no_panic_partial",
    "recover_uneven_refuted"
   ],
   "note": "False of the code: a chunk shorter than the first one present is indexed out of range and panics; a first chunk that is too short truncates the data silently. True for chunks of one length."
  },
  {
   "property": "C81",
   "status": "partial",
   "theorems": [
    "refine_calls_exact_partial",
    "refine_answer_unique",
    "refine_calls_total_partial",
    "refine_call_guest",
    "machine_numbers",
    "pages_refuted",
    "inner_memory_refuted",
    "pages_crash_refuted",
    "machine_crash_refuted",
    "machine_number_refuted",
    "summaries_refuted",
    "inner_read_refuted",
    "invoke_gas_refuted"
   ],
   "note": "Inner machines are made with a memory of no octets and no pages, so PAGES in modes 0 to 2 always answers HUH, no inner machine ever has memory (inner_memory_refuted), and one that reads memory makes the refinement fail. Numbers of expunged machines are not used again. FETCH 11 puts a length before every summary. A wrapping page count or a program blob that claims too much code panics; INVOKE with gas of 2^63 or more fails the refinement. Proved for all other calls."
  },
  {
   "property": "C82",
   "status": "proved",
   "theorems": [
    "export_numbers",
    "exports_kept",
    "refine_gives"
   ],
   "note": "The gas bound of refine_gives is for items whose gas is below 2^64, which their type ensures."
  },
  {
   "property": "C83",
   "status": "proved",
   "theorems": [
    "refine_no_code",
    "refine_arguments"
   ],
   "note": "The code is what is left after its metadata (split_code); a preimage whose metadata does not decode fails the refinement instead."
  },
  {
   "property": "C84",
   "status": "partial",
   "theorems": [
    "auth_calls_exact_partial",
    "auth_calls_total",
    "auth_no_code",
    "auth_arguments",
    "auth_summaries_refuted"
   ],
   "note": "FETCH 11 puts a length before every summary (auth_summaries_refuted); all other calls are proved."
  },
  {
   "property": "C85",
   "status": "partial",
   "theorems": [
    "report_digests",
    "report_fits",
    "report_results_partial",
    "report_segments_partial",
    "oversize_refuted",
    "segments_refuted"
   ],
   "note": "False of the code: an output that is too big, or whose item exports the wrong number of segments, still counts, so every item behind it can be called oversize (oversize_refuted); the segments of a failed item are dropped and not replaced by zeros, so those behind it are not at the index EXPORT answered (segments_refuted). True when no item but the last loses its output, and when the items that fail declare no exports. compute_work_report itself always ends in unimplemented!() (pipeline.rs:81), after the loop modelled."
  },
  {
   "property": "C86",
   "status": "partial",
   "theorems": [
    "statistics_release",
    "statistics_exact",
    "statistics_debug",
    "data_size_partial",
    "data_size_refuted"
   ],
   "note": "All but the data size of available reports: the code counts 4104*65*ceil(n/64) octets for n exported segments where the Graypaper has 4104*ceil(65n/64), equal only for multiples of 64 (data_size_partial, data_size_refuted). Blocks are assumed to have valid indices and lengths (good); the accumulate gas total fits 64 bits."
  },
  {
   "property": "C87",
   "status": "proved",
   "theorems": [
    "statistics_stored"
   ],
   "note": "Release build; service ids are 32-bit."
  },
  {
   "property": "C88",
   "status": "partial",
   "theorems": [
    "import_replies",
    "rivals_do_not_matter",
    "orphan_block_refuted"
   ],
   "note": "For every session whose blocks have a parent hash other than zero and other than their own hash, the replies are those of a reference that keeps a posterior state, ring cache and ancestor set for each block. A block with parent hash zero is taken as a genesis block at any time: it changes the committed state but not the best block (orphan_block_refuted). The transition function is a parameter (its parts are the subject of other claims); tasks that fill the ring cache in the background are not in this model (C53)."
  },
  {
   "property": "C89",
   "status": "partial",
   "theorems": [
    "told_entries",
    "told_states_partial",
    "told_states_refuted",
    "told_states_unknown_refuted"
   ],
   "note": "What is told are always entries of the right state in order (told_entries), and all of them as long as no block integrates a preimage from its preimages extrinsic (told_states_partial). Keys added by the preimages extrinsic are not reported to the target, so once such a block is the latest its preimage entry is missing from this and every later answer (told_states_refuted). Blocks that lost to a rival, or unknown ones, are answered with the latest state (told_states_unknown_refuted)."
  },
  {
   "property": "C90",
   "status": "partial",
   "theorems": [
    "refused_block_partial",
    "refused_block_refuted"
   ],
   "note": "Proved for blocks whose parent is not one of the unresolved rivals, in every state of the target. A refused child of a rival settles the fork before it is validated: the other rivals are forgotten and their valid children are refused (refused_block_refuted)."
  },
  {
   "property": "C91",
   "status": "proved",
   "theorems": [
    "sessions_independent",
    "session_protocol"
   ],
   "note": "Sessions that end by a disconnection, an unexpected message or a second Initialize. Panics reset the target as well and are not modelled."
  },
  {
   "property": "C92",
   "status": "proved",
   "theorems": [
    "messages_arrive",
    "message_octets",
    "message_frame",
    "message_whole",
    "features_read",
    "text_octets_partial",
    "text_octets_refuted",
    "frame_canonical_refuted",
    "read_total_refuted"
   ],
   "note": "Beside it: text (the application name, error messages) is a sequence of compact integers, so octets from 128 on take two octets on the wire and are not what a peer reading plain octets expects (text_octets_refuted, text_octets_partial); octets after the message within a frame are dropped (frame_canonical_refuted); a huge entry count makes the reader panic (read_total_refuted)."
  },
  {
   "property": "C93",
   "status": "partial",
   "theorems": [
    "preimages_judged_on_prior_partial",
    "solicited_in_block_accepted_refuted",
    "provided_in_block_rejected_refuted"
   ],
   "note": "Proved for blocks whose accumulation creates none of the entries the extrinsic is about. An entry created during accumulation has itself as its clean snapshot, so a blob requested by the same block's accumulation is accepted, and a blob that was requested before the block and is provided by its accumulation gets the block rejected."
  },
  {
   "property": "C94",
   "status": "partial",
   "theorems": [
    "authored_block_accepted_partial",
    "authors_in_turn_agree_partial",
    "authors_in_own_slots_partial",
    "stale_index_refuted",
    "late_header_refuted",
    "ticket_mode_refuted",
    "ticket_slot_panics_partial"
   ],
   "note": "Proved for nodes whose recorded validator index is right for the posterior set and a header made before the slot ends, in fallback mode. Refuted otherwise: the index is computed from the genesis set only, so after a change of set the right validator's blocks are rejected by all others and kept by itself; the slot is read from the clock again after the turn was checked; in ticket mode the check panics (unimplemented!)."
  },
  {
   "property": "C95",
   "status": "proved",
   "theorems": [
    "import_requires_seal",
    "entropy_from_vrf",
    "entropy_not_chosen"
   ],
   "note": ""
  },
  {
   "property": "C96",
   "status": "partial",
   "theorems": [
    "rejected_block_harmless_partial",
    "rejected_block_disturbs_author_refuted",
    "unannounced_block_wedges_refuted"
   ],
   "note": "Proved when nothing is pending in the cache. Refuted otherwise: the importer's rollback wipes the first phase of the node's own block, which it then announces and commits without it; and a failed announcement leaves the best header set without a state, after which every block is refused."
  },
  {
   "property": "C97",
   "status": "partial",
   "theorems": [
    "boundary_exact_partial",
    "every_slot_once_partial",
    "boundary_crossed_refuted",
    "late_tick_refuted",
    "clock_set_back_refuted",
    "slot_wraps_refuted"
   ],
   "note": "Proved when both readings of the clock at the start fall into one slot and every tick is noticed less than a slot late on an evenly running clock. A boundary between the two readings leaves the node without a scheduler for ever; a late tick skips a slot and handles another twice; a clock set back repeats a slot; slots wrap at 2^32."
  },
  {
   "property": "C98",
   "status": "partial",
   "theorems": [
    "pool_answers",
    "pool_progress_partial",
    "full_pool_stays_full",
    "pool_alone",
    "pool_deadlock_refuted",
    "pool_bound_refuted"
   ],
   "note": "The answers are proved for all interleavings. A submission and a query take the two locks in opposite orders and can block each other for ever; the bound counts different entries, so resubmitting one grows the pool without limit; nothing ever leaves the pool (removal is unimplemented)."
  },
  {
   "property": "C99",
   "status": "partial",
   "theorems": [
    "announcements_heard_partial",
    "piece_unheard",
    "announcement_merged_refuted",
    "announcement_split_refuted",
    "epoch_announcement_refuted"
   ],
   "note": "Proved when each announcement arrives as exactly one piece. Two announcements in one piece lose the second; an announcement in two pieces is lost; an announcement of more than 1024 octets (every epoch's first with the full validator set) is never understood."
  },
  {
   "property": "C100",
   "status": "partial",
   "theorems": [
    "block_fetched_partial",
    "reply_in_pieces",
    "large_block_refuted",
    "other_block_refuted"
   ],
   "note": "Proved for replies that arrive in one piece. Every reply in several pieces, so every reply above 1024 octets (two tickets suffice), panics the requesting task, as does an empty reply; the hash of the block is not compared with the announced one."
  },
  {
   "property": "C101",
   "status": "partial",
   "theorems": [
    "served_block_matches",
    "authored_block_served_partial",
    "imported_block_refuted",
    "announced_block_refuted",
    "other_request_refuted"
   ],
   "note": "What is served matches its hash (proved), and authored blocks are served once their state is committed. Imported blocks are not: their extrinsics are never stored. A block is announced before its extrinsics are stored. Requests for more than one block or in ascending order panic."
  },
  {
   "property": "C102",
   "status": "partial",
   "theorems": [
    "acceptor_answers",
    "initiator_answers_partial",
    "initiator_stops_refuted",
    "initiator_waits_refuted"
   ],
   "note": "Proved for connections the node accepted. On connections it dialled, one stream of a known but unimplemented kind ends the only task that serves the peer, and one silent stream stops it."
  },
  {
   "property": "C103",
   "status": "partial",
   "theorems": [
    "one_side_dials_first",
    "peers_are_validators",
    "peers_complete_partial",
    "shared_address_refuted",
    "all_dialled_partial",
    "dialled_at_most_once",
    "dead_peer_refuted"
   ],
   "note": "Agreement is proved for all keys. Validators that share an address are one peer; a single peer that does not answer in the first round cancels the second, so peers that should have dialled but did not stay unconnected."
  },
  {
   "property": "C104",
   "status": "partial",
   "theorems": [
    "bundle_roundtrip_partial",
    "bundle_read",
    "bundle_octets_partial",
    "bundle_bound_partial",
    "bundle_bound_refuted",
    "segment_octets_refuted",
    "bundle_shape_refuted"
   ],
   "note": "Round trip proved for bundles that bring what they declare. Segments are written as lists of integers, so each octet from 128 on takes two: the octets differ from the Graypaper's and a package within all limits has a bundle of over 25 MB (limit 13.8 MB). A bundle whose blobs have other lengths than declared is written without complaint and read as a different one."
  },
  {
   "property": "C105",
   "status": "partial",
   "theorems": [
    "package_counts",
    "package_size_partial",
    "package_gas_partial",
    "package_gas_refuted"
   ],
   "note": "Counts and size are exact. The gas sums wrap in a release build: two items of 2^63 gas each pass. The checks are not called anywhere in the code."
  },
  {
   "property": "C106",
   "status": "proved",
   "theorems": [
    "constants_written",
    "constants_fit",
    "constants_agree"
   ],
   "note": ""
  },
  {
   "property": "C107",
   "status": "partial",
   "theorems": [
    "report_sound",
    "report_refused",
    "report_crashes_refuted",
    "report_lookup_refuted"
   ],
   "note": "What a report says is proved for any implementation of the missing parts. As the code stands, four parts are unimplemented and every authorised package panics; and imports are counted rather than packages named, so nine imports from one package are refused."
  },
  {
   "property": "C108",
   "status": "proved",
   "theorems": [
    "boot_fresh"
   ],
   "note": ""
  },
  {
   "property": "C109",
   "status": "partial",
   "theorems": [
    "refused_start_keeps_partial",
    "second_start_refuted",
    "start_is_a_crash_point",
    "start_after_blocks_refuted",
    "start_between_refuted"
   ],
   "note": "Every start tries to add the genesis state, which is refused once it is stored: no node that came up, or crashed after the trie was written, ever comes up again on its database, nor does one that imported blocks. A crash between the two trie batches makes the next start panic. What holds is that a refused start leaves the state, the roots and the other blocks as they were."
  },
  {
   "property": "C110",
   "status": "proved",
   "theorems": [
    "calls_linearize",
    "calls_end"
   ],
   "note": ""
  },
  {
   "property": "C111",
   "status": "partial",
   "theorems": [
    "concurrent_read_partial",
    "concurrent_read_refuted"
   ],
   "note": "The value is right whenever there is one, and there is one if no commit was half done at the start or at the end of the read, or the value is short. While a commit stands between the trie and the state database, a long value it replaces can be read neither in the old nor in the new version: the read fails."
  },
  {
   "property": "C112",
   "status": "partial",
   "theorems": [
    "task_dead_partial",
    "panic_closes_state_refuted"
   ],
   "note": "A batch that makes the trie panic, such as adding a stored key, ends the task: every later read and commit of the process fails, while the node runs on. What holds is that the state then stays as it is and replies already on their way still arrive."
  },
  {
   "property": "C113",
   "status": "partial",
   "theorems": [
    "lookup_anchor_partial",
    "node_lookup_anchor_refuted",
    "own_block_lookup_refuted"
   ],
   "note": "True of a node that checks ancestors and imported all of its chain. The node runs with the check off, so any hash passes; the genesis block and the node's own blocks are not put into the ancestor set, so with the check on reports that look up from them would be refused."
  },
  {
   "property": "C114",
   "status": "proved",
   "theorems": [
    "replay_succeeds_iff",
    "replay_fails_at_first",
    "replay_order_free"
   ],
   "note": "Without a genesis case the block of the first case is not run (Example first_case_unchecked)."
  },
  {
   "property": "C115",
   "status": "partial",
   "theorems": [
    "hex_written_is_read",
    "hex_texts_written",
    "json_hex_texts",
    "from_hex_partial",
    "from_hex_refuted"
   ],
   "note": "JSON is exact. from_hex pads a short text with zeros on the left: a digit lost at the front of a key gives another key, and the empty text is the zero hash."
  },
  {
   "property": "C116",
   "status": "proved",
   "theorems": [
    "dns_names"
   ],
   "note": "The alphabet and the grouping are written apart in Text_Spec. Other texts (upper case, or spare bits set in the last character) are read as the same key: Example dns_case."
  },
  {
   "property": "C117",
   "status": "partial",
   "theorems": [
    "getters_partial",
    "getters_flood_refuted",
    "getters_raw_refuted"
   ],
   "note": "Holds with the error for more guarantees than cores or more assurances than validators spelled out. One guarantee too many makes the getter fail for the slot for ever; thirteen octets not made from a value make the getter of preimages panic."
  },
  {
   "property": "C118",
   "status": "proved",
   "theorems": [
    "components_stored",
    "components_distinct"
   ],
   "note": "The set of entries is StateEntryType without its test-only Raw. The Graypaper leaves to its type conventions how wide the service ids in the keys of the always-accumulate map and of the services' statistics are; the specification takes the code's (general code and four octets). The sets of the disputes are written in the order they are held in; that this is ascending is C45."
  },
  {
   "property": "C119",
   "status": "partial",
   "theorems": [
    "components_strict_partial",
    "components_tail_refuted",
    "components_strict_refuted"
   ],
   "note": "False as stated. Trailing octets are ignored for every component but storage and preimages (components_tail_refuted, for all values and tails); an unsorted sequence of tickets is read like the sorted one, and an absurd length prefix ends the process (components_strict_refuted). What holds is that for the components without variable length what is read stands at the front of the octets."
  },
  {
   "property": "C120",
   "status": "partial",
   "theorems": [
    "typed_state_partial",
    "typed_state_refuted"
   ],
   "note": "Composes C32, C33, C35 and C118. The histories left out (proper) are those of C32 in which the claim fails: a clean read of an entry added since the commit (typed_state_refuted), removing and adding again, and the others of C32. Keys are assumed not to clash (separate), for which C35 says when they do."
  },
  {
   "property": "C121",
   "status": "proved",
   "theorems": [
    "credentials_gathered",
    "credentials_accepted",
    "credentials_any_order",
    "credentials_first_refuted"
   ],
   "note": "credentials_first_refuted records what the API does not do: signatures are not verified when added, so a wrong one keeps the right one of the same validator out."
  },
  {
   "property": "C122",
   "status": "proved",
   "theorems": [
    "block_octets",
    "header_octets",
    "package_octets",
    "body_commitment",
    "header_hash_of_octets"
   ],
   "note": "The specification (Wire_Spec, with Comp_Spec for reports) writes each type as a list of parts and does not use the encoder. The attempt of a ticket is taken to be in the general code, as in the code; the Graypaper's single octet is the same for every attempt below 128."
  },
  {
   "property": "C123",
   "status": "partial",
   "theorems": [
    "stream_in_order",
    "announcement_told",
    "announced_to_all_partial",
    "broken_peer_silences",
    "full_peer_stalls",
    "announced_to_all_refuted"
   ],
   "note": "False as stated: a peer whose stream has broken ends every later announcement with an error, and the peers behind it in the map hear nothing until that peer connects again (broken_peer_silences, for all histories; announced_to_all_refuted); a peer that does not read holds all announcements once its channel is full (full_peer_stalls). The error reaches the author after it has stored the header and before it commits the state, which is C96. While all streams run and have room the claim holds (announced_to_all_partial)."
  },
  {
   "property": "C124",
   "status": "proved",
   "theorems": [
    "fallback_sealers",
    "fallback_when"
   ],
   "note": "Ticket-sealed epochs are C50. Both theorems speak of accepted blocks; drawing fails only if the validator set is shorter than the configured number."
  },
  {
   "property": "C125",
   "status": "partial",
   "theorems": [
    "blocks_kept",
    "accepted_is_chain",
    "blocks_get_through",
    "announced_chain_imported_partial",
    "one_at_a_time_imported_partial",
    "early_child_stalls",
    "missed_block_stalls",
    "announced_chain_imported_refuted"
   ],
   "note": "False as stated: every announcement starts a task of its own, and the importer takes the blocks in the order of the replies. A child that comes before its parent is refused and never asked for again, so every block after it is refused too (early_child_stalls); the same holds after one missed block, for ancestors are not asked for (missed_block_stalls). True when the blocks come in the order of the chain. The node's own blocks and blocks claiming to be a genesis block are left out."
  }
 ]
}