claim("C33","partial","trie_root_exact_partial trie_root_order_partial trie_reads_exact_partial trie_empty_refuted trie_batch_order_refuted trie_add_twice_refuted","Every valid history of batches that never removes all keys commits, its root is the specification's root of the map, and reads are reads of the map. False otherwise: removing the last key fails, a batch replacing the only key fails in one of its orders, and adding a present key crashes.")
claim("C34","proved","node_size node_roundtrip node_distinct leaf_encoding branch_encoding branch_keeps_hashes stored_nodes_decode","All nodes, and all nodes any valid history stores.")
p("C66","The state root determines the state",
 "If two states have the same state root then they are the same state, or two different strings hashed while computing the roots have hashes that agree in 255 bits, or one has a hash whose last 255 bits are zero.",
 "every hash function with 32-byte results and every pair of states","All pairs of key-value maps.",
 ["state/state-merkle-v2/src/types.rs","state/src/merkle_interface/manager.rs"])
claim("C66","proved","trie_root_binds","For every pair of finite states; the colliding strings are ones that were hashed. The first bit of a left child's hash is not part of the branch, hence 255 bits.")
p("C67","A state commit that fails or is interrupted leaves the committed state readable",
 "A commit either happens or leaves state, root and later commits as if it had not been attempted, also when the node stops at any point and restarts.",
 "every batch, failure and crash point","Crash points and histories.",
 ["state/src/merkle_interface/manager.rs: prepare_dirty_cache_commit, apply_dirty_cache_commit","state/state-merkle-v2/src/merkle_db.rs: commit_write_batch","state/src/manager.rs: commit_dirty_cache"])
claim("C67","partial","prepare_writes_nothing restart_exact_partial restart_root_refuted failed_commit_leaks_refuted crash_loses_key_refuted crash_wrong_value_refuted crash_dangling_refuted stale_artifact_refuted","Proved: preparing writes nothing and clean restarts keep the map. False: the root is zero after a restart until the next write, a failed batch leaks into the next, a crash between the node and leaf-path batches loses or confuses keys, a crash before the state database is written leaves dangling leaves, and a prepared commit applied after another corrupts it.")
claim("C35","partial","state_keys_exact state_keys_distinct_partial item_keys_agree state_keys_distinct_refuted","Keys have the specified bytes for every entry, and entries with equal keys are equal or two strings hashed for them agree in 27 bytes of hash, as long as no request has length 2^32-1 or 2^32-2. False for those: a request of length 2^32-2 has the key of the preimage with its hash, and one of length 2^32-1 that of the storage item named by its hash.")
claim("C36","partial","cached_db_partial cached_db_returns cached_db_formats cached_db_formats_strict node_db_partial cached_db_refuted","For every schedule of calls, evictions, failing writes, crashes and restarts, provided disk reads work and calls about one key overlap only if they are reads; batches are all or nothing. False otherwise: a read overlapping a write can leave the old value in the cache, and a failing disk read is answered as an absent key.")
claim("C32","partial","state_cache_partial clean_read_refuted remove_add_refuted add_remove_refuted add_remove_commit_refuted raw_read_refuted overlap_refuted dirty_evict_refuted","Every answer of every tidy history of typed and raw accesses, commits (in any order of the dirty keys), rollbacks, prepared and applied blocks, evictions of unchanged entries and two-step reads, over the modelled trie and state database. False outside it: a clean read sees an uncommitted addition, remove-then-add and add-then-remove of one key break the commit (and a rollback of the latter leaves a phantom value), a typed read of a pending raw entry and a read overlapping a change lose the change.")
claim("C40","partial","sandbox_overlay_partial sandbox_eject_changed_refuted sandbox_recreate_refuted sandbox_remove_answer_refuted","Every answer of every allowed sequence of sandbox operations, and the result of applying the sandbox in any iteration order. False outside it: ejecting an account whose metadata was changed before brings it back with its balance, and an id that is ejected and made again shows the old account's entries and cannot be applied; removing a sandbox-only entry answers that there was none.")
claim("C38","partial","id_search new_id_partial next_id_free_partial","The search ends at the first unused id of the range for every set of accounts that leaves one; NEW uses the context's next id, or a small one asked for by the registrar, and neither was in use; the next id stays in the range and unused over every history of permitted calls.")
claim("C39","partial","host_calls_conserve_partial host_calls_solvent_partial host_call_refused_partial eject_changed_refuted","For every history of permitted host calls, in the context and in the checkpoint: balances and deferred transfers keep their total, counts are those of the entries, the host keeps its threshold, and a refused call changes nothing. False outside: ejecting an account that was changed in an earlier round pays its balance out and leaves the account.")
p("C68","Host calls do what the Graypaper's tables say",
 "For every history of accumulation host calls, every answer (exit, gas charge, registers, memory), the accounts, transfers, privileges, output, provided preimages, next id and checkpoint are those of the tables.",
 "every history of calls, machine state, accounts and privileges","Histories over unbounded accounts and 2^64 arguments.",
 ["pvm/pvm-host/src/host_functions/accumulate/mod.rs","pvm/pvm-host/src/host_functions/general/mod.rs","pvm/pvm-host/src/context/mod.rs","pvm/pvm-host/src/context/partial_state.rs"])
claim("C68","partial","host_calls_exact_partial free_account_refuted","Over the sandbox of C40, for every history of permitted calls (no count near its limit, no account of the state ejected after a change or made again after an ejection, an id left). The tables are in Host_Spec. BLESS has no guard: any service can make itself manager and registrar for the rest of its accumulation and make an account with a small id and free storage.")
p("C69","A service's host calls leave other accounts alone",
 "A host call changes only the calling service's account, except that NEW makes an account that was not there, with the caller as parent, and EJECT removes one whose code hash names the caller.",
 "every call in every reachable context","All accounts and arguments.",
 ["pvm/pvm-host/src/host_functions/accumulate/mod.rs"])
claim("C69","partial","host_call_isolated_partial","For every permitted call.")
p("C70","CHECKPOINT keeps the context",
 "After a CHECKPOINT, whatever calls follow, the fallback context is the context at that call, until the next CHECKPOINT; without one it is the starting context.",
 "every history of calls","Histories.",
 ["pvm/pvm-host/src/context/mod.rs","pvm/pvm-host/src/host_functions/accumulate/mod.rs: host_checkpoint"])
claim("C70","proved","checkpoint_kept no_checkpoint_kept","For every host of account operations.")
p("C71","An accumulation's result comes from the right context",
 "After a regular end the result is the context after all host calls the program made, after a panic or out of gas the context of the last checkpoint; a service without usable code only receives its transfers.",
 "every program, gas limit and account state","All programs.",
 ["pvm/pvm-invocation/src/accumulate/mod.rs: AccumulateInvocation"])
claim("C71","proved","accumulation_outcome","For every program blob, over the interpreter model of C27-C31; the calls are the ones the program made.")
p("C72","An accumulation conserves balance",
 "The accounts and deferred transfers of the result hold what the accounts held before and what was received.",
 "every program whose calls are permitted","All programs.",
 ["pvm/pvm-invocation/src/accumulate/mod.rs"])
claim("C72","partial","accumulation_conserves_partial","For the calls of any program run by C71, if each is permitted.")
p("C73","The code that runs is the code of the service",
 "The code run for a service is what its code preimage holds after the length-prefixed metadata.",
 "every metadata and code","All octet strings.",
 ["state/src/types/services.rs: AccountCode"])
claim("C73","partial","service_code_partial service_code_refuted","For metadata of octets below 128. Otherwise octets of the code are eaten or decoding fails, and with it the block.")
