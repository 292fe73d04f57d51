p("C14","The ticket accumulator holds the E best tickets ever submitted",
 "After any sequence of additions the accumulator contains exactly the min(n,E) smallest tickets (with multiplicity), independent of arrival order.",
 "every ticket sequence, every capacity E>=1, every arrival order","Order-independence over all histories.",
 ["state/src/types/safrole.rs: TicketAccumulator::add, add_multiple, into_sorted_vec"])
p("C15","Outside-in sequencing is a permutation alternating the two ends",
 "outside_in of a non-empty list is a permutation whose even positions are the list from the front and odd positions the list from the back.",
 "every list","Unbounded length, parity cases.",["state/src/types/safrole.rs: outside_in_vec"])
p("C16","Slot sealers predicted from the prior state equal those installed by the state transition",
 "Predicted post-state slot sealers, entropy, active set and past set for a target slot equal the values the block transition produces for a block at that slot.",
 "every prior state and every later slot","Two code paths must agree on all states.",
 ["transition/src/state_prediction","transition/src/state/safrole.rs","transition/src/state/entropy.rs","transition/src/state/validators.rs"])
p("C17","Entropy history rotates exactly on epoch boundaries",
 "Across any sequence of blocks with increasing slots, entries 1..3 of the entropy history change only at an epoch change, where they become entries 0..2 of the pre-state; entry 0 absorbs each block's VRF output.",
 "every chain of blocks","History property.",["transition/src/state/entropy.rs"])
p("C18","Accepted block slots strictly increase and never lie in the future",
 "The time-slot transition accepts a slot only if it is strictly later than the previous one (genesis 0->0 excepted) and has started by wall-clock time.",
 "every prior slot, new slot and clock value","64-bit arithmetic over all values.",
 ["transition/src/state/timeslot.rs","state/src/types/timeslot.rs"])
p("C19","Authorizer pools stay bounded, drop only the used authorizer and take the queue entry of the slot",
 "After any history of blocks each core's pool has at most the configured size; per block it is the previous pool minus the first occurrence of the authorizer used on that core, with the queue entry for slot mod queue-length appended and the oldest evicted when full.",
 "every chain of blocks","History property.",["transition/src/state/authorizer.rs"])
p("C20","Accumulatable reports come out in dependency order, once each, and nothing ready is left behind",
 "The queue processing returns reports such that each one's dependencies were accumulated earlier or precede it; no package appears twice; when it stops, no remaining queued report has all its dependencies satisfied; it always terminates.",
 "every queue and dependency graph, including cyclic ones","All graphs; termination.",
 ["pvm/pvm-invocation/src/accumulate/utils.rs: edit_queue, extract_accumulatables, partition_reports_by_deps, collect_accumulatable_reports"])
p("C21","The accumulation queue is a ring over the epoch: skipped slots are cleared, others are only edited",
 "After a block at slot t following t0, the entry for t holds this block's unready reports, entries for skipped slots are empty and every other entry is the old one with accumulated packages and dependencies removed.",
 "every state, every slot gap","Ring arithmetic over all gaps.",["transition/src/state/accumulate.rs: transition_accumulate_queue","state/src/types/accumulate.rs: get_circular"])
p("C22","Accumulation history is the window of the last E accumulation sets",
 "After any sequence of blocks the history holds exactly the last EPOCH_LENGTH sets of accumulated package hashes, newest last, and the union lookup is their union.",
 "every chain of blocks","History property.",["transition/src/state/accumulate.rs: transition_accumulate_history","state/src/types/accumulate.rs"])
p("C23","The reports taken in one round are the longest prefix that fits the gas limit",
 "The number of processable reports is the largest k such that the first k reports' total declared gas is within the limit.",
 "every report list and gas limit","All sequences; overflow.",["pvm/pvm-invocation/src/accumulate/pipeline.rs: max_processable_reports"])
p("C24","Accumulation never spends more gas than the block limit",
 "Across all rounds of a block, the gas handed to services by work reports never exceeds the block's accumulation gas limit plus transferred gas already paid for.",
 "every report set, every service behaviour within its gas limit","Adaptive recursion over rounds.",
 ["pvm/pvm-invocation/src/accumulate/pipeline.rs: accumulate_outer, accumulate_parallel"])
p("C25","Pending reports leave their core only by availability, dispute or timeout, and a core never holds two",
 "A pending report is removed exactly when it is judged non-good, reaches a two-thirds assurance supermajority, or expires; a new report is only placed on a free core.",
 "every chain of blocks","History property.",["transition/src/state/reports.rs"])
p("C26","PVM memory accesses respect page permissions and are all-or-nothing",
 "A read returns bytes only if every touched page is readable, a write changes exactly the addressed bytes and only if every touched page is writable, otherwise memory is unchanged; the lowest 64 KiB is never accessible.",
 "every memory, address, length and content","All addresses and page maps.",["pvm/pvm-core/src/state/memory.rs"])
p("C27","PVM arithmetic equals the mathematical definitions modulo 2^32/2^64",
 "Each arithmetic, shift, rotate, compare, sign-extension and division instruction returns the value the specification defines for all operands.",
 "all operand pairs","2^128 operand pairs.",["pvm/pvm-core/src/program/instruction/set.rs","pvm/pvm-core/src/utils.rs"])
p("C28","PVM execution terminates within its gas and never reports more gas used than the limit",
 "Every run with gas g executes at most g chargeable instructions; gas used is at most the limit; an out-of-gas exit happens exactly when the counter would go negative.",
 "every program, memory, register file and gas","Unbounded execution.",["pvm/pvm-core/src/interpreter/mod.rs","pvm/pvm-core/src/gas/mod.rs","pvm/pvm-interface/src/invoke.rs"])
p("C29","Jump targets are always basic-block starts; skip distances reach the next opcode",
 "A taken jump or branch continues only at the start of a basic block, otherwise it panics; the skip distance of every position is the distance to the next opcode capped at 24.",
 "every program blob","All programs.",["pvm/pvm-core/src/program/loader.rs","pvm/pvm-core/src/program/instruction/set.rs: branch, djump"])
p("C30","Program blobs decode totally and unambiguously",
 "Decoding any byte string as a program yields either a program whose re-encoding is that byte string or an error, never a crash.",
 "every byte string","All byte strings.",["pvm/pvm-core/src/program/loader.rs: deblob_program_code","pvm/pvm-core/src/program/formatted_program.rs"])
p("C31","Initial program memory regions are disjoint, page aligned and have the declared permissions",
 "For every admitted program size, read-only, read-write/heap, stack and argument zones do not overlap, lie in 32-bit space and carry their declared permissions, every other page is inaccessible.",
 "every admitted section size","Four independent sizes.",["pvm/pvm-interface/src/pvm.rs: setup_memory_layout","pvm/pvm-core/src/program/formatted_program.rs"])
p("C32","State reads see the latest write; rollback restores and commit publishes exactly the working state",
 "For any sequence of add/update/remove/read/commit/rollback on state entries, working reads return the last write of the block, clean reads return the last committed value, commit makes the working map the committed map, rollback discards exactly the uncommitted changes.",
 "every operation sequence","Histories and interleavings of four operations on shared cache entries.",
 ["state/src/cache.rs","state/src/manager.rs"])
p("C33","The state Merkle root is a function of the state map only",
 "After any sequence of committed batches the stored trie represents exactly the current key-value map and its root equals the specification's merklization of that map, independent of the order and grouping of the operations.",
 "every sequence of batches of inserts, updates and removals on 248-bit keys","All key sets and operation orders.",
 ["state/src/merkle_interface/manager.rs","state/state-merkle-v2/src"])
p("C34","Trie node encodings are 64 bytes and round-trip",
 "Leaf and branch nodes encode to exactly 512 bits and decode to themselves (a branch's left hash up to its first bit); node kinds are never confused.",
 "every key, value and pair of hashes","All 512-bit strings.",["state/state-merkle-v2/src/types.rs"])
p("C35","State keys of different entries never collide",
 "Chapter keys, service-metadata keys and service-item keys are pairwise distinct unless the truncated hash collides, in particular different services or chapters never share a key of the same kind.",
 "every service id, chapter and hash","2^32 services times 2^256 hashes.",["state/src/state_utils.rs"])
p("C36","The cached database is observationally the database",
 "Reads through the cache equal reads of the underlying store after any sequence of puts, deletes, batch commits, reads and evictions.",
 "every operation sequence and eviction schedule","History and eviction nondeterminism.",["db/src/core/cached_db.rs"])
p("C37","Historical preimage availability follows the request's slot record",
 "A preimage is available at time t iff the slot record says so: one entry x: x<=t; two: x<=t<y; three: x<=t<y or z<=t; for at-most-three ascending records availability changes exactly at the recorded slots.",
 "every record and time","All slot values.",["state/src/manager.rs: lookup_historical_preimage"])
p("C38","New service ids are unused and stay in the public range",
 "The id chosen for a new service is in [S, 2^32-2^8) and not an existing account, for every prior account set that leaves an id free.",
 "every account set and seed","2^32 ids.",["pvm/pvm-host/src/context/partial_state.rs: check","pvm/pvm-host/src/context/mod.rs: initialize_new_service_id, rotate_new_account_id"])
p("C39","Host calls conserve balance",
 "NEW, TRANSFER and EJECT move balance between accounts and deferred transfers without creating or destroying any; a failing call changes nothing; no account is left below its threshold by its own spending.",
 "every account state and argument","All balances, 64-bit arithmetic.",["pvm/pvm-host/src/host_functions/accumulate/mod.rs"])
p("C40","A service sandbox behaves as an overlay on the global accounts",
 "Within an accumulation, reads of accounts, storage, preimages and lookups return the last sandboxed write or the global value; applying the sandbox to the global state yields exactly the overlaid map.",
 "every sequence of sandbox operations","Histories over four maps.",["pvm/pvm-host/src/context/partial_state.rs"])
p("C41","Privilege changes merge as the specification's R function, independent of service order",
 "The merged manager/assigner/designator/registrar equals the manager's change if it changed the value, else the incumbent's own change, else the old value, whatever order the services were accumulated in.",
 "every set of services and changes","All orders.",["pvm/pvm-host/src/context/partial_state.rs: merge_changes_from","pvm/pvm-invocation/src/accumulate/pipeline.rs: merge_partial_state_change","transition/src/state/privileges.rs"])
p("C42","A block's extrinsics are accepted only if sorted, unique and duly authorised",
 "Guarantees: cores strictly ascending, 2-3 distinct ascending guarantor signatures by validators assigned to that core; assurances: validator indices strictly ascending, anchored to the parent, only for engaged cores; disputes: ascending, with exactly 2/3+1, 1/3 or 0 positive votes; tickets: ascending, attempt in range, not already accumulated; preimages: ascending, solicited and not provided.",
 "every extrinsic and state","All combinations.",["extrinsics/src/validation"])
p("C43","Any third of a package's chunks give it back",
 "Encoding any data gives as many equally long chunks as there are validators; the first ones, joined, are the zero-padded data; any set of chunks of the required number, whichever, is decoded to the zero-padded data; fewer are refused with the two counts.",
 "every data length and content, every subset of chunks","All subsets of chunks of data of any length.",["common/erasure-coding/src/lib.rs: zero_pad_data, erasure_encode, erasure_recover"])
p("C44","Recent block history is the window of the last H blocks with correct parent state roots",
 "After any sequence of blocks the history holds the last H block entries, with each non-latest entry carrying the state root of its own post-state as reported by the child.",
 "every chain of blocks","History property.",["transition/src/state/history.rs","state/src/types/history.rs"])
p("C45","Disputes only grow the judged sets, keep them disjoint and sorted",
 "After any chain of accepted disputes extrinsics the good, bad and wonky sets are pairwise disjoint, sorted and never lose an element; offenders only grow.",
 "every chain of blocks","History property.",["extrinsics/src/validation/disputes.rs","transition/src/state/disputes.rs","state/src/types/disputes.rs"])
