{"id": "C01", "title": "Compact integers round-trip and consume exactly their bytes", "statement": "Encoding any unsigned integer that fits the type and decoding from a buffer starting with that encoding returns the same integer and leaves exactly the bytes that followed.", "quantifier": "every value of u8/u16/u32/u64/usize and every trailing byte string", "why_tests_cant": "2^64 values times arbitrary suffixes; the length-class boundaries 2^(7l) interact with the shift, mask and prefix arithmetic.", "anchors": ["codec/fr-codec/src/lib.rs: integer_encode_to, integer_decode, impl_jam_codec_for_uint"]}
{"id": "C02", "title": "Compact integer encodings are minimal, length-predicted and prefix-free", "statement": "The encoding of x takes 1 byte for x<2^7, l+1 bytes for 2^(7l)<=x<2^(7(l+1)) and 9 bytes from 2^56; size_hint reports exactly that length; no encoding of one integer is a prefix of the encoding of a different integer.", "quantifier": "every pair of u64 values", "why_tests_cant": "Prefix-freeness quantifies over pairs of 64-bit values.", "anchors": ["codec/fr-codec/src/lib.rs: integer_encode_to, integer_size_hint"]}
{"id": "C03", "title": "Integer decoding is canonical", "statement": "Every byte string accepted by the compact-integer decoder is the encoding of the value it returns (so hashes of decoded-and-re-encoded data equal hashes of the received bytes).", "quantifier": "every byte string", "why_tests_cant": "The space of byte strings is infinite and tests only feed encoder output back.", "anchors": ["codec/fr-codec/src/lib.rs: integer_decode"]}
{"id": "C04", "title": "Fixed-width integers: exact range check and round trip", "statement": "encode_fixed(v,n) succeeds iff n<=8 and v<2^(8n), yields n little-endian bytes, and decode_fixed of those bytes followed by anything returns v and the rest; decode_fixed rejects sizes above the type width.", "quantifier": "every value, every width, every suffix", "why_tests_cant": "Unbounded width argument and 64-bit values.", "anchors": ["codec/fr-codec/src/lib.rs: impl_jam_fixed_codec_for_uint"]}
{"id": "C05", "title": "Composite values round-trip whatever their shape", "statement": "For every type built from integers, fixed-width integers, booleans, byte arrays, options, arrays, vectors, limited vectors, bit strings, ordered maps and sets, and tuples/structs, decoding the encoding followed by any suffix returns the value and the suffix; hence encodings of one type are injective and prefix-free.", "quantifier": "every type of that grammar, every value of the type, every suffix", "why_tests_cant": "Types nest without bound; tests pick a few structs.", "anchors": ["codec/fr-codec/src/lib.rs: JamEncode/JamDecode impls", "codec/fr-codec-derive/src/lib.rs"]}
{"id": "C06", "title": "Composite decoding is canonical", "statement": "Two different byte strings never decode (completely) to the same value: bit-string padding, map ordering and duplicate keys are all rejected unless canonical.", "quantifier": "every byte string and every type", "why_tests_cant": "Needs a statement about all byte strings, not encoder outputs.", "anchors": ["codec/fr-codec/src/lib.rs: BitVec/BTreeMap/BTreeSet decode"]}
{"id": "C07", "title": "Bounded vectors never exceed their bound and behave as a sliding window", "statement": "After any sequence of try_push/try_extend/shift_push/conversions a LimitedVec holds at most MAX elements; shift_push leaves exactly the last MAX pushed elements in order and returns the evicted oldest; a failing operation leaves the vector unchanged.", "quantifier": "every operation sequence and every MAX>0", "why_tests_cant": "Histories of unbounded length.", "anchors": ["common/limited-vec/src/lib.rs: LimitedVec"]}
{"id": "C08", "title": "Well-balanced Merkle proofs verify for every leaf and index", "statement": "Recomputing the root from a leaf, its index, the leaf count and the trace returned for that index gives the root of the whole sequence, for every non-empty sequence and index in range; the trace has logarithmic length; equal-length sequences with equal roots are equal unless a hash collision is exhibited.", "quantifier": "every hash function, every leaf sequence, every index", "why_tests_cant": "Unbounded sizes; odd splits at every level.", "anchors": ["merkle/src/common.rs: node, trace, split_and_select, merkle_index_offset", "merkle/src/well_balanced_tree.rs: compute_root"]}
{"id": "C09", "title": "Constant-depth page justifications verify", "statement": "For every page depth and every page index, hashing the page's leaf subtree up with the page justification reproduces the constant-depth root; the preprocessed leaf sequence is a power of two long, begins with the leaf hashes and is zero-hash padded.", "quantifier": "every item sequence, page index and page depth", "why_tests_cant": "Unbounded sizes and three interacting parameters.", "anchors": ["merkle/src/constant_depth_tree.rs"]}
{"id": "C10", "title": "The Merkle mountain range is a binary counter over appended leaves", "statement": "After n appends the peaks present are exactly the binary digits of n, peak i is the root of the perfect tree over the corresponding run of 2^i consecutive leaves, and the recursive variant of append gives the same result.", "quantifier": "every sequence of appended leaves and every hash function", "why_tests_cant": "History property; carries cascade arbitrarily far.", "anchors": ["merkle/src/mmr.rs: append, append_recursive, super_peak"]}
{"id": "C11", "title": "Zero padding reaches the block multiple without touching data", "statement": "zero_pad keeps the input as a prefix, adds only zero bytes, fewer than one block of them unless the input is empty, and the length is a positive multiple of the block size.", "quantifier": "every byte string and block size >= 1", "why_tests_cant": "Unbounded.", "anchors": ["common/src/utils/zero_pad.rs"]}
{"id": "C12", "title": "Shuffle returns a permutation determined by the entropy only", "statement": "The Fisher-Yates shuffle with any entropy is a permutation of its input, positions are chosen independently of the element values, and every permutation is reachable by some stream of randoms.", "quantifier": "every list and every entropy/random stream", "why_tests_cant": "n! permutations.", "anchors": ["extrinsics/src/utils/shuffle.rs"]}
{"id": "C13", "title": "Guarantor rotation assigns every validator one core and every core the same number of validators", "statement": "For every entropy and slot the assignment maps each validator to exactly one core in range, and each core receives exactly VALIDATOR_COUNT/CORE_COUNT validators (when divisible); the assignment is a pure rotation of the epoch's base assignment by the rotation count.", "quantifier": "every entropy, every slot, every validator count that is a multiple of the core count", "why_tests_cant": "All seeds and slots.", "anchors": ["extrinsics/src/utils/guarantor_rotation.rs: rotate, permute"]}
{"id": "C14", "title": "The ticket accumulator holds the E best tickets ever submitted", "statement": "After any sequence of additions the accumulator contains exactly the min(n,E) smallest tickets (with multiplicity), independent of arrival order.", "quantifier": "every ticket sequence, every capacity E>=1, every arrival order", "why_tests_cant": "Order-independence over all histories.", "anchors": ["state/src/types/safrole.rs: TicketAccumulator::add, add_multiple, into_sorted_vec"]}
{"id": "C15", "title": "Outside-in sequencing is a permutation alternating the two ends", "statement": "outside_in of a non-empty list is a permutation whose even positions are the list from the front and odd positions the list from the back.", "quantifier": "every list", "why_tests_cant": "Unbounded length, parity cases.", "anchors": ["state/src/types/safrole.rs: outside_in_vec"]}
{"id": "C16", "title": "Slot sealers predicted from the prior state equal those installed by the state transition", "statement": "Predicted post-state slot sealers, entropy, active set and past set for a target slot equal the values the block transition produces for a block at that slot.", "quantifier": "every prior state and every later slot", "why_tests_cant": "Two code paths must agree on all states.", "anchors": ["transition/src/state_prediction", "transition/src/state/safrole.rs", "transition/src/state/entropy.rs", "transition/src/state/validators.rs"]}
{"id": "C17", "title": "Entropy history rotates exactly on epoch boundaries", "statement": "Across any sequence of blocks with increasing slots, entries 1..3 of the entropy history change only at an epoch change, where they become entries 0..2 of the pre-state; entry 0 absorbs each block's VRF output.", "quantifier": "every chain of blocks", "why_tests_cant": "History property.", "anchors": ["transition/src/state/entropy.rs"]}
{"id": "C18", "title": "Accepted block slots strictly increase and never lie in the future", "statement": "The time-slot transition accepts a slot only if it is strictly later than the previous one (genesis 0->0 excepted) and has started by wall-clock time.", "quantifier": "every prior slot, new slot and clock value", "why_tests_cant": "64-bit arithmetic over all values.", "anchors": ["transition/src/state/timeslot.rs", "state/src/types/timeslot.rs"]}
{"id": "C19", "title": "Authorizer pools stay bounded, drop only the used authorizer and take the queue entry of the slot", "statement": "After any history of blocks each core's pool has at most the configured size; per block it is the previous pool minus the first occurrence of the authorizer used on that core, with the queue entry for slot mod queue-length appended and the oldest evicted when full.", "quantifier": "every chain of blocks", "why_tests_cant": "History property.", "anchors": ["transition/src/state/authorizer.rs"]}
{"id": "C20", "title": "Accumulatable reports come out in dependency order, once each, and nothing ready is left behind", "statement": "The queue processing returns reports such that each one's dependencies were accumulated earlier or precede it; no package appears twice; when it stops, no remaining queued report has all its dependencies satisfied; it always terminates.", "quantifier": "every queue and dependency graph, including cyclic ones", "why_tests_cant": "All graphs; termination.", "anchors": ["pvm/pvm-invocation/src/accumulate/utils.rs: edit_queue, extract_accumulatables, partition_reports_by_deps, collect_accumulatable_reports"]}
{"id": "C21", "title": "The accumulation queue is a ring over the epoch: skipped slots are cleared, others are only edited", "statement": "After a block at slot t following t0, the entry for t holds this block's unready reports, entries for skipped slots are empty and every other entry is the old one with accumulated packages and dependencies removed.", "quantifier": "every state, every slot gap", "why_tests_cant": "Ring arithmetic over all gaps.", "anchors": ["transition/src/state/accumulate.rs: transition_accumulate_queue", "state/src/types/accumulate.rs: get_circular"]}
{"id": "C22", "title": "Accumulation history is the window of the last E accumulation sets", "statement": "After any sequence of blocks the history holds exactly the last EPOCH_LENGTH sets of accumulated package hashes, newest last, and the union lookup is their union.", "quantifier": "every chain of blocks", "why_tests_cant": "History property.", "anchors": ["transition/src/state/accumulate.rs: transition_accumulate_history", "state/src/types/accumulate.rs"]}
{"id": "C23", "title": "The reports taken in one round are the longest prefix that fits the gas limit", "statement": "The number of processable reports is the largest k such that the first k reports' total declared gas is within the limit.", "quantifier": "every report list and gas limit", "why_tests_cant": "All sequences; overflow.", "anchors": ["pvm/pvm-invocation/src/accumulate/pipeline.rs: max_processable_reports"]}
{"id": "C24", "title": "Accumulation never spends more gas than the block limit", "statement": "Across all rounds of a block, the gas handed to services by work reports never exceeds the block's accumulation gas limit plus transferred gas already paid for.", "quantifier": "every report set, every service behaviour within its gas limit", "why_tests_cant": "Adaptive recursion over rounds.", "anchors": ["pvm/pvm-invocation/src/accumulate/pipeline.rs: accumulate_outer, accumulate_parallel"]}
{"id": "C25", "title": "Pending reports leave their core only by availability, dispute or timeout, and a core never holds two", "statement": "A pending report is removed exactly when it is judged non-good, reaches a two-thirds assurance supermajority, or expires; a new report is only placed on a free core.", "quantifier": "every chain of blocks", "why_tests_cant": "History property.", "anchors": ["transition/src/state/reports.rs"]}
{"id": "C26", "title": "PVM memory accesses respect page permissions and are all-or-nothing", "statement": "A read returns bytes only if every touched page is readable, a write changes exactly the addressed bytes and only if every touched page is writable, otherwise memory is unchanged; the lowest 64 KiB is never accessible.", "quantifier": "every memory, address, length and content", "why_tests_cant": "All addresses and page maps.", "anchors": ["pvm/pvm-core/src/state/memory.rs"]}
{"id": "C27", "title": "PVM arithmetic equals the mathematical definitions modulo 2^32/2^64", "statement": "Each arithmetic, shift, rotate, compare, sign-extension and division instruction returns the value the specification defines for all operands.", "quantifier": "all operand pairs", "why_tests_cant": "2^128 operand pairs.", "anchors": ["pvm/pvm-core/src/program/instruction/set.rs", "pvm/pvm-core/src/utils.rs"]}
{"id": "C28", "title": "PVM execution terminates within its gas and never reports more gas used than the limit", "statement": "Every run with gas g executes at most g chargeable instructions; gas used is at most the limit; an out-of-gas exit happens exactly when the counter would go negative.", "quantifier": "every program, memory, register file and gas", "why_tests_cant": "Unbounded execution.", "anchors": ["pvm/pvm-core/src/interpreter/mod.rs", "pvm/pvm-core/src/gas/mod.rs", "pvm/pvm-interface/src/invoke.rs"]}
{"id": "C29", "title": "Jump targets are always basic-block starts; skip distances reach the next opcode", "statement": "A taken jump or branch continues only at the start of a basic block, otherwise it panics; the skip distance of every position is the distance to the next opcode capped at 24.", "quantifier": "every program blob", "why_tests_cant": "All programs.", "anchors": ["pvm/pvm-core/src/program/loader.rs", "pvm/pvm-core/src/program/instruction/set.rs: branch, djump"]}
{"id": "C30", "title": "Program blobs decode totally and unambiguously", "statement": "Decoding any byte string as a program yields either a program whose re-encoding is that byte string or an error, never a crash.", "quantifier": "every byte string", "why_tests_cant": "All byte strings.", "anchors": ["pvm/pvm-core/src/program/loader.rs: deblob_program_code", "pvm/pvm-core/src/program/formatted_program.rs"]}
{"id": "C31", "title": "Initial program memory regions are disjoint, page aligned and have the declared permissions", "statement": "For every admitted program size, read-only, read-write/heap, stack and argument zones do not overlap, lie in 32-bit space and carry their declared permissions, every other page is inaccessible.", "quantifier": "every admitted section size", "why_tests_cant": "Four independent sizes.", "anchors": ["pvm/pvm-interface/src/pvm.rs: setup_memory_layout", "pvm/pvm-core/src/program/formatted_program.rs"]}
{"id": "C32", "title": "State reads see the latest write; rollback restores and commit publishes exactly the working state", "statement": "For any sequence of add/update/remove/read/commit/rollback on state entries, working reads return the last write of the block, clean reads return the last committed value, commit makes the working map the committed map, rollback discards exactly the uncommitted changes.", "quantifier": "every operation sequence", "why_tests_cant": "Histories and interleavings of four operations on shared cache entries.", "anchors": ["state/src/cache.rs", "state/src/manager.rs"]}
{"id": "C33", "title": "The state Merkle root is a function of the state map only", "statement": "After any sequence of committed batches the stored trie represents exactly the current key-value map and its root equals the specification's merklization of that map, independent of the order and grouping of the operations.", "quantifier": "every sequence of batches of inserts, updates and removals on 248-bit keys", "why_tests_cant": "All key sets and operation orders.", "anchors": ["state/src/merkle_interface/manager.rs", "state/state-merkle-v2/src"]}
{"id": "C34", "title": "Trie node encodings are 64 bytes and round-trip", "statement": "Leaf and branch nodes encode to exactly 512 bits and decode to themselves (a branch's left hash up to its first bit); node kinds are never confused.", "quantifier": "every key, value and pair of hashes", "why_tests_cant": "All 512-bit strings.", "anchors": ["state/state-merkle-v2/src/types.rs"]}
{"id": "C35", "title": "State keys of different entries never collide", "statement": "Chapter keys, service-metadata keys and service-item keys are pairwise distinct unless the truncated hash collides, in particular different services or chapters never share a key of the same kind.", "quantifier": "every service id, chapter and hash", "why_tests_cant": "2^32 services times 2^256 hashes.", "anchors": ["state/src/state_utils.rs"]}
{"id": "C36", "title": "The cached database is observationally the database", "statement": "Reads through the cache equal reads of the underlying store after any sequence of puts, deletes, batch commits, reads and evictions.", "quantifier": "every operation sequence and eviction schedule", "why_tests_cant": "History and eviction nondeterminism.", "anchors": ["db/src/core/cached_db.rs"]}
{"id": "C37", "title": "Historical preimage availability follows the request's slot record", "statement": "A preimage is available at time t iff the slot record says so: one entry x: x<=t; two: x<=t<y; three: x<=t<y or z<=t; for at-most-three ascending records availability changes exactly at the recorded slots.", "quantifier": "every record and time", "why_tests_cant": "All slot values.", "anchors": ["state/src/manager.rs: lookup_historical_preimage"]}
{"id": "C38", "title": "New service ids are unused and stay in the public range", "statement": "The id chosen for a new service is in [S, 2^32-2^8) and not an existing account, for every prior account set that leaves an id free.", "quantifier": "every account set and seed", "why_tests_cant": "2^32 ids.", "anchors": ["pvm/pvm-host/src/context/partial_state.rs: check", "pvm/pvm-host/src/context/mod.rs: initialize_new_service_id, rotate_new_account_id"]}
{"id": "C39", "title": "Host calls conserve balance", "statement": "NEW, TRANSFER and EJECT move balance between accounts and deferred transfers without creating or destroying any; a failing call changes nothing; no account is left below its threshold by its own spending.", "quantifier": "every account state and argument", "why_tests_cant": "All balances, 64-bit arithmetic.", "anchors": ["pvm/pvm-host/src/host_functions/accumulate/mod.rs"]}
{"id": "C40", "title": "A service sandbox behaves as an overlay on the global accounts", "statement": "Within an accumulation, reads of accounts, storage, preimages and lookups return the last sandboxed write or the global value; applying the sandbox to the global state yields exactly the overlaid map.", "quantifier": "every sequence of sandbox operations", "why_tests_cant": "Histories over four maps.", "anchors": ["pvm/pvm-host/src/context/partial_state.rs"]}
{"id": "C41", "title": "Privilege changes merge as the specification's R function, independent of service order", "statement": "The merged manager/assigner/designator/registrar equals the manager's change if it changed the value, else the incumbent's own change, else the old value, whatever order the services were accumulated in.", "quantifier": "every set of services and changes", "why_tests_cant": "All orders.", "anchors": ["pvm/pvm-host/src/context/partial_state.rs: merge_changes_from", "pvm/pvm-invocation/src/accumulate/pipeline.rs: merge_partial_state_change", "transition/src/state/privileges.rs"]}
{"id": "C42", "title": "A block's extrinsics are accepted only if sorted, unique and duly authorised", "statement": "Guarantees: cores strictly ascending, 2-3 distinct ascending guarantor signatures by validators assigned to that core; assurances: validator indices strictly ascending, anchored to the parent, only for engaged cores; disputes: ascending, with exactly 2/3+1, 1/3 or 0 positive votes; tickets: ascending, attempt in range, not already accumulated; preimages: ascending, solicited and not provided.", "quantifier": "every extrinsic and state", "why_tests_cant": "All combinations.", "anchors": ["extrinsics/src/validation"]}
{"id": "C43", "title": "Any third of a package's chunks give it back", "statement": "Encoding any data gives as many equally long chunks as there are validators; the first ones, joined, are the zero-padded data; any set of chunks of the required number, whichever, is decoded to the zero-padded data; fewer are refused with the two counts.", "quantifier": "every data length and content, every subset of chunks", "why_tests_cant": "All subsets of chunks of data of any length.", "anchors": ["common/erasure-coding/src/lib.rs: zero_pad_data, erasure_encode, erasure_recover"]}
{"id": "C44", "title": "Recent block history is the window of the last H blocks with correct parent state roots", "statement": "After any sequence of blocks the history holds the last H block entries, with each non-latest entry carrying the state root of its own post-state as reported by the child.", "quantifier": "every chain of blocks", "why_tests_cant": "History property.", "anchors": ["transition/src/state/history.rs", "state/src/types/history.rs"]}
{"id": "C45", "title": "Disputes only grow the judged sets, keep them disjoint and sorted", "statement": "After any chain of accepted disputes extrinsics the good, bad and wonky sets are pairwise disjoint, sorted and never lose an element; offenders only grow.", "quantifier": "every chain of blocks", "why_tests_cant": "History property.", "anchors": ["extrinsics/src/validation/disputes.rs", "transition/src/state/disputes.rs", "state/src/types/disputes.rs"]}
{"id": "C46", "title": "Block header and extrinsic hashes commit to their content", "statement": "Two block bodies with the same extrinsic hash are equal, and two headers with the same header hash are equal, unless two different byte strings hashed while computing them have the same hash.", "quantifier": "every pair of block bodies and headers, every 32-byte hash function, every chain parameter set", "why_tests_cant": "Injectivity over all structures and hash functions.", "anchors": ["block/src/types/extrinsics/mod.rs: Extrinsics::hash", "block/src/types/extrinsics/guarantees.rs: encode_with_hashed_reports", "block/src/types/block.rs: BlockHeader::hash"]}
{"id": "C47", "title": "Size hints are exact", "statement": "size_hint of a value equals the length of its encoding.", "quantifier": "every type and value", "why_tests_cant": "All types.", "anchors": ["codec/fr-codec/src/lib.rs: size_hint"]}
{"id": "C48", "title": "Two mountain ranges compare equal exactly when they hold the same peaks", "statement": "Equality of two ranges implies that they hold the same peaks in the same slots (unless the hash collides).", "quantifier": "every pair of ranges, every hash function", "why_tests_cant": "Injectivity over all ranges.", "anchors": ["merkle/src/mmr.rs: PartialEq, super_peak"]}
{"id": "C49", "title": "Executing a block gives the same result under every scheduling of its transition tasks", "statement": "The transitions a block executes concurrently share one cached state. Whatever the interleaving of their reads and writes, each succeeds or fails as it would alone, and the state afterwards, including exactly which components are to be committed, is that of running them one after the other.", "quantifier": "every block, state, interleaving of cache and database accesses of the concurrent tasks, and eviction by the cache", "why_tests_cant": "Interleavings at every await point of up to five tasks; the failing ones need a cold cache and a particular order.", "anchors": ["node/src/roles/executor.rs: run_state_transition_pre_header_commitment, run_state_transition_post_header_commitment", "state/src/manager.rs: get_state_entry_internal, get_clean_state_entry_internal, with_mut_state_entry_internal", "state/src/cache.rs: with_mut_entry, insert_entry", "transition/src/state"]}
{"id": "C50", "title": "The winning-tickets marker announces exactly the ticket sealers of the next epoch", "statement": "Over any history of accepted blocks, an epoch is sealed by tickets exactly when the previous epoch was the immediately preceding one and one of its headers carried a winning-tickets marker; the sealers are the tickets of that marker. An epoch has at most one such marker.", "quantifier": "every chain of accepted blocks, every epoch length and contest duration", "why_tests_cant": "Relates headers published many blocks apart to the state they lead to.", "anchors": ["transition/src/state/safrole.rs: mark_safrole_header_markers, compute_next_slot_sealers, handle_ticket_accumulation"]}
{"id": "C51", "title": "The epoch marker announces the posterior entropy and validator keys, from which punished validators are removed", "statement": "A block's header carries an epoch marker exactly when it opens an epoch; it holds the posterior entropy entries 1 and 2 and the keys of the posterior pending set. In that set every key whose Ed25519 component is in the posterior punish set has been replaced by the null key, and the ring root is that of this set.", "quantifier": "every state and accepted block", "why_tests_cant": "All states and blocks.", "anchors": ["transition/src/state/safrole.rs: handle_new_epoch_transition, mark_safrole_header_markers", "state/src/types/validators.rs: nullify_punished_validators"]}
{"id": "C52", "title": "An accepted tickets extrinsic contains no useless ticket", "statement": "Every ticket of an accepted extrinsic is in the posterior accumulator, and the uselessness check refuses only extrinsics that contain a ticket that would be dropped. The extrinsic comes within the contest, has at most the allowed number of tickets, strictly ascending, none of them already in the accumulator.", "quantifier": "every accumulator content and every list of new tickets", "why_tests_cant": "All sets of ids.", "anchors": ["extrinsics/src/validation/tickets.rs: validate", "state/src/types/safrole.rs: TicketAccumulator::add"]}
{"id": "C53", "title": "Cached ring data always belongs to the right validator set", "statement": "Ring commitments are computed in the background and cached. In every interleaving of block imports with background computations, the ring root installed at an epoch change is that of the staging set without the punished keys, and the ring verifier used for a block's tickets is that of the pending set.", "quantifier": "every start state, every sequence of blocks, every interleaving with background tasks that may be late or fail", "why_tests_cant": "Depends on task timing and on long histories of designations and offences.", "anchors": ["state/src/manager.rs: get_or_generate_curr_ring_context, get_or_generate_staging_ring_context, update_staging_ring_cache_entry_guarded, nullify_offenders_from_staging_ring_cache", "transition/src/ring_cache.rs: schedule_ring_cache_update", "transition/src/state/disputes.rs", "transition/src/state/privileges.rs", "node/src/roles/executor.rs"]}
{"id": "C54", "title": "Gas accounting never loses a block", "statement": "If every service uses at most the gas it is given and pays for its transfers, accumulation never ends in a gas overflow error.", "quantifier": "every report list, always-accumulate set and service behaviour", "why_tests_cant": "The error needs always-accumulate gas and a first round that nearly fills the block limit.", "anchors": ["pvm/pvm-invocation/src/accumulate/pipeline.rs: accumulate_outer", "transition/src/state/services.rs: transition_on_accumulate"]}
{"id": "C55", "title": "Messages signed for different purposes never coincide", "statement": "For any two of the protocol's signing contexts and any payloads of the sizes the protocol uses, equal messages have equal contexts and payloads.", "quantifier": "all contexts and payloads", "why_tests_cant": "A signature accepted for one purpose must be useless for every other, whatever the payload.", "anchors": ["common/src/constants/mod.rs: X_A..X_0", "extrinsics/src/validation", "node/src/roles/importer.rs"]}
{"id": "C56", "title": "An offender is recorded once", "statement": "After any chain of accepted disputes extrinsics the offenders record holds no key twice, as the union of sets in the specification.", "quantifier": "every chain of blocks", "why_tests_cant": "Depends on the combination of offences within one extrinsic and over history.", "anchors": ["state/src/types/disputes.rs: sort_extend_punish_set", "extrinsics/src/validation/disputes.rs"]}
{"id": "C57", "title": "What was available at a past slot stays available for the retention period", "statement": "The historical lookup as of slot t gives the same answer in every state up to D slots later, for every service and hash, whatever services request, forget or provide in between.", "quantifier": "every history of requests, provisions and forgets", "why_tests_cant": "Refinement and auditing of a package repeat lookups at different times; only an argument over all histories shows they agree.", "anchors": ["state/src/manager.rs: lookup_historical_preimage", "pvm/pvm-host/src/host_functions/accumulate/mod.rs: solicit, forget", "transition/src/state/services.rs"]}
{"id": "C58", "title": "Only blocks extending the best block are applied, and rejected blocks change nothing", "statement": "A block submitted to the importer is applied only if its parent is the best block, its slot is later than the best block's and not in the future, it names the state root the node has, its extrinsic hash matches and the header checks (seal, author, markers) pass; a rejected block leaves state, best block and recorded roots as they were. So the applied blocks form one chain.", "quantifier": "every sequence of submitted blocks, accepted or not, from any node state", "why_tests_cant": "Quantifies over all sequences of valid, invalid and hostile submissions.", "anchors": ["node/src/roles/importer.rs: import_block, validate_block_header, run_state_transition, commit", "block/src/types/block.rs: is_genesis"]}
{"id": "C59", "title": "The ancestor set holds exactly the latest L headers added", "statement": "After any sequence of additions in any order, with repetitions, the set contains an entry iff it was added and fewer than L distinct added entries are later; it never holds more than L.", "quantifier": "every sequence of additions, every capacity", "why_tests_cant": "Two indexes (heap and hash set) must stay in step over all histories.", "anchors": ["block/src/ancestors.rs: AncestorSet", "block/src/header_db.rs"]}
{"id": "C60", "title": "An executed instruction has the operands the specification defines", "statement": "For every loaded program and every position of an opcode, the instruction executed there has the opcode, registers, immediates and jump offset that the specification reads from the code bytes and the opcode mask.", "quantifier": "every program and position", "why_tests_cant": "The operand lengths depend on the mask and on the bytes themselves, for 13 formats.", "anchors": ["pvm/pvm-core/src/program/instruction/mod.rs: Instruction::from_inst_blob", "pvm/pvm-core/src/program/loader.rs"]}
{"id": "C61", "title": "Growing the heap only adds writable memory between the old heap end and the stack", "statement": "An sbrk that succeeds returns the start of memory at or after the old heap end and before the stack, all of it writable, and changes no other page's permission and no data.", "quantifier": "every memory, permission map, heap end and requested size", "why_tests_cant": "The first-fit search and the address arithmetic run over a 32-bit space and 64-bit sizes.", "anchors": ["pvm/pvm-core/src/state/memory.rs: get_break, expand_heap", "pvm/pvm-core/src/program/instruction/set.rs: sbrk"]}
{"id": "C62", "title": "No guest program can make an invocation fail with an error", "statement": "Whatever code a service has and whatever it does, an invocation returns a result (output, no output, out of gas or panic); an error, which rejects the block, or a crash of the node cannot be provoked by the guest.", "quantifier": "every program, argument, gas limit and execution", "why_tests_cant": "Guest programs are arbitrary.", "anchors": ["pvm/pvm-interface/src/invoke.rs: invoke_with_args, invoke_extended", "pvm/pvm-core/src/interpreter/mod.rs"]}
{"id": "C63", "title": "A host-call instruction calls the host function it names, and unknown calls are answered with WHAT", "statement": "ecalli n calls host function n if the invocation offers it; otherwise register 7 becomes 2^64-2, ten gas are charged, and nothing else changes.", "quantifier": "every program, call number and machine state", "why_tests_cant": "Call numbers are arbitrary immediates.", "anchors": ["pvm/pvm-core/src/program/instruction/set.rs: ecalli", "pvm/pvm-interface/src/invoke.rs: execute_host_function, is_valid_host_call"]}
{"id": "C64", "title": "A refused memory access ends the run with the specified exit and no effect", "statement": "An instruction whose access is not permitted changes no memory and no register and ends the run: with a panic if the lowest refused byte is below 64 KiB, otherwise with a page fault naming the start of its page.", "quantifier": "every program, memory, permission map and access", "why_tests_cant": "Addresses and permissions are arbitrary.", "anchors": ["pvm/pvm-core/src/interpreter/mod.rs", "pvm/pvm-core/src/program/instruction/set.rs", "pvm/pvm-core/src/state/memory.rs"]}
{"id": "C65", "title": "The program cache never changes what an invocation executes", "statement": "Whatever programs were invoked before and whatever the cache has evicted, an invocation executes the program its code decodes to, unless two different codes that were invoked have the same hash.", "quantifier": "every history of invocations and evictions", "why_tests_cant": "Histories and eviction schedules are unbounded.", "anchors": ["pvm/pvm-interface/src/invoke.rs: program_cache, invoke_with_args"]}
{"id": "C66", "title": "The state root determines the state", "statement": "If two states have the same state root then they are the same state, or two different strings hashed while computing the roots have hashes that agree in 255 bits, or one has a hash whose last 255 bits are zero.", "quantifier": "every hash function with 32-byte results and every pair of states", "why_tests_cant": "All pairs of key-value maps.", "anchors": ["state/state-merkle-v2/src/types.rs", "state/src/merkle_interface/manager.rs"]}
{"id": "C67", "title": "A state commit that fails or is interrupted leaves the committed state readable", "statement": "A commit either happens or leaves state, root and later commits as if it had not been attempted, also when the node stops at any point and restarts.", "quantifier": "every batch, failure and crash point", "why_tests_cant": "Crash points and histories.", "anchors": ["state/src/merkle_interface/manager.rs: prepare_dirty_cache_commit, apply_dirty_cache_commit", "state/state-merkle-v2/src/merkle_db.rs: commit_write_batch", "state/src/manager.rs: commit_dirty_cache"]}
{"id": "C68", "title": "Host calls do what the Graypaper's tables say", "statement": "For every history of accumulation host calls, every answer (exit, gas charge, registers, memory), the accounts, transfers, privileges, output, provided preimages, next id and checkpoint are those of the tables.", "quantifier": "every history of calls, machine state, accounts and privileges", "why_tests_cant": "Histories over unbounded accounts and 2^64 arguments.", "anchors": ["pvm/pvm-host/src/host_functions/accumulate/mod.rs", "pvm/pvm-host/src/host_functions/general/mod.rs", "pvm/pvm-host/src/context/mod.rs", "pvm/pvm-host/src/context/partial_state.rs"]}
{"id": "C69", "title": "A service's host calls leave other accounts alone", "statement": "A host call changes only the calling service's account, except that NEW makes an account that was not there, with the caller as parent, and EJECT removes one whose code hash names the caller.", "quantifier": "every call in every reachable context", "why_tests_cant": "All accounts and arguments.", "anchors": ["pvm/pvm-host/src/host_functions/accumulate/mod.rs"]}
{"id": "C70", "title": "CHECKPOINT keeps the context", "statement": "After a CHECKPOINT, whatever calls follow, the fallback context is the context at that call, until the next CHECKPOINT; without one it is the starting context.", "quantifier": "every history of calls", "why_tests_cant": "Histories.", "anchors": ["pvm/pvm-host/src/context/mod.rs", "pvm/pvm-host/src/host_functions/accumulate/mod.rs: host_checkpoint"]}
{"id": "C71", "title": "An accumulation's result comes from the right context", "statement": "After a regular end the result is the context after all host calls the program made, after a panic or out of gas the context of the last checkpoint; a service without usable code only receives its transfers.", "quantifier": "every program, gas limit and account state", "why_tests_cant": "All programs.", "anchors": ["pvm/pvm-invocation/src/accumulate/mod.rs: AccumulateInvocation"]}
{"id": "C72", "title": "An accumulation conserves balance", "statement": "The accounts and deferred transfers of the result hold what the accounts held before and what was received.", "quantifier": "every program whose calls are permitted", "why_tests_cant": "All programs.", "anchors": ["pvm/pvm-invocation/src/accumulate/mod.rs"]}
{"id": "C73", "title": "The code that runs is the code of the service", "statement": "The code run for a service is what its code preimage holds after the length-prefixed metadata.", "quantifier": "every metadata and code", "why_tests_cant": "All octet strings.", "anchors": ["state/src/types/services.rs: AccountCode"]}
{"id": "C74", "title": "A round's accounts are the union of what its services left", "statement": "After a round each service's account is as it left it, accounts it made are there, accounts it removed are gone, all others are as they were, and every preimage provided to a service that asked for it is there; the accounts are in order again.", "quantifier": "every round that begins in order: every set of services, programs, gas limits, inputs", "why_tests_cant": "Any number of services with any programs.", "anchors": ["pvm/pvm-invocation/src/accumulate/pipeline.rs: accumulate_parallel, merge_partial_state_change, add_provided_preimages"]}
{"id": "C75", "title": "A block's accumulation ends", "statement": "For every state, list of reports, privileges and programs, the accumulation of a block ends after at most as many rounds as the gas limit and the number of reports.", "quantifier": "every state, report list, always-accumulate set, program, gas limit below 2^64", "why_tests_cant": "Programs and transfers between services are arbitrary.", "anchors": ["pvm/pvm-invocation/src/accumulate/pipeline.rs: accumulate_outer"]}
{"id": "C76", "title": "A block's gas adds up", "statement": "In every round the services use no more than their shares; what they use and the transfers they pay for come out of the limit; the reports accumulated are the longest prefix the gas allows; nothing is left to do at the end.", "quantifier": "every block that succeeds", "why_tests_cant": "All programs, all rounds.", "anchors": ["pvm/pvm-invocation/src/accumulate/pipeline.rs: accumulate_outer, accumulate_parallel", "pvm/pvm-invocation/src/accumulate/mod.rs"]}
{"id": "C77", "title": "A block's accumulation makes no money", "statement": "The total of all balances after a block's accumulation is at most the total before, and equal to it if no transfer goes to a missing or removed service; every account's footprint is counted rightly and covered by its balance.", "quantifier": "every block whose host calls are permitted, every order of the hash maps", "why_tests_cant": "All programs and transfers.", "anchors": ["pvm/pvm-invocation/src/accumulate/pipeline.rs", "pvm/pvm-host/src/context/partial_state.rs", "transition/src/state/services.rs"]}
{"id": "C78", "title": "No service can make a block fail", "statement": "Whatever a service's program does, the accumulation of the block succeeds.", "quantifier": "every program", "why_tests_cant": "All programs.", "anchors": ["pvm/pvm-invocation/src/accumulate/pipeline.rs", "pvm/pvm-invocation/src/accumulate/mod.rs", "pvm/pvm-core/src/gas/mod.rs"]}
{"id": "C79", "title": "The erasure root commits to every validator's share", "statement": "The erasure root of a bundle and its exports exists for every input; it is the Merkle root of the validators' shares; the shares of any msg_chunks validators give back the bundle, every export and every proof page; equal roots over equally many exports mean equal bundles and exports unless two of the strings hashed collide; every page of proofs fits one segment.", "quantifier": "every bundle, every list of exports, every hash function of 32 octets", "why_tests_cant": "All sizes and contents.", "anchors": ["pvm/pvm-invocation/src/refine/avail_spec.rs: generate_paged_proofs, compute_erasure_root, build_avail_specs"]}
{"id": "C80", "title": "Recovering data from chunks sent by peers never stops the node", "statement": "Whatever chunks are received, recovery returns data or an error.", "quantifier": "every list of optional chunks", "why_tests_cant": "All lengths and contents.", "anchors": ["common/erasure-coding/src/lib.rs: erasure_recover"]}
{"id": "C81", "title": "Every host call of a refinement answers as the Graypaper says", "statement": "In a refinement, whatever calls were made before, GAS, FETCH, HISTORICAL_LOOKUP, EXPORT, MACHINE, PEEK, POKE, PAGES, INVOKE, EXPUNGE and unknown calls give the answer, deliver the octets and leave the exports and inner machines that the Graypaper's tables say; they come back; they cost the guest ten gas and change nothing else of it.", "quantifier": "every history of calls, every register, memory and gas of the calling machine, every package, import, extrinsic and state", "why_tests_cant": "All histories, registers and memories.", "anchors": ["pvm/pvm-host/src/host_functions/refine/mod.rs", "pvm/pvm-host/src/host_functions/general/mod.rs: host_fetch", "pvm/pvm-host/src/context/mod.rs: RefineHostContext", "pvm/pvm-host/src/inner_vm.rs", "pvm/pvm-interface/src/invoke.rs"]}
{"id": "C82", "title": "Exports are numbered without gaps, bounded, and come only from refinements that succeed", "statement": "The answers of EXPORT count up from the number of exports declared by the items before; earlier segments never change; a refinement gives segments of 4104 octets, at most 3072 with those before it, none when it fails, and exactly those exported by its calls when it succeeds.", "quantifier": "every history of calls; every code, package and state", "why_tests_cant": "All histories and programs.", "anchors": ["pvm/pvm-host/src/host_functions/refine/mod.rs: host_export", "pvm/pvm-invocation/src/refine/mod.rs: refine"]}
{"id": "C83", "title": "A refinement without usable code says so", "statement": "A refinement's result is BAD exactly when the item, its service or its code (by historical lookup) is missing, and BIG exactly when the code is longer than 4,000,000 octets.", "quantifier": "every package, item index and state", "why_tests_cant": "All packages and states.", "anchors": ["pvm/pvm-invocation/src/refine/mod.rs: refine", "common/src/types/workloads/work_report.rs: WorkExecutionResult"]}
{"id": "C84", "title": "Every host call of an authorization answers as the Graypaper says, and an authorization keeps its limits", "statement": "In an authorization only GAS, FETCH (of constants and package data) and LOG answer, as the Graypaper says, and always; the result is BAD exactly when there is no code, BIG exactly when it is longer than 64,000 octets; at most 50,000,000 gas is used.", "quantifier": "every call, register, memory, package and state", "why_tests_cant": "All registers, memories and packages.", "anchors": ["pvm/pvm-host/src/host_functions/general/mod.rs: host_fetch", "pvm/pvm-invocation/src/is_authorized/mod.rs: is_authorized"]}
{"id": "C85", "title": "A work report has one digest per item, in order, within the size limit, and its segments where they were announced", "statement": "The digests are those of the items in order; each describes its item and the gas used; every item is refined with the number of exports declared before it; trace and outputs stay within 49,152 octets; an item is called oversize only when its output does not fit beside the outputs kept before; failed items leave zero segments.", "quantifier": "every package and every outcome of its refinements", "why_tests_cant": "All numbers of items, sizes and outcomes.", "anchors": ["pvm/pvm-invocation/src/refine/pipeline.rs: compute_work_report, work_item_to_digest, zeroize_export_segments"]}
{"id": "C86", "title": "The activity statistics say what validators, cores and services did", "statement": "After any history of blocks from genesis, the current-epoch record of every validator holds the number of blocks it authored in the latest block's epoch, the tickets, preimages and preimage octets in them, the blocks of that epoch in which its key reported, and those with its assurance; the previous record holds the same for the latest earlier epoch that had blocks; each core's record holds the totals of the latest block's guarantees, available reports and assurances for that core; there is one record for exactly each service that had a digest, a preimage or accumulation in the latest block, in id order, with its totals. Counters wrap at their width in a release build; a debug build that does not stop has the exact totals, and the data size of a report is its bundle and its exported segments with their proofs.", "quantifier": "every history of blocks with any slots and skipped epochs, any number of validators and cores, every order of enumeration of the hash set of accumulated services, both build modes", "why_tests_cant": "Totals depend on the whole epoch's history and on which epochs were skipped; overflow needs totals beyond any test.", "anchors": ["transition/src/state/statistics.rs: transition_onchain_statistics", "state/src/types/statistics.rs: ValidatorStats, CoreStatsEntry, ServiceStatsEntry", "pvm/pvm-types/src/stats.rs: AccumulateStats::from_accumulated_reports", "block/src/types/extrinsics/assurances.rs: cores_assurances_counts"]}
{"id": "C87", "title": "Stored statistics are read back unchanged", "statement": "The octets stored for the activity statistics after any history decode to the same statistics, whatever follows them.", "quantifier": "every history of blocks", "why_tests_cant": "The map of services, its key widths and the compact integers interact for every set of services and every total.", "anchors": ["state/src/types/statistics.rs: JamEncode/JamDecode for ValidatorStatsEntry, CoreStatsEntry, ServiceStatsEntry, ServiceStats"]}
{"id": "C88", "title": "Fuzz target: each block is answered from its own parent", "statement": "After a fuzzer has introduced itself and planted a state, each block it has imported is answered with the root of the state obtained by executing the block over its own parent's state, ring cache and ancestor set, or with an error, and the answer does not depend on which rival blocks over the same parent were imported before it. The parents known are the latest block and the blocks imported over it; importing a child of one of those makes it the latest.", "quantifier": "all planted states, all sequences of imported blocks and state requests, with forking and ancestors on or off, and all transition functions", "why_tests_cant": "a test imports a few forks with particular blocks; the claim is about every interleaving of forks, failures and settlements", "anchors": ["fuzz/src/fuzz_target.rs process_message, finalize_if_parent_staged, apply_staged_block_commit, determine_block_commit_mode, RingCacheStateSnapshot", "node/src/roles/importer.rs import_block, BlockCommitMode", "state/src/manager.rs prepare_dirty_cache_commit, apply_dirty_cache_commit"]}
{"id": "C89", "title": "Fuzz target: GetState tells the state after the requested block", "statement": "Asked for the state after the latest block or after one of the blocks imported over it, the fuzz target answers with exactly the entries of that state, each once, in ascending order of keys.", "quantifier": "all planted states, all sequences of imported blocks and state requests", "why_tests_cant": "the target tracks the set of keys apart from the state, block by block; a test compares the two for particular blocks only", "anchors": ["fuzz/src/fuzz_target.rs build_state_for_hash, collect_state_from_keys, apply_account_state_changes, apply_state_deltas_to_state_keys", "transition/src/state/services.rs AccountStateChanges, transition_services_integrate_preimages", "node/src/roles/executor.rs"]}
{"id": "C90", "title": "Fuzz target: a refused block changes nothing", "statement": "If the fuzz target answers a block with an error, it is afterwards in the state it was in before: later messages are answered as if the block had not been sent.", "quantifier": "all states of the target and all blocks that are refused", "why_tests_cant": "a test looks at one refused block and a few messages after it", "anchors": ["fuzz/src/fuzz_target.rs process_message, finalize_if_parent_staged"]}
{"id": "C91", "title": "Fuzz target: sessions are independent", "statement": "The replies within a session depend on the messages of that session only, not on earlier sessions, however those ended. A session that does not begin with an introduction is not answered, and a second introduction, a second planting of a state or a message only a target sends ends it.", "quantifier": "all sequences of sessions", "why_tests_cant": "a test runs two sessions with particular messages", "anchors": ["fuzz/src/fuzz_target.rs run_as_fuzz_target, reset_state_context, handle_handshake"]}
{"id": "C92", "title": "Fuzz protocol messages arrive as they were sent", "statement": "Any sequence of well-formed protocol messages, framed and sent one after the other, is read back as the same sequence; while part of a message is missing nothing is read; a message of 2^32 octets or more is refused by the sender; the features are the two lowest bits of the peer's word. The octets of each message are the protocol's: its number, then its fields in order and in their widths.", "quantifier": "all messages and sequences of messages, all ways of cutting the stream", "why_tests_cant": "messages contain arbitrary blocks, headers and states", "anchors": ["fuzz/src/types.rs FuzzMessageKind, FuzzProtocolMessage, PeerInfo, Initialize, FuzzFeatures", "fuzz/src/utils.rs StreamUtils"]}
{"id": "C93", "title": "A block's preimages are judged on the state it started from", "statement": "The preimages extrinsic of a block is accepted exactly when every preimage in it was requested by its service and not yet supplied in the state the block started from, whatever the other parts of the block have done to those requests, and under every schedule of the block's tasks.", "quantifier": "all blocks, all prior states, all accumulations and all schedules of the concurrent stages", "why_tests_cant": "the check runs after accumulation, against snapshots kept in the state cache; whether those are the prior state depends on what accumulation did", "anchors": ["extrinsics/src/validation/preimages.rs validate_entry", "state/src/manager.rs get_clean_cache_snapshot_as_state, add_account_entry", "state/src/cache.rs insert_entry, CacheEntry", "transition/src/state/services.rs transition_services_integrate_preimages", "node/src/roles/executor.rs"]}
{"id": "C94", "title": "A block a validator authors in its slot is accepted by every node in the same state", "statement": "When it is a validator's turn, the node makes a block that every other node with the same best block and state accepts, at that moment or later, and afterwards all of them have that block as best block and the same state; this stays true over any number of turns, slots and epochs. A validator whose turn it is not makes none.", "quantifier": "all states, extrinsics, clocks, validator sets and sequences of turns; every VRF whose signatures verify and whose outputs do not depend on the message", "why_tests_cant": "authoring and importing are separate code paths that must agree for every state, including epoch changes, and over every sequence of blocks", "anchors": ["node/src/scheduler/chain_extension.rs extend_chain", "node/src/roles/author.rs author_block_commit_header, author_block_commit_state, prelude, seal_block_header", "node/src/roles/manager.rs is_author_of_slot", "node/src/roles/importer.rs validate_block_header_prior_stf, validate_block_header_post_stf", "node/src/jam_node/init.rs"]}
{"id": "C95", "title": "Only the slot's author extends the chain, and cannot choose the entropy", "statement": "A node imports a block exactly when the block extends its best block, is not from the future, executes, carries the right markers and was sealed, over its whole header, by the validator holding its slot in the posterior state. Two different blocks of one validator for one slot leave the same entropy.", "quantifier": "all nodes, blocks and clocks; for the second part every VRF with unique outputs", "why_tests_cant": "an attacker chooses the block; every combination of header fields, seals and states has to be covered", "anchors": ["node/src/roles/importer.rs import_block, verify_block_seal, verify_vrf_output", "transition/src/state/entropy.rs", "state/src/types/safrole.rs get_slot_sealer"]}
{"id": "C96", "title": "What happens around a node while it authors does not damage it", "statement": "Blocks that a node rejects change nothing in it, even when they arrive while it makes a block of its own; and a block it could not announce leaves it able to import further blocks.", "quantifier": "all nodes, all rejected blocks, all points of the authoring at which they arrive, all sequences of later blocks", "why_tests_cant": "the importer and the author are concurrent tasks sharing a state cache; tests do not exercise their interleavings or a failing network", "anchors": ["node/src/roles/importer.rs run_block_importer", "node/src/scheduler/chain_extension.rs extend_chain", "state/src/manager.rs rollback_dirty_cache, commit_dirty_cache"]}
{"id": "C97", "title": "A running node handles every slot once, at its beginning", "statement": "After it has started, the node considers each timeslot exactly once, in order, and for the first time at the next slot boundary.", "quantifier": "all readings of the clock at the start, all delays of the timer and all numbers of slots", "why_tests_cant": "depends on what the clock says at two moments and on the timer's delays", "anchors": ["clock/src/lib.rs now_jam_timeslot, millis_until_next_timeslot_boundary", "node/src/scheduler/timeslot_scheduler.rs spawn_scheduled_tasks"]}
{"id": "C98", "title": "The extrinsics pool behaves like a bounded list of submissions to all threads at once", "statement": "Whatever threads submit and query at the same time, each query answers the submissions accepted so far for its kind and slot in order, submissions are accepted while there is room, every call returns, and the pool's size is bounded.", "quantifier": "all numbers of threads, all calls and all interleavings of their lock operations", "why_tests_cant": "the interleavings of lock operations are not controlled by tests", "anchors": ["extrinsics/src/pool/mod.rs XtPool add_extrinsic, get_extrinsics_by_type_and_timeslot"]}
{"id": "C99", "title": "Every announced block is requested", "statement": "A peer that reads a node's announcement stream requests the block of every announcement, in order, however the transport cuts the stream into pieces.", "quantifier": "all sequences of headers and all ways to cut the stream into pieces of at most 1024 octets", "why_tests_cant": "the cuts depend on timing and load of the network", "anchors": ["network/src/streams/up_streams.rs UpStreamHandler", "block/src/types/block.rs block_announcement_blob", "network/src/types.rs BlockAnnouncement"]}
{"id": "C100", "title": "A block that a peer can serve is fetched, and it is the announced one", "statement": "Requesting an announced block from a node that has it hands exactly this block to the importer, whatever its size and however the reply is cut.", "quantifier": "all blocks, all replies and all ways to cut them into pieces", "why_tests_cant": "depends on sizes and on the cuts the transport makes", "anchors": ["network/src/streams/ce_streams/block_request.rs BlockRequest", "network/src/streams/ce_streams/mod.rs read_respond", "network/src/streams/up_streams.rs handle_incoming_stream"]}
{"id": "C101", "title": "A node serves every block it has, under its own hash only", "statement": "Whatever a node has authored and imported since genesis, a block request is answered with the block of that hash and its own extrinsics, and every block authored, announced or imported is served.", "quantifier": "all histories of authoring and importing and all requests", "why_tests_cant": "must hold after every history", "anchors": ["storage/src/node_storage.rs get_blocks, get_block", "node/src/roles/author.rs author_block_commit_header, author_block_commit_state", "node/src/roles/importer.rs import_block"]}
{"id": "C102", "title": "A peer's block requests are answered whatever else it sends", "statement": "On a connection, a block request that the node can answer is answered, whatever other streams the peer opened before or opens after.", "quantifier": "all sequences of streams, complete or not", "why_tests_cant": "all interleavings and all malformed streams", "anchors": ["network/src/manager.rs accept_connection, handle_all_streams, connect_to_peer", "network/src/streams/ce_streams/responder.rs CeStreamResponder", "network/src/streams/stream_kinds.rs StreamKind"]}
{"id": "C103", "title": "Two nodes agree who dials, and every validator is dialled", "statement": "Of two nodes exactly one dials the other first; a node's peers are the validators of the three epochs except itself; after the start every peer that has not connected by itself has been dialled once.", "quantifier": "all keys, all validator sets, all subsets of peers that answer or connect by themselves", "why_tests_cant": "all pairs of keys and all combinations of failures", "anchors": ["network/src/utils.rs preferred_initiator, validator_set_to_peers", "network/src/manager.rs load_validator_peers, connect_to_peers, connect_to_all_peers", "node/src/jam_node/mod.rs run_initiator"]}
{"id": "C104", "title": "An auditable bundle survives being written and read, in the Graypaper's octets", "statement": "Writing a bundle that brings what its package declares and reading it gives the same bundle back, whatever follows; whatever is read brings what its package declares; the octets are those of the Graypaper and stay within the bundle limit.", "quantifier": "all packages, blobs, segments and proof paths of any number and length", "why_tests_cant": "ranges over all bundles and all octet strings", "anchors": ["pvm/pvm-invocation/src/refine/auditable_bundle.rs AuditableBundle", "pvm/pvm-types/src/common.rs ExportDataSegment", "codec/fr-codec/src/lib.rs FixedVec"]}
{"id": "C105", "title": "The limits of a work package are those of the Graypaper", "statement": "The checks of a package accept exactly the packages with at most 3072 exports, 3072 imports and 128 extrinsics, of at most 13791360 octets, whose items' gas stays below the limits in total.", "quantifier": "all work packages", "why_tests_cant": "sums over arbitrarily many items, up to the edge of 64 bits", "anchors": ["common/src/types/workloads/work_package.rs validate_data_references_count, validate_work_bundle_size, validate_gas_limits"]}
{"id": "C106", "title": "A service reads the protocol constants at the Graypaper's offsets", "statement": "Asking the host for the protocol constants gives 134 octets with every constant at the Graypaper's place and width, for every chain specification whose constants fit, as both specifications' do.", "quantifier": "all values of the constants that fit their widths", "why_tests_cant": "all values; tests see the built specification only", "anchors": ["pvm/pvm-host/src/host_functions/general/constants_encoder.rs encode_constants_for_fetch_hostcall", "common/src/constants"]}
{"id": "C107", "title": "A guarantor reports every authorised package, and its report describes it", "statement": "The report of a package holds its core, context, authorizer, authorization trace and gas and one digest for each item, within the output limit and naming at most eight packages; packages that are not authorised are refused; every other one has a report.", "quantifier": "all packages, all outcomes of authorization and refinement", "why_tests_cant": "all outcomes of all invocations", "anchors": ["pvm/pvm-invocation/src/refine/pipeline.rs compute_work_report, build_segment_roots_lookup_table", "pvm/pvm-invocation/src/refine/auditable_bundle.rs build_auditable_bundle"]}
{"id": "C108", "title": "A node comes up on a new database with the genesis block and state", "statement": "On an empty database, also after any number of starts that crashed before the state was written, a start succeeds: the genesis block is the best block and can be served, the state in memory and on disk is exactly the genesis components, the recorded root is the root of that state, the node's index is its first place in the active set and its peers are the validators' addresses.", "quantifier": "all genesis states, all hash functions without collisions on the components, all orders of the dirty keys, all sequences of crashes before the state is written", "why_tests_cant": "ranges over crash points and histories of starts, and over the iteration order of a hash set", "anchors": ["node/src/jam_node/init.rs set_genesis_state, init_node", "state/src/state_utils.rs add_all_simple_state_entries", "crypto/src/types/validator_keys.rs get_validator_index"]}
{"id": "C109", "title": "A node can be started again on its database", "statement": "After the process ended, at whatever point, a new start on the same database succeeds and the state is the one last committed.", "quantifier": "all crash points of a start, all histories of committed blocks, all later starts", "why_tests_cant": "ranges over crash points and histories of restarts", "anchors": ["node/src/jam_node/init.rs set_genesis_state, init_node", "state/src/manager.rs add_state_entry_internal", "state/state-merkle-v2/src/merkle_db.rs"]}
{"id": "C110", "title": "Concurrent calls of the state trie behave as if made one at a time, and all of them end", "statement": "Whatever callers do at the same time, and whichever of them give up, there is one order of the executed commands that explains every reply, in which a call that had returned comes before every call made later; no command is executed twice and none that failed is executed; every call ends.", "quantifier": "all schedules of any number of callers and calls, with cancellation at every await point and panics of any command", "why_tests_cant": "ranges over all interleavings", "anchors": ["state/src/merkle_interface/actor.rs MerkleManagerHandle, MerkleActor::run", "state/src/manager.rs StateManager::new"]}
{"id": "C111", "title": "The state can be read while a block is being committed", "statement": "A read that overlaps commits gives the value the state had at some moment during the read.", "quantifier": "all interleavings of the two halves of any number of commits with the two halves of a read", "why_tests_cant": "ranges over all interleavings and histories", "anchors": ["state/src/manager.rs retrieve_state_encoded, commit_dirty_cache, apply_dirty_cache_commit"]}
{"id": "C112", "title": "A batch the trie cannot apply fails alone", "statement": "After a commit that cannot be carried out, reads and further commits still work.", "quantifier": "all schedules and batches", "why_tests_cant": "ranges over all later calls", "anchors": ["state/src/merkle_interface/actor.rs MerkleActor::run", "state/src/merkle_interface/manager.rs"]}
{"id": "C113", "title": "The lookup anchor of an accepted report is a recent block of the chain, and any such block may be one", "statement": "A block's guarantees are accepted only if the lookup anchor of each report is a block of the node's chain of the last L slots, and no report is refused for looking up from such a block.", "quantifier": "all chains, whichever node authored their blocks, and all guarantees extrinsics", "why_tests_cant": "ranges over all chains and reports", "anchors": ["extrinsics/src/validation/guarantees.rs validate_lookup_anchor_block", "block/src/header_db.rs insert_header, commit_header", "node/src/roles/importer.rs run_block_importer", "node/src/roles/author.rs BlockAuthor::new"]}
{"id": "C114", "title": "A replay of test cases succeeds exactly when the target agrees with all of them", "statement": "Replaying a directory succeeds exactly when every case file can be read, the target starts from the genesis case (or else the first case's outcome) with the root it names, and answers every other case, in the order of the names, with its root, or with a refusal where the case expects no change; a failure names the first case of disagreement, after which no block is sent. The order in which the directory is listed does not matter.", "quantifier": "all directories, all case files, all targets", "why_tests_cant": "ranges over all targets and directories", "anchors": ["fuzz/src/fuzzer.rs run_fuzz_trace_dir, run_fuzz_trace_dir_with_timings"]}
{"id": "C115", "title": "Octets written as hexadecimal text are read back, and only their texts are read", "statement": "Octets and keys written to JSON, and texts made by to_hex, are read back as the same octets; a JSON text is read as n octets exactly if it has n pairs of hexadecimal digits of either case, with or without 0x; from_hex reads a text as n octets only if it has 2n digits.", "quantifier": "all octet strings, all texts, all sizes of arrays", "why_tests_cant": "infinitely many texts; tests read well-formed ones", "anchors": ["common/src/types/mod.rs: ByteEncodable::from_hex, to_hex", "common/src/utils/serde.rs: deserialize_hex_array, deserialize_hex_vec, serialize_hex_array, serialize_hex_vec"]}
{"id": "C116", "title": "Every validator key has its own name on the network, and the name gives the key", "statement": "The name of a 32-octet Ed25519 key is the letter e and the key in RFC 4648's base 32 in lower case, 53 characters of a domain name; different keys have different names, and a name is read back as its key.", "quantifier": "all keys of 32 octets", "why_tests_cant": "2^256 keys; a test has one", "anchors": ["crypto/src/types/public_keys.rs: as_dns_name, from_dns_name", "network/src/endpoint.rs: connect"]}
{"id": "C117", "title": "What was submitted to the pool as values is returned as the same values", "statement": "For each slot and kind of extrinsic, the typed getters return the values of the submissions that the pool accepted, in order, and nothing else.", "quantifier": "all sequences of submissions of tickets, guarantees, assurances, preimages, verdicts, culprits and faults, all pool sizes, all slots, all chain parameters", "why_tests_cant": "must hold for every history of submissions, including entries of two kinds that have one encoding", "anchors": ["extrinsics/src/manager.rs: XtManager", "extrinsics/src/pool/mod.rs: OpaqueXtEntry::from_xt_entry, XtPool"]}
{"id": "C118", "title": "Every component of the state is stored in the Graypaper's serialization and is read back unchanged", "statement": "For each of the components of the chain state (authorizer pool and queue, recent history, Safrole state, disputes, entropy, the three validator sets, pending reports, timeslot, privileges, statistics, ready and accumulated queues, last outputs, account metadata, account storage, preimages and lookup timeslots), writing any value the component can hold succeeds, the octets are the ones and the only ones the Graypaper's serialization allows, and reading them as that component yields the value again. Two different values of one component are never written as the same octets.", "quantifier": "All values of all components, for all numbers of validators, cores and slots of an epoch and all limits of the pool and the history.", "why_tests_cant": "The octets enter the state root: a field out of order or a width off in any component forks the chain, and only for the values in which it shows. Test vectors hold a few values of each.", "anchors": ["state/src/state_utils.rs:StateEntryType", "state/src/types/*.rs:JamEncode,JamDecode", "state/src/manager.rs:get_state_entry_internal"]}
{"id": "C119", "title": "Octets no component is written as are refused when a component is read", "statement": "Reading the octets found under a component's key succeeds only on the octets some value of this component is written as, yields that value, and otherwise returns an error.", "quantifier": "All sequences of octets and all components.", "why_tests_cant": "Malformed octets come in infinite variety and most are refused; the ones that are not have to be found by reasoning about the reader.", "anchors": ["state/src/manager.rs:get_state_entry_internal", "state/src/types/safrole.rs:TicketAccumulator::decode", "codec/fr-codec/src/lib.rs"]}
{"id": "C120", "title": "Through its typed accessors the state is a map from entries to values, and its root is the root of the Graypaper's serialization of that map", "statement": "Whatever sequence of reads, additions, changes, removals, commits, rollbacks, prepared blocks and cache evictions is made: a read of a component, account, storage item, preimage or lookup returns the value last written to that very entry (or the committed one, for a clean read), a missing component is an error and a missing account entry is None, and each root returned is the Merkle root of the Graypaper's keys and octets of exactly the entries there are.", "quantifier": "All histories of calls to the typed accessors, all values the components can hold, all orders in which a commit visits the changed keys, all chain parameters, all hash functions without collisions on the strings used.", "why_tests_cant": "Keys, octets, cache and trie are each tested apart; that no two entries share a key, that each value returns through its own decoder, and that the root covers exactly the map must hold for every history.", "anchors": ["state/src/manager.rs:impl_simple_state_accessors,get_state_entry_internal,get_clean_state_entry_internal,with_mut_state_entry_internal,add_state_entry_internal,commit_dirty_cache,prepare_dirty_cache_commit,apply_dirty_cache_commit", "state/src/state_utils.rs:StateKeyConstant,get_simple_state_key,get_account_metadata_state_key,get_account_storage_state_key,get_account_preimage_state_key,get_account_lookups_state_key", "state/state-merkle-v2/src/manager.rs"]}
{"id": "C121", "title": "A guarantee put together from signatures has the first three validators' signatures in order, whatever order they arrive in, and passes the block's checks", "statement": "Offering signatures to a guarantee one by one keeps the first signature of each of the first three validators, ordered by validator index, and answers each offer: taken, refused as a second one of its validator, or refused as a fourth. With signatures of two or three assigned guarantors the entry passes the checks of guarantees in a block, and for at most three validators the entry does not depend on the order of arrival.", "quantifier": "All work reports, all sequences of signatures of any length, all orders of arrival.", "why_tests_cant": "Arrival orders and repetitions are unbounded; a sort on the wrong field or a check after the push only shows for some of them.", "anchors": ["block/src/types/extrinsics/guarantees.rs:GuaranteesXtEntry::new,add_credential", "extrinsics/src/validation/guarantees.rs:validate_entry"]}
{"id": "C122", "title": "Blocks, headers and work packages are written in the Graypaper's octets, and a header's commitments are the Graypaper's hashes", "statement": "For every value of the types, writing a block, a header with or without its seal, or a work package succeeds and gives the one sequence of octets of the Graypaper's serialization: every field in its place, with its width, in its code, optional parts and sequences discriminated, bits eight to an octet from the least significant. The extrinsic hash is the hash of the five parts' hashes, with each guaranteed report replaced by its hash, and the header hash is the hash of the header's octets.", "quantifier": "All blocks, headers and work packages a machine can hold, all chain parameters, all hash functions.", "why_tests_cant": "Encoding and decoding agree with each other when both have a field out of place, so round trips show nothing; test vectors hold a few blocks with most optional parts and sequences empty.", "anchors": ["block/src/types/block.rs:BlockHeaderData::encode_to,BlockHeader::hash", "block/src/types/extrinsics/mod.rs:Extrinsics::hash", "block/src/types/extrinsics/*.rs:encode_to,encode_with_hashed_reports", "common/src/types/workloads/work_package.rs:encode_to", "common/src/types/workloads/work_report.rs:encode_to", "codec/fr-codec/src/lib.rs"]}
{"id": "C123", "title": "A new block is announced to every connected peer, each once and in order", "statement": "Announcing a block gives its header to the announcement stream of every peer that has one, once, and to nobody else; a stream carries the announcements given to it in that order, each once, and while it runs what is not yet on the wire is what its task still has.", "quantifier": "All peers, all orders in which the map of peers is gone through, all interleavings of connecting, opening streams, writing, breaking and any number of announcements.", "why_tests_cant": "Tests announce to one or two healthy peers; whether one peer's broken or stalled stream touches the others shows only in interleavings.", "anchors": ["network/src/manager.rs:announce_block_to_all_peers,open_up_streams", "network/src/peers.rs:store_peer_connection_handle,insert_up_stream_handle", "network/src/streams/up_streams.rs:send_block_announcement,handle_outgoing_stream"]}
{"id": "C124", "title": "An epoch without winning tickets is sealed by its own validators' keys, drawn from its entropy", "statement": "When the first block of a new epoch is accepted and an epoch was skipped, or the previous block came before the end of the ticket contest, or fewer tickets than an epoch's slots were gathered, and only then, the epoch's sealers are keys: for each slot of the epoch the key of the validator of the posterior active set whose index is the hash of the posterior entropy of two epochs ago and the slot's number, its first four octets read as a number, modulo the number of validators.", "quantifier": "All states, all blocks at all clocks, all epoch and contest lengths, all hash functions.", "why_tests_cant": "The draw only shows in epochs without tickets, and a swapped entropy or set only when these differ, which they do not at genesis, where tests start.", "anchors": ["transition/src/state/safrole.rs:compute_next_slot_sealers", "state/src/types/safrole.rs:generate_fallback_keys"]}
{"id": "C125", "title": "A chain that peers announce block by block is imported, whatever order the replies take", "statement": "Blocks that peers announce are asked for one by one. Each fetched block gets to the importer once, in the order in which the blocks came into its queue, and none before the node has dialled its peers. What is imported is a chain on the node's best block. If the announced blocks are a chain on that block, are all fetched and pass their other checks, they are all imported.", "quantifier": "All announcements, all orders and failures of the replies, all interleavings of the tasks that ask, their sends to the bounded queue and the importer.", "why_tests_cant": "Tests announce one block at a time on a loopback link; two replies crossing, or one block missed, are histories they do not have.", "anchors": ["network/src/streams/up_streams.rs:handle_incoming_stream", "node/src/jam_node/runner.rs:run_node", "node/src/roles/importer.rs:run_block_importer"]}
