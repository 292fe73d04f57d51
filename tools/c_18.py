p("C94","A block a validator authors in its slot is accepted by every node in the same state",
 "When it is a validator's turn, the node makes a block that every other node with the same best block and state accepts, at that moment or later, and afterwards all of them have that block as best block and the same state; this stays true over any number of turns, slots and epochs. A validator whose turn it is not makes none.",
 "all states, extrinsics, clocks, validator sets and sequences of turns; every VRF whose signatures verify and whose outputs do not depend on the message",
 "authoring and importing are separate code paths that must agree for every state, including epoch changes, and over every sequence of blocks",
 ["node/src/scheduler/chain_extension.rs extend_chain","node/src/roles/author.rs author_block_commit_header, author_block_commit_state, prelude, seal_block_header","node/src/roles/manager.rs is_author_of_slot","node/src/roles/importer.rs validate_block_header_prior_stf, validate_block_header_post_stf","node/src/jam_node/init.rs"])
claim("C94","partial","authored_block_accepted_partial authors_in_turn_agree_partial authors_in_own_slots_partial stale_index_refuted late_header_refuted ticket_mode_refuted ticket_slot_panics_partial",
 "Proved for nodes whose recorded validator index is right for the posterior set and a header made before the slot ends, in fallback mode. Refuted otherwise: the index is computed from the genesis set only, so after a change of set the right validator's blocks are rejected by all others and kept by itself; the slot is read from the clock again after the turn was checked; in ticket mode the check panics (unimplemented!).")
p("C95","Only the slot's author extends the chain, and cannot choose the entropy",
 "A node imports a block exactly when the block extends its best block, is not from the future, executes, carries the right markers and was sealed, over its whole header, by the validator holding its slot in the posterior state. Two different blocks of one validator for one slot leave the same entropy.",
 "all nodes, blocks and clocks; for the second part every VRF with unique outputs",
 "an attacker chooses the block; every combination of header fields, seals and states has to be covered",
 ["node/src/roles/importer.rs import_block, verify_block_seal, verify_vrf_output","transition/src/state/entropy.rs","state/src/types/safrole.rs get_slot_sealer"])
claim("C95","proved","import_requires_seal entropy_from_vrf entropy_not_chosen","")
p("C96","What happens around a node while it authors does not damage it",
 "Blocks that a node rejects change nothing in it, even when they arrive while it makes a block of its own; and a block it could not announce leaves it able to import further blocks.",
 "all nodes, all rejected blocks, all points of the authoring at which they arrive, all sequences of later blocks",
 "the importer and the author are concurrent tasks sharing a state cache; tests do not exercise their interleavings or a failing network",
 ["node/src/roles/importer.rs run_block_importer","node/src/scheduler/chain_extension.rs extend_chain","state/src/manager.rs rollback_dirty_cache, commit_dirty_cache"])
claim("C96","partial","rejected_block_harmless_partial rejected_block_disturbs_author_refuted unannounced_block_wedges_refuted",
 "Proved when nothing is pending in the cache. Refuted otherwise: the importer's rollback wipes the first phase of the node's own block, which it then announces and commits without it; and a failed announcement leaves the best header set without a state, after which every block is refused.")
p("C97","A running node handles every slot once, at its beginning",
 "After it has started, the node considers each timeslot exactly once, in order, and for the first time at the next slot boundary.",
 "all readings of the clock at the start, all delays of the timer and all numbers of slots",
 "depends on what the clock says at two moments and on the timer's delays",
 ["clock/src/lib.rs now_jam_timeslot, millis_until_next_timeslot_boundary","node/src/scheduler/timeslot_scheduler.rs spawn_scheduled_tasks"])
claim("C97","partial","boundary_exact_partial every_slot_once_partial boundary_crossed_refuted late_tick_refuted clock_set_back_refuted slot_wraps_refuted",
 "Proved when both readings of the clock at the start fall into one slot and every tick is noticed less than a slot late on an evenly running clock. A boundary between the two readings leaves the node without a scheduler for ever; a late tick skips a slot and handles another twice; a clock set back repeats a slot; slots wrap at 2^32.")
p("C98","The extrinsics pool behaves like a bounded list of submissions to all threads at once",
 "Whatever threads submit and query at the same time, each query answers the submissions accepted so far for its kind and slot in order, submissions are accepted while there is room, every call returns, and the pool's size is bounded.",
 "all numbers of threads, all calls and all interleavings of their lock operations",
 "the interleavings of lock operations are not controlled by tests",
 ["extrinsics/src/pool/mod.rs XtPool add_extrinsic, get_extrinsics_by_type_and_timeslot"])
claim("C98","partial","pool_answers pool_progress_partial full_pool_stays_full pool_alone pool_deadlock_refuted pool_bound_refuted",
 "The answers are proved for all interleavings. A submission and a query take the two locks in opposite orders and can block each other for ever; the bound counts different entries, so resubmitting one grows the pool without limit; nothing ever leaves the pool (removal is unimplemented).")
