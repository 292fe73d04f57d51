claim("C12","proved","shuffle_is_fisher_yates shuffle_is_permutation shuffle_with_hash_is_permutation shuffle_value_independent shuffle_reaches_every_permutation shuffle_residues_unique randoms_drawn")
claim("C13","proved","rotation_balanced rotation_is_shift_of_epoch_start previous_rotation rotation_by_entropy")
p("C50","The winning-tickets marker announces exactly the ticket sealers of the next epoch",
 "Over any history of accepted blocks, an epoch is sealed by tickets exactly when the previous epoch was the immediately preceding one and one of its headers carried a winning-tickets marker; the sealers are the tickets of that marker. An epoch has at most one such marker.",
 "every chain of accepted blocks, every epoch length and contest duration","Relates headers published many blocks apart to the state they lead to.",
 ["transition/src/state/safrole.rs: mark_safrole_header_markers, compute_next_slot_sealers, handle_ticket_accumulation"])
p("C51","The epoch marker announces the posterior entropy and validator keys, from which punished validators are removed",
 "A block's header carries an epoch marker exactly when it opens an epoch; it holds the posterior entropy entries 1 and 2 and the keys of the posterior pending set. In that set every key whose Ed25519 component is in the posterior punish set has been replaced by the null key, and the ring root is that of this set.",
 "every state and accepted block","All states and blocks.",
 ["transition/src/state/safrole.rs: handle_new_epoch_transition, mark_safrole_header_markers","state/src/types/validators.rs: nullify_punished_validators"])
p("C52","An accepted tickets extrinsic contains no useless ticket",
 "Every ticket of an accepted extrinsic is in the posterior accumulator, and the uselessness check refuses only extrinsics that contain a ticket that would be dropped. The extrinsic comes within the contest, has at most the allowed number of tickets, strictly ascending, none of them already in the accumulator.",
 "every accumulator content and every list of new tickets","All sets of ids.",
 ["extrinsics/src/validation/tickets.rs: validate","state/src/types/safrole.rs: TicketAccumulator::add"])
claim("C14","proved","accumulator_keeps_best accumulator_extends accumulator_ids_order_independent accumulator_order_independent accumulator_order_refuted accumulator_model","Order-independence of the tickets themselves needs distinct ids: Ticket's Ord ignores the attempt (accumulator_order_refuted). Ids are VRF outputs and validation refuses duplicates.")
claim("C15","proved","outside_in_positions outside_in_permutation outside_in_empty_refuted")
claim("C16","proved","predictions_match")
claim("C17","proved","entropy_accumulates constant_within_epoch rotates_at_epoch_change")
claim("C18","partial","timeslot_accepted_iff slots_strictly_increase future_slot_refuted future_slot_partial","False of the code as stated: the future check counts slot 1 as starting at the era, so a block is accepted up to one slot before its slot begins.")
claim("C50","proved","winning_marker_is_next_sealers winning_marker_once_per_epoch")
claim("C51","proved","punished_not_in_pending epoch_marker_announces")
claim("C52","proved","accepted_tickets_all_kept accepted_tickets_proper useless_tickets_dropped")
p("C53","Cached ring data always belongs to the right validator set",
 "Ring commitments are computed in the background and cached. In every interleaving of block imports with background computations, the ring root installed at an epoch change is that of the staging set without the punished keys, and the ring verifier used for a block's tickets is that of the pending set.",
 "every start state, every sequence of blocks, every interleaving with background tasks that may be late or fail","Depends on task timing and on long histories of designations and offences.",
 ["state/src/manager.rs: get_or_generate_curr_ring_context, get_or_generate_staging_ring_context, update_staging_ring_cache_entry_guarded, nullify_offenders_from_staging_ring_cache","transition/src/ring_cache.rs: schedule_ring_cache_update","transition/src/state/disputes.rs","transition/src/state/privileges.rs","node/src/roles/executor.rs"])
claim("C53","partial","ring_root_of_required_set ticket_ring_after_reject_refuted ticket_ring_same_slot_refuted ticket_ring_of_pending_set_partial","The ring-root half is proved in full. The ticket half is false of the code: the cache is not restored when a block is rejected, and the hit rule for the current entry can pick a stale set when an epoch-opening block also designates; proved outside those two cases.")
