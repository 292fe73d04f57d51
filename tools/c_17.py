p("C93","A block's preimages are judged on the state it started from",
 "The preimages extrinsic of a block is accepted exactly when every preimage in it was requested by its service and not yet supplied in the state the block started from, whatever the other parts of the block have done to those requests, and under every schedule of the block's tasks.",
 "all blocks, all prior states, all accumulations and all schedules of the concurrent stages",
 "the check runs after accumulation, against snapshots kept in the state cache; whether those are the prior state depends on what accumulation did",
 ["extrinsics/src/validation/preimages.rs validate_entry","state/src/manager.rs get_clean_cache_snapshot_as_state, add_account_entry","state/src/cache.rs insert_entry, CacheEntry","transition/src/state/services.rs transition_services_integrate_preimages","node/src/roles/executor.rs"])
claim("C93","partial","preimages_judged_on_prior_partial solicited_in_block_accepted_refuted provided_in_block_rejected_refuted",
 "Proved for blocks whose accumulation creates none of the entries the extrinsic is about. An entry created during accumulation has itself as its clean snapshot, so a blob requested by the same block's accumulation is accepted, and a blob that was requested before the block and is provided by its accumulation gets the block rejected.")
