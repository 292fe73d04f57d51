p("C49","Executing a block gives the same result under every scheduling of its transition tasks",
  "The transitions a block executes concurrently share one cached state. Whatever the interleaving of their reads and writes, each succeeds or fails as it would alone, and the state afterwards, including exactly which components are to be committed, is that of running them one after the other.",
  "every block, state, interleaving of cache and database accesses of the concurrent tasks, and eviction by the cache","Interleavings at every await point of up to five tasks; the failing ones need a cold cache and a particular order.",
  ["node/src/roles/executor.rs: run_state_transition_pre_header_commitment, run_state_transition_post_header_commitment","state/src/manager.rs: get_state_entry_internal, get_clean_state_entry_internal, with_mut_state_entry_internal","state/src/cache.rs: with_mut_entry, insert_entry","transition/src/state"])
claim("C49","partial","tasks_any_schedule_partial tasks_finish block_any_schedule_partial block_schedules_agree_partial block_executes lost_update_refuted evicted_update_refuted","False in general: if the active or past validator set is not cached at an epoch change, a clean read that missed the cache can put the old set over the new one (lost_update_refuted); and a component evicted between its loading and its change makes the transition fail (evicted_update_refuted). Proved for every schedule when the two sets are cached at the start of the first stage on an epoch change and the cache does not drop what the running tasks change. What tasks compute from what they read is a parameter, except for the entropy.")
