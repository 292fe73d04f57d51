p("C108","A node comes up on a new database with the genesis block and state",
 "On an empty database, also after any number of starts that crashed before the state was written, a start succeeds: the genesis block is the best block and can be served, the state in memory and on disk is exactly the genesis components, the recorded root is the root of that state, the node's index is its first place in the active set and its peers are the validators' addresses.",
 "all genesis states, all hash functions without collisions on the components, all orders of the dirty keys, all sequences of crashes before the state is written",
 "ranges over crash points and histories of starts, and over the iteration order of a hash set",
 ["node/src/jam_node/init.rs set_genesis_state, init_node","state/src/state_utils.rs add_all_simple_state_entries","crypto/src/types/validator_keys.rs get_validator_index"])
claim("C108","proved","boot_fresh","")
p("C109","A node can be started again on its database",
 "After the process ended, at whatever point, a new start on the same database succeeds and the state is the one last committed.",
 "all crash points of a start, all histories of committed blocks, all later starts",
 "ranges over crash points and histories of restarts",
 ["node/src/jam_node/init.rs set_genesis_state, init_node","state/src/manager.rs add_state_entry_internal","state/state-merkle-v2/src/merkle_db.rs"])
claim("C109","partial","refused_start_keeps_partial second_start_refuted start_is_a_crash_point start_after_blocks_refuted start_between_refuted",
 "Every start tries to add the genesis state, which is refused once it is stored: no node that came up, or crashed after the trie was written, ever comes up again on its database, nor does one that imported blocks. A crash between the two trie batches makes the next start panic. What holds is that a refused start leaves the state, the roots and the other blocks as they were.")
p("C110","Concurrent calls of the state trie behave as if made one at a time, and all of them end",
 "Whatever callers do at the same time, and whichever of them give up, there is one order of the executed commands that explains every reply, in which a call that had returned comes before every call made later; no command is executed twice and none that failed is executed; every call ends.",
 "all schedules of any number of callers and calls, with cancellation at every await point and panics of any command",
 "ranges over all interleavings",
 ["state/src/merkle_interface/actor.rs MerkleManagerHandle, MerkleActor::run","state/src/manager.rs StateManager::new"])
claim("C110","proved","calls_linearize calls_end","")
p("C111","The state can be read while a block is being committed",
 "A read that overlaps commits gives the value the state had at some moment during the read.",
 "all interleavings of the two halves of any number of commits with the two halves of a read",
 "ranges over all interleavings and histories",
 ["state/src/manager.rs retrieve_state_encoded, commit_dirty_cache, apply_dirty_cache_commit"])
claim("C111","partial","concurrent_read_partial concurrent_read_refuted",
 "The value is right whenever there is one, and there is one if no commit was half done at the start or at the end of the read, or the value is short. While a commit stands between the trie and the state database, a long value it replaces can be read neither in the old nor in the new version: the read fails.")
p("C112","A batch the trie cannot apply fails alone",
 "After a commit that cannot be carried out, reads and further commits still work.",
 "all schedules and batches",
 "ranges over all later calls",
 ["state/src/merkle_interface/actor.rs MerkleActor::run","state/src/merkle_interface/manager.rs"])
claim("C112","partial","task_dead_partial panic_closes_state_refuted",
 "A batch that makes the trie panic, such as adding a stored key, ends the task: every later read and commit of the process fails, while the node runs on. What holds is that the state then stays as it is and replies already on their way still arrive.")
