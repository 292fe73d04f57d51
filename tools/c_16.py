p("C88","Fuzz target: each block is answered from its own parent",
 "After a fuzzer has introduced itself and planted a state, each block it has imported is answered with the root of the state obtained by executing the block over its own parent's state, ring cache and ancestor set, or with an error, and the answer does not depend on which rival blocks over the same parent were imported before it. The parents known are the latest block and the blocks imported over it; importing a child of one of those makes it the latest.",
 "all planted states, all sequences of imported blocks and state requests, with forking and ancestors on or off, and all transition functions",
 "a test imports a few forks with particular blocks; the claim is about every interleaving of forks, failures and settlements",
 ["fuzz/src/fuzz_target.rs process_message, finalize_if_parent_staged, apply_staged_block_commit, determine_block_commit_mode, RingCacheStateSnapshot","node/src/roles/importer.rs import_block, BlockCommitMode","state/src/manager.rs prepare_dirty_cache_commit, apply_dirty_cache_commit"])
claim("C88","partial","import_replies rivals_do_not_matter orphan_block_refuted",
 "For every session whose blocks have a parent hash other than zero and other than their own hash, the replies are those of a reference that keeps a posterior state, ring cache and ancestor set for each block. A block with parent hash zero is taken as a genesis block at any time: it changes the committed state but not the best block (orphan_block_refuted). The transition function is a parameter (its parts are the subject of other claims); tasks that fill the ring cache in the background are not in this model (C53).")
p("C89","Fuzz target: GetState tells the state after the requested block",
 "Asked for the state after the latest block or after one of the blocks imported over it, the fuzz target answers with exactly the entries of that state, each once, in ascending order of keys.",
 "all planted states, all sequences of imported blocks and state requests",
 "the target tracks the set of keys apart from the state, block by block; a test compares the two for particular blocks only",
 ["fuzz/src/fuzz_target.rs build_state_for_hash, collect_state_from_keys, apply_account_state_changes, apply_state_deltas_to_state_keys","transition/src/state/services.rs AccountStateChanges, transition_services_integrate_preimages","node/src/roles/executor.rs"])
claim("C89","partial","told_entries told_states_partial told_states_refuted told_states_unknown_refuted",
 "What is told are always entries of the right state in order (told_entries), and all of them as long as no block integrates a preimage from its preimages extrinsic (told_states_partial). Keys added by the preimages extrinsic are not reported to the target, so once such a block is the latest its preimage entry is missing from this and every later answer (told_states_refuted). Blocks that lost to a rival, or unknown ones, are answered with the latest state (told_states_unknown_refuted).")
p("C90","Fuzz target: a refused block changes nothing",
 "If the fuzz target answers a block with an error, it is afterwards in the state it was in before: later messages are answered as if the block had not been sent.",
 "all states of the target and all blocks that are refused",
 "a test looks at one refused block and a few messages after it",
 ["fuzz/src/fuzz_target.rs process_message, finalize_if_parent_staged"])
claim("C90","partial","refused_block_partial refused_block_refuted",
 "Proved for blocks whose parent is not one of the unresolved rivals, in every state of the target. A refused child of a rival settles the fork before it is validated: the other rivals are forgotten and their valid children are refused (refused_block_refuted).")
p("C91","Fuzz target: sessions are independent",
 "The replies within a session depend on the messages of that session only, not on earlier sessions, however those ended. A session that does not begin with an introduction is not answered, and a second introduction, a second planting of a state or a message only a target sends ends it.",
 "all sequences of sessions",
 "a test runs two sessions with particular messages",
 ["fuzz/src/fuzz_target.rs run_as_fuzz_target, reset_state_context, handle_handshake"])
claim("C91","proved","sessions_independent session_protocol","Sessions that end by a disconnection, an unexpected message or a second Initialize. Panics reset the target as well and are not modelled.")
p("C92","Fuzz protocol messages arrive as they were sent",
 "Any sequence of well-formed protocol messages, framed and sent one after the other, is read back as the same sequence; while part of a message is missing nothing is read; a message of 2^32 octets or more is refused by the sender; the features are the two lowest bits of the peer's word. The octets of each message are the protocol's: its number, then its fields in order and in their widths.",
 "all messages and sequences of messages, all ways of cutting the stream",
 "messages contain arbitrary blocks, headers and states",
 ["fuzz/src/types.rs FuzzMessageKind, FuzzProtocolMessage, PeerInfo, Initialize, FuzzFeatures","fuzz/src/utils.rs StreamUtils"])
claim("C92","proved","messages_arrive message_octets message_frame message_whole features_read text_octets_partial text_octets_refuted frame_canonical_refuted read_total_refuted",
 "Beside it: text (the application name, error messages) is a sequence of compact integers, so octets from 128 on take two octets on the wire and are not what a peer reading plain octets expects (text_octets_refuted, text_octets_partial); octets after the message within a frame are dropped (frame_canonical_refuted); a huge entry count makes the reader panic (read_total_refuted).")
