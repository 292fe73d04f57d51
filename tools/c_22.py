p("C113","The lookup anchor of an accepted report is a recent block of the chain, and any such block may be one",
 "A block's guarantees are accepted only if the lookup anchor of each report is a block of the node's chain of the last L slots, and no report is refused for looking up from such a block.",
 "all chains, whichever node authored their blocks, and all guarantees extrinsics",
 "ranges over all chains and reports",
 ["extrinsics/src/validation/guarantees.rs validate_lookup_anchor_block","block/src/header_db.rs insert_header, commit_header","node/src/roles/importer.rs run_block_importer","node/src/roles/author.rs BlockAuthor::new"])
claim("C113","partial","lookup_anchor_partial node_lookup_anchor_refuted own_block_lookup_refuted",
 "True of a node that checks ancestors and imported all of its chain. The node runs with the check off, so any hash passes; the genesis block and the node's own blocks are not put into the ancestor set, so with the check on reports that look up from them would be refused.")
p("C114","A replay of test cases succeeds exactly when the target agrees with all of them",
 "Replaying a directory succeeds exactly when every case file can be read, the target starts from the genesis case (or else the first case's outcome) with the root it names, and answers every other case, in the order of the names, with its root, or with a refusal where the case expects no change; a failure names the first case of disagreement, after which no block is sent. The order in which the directory is listed does not matter.",
 "all directories, all case files, all targets",
 "ranges over all targets and directories",
 ["fuzz/src/fuzzer.rs run_fuzz_trace_dir, run_fuzz_trace_dir_with_timings"])
claim("C114","proved","replay_succeeds_iff replay_fails_at_first replay_order_free","Without a genesis case the block of the first case is not run (Example first_case_unchecked).")
p("C115","Octets written as hexadecimal text are read back, and only their texts are read",
"Octets and keys written to JSON, and texts made by to_hex, are read back as the same octets; a JSON text is read as n octets exactly if it has n pairs of hexadecimal digits of either case, with or without 0x; from_hex reads a text as n octets only if it has 2n digits.",
"all octet strings, all texts, all sizes of arrays",
"infinitely many texts; tests read well-formed ones",
["common/src/types/mod.rs: ByteEncodable::from_hex, to_hex","common/src/utils/serde.rs: deserialize_hex_array, deserialize_hex_vec, serialize_hex_array, serialize_hex_vec"])
claim("C115","partial","hex_written_is_read hex_texts_written json_hex_texts from_hex_partial from_hex_refuted","JSON is exact. from_hex pads a short text with zeros on the left: a digit lost at the front of a key gives another key, and the empty text is the zero hash.")
p("C116","Every validator key has its own name on the network, and the name gives the key",
"The name of a 32-octet Ed25519 key is the letter e and the key in RFC 4648's base 32 in lower case, 53 characters of a domain name; different keys have different names, and a name is read back as its key.",
"all keys of 32 octets",
"2^256 keys; a test has one",
["crypto/src/types/public_keys.rs: as_dns_name, from_dns_name","network/src/endpoint.rs: connect"])
claim("C116","proved","dns_names","The alphabet and the grouping are written apart in Text_Spec. Other texts (upper case, or spare bits set in the last character) are read as the same key: Example dns_case.")
p("C117","What was submitted to the pool as values is returned as the same values",
"For each slot and kind of extrinsic, the typed getters return the values of the submissions that the pool accepted, in order, and nothing else.",
"all sequences of submissions of tickets, guarantees, assurances, preimages, verdicts, culprits and faults, all pool sizes, all slots, all chain parameters",
"must hold for every history of submissions, including entries of two kinds that have one encoding",
["extrinsics/src/manager.rs: XtManager","extrinsics/src/pool/mod.rs: OpaqueXtEntry::from_xt_entry, XtPool"])
claim("C117","partial","getters_partial getters_flood_refuted getters_raw_refuted","Holds with the error for more guarantees than cores or more assurances than validators spelled out. One guarantee too many makes the getter fail for the slot for ever; thirteen octets not made from a value make the getter of preimages panic.")
p("C118","Every component of the state is stored in the Graypaper's serialization and is read back unchanged",
"For each of the components of the chain state (authorizer pool and queue, recent history, Safrole state, disputes, entropy, the three validator sets, pending reports, timeslot, privileges, statistics, ready and accumulated queues, last outputs, account metadata, account storage, preimages and lookup timeslots), writing any value the component can hold succeeds, the octets are the ones and the only ones the Graypaper's serialization allows, and reading them as that component yields the value again. Two different values of one component are never written as the same octets.",
"All values of all components, for all numbers of validators, cores and slots of an epoch and all limits of the pool and the history.",
"The octets enter the state root: a field out of order or a width off in any component forks the chain, and only for the values in which it shows. Test vectors hold a few values of each.",
["state/src/state_utils.rs:StateEntryType","state/src/types/*.rs:JamEncode,JamDecode","state/src/manager.rs:get_state_entry_internal"])
p("C119","Octets no component is written as are refused when a component is read",
"Reading the octets found under a component's key succeeds only on the octets some value of this component is written as, yields that value, and otherwise returns an error.",
"All sequences of octets and all components.",
"Malformed octets come in infinite variety and most are refused; the ones that are not have to be found by reasoning about the reader.",
["state/src/manager.rs:get_state_entry_internal","state/src/types/safrole.rs:TicketAccumulator::decode","codec/fr-codec/src/lib.rs"])
claim("C118","proved","components_stored components_distinct","The set of entries is StateEntryType without its test-only Raw. The Graypaper leaves to its type conventions how wide the service ids in the keys of the always-accumulate map and of the services' statistics are; the specification takes the code's (general code and four octets). The sets of the disputes are written in the order they are held in; that this is ascending is C45.")
claim("C119","partial","components_strict_partial components_tail_refuted components_strict_refuted","False as stated. Trailing octets are ignored for every component but storage and preimages (components_tail_refuted, for all values and tails); an unsorted sequence of tickets is read like the sorted one, and an absurd length prefix ends the process (components_strict_refuted). What holds is that for the components without variable length what is read stands at the front of the octets.")
p("C120","Through its typed accessors the state is a map from entries to values, and its root is the root of the Graypaper's serialization of that map",
"Whatever sequence of reads, additions, changes, removals, commits, rollbacks, prepared blocks and cache evictions is made: a read of a component, account, storage item, preimage or lookup returns the value last written to that very entry (or the committed one, for a clean read), a missing component is an error and a missing account entry is None, and each root returned is the Merkle root of the Graypaper's keys and octets of exactly the entries there are.",
"All histories of calls to the typed accessors, all values the components can hold, all orders in which a commit visits the changed keys, all chain parameters, all hash functions without collisions on the strings used.",
"Keys, octets, cache and trie are each tested apart; that no two entries share a key, that each value returns through its own decoder, and that the root covers exactly the map must hold for every history.",
["state/src/manager.rs:impl_simple_state_accessors,get_state_entry_internal,get_clean_state_entry_internal,with_mut_state_entry_internal,add_state_entry_internal,commit_dirty_cache,prepare_dirty_cache_commit,apply_dirty_cache_commit","state/src/state_utils.rs:StateKeyConstant,get_simple_state_key,get_account_metadata_state_key,get_account_storage_state_key,get_account_preimage_state_key,get_account_lookups_state_key","state/state-merkle-v2/src/manager.rs"])
claim("C120","partial","typed_state_partial typed_state_refuted","Composes C32, C33, C35 and C118. The histories left out (proper) are those of C32 in which the claim fails: a clean read of an entry added since the commit (typed_state_refuted), removing and adding again, and the others of C32. Keys are assumed not to clash (separate), for which C35 says when they do.")
p("C121","A guarantee put together from signatures has the first three validators' signatures in order, whatever order they arrive in, and passes the block's checks",
"Offering signatures to a guarantee one by one keeps the first signature of each of the first three validators, ordered by validator index, and answers each offer: taken, refused as a second one of its validator, or refused as a fourth. With signatures of two or three assigned guarantors the entry passes the checks of guarantees in a block, and for at most three validators the entry does not depend on the order of arrival.",
"All work reports, all sequences of signatures of any length, all orders of arrival.",
"Arrival orders and repetitions are unbounded; a sort on the wrong field or a check after the push only shows for some of them.",
["block/src/types/extrinsics/guarantees.rs:GuaranteesXtEntry::new,add_credential","extrinsics/src/validation/guarantees.rs:validate_entry"])
claim("C121","proved","credentials_gathered credentials_accepted credentials_any_order credentials_first_refuted","credentials_first_refuted records what the API does not do: signatures are not verified when added, so a wrong one keeps the right one of the same validator out.")
p("C122","Blocks, headers and work packages are written in the Graypaper's octets, and a header's commitments are the Graypaper's hashes",
"For every value of the types, writing a block, a header with or without its seal, or a work package succeeds and gives the one sequence of octets of the Graypaper's serialization: every field in its place, with its width, in its code, optional parts and sequences discriminated, bits eight to an octet from the least significant. The extrinsic hash is the hash of the five parts' hashes, with each guaranteed report replaced by its hash, and the header hash is the hash of the header's octets.",
"All blocks, headers and work packages a machine can hold, all chain parameters, all hash functions.",
"Encoding and decoding agree with each other when both have a field out of place, so round trips show nothing; test vectors hold a few blocks with most optional parts and sequences empty.",
["block/src/types/block.rs:BlockHeaderData::encode_to,BlockHeader::hash","block/src/types/extrinsics/mod.rs:Extrinsics::hash","block/src/types/extrinsics/*.rs:encode_to,encode_with_hashed_reports","common/src/types/workloads/work_package.rs:encode_to","common/src/types/workloads/work_report.rs:encode_to","codec/fr-codec/src/lib.rs"])
claim("C122","proved","block_octets header_octets package_octets body_commitment header_hash_of_octets","The specification (Wire_Spec, with Comp_Spec for reports) writes each type as a list of parts and does not use the encoder. The attempt of a ticket is taken to be in the general code, as in the code; the Graypaper's single octet is the same for every attempt below 128.")
p("C123","A new block is announced to every connected peer, each once and in order",
"Announcing a block gives its header to the announcement stream of every peer that has one, once, and to nobody else; a stream carries the announcements given to it in that order, each once, and while it runs what is not yet on the wire is what its task still has.",
"All peers, all orders in which the map of peers is gone through, all interleavings of connecting, opening streams, writing, breaking and any number of announcements.",
"Tests announce to one or two healthy peers; whether one peer's broken or stalled stream touches the others shows only in interleavings.",
["network/src/manager.rs:announce_block_to_all_peers,open_up_streams","network/src/peers.rs:store_peer_connection_handle,insert_up_stream_handle","network/src/streams/up_streams.rs:send_block_announcement,handle_outgoing_stream"])
claim("C123","partial","stream_in_order announcement_told announced_to_all_partial broken_peer_silences full_peer_stalls announced_to_all_refuted","False as stated: a peer whose stream has broken ends every later announcement with an error, and the peers behind it in the map hear nothing until that peer connects again (broken_peer_silences, for all histories; announced_to_all_refuted); a peer that does not read holds all announcements once its channel is full (full_peer_stalls). The error reaches the author after it has stored the header and before it commits the state, which is C96. While all streams run and have room the claim holds (announced_to_all_partial).")
p("C124","An epoch without winning tickets is sealed by its own validators' keys, drawn from its entropy",
"When the first block of a new epoch is accepted and an epoch was skipped, or the previous block came before the end of the ticket contest, or fewer tickets than an epoch's slots were gathered, and only then, the epoch's sealers are keys: for each slot of the epoch the key of the validator of the posterior active set whose index is the hash of the posterior entropy of two epochs ago and the slot's number, its first four octets read as a number, modulo the number of validators.",
"All states, all blocks at all clocks, all epoch and contest lengths, all hash functions.",
"The draw only shows in epochs without tickets, and a swapped entropy or set only when these differ, which they do not at genesis, where tests start.",
["transition/src/state/safrole.rs:compute_next_slot_sealers","state/src/types/safrole.rs:generate_fallback_keys"])
claim("C124","proved","fallback_sealers fallback_when","Ticket-sealed epochs are C50. Both theorems speak of accepted blocks; drawing fails only if the validator set is shorter than the configured number.")
p("C125","A chain that peers announce block by block is imported, whatever order the replies take",
"Blocks that peers announce are asked for one by one. Each fetched block gets to the importer once, in the order in which the blocks came into its queue, and none before the node has dialled its peers. What is imported is a chain on the node's best block. If the announced blocks are a chain on that block, are all fetched and pass their other checks, they are all imported.",
"All announcements, all orders and failures of the replies, all interleavings of the tasks that ask, their sends to the bounded queue and the importer.",
"Tests announce one block at a time on a loopback link; two replies crossing, or one block missed, are histories they do not have.",
["network/src/streams/up_streams.rs:handle_incoming_stream","node/src/jam_node/runner.rs:run_node","node/src/roles/importer.rs:run_block_importer"])
claim("C125","partial","blocks_kept accepted_is_chain blocks_get_through announced_chain_imported_partial one_at_a_time_imported_partial early_child_stalls missed_block_stalls announced_chain_imported_refuted","False as stated: every announcement starts a task of its own, and the importer takes the blocks in the order of the replies. A child that comes before its parent is refused and never asked for again, so every block after it is refused too (early_child_stalls); the same holds after one missed block, for ancestors are not asked for (missed_block_stalls). True when the blocks come in the order of the chain. The node's own blocks and blocks claiming to be a genesis block are left out.")
