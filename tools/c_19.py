p("C99","Every announced block is requested",
 "A peer that reads a node's announcement stream requests the block of every announcement, in order, however the transport cuts the stream into pieces.",
 "all sequences of headers and all ways to cut the stream into pieces of at most 1024 octets",
 "the cuts depend on timing and load of the network",
 ["network/src/streams/up_streams.rs UpStreamHandler","block/src/types/block.rs block_announcement_blob","network/src/types.rs BlockAnnouncement"])
claim("C99","partial","announcements_heard_partial piece_unheard announcement_merged_refuted announcement_split_refuted epoch_announcement_refuted",
 "Proved when each announcement arrives as exactly one piece. Two announcements in one piece lose the second; an announcement in two pieces is lost; an announcement of more than 1024 octets (every epoch's first with the full validator set) is never understood.")
p("C100","A block that a peer can serve is fetched, and it is the announced one",
 "Requesting an announced block from a node that has it hands exactly this block to the importer, whatever its size and however the reply is cut.",
 "all blocks, all replies and all ways to cut them into pieces",
 "depends on sizes and on the cuts the transport makes",
 ["network/src/streams/ce_streams/block_request.rs BlockRequest","network/src/streams/ce_streams/mod.rs read_respond","network/src/streams/up_streams.rs handle_incoming_stream"])
claim("C100","partial","block_fetched_partial reply_in_pieces large_block_refuted other_block_refuted",
 "Proved for replies that arrive in one piece. Every reply in several pieces, so every reply above 1024 octets (two tickets suffice), panics the requesting task, as does an empty reply; the hash of the block is not compared with the announced one.")
p("C101","A node serves every block it has, under its own hash only",
 "Whatever a node has authored and imported since genesis, a block request is answered with the block of that hash and its own extrinsics, and every block authored, announced or imported is served.",
 "all histories of authoring and importing and all requests",
 "must hold after every history",
 ["storage/src/node_storage.rs get_blocks, get_block","node/src/roles/author.rs author_block_commit_header, author_block_commit_state","node/src/roles/importer.rs import_block"])
claim("C101","partial","served_block_matches authored_block_served_partial imported_block_refuted announced_block_refuted other_request_refuted",
 "What is served matches its hash (proved), and authored blocks are served once their state is committed. Imported blocks are not: their extrinsics are never stored. A block is announced before its extrinsics are stored. Requests for more than one block or in ascending order panic.")
p("C102","A peer's block requests are answered whatever else it sends",
 "On a connection, a block request that the node can answer is answered, whatever other streams the peer opened before or opens after.",
 "all sequences of streams, complete or not",
 "all interleavings and all malformed streams",
 ["network/src/manager.rs accept_connection, handle_all_streams, connect_to_peer","network/src/streams/ce_streams/responder.rs CeStreamResponder","network/src/streams/stream_kinds.rs StreamKind"])
claim("C102","partial","acceptor_answers initiator_answers_partial initiator_stops_refuted initiator_waits_refuted",
 "Proved for connections the node accepted. On connections it dialled, one stream of a known but unimplemented kind ends the only task that serves the peer, and one silent stream stops it.")
p("C103","Two nodes agree who dials, and every validator is dialled",
 "Of two nodes exactly one dials the other first; a node's peers are the validators of the three epochs except itself; after the start every peer that has not connected by itself has been dialled once.",
 "all keys, all validator sets, all subsets of peers that answer or connect by themselves",
 "all pairs of keys and all combinations of failures",
 ["network/src/utils.rs preferred_initiator, validator_set_to_peers","network/src/manager.rs load_validator_peers, connect_to_peers, connect_to_all_peers","node/src/jam_node/mod.rs run_initiator"])
claim("C103","partial","one_side_dials_first peers_are_validators peers_complete_partial shared_address_refuted all_dialled_partial dialled_at_most_once dead_peer_refuted",
 "Agreement is proved for all keys. Validators that share an address are one peer; a single peer that does not answer in the first round cancels the second, so peers that should have dialled but did not stay unconnected.")
