claim("C44","partial","block_history_window_partial parentless_block_refuted","Proved for any mix of accepted and rejected submissions none of which claims the zero parent hash, over arbitrary state transitions, state roots and hash functions: window, header hashes, Beefy roots, sorted reported packages and state roots. A submitted block with a zero parent hash is applied without any check and overwrites the recorded state root of the best block (parentless_block_refuted).")
p("C58","Only blocks extending the best block are applied, and rejected blocks change nothing",
 "A block submitted to the importer is applied only if its parent is the best block, its slot is later than the best block's and not in the future, it names the state root the node has, its extrinsic hash matches and the header checks (seal, author, markers) pass; a rejected block leaves state, best block and recorded roots as they were. So the applied blocks form one chain.",
 "every sequence of submitted blocks, accepted or not, from any node state","Quantifies over all sequences of valid, invalid and hostile submissions.",
 ["node/src/roles/importer.rs: import_block, validate_block_header, run_state_transition, commit","block/src/types/block.rs: is_genesis"])
claim("C58","partial","applied_blocks_link_partial applied_block_checked_partial rejected_block_changes_nothing parentless_block_refuted","Full claim for every submission with a nonzero parent hash. False for a zero parent hash: such a block is taken for the genesis block at any time and applied with no header check. The transition itself and the header checks are arbitrary functions.")
p("C59","The ancestor set holds exactly the latest L headers added",
 "After any sequence of additions in any order, with repetitions, the set contains an entry iff it was added and fewer than L distinct added entries are later; it never holds more than L.",
 "every sequence of additions, every capacity","Two indexes (heap and hash set) must stay in step over all histories.",
 ["block/src/ancestors.rs: AncestorSet","block/src/header_db.rs"])
claim("C59","proved","ancestor_set_latest ancestor_remove_refuted","Additions, which is what the importer does. Finding: removal (unused by the importer) drops every slot's entry with the same hash from the heap but one from the set, so the two go out of step (ancestor_remove_refuted).")
