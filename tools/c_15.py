p("C86","The activity statistics say what validators, cores and services did",
  "After any history of blocks from genesis, the current-epoch record of every validator holds the number of blocks it authored in the latest block's epoch, the tickets, preimages and preimage octets in them, the blocks of that epoch in which its key reported, and those with its assurance; the previous record holds the same for the latest earlier epoch that had blocks; each core's record holds the totals of the latest block's guarantees, available reports and assurances for that core; there is one record for exactly each service that had a digest, a preimage or accumulation in the latest block, in id order, with its totals. Counters wrap at their width in a release build; a debug build that does not stop has the exact totals, and the data size of a report is its bundle and its exported segments with their proofs.",
  "every history of blocks with any slots and skipped epochs, any number of validators and cores, every order of enumeration of the hash set of accumulated services, both build modes","Totals depend on the whole epoch's history and on which epochs were skipped; overflow needs totals beyond any test.",
  ["transition/src/state/statistics.rs: transition_onchain_statistics","state/src/types/statistics.rs: ValidatorStats, CoreStatsEntry, ServiceStatsEntry","pvm/pvm-types/src/stats.rs: AccumulateStats::from_accumulated_reports","block/src/types/extrinsics/assurances.rs: cores_assurances_counts"])
claim("C86","partial","statistics_release statistics_exact statistics_debug data_size_partial data_size_refuted","All but the data size of available reports: the code counts 4104*65*ceil(n/64) octets for n exported segments where the Graypaper has 4104*ceil(65n/64), equal only for multiples of 64 (data_size_partial, data_size_refuted). Blocks are assumed to have valid indices and lengths (good); the accumulate gas total fits 64 bits.")
p("C87","Stored statistics are read back unchanged",
  "The octets stored for the activity statistics after any history decode to the same statistics, whatever follows them.",
  "every history of blocks","The map of services, its key widths and the compact integers interact for every set of services and every total.",
  ["state/src/types/statistics.rs: JamEncode/JamDecode for ValidatorStatsEntry, CoreStatsEntry, ServiceStatsEntry, ServiceStats"])
claim("C87","proved","statistics_stored","Release build; service ids are 32-bit.")
