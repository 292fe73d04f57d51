claim("C19","proved","auth_pool_update auth_pool_history")
claim("C20","proved","accumulatable_terminates accumulatable_in_order accumulatable_complete accumulatable_once dependencies_accumulated_first accumulated_once_per_window","'Once' needs distinct input packages, which guarantee validation checks; stated as a hypothesis.")
claim("C21","proved","queue_ring_step queue_ring_total queue_ring_history")
claim("C22","proved","history_is_window history_set history_union_is_union history_count_checked")
claim("C23","proved","max_processable_longest_prefix")
claim("C24","proved","accumulation_gas_bounded accumulation_shares_partition accumulation_terminates","Service behaviour is an arbitrary oracle; termination assumes each service keeps to its gas limit and pays for its transfers.")
p("C54","Gas accounting never loses a block","If every service uses at most the gas it is given and pays for its transfers, accumulation never ends in a gas overflow error.",
  "every report list, always-accumulate set and service behaviour","The error needs always-accumulate gas and a first round that nearly fills the block limit.",
  ["pvm/pvm-invocation/src/accumulate/pipeline.rs: accumulate_outer","transition/src/state/services.rs: transition_on_accumulate"])
claim("C54","partial","accumulation_gas_failure_refuted accumulation_no_gas_failure_partial","False of the code: always-accumulate gas is not reserved when the first round's reports are chosen. Proved when it fits beside them.")
claim("C45","proved","judged_sets_history")
p("C55","Messages signed for different purposes never coincide",
  "For any two of the protocol's signing contexts and any payloads of the sizes the protocol uses, equal messages have equal contexts and payloads.",
  "all contexts and payloads","A signature accepted for one purpose must be useless for every other, whatever the payload.",
  ["common/src/constants/mod.rs: X_A..X_0","extrinsics/src/validation","node/src/roles/importer.rs"])
claim("C55","proved","signing_contexts_separated")
p("C56","An offender is recorded once",
  "After any chain of accepted disputes extrinsics the offenders record holds no key twice, as the union of sets in the specification.",
  "every chain of blocks","Depends on the combination of offences within one extrinsic and over history.",
  ["state/src/types/disputes.rs: sort_extend_punish_set","extrinsics/src/validation/disputes.rs"])
claim("C56","partial","punish_set_refuted punish_set_partial","False of the code: a key that is both culprit and fault in one extrinsic is recorded twice. Proved when no key is both.")
