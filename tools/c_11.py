claim("C41","partial","privileges_merge_partial assigner_merge_refuted","For every set of services and every history of host calls of each, in every order; the assigner of a core is wrong in one case: the manager BLESSes, leaves that core's assigner, and the assigner assigned the core to another in the same round. Then its choice is dropped.")
p("C74","A round's accounts are the union of what its services left",
 "After a round each service's account is as it left it, accounts it made are there, accounts it removed are gone, all others are as they were, and every preimage provided to a service that asked for it is there; the accounts are in order again.",
 "every round that begins in order: every set of services, programs, gas limits, inputs","Any number of services with any programs.",
 ["pvm/pvm-invocation/src/accumulate/pipeline.rs: accumulate_parallel, merge_partial_state_change, add_provided_preimages"])
claim("C74","partial","round_partial provided_late_refuted","For rounds whose host calls are permitted (C68), in which no two services make the same account and no preimage is provided to a service that accumulates, or is made, later in the round: such a preimage is lost.")
p("C75","A block's accumulation ends",
 "For every state, list of reports, privileges and programs, the accumulation of a block ends after at most as many rounds as the gas limit and the number of reports.",
 "every state, report list, always-accumulate set, program, gas limit below 2^64","Programs and transfers between services are arbitrary.",
 ["pvm/pvm-invocation/src/accumulate/pipeline.rs: accumulate_outer"])
claim("C75","proved","block_terminates","With the interpreter, host calls and accounts modelled: no assumption on the services. The fuel of an invocation is any number of at least 2^63.")
p("C76","A block's gas adds up",
 "In every round the services use no more than their shares; what they use and the transfers they pay for come out of the limit; the reports accumulated are the longest prefix the gas allows; nothing is left to do at the end.",
 "every block that succeeds","All programs, all rounds.",
 ["pvm/pvm-invocation/src/accumulate/pipeline.rs: accumulate_outer, accumulate_parallel","pvm/pvm-invocation/src/accumulate/mod.rs"])
claim("C76","proved","block_gas","Of the modelled programs and host calls, not of an oracle as in C24.")
p("C77","A block's accumulation makes no money",
 "The total of all balances after a block's accumulation is at most the total before, and equal to it if no transfer goes to a missing or removed service; every account's footprint is counted rightly and covered by its balance.",
 "every block whose host calls are permitted, every order of the hash maps","All programs and transfers.",
 ["pvm/pvm-invocation/src/accumulate/pipeline.rs","pvm/pvm-host/src/context/partial_state.rs","transition/src/state/services.rs"])
claim("C77","partial","block_accounts_partial block_inputs","For blocks whose services keep to [all_fair] (permitted host calls, no two services making the same account in a round, preimages provided in time).")
p("C78","No service can make a block fail",
 "Whatever a service's program does, the accumulation of the block succeeds.",
 "every program","All programs.",
 ["pvm/pvm-invocation/src/accumulate/pipeline.rs","pvm/pvm-invocation/src/accumulate/mod.rs","pvm/pvm-core/src/gas/mod.rs"])
claim("C78","partial","block_succeeds_partial block_no_gas_failure_partial block_clash_refuted block_transfer_refuted block_register_refuted","False of the code: a TRANSFER with 2^63 of gas, a regular end with 2^32 or more in register 7, code that does not decode (C73), and two services that make the same small account each fail the block. Proved when every accumulation ends without an error and no two services make the same account.")
