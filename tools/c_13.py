p("C81","Every host call of a refinement answers as the Graypaper says",
 "In a refinement, whatever calls were made before, GAS, FETCH, HISTORICAL_LOOKUP, EXPORT, MACHINE, PEEK, POKE, PAGES, INVOKE, EXPUNGE and unknown calls give the answer, deliver the octets and leave the exports and inner machines that the Graypaper's tables say; they come back; they cost the guest ten gas and change nothing else of it.",
 "every history of calls, every register, memory and gas of the calling machine, every package, import, extrinsic and state","All histories, registers and memories.",
 ["pvm/pvm-host/src/host_functions/refine/mod.rs","pvm/pvm-host/src/host_functions/general/mod.rs: host_fetch","pvm/pvm-host/src/context/mod.rs: RefineHostContext","pvm/pvm-host/src/inner_vm.rs","pvm/pvm-interface/src/invoke.rs"])
claim("C81","partial","refine_calls_exact_partial refine_answer_unique refine_calls_total_partial refine_call_guest machine_numbers pages_refuted inner_memory_refuted pages_crash_refuted machine_crash_refuted machine_number_refuted summaries_refuted inner_read_refuted invoke_gas_refuted",
 "Inner machines are made with a memory of no octets and no pages, so PAGES in modes 0 to 2 always answers HUH, no inner machine ever has memory (inner_memory_refuted), and one that reads memory makes the refinement fail. Numbers of expunged machines are not used again. FETCH 11 puts a length before every summary. A wrapping page count or a program blob that claims too much code panics; INVOKE with gas of 2^63 or more fails the refinement. Proved for all other calls.")
p("C82","Exports are numbered without gaps, bounded, and come only from refinements that succeed",
 "The answers of EXPORT count up from the number of exports declared by the items before; earlier segments never change; a refinement gives segments of 4104 octets, at most 3072 with those before it, none when it fails, and exactly those exported by its calls when it succeeds.",
 "every history of calls; every code, package and state","All histories and programs.",
 ["pvm/pvm-host/src/host_functions/refine/mod.rs: host_export","pvm/pvm-invocation/src/refine/mod.rs: refine"])
claim("C82","proved","export_numbers exports_kept refine_gives","The gas bound of refine_gives is for items whose gas is below 2^64, which their type ensures.")
p("C83","A refinement without usable code says so",
 "A refinement's result is BAD exactly when the item, its service or its code (by historical lookup) is missing, and BIG exactly when the code is longer than 4,000,000 octets.",
 "every package, item index and state","All packages and states.",
 ["pvm/pvm-invocation/src/refine/mod.rs: refine","common/src/types/workloads/work_report.rs: WorkExecutionResult"])
claim("C83","proved","refine_no_code refine_arguments","The code is what is left after its metadata (split_code); a preimage whose metadata does not decode fails the refinement instead.")
p("C84","Every host call of an authorization answers as the Graypaper says, and an authorization keeps its limits",
 "In an authorization only GAS, FETCH (of constants and package data) and LOG answer, as the Graypaper says, and always; the result is BAD exactly when there is no code, BIG exactly when it is longer than 64,000 octets; at most 50,000,000 gas is used.",
 "every call, register, memory, package and state","All registers, memories and packages.",
 ["pvm/pvm-host/src/host_functions/general/mod.rs: host_fetch","pvm/pvm-invocation/src/is_authorized/mod.rs: is_authorized"])
claim("C84","partial","auth_calls_exact_partial auth_calls_total auth_no_code auth_arguments auth_summaries_refuted","FETCH 11 puts a length before every summary (auth_summaries_refuted); all other calls are proved.")
p("C85","A work report has one digest per item, in order, within the size limit, and its segments where they were announced",
 "The digests are those of the items in order; each describes its item and the gas used; every item is refined with the number of exports declared before it; trace and outputs stay within 49,152 octets; an item is called oversize only when its output does not fit beside the outputs kept before; failed items leave zero segments.",
 "every package and every outcome of its refinements","All numbers of items, sizes and outcomes.",
 ["pvm/pvm-invocation/src/refine/pipeline.rs: compute_work_report, work_item_to_digest, zeroize_export_segments"])
claim("C85","partial","report_digests report_fits report_results_partial report_segments_partial oversize_refuted segments_refuted",
 "False of the code: an output that is too big, or whose item exports the wrong number of segments, still counts, so every item behind it can be called oversize (oversize_refuted); the segments of a failed item are dropped and not replaced by zeros, so those behind it are not at the index EXPORT answered (segments_refuted). True when no item but the last loses its output, and when the items that fail declare no exports. compute_work_report itself always ends in unimplemented!() (pipeline.rs:81), after the loop modelled.")
