claim("C26","proved","memory_read_exact memory_read_byte_exact memory_write_exact memory_history memory_range_checks","The memory of memory.rs for every size, contents and permission map: exact results of reads and writes, page-fault addresses, the forbidden first 64 KiB and arbitrary histories of writes.")
p("C61","Growing the heap only adds writable memory between the old heap end and the stack",
 "An sbrk that succeeds returns the start of memory at or after the old heap end and before the stack, all of it writable, and changes no other page's permission and no data.",
 "every memory, permission map, heap end and requested size","The first-fit search and the address arithmetic run over a 32-bit space and 64-bit sizes.",
 ["pvm/pvm-core/src/state/memory.rs: get_break, expand_heap","pvm/pvm-core/src/program/instruction/set.rs: sbrk"])
claim("C61","partial","sbrk_grows_partial sbrk_grows_refuted","Proved when old end plus size stays within 32 bits. False otherwise: the heap end wraps, a later sbrk then makes read-only pages writable, and a request of 2^32 bytes succeeds without granting memory.")
claim("C27","partial","arithmetic_definite arithmetic_one_exact arithmetic_immediate_exact arithmetic_two_exact_partial remainder_refuted remainder64_refuted step_exact_partial step_any_partial","Every arithmetic, bit, shift, rotate, compare and division opcode for all 64-bit operands, and the step that executes it for every loaded program. False for the signed remainder of the most negative dividend: the node's result has the wrong sign.")
claim("C28","partial","instructions_bounded run_ends out_of_gas_exact host_instructions_bounded host_run_ends host_run_shape host_out_of_gas_exact invocation_gas_bound invocation_terminates invocation_out_of_gas large_limit_refuted","For every program, machine and host functions. A limit of 2^63 or more is taken as negative, so such an invocation ends at once as out of gas with everything used (large_limit_refuted); the bound on gas used holds there too.")
claim("C29","partial","skip_distance_exact block_starts_partial block_starts_exact_partial block_starts_refuted step_exact_partial step_any_partial no_instruction_panics","Skip distances are exact. A terminator at position 0 does not make the next position a block start in the node, so block starts and jumps are exact for all other programs.")
claim("C30","partial","program_decodes program_reencode_partial program_reencode_refuted program_loads_iff program_parts_crash_partial program_crash_refuted program_parts_crash_refuted long_instruction_refuted","Decoding recovers every encoded program. False in general: several byte strings decode to one program, and short instructions or announced jump tables of 2^61 entries crash the node.")
claim("C31","proved","standard_exact standard_total admitted_exact regions_apart initial_machine","For every standard program and argument string: regions, guard gaps, rights, contents, heap and stack marks and registers.")
p("C60","An executed instruction has the operands the specification defines",
 "For every loaded program and every position of an opcode, the instruction executed there has the opcode, registers, immediates and jump offset that the specification reads from the code bytes and the opcode mask.",
 "every program and position","The operand lengths depend on the mask and on the bytes themselves, for 13 formats.",
 ["pvm/pvm-core/src/program/instruction/mod.rs: Instruction::from_inst_blob","pvm/pvm-core/src/program/loader.rs"])
claim("C60","proved","instruction_exact","All formats, all programs that load.")
p("C62","No guest program can make an invocation fail with an error",
 "Whatever code a service has and whatever it does, an invocation returns a result (output, no output, out of gas or panic); an error, which rejects the block, or a crash of the node cannot be provoked by the guest.",
 "every program, argument, gas limit and execution","Guest programs are arbitrary.",
 ["pvm/pvm-interface/src/invoke.rs: invoke_with_args, invoke_extended","pvm/pvm-core/src/interpreter/mod.rs"])
claim("C62","partial","run_exact_partial result_never_fails_partial halt_output_exact guest_error_refuted guest_load_error_refuted halt_error_refuted bad_code_error_refuted bad_code_crash_refuted","Proved: runs that avoid the listed instructions never fail, and results are exact. False: loads and stores across 2^32, halting with register 7 at 2^32 or more, and undecodable code return errors, and a truncated instruction crashes the node.")
p("C63","A host-call instruction calls the host function it names, and unknown calls are answered with WHAT",
 "ecalli n calls host function n if the invocation offers it; otherwise register 7 becomes 2^64-2, ten gas are charged, and nothing else changes.",
 "every program, call number and machine state","Call numbers are arbitrary immediates.",
 ["pvm/pvm-core/src/program/instruction/set.rs: ecalli","pvm/pvm-interface/src/invoke.rs: execute_host_function, is_valid_host_call"])
claim("C63","partial","host_call_dispatch unknown_call_what host_result_applied ecalli_exact_partial ecalli_refuted","Exact for immediates below 256. False beyond: the node takes the immediate modulo 256, so ecalli 260 is call 4.")
p("C64","A refused memory access ends the run with the specified exit and no effect",
 "An instruction whose access is not permitted changes no memory and no register and ends the run: with a panic if the lowest refused byte is below 64 KiB, otherwise with a page fault naming the start of its page.",
 "every program, memory, permission map and access","Addresses and permissions are arbitrary.",
 ["pvm/pvm-core/src/interpreter/mod.rs","pvm/pvm-core/src/program/instruction/set.rs","pvm/pvm-core/src/state/memory.rs"])
claim("C64","partial","fault_exact_partial byte_fault_refuted store_fault_counter_refuted","Proved outside the listed deviations. False: one-byte loads report the address itself instead of its page, and a faulting store resets the program counter to 0.")
p("C65","The program cache never changes what an invocation executes",
 "Whatever programs were invoked before and whatever the cache has evicted, an invocation executes the program its code decodes to, unless two different codes that were invoked have the same hash.",
 "every history of invocations and evictions","Histories and eviction schedules are unbounded.",
 ["pvm/pvm-interface/src/invoke.rs: program_cache, invoke_with_args"])
claim("C65","proved","program_cache_transparent","For every hash function and history.")
