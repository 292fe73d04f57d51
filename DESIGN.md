# Formal model of FastRoll in Rocq (Coq 8.16.1)

FastRoll is a Rust implementation of a JAM validator client. This directory holds a hand-written
Gallina model of its deterministic core and machine-checked proofs about that model.

* `properties.jsonl` – the properties, in terms of the API and its observable effects.
* `rocq/theories/X_Model.v` – executable model of one area; every definition cites file and lines.
* `rocq/theories/X_Spec.v` – small independent specification used by theorem statements (where needed).
* `rocq/theories/X_Proofs.v` – lemmas.
* `rocq/theories/X_Props.v` – only the property theorems (each `exact some_lemma`), a concrete `Example`
  showing the hypotheses are met, and `Print Assumptions`.
* `MANIFEST.json` – property → theorems → status.  `seeded/LOG.jsonl` – mutation experiments.
* `tools/` – generator of properties.jsonl / MANIFEST.json.

## Modelling conventions

* Bytes are `N` with an explicit `< 256` side condition; machine words are `N`/`Z` with explicit bounds
  and explicit wrap (`mod 2^64`) wherever a property depends on overflow. Lengths/indices/fuel are `nat`.
* A Rust panic, an `Err` and an `Ok` are different values of the result type wherever the distinction is
  observable in the property.
* Hash functions are universally quantified section variables (discharged as ordinary `forall`s when the
  section closes); injectivity is never assumed – theorems that need it conclude "or a collision exists".
* Loops become structural or fuelled recursion; where fuel is used the proofs show fuel never runs out.
* A property which the faithful model violates is proved as `…_refuted` with a concrete witness; the
  positive part that does hold is proved beside it.

## Plan per property

C01–C04 integers: `Codec_Model` is a transcription of integer_encode_to/decode/decode_fixed over lists of
bytes; proofs by case split on the length class and little-endian arithmetic lemmas. C03 is expected to be
refuted (non-minimal encodings are accepted).
C05–C06 composites: a deep embedding of the type grammar with encoder/decoder by recursion over the type;
round-trip by induction over the type. C06 expected refuted.
C07 LimitedVec: operations on lists; invariant and window theorem by induction over operation sequences.
C08–C10 Merkle: model with abstract hash; proofs by strong induction on length; collision-extraction for binding.
C11 zero_pad: direct.
C12–C13: Fisher–Yates transcription; Permutation proof; counting lemma for core balance.
C14–C17: Safrole state; sorted-prefix specification of the accumulator; both code paths of the prediction modelled.
C18: slot arithmetic. C19, C21, C22, C44: ring/window invariants by induction over block sequences.
C20: queue functions with fuel = queue length; invariants over the loop; abstract specification (dependency closure).
C23–C24: prefix sums and gas accounting with an arbitrary service oracle.
C25: report state machine.
C26–C31: PVM memory, ALU, interpreter, loader, layout. ALU specified in Z modulo 2^n.
C32: cache model with refinement to (committed map, working map).
C33–C34: trie nodes as bit strings; refinement of the node store to a key-value map; merklization spec.
C35: key layout injectivity. C36: simulation relation. C37: decision table.
C38–C41: accumulate host context; conservation of the total balance; overlay refinement; merge order-independence.
C42, C45: validators as boolean functions, soundness against declarative predicates, chain invariants.
C43: chunk layout arithmetic; the field-arithmetic code (external reed-solomon crate) is not modelled.
C46 header/extrinsic hashes: injectivity of the modelled codec plus collision extraction. C47 size hints: induction
over the type grammar; sets, maps, bit strings and FixedVec are refuted. C48: witness for the peaks' equality.
C49: `Sched` is a small-step interleaving machine over the state cache's three-step accesses (read cache, read
database, fill) with `Flow` giving the block's stages as task lists; the proof is a commutation argument through
an ownership table of who may read/write which component; the cold-cache race is a concrete schedule.
C50–C52: the Safrole model of C14–C17. C53: the ring cache as a state machine over a block history with
asynchronous completions at arbitrary points. C54: gas prefix sums with always-accumulate gas.
C55, C56: byte prefixes of the signing contexts; punish-set update. C57: request records over histories.
C58, C59: the importer's check order over arbitrary header checks and transitions; the ancestor heap/set pair.
C60–C65: PVM decoding of operands, SBRK, exits, host-call dispatch, faults, program cache; a relational
specification per instruction format, and the fuelled interpreter refined to it. C66, C67: trie commitments and
the two-batch commit with crash points. C68–C70: one relation per host call in `Host_Spec` (the Graypaper's
tables over finite maps); each modelled call is shown to be in its relation, over the sandbox overlay of C40.
C71–C73: single accumulation = interpreter × host calls × checkpoint; induction over the run's calls.
C74, C41: a round folds services over the union; the invariant is a per-account provenance relation.
C75–C78: the outer loop with a gas/reports measure; conservation by summation over rounds.
C79, C80, C43: availability specifications over an arbitrary systematic MDS code.
C81–C85: refinement and authorization host calls, inner machines, exports, report assembly; same method as C68.
C86, C87: statistics as folds over an epoch's blocks, compared with counts over the block list; codec instance.
C88–C91: the fuzz target as a state machine over messages; simulated by a reference with one state per block
(a forest). C92: the message codec and the length-framed stream.
C93: the preimages task of C49's block flow, its snapshots read after accumulation; the answer is compared with a predicate on the prior state, over all schedules by C49's theorem.
C94: the author's path (turn check, header, seal, two halves of execution) and the importer's over one node state; the author's block is shown to pass each of the importer's checks, then induction over turns of any number of nodes.
C95: import unfolded into a predicate on the header written apart from the code; entropy by uniqueness of VRF outputs in one context.
C96: the author's two halves with a delivery in between, and with a failing announcement; an invariant over later deliveries shows the node stuck.
C97: the clock's readings and the ticks' times as arguments; division with remainder, then induction over the ticks.
C98: threads advancing lock by lock over the pool's map and index; an invariant (mutual exclusion, the pool is the accepted list except inside one submission) gives the answers in order of return; a stuck state is exhibited.
C99, C100: streams as byte lists cut arbitrarily into pieces of at most 1024 octets; round trip and locality of the codec (C05) decide which pieces are understood.
C101: the two database columns as lists, changed by authoring and importing; an invariant over all histories; equality of blocks up to hash collisions among the node's own blocks (C46).
C102: a connection as a list of streams, handled independently (accepted) or in sequence (dialled); induction on the list.
C103: keys as octet strings, total order gives agreement; peers as a map by address, the last entry wins; two dialling rounds.
C104: the bundle codec as the loops it is, over the wire type of packages; reading undoes writing by induction on the items; lengths against the Graypaper's formula.
C105: sums modulo 2^64 against sums of naturals, for packages that fit a machine's memory.
C106: the encoder as a list of widths; each constant is read back at its offset.
C107: report computation with the unimplemented parts as parameters, and once more with them as the panics they are.
C108: starting a node as writes to a disk over the state manager's model; a chain of crashed starts leaves the state store empty, and C32's theorem gives every read after the commit.
C109: the list of disks a crash can leave; a stored first component makes every later start fail, by induction over chains of starts.
C110: a transition system of callers, bounded queue, task and one-shot replies over any sequential object; an invariant ties calls to a ghost history, a measure bounds schedules.
C111: halves of commits in any order against the sequential store of C30/C31; what the state database holds is always a part of the sequential one.
C112: the same system after a panic.
C113: the ancestor set along a chain (C59) joined with the acceptance theorem of guarantees (C42); a counting argument on slots.
C114: the driver over any machine that answers messages; sorting has one result; induction over the cases.
C115: texts as octet lists; decoding against an inductive relation between texts and octets, by induction on pairs of digits.
C116: base 32 by groups of five octets, as the crate does it, against bits in groups of five; octets are compared bit by bit.
C117: the pool of C98 with entries made by the codec of C05; the pool as a fold of accepted entries, then round trips by induction.
C118: each component as a type of the codec of C05 (tickets, sealing keys and lookups by hand); the octets against a relational transcription of the Graypaper's serialization; round trip from the codec's, the accumulator by induction on the tickets.
C119: refuted for trailing octets, unsorted tickets and absurd counts; the fixed-length components by the codec's canonicity.
C120: the typed accessors over keys, octets, cache and trie at once; a simulation between maps of entries and maps of keys carries C32 over, with C35 for the keys and C118 for the octets.
C121: induction over the arriving signatures; the result joined with the block's check of guarantees (C24).
C122: the octets of each type as a relation made of parts, sequences, counts and bit fields, apart from the encoder; the encoder meets it, and the relation determines the octets.
C123: peers, their streams' channels and the announcements under way as one state with events of any order; invariants on each channel (given = written ++ pending), on each announcement, and on a peer that cannot be given anything.
C124: the executed step of the Safrole model; the drawn keys by induction on the positions.
C125: the asking tasks, the queue of ten and the importer as one state with happenings of any order; invariants on what is fetched, queued and taken, and the importer's choices as a function of the queue's order; two stalls and a counterexample.

## Trusted base

* Coq 8.16.1's kernel (the gate also runs coqchk). The fidelity of the model to the source is by reading only:
  /repo was never built or run. No extraction is used.
* `Print Assumptions` of every theorem named in MANIFEST.json (all 338, checked in one file) prints
  `Closed under the global context`: no axiom, of ours or of a library, is used by any of them. Each `_Props.v`
  file repeats the command beneath its theorems.
* The gate's scan of all loaded modules lists seven constants of `Coq.ssr.ssrunder.Under_rel` (`Under_rel`,
  `Under_rel_from_rel`, `Under_relE`, `Over_rel`, `over_rel`, `over_rel_done`, `under_rel_done`). They are an opaque
  module of Coq's own ssreflect library, loaded with it, and no theorem depends on them.
* Assumptions that are hypotheses of theorems, not axioms: the hash, signature, VRF and Reed–Solomon functions are
  arbitrary functions under `forall`. Reed–Solomon theorems assume the crate's code is systematic and
  recoverable (`reed_solomon_code`); C53's ticket half assumes an injective hash for ring keys; every other use of hashes
  concludes "or two different strings that were hashed collide".
* Modelled behaviour of external crates: mini_moka is an arbitrary partial cache that may evict any clean entry at
  any time and never a zero-weight (dirty) one; RocksDB is a map with atomic batches; `HashMap`/`HashSet`
  iteration order is arbitrary (theorems quantify over it); DashMap operations are atomic; tokio tasks interleave
  arbitrarily at await points and cache accesses.
* Integer overflow: no profile sets `overflow-checks`, so release builds wrap and dev builds panic. Models say which
  of the two they follow; where it is observable there are theorems for both (`statistics_release`, `statistics_debug`).

## What is modelled

| area (files `X_*.v`) | code |
|---|---|
| Codec, StatsCodec, Block | codec/fr-codec, the derive order of block/src/types, state/src/types/statistics.rs |
| LVec, Merkle, Erasure, Avail | common/limited-vec, merkle/src, common/erasure-coding, refine/avail_spec.rs |
| Shuffle, Reports, Disputes, Preimages | extrinsics/src/validation/*, extrinsics/src/utils/guarantor_rotation.rs, transition/src/state/{reports,disputes,services}.rs |
| Safrole, RingCache | transition/src/state/*, transition/src/ring_cache.rs, state/src/types/{safrole,history,timeslot}.rs |
| Queue (with authorizer pools), Gas, Round, Delta, Acc (Town holds example blocks) | pvm-invocation/src/accumulate/*, state/src/types/accumulate.rs, transition/src/state/accumulate.rs |
| PvmMem, PvmProg, PvmInit, PvmStep | pvm-core/src (memory, program, loader, instruction set, interpreter), pvm-interface/src |
| Sandbox, Host, Refine | pvm-host/src (context, partial_state, all accumulate/refine/general host functions), refine and is_authorized invocations |
| Trie, StateKeys, StateCache, CachedDb | state-merkle-v2, state/src/{cache,manager,state_utils}.rs, db/src/core |
| Import, Sched, Flow, Stats | node/src/roles/{importer,executor}.rs, block/src/ancestors.rs, transition/src/state/statistics.rs |
| Author | node/src/roles/{author,manager,importer}.rs, node/src/scheduler/chain_extension.rs: authoring, seals, header checks |
| Net | network/src/{manager,utils,peers,types}.rs, network/src/streams (announcements, CE 128), storage/src/node_storage.rs get_blocks, what authoring and importing store |
| Package | common/src/types/workloads/work_package.rs limits, pvm-invocation/src/refine/{auditable_bundle,pipeline}.rs, pvm-host constants_encoder.rs |
| Boot | node/src/jam_node/init.rs, node/src/genesis/mod.rs (the genesis components are parameters), state/src/state_utils.rs add_all_simple_state_entries, validator index |
| Actor | state/src/merkle_interface/actor.rs, the interleavings of state/src/manager.rs commits and reads |
| Anchor | what a node puts into its ancestor set, and the guarantees check that reads it |
| Trace | fuzz/src/fuzzer.rs: loading and replaying test cases (not: starting the target, sockets, durations, printing) |
| Text | `common/src/types/mod.rs` (from_hex, to_hex), `common/src/utils/serde.rs`, `crypto/src/types/public_keys.rs` (names); the crates hex and base32 from their published sources |
| Intake | `extrinsics/src/manager.rs`, `OpaqueXtEntry::from_xt_entry` |
| Comp | state/src/state_utils.rs (StateEntryType), the JamEncode/JamDecode of state/src/types; not its test-only Raw |
| Vault | state/src/manager.rs (typed accessors, 136-172 and 1021-1300) joined with the models of StateKeys, Comp, StateCache and Trie; raw accessors and overlapping reads only in StateCache |
| Cred | block/src/types/extrinsics/guarantees.rs (new, add_credential) |
| Wire | no model of its own: the types and hashes of Block_Model against the Graypaper's serialization of blocks, headers and work packages |
| Announce | `announce_block_to_all_peers` with the peers' stream handles, channels and writing tasks; QUIC, dialling and incoming messages are not in it (these are C99 and C100 in Net) |
| Arrive | `handle_incoming_stream` from an announcement to the queue, `run_node`'s queue and start, `run_block_importer`; the checks other than that of the parent are a parameter, the node's own blocks and parentless blocks are left out |
| Clock, Pool | clock/src/lib.rs, node/src/scheduler/timeslot_scheduler.rs; extrinsics/src/pool/mod.rs |
| Fuzz, FuzzMsg | fuzz/src/{fuzz_target,types,utils}.rs |

Simplifications are stated in the comment of each definition.

## What is not modelled

* Cryptography: hashing, Ed25519, Bandersnatch and ring VRFs, and the Reed–Solomon field arithmetic (arbitrary functions).
* QUIC and TLS below the network crate (any certificate is accepted), its handles of open streams, the node's RPC-less command line, key store, telemetry and configuration files.
* Choosing extrinsics for an authored block (`collect_extrinsics` returns none).
* Rust's type system, memory layout, allocation failure, stack overflow, time other than the readings of the clock (C97) and I/O errors other than those
  in C36 and C67. Log output.
* `pvm-recompiler`-like alternatives do not exist in the repository; test vectors are out of scope.
* `PvmStep`: basic-block starts follow the code, and the specification in `PvmStep_Spec` defines them by
  terminators only (it does not intersect them with opcode positions; programs whose bitmask has no such
  positions make no difference to the theorems, which are about every loaded program).

## Findings: claims the code does not meet

Each is a `_refuted` theorem with a concrete witness unless marked (read).

* Codec: non-minimal integers and trailing bits accepted; bogus lengths panic (C03, C06); size hints of sets, maps, bit strings (C47).
* Bounded vectors: `FixedVec::new` does not check; well-balanced roots do not commit to variable-size items or lengths (C08); MMR equality ignores positions (C48).
* Time: blocks accepted one slot early (C18); verdicts of future epochs accepted (C42).
* Ring cache: stale verifier after a rejected block or a designation in an epoch's first block (C53).
* Offender recorded twice (C56). Forgetting one request can delete another's live data (C57).
* Importer: a zero parent hash is taken for genesis at any time (C44, C58, C88).
* PVM: signed remainder of the least integer; terminator at position 0; ecalli above 255; SBRK wrap; truncated instructions and
  huge jump tables crash; page-fault addresses; faulting store resets the counter (C27, C29, C30, C61–C64).
* Gas: limits of 2^63 and more are negative; always-accumulate gas not reserved, so a legal block fails (C28, C54).
* Accumulation: TRANSFER with huge gas, a halt with register 7 ≥ 2^32, undecodable code and two services making one small id fail the whole block (C78);
  any service may BLESS itself locally and make free or small accounts (C68); ejecting a changed account duplicates its balance (C39, C40);
  an ejected and re-made id is ignored by the merge (C40); a manager's BLESS overrides all assigners (C41); preimages PROVIDEd to a later service are lost (C74);
  transfers to a service ejected in the same round or missing are burnt (read); metadata octets ≥ 128 are misparsed (C73).
* Trie and database: removing the last key fails; crash between two batches loses keys; root is zero after restart (C33, C67);
  a request of length 2^32−2 has a preimage's key (C35); a read overlapping a write leaves the old value cached (C36); state cache reads of removed or re-added entries (C32).
* Scheduling: a cold cache loses an epoch change's validator set; an evicted component fails the block (C49); a failed stage leaves its detached tasks running (read).
* Refinement: inner machines have no memory, PAGES always HUH, expunged ids not reused, several guest-triggered crashes (C81); FETCH 11 has extra length prefixes (C81, C84);
  sticky oversize, misaligned exports (C85); `compute_work_report` always reaches `unimplemented!()` (read).
* Statistics: data size formula (C86).
* Erasure: uneven chunks panic or truncate (C80).
* A block's preimages are judged on snapshots that include entries its own accumulation created: a blob solicited in the block is accepted, a blob provided in the block gets it rejected (C93).
* Fuzz target: preimage keys missing from GetState, refused child settles a fork, unknown hash answered with the latest state (C89, C90); text octets, trailing octets, huge counts (C92).
* Authoring: a validator's index is that of the genesis set; the slot is read again after the turn was checked; ticket mode panics (C94). A rejected block that arrives meanwhile wipes half of the
  node's own; one peer's closed announcement stream leaves the node unable to import anything (C96).
* Scheduler: a boundary between two clock readings at the start disables authoring for ever; late ticks skip and repeat slots (C97).
* Extrinsics pool: two locks taken in opposite orders, size bound by-passed by duplicates, no removal (C98).
* Network: messages are taken to be transport chunks of at most 1024 octets, so merged, split or long announcements and replies are lost or panic (C99, C100); imported blocks cannot be served (C101);
  unimplemented or silent streams end service on dialled connections (C102); one dead peer cancels the second dialling round (C103).
* Work packages: bundles write segments as integer lists, up to twice the size (C104); gas limits wrap and no limit is ever checked (C105); reporting an authorised package panics, and imports are
  counted instead of the packages they name (C107).
* Restart: a node never starts again on a database that holds its state; a crash during the first commit makes it panic or fail for good (C109).
* State access: a read between the two writes of a commit fails for long values (C111); a panic in the trie closes the state for the rest of the process (C112).
* Lookup anchors are not checked by the node; switched on, the check would refuse the genesis block and the node's own blocks (C113).
* `from_hex` fills a short text with zeros, so that a lost digit gives another key (C115). Several names are read as one key (Example).
* Typed getters of the pool: one guarantee (assurance) more than cores (validators) hides all of the slot; an entry announcing a huge preimage makes the getter panic (C117).
* State components: trailing octets are ignored; unsorted tickets are read; an absurd count in a component's octets panics (C119).
* Announcing: one peer whose stream has broken fails every later announcement, and the peers behind it in the map hear nothing; a peer that does not read blocks the announcing task (C123).
* Announced blocks: each is asked for by a task of its own and imported in the order of the replies; a child before its parent, or one missed block, and nothing after it is imported again (C125).
