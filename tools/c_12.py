claim("C43","proved","erasure_roundtrip padding_unique recover_insufficient","For every Reed-Solomon crate whose codewords are systematic and recoverable from any msg_chunks of their words (reed_solomon_code in Erasure_Spec.v); the crate itself is not modelled. The word transposition, merging and padding around it are.")
p("C79","The erasure root commits to every validator's share",
 "The erasure root of a bundle and its exports exists for every input; it is the Merkle root of the validators' shares; the shares of any msg_chunks validators give back the bundle, every export and every proof page; equal roots over equally many exports mean equal bundles and exports unless two of the strings hashed collide; every page of proofs fits one segment.",
 "every bundle, every list of exports, every hash function of 32 octets","All sizes and contents.",
 ["pvm/pvm-invocation/src/refine/avail_spec.rs: generate_paged_proofs, compute_erasure_root, build_avail_specs"])
claim("C79","proved","erasure_root_of_shares shares_suffice erasure_root_binds paged_proof_content paged_proofs_cover avail_lengths","Same assumption on the Reed-Solomon crate as C43. Settles the TODO at avail_spec.rs:49: a page always fits. The lengths in the specification are exact below 2^32 octets and 2^16 exports.")
p("C80","Recovering data from chunks sent by peers never stops the node",
 "Whatever chunks are received, recovery returns data or an error.",
 "every list of optional chunks","All lengths and contents.",
 ["common/erasure-coding/src/lib.rs: erasure_recover"])
claim("C80","partial","recover_no_panic_partial recover_uneven_refuted","False of the code: a chunk shorter than the first one present is indexed out of range and panics; a first chunk that is too short truncates the data silently. True for chunks of one length.")
