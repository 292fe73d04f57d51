p("C46","Block header and extrinsic hashes commit to their content",
 "Two block bodies with the same extrinsic hash are equal, and two headers with the same header hash are equal, unless two different byte strings hashed while computing them have the same hash.",
 "every pair of block bodies and headers, every 32-byte hash function, every chain parameter set","Injectivity over all structures and hash functions.",
 ["block/src/types/extrinsics/mod.rs: Extrinsics::hash","block/src/types/extrinsics/guarantees.rs: encode_with_hashed_reports","block/src/types/block.rs: BlockHeader::hash"])
p("C47","Size hints are exact",
 "size_hint of a value equals the length of its encoding.",
 "every type and value","All types.",["codec/fr-codec/src/lib.rs: size_hint"])
claim("C01","proved","compact_int_is_graypaper_code compact_int_graypaper_code_unique compact_int_roundtrip")
claim("C02","proved","compact_int_length compact_int_size_hint compact_int_prefix_free compact_int_minimal")
claim("C03","partial","compact_int_canonical_refuted compact_int_canonical_partial","The full claim is false of the code: non-shortest forms such as [0x80,0x05] are accepted (compact_int_canonical_refuted). Proved instead: an accepted form that is as short as the encoder's is the encoder's.")
claim("C04","proved","fixed_int_encode_iff fixed_int_roundtrip fixed_int_decode_canonical")
claim("C05","proved","composite_roundtrip composite_prefix_free composite_decode_local block_roundtrip","The type grammar covers every codec impl; the block type is given as an instance.")
claim("C06","partial","composite_canonical_refuted composite_canonical_partial decode_total_refuted","False of the code for bit strings, maps, sets and anything with a compact length; proved for the fragment without variable-length parts.")
claim("C46","proved","extrinsic_hash_commitment header_hash_commitment")
claim("C47","partial","size_hint_exact_partial size_hint_exact_refuted","False for sets, maps, bit strings and FixedVec (refuted); exact for everything else.")
