p("C01","Compact integers round-trip and consume exactly their bytes",
 "Encoding any unsigned integer that fits the type and decoding from a buffer starting with that encoding returns the same integer and leaves exactly the bytes that followed.",
 "every value of u8/u16/u32/u64/usize and every trailing byte string",
 "2^64 values times arbitrary suffixes; the length-class boundaries 2^(7l) interact with the shift, mask and prefix arithmetic.",
 ["codec/fr-codec/src/lib.rs: integer_encode_to, integer_decode, impl_jam_codec_for_uint"])
p("C02","Compact integer encodings are minimal, length-predicted and prefix-free",
 "The encoding of x takes 1 byte for x<2^7, l+1 bytes for 2^(7l)<=x<2^(7(l+1)) and 9 bytes from 2^56; size_hint reports exactly that length; no encoding of one integer is a prefix of the encoding of a different integer.",
 "every pair of u64 values","Prefix-freeness quantifies over pairs of 64-bit values.",
 ["codec/fr-codec/src/lib.rs: integer_encode_to, integer_size_hint"])
p("C03","Integer decoding is canonical",
 "Every byte string accepted by the compact-integer decoder is the encoding of the value it returns (so hashes of decoded-and-re-encoded data equal hashes of the received bytes).",
 "every byte string","The space of byte strings is infinite and tests only feed encoder output back.",
 ["codec/fr-codec/src/lib.rs: integer_decode"])
p("C04","Fixed-width integers: exact range check and round trip",
 "encode_fixed(v,n) succeeds iff n<=8 and v<2^(8n), yields n little-endian bytes, and decode_fixed of those bytes followed by anything returns v and the rest; decode_fixed rejects sizes above the type width.",
 "every value, every width, every suffix","Unbounded width argument and 64-bit values.",
 ["codec/fr-codec/src/lib.rs: impl_jam_fixed_codec_for_uint"])
p("C05","Composite values round-trip whatever their shape",
 "For every type built from integers, fixed-width integers, booleans, byte arrays, options, arrays, vectors, limited vectors, bit strings, ordered maps and sets, and tuples/structs, decoding the encoding followed by any suffix returns the value and the suffix; hence encodings of one type are injective and prefix-free.",
 "every type of that grammar, every value of the type, every suffix","Types nest without bound; tests pick a few structs.",
 ["codec/fr-codec/src/lib.rs: JamEncode/JamDecode impls","codec/fr-codec-derive/src/lib.rs"])
p("C06","Composite decoding is canonical",
 "Two different byte strings never decode (completely) to the same value: bit-string padding, map ordering and duplicate keys are all rejected unless canonical.",
 "every byte string and every type","Needs a statement about all byte strings, not encoder outputs.",
 ["codec/fr-codec/src/lib.rs: BitVec/BTreeMap/BTreeSet decode"])
p("C07","Bounded vectors never exceed their bound and behave as a sliding window",
 "After any sequence of try_push/try_extend/shift_push/conversions a LimitedVec holds at most MAX elements; shift_push leaves exactly the last MAX pushed elements in order and returns the evicted oldest; a failing operation leaves the vector unchanged.",
 "every operation sequence and every MAX>0","Histories of unbounded length.",
 ["common/limited-vec/src/lib.rs: LimitedVec"])
p("C08","Well-balanced Merkle proofs verify for every leaf and index",
 "Recomputing the root from a leaf, its index, the leaf count and the trace returned for that index gives the root of the whole sequence, for every non-empty sequence and index in range; the trace has logarithmic length; equal-length sequences with equal roots are equal unless a hash collision is exhibited.",
 "every hash function, every leaf sequence, every index","Unbounded sizes; odd splits at every level.",
 ["merkle/src/common.rs: node, trace, split_and_select, merkle_index_offset","merkle/src/well_balanced_tree.rs: compute_root"])
p("C09","Constant-depth page justifications verify",
 "For every page depth and every page index, hashing the page's leaf subtree up with the page justification reproduces the constant-depth root; the preprocessed leaf sequence is a power of two long, begins with the leaf hashes and is zero-hash padded.",
 "every item sequence, page index and page depth","Unbounded sizes and three interacting parameters.",
 ["merkle/src/constant_depth_tree.rs"])
p("C10","The Merkle mountain range is a binary counter over appended leaves",
 "After n appends the peaks present are exactly the binary digits of n, peak i is the root of the perfect tree over the corresponding run of 2^i consecutive leaves, and the recursive variant of append gives the same result.",
 "every sequence of appended leaves and every hash function","History property; carries cascade arbitrarily far.",
 ["merkle/src/mmr.rs: append, append_recursive, super_peak"])
p("C11","Zero padding reaches the block multiple without touching data",
 "zero_pad keeps the input as a prefix, adds only zero bytes, fewer than one block of them unless the input is empty, and the length is a positive multiple of the block size.",
 "every byte string and block size >= 1","Unbounded.",["common/src/utils/zero_pad.rs"])
p("C12","Shuffle returns a permutation determined by the entropy only",
 "The Fisher-Yates shuffle with any entropy is a permutation of its input, positions are chosen independently of the element values, and every permutation is reachable by some stream of randoms.",
 "every list and every entropy/random stream","n! permutations.",
 ["extrinsics/src/utils/shuffle.rs"])
p("C13","Guarantor rotation assigns every validator one core and every core the same number of validators",
 "For every entropy and slot the assignment maps each validator to exactly one core in range, and each core receives exactly VALIDATOR_COUNT/CORE_COUNT validators (when divisible); the assignment is a pure rotation of the epoch's base assignment by the rotation count.",
 "every entropy, every slot, every validator count that is a multiple of the core count","All seeds and slots.",
 ["extrinsics/src/utils/guarantor_rotation.rs: rotate, permute"])
