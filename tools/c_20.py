p("C104","An auditable bundle survives being written and read, in the Graypaper's octets",
 "Writing a bundle that brings what its package declares and reading it gives the same bundle back, whatever follows; whatever is read brings what its package declares; the octets are those of the Graypaper and stay within the bundle limit.",
 "all packages, blobs, segments and proof paths of any number and length",
 "ranges over all bundles and all octet strings",
 ["pvm/pvm-invocation/src/refine/auditable_bundle.rs AuditableBundle","pvm/pvm-types/src/common.rs ExportDataSegment","codec/fr-codec/src/lib.rs FixedVec"])
claim("C104","partial","bundle_roundtrip_partial bundle_read bundle_octets_partial bundle_bound_partial bundle_bound_refuted segment_octets_refuted bundle_shape_refuted",
 "Round trip proved for bundles that bring what they declare. Segments are written as lists of integers, so each octet from 128 on takes two: the octets differ from the Graypaper's and a package within all limits has a bundle of over 25 MB (limit 13.8 MB). A bundle whose blobs have other lengths than declared is written without complaint and read as a different one.")
p("C105","The limits of a work package are those of the Graypaper",
 "The checks of a package accept exactly the packages with at most 3072 exports, 3072 imports and 128 extrinsics, of at most 13791360 octets, whose items' gas stays below the limits in total.",
 "all work packages",
 "sums over arbitrarily many items, up to the edge of 64 bits",
 ["common/src/types/workloads/work_package.rs validate_data_references_count, validate_work_bundle_size, validate_gas_limits"])
claim("C105","partial","package_counts package_size_partial package_gas_partial package_gas_refuted",
 "Counts and size are exact. The gas sums wrap in a release build: two items of 2^63 gas each pass. The checks are not called anywhere in the code.")
p("C106","A service reads the protocol constants at the Graypaper's offsets",
 "Asking the host for the protocol constants gives 134 octets with every constant at the Graypaper's place and width, for every chain specification whose constants fit, as both specifications' do.",
 "all values of the constants that fit their widths",
 "all values; tests see the built specification only",
 ["pvm/pvm-host/src/host_functions/general/constants_encoder.rs encode_constants_for_fetch_hostcall","common/src/constants"])
claim("C106","proved","constants_written constants_fit constants_agree","")
p("C107","A guarantor reports every authorised package, and its report describes it",
 "The report of a package holds its core, context, authorizer, authorization trace and gas and one digest for each item, within the output limit and naming at most eight packages; packages that are not authorised are refused; every other one has a report.",
 "all packages, all outcomes of authorization and refinement",
 "all outcomes of all invocations",
 ["pvm/pvm-invocation/src/refine/pipeline.rs compute_work_report, build_segment_roots_lookup_table","pvm/pvm-invocation/src/refine/auditable_bundle.rs build_auditable_bundle"])
claim("C107","partial","report_sound report_refused report_crashes_refuted report_lookup_refuted",
 "What a report says is proved for any implementation of the missing parts. As the code stands, four parts are unimplemented and every authorised package panics; and imports are counted rather than packages named, so nine imports from one package are refused.")
