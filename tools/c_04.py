p("C48","Two mountain ranges compare equal exactly when they hold the same peaks",
 "Equality of two ranges implies that they hold the same peaks in the same slots (unless the hash collides).",
 "every pair of ranges, every hash function","Injectivity over all ranges.",["merkle/src/mmr.rs: PartialEq, super_peak"])
claim("C07","proved","limited_vec_bounded limited_vec_try_push limited_vec_try_extend limited_vec_try_from limited_vec_window limited_vec_evicts_oldest fixed_vec_try_from fixed_vec_size_refuted","Finding: FixedVec::new and FromIterator do not enforce the size (fixed_vec_size_refuted); shift_push panics for MAX = 0.")
claim("C08","proved","wb_root_is_tree wb_root_small merkle_trace_verifies merkle_trace_log_length merkle_proof_sound wb_root_commits wb_root_variable_size_refuted wb_root_length_refuted","The commitment holds for items of one fixed size (the documented precondition of node); it fails for items of different sizes, and across different counts, for every hash (two refutations).")
claim("C09","proved","cd_leaves cd_root_is_tree page_proof_verifies page_out_of_range_refuted","For pages that start inside the data; a page beyond the data panics (finding).")
claim("C10","proved","mmr_peaks_are_digits mmr_recursive_same super_peak_is super_peak_commits")
claim("C11","proved","zero_pad_correct")
claim("C48","partial","mmr_eq_refuted super_peak_commits","False of the code: equality ignores the slots. The super-peak does commit to the sequence of occupied peaks.")
