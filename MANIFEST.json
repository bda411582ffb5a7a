{"claims": [
{"property": "C01", "status": "proved", "theorems": ["C01_base64Encode_is_rfc4648"], "note": ""},
{"property": "C02", "status": "proved", "theorems": ["C02_base64Encode_length", "C02_unpadded_length"], "note": ""},
{"property": "C03", "status": "proved", "theorems": ["C03_base64_round_trip", "C03_base64_round_trip_exact_iff", "C03_round_trip_all_bytes_refuted"], "note": ""},
{"property": "C04", "status": "proved", "theorems": ["C04_decode_ignores_padding", "C04_decode_any_length", "C04_decode_foreign_as_slash"], "note": ""},
{"property": "C05", "status": "proved", "theorems": ["C05_urlEncode_is_percent_encoding"], "note": ""},
{"property": "C06", "status": "proved", "theorems": ["C06_url_round_trip"], "note": ""},
{"property": "C07", "status": "proved", "theorems": ["C07_urlDecode_safe_iff", "C07_urlDecode_safe_refuted"], "note": ""},
{"property": "C08", "status": "proved", "theorems": ["C08_kmpSearch_first_occurrence", "C08_first_occurrence_unique"], "note": ""},
{"property": "C09", "status": "proved", "theorems": ["C09_kmpSearch_empty_pattern_ub", "C09_kmpSearch_negative_start_ub"], "note": ""},
{"property": "C10", "status": "proved", "theorems": ["C10_editDistance_least_edits"], "note": ""},
{"property": "C11", "status": "proved", "theorems": ["C11_editDistance_metric"], "note": ""},
{"property": "C12", "status": "proved", "theorems": ["C12_zip"], "note": ""},
{"property": "C13", "status": "proved", "theorems": ["C13_filterContainer", "C13_mapAll"], "note": ""},
{"property": "C14", "status": "proved", "theorems": ["C14_gcd", "C14_gcd_magnitude", "C14_gcd_zero", "C14_gcd_overflow"], "note": ""},
{"property": "C15", "status": "proved", "theorems": ["C15_lcm", "C15_lcm_zero_zero", "C15_lcm_representable_refuted"], "note": ""},
{"property": "C16", "status": "proved", "theorems": ["C16_binaryPow", "C16_binaryPow_negative", "C16_binaryPow_representable_refuted"], "note": ""},
{"property": "C17", "status": "proved", "theorems": ["C17_genericBinaryPow", "C17_genericBinaryPow_from_int"], "note": ""},
{"property": "C18", "status": "proved", "theorems": ["C18_factorial", "C18_permutation", "C18_permutation_invalid", "C18_permutation_zero", "C18_permutation_zero_refuted"], "note": ""},
{"property": "C19", "status": "proved", "theorems": ["C19_binomial", "C19_binomial_invalid"], "note": ""},
{"property": "C20", "status": "proved", "theorems": ["C20_variance_int", "C20_variance_dbl", "C20_sample_variance", "C20_sample_variance_int", "C20_variance_int_overflow_refuted"], "note": ""},
{"property": "C21", "status": "proved", "theorems": ["C21_fraction_canonical", "C21_zero_denominator", "C21_construction_total"], "note": ""},
{"property": "C22", "status": "proved", "theorems": ["C22_fraction_arithmetic", "C22_no_overflow_returns", "C22_division_by_zero"], "note": ""},
{"property": "C23", "status": "proved", "theorems": ["C23_fraction_equality", "C23_fraction_order", "C23_fraction_order_total", "C23_comparison_overflow_refuted"], "note": ""},
{"property": "C24", "status": "proved", "theorems": ["C24_int_minus_fraction", "C24_int_div_fraction", "C24_div_assign", "C24_natural_claims_refuted"], "note": ""},
{"property": "C25", "status": "proved", "theorems": ["C25_string_round_trip", "C25_int64", "C25_int64_min", "C25_toString_injective", "C25_zero_prints_empty_refuted"], "note": ""},
{"property": "C26", "status": "proved", "theorems": ["C26_add_same_sign", "C26_sub_nonnegative", "C26_sub_different_sign", "C26_add_at_capacity", "C26_natural_expressions"], "note": ""},
{"property": "C27", "status": "proved", "theorems": ["C27_add_mixed_signs", "C27_sub_negatives", "C27_increment", "C27_decrement", "C27_assign_mixed_signs"], "note": ""},
{"property": "C28", "status": "proved", "theorems": ["C28_product", "C28_exact_iff", "C28_product_beyond_capacity", "C28_product_int"], "note": ""},
{"property": "C29", "status": "proved", "theorems": ["C29_comparison", "C29_negative_zero", "C29_negation"], "note": ""},
{"property": "C30", "status": "proved", "theorems": ["C30_assignment_keeps_old_digits", "C30_sum_adds_leftover_digits", "C30_negation_then_longer_sum", "C30_value_semantics_refuted"], "note": ""},
{"property": "C31", "status": "proved", "theorems": ["C31_matrix_results", "C31_matrix_algebra", "C31_matrix_compare_build", "C31_matrix_assign", "C31_ragged_refuted"], "note": ""},
{"property": "C32", "status": "proved", "theorems": ["C32_times_assign", "C32_pow", "C32_pow_refuted"], "note": ""},
{"property": "C33", "status": "proved", "theorems": ["C33_reduce", "C33_reduce_no_columns"], "note": ""},
{"property": "C34", "status": "proved", "theorems": ["C34_safe_sizes", "C34_unsafe_sizes", "C34_empty", "C34_all_sizes_refuted"], "note": ""},
{"property": "C35", "status": "proved", "theorems": ["C35_fresh"], "note": ""},
{"property": "C36", "status": "proved", "theorems": ["C36_points", "C36_points_total"], "note": ""},
{"property": "C37", "status": "proved", "theorems": ["C37_ranges", "C37_stale_refuted", "C37_negative_refuted"], "note": ""},
{"property": "C38", "status": "proved", "theorems": ["C38_find", "C38_present"], "note": ""},
{"property": "C39", "status": "proved", "theorems": ["C39_structure", "C39_last_at_root"], "note": ""},
{"property": "C40", "status": "proved", "theorems": ["C40_erase_first", "C40_erase_last", "C40_erase_middle", "C40_erase_then_insert_refuted"], "note": ""},
{"property": "C41", "status": "proved", "theorems": ["C41_pre_suf", "C41_pre_suf_root", "C41_pre_refuted"], "note": ""},
{"property": "C42", "status": "proved", "theorems": ["C42_tree_fields", "C42_getAncestor"], "note": ""},
{"property": "C43", "status": "proved", "theorems": ["C43_lca_exists", "C43_lca", "C43_lca_sound", "C43_shallow", "C43_full_depth", "C43_lca_safe_refuted"], "note": ""},
{"property": "C44", "status": "proved", "theorems": ["C44_distance", "C44_distance_outcome"], "note": ""},
{"property": "C45", "status": "proved", "theorems": ["C45_ids", "C45_graph", "C45_degree_sums", "C45_listed_once"], "note": ""},
{"property": "C46", "status": "proved", "theorems": ["C46_edge_lifetime", "C46_copy", "C46_assign", "C46_self_assign", "C46_dangling_in"], "note": ""},
{"property": "C47", "status": "proved", "theorems": ["C47_set_semantics", "C47_default_map", "C47_answers"], "note": ""},
{"property": "C48", "status": "proved", "theorems": ["C48_size"], "note": ""},
{"property": "C49", "status": "proved", "theorems": ["C49_safety", "C49_remove_from_empty", "C49_remove_absent_refuted"], "note": ""},
{"property": "C50", "status": "proved", "theorems": ["C50_iteration_sound", "C50_default_inverse", "C50_iteration_complete", "C50_complete_refuted", "C50_termination_refuted", "C50_begin_refuted"], "note": ""},
{"property": "C51", "status": "proved", "theorems": ["C51_same_map_independent", "C51_other_map_refuted"], "note": ""},
{"property": "C52", "status": "proved", "theorems": ["C52_escape_round_trip", "C52_escape_in_context", "C52_toString"], "note": ""},
{"property": "C53", "status": "proved", "theorems": ["C53_round_trip", "C53_round_trip_plain", "C53_exact", "C53_reload"], "note": ""},
{"property": "C54", "status": "proved", "theorems": ["C54_key_stored_escaped", "C54_key_raw", "C54_exact", "C54_any_key_refuted"], "note": ""},
{"property": "C55", "status": "proved", "theorems": ["C55_integer", "C55_fraction", "C55_exponent_signed", "C55_exponent_unsigned", "C55_exponent_in_array", "C55_exponent_refuted"], "note": ""},
{"property": "C56", "status": "proved", "theorems": ["C56_terminates", "C56_safe", "C56_unterminated_string", "C56_unterminated_array"], "note": ""},
{"property": "C57", "status": "proved", "theorems": ["C57_value_semantics", "C57_other_variables", "C57_copy_independent", "C57_original_independent", "C57_move", "C57_moved_from", "C57_copy_assign"], "note": ""},
{"property": "C58", "status": "proved", "theorems": ["C58_nextInt", "C58_nextInt_every_value", "C58_nextBool"], "note": ""},
{"property": "C59", "status": "proved", "theorems": ["C59_nextInt_overflow", "C59_nextInt_wrapping_uniform"], "note": ""},
{"property": "C60", "status": "proved", "theorems": ["C60_nextDouble", "C60_half_open_refuted", "C60_nextDouble_range", "C60_nextDouble_max", "C60_below_max_refuted", "C60_wide_interval_refuted"], "note": ""},
{"property": "C61", "status": "proved", "theorems": ["C61_seeded_replay", "C61_fresh_generator", "C61_normal_spare", "C61_normal_replay_refuted"], "note": ""},
{"property": "C62", "status": "proved", "theorems": ["C62_negative_binomial", "C62_negative_binomial_draws", "C62_geometric_cdf", "C62_geometric_small_p_overflow", "C62_poisson", "C62_binomial", "C62_bernoulli", "C62_poisson_underflow", "C62_negative_binomial_returns_refuted", "C62_geometric_draw_one_refuted", "C62_bernoulli_certain"], "note": ""},
{"property": "C63", "status": "proved", "theorems": ["C63_vector", "C63_list", "C63_merge", "C63_comparisons", "C63_fill"], "note": ""},
{"property": "C64", "status": "proved", "theorems": ["C64_stack", "C64_queue", "C64_lifo", "C64_fifo", "C64_clear", "C64_clear_any_size_refuted"], "note": ""},
{"property": "C65", "status": "proved", "theorems": ["C65_map", "C65_set", "C65_index_is_a_read_refuted"], "note": ""},
{"property": "C66", "status": "proved", "theorems": ["C66_multiset", "C66_multimap_count", "C66_multimap_erase", "C66_multimap_order", "C66_multimap_find", "C66_find_all_refuted"], "note": ""},
{"property": "C67", "status": "proved", "theorems": ["C67_print", "C67_round_trip", "C67_exact", "C67_diverges", "C67_safe", "C67_malformed_is_reported_refuted"], "note": ""},
{"property": "C68", "status": "proved", "theorems": ["C68_intersection", "C68_intersection_symmetric", "C68_parallel_not_finite", "C68_not_parallel_not_finite_refuted"], "note": ""},
{"property": "C69", "status": "proved", "theorems": ["C69_order_is_lexicographic", "C69_order_total", "C69_tolerant_equality", "C69_equality_reflexive_symmetric", "C69_equality_transitive_refuted", "C69_equality_consistent_with_order_refuted", "C69_nan_equals_everything"], "note": ""},
{"property": "C70", "status": "proved", "theorems": ["C70_distance_to_line", "C70_distance_to_segment", "C70_distance_to_segment_band", "C70_distance_to_segment_refuted", "C70_degenerate_nan"], "note": ""},
{"property": "C71", "status": "proved", "theorems": ["C71_exponential_infinite"], "note": ""},
{"property": "C72", "status": "proved", "theorems": ["C72_compound_assignment", "C72_scale_by_own_element", "C72_scale_by_own_element_refuted", "C72_normalize", "C72_normalize_zero_refuted"], "note": ""},
{"property": "C73", "status": "proved", "theorems": ["C73_circle_points", "C73_circle_area_perimeter"], "note": ""},
{"property": "C74", "status": "proved", "theorems": ["C74_urlDecode_form_decoding", "C74_urlDecode_lenient"], "note": ""},
{"property": "C75", "status": "proved", "theorems": ["C75_large_alphabet_refuted"], "note": ""},
{"property": "C76", "status": "proved", "theorems": ["C76_first_foreign", "C76_contain_foreign", "C76_insert_foreign_refuted", "C76_end_mark_refuted"], "note": ""},
{"property": "C77", "status": "proved", "theorems": ["C77_set_then_get", "C77_others_kept", "C77_read_again", "C77_read_creates", "C77_read_retypes", "C77_index_grows", "C77_index_range", "C77_read_keeps_refuted"], "note": ""},
{"property": "C78", "status": "proved", "theorems": ["C78_self_copy", "C78_self_copy_scalar", "C78_from_element", "C78_into_element", "C78_self_move", "C78_move_into_element", "C78_clash", "C78_self_copy_refuted"], "note": ""},
{"property": "C79", "status": "proved", "theorems": ["C79_const_key", "C79_const_keeps_refuted", "C79_const_type", "C79_const_index"], "note": ""},
{"property": "C80", "status": "proved", "theorems": ["C80_entries", "C80_odd", "C80_empty", "C80_key_refuted", "C80_nullptr"], "note": ""},
{"property": "C81", "status": "proved", "theorems": ["C81_append", "C81_append_object", "C81_append_order_refuted"], "note": ""},
{"property": "C82", "status": "proved", "theorems": ["C82_members", "C82_no_merging"], "note": ""},
{"property": "C83", "status": "proved", "theorems": ["C83_variance_int", "C83_stddev_int", "C83_variance_int_container", "C83_mean_int", "C83_mean_no_elements", "C83_variance_double", "C83_variance_double_accuracy", "C83_variance_int_container_accuracy", "C83_sample_variance_int", "C83_sample_variance_double", "C83_variance_double_equal_refuted", "C83_same_result_refuted"], "note": ""},
{"property": "C84", "status": "proved", "theorems": ["C84_ownership", "C84_no_leak", "C84_independent", "C84_shared_uniform_int", "C84_shared_uniform", "C84_outlives_generator_refuted"], "note": ""},
{"property": "C85", "status": "proved", "theorems": ["C85_same_second", "C85_two_distributions_differ_refuted", "C85_rebind", "C85_rebind_normal_refuted", "C85_functions"], "note": ""},
{"property": "C86", "status": "proved", "theorems": ["C86_checks", "C86_documented", "C86_zero_rate_refuted", "C86_least_freedom_refuted", "C86_nan_refuted", "C86_chi_getter", "C86_lambda_getter", "C86_lambda_getter_refuted"], "note": ""},
{"property": "C87", "status": "proved", "theorems": ["C87_outcome", "C87_infinite_shape_refuted", "C87_integer_shape", "C87_never_negative", "C87_student_nan_refuted", "C87_student_value", "C87_student_order_refuted"], "note": ""},
{"property": "C88", "status": "proved", "theorems": ["C88_fractional_shape", "C88_integer_shape", "C88_exponential", "C88_same_code", "C88_mean_unique"], "note": ""},
{"property": "C89", "status": "proved", "theorems": ["C89_result", "C89_round_trip", "C89_object", "C89_keeps_text_refuted", "C89_never_reports"], "note": ""},
{"property": "C90", "status": "proved", "theorems": ["C90_echelon", "C90_echelon_double", "C90_singular_refuted", "C90_regular_refuted", "C90_int_refuted"], "note": ""},
{"property": "C91", "status": "proved", "theorems": ["C91_values", "C91_memory", "C91_released", "C91_product_refuted"], "note": ""},
{"property": "C92", "status": "proved", "theorems": ["C92_nextInt", "C92_nextInt_bias", "C92_nextInt_max", "C92_nextInt_fair", "C92_nextBool", "C92_nextInt_all", "C92_nextDouble", "C92_bernoulli"], "note": ""},
{"property": "C93", "status": "proved", "theorems": ["C93_document", "C93_one_value", "C93_trailing_text", "C93_only_documents_refuted", "C93_unicode_escape_refuted"], "note": ""},
{"property": "C94", "status": "proved", "theorems": ["C94_sound", "C94_no_overflow", "C94_points", "C94_bound_refuted", "C94_maximum_refuted", "C94_pending_refuted"], "note": ""},
{"property": "C95", "status": "proved", "theorems": ["C95_common_type", "C95_gcd", "C95_gcd_undefined", "C95_gcd_same_width", "C95_gcd_endless", "C95_gcd_mixed_refuted", "C95_lcm", "C95_lcm_overflow", "C95_lcm_signed", "C95_lcm_zero", "C95_lcm_unsigned_refuted"], "note": ""},
{"property": "C96", "status": "proved", "theorems": ["C96_factorial", "C96_permutation", "C96_permutation_invalid", "C96_permutation_zero", "C96_permutation_unsigned_refuted", "C96_binomial", "C96_binomial_counter", "C96_binomial_counter_refuted"], "note": ""},
{"property": "C97", "status": "proved", "theorems": ["C97_power", "C97_power_negative", "C97_power_representable_refuted", "C97_sum", "C97_sum_map"], "note": ""},
{"property": "C98", "status": "proved", "theorems": ["C98_cross_exact", "C98_dot_exact", "C98_cross_exact_refuted", "C98_equality", "C98_line", "C98_segment", "C98_intersection", "C98_parallel"], "note": ""},
{"property": "C99", "status": "proved", "theorems": ["C99_commutative", "C99_cross_antisymmetric", "C99_cross_error", "C99_length", "C99_normalize", "C99_length_refuted", "C99_line", "C99_line_relative_refuted"], "note": ""},
{"property": "C100", "status": "proved", "theorems": ["C100_fraction", "C100_matrix", "C100_matrix_no_columns", "C100_matrix_text_equal", "C100_matrix_text_equal_refuted", "C100_point", "C100_int_readable"], "note": ""},
{"property": "C101", "status": "proved", "theorems": ["C101_expression", "C101_functions", "C101_bounded_memory_refuted"], "note": ""},
{"property": "C102", "status": "proved", "theorems": ["C102_exact", "C102_refused", "C102_one_value", "C102_appended", "C102_appended_refuted", "C102_json_refuted"], "note": ""},
{"property": "C103", "status": "proved", "theorems": ["C103_exact", "C103_error", "C103_reported_refuted"], "note": ""},
{"property": "C104", "status": "proved", "theorems": ["C104_sum", "C104_difference", "C104_product", "C104_product_bound", "C104_product_wraps", "C104_product_any", "C104_sizes", "C104_associative", "C104_distributive", "C104_associative_refuted", "C104_representable_refuted", "C104_reduce", "C104_reduce_refuted"], "note": ""},
{"property": "C105", "status": "proved", "theorems": ["C105_programs", "C105_factorial", "C105_fibonacci", "C105_copy_refuted", "C105_reassigned_refuted"], "note": ""},
{"property": "C106", "status": "proved", "theorems": ["C106_counting", "C106_amortized", "C106_amortized_log", "C106_one_insertion", "C106_find_linear", "C106_find_refuted"], "note": ""},
{"property": "C107", "status": "proved", "theorems": ["C107_counting", "C107_calls", "C107_query", "C107_total", "C107_sharp"], "note": ""},
{"property": "C108", "status": "proved", "theorems": ["C108_counting", "C108_gcd", "C108_gcd_bound", "C108_gcd_reached", "C108_binaryPow", "C108_generic", "C108_superfluous"], "note": ""},
{"property": "C109", "status": "proved", "theorems": ["C109_counting", "C109_getAncestor", "C109_build", "C109_addNode", "C109_LCA", "C109_bound"], "note": ""},
{"property": "C110", "status": "proved", "theorems": ["C110_law", "C110_rounds", "C110_same_code", "C110_bounded"], "note": ""},
{"property": "C111", "status": "proved", "theorems": ["C111_poisson", "C111_poisson_returns", "C111_negative_binomial", "C111_negative_binomial_returns", "C111_binomial", "C111_same_value"], "note": ""},
{"property": "C112", "status": "proved", "theorems": ["C112_map", "C112_filter", "C112_pure"], "note": ""},
{"property": "C113", "status": "proved", "theorems": ["C113_same_result", "C113_linear", "C113_tight"], "note": ""},
{"property": "C114", "status": "proved", "theorems": ["C114_modular", "C114_points", "C114_sums", "C114_defined", "C114_unsigned_short_refuted", "C114_extrema_refuted"], "note": ""},
{"property": "C115", "status": "proved", "theorems": ["C115_gcd_sign", "C115_euclid", "C115_fraction", "C115_operators", "C115_representable_refuted"], "note": ""},
{"property": "C116", "status": "proved", "theorems": ["C116_enough", "C116_more", "C116_loaded", "C116_arrays_move", "C116_depth", "C116_any_stack_refuted", "C116_quadratic", "C116_linear_refuted"], "note": ""},
{"property": "C117", "status": "proved", "theorems": ["C117_identity", "C117_set", "C117_multiset", "C117_sort", "C117_list", "C117_outcome", "C117_lookups", "C117_copies", "C117_all_kept_refuted"], "note": ""},
{"property": "C118", "status": "proved", "theorems": ["C118_never_shrinks", "C118_linear", "C118_default", "C118_removed_words_stay", "C118_little_space_refuted"], "note": ""},
{"property": "C119", "status": "proved", "theorems": ["C119_pieces", "C119_exact", "C119_right_when", "C119_never_over", "C119_sum_right_iff"], "note": ""},
{"property": "C120", "status": "proved", "theorems": ["C120_shared", "C120_doomed", "C120_careful", "C120_swap", "C120_swap_fatal", "C120_grow", "C120_grow_fatal", "C120_setters"], "note": ""},
{"property": "C121", "status": "proved", "theorems": ["C121_counts", "C121_contain", "C121_remove", "C121_insert", "C121_quadratic", "C121_insert_linear_refuted", "C121_copies_refuted"], "note": ""},
{"property": "C122", "status": "proved", "theorems": ["C122_any", "C122_order", "C122_double_extrema", "C122_double_sum", "C122_double_sum_simple", "C122_integers", "C122_nan_refuted", "C122_left_to_right_refuted", "C122_additions_refuted"], "note": ""},
{"property": "C123", "status": "proved", "theorems": ["C123_dump", "C123_copy", "C123_destroy", "C123_any_stack_refuted", "C123_size", "C123_objects", "C123_linear_refuted", "C123_aligned"], "note": ""},
{"property": "C124", "status": "proved", "theorems": ["C124_print", "C124_round_trip", "C124_exact", "C124_chars", "C124_strings", "C124_words", "C124_ints", "C124_safe", "C124_always_refuted"], "note": ""},
{"property": "C125", "status": "proved", "theorems": ["C125_text", "C125_read", "C125_round_trip", "C125_document", "C125_settles", "C125_exact", "C125_large", "C125_integers", "C125_small", "C125_nonfinite", "C125_survive_refuted", "C125_exponent_refuted"], "note": ""},
{"property": "C126", "status": "proved", "theorems": ["C126_text", "C126_alike", "C126_read", "C126_cast", "C126_cast_back", "C126_cast_blank", "C126_cast_other", "C126_json", "C126_vector", "C126_error", "C126_exact", "C126_settles", "C126_settles_refuted", "C126_survive_refuted", "C126_nonfinite", "C126_points"], "note": ""},
{"property": "C127", "status": "proved", "theorems": ["C127_meaning", "C127_library", "C127_worst", "C127_defined", "C127_exact", "C127_alias", "C127_survives_refuted", "C127_portable_refuted"], "note": ""},
{"property": "C128", "status": "proved", "theorems": ["C128_follows", "C128_sorted", "C128_kept", "C128_index_refuted"], "note": ""},
{"property": "C129", "status": "proved", "theorems": ["C129_follows", "C129_kept", "C129_again_refuted"], "note": ""},
{"property": "C130", "status": "proved", "theorems": ["C130_cast", "C130_cast_round_trip", "C130_print", "C130_round_trip", "C130_exact", "C130_diverges", "C130_byte_cast", "C130_bytes", "C130_int", "C130_small_refuted", "C130_negative_refuted"], "note": ""},
{"property": "C131", "status": "proved", "theorems": ["C131_follows", "C131_next", "C131_order", "C131_sees", "C131_only", "C131_ends", "C131_safe", "C131_current_refuted", "C131_again", "C131_ends_refuted"], "note": ""},
{"property": "C132", "status": "proved", "theorems": ["C132_map", "C132_filter", "C132_ends", "C132_plain", "C132_erase_refuted", "C132_length_refuted"], "note": ""},
{"property": "C133", "status": "proved", "theorems": ["C133_follows", "C133_sees", "C133_work", "C133_front", "C133_ends_refuted", "C133_current_refuted", "C133_reverse_refuted"], "note": ""},
{"property": "C134", "status": "proved", "theorems": ["C134_meaning", "C134_stack", "C134_queue", "C134_grow", "C134_copy", "C134_write", "C134_top_refuted", "C134_empty_refuted"], "note": ""},
{"property": "C135", "status": "proved", "theorems": ["C135_follows", "C135_ends", "C135_safe", "C135_order", "C135_sees", "C135_left", "C135_current_refuted"], "note": ""},
{"property": "C136", "status": "proved", "theorems": ["C136_elements", "C136_accurate", "C136_whole", "C136_ones_refuted", "C136_mean", "C136_mean_all", "C136_mean_refuted", "C136_order_refuted"], "note": ""},
{"property": "C137", "status": "proved", "theorems": ["C137_index", "C137_only", "C137_ends", "C137_safe", "C137_values", "C137_map", "C137_resize_refuted", "C137_write_refuted"], "note": ""}
]}
