{
 "claims": [
  {
   "property": "C01",
   "status": "proved",
   "theorems": [
    "C01_decode_removes_error",
    "C01_largest_error",
    "C01_poly_decode_removes_error"
   ],
   "note": ""
  },
  {
   "property": "C02",
   "status": "proved",
   "theorems": [
    "C02_new_requires_power_of_two",
    "C02_encode_range",
    "C02_modulus_one"
   ],
   "note": ""
  },
  {
   "property": "C03",
   "status": "proved",
   "theorems": [
    "C03_ternary_window",
    "C03_ternary_rejects",
    "C03_ternary_decode_total",
    "C03_poly_ternary_roundtrip"
   ],
   "note": ""
  },
  {
   "property": "C04",
   "status": "proved",
   "theorems": [
    "C04_log2_floor",
    "C04_log2_zero"
   ],
   "note": ""
  },
  {
   "property": "C05",
   "status": "proved",
   "theorems": [
    "C05_transpose_exact",
    "C05_transpose_involutive",
    "C05_transpose_rejects",
    "C05_transpose_longer_rows"
   ],
   "note": ""
  },
  {
   "property": "C06",
   "status": "proved",
   "theorems": [
    "C06_lossy_is_low_bits",
    "C06_lossy_rejects_non_bits"
   ],
   "note": ""
  },
  {
   "property": "C07",
   "status": "proved",
   "theorems": [
    "C07_hash_bijective",
    "C07_checked_hash",
    "C07_new_rejects_zero",
    "C07_hash1_alias"
   ],
   "note": ""
  },
  {
   "property": "C08",
   "status": "proved",
   "theorems": [
    "C08_tuples_tile"
   ],
   "note": ""
  },
  {
   "property": "C09",
   "status": "proved",
   "theorems": [
    "C09_mapping_sound",
    "C09_mapping_total",
    "C09_mapping_once",
    "C09_mapping_greedy_maximal"
   ],
   "note": ""
  },
  {
   "property": "C10",
   "status": "proved",
   "theorems": [
    "C10_unplaceable_index_is_dropped_refuted",
    "C10_mapping_never_panics_refuted"
   ],
   "note": ""
  },
  {
   "property": "C11",
   "status": "proved",
   "theorems": [
    "C11_eval_is_substitution",
    "C11_eval_homomorphism",
    "C11_eval_compose",
    "C11_eval_panics"
   ],
   "note": ""
  },
  {
   "property": "C12",
   "status": "proved",
   "theorems": [
    "C12_encrypt_decrypt",
    "C12_encrypt_rejects",
    "C12_ternary",
    "C12_decrypt_is_message_plus_noise",
    "C12_constant"
   ],
   "note": ""
  },
  {
   "property": "C13",
   "status": "proved",
   "theorems": [
    "C13_add_sub",
    "C13_clear_copy",
    "C13_monomial_div"
   ],
   "note": ""
  },
  {
   "property": "C14",
   "status": "proved",
   "theorems": [
    "C14_mask_mul",
    "C14_mul_with_buf",
    "C14_body_mul_always_zero",
    "C14_body_mul_refuted"
   ],
   "note": ""
  },
  {
   "property": "C15",
   "status": "proved",
   "theorems": [
    "C15_less_eq_than",
    "C15_threshold_rejected"
   ],
   "note": ""
  },
  {
   "property": "C16",
   "status": "proved",
   "theorems": [
    "C16_eq_to",
    "C16_value_rejected"
   ],
   "note": ""
  },
  {
   "property": "C17",
   "status": "proved",
   "theorems": [
    "C17_not",
    "C17_not_decrypts",
    "C17_not_modulus_4"
   ],
   "note": ""
  },
  {
   "property": "C18",
   "status": "proved",
   "theorems": [
    "C18_external_product",
    "C18_encrypt_constant_rgsw",
    "C18_encrypt_rgsw",
    "C18_rgsw_add"
   ],
   "note": ""
  },
  {
   "property": "C19",
   "status": "proved",
   "theorems": [
    "C19_cmux_selects",
    "C19_cmux_decrypts"
   ],
   "note": ""
  },
  {
   "property": "C20",
   "status": "proved",
   "theorems": [
    "C20_keyswitch"
   ],
   "note": ""
  },
  {
   "property": "C21",
   "status": "proved",
   "theorems": [
    "C21_subs",
    "C21_plain_key_rejected",
    "C21_even_rejected"
   ],
   "note": ""
  },
  {
   "property": "C22",
   "status": "proved",
   "theorems": [
    "C22_trace1"
   ],
   "note": ""
  },
  {
   "property": "C23",
   "status": "proved",
   "theorems": [
    "C23_neg_gsw",
    "C23_neg_gsw_rows",
    "C23_different_base_refuted",
    "C23_any_key"
   ],
   "note": ""
  },
  {
   "property": "C24",
   "status": "proved",
   "theorems": [
    "C24_expand",
    "C24_inputs",
    "C24_inputs_rejected",
    "C24_empty_rejected"
   ],
   "note": ""
  },
  {
   "property": "C25",
   "status": "proved",
   "theorems": [
    "C25_rgsw_keyswitch"
   ],
   "note": ""
  },
  {
   "property": "C26",
   "status": "proved",
   "theorems": [
    "C26_lwe_roundtrip",
    "C26_decrypt_is_message_plus_noise"
   ],
   "note": ""
  },
  {
   "property": "C27",
   "status": "proved",
   "theorems": [
    "C27_sample_extraction",
    "C27_degree_rejected"
   ],
   "note": ""
  },
  {
   "property": "C28",
   "status": "proved",
   "theorems": [
    "C28_conv_lwe_to_rlwe",
    "C28_key_size_checked",
    "C28_expand_slow",
    "C28_expand_slow_inputs",
    "C28_inputs_rejected",
    "C28_inputs_rejected_refuted",
    "C28_expand_slow_rejects"
   ],
   "note": ""
  },
  {
   "property": "C29",
   "status": "proved",
   "theorems": [
    "C29_noise_is_max_distance",
    "C29_noise_encoded",
    "C29_noise_overflow",
    "C29_ternary_reports_phase",
    "C29_ternary_refuted"
   ],
   "note": ""
  },
  {
   "property": "C30",
   "status": "proved",
   "theorems": [
    "C30_fix_index",
    "C30_flatten_preorder",
    "C30_flatten_index",
    "C30_leaf"
   ],
   "note": ""
  },
  {
   "property": "C31",
   "status": "proved",
   "theorems": [
    "C31_counts",
    "C31_depth",
    "C31_max_feature"
   ],
   "note": ""
  },
  {
   "property": "C32",
   "status": "proved",
   "theorems": [
    "C32_eval_follows_path",
    "C32_eval_panics"
   ],
   "note": ""
  },
  {
   "property": "C33",
   "status": "proved",
   "theorems": [
    "C33_trunc_none",
    "C33_trunc_no_zero_leaf",
    "C33_trunc_preserves_eval"
   ],
   "note": ""
  },
  {
   "property": "C34",
   "status": "proved",
   "theorems": [
    "C34_full_tree"
   ],
   "note": ""
  },
  {
   "property": "C35",
   "status": "proved",
   "theorems": [
    "C35_enc_tree_matches",
    "C35_enc_tree_panics"
   ],
   "note": ""
  },
  {
   "property": "C36",
   "status": "proved",
   "theorems": [
    "C36_max_leaf",
    "C36_any_encrypted_tree",
    "C36_encrypted_evaluation",
    "C36_all_zero_labels_refuted"
   ],
   "note": ""
  },
  {
   "property": "C37",
   "status": "proved",
   "theorems": [
    "C37_demux_with",
    "C37_demux_unit_vector",
    "C37_empty_panics"
   ],
   "note": ""
  },
  {
   "property": "C38",
   "status": "proved",
   "theorems": [
    "C38_index_selects_slot",
    "C38_index_wraps",
    "C38_zero_width_panics"
   ],
   "note": ""
  },
  {
   "property": "C39",
   "status": "proved",
   "theorems": [
    "C39_private_evaluation",
    "C39_large_feature_panics"
   ],
   "note": ""
  },
  {
   "property": "C40",
   "status": "proved",
   "theorems": [
    "C40_setup",
    "C40_dimension_mismatch_panics"
   ],
   "note": ""
  },
  {
   "property": "C41",
   "status": "proved",
   "theorems": [
    "C41_single_read"
   ],
   "note": ""
  },
  {
   "property": "C42",
   "status": "proved",
   "theorems": [
    "C42_single_write"
   ],
   "note": ""
  },
  {
   "property": "C43",
   "status": "proved",
   "theorems": [
    "C43_history",
    "C43_setup_then_history"
   ],
   "note": ""
  },
  {
   "property": "C44",
   "status": "proved",
   "theorems": [
    "C44_multi_distinct"
   ],
   "note": ""
  },
  {
   "property": "C45",
   "status": "proved",
   "theorems": [
    "C45_multi_exact",
    "C45_two_reads_refuted"
   ],
   "note": ""
  },
  {
   "property": "C46",
   "status": "proved",
   "theorems": [
    "C46_batch_read"
   ],
   "note": ""
  },
  {
   "property": "C47",
   "status": "proved",
   "theorems": [
    "C47_batch_write",
    "C47_batch_write_exact",
    "C47_repeated_item_refuted"
   ],
   "note": ""
  },
  {
   "property": "C48",
   "status": "proved",
   "theorems": [
    "C48_batch_history",
    "C48_setup_then_batches"
   ],
   "note": ""
  },
  {
   "property": "C49",
   "status": "proved",
   "theorems": [
    "C49_process_one_deterministic",
    "C49_process_multi_deterministic",
    "C49_process_batch_deterministic",
    "C49_process_one_no_deadlock",
    "C49_process_multi_no_deadlock",
    "C49_process_batch_no_deadlock",
    "C49_session_any_schedule",
    "C49_batch_session_any_schedule"
   ],
   "note": ""
  },
  {
   "property": "C50",
   "status": "proved",
   "theorems": [
    "C50_reduce_ciphertexts",
    "C50_reduce_rows",
    "C50_reduce_selections"
   ],
   "note": ""
  },
  {
   "property": "C51",
   "status": "proved",
   "theorems": [
    "C51_query_engines_agree",
    "C51_update_engines_agree",
    "C51_any_schedule"
   ],
   "note": ""
  },
  {
   "property": "C52",
   "status": "proved",
   "theorems": [
    "C52_query_shape",
    "C52_read_batch_shape",
    "C52_write_batch_shape",
    "C52_masks_independent",
    "C52_C53_accesses_independent"
   ],
   "note": ""
  },
  {
   "property": "C53",
   "status": "proved",
   "theorems": [
    "C53_process_one_trace",
    "C53_process_multi_trace",
    "C53_process_batch_trace",
    "C53_process_one_any_schedule",
    "C53_process_multi_any_schedule",
    "C53_process_batch_any_schedule",
    "C53_every_execution_is_observed"
   ],
   "note": ""
  },
  {
   "property": "C54",
   "status": "proved",
   "theorems": [
    "C54_process_one_width",
    "C54_process_multi_width",
    "C54_process_batch_width",
    "C54_not_a_power_of_two",
    "C54_process_batch_count",
    "C54_panics"
   ],
   "note": ""
  },
  {
   "property": "C55",
   "status": "proved",
   "theorems": [
    "C55_one_row",
    "C55_exact",
    "C55_other_row_refuted"
   ],
   "note": ""
  },
  {
   "property": "C56",
   "status": "proved",
   "theorems": [
    "C56_binary",
    "C56_other_refuted",
    "C56_fresh_database_refuted"
   ],
   "note": ""
  },
  {
   "property": "C57",
   "status": "proved",
   "theorems": [
    "C57_cartesian_product",
    "C57_position"
   ],
   "note": ""
  },
  {
   "property": "C58",
   "status": "proved",
   "theorems": [
    "C58_parameter_selection"
   ],
   "note": ""
  },
  {
   "property": "C59",
   "status": "proved",
   "theorems": [
    "C59_single_query",
    "C59_multi_query",
    "C59_batch_query",
    "C59_no_iterations",
    "C59_dryrun",
    "C59_multi_query_too_many",
    "C59_batch_query_not_divisible",
    "C59_batch_check_refuted",
    "C59_batch_check_order_refuted"
   ],
   "note": ""
  },
  {
   "property": "C60",
   "status": "proved",
   "theorems": [
    "C60_mixed_history",
    "C60_mixed_any_schedule",
    "C60_setup_then_mixed"
   ],
   "note": ""
  },
  {
   "property": "C61",
   "status": "proved",
   "theorems": [
    "C61_setup_then_batches"
   ],
   "note": ""
  },
  {
   "property": "C62",
   "status": "proved",
   "theorems": [
    "C62_gen_pt",
    "C62_gen_binary",
    "C62_gen_ternary",
    "C62_draws_independent",
    "C62_gen_fixed",
    "C62_generated_roundtrip",
    "C62_generated_lwe_roundtrip",
    "C62_sizes",
    "C62_drawn_complete",
    "C62_drawn_single_query",
    "C62_drawn_multi_query",
    "C62_drawn_batch_query"
   ],
   "note": ""
  },
  {
   "property": "C63",
   "status": "proved",
   "theorems": [
    "C63_rows",
    "C63_encrypt_vec",
    "C63_parts_independent",
    "C63_noise_report",
    "C63_noise_report_of_zero_refuted"
   ],
   "note": ""
  },
  {
   "property": "C64",
   "status": "proved",
   "theorems": [
    "C64_decomposed_to_rgsw",
    "C64_too_few",
    "C64_extra_ignored"
   ],
   "note": ""
  },
  {
   "property": "C65",
   "status": "proved",
   "theorems": [
    "C65_runs_every_set_once",
    "C65_main_completes",
    "C65_dry_run",
    "C65_wrong_path_refuted"
   ],
   "note": ""
  },
  {
   "property": "C66",
   "status": "proved",
   "theorems": [
    "C66_rlwe",
    "C66_rgsw",
    "C66_lwe",
    "C66_decodes"
   ],
   "note": ""
  },
  {
   "property": "C67",
   "status": "proved",
   "theorems": [
    "C67_one_level",
    "C67_one_query",
    "C67_one_row",
    "C67_one_item",
    "C67_multi_query_refuted",
    "C67_single_query_one_level",
    "C67_default_command_line_refuted"
   ],
   "note": ""
  },
  {
   "property": "C68",
   "status": "proved",
   "theorems": [
    "C68_never_poisons",
    "C68_rejected",
    "C68_history_without",
    "C68_setup_then_attempts",
    "C68_batches_without",
    "C68_setup_then_batch_attempts"
   ],
   "note": ""
  },
  {
   "property": "C69",
   "status": "proved",
   "theorems": [
    "C69_default_context",
    "C69_default_chain",
    "C69_default_tree",
    "C69_default_protocol",
    "C69_production_oram"
   ],
   "note": ""
  },
  {
   "property": "C70",
   "status": "proved",
   "theorems": [
    "C70_field",
    "C70_table",
    "C70_rejects",
    "C70_first_row_refuted",
    "C70_header_ignored"
   ],
   "note": ""
  },
  {
   "property": "C71",
   "status": "proved",
   "theorems": [
    "C71_two",
    "C71_three",
    "C71_five",
    "C71_inexact"
   ],
   "note": ""
  },
  {
   "property": "C72",
   "status": "proved",
   "theorems": [
    "C72_main_any_schedule",
    "C72_supported_any_schedule"
   ],
   "note": ""
  },
  {
   "property": "C73",
   "status": "proved",
   "theorems": [
    "C73_courses_are_executions",
    "C73_history_oblivious",
    "C73_something_is_seen",
    "C73_setup_oblivious"
   ],
   "note": ""
  },
  {
   "property": "C74",
   "status": "proved",
   "theorems": [
    "C74_same_outcome",
    "C74_parallel_predictions"
   ],
   "note": ""
  },
  {
   "property": "C75",
   "status": "proved",
   "theorems": [
    "C75_message_shape",
    "C75_message_masks",
    "C75_reply_oblivious",
    "C75_reply_shape"
   ],
   "note": ""
  },
  {
   "property": "C76",
   "status": "proved",
   "theorems": [
    "C76_truncated_protocol",
    "C76_truncated_size"
   ],
   "note": ""
  },
  {
   "property": "C77",
   "status": "proved",
   "theorems": [
    "C77_reads",
    "C77_writes",
    "C77_round_trip",
    "C77_deep_refuted",
    "C77_distinct"
   ],
   "note": ""
  },
  {
   "property": "C78",
   "status": "proved",
   "theorems": [
    "C78_reads",
    "C78_selects",
    "C78_round_trip",
    "C78_shipped",
    "C78_shipped_dry_run"
   ],
   "note": ""
  },
  {
   "property": "C79",
   "status": "proved",
   "theorems": [
    "C79_recompose",
    "C79_simulate",
    "C79_single_query",
    "C79_multi_query",
    "C79_batch_query"
   ],
   "note": ""
  },
  {
   "property": "C80",
   "status": "proved",
   "theorems": [
    "C80_context",
    "C80_fixed_seed_refuted",
    "C80_fixed_seed_mask_refuted",
    "C80_fixed_seed_readable_refuted",
    "C80_fixed_seed_reproducible",
    "C80_secure_seed",
    "C80_simulation_report",
    "C80_report_fields"
   ],
   "note": ""
  },
  {
   "property": "C81",
   "status": "proved",
   "theorems": [
    "C81_ends_alike",
    "C81_table",
    "C81_panic_keeps_rows",
    "C81_panic_keeps_iterations",
    "C81_power_columns_refuted"
   ],
   "note": ""
  },
  {
   "property": "C82",
   "status": "proved",
   "theorems": [
    "C82_float_product",
    "C82_machine",
    "C82_binary64",
    "C82_double",
    "C82_default",
    "C82_default_chain",
    "C82_protocol",
    "C82_oram"
   ],
   "note": ""
  },
  {
   "property": "C83",
   "status": "proved",
   "theorems": [
    "C83_context",
    "C83_simulation",
    "C83_unambiguous"
   ],
   "note": ""
  },
  {
   "property": "C84",
   "status": "proved",
   "theorems": [
    "C84_command_line",
    "C84_not_run",
    "C84_order",
    "C84_file_decides",
    "C84_file_table",
    "C84_options_table",
    "C84_status",
    "C84_secure_seed_refuted",
    "C84_no_arguments"
   ],
   "note": ""
  },
  {
   "property": "C85",
   "status": "proved",
   "theorems": [
    "C85_bounded",
    "C85_tape",
    "C85_returns",
    "C85_accepts",
    "C85_support_refuted",
    "C85_default_round_trip",
    "C85_default_chain",
    "C85_protocol",
    "C85_oram"
   ],
   "note": ""
  },
  {
   "property": "C86",
   "status": "proved",
   "theorems": [
    "C86_new",
    "C86_index",
    "C86_uniform",
    "C86_support",
    "C86_hides",
    "C86_cells",
    "C86_shuffle_permutes",
    "C86_batch_query",
    "C86_terminates"
   ],
   "note": ""
  },
  {
   "property": "C87",
   "status": "proved",
   "theorems": [
    "C87_grammar",
    "C87_unambiguous",
    "C87_read",
    "C87_rejects",
    "C87_written",
    "C87_open_quotation_refuted"
   ],
   "note": ""
  },
  {
   "property": "C88",
   "status": "proved",
   "theorems": [
    "C88_first",
    "C88_second",
    "C88_any",
    "C88_all",
    "C88_one_row",
    "C88_run"
   ],
   "note": ""
  },
  {
   "property": "C89",
   "status": "proved",
   "theorems": [
    "C89_enc",
    "C89_dec",
    "C89_cmux",
    "C89_keyswitch",
    "C89_keyswitch_fourier",
    "C89_expand",
    "C89_expand_fourier",
    "C89_trace1_fourier",
    "C89_keyswitch_gsw",
    "C89_keyswitch_gsw_refuted",
    "C89_external_product",
    "C89_external_product_refuted",
    "C89_less_eq_once",
    "C89_less_eq_refuted"
   ],
   "note": ""
  },
  {
   "property": "C90",
   "status": "proved",
   "theorems": [
    "C90_bits_correctly_rounded",
    "C90_bits_accurate",
    "C90_evaluation",
    "C90_large_label_refuted",
    "C90_largest_label"
   ],
   "note": ""
  },
  {
   "property": "C91",
   "status": "proved",
   "theorems": [
    "C91_encryption_tests",
    "C91_keyswitching_tests",
    "C91_trace_test",
    "C91_rgsw_tests",
    "C91_comparison_tests",
    "C91_not_tests",
    "C91_lwe_tests",
    "C91_demux_tests",
    "C91_compute_noise_test",
    "C91_compute_noise_refuted",
    "C91_fourier_mul_test",
    "C91_fourier_mul_refuted",
    "C91_assertions"
   ],
   "note": ""
  },
  {
   "property": "C92",
   "status": "proved",
   "theorems": [
    "C92_no_overflow",
    "C92_accurate",
    "C92_default",
    "C92_default_chain",
    "C92_protocol",
    "C92_oram",
    "C92_cast"
   ],
   "note": ""
  },
  {
   "property": "C93",
   "status": "proved",
   "theorems": [
    "C93_completes",
    "C93_small_ring"
   ],
   "note": ""
  },
  {
   "property": "C94",
   "status": "proved",
   "theorems": [
    "C94_process_one",
    "C94_process_multi",
    "C94_process_batch",
    "C94_history"
   ],
   "note": ""
  },
  {
   "property": "C95",
   "status": "proved",
   "theorems": [
    "C95_plain_tests",
    "C95_hash_tests",
    "C95_expand_test",
    "C95_expand_slow_test",
    "C95_traversal_tests",
    "C95_traversal_long_test",
    "C95_oram_tests",
    "C95_oram_multi_test",
    "C95_oram_batch_more_test",
    "C95_oram_batch_test",
    "C95_oram_batch_chance",
    "C95_oram_batch_refuted",
    "C95_assertions"
   ],
   "note": ""
  },
  {
   "property": "C96",
   "status": "proved",
   "theorems": [
    "C96_machine",
    "C96_multiplication",
    "C96_no_overflow",
    "C96_accurate",
    "C96_default",
    "C96_default_chain",
    "C96_protocol",
    "C96_oram",
    "C96_plain",
    "C96_rounded",
    "C96_computed",
    "C96_program",
    "C96_either",
    "C96_either_computed"
   ],
   "note": ""
  },
  {
   "property": "C97",
   "status": "proved",
   "theorems": [
    "C97_mean",
    "C97_between_powers",
    "C97_power",
    "C97_zero",
    "C97_none",
    "C97_over",
    "C97_single",
    "C97_order",
    "C97_less",
    "C97_below",
    "C97_rounded",
    "C97_rgsw",
    "C97_program",
    "C97_no_queries_refuted",
    "C97_dropped_refuted"
   ],
   "note": ""
  },
  {
   "property": "C98",
   "status": "proved",
   "theorems": [
    "C98_compare",
    "C98_precise",
    "C98_shows",
    "C98_fft",
    "C98_computed",
    "C98_wrap_refuted"
   ],
   "note": ""
  },
  {
   "property": "C99",
   "status": "proved",
   "theorems": [
    "C99_primitives",
    "C99_tree",
    "C99_setup",
    "C99_queries",
    "C99_history",
    "C99_main",
    "C99_output",
    "C99_any_schedule",
    "C99_program",
    "C99_supported",
    "C99_same_refuted",
    "C99_others",
    "C99_history_any_schedule"
   ],
   "note": ""
  }
 ]
}