{
 "claims": [
  {
   "property": "C01",
   "status": "proved",
   "theorems": [
    "C01_history_finite",
    "C01_history_prefix",
    "C01_source_untouched"
   ],
   "note": ""
  },
  {
   "property": "C02",
   "status": "proved",
   "theorems": [
    "C02_error_final"
   ],
   "note": ""
  },
  {
   "property": "C03",
   "status": "proved",
   "theorems": [
    "C03_set_error",
    "C03_set_error_prefix"
   ],
   "note": ""
  },
  {
   "property": "C04",
   "status": "proved",
   "theorems": [
    "C04_of_slice",
    "C04_of_empty",
    "C04_of_one",
    "C04_behaviour_unique"
   ],
   "note": ""
  },
  {
   "property": "C05",
   "status": "proved",
   "theorems": [
    "C05_map_entries",
    "C05_map_nil_interface_panics"
   ],
   "note": ""
  },
  {
   "property": "C06",
   "status": "proved",
   "theorems": [
    "C06_concat",
    "C06_concat_independent"
   ],
   "note": ""
  },
  {
   "property": "C07",
   "status": "proved",
   "theorems": [
    "C07_infinite_seeded",
    "C07_infinite_unseeded"
   ],
   "note": ""
  },
  {
   "property": "C08",
   "status": "proved",
   "theorems": [
    "C08_fibonacci",
    "C08_fibonacci_exact",
    "C08_fibonacci_wraps"
   ],
   "note": ""
  },
  {
   "property": "C09",
   "status": "proved",
   "theorems": [
    "C09_reader_bytes",
    "C09_closes_once",
    "C09_same_error_again_refuted",
    "C09_any_legal_reader_refuted",
    "C09_nil_reader"
   ],
   "note": ""
  },
  {
   "property": "C10",
   "status": "proved",
   "theorems": [
    "C10_utf8_decodes",
    "C10_string_reader_holds",
    "C10_short_reads_refuted"
   ],
   "note": ""
  },
  {
   "property": "C11",
   "status": "proved",
   "theorems": [
    "C11_accepted",
    "C11_rejected",
    "C11_cover",
    "C11_rune_range",
    "C11_only_utf8_refuted",
    "C11_nil_reader",
    "C11_of_string",
    "C11_string_functions_refuted"
   ],
   "note": ""
  },
  {
   "property": "C12",
   "status": "proved",
   "theorems": [
    "C12_lines",
    "C12_split_total",
    "C12_lone_cr_then_lf_refuted",
    "C12_nil_reader"
   ],
   "note": ""
  },
  {
   "property": "C13",
   "status": "proved",
   "theorems": [
    "C13_map",
    "C13_map_lazy",
    "C13_map_stateful",
    "C13_map_error_ok",
    "C13_map_error_reject",
    "C13_peek",
    "C13_peek_lazy"
   ],
   "note": ""
  },
  {
   "property": "C14",
   "status": "proved",
   "theorems": [
    "C14_filter",
    "C14_filter_lazy",
    "C14_filter_stateful"
   ],
   "note": ""
  },
  {
   "property": "C15",
   "status": "proved",
   "theorems": [
    "C15_reduce_empty",
    "C15_reduce",
    "C15_reduce_identity",
    "C15_reduce_error",
    "C15_reduce_to_empty",
    "C15_reduce_to",
    "C15_reduce_to_identity",
    "C15_reduce_to_error"
   ],
   "note": ""
  },
  {
   "property": "C16",
   "status": "proved",
   "theorems": [
    "C16_all_match",
    "C16_any_match",
    "C16_none_match",
    "C16_all_match_stops",
    "C16_any_match_stops",
    "C16_none_match_stops",
    "C16_match_error"
   ],
   "note": ""
  },
  {
   "property": "C17",
   "status": "proved",
   "theorems": [
    "C17_to_slice",
    "C17_to_slice_error",
    "C17_round_trip",
    "C17_expand_slices"
   ],
   "note": ""
  },
  {
   "property": "C18",
   "status": "proved",
   "theorems": [
    "C18_into_slice",
    "C18_into_slice_error",
    "C18_into_slice_overrun"
   ],
   "note": ""
  },
  {
   "property": "C19",
   "status": "proved",
   "theorems": [
    "C19_skip",
    "C19_skip_lazy",
    "C19_limit",
    "C19_limit_take"
   ],
   "note": ""
  },
  {
   "property": "C20",
   "status": "proved",
   "theorems": [
    "C20_distinct",
    "C20_distinct_once",
    "C20_duplicate",
    "C20_duplicate_once",
    "C20_float_distinct",
    "C20_float_duplicate",
    "C20_float_equal"
   ],
   "note": ""
  },
  {
   "property": "C21",
   "status": "proved",
   "theorems": [
    "C21_reverse",
    "C21_reverse_error",
    "C21_sort",
    "C21_sort_error"
   ],
   "note": ""
  },
  {
   "property": "C22",
   "status": "proved",
   "theorems": [
    "C22_count",
    "C22_count_exact",
    "C22_max",
    "C22_min",
    "C22_max_min_empty",
    "C22_sum",
    "C22_sum_exact",
    "C22_sum_empty"
   ],
   "note": ""
  },
  {
   "property": "C23",
   "status": "proved",
   "theorems": [
    "C23_avg_int",
    "C23_avg_int_wrong",
    "C23_avg_uint",
    "C23_avg_int_overflow",
    "C23_avg_uint_overflow",
    "C23_avg_empty"
   ],
   "note": ""
  },
  {
   "property": "C24",
   "status": "proved",
   "theorems": [
    "C24_partition",
    "C24_each_index_once",
    "C24_threads",
    "C24_items",
    "C24_no_info"
   ],
   "note": ""
  },
  {
   "property": "C25",
   "status": "proved",
   "theorems": [
    "C25_result_any_schedule",
    "C25_schedule_independent",
    "C25_no_panic",
    "C25_completes",
    "C25_writes_stay_in_range",
    "C25_reads_stay_in_range",
    "C25_deterministic",
    "C25_one_completes",
    "C25_one_panics",
    "C25_more_values_panics",
    "C25_callback_panics",
    "C25_fresh_result",
    "C25_fresh_completes",
    "C25_fresh_panics",
    "C25_map",
    "C25_map_completes",
    "C25_map_error",
    "C25_map_error_none",
    "C25_map_callback_panics",
    "C25_small"
   ],
   "note": ""
  },
  {
   "property": "C26",
   "status": "proved",
   "theorems": [
    "C26_filter_stale",
    "C26_filter_wrong",
    "C26_stale_zero"
   ],
   "note": ""
  },
  {
   "property": "C27",
   "status": "proved",
   "theorems": [
    "C27_add_int",
    "C27_add_uint",
    "C27_sub_uint"
   ],
   "note": ""
  },
  {
   "property": "C28",
   "status": "proved",
   "theorems": [
    "C28_sub_int",
    "C28_sub_int_min_wrong"
   ],
   "note": ""
  },
  {
   "property": "C29",
   "status": "proved",
   "theorems": [
    "C29_mul"
   ],
   "note": ""
  },
  {
   "property": "C30",
   "status": "proved",
   "theorems": [
    "C30_div_zero",
    "C30_div_unsigned",
    "C30_div_signed",
    "C30_div_signed_wrong",
    "C30_div_min_wrong",
    "C30_spec_unique",
    "C30_div_big"
   ],
   "note": ""
  },
  {
   "property": "C31",
   "status": "proved",
   "theorems": [
    "C31_abs",
    "C31_stream_abs",
    "C31_stream_abs_min"
   ],
   "note": ""
  },
  {
   "property": "C32",
   "status": "proved",
   "theorems": [
    "C32_history",
    "C32_in_range",
    "C32_initial_unchecked",
    "C32_of_range_panics"
   ],
   "note": ""
  },
  {
   "property": "C33",
   "status": "proved",
   "theorems": [
    "C33_cmp",
    "C33_min_max",
    "C33_min_max_cmp",
    "C33_min_max_cmp_ties"
   ],
   "note": ""
  },
  {
   "property": "C34",
   "status": "proved",
   "theorems": [
    "C34_of_decimal"
   ],
   "note": ""
  },
  {
   "property": "C35",
   "status": "proved",
   "theorems": [
    "C35_string_format",
    "C35_round_trip",
    "C35_precision",
    "C35_parse"
   ],
   "note": ""
  },
  {
   "property": "C36",
   "status": "proved",
   "theorems": [
    "C36_cmp",
    "C36_total_order",
    "C36_sign_negate",
    "C36_magnitude"
   ],
   "note": ""
  },
  {
   "property": "C37",
   "status": "proved",
   "theorems": [
    "C37_exact",
    "C37_round"
   ],
   "note": ""
  },
  {
   "property": "C38",
   "status": "proved",
   "theorems": [
    "C38_add",
    "C38_sub",
    "C38_add_rounded"
   ],
   "note": ""
  },
  {
   "property": "C39",
   "status": "proved",
   "theorems": [
    "C39_normalize",
    "C39_unique"
   ],
   "note": ""
  },
  {
   "property": "C40",
   "status": "proved",
   "theorems": [
    "C40_exact",
    "C40_small",
    "C40_overflow",
    "C40_round_scale",
    "C40_round_big",
    "C40_finding_tenfold",
    "C40_finding_tenfold_tiny",
    "C40_round_tiny",
    "C40_nines"
   ],
   "note": ""
  },
  {
   "property": "C41",
   "status": "proved",
   "theorems": [
    "C41_quo_rem",
    "C41_by_zero",
    "C41_parts",
    "C41_finding_parts"
   ],
   "note": ""
  },
  {
   "property": "C42",
   "status": "proved",
   "theorems": [
    "C42_to_int",
    "C42_from_big",
    "C42_round_trip"
   ],
   "note": ""
  },
  {
   "property": "C43",
   "status": "proved",
   "theorems": [
    "C43_slice_add",
    "C43_slice_copy",
    "C43_slice_index",
    "C43_slice_remove",
    "C43_slice_remove_uncomparable",
    "C43_slice_reverse",
    "C43_slice_sort",
    "C43_slice_to_map",
    "C43_slice_unique",
    "C43_slice_flatten",
    "C43_slice_flatten_panics",
    "C43_finding_flatten_nil",
    "C43_finding_flatten_named"
   ],
   "note": ""
  },
  {
   "property": "C44",
   "status": "proved",
   "theorems": [
    "C44_map",
    "C44_map2",
    "C44_map_slice",
    "C44_map2_slice",
    "C44_map_sort"
   ],
   "note": ""
  },
  {
   "property": "C45",
   "status": "proved",
   "theorems": [
    "C45_search",
    "C45_total",
    "C45_int_keys",
    "C45_string_keys"
   ],
   "note": ""
  },
  {
   "property": "C46",
   "status": "proved",
   "theorems": [
    "C46_history",
    "C46_add_pairs",
    "C46_finding_minimum",
    "C46_finding_alias"
   ],
   "note": ""
  },
  {
   "property": "C47",
   "status": "proved",
   "theorems": [
    "C47_connectives",
    "C47_de_morgan",
    "C47_de_morgan_empty",
    "C47_short_circuit",
    "C47_compare_int",
    "C47_compare_string",
    "C47_compare_float",
    "C47_compose",
    "C47_compose10",
    "C47_ternary",
    "C47_ternary_value"
   ],
   "note": ""
  },
  {
   "property": "C48",
   "status": "proved",
   "theorems": [
    "C48_try_to",
    "C48_no_panic",
    "C48_finding_panic_nil"
   ],
   "note": ""
  },
  {
   "property": "C49",
   "status": "proved",
   "theorems": [
    "C49_cached",
    "C49_cached_panicking",
    "C49_finding_panic",
    "C49_finding_concurrent"
   ],
   "note": ""
  },
  {
   "property": "C50",
   "status": "proved",
   "theorems": [
    "C50_send",
    "C50_register_all",
    "C50_finding_order",
    "C50_finding_closures"
   ],
   "note": ""
  },
  {
   "property": "C51",
   "status": "proved",
   "theorems": [
    "C51_two",
    "C51_three",
    "C51_four",
    "C51_zero_values",
    "C51_maybe",
    "C51_present_first",
    "C51_go_values",
    "C51_result",
    "C51_finding_interface_result"
   ],
   "note": ""
  },
  {
   "property": "C52",
   "status": "proved",
   "theorems": [
    "C52_write_nil",
    "C52_write_error",
    "C52_slice_writer",
    "C52_map_writer"
   ],
   "note": ""
  },
  {
   "property": "C53",
   "status": "proved",
   "theorems": [
    "C53_rune_round_trip"
   ],
   "note": ""
  },
  {
   "property": "C54",
   "status": "proved",
   "theorems": [
    "C54_error_reader_bytes",
    "C54_error_reader_end",
    "C54_error_reader_exact",
    "C54_error_reader_remaining_refuted",
    "C54_error_writer_output",
    "C54_error_writer_exact"
   ],
   "note": ""
  },
  {
   "property": "C55",
   "status": "proved",
   "theorems": [
    "C55_json_numbers",
    "C55_accepted",
    "C55_rejected",
    "C55_deviation",
    "C55_superset",
    "C55_negative_zero_refuted"
   ],
   "note": ""
  },
  {
   "property": "C56",
   "status": "proved",
   "theorems": [
    "C56_strings",
    "C56_accepted",
    "C56_rejected",
    "C56_control_character",
    "C56_unit_quote_refuted",
    "C56_reversed_surrogates"
   ],
   "note": ""
  },
  {
   "property": "C57",
   "status": "proved",
   "theorems": [
    "C57_text",
    "C57_containers",
    "C57_text_is_json",
    "C57_round_trip",
    "C57_escaping_refuted",
    "C57_invalid"
   ],
   "note": ""
  },
  {
   "property": "C58",
   "status": "proved",
   "theorems": [
    "C58_exact",
    "C58_strict",
    "C58_total",
    "C58_distinct_keys",
    "C58_broken",
    "C58_unfinished",
    "C58_container_required",
    "C58_empty",
    "C58_trailing_comma_refuted",
    "C58_stray_refuted",
    "C58_trailing_text_refuted"
   ],
   "note": ""
  },
  {
   "property": "C59",
   "status": "proved",
   "theorems": [
    "C59_to_any",
    "C59_to_value",
    "C59_round_trip",
    "C59_well_formed",
    "C59_accessors",
    "C59_to_map_slice",
    "C59_number_refuted",
    "C59_named_string_refuted",
    "C59_invalid_refuted"
   ],
   "note": ""
  },
  {
   "property": "C60",
   "status": "proved",
   "theorems": [
    "C60_lookup",
    "C60_illegal"
   ],
   "note": ""
  },
  {
   "property": "C61",
   "status": "proved",
   "theorems": [
    "C61_handle",
    "C61_dispatch",
    "C61_unique",
    "C61_finding_lost_registration",
    "C61_finding_torn_header"
   ],
   "note": ""
  },
  {
   "property": "C62",
   "status": "proved",
   "theorems": [
    "C62_types",
    "C62_types_only",
    "C62_finding_endless",
    "C62_finding_endless_exists",
    "C62_value",
    "C62_value_max1",
    "C62_set"
   ],
   "note": ""
  },
  {
   "property": "C63",
   "status": "proved",
   "theorems": [
    "C63_line_round_trip",
    "C63_writers",
    "C63_rune_text"
   ],
   "note": ""
  },
  {
   "property": "C64",
   "status": "proved",
   "theorems": [
    "C64_to_map",
    "C64_to_map_error",
    "C64_expand_maps"
   ],
   "note": ""
  },
  {
   "property": "C65",
   "status": "proved",
   "theorems": [
    "C65_generator_fresh",
    "C65_generator_count"
   ],
   "note": ""
  },
  {
   "property": "C66",
   "status": "proved",
   "theorems": [
    "C66_div",
    "C66_by_zero",
    "C66_finding_hang"
   ],
   "note": ""
  },
  {
   "property": "C67",
   "status": "proved",
   "theorems": [
    "C67_assert_type",
    "C67_convert_to_slice",
    "C67_convert_to_slice_exact",
    "C67_convert_to_slice2",
    "C67_convert_to_slice2_error",
    "C67_convert_to_slice2_exact",
    "C67_convert_to_map",
    "C67_convert_to_map_exact",
    "C67_finding_nil"
   ],
   "note": ""
  },
  {
   "property": "C68",
   "status": "proved",
   "theorems": [
    "C68_is_nil",
    "C68_is_nillable",
    "C68_is_nil_value",
    "C68_filters",
    "C68_must"
   ],
   "note": ""
  },
  {
   "property": "C69",
   "status": "proved",
   "theorems": [
    "C69_classes",
    "C69_base",
    "C69_value_base",
    "C69_finding_named_pointer",
    "C69_type_assert",
    "C69_finding_assert_nil",
    "C69_max1_type"
   ],
   "note": ""
  },
  {
   "property": "C70",
   "status": "proved",
   "theorems": [
    "C70_read",
    "C70_write",
    "C70_not_maybe",
    "C70_unaddressable",
    "C70_finding_inner_nil",
    "C70_finding_wrong_type"
   ],
   "note": ""
  },
  {
   "property": "C71",
   "status": "proved",
   "theorems": [
    "C71_iterate",
    "C71_elements_before_fault",
    "C71_nothing_else"
   ],
   "note": ""
  },
  {
   "property": "C72",
   "status": "proved",
   "theorems": [
    "C72_int_to_float_exact",
    "C72_int_to_float_inexact",
    "C72_amd64",
    "C72_saturating_refuted"
   ],
   "note": ""
  },
  {
   "property": "C73",
   "status": "proved",
   "theorems": [
    "C73_float_to_bigint",
    "C73_float_to_bigint_special",
    "C73_float_to_bigfloat",
    "C73_float_to_float32",
    "C73_float_to_float_special",
    "C73_float32_to_float64"
   ],
   "note": ""
  },
  {
   "property": "C74",
   "status": "proved",
   "theorems": [
    "C74_bigfloat_to_bigrat",
    "C74_float_to_bigrat",
    "C74_float_to_int",
    "C74_float_to_int_special",
    "C74_exact_refuted"
   ],
   "note": ""
  },
  {
   "property": "C75",
   "status": "proved",
   "theorems": [
    "C75_bigint_to_64",
    "C75_bigfloat_to_64",
    "C75_bigfloat_infinite",
    "C75_bigrat_to_64",
    "C75_to_bigint"
   ],
   "note": ""
  },
  {
   "property": "C76",
   "status": "proved",
   "theorems": [
    "C76_bigint_to_float",
    "C76_bigfloat_to_float",
    "C76_bigrat_to_float",
    "C76_to_float32_refuted",
    "C76_output_overwritten"
   ],
   "note": ""
  },
  {
   "property": "C77",
   "status": "proved",
   "theorems": [
    "C77_int_to_bigfloat",
    "C77_uint_to_bigfloat",
    "C77_uint_exact_refuted",
    "C77_bigrat_to_bigfloat",
    "C77_bigrat_error",
    "C77_bigrat_exact_refuted"
   ],
   "note": ""
  },
  {
   "property": "C78",
   "status": "proved",
   "theorems": [
    "C78_string_to_int64",
    "C78_string_to_uint64",
    "C78_string_to_bigint",
    "C78_round_trip",
    "C78_plus_sign_refuted"
   ],
   "note": ""
  },
  {
   "property": "C79",
   "status": "proved",
   "theorems": [
    "C79_string_to_float",
    "C79_exact",
    "C79_special",
    "C79_ordinary_texts_refuted"
   ],
   "note": ""
  },
  {
   "property": "C80",
   "status": "proved",
   "theorems": [
    "C80_to_total",
    "C80_to_preserves",
    "C80_to_complete",
    "C80_to_float32",
    "C80_big_to_float32",
    "C80_to_same",
    "C80_lossy_tight"
   ],
   "note": ""
  },
  {
   "property": "C81",
   "status": "proved",
   "theorems": [
    "C81_div_int",
    "C81_div_int_nil",
    "C81_div_int_over_divisor_refuted",
    "C81_div_zero",
    "C81_div_rat",
    "C81_div_float_no_panic",
    "C81_div_float",
    "C81_div_float_nan"
   ],
   "note": ""
  },
  {
   "property": "C82",
   "status": "proved",
   "theorems": [
    "C82_abs",
    "C82_abs_values"
   ],
   "note": ""
  },
  {
   "property": "C83",
   "status": "proved",
   "theorems": [
    "C83_empty",
    "C83_one",
    "C83_int",
    "C83_rat",
    "C83_float_four_bits",
    "C83_float_panics",
    "C83_error",
    "C83_error_rat"
   ],
   "note": ""
  },
  {
   "property": "C84",
   "status": "proved",
   "theorems": [
    "C84_empty",
    "C84_int",
    "C84_error",
    "C84_rat",
    "C84_float_wrong"
   ],
   "note": ""
  },
  {
   "property": "C85",
   "status": "proved",
   "theorems": [
    "C85_snake_to_camel",
    "C85_snake_panics",
    "C85_snake_total",
    "C85_camel_to_snake",
    "C85_camel_total",
    "C85_camel_drops_refuted",
    "C85_snake_round_trip",
    "C85_camel_round_trip"
   ],
   "note": ""
  },
  {
   "property": "C86",
   "status": "proved",
   "theorems": [
    "C86_classes",
    "C86_named",
    "C86_unary_expr",
    "C86_binary_expr",
    "C86_boolean_expr",
    "C86_type_classes",
    "C86_types_complete",
    "C86_types_panic",
    "C86_types_parts",
    "C86_values"
   ],
   "note": ""
  },
  {
   "property": "C87",
   "status": "proved",
   "theorems": [
    "C87_base_path",
    "C87_set_again_refuted",
    "C87_dir_always_panics_refuted",
    "C87_src_in_root_refuted",
    "C87_src_once",
    "C87_base_dir_empty",
    "C87_laws_nonvacuous"
   ],
   "note": ""
  },
  {
   "property": "C88",
   "status": "proved",
   "theorems": [
    "C88_rows",
    "C88_error",
    "C88_gen_goes_on_refuted",
    "C88_gen_end",
    "C88_nil",
    "C88_rows_overwritten",
    "C88_collected_refuted",
    "C88_negotiation"
   ],
   "note": ""
  },
  {
   "property": "C89",
   "status": "proved",
   "theorems": [
    "C89_abs",
    "C89_div",
    "C89_cmp",
    "C89_cmp_nan_refuted",
    "C89_min_max",
    "C89_min_max_nan",
    "C89_range",
    "C89_range_nan",
    "C89_set_value_nan",
    "C89_stream_max",
    "C89_stream_min",
    "C89_stream_max_nan_refuted",
    "C89_stream_min_nan_refuted",
    "C89_stream_max_min_last_nan",
    "C89_sum",
    "C89_sum_exact",
    "C89_sum_nan",
    "C89_sum_order_refuted",
    "C89_complex"
   ],
   "note": ""
  },
  {
   "property": "C90",
   "status": "proved",
   "theorems": [
    "C90_abs_plain",
    "C90_div_plain",
    "C90_div_named_refuted",
    "C90_abs_named_refuted"
   ],
   "note": ""
  },
  {
   "property": "C91",
   "status": "proved",
   "theorems": [
    "C91_copy",
    "C91_copy_nil",
    "C91_set",
    "C91_apart",
    "C91_copy_shares_refuted",
    "C91_rat_shares_refuted",
    "C91_rat_fraction"
   ],
   "note": ""
  },
  {
   "property": "C92",
   "status": "proved",
   "theorems": [
    "C92_keys",
    "C92_to",
    "C92_any_to",
    "C92_any_to_other",
    "C92_any_to_nil_refuted",
    "C92_to_big_ops",
    "C92_to_big_ops_declared_refuted",
    "C92_reflect_to",
    "C92_reflect_to_errors",
    "C92_reflect_to_same_refuted",
    "C92_reflect_to_declared_refuted"
   ],
   "note": ""
  },
  {
   "property": "C93",
   "status": "proved",
   "theorems": [
    "C93_send",
    "C93_quiet",
    "C93_no_panic",
    "C93_remove_id_refuted",
    "C93_remove_later",
    "C93_finding_stale"
   ],
   "note": ""
  },
  {
   "property": "C94",
   "status": "proved",
   "theorems": [
    "C94_float_string_exact",
    "C94_float_string_refused",
    "C94_ratio_refused",
    "C94_named_refused",
    "C94_accepted_as_nil",
    "C94_large_exponent_refuted",
    "C94_string_to_bigrat",
    "C94_ratio",
    "C94_prefixes_refuted",
    "C94_string_to_bigfloat",
    "C94_string_to_bigfloat_only",
    "C94_string_to_bigrat_iff",
    "C94_string_to_bigrat_refused",
    "C94_rat_text_unique"
   ],
   "note": ""
  },
  {
   "property": "C95",
   "status": "proved",
   "theorems": [
    "C95_bigrat_round_trip",
    "C95_integer_round_trip",
    "C95_bigfloat_to_bigrat",
    "C95_bigfloat_to_bigrat_infinite",
    "C95_read_back",
    "C95_normalized_integer",
    "C95_normalized_refuted"
   ],
   "note": ""
  },
  {
   "property": "C96",
   "status": "proved",
   "theorems": [
    "C96_calls",
    "C96_calls_sharp",
    "C96_results",
    "C96_published",
    "C96_first_call",
    "C96_finding_zero",
    "C96_finding_changes"
   ],
   "note": ""
  },
  {
   "property": "C97",
   "status": "proved",
   "theorems": [
    "C97_find",
    "C97_route",
    "C97_values",
    "C97_prefix",
    "C97_uuid",
    "C97_unanchored",
    "C97_finding_contains",
    "C97_finding_alternatives",
    "C97_handle",
    "C97_serve"
   ],
   "note": ""
  },
  {
   "property": "C98",
   "status": "proved",
   "theorems": [
    "C98_shortest",
    "C98_rounds_to_nearest",
    "C98_special",
    "C98_same_text",
    "C98_integers",
    "C98_round_trip_short",
    "C98_round_trip_exact",
    "C98_round_trip_integers",
    "C98_round_trip_refuted"
   ],
   "note": ""
  },
  {
   "property": "C99",
   "status": "proved",
   "theorems": [
    "C99_same_place",
    "C99_empty",
    "C99_canonical",
    "C99_idempotent",
    "C99_shortest",
    "C99_tidy",
    "C99_dir",
    "C99_dir_escapes_refuted",
    "C99_empty_base_refuted"
   ],
   "note": ""
  },
  {
   "property": "C100",
   "status": "proved",
   "theorems": [
    "C100_selector",
    "C100_panics",
    "C100_no_field",
    "C100_nil_map",
    "C100_direct",
    "C100_one_entry",
    "C100_agree",
    "C100_promoted",
    "C100_nonvacuous",
    "C100_blank_refuted",
    "C100_recursive"
   ],
   "note": ""
  },
  {
   "property": "C101",
   "status": "proved",
   "theorems": [
    "C101_header",
    "C101_json",
    "C101_csv",
    "C101_gzip",
    "C101_parameters_refuted",
    "C101_uncompressed_refuted"
   ],
   "note": ""
  },
  {
   "property": "C102",
   "status": "proved",
   "theorems": [
    "C102_map",
    "C102_peek",
    "C102_map_error",
    "C102_map_error_final",
    "C102_filter",
    "C102_limit",
    "C102_skip",
    "C102_reduce_to_panic",
    "C102_reduce_to_calm",
    "C102_reduce_panic",
    "C102_bool_decided",
    "C102_bool_panic",
    "C102_to_slice_panic",
    "C102_into_slice_panic",
    "C102_calm"
   ],
   "note": ""
  },
  {
   "property": "C103",
   "status": "proved",
   "theorems": [
    "C103_unique",
    "C103_document",
    "C103_total",
    "C103_accepted",
    "C103_ragged",
    "C103_bare_quote",
    "C103_after_quote",
    "C103_unterminated",
    "C103_source_error",
    "C103_no_silent_truncation",
    "C103_round_trip",
    "C103_round_trip_exact",
    "C103_crlf_refuted",
    "C103_empty_row_lost"
   ],
   "note": ""
  },
  {
   "property": "C104",
   "status": "proved",
   "theorems": [
    "C104_fresh",
    "C104_rerun_refuted",
    "C104_dir_refuted",
    "C104_replace",
    "C104_replace_unlisted",
    "C104_nested_refuted",
    "C104_nested_leftover_refuted",
    "C104_current_refuted",
    "C104_privileged",
    "C104_privileged_result",
    "C104_up_refuted",
    "C104_src_refuted"
   ],
   "note": ""
  },
  {
   "property": "C105",
   "status": "proved",
   "theorems": [
    "C105_add_commutes",
    "C105_sub_opposite",
    "C105_sub_self",
    "C105_mul_commutes",
    "C105_mul_units",
    "C105_add_zero",
    "C105_add_zero_refuted",
    "C105_add_accuracy",
    "C105_add_associates",
    "C105_add_order",
    "C105_sub_undoes",
    "C105_order_refuted",
    "C105_assoc_refuted",
    "C105_undo_refuted",
    "C105_undo_zero_refuted",
    "C105_mul_order_refuted",
    "C105_closed",
    "C105_div_refuted"
   ],
   "note": ""
  },
  {
   "property": "C106",
   "status": "proved",
   "theorems": [
    "C106_values",
    "C106_demand",
    "C106_construction",
    "C106_after_end",
    "C106_same_meaning",
    "C106_map_map",
    "C106_filter_filter",
    "C106_map_limit",
    "C106_skip_skip",
    "C106_limit_limit",
    "C106_skip_limit",
    "C106_slice_expand",
    "C106_to_map",
    "C106_expand_maps",
    "C106_map_expand",
    "C106_ex_maps",
    "C106_ex",
    "C106_ex_error"
   ],
   "note": ""
  },
  {
   "property": "C107",
   "status": "proved",
   "theorems": [
    "C107_in_place",
    "C107_finding_panics",
    "C107_separate",
    "C107_some_transform",
    "C107_sequential",
    "C107_finding_shared"
   ],
   "note": ""
  },
  {
   "property": "C108",
   "status": "proved",
   "theorems": [
    "C108_number",
    "C108_integer",
    "C108_floats_distinct",
    "C108_as_any",
    "C108_int_as_any",
    "C108_other",
    "C108_values_refuted",
    "C108_not_numbers_refuted",
    "C108_nil_refuted",
    "C108_rounded_refuted",
    "C108_document"
   ],
   "note": ""
  },
  {
   "property": "C109",
   "status": "proved",
   "theorems": [
    "C109_text_to",
    "C109_through_text",
    "C109_same_as_direct",
    "C109_text_better_refuted",
    "C109_ratio_text",
    "C109_ratio_text_refuted",
    "C109_integers_accept_decimal",
    "C109_other_texts_refuted"
   ],
   "note": ""
  },
  {
   "property": "C110",
   "status": "proved",
   "theorems": [
    "C110_pipeline",
    "C110_construction",
    "C110_total",
    "C110_endless",
    "C110_same_meaning",
    "C110_reverse_reverse",
    "C110_reverse_map",
    "C110_reverse_filter",
    "C110_sort_sort",
    "C110_reverse_sort",
    "C110_sort_filter",
    "C110_sort_limit",
    "C110_sort_min",
    "C110_sort_map",
    "C110_finding_error",
    "C110_parallel_map",
    "C110_parallel_map_error",
    "C110_parallel_map_error_none",
    "C110_parallel_failed",
    "C110_parallel_demand",
    "C110_parallel_iter"
   ],
   "note": ""
  },
  {
   "property": "C111",
   "status": "proved",
   "theorems": [
    "C111_fault",
    "C111_cut",
    "C111_torn_bytes",
    "C111_iterate_cut",
    "C111_rfc8259",
    "C111_written_document",
    "C111_write",
    "C111_error_writer_keeps",
    "C111_error_writer",
    "C111_cut_number_refuted"
   ],
   "note": ""
  },
  {
   "property": "C112",
   "status": "proved",
   "theorems": [
    "C112_parse_reads",
    "C112_parse_bytes",
    "C112_is_parse",
    "C112_stream",
    "C112_stream_bytes",
    "C112_stream_end",
    "C112_iterate",
    "C112_iterate_bytes",
    "C112_torn_log",
    "C112_log"
   ],
   "note": ""
  },
  {
   "property": "C113",
   "status": "proved",
   "theorems": [
    "C113_to_value",
    "C113_to_value_error",
    "C113_to_value_panic",
    "C113_value_independent",
    "C113_to_any",
    "C113_to_map_slice",
    "C113_map_shared_refuted",
    "C113_slice_shared_refuted",
    "C113_cycle_refuted",
    "C113_map_cycle_refuted",
    "C113_values_refuted"
   ],
   "note": ""
  },
  {
   "property": "C114",
   "status": "proved",
   "theorems": [
    "C114_lines",
    "C114_bytes",
    "C114_nothing_lost",
    "C114_plain",
    "C114_right_iff",
    "C114_cut",
    "C114_cut_error",
    "C114_log",
    "C114_log_torn",
    "C114_torn_line_refuted",
    "C114_resumed_refuted"
   ],
   "note": ""
  },
  {
   "property": "C115",
   "status": "proved",
   "theorems": [
    "C115_changing",
    "C115_unchanged",
    "C115_in_place",
    "C115_too_short",
    "C115_in_step",
    "C115_append",
    "C115_append_itself",
    "C115_shift_refuted",
    "C115_faster_refuted"
   ],
   "note": ""
  },
  {
   "property": "C116",
   "status": "proved",
   "theorems": [
    "C116_true",
    "C116_once",
    "C116_complete",
    "C116_final",
    "C116_count",
    "C116_update",
    "C116_writer",
    "C116_total",
    "C116_any_order",
    "C116_new_keys_refuted"
   ],
   "note": ""
  },
  {
   "property": "C117",
   "status": "proved",
   "theorems": [
    "C117_any",
    "C117_shared",
    "C117_shares",
    "C117_sequential",
    "C117_batches",
    "C117_batches_infinite",
    "C117_batches_error",
    "C117_pieces",
    "C117_peeks",
    "C117_peeks_shared",
    "C117_both_see_all_refuted",
    "C117_ex",
    "C117_ex_peeks",
    "C117_ex_batches"
   ],
   "note": ""
  },
  {
   "property": "C118",
   "status": "proved",
   "theorems": [
    "C118_must",
    "C118_try_success",
    "C118_try_failure",
    "C118_try_cases",
    "C118_expr_ends",
    "C118_expr_exact",
    "C118_expr_try",
    "C118_expr_try_panics",
    "C118_expr_try_stores",
    "C118_expr_18_refuted",
    "C118_expr_rounds_refuted",
    "C118_money",
    "C118_money_lit",
    "C118_must_decimal",
    "C118_must_string",
    "C118_must_to",
    "C118_json"
   ],
   "note": ""
  },
  {
   "property": "C119",
   "status": "proved",
   "theorems": [
    "C119_result",
    "C119_no_panic",
    "C119_completes",
    "C119_element_wise",
    "C119_collecting",
    "C119_pointwise",
    "C119_dropped",
    "C119_fresh_result",
    "C119_fresh_completes",
    "C119_fresh_panics",
    "C119_panics",
    "C119_stage"
   ],
   "note": ""
  },
  {
   "property": "C120",
   "status": "proved",
   "theorems": [
    "C120_and",
    "C120_or",
    "C120_compose",
    "C120_and_unchanged",
    "C120_or_unchanged",
    "C120_compose_unchanged",
    "C120_rebound_refuted",
    "C120_in",
    "C120_infinite",
    "C120_infinite_unseeded",
    "C120_infinite_mixed_refuted",
    "C120_concat",
    "C120_concat_part",
    "C120_concat_unchanged",
    "C120_error_reader",
    "C120_error_reader_end",
    "C120_error_writer",
    "C120_error_writer_output",
    "C120_error_writer_answers",
    "C120_output_append_refuted"
   ],
   "note": ""
  },
  {
   "property": "C121",
   "status": "proved",
   "theorems": [
    "C121_float_keys",
    "C121_pair_keys",
    "C121_entries",
    "C121_reads",
    "C121_odd_unreadable",
    "C121_odd_grows",
    "C121_length",
    "C121_slice_to_map",
    "C121_unique",
    "C121_reduce_to_map",
    "C121_map_slice_add",
    "C121_map_slice_remove",
    "C121_map2_set",
    "C121_map2_test",
    "C121_map2_slice_add",
    "C121_map2_slice_add_panics"
   ],
   "note": ""
  },
  {
   "property": "C122",
   "status": "proved",
   "theorems": [
    "C122_same_int",
    "C122_same_rat",
    "C122_same_flt",
    "C122_same",
    "C122_same_calls",
    "C122_nil",
    "C122_copy_refuted",
    "C122_one_word",
    "C122_rat_copy_refuted",
    "C122_float_words_refuted",
    "C122_set_copies",
    "C122_loop_refuted",
    "C122_numerator",
    "C122_numerator_refuted",
    "C122_second_conversion_refuted",
    "C122_others",
    "C122_errors",
    "C122_others_independent"
   ],
   "note": ""
  },
  {
   "property": "C123",
   "status": "proved",
   "theorems": [
    "C123_nil",
    "C123_nil_same",
    "C123_nil_text",
    "C123_no_number",
    "C123_agrees",
    "C123_nil_made",
    "C123_huge_float_refuted",
    "C123_huge_int_refuted",
    "C123_errors",
    "C123_float_to_rat",
    "C123_infinity",
    "C123_nonvacuous"
   ],
   "note": ""
  }
 ]
}