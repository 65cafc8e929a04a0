{
 "claims": [
  {
   "property": "C01",
   "status": "proved",
   "theorems": [
    "C01_tolerant_order",
    "C01_meaning",
    "C01_trichotomy_on_rounded_coordinates",
    "C01_equal_between_meaning",
    "C01_exact_on_rounded_coordinates",
    "C01_trichotomy_refuted"
   ],
   "note": ""
  },
  {
   "property": "C02",
   "status": "proved",
   "theorems": [
    "C02_min_max",
    "C02_nan_refuted"
   ],
   "note": ""
  },
  {
   "property": "C03",
   "status": "proved",
   "theorems": [
    "C03_comparators_are_partial_orders",
    "C03_sort_well_defined",
    "C03_comparators_meaning",
    "C03_contract_refuted"
   ],
   "note": ""
  },
  {
   "property": "C04",
   "status": "proved",
   "theorems": [
    "C04_overlap_ratios",
    "C04_max_overlap_of_elements",
    "C04_overflow_refuted"
   ],
   "note": ""
  },
  {
   "property": "C05",
   "status": "proved",
   "theorems": [
    "C05_gaps",
    "C05_guards_refuted"
   ],
   "note": ""
  },
  {
   "property": "C06",
   "status": "proved",
   "theorems": [
    "C06_rotated_extents",
    "C06_rotation_is_cyclic"
   ],
   "note": ""
  },
  {
   "property": "C07",
   "status": "proved",
   "theorems": [
    "C07_bounding_box_covers",
    "C07_bounding_box_tight",
    "C07_line_and_block_box",
    "C07_tight_refuted"
   ],
   "note": ""
  },
  {
   "property": "C08",
   "status": "proved",
   "theorems": [
    "C08_double_counter",
    "C08_string_counter",
    "C08_any_counter",
    "C08_sum_overflow_refuted"
   ],
   "note": ""
  },
  {
   "property": "C09",
   "status": "proved",
   "theorems": [
    "C09_counter_max",
    "C09_small_keys_refuted",
    "C09_order_dependent_refuted"
   ],
   "note": ""
  },
  {
   "property": "C10",
   "status": "proved",
   "theorems": [
    "C10_queue_content",
    "C10_sort",
    "C10_keeps_best_refuted",
    "C10_capacity_zero_refuted"
   ],
   "note": ""
  },
  {
   "property": "C11",
   "status": "proved",
   "theorems": [
    "C11_split_into_words",
    "C11_huge_text_diverges_refuted"
   ],
   "note": ""
  },
  {
   "property": "C12",
   "status": "proved",
   "theorems": [
    "C12_join",
    "C12_join_leading_empty_refuted",
    "C12_shorten",
    "C12_sentence_predicates",
    "C12_strip"
   ],
   "note": ""
  },
  {
   "property": "C13",
   "status": "proved",
   "theorems": [
    "C13_random_string",
    "C13_small_alphabet_refuted"
   ],
   "note": ""
  },
  {
   "property": "C14",
   "status": "proved",
   "theorems": [
    "C14_wrap",
    "C14_last_line_refuted"
   ],
   "note": ""
  },
  {
   "property": "C15",
   "status": "proved",
   "theorems": [
    "C15_escape_json"
   ],
   "note": ""
  },
  {
   "property": "C16",
   "status": "proved",
   "theorems": [
    "C16_records",
    "C16_numbers",
    "C16_font_name_refuted",
    "C16_nan_refuted",
    "C16_lines_unit",
    "C16_unknown_font_refuted"
   ],
   "note": ""
  },
  {
   "property": "C17",
   "status": "proved",
   "theorems": [
    "C17_plain_text"
   ],
   "note": ""
  },
  {
   "property": "C18",
   "status": "proved",
   "theorems": [
    "C18_extended",
    "C18_same_words",
    "C18_trailing_form_feed_refuted",
    "C18_unknown_role_refuted"
   ],
   "note": ""
  },
  {
   "property": "C19",
   "status": "proved",
   "theorems": [
    "C19_marks",
    "C19_frame"
   ],
   "note": ""
  },
  {
   "property": "C20",
   "status": "proved",
   "theorems": [
    "C20_no_loss",
    "C20_no_chain",
    "C20_chain_refuted",
    "C20_role_filter_refuted"
   ],
   "note": ""
  },
  {
   "property": "C21",
   "status": "proved",
   "theorems": [
    "C21_defined",
    "C21_frame",
    "C21_boxes",
    "C21_isolated_marks",
    "C21_all_marks_kept_refuted",
    "C21_always_defined_refuted"
   ],
   "note": ""
  },
  {
   "property": "C22",
   "status": "proved",
   "theorems": [
    "C22_words_partition",
    "C22_text_preserved"
   ],
   "note": ""
  },
  {
   "property": "C23",
   "status": "proved",
   "theorems": [
    "C23_configuration",
    "C23_word_breaks"
   ],
   "note": ""
  },
  {
   "property": "C24",
   "status": "proved",
   "theorems": [
    "C24_relation",
    "C24_acyclic",
    "C24_parts_disjoint_refuted",
    "C24_bases_are_not_parts_refuted"
   ],
   "note": ""
  },
  {
   "property": "C25",
   "status": "proved",
   "theorems": [
    "C25_lines",
    "C25_partition",
    "C25_terminates",
    "C25_defined",
    "C25_ranks",
    "C25_partition_without_separation_refuted",
    "C25_always_defined_refuted"
   ],
   "note": ""
  },
  {
   "property": "C26",
   "status": "proved",
   "theorems": [
    "C26_links",
    "C26_columns",
    "C26_no_line_further_left_refuted"
   ],
   "note": ""
  },
  {
   "property": "C27",
   "status": "proved",
   "theorems": [
    "C27_flags",
    "C27_exclusive",
    "C27_base_box",
    "C27_exclusive_across_lines_refuted"
   ],
   "note": ""
  },
  {
   "property": "C28",
   "status": "proved",
   "theorems": [
    "C28_terminates",
    "C28_partition",
    "C28_defined",
    "C28_exhaustive_refuted"
   ],
   "note": ""
  },
  {
   "property": "C29",
   "status": "proved",
   "theorems": [
    "C29_xcut_groups",
    "C29_ycut_groups",
    "C29_xcut_overlap",
    "C29_xcut_candidates",
    "C29_ycut_candidates",
    "C29_xcut_place",
    "C29_ycut_place",
    "C29_all_candidates_refuted",
    "C29_negative_limit_refuted"
   ],
   "note": ""
  },
  {
   "property": "C30",
   "status": "proved",
   "theorems": [
    "C30_partition",
    "C30_bounding_box",
    "C30_terminates",
    "C30_defined"
   ],
   "note": ""
  },
  {
   "property": "C31",
   "status": "proved",
   "theorems": [
    "C31_configuration",
    "C31_x_cuts",
    "C31_y_cuts",
    "C31_y_partner"
   ],
   "note": ""
  },
  {
   "property": "C32",
   "status": "proved",
   "theorems": [
    "C32_permutation",
    "C32_pagewise",
    "C32_terminates",
    "C32_defined"
   ],
   "note": ""
  },
  {
   "property": "C33",
   "status": "proved",
   "theorems": [
    "C33_partition",
    "C33_blocks",
    "C33_lines",
    "C33_defined"
   ],
   "note": ""
  },
  {
   "property": "C34",
   "status": "proved",
   "theorems": [
    "C34_preliminary",
    "C34_blocks",
    "C34_rotation"
   ],
   "note": ""
  },
  {
   "property": "C35",
   "status": "proved",
   "theorems": [
    "C35_encode",
    "C35_ids_in_vocabulary",
    "C35_meta_ids",
    "C35_meta_collision_refuted"
   ],
   "note": ""
  },
  {
   "property": "C36",
   "status": "proved",
   "theorems": [
    "C36_word_encoding",
    "C36_merge_loop",
    "C36_cache_transparent"
   ],
   "note": ""
  },
  {
   "property": "C37",
   "status": "proved",
   "theorems": [
    "C37_argmax",
    "C37_unique",
    "C37_predict",
    "C37_too_many_classes_refuted",
    "C37_short_output_refuted"
   ],
   "note": ""
  },
  {
   "property": "C38",
   "status": "proved",
   "theorems": [
    "C38_role",
    "C38_type",
    "C38_format",
    "C38_repeated",
    "C38_distinct",
    "C38_jsonl_refuted"
   ],
   "note": ""
  },
  {
   "property": "C39",
   "status": "proved",
   "theorems": [
    "C39_output"
   ],
   "note": ""
  },
  {
   "property": "C40",
   "status": "proved",
   "theorems": [
    "C40_stream",
    "C40_visible",
    "C40_quiet",
    "C40_stdout_refuted",
    "C40_debug_refuted"
   ],
   "note": ""
  },
  {
   "property": "C41",
   "status": "proved",
   "theorems": [
    "C41_unreadable",
    "C41_order",
    "C41_trace",
    "C41_skip"
   ],
   "note": ""
  },
  {
   "property": "C42",
   "status": "proved",
   "theorems": [
    "C42_no_effect"
   ],
   "note": ""
  },
  {
   "property": "C43",
   "status": "proved",
   "theorems": [
    "C43_stored",
    "C43_ranks",
    "C43_total",
    "C43_invalid_utf8_refuted",
    "C43_infinite_clip_refuted"
   ],
   "note": ""
  },
  {
   "property": "C44",
   "status": "proved",
   "theorems": [
    "C44_shapes",
    "C44_graphics",
    "C44_invisible_refuted",
    "C44_negative_refuted",
    "C44_dropped_image_refuted"
   ],
   "note": ""
  },
  {
   "property": "C45",
   "status": "proved",
   "theorems": [
    "C45_inverse",
    "C45_total",
    "C45_standard",
    "C45_eexec_refuted"
   ],
   "note": ""
  },
  {
   "property": "C46",
   "status": "proved",
   "theorems": [
    "C46_safe",
    "C46_terminates",
    "C46_bytes",
    "C46_errors",
    "C46_errors_refuted",
    "C46_recursion_refuted"
   ],
   "note": ""
  },
  {
   "property": "C47",
   "status": "proved",
   "theorems": [
    "C47_box",
    "C47_no_sidebearing_refuted",
    "C47_seac_refuted",
    "C47_endchar_refuted",
    "C47_div_refuted"
   ],
   "note": ""
  },
  {
   "property": "C48",
   "status": "proved",
   "theorems": [
    "C48_header",
    "C48_truncated",
    "C48_binary",
    "C48_short",
    "C48_hex_refuted"
   ],
   "note": ""
  },
  {
   "property": "C49",
   "status": "proved",
   "theorems": [
    "C49_matrix",
    "C49_not_embedded",
    "C49_overflow_refuted"
   ],
   "note": ""
  },
  {
   "property": "C50",
   "status": "proved",
   "theorems": [
    "C50_names"
   ],
   "note": ""
  },
  {
   "property": "C51",
   "status": "proved",
   "theorems": [
    "C51_glyphs",
    "C51_words",
    "C51_lines"
   ],
   "note": ""
  },
  {
   "property": "C52",
   "status": "proved",
   "theorems": [
    "C52_text",
    "C52_words",
    "C52_without_symbols",
    "C52_overlapping_symbols_refuted"
   ],
   "note": ""
  },
  {
   "property": "C53",
   "status": "proved",
   "theorems": [
    "C53_destination",
    "C53_shell_refuted"
   ],
   "note": ""
  },
  {
   "property": "C54",
   "status": "proved",
   "theorems": [
    "C54_rounding_is_monotone",
    "C54_rounding_error"
   ],
   "note": ""
  },
  {
   "property": "C55",
   "status": "proved",
   "theorems": [
    "C55_exit",
    "C55_unwritable_refuted",
    "C55_negative_refuted"
   ],
   "note": ""
  },
  {
   "property": "C56",
   "status": "proved",
   "theorems": [
    "C56_order"
   ],
   "note": ""
  },
  {
   "property": "C57",
   "status": "proved",
   "theorems": [
    "C57_y_cuts",
    "C57_y_cuts_exact",
    "C57_primary_cuts"
   ],
   "note": ""
  },
  {
   "property": "C59",
   "status": "proved",
   "theorems": [
    "C59_trim_box",
    "C59_defined"
   ],
   "note": ""
  },
  {
   "property": "C60",
   "status": "proved",
   "theorems": [
    "C60_hanging_indent",
    "C60_emphasis_and_centering"
   ],
   "note": ""
  },
  {
   "property": "C61",
   "status": "proved",
   "theorems": [
    "C61_labels",
    "C61_only_label_characters_refuted"
   ],
   "note": ""
  },
  {
   "property": "C58",
   "status": "proved",
   "theorems": [
    "C58_accuracy",
    "C58_coordinates_exact",
    "C58_integers",
    "C58_large_refuted"
   ],
   "note": ""
  },
  {
   "property": "C62",
   "status": "proved",
   "theorems": [
    "C62_layout",
    "C62_words",
    "C62_undecodable",
    "C62_non_ascii_refuted",
    "C62_clip_origin_refuted",
    "C62_isupper_refuted",
    "C62_unknown_font_refuted"
   ],
   "note": ""
  },
  {
   "property": "C63",
   "status": "proved",
   "theorems": [
    "C63_load",
    "C63_bad_line",
    "C63_undecodable",
    "C63_failed_load_forgotten_refuted"
   ],
   "note": ""
  },
  {
   "property": "C64",
   "status": "proved",
   "theorems": [
    "C64_boxes",
    "C64_segments",
    "C64_names_refuted",
    "C64_cut_refuted"
   ],
   "note": ""
  },
  {
   "property": "C65",
   "status": "proved",
   "theorems": [
    "C65_style",
    "C65_angle_refuted"
   ],
   "note": ""
  },
  {
   "property": "C66",
   "status": "proved",
   "theorems": [
    "C66_flags",
    "C66_style",
    "C66_prefix_refuted"
   ],
   "note": ""
  },
  {
   "property": "C67",
   "status": "proved",
   "theorems": [
    "C67_box",
    "C67_proper",
    "C67_upside_down_refuted"
   ],
   "note": ""
  },
  {
   "property": "C68",
   "status": "proved",
   "theorems": [
    "C68_rotation",
    "C68_type3_refuted",
    "C68_tiny_refuted"
   ],
   "note": ""
  },
  {
   "property": "C69",
   "status": "proved",
   "theorems": [
    "C69_fonts",
    "C69_character",
    "C69_same_name_refuted"
   ],
   "note": ""
  },
  {
   "property": "C70",
   "status": "proved",
   "theorems": [
    "C70_figures",
    "C70_not_empty"
   ],
   "note": ""
  },
  {
   "property": "C71",
   "status": "proved",
   "theorems": [
    "C71_text",
    "C71_table",
    "C71_table_refuted"
   ],
   "note": ""
  },
  {
   "property": "C72",
   "status": "proved",
   "theorems": [
    "C72_characters",
    "C72_total",
    "C72_roles",
    "C72_no_size_refuted"
   ],
   "note": ""
  },
  {
   "property": "C73",
   "status": "proved",
   "theorems": [
    "C73_words",
    "C73_blocks",
    "C73_fonts",
    "C73_pages"
   ],
   "note": ""
  },
  {
   "property": "C74",
   "status": "proved",
   "theorems": [
    "C74_roles",
    "C74_order"
   ],
   "note": ""
  },
  {
   "property": "C75",
   "status": "proved",
   "theorems": [
    "C75_marks",
    "C75_text"
   ],
   "note": ""
  },
  {
   "property": "C76",
   "status": "proved",
   "theorems": [
    "C76_every_command_line",
    "C76_legible",
    "C76_text",
    "C76_default",
    "C76_ordinary",
    "C76_no_model_refuted",
    "C76_clipped_refuted"
   ],
   "note": ""
  },
  {
   "property": "C77",
   "status": "proved",
   "theorems": [
    "C77_frames",
    "C77_segments",
    "C77_blocks"
   ],
   "note": ""
  },
  {
   "property": "C78",
   "status": "proved",
   "theorems": [
    "C78_order",
    "C78_single_refuted"
   ],
   "note": ""
  },
  {
   "property": "C79",
   "status": "proved",
   "theorems": [
    "C79_cuts"
   ],
   "note": ""
  },
  {
   "property": "C80",
   "status": "proved",
   "theorems": [
    "C80_ascii",
    "C80_bytes",
    "C80_utf8_refuted",
    "C80_all",
    "C80_no_page_refuted"
   ],
   "note": ""
  },
  {
   "property": "C81",
   "status": "proved",
   "theorems": [
    "C81_line_detection",
    "C81_block_detection",
    "C81_page_lines",
    "C81_glyphs",
    "C81_words",
    "C81_lines",
    "C81_segments",
    "C81_emphasis"
   ],
   "note": ""
  },
  {
   "property": "C82",
   "status": "proved",
   "theorems": [
    "C82_boxes",
    "C82_lines",
    "C82_cuts",
    "C82_visualised",
    "C82_picture"
   ],
   "note": ""
  },
  {
   "property": "C83",
   "status": "proved",
   "theorems": [
    "C83_identifiers",
    "C83_memory",
    "C83_program_ids",
    "C83_program_memory",
    "C83_memory_refuted"
   ],
   "note": ""
  },
  {
   "property": "C84",
   "status": "proved",
   "theorems": [
    "C84_patterns",
    "C84_item_label",
    "C84_nonempty_refuted"
   ],
   "note": ""
  },
  {
   "property": "C85",
   "status": "proved",
   "theorems": [
    "C85_flags",
    "C85_disabled",
    "C85_lines",
    "C85_exclusive",
    "C85_base_box"
   ],
   "note": ""
  },
  {
   "property": "C86",
   "status": "proved",
   "theorems": [
    "C86_same_extraction",
    "C86_complementary"
   ],
   "note": ""
  },
  {
   "property": "C87",
   "status": "proved",
   "theorems": [
    "C87_characters",
    "C87_words",
    "C87_isolated",
    "C87_disabled"
   ],
   "note": ""
  },
  {
   "property": "C88",
   "status": "proved",
   "theorems": [
    "C88_once",
    "C88_all",
    "C88_references"
   ],
   "note": ""
  },
  {
   "property": "C89",
   "status": "proved",
   "theorems": [
    "C89_steps",
    "C89_skipped",
    "C89_printed",
    "C89_report",
    "C89_whole_run",
    "C89_integers",
    "C89_hundred",
    "C89_columns_refuted",
    "C89_zero_refuted",
    "C89_locale_refuted"
   ],
   "note": ""
  },
  {
   "property": "C90",
   "status": "proved",
   "theorems": [
    "C90_logged",
    "C90_unambiguous",
    "C90_column",
    "C90_order",
    "C90_timestamps",
    "C90_order_refuted"
   ],
   "note": ""
  }
 ]
}