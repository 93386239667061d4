{
 "claims": [
  {
   "property": "C01",
   "status": "proved",
   "theorems": [
    "C01_compose_decompose",
    "C01_decompose_compose",
    "C01_compose_unicode_order"
   ],
   "note": ""
  },
  {
   "property": "C02",
   "status": "proved",
   "theorems": [
    "C02_decompose_total",
    "C02_decompose_injective"
   ],
   "note": ""
  },
  {
   "property": "C03",
   "status": "proved",
   "theorems": [
    "C03_compose_error_iff"
   ],
   "note": ""
  },
  {
   "property": "C04",
   "status": "proved",
   "theorems": [
    "C04_character_classes"
   ],
   "note": ""
  },
  {
   "property": "C05",
   "status": "proved",
   "theorems": [
    "C05_encoder_roundtrip",
    "C05_clean_text_unchanged"
   ],
   "note": ""
  },
  {
   "property": "C06",
   "status": "proved",
   "theorems": [
    "C06_onehot_layout",
    "C06_encode_matrix",
    "C06_onehot_exact"
   ],
   "note": ""
  },
  {
   "property": "C07",
   "status": "proved",
   "theorems": [
    "C07_invalid_iff_ValueError",
    "C07_decode_exact"
   ],
   "note": ""
  },
  {
   "property": "C08",
   "status": "proved",
   "theorems": [
    "C08_levenshtein_is_edit_distance",
    "C08_levenshtein_metric"
   ],
   "note": ""
  },
  {
   "property": "C09",
   "status": "proved",
   "theorems": [
    "C09_custom_cost_when_first_is_longer",
    "C09_cost_ignored_when_first_is_shorter",
    "C09_cost_always_honoured_refuted"
   ],
   "note": "the accompanying _refuted theorem shows the naive claim (table always honoured) is false"
  },
  {
   "property": "C10",
   "status": "proved",
   "theorems": [
    "C10_jamo_least_alignment",
    "C10_jamo_metric"
   ],
   "note": ""
  },
  {
   "property": "C11",
   "status": "proved",
   "theorems": [
    "C11_jaccard_exact",
    "C11_jaccard_properties",
    "C11_cosine_exact",
    "C11_cosine_properties",
    "C11_empty_string"
   ],
   "note": "cosine over exact reals; uses the stdlib real-number axioms"
  },
  {
   "property": "C12",
   "status": "proved",
   "theorems": [
    "C12_only_hangle",
    "C12_only_hangle_number",
    "C12_only_text",
    "C12_facts"
   ],
   "note": ""
  },
  {
   "property": "C13",
   "status": "proved",
   "theorems": [
    "C13_normalize_keeps_enabled_classes",
    "C13_normalize_remove_repeat",
    "C13_normalize_idempotent",
    "C13_only_hangul_by_default_refuted",
    "C13_hyphen_never_kept"
   ],
   "note": ""
  },
  {
   "property": "C14",
   "status": "proved",
   "theorems": [
    "C14_every_string_has_runs",
    "C14_repeat_normalize_exact",
    "C14_nonpositive_only_whitespace",
    "C14_idempotent",
    "C14_no_long_run_remains"
   ],
   "note": ""
  },
  {
   "property": "C15",
   "status": "proved",
   "theorems": [
    "C15_emoticon_exact",
    "C15_emoticon_rule_is_a_function",
    "C15_without_lone_consonants_only_repeats",
    "C15_no_syllable_lost_refuted"
   ],
   "note": ""
  },
  {
   "property": "C16",
   "status": "proved",
   "theorems": [
    "C16_remain_hangle_on_last",
    "C16_lrgraph_sentence_exact",
    "C16_lrgraph_sentence_facts"
   ],
   "note": ""
  },
  {
   "property": "C17",
   "status": "proved",
   "theorems": [
    "C17_tokenizer_normalize_exact",
    "C17_unchanged_without_jamo_and_repeats"
   ],
   "note": ""
  },
  {
   "property": "C18",
   "status": "proved",
   "theorems": [
    "C18_text_preserved",
    "C18_hangul_runs"
   ],
   "note": ""
  },
  {
   "property": "C19",
   "status": "proved",
   "theorems": [
    "C19_best_left",
    "C19_sentence"
   ],
   "note": ""
  },
  {
   "property": "C20",
   "status": "proved",
   "theorems": [
    "C20_tiles",
    "C20_text_preserved",
    "C20_small_max_length"
   ],
   "note": ""
  },
  {
   "property": "C21",
   "status": "proved",
   "theorems": [
    "C21_greedy",
    "C21_greedy_unique",
    "C21_any_length_refuted"
   ],
   "note": ""
  },
  {
   "property": "C22",
   "status": "proved",
   "theorems": [
    "C22_scores",
    "C22_short",
    "C22_table_score_refuted"
   ],
   "note": ""
  },
  {
   "property": "C23",
   "status": "proved",
   "theorems": [
    "C23_selection",
    "C23_text",
    "C23_text_preserved_without_R",
    "C23_total_and_preserving_refuted"
   ],
   "note": ""
  },
  {
   "property": "C24",
   "status": "proved",
   "theorems": [
    "C24_greedy_chain",
    "C24_chain_unique"
   ],
   "note": ""
  },
  {
   "property": "C25",
   "status": "proved",
   "theorems": [
    "C25_nouns",
    "C25_exact",
    "C25_composed",
    "C25_short_dropped",
    "C25_composed_scores_refuted"
   ],
   "note": ""
  },
  {
   "property": "C26",
   "status": "proved",
   "theorems": [
    "C26_indexes_agree",
    "C26_counts_positive",
    "C26_no_empty_tables"
   ],
   "note": ""
  },
  {
   "property": "C27",
   "status": "proved",
   "theorems": [
    "C27_remove_pair",
    "C27_remove_eojeol",
    "C27_add_then_remove"
   ],
   "note": ""
  },
  {
   "property": "C28",
   "status": "proved",
   "theorems": [
    "C28_add_pair",
    "C28_add_eojeol"
   ],
   "note": ""
  },
  {
   "property": "C29",
   "status": "proved",
   "theorems": [
    "C29_reset_restores",
    "C29_frozen_not_reset",
    "C29_copy_original"
   ],
   "note": ""
  },
  {
   "property": "C30",
   "status": "proved",
   "theorems": [
    "C30_ranking",
    "C30_stable"
   ],
   "note": ""
  },
  {
   "property": "C31",
   "status": "proved",
   "theorems": [
    "C31_to_lrgraph_exact",
    "C31_back_to_counter",
    "C31_ignore_one_syllable_ignored",
    "C31_counter_of_current_graph",
    "C31_counter_of_original_graph"
   ],
   "note": ""
  },
  {
   "property": "C32",
   "status": "proved",
   "theorems": [
    "C32_save_load"
   ],
   "note": ""
  },
  {
   "property": "C33",
   "status": "proved",
   "theorems": [
    "C33_exact_without_filtering",
    "C33_filtered_counts_a_suffix",
    "C33_filtered_exact_when_frequent",
    "C33_empty_corpus",
    "C33_filtered_exactness_refuted"
   ],
   "note": ""
  },
  {
   "property": "C34",
   "status": "proved",
   "theorems": [
    "C34_coverage",
    "C34_zero_total",
    "C34_uncovered"
   ],
   "note": ""
  },
  {
   "property": "C35",
   "status": "proved",
   "theorems": [
    "C35_save_load",
    "C35_file_order"
   ],
   "note": ""
  },
  {
   "property": "C36",
   "status": "proved",
   "theorems": [
    "C36_unlimited",
    "C36_limited",
    "C36_sentences_clean",
    "C36_length_agrees",
    "C36_length_agrees_refuted",
    "C36_header_only"
   ],
   "note": ""
  },
  {
   "property": "C37",
   "status": "proved",
   "theorems": [
    "C37_unknown_query",
    "C37_most_similar"
   ],
   "note": ""
  },
  {
   "property": "C38",
   "status": "proved",
   "theorems": [
    "C38_train_exact",
    "C38_sentence_order_irrelevant",
    "C38_pruning_forgets_a_prefix",
    "C38_batches_equal_one_corpus_refuted",
    "C38_raises_iff_empty"
   ],
   "note": ""
  },
  {
   "property": "C39",
   "status": "proved",
   "theorems": [
    "C39_prefix_suffix_monotone",
    "C39_cohesion_in_unit_interval",
    "C39_cohesion_value"
   ],
   "note": ""
  },
  {
   "property": "C40",
   "status": "proved",
   "theorems": [
    "C40_accessor_variety_after_training",
    "C40_entropy_bounds",
    "C40_all_words_agree",
    "C40_all_words_agree_everywhere_refuted"
   ],
   "note": ""
  },
  {
   "property": "C41",
   "status": "proved",
   "theorems": [
    "C41_extract_exact",
    "C41_word_scores"
   ],
   "note": ""
  },
  {
   "property": "C42",
   "status": "proved",
   "theorems": [
    "C42_counts_exact",
    "C42_checkpoints_forget_a_prefix",
    "C42_checkpoint_boundary_safe",
    "C42_unigram_is_number_of_bigrams",
    "C42_frequency_selection",
    "C42_topk_limits_refuted",
    "C42_mikolov_selection",
    "C42_pmi_selection",
    "C42_train_raises_iff"
   ],
   "note": ""
  },
  {
   "property": "C43",
   "status": "proved",
   "theorems": [
    "C43_fit_bijection",
    "C43_set_bijection",
    "C43_decode_encode",
    "C43_encode_decode",
    "C43_bow",
    "C43_decode_bow",
    "C43_transform",
    "C43_to_file",
    "C43_save_load",
    "C43_save_load_default"
   ],
   "note": ""
  },
  {
   "property": "C44",
   "status": "proved",
   "theorems": [
    "C44_vocabulary_exact",
    "C44_constructor",
    "C44_membership",
    "C44_decreasing",
    "C44_fit_defined",
    "C44_term_frequency_refuted",
    "C44_stopwords_ignored"
   ],
   "note": ""
  },
  {
   "property": "C45",
   "status": "proved",
   "theorems": [
    "C45_raises",
    "C45_vocabulary",
    "C45_cooccurrence",
    "C45_places",
    "C45_symmetric",
    "C45_shape",
    "C45_shape_refuted",
    "C45_defined"
   ],
   "note": ""
  },
  {
   "property": "C47",
   "status": "proved",
   "theorems": [
    "C47_remove_list",
    "C47_new",
    "C47_history",
    "C47_get_pos_and_max_length",
    "C47_errors",
    "C47_save_load",
    "C47_shared_set_refuted"
   ],
   "note": ""
  },
  {
   "property": "C48",
   "status": "proved",
   "theorems": [
    "C48_candidates",
    "C48_order",
    "C48_one_syllable_refuted"
   ],
   "note": ""
  },
  {
   "property": "C49",
   "status": "proved",
   "theorems": [
    "C49_greedy",
    "C49_disjoint",
    "C49_order",
    "C49_text_order_refuted",
    "C49_default_score",
    "C49_is_verb_refuted"
   ],
   "note": ""
  },
  {
   "property": "C50",
   "status": "proved",
   "theorems": [
    "C50_candidates",
    "C50_candidates_tile",
    "C50_best",
    "C50_text_preserved",
    "C50_tags_known",
    "C50_default_scores",
    "C50_compound_scores",
    "C50_known_noun",
    "C50_three_nouns_refuted"
   ],
   "note": ""
  },
  {
   "property": "C51",
   "status": "proved",
   "theorems": [
    "C51_roles",
    "C51_predict_exact",
    "C51_bounds"
   ],
   "note": ""
  },
  {
   "property": "C52",
   "status": "proved",
   "theorems": [
    "C52_detaching",
    "C52_ignore_features",
    "C52_NJ"
   ],
   "note": ""
  },
  {
   "property": "C53",
   "status": "proved",
   "theorems": [
    "C53_conjugate_exact",
    "C53_conjugate_total",
    "C53_conjugate_junction",
    "C53_harmony",
    "C53_harmony_consonant",
    "C53_errors",
    "C53_other_consonants",
    "C53_chat",
    "C53_stem_forms",
    "C53_chat_refuted",
    "C53_stem_forms_refuted"
   ],
   "note": ""
  },
  {
   "property": "C54",
   "status": "proved",
   "theorems": [
    "C54_candidates_exact",
    "C54_candidates_sound",
    "C54_errors",
    "C54_word_keys_unused",
    "C54_chat_exact",
    "C54_lemmatize_exact",
    "C54_candidates_method_refuted",
    "C54_lemmatize_table",
    "C54_table_words",
    "C54_table_words_raise"
   ],
   "note": ""
  },
  {
   "property": "C55",
   "status": "proved",
   "theorems": [
    "C55_round_trip",
    "C55_round_trip_regular",
    "C55_found_is_returned",
    "C55_round_trip_refuted"
   ],
   "note": ""
  },
  {
   "property": "C57",
   "status": "proved",
   "theorems": [
    "C57_roles",
    "C57_predict_exact",
    "C57_bounds",
    "C57_stem_forms",
    "C57_extract",
    "C57_scores_unique",
    "C57_result_bounds"
   ],
   "note": ""
  },
  {
   "property": "C69",
   "status": "proved",
   "theorems": [
    "C69_tables",
    "C69_roles",
    "C69_predict_exact",
    "C69_bounds",
    "C69_extract",
    "C69_known_endings_refuted",
    "C69_frequency_first_refuted"
   ],
   "note": ""
  },
  {
   "property": "C58",
   "status": "proved",
   "theorems": [
    "C58_separation",
    "C58_partition",
    "C58_disjoint"
   ],
   "note": ""
  },
  {
   "property": "C59",
   "status": "proved",
   "theorems": [
    "C59_hangle_normalize_exact",
    "C59_hangle_normalize_repeats"
   ],
   "note": ""
  },
  {
   "property": "C60",
   "status": "proved",
   "theorems": [
    "C60_sorted_lines",
    "C60_idempotent",
    "C60_order"
   ],
   "note": ""
  },
  {
   "property": "C61",
   "status": "proved",
   "theorems": [
    "C61_both_given",
    "C61_both_given_raises",
    "C61_from_sentences",
    "C61_constructor_errors",
    "C61_plain_counts_refuted"
   ],
   "note": ""
  },
  {
   "property": "C62",
   "status": "proved",
   "theorems": [
    "C62_values",
    "C62_threshold",
    "C62_marginals",
    "C62_symmetric",
    "C62_memory_friendly_refuted"
   ],
   "note": ""
  },
  {
   "property": "C63",
   "status": "proved",
   "theorems": [
    "C63_postprocess_tiles",
    "C63_eojeol_dropped",
    "C63_text_preserved",
    "C63_text_preserved_refuted"
   ],
   "note": ""
  },
  {
   "property": "C64",
   "status": "proved",
   "theorems": [
    "C64_load",
    "C64_append",
    "C64_pos_neg_disjoint",
    "C64_common_disjoint_refuted",
    "C64_postprocessing_option"
   ],
   "note": ""
  },
  {
   "property": "C65",
   "status": "proved",
   "theorems": [
    "C65_prediction",
    "C65_order_independent"
   ],
   "note": ""
  },
  {
   "property": "C66",
   "status": "proved",
   "theorems": [
    "C66_extract",
    "C66_repeatable",
    "C66_pos_feature_option",
    "C66_repeatable_without_reset_refuted",
    "C66_compounds_filtered",
    "C66_compound_frequency_refuted"
   ],
   "note": ""
  },
  {
   "property": "C67",
   "status": "proved",
   "theorems": [
    "C67_coverage",
    "C67_bounds"
   ],
   "note": ""
  },
  {
   "property": "C68",
   "status": "proved",
   "theorems": [
    "C68_decompose",
    "C68_decompose_exact",
    "C68_decompose_short",
    "C68_compounds",
    "C68_blank"
   ],
   "note": ""
  },
  {
   "property": "C70",
   "status": "proved",
   "theorems": [
    "C70_exact",
    "C70_unique",
    "C70_order",
    "C70_bounds",
    "C70_noun_josa_refuted"
   ],
   "note": ""
  },
  {
   "property": "C71",
   "status": "proved",
   "theorems": [
    "C71_candidates",
    "C71_table",
    "C71_extract",
    "C71_sound",
    "C71_right_analysis_refuted",
    "C71_empty_analysis_refuted",
    "C71_order_refuted",
    "C71_minimum_refuted",
    "C71_given_candidates_refuted"
   ],
   "note": ""
  },
  {
   "property": "C72",
   "status": "proved",
   "theorems": [
    "C72_construction",
    "C72_construction_refuted",
    "C72_dictionary",
    "C72_train_counter",
    "C72_train_sentences",
    "C72_minimum_one_refuted",
    "C72_learn",
    "C72_learn_nothing",
    "C72_dictionary_raises"
   ],
   "note": ""
  },
  {
   "property": "C73",
   "status": "proved",
   "theorems": [
    "C73_load",
    "C73_all_lines_refuted",
    "C73_defined",
    "C73_words",
    "C73_graph",
    "C73_right_limit_refuted",
    "C73_whitespace_refuted"
   ],
   "note": ""
  },
  {
   "property": "C74",
   "status": "proved",
   "theorems": [
    "C74_predict",
    "C74_bounds",
    "C74_is_noun",
    "C74_extract",
    "C74_determined",
    "C74_compound_refuted",
    "C74_frequency_refuted"
   ],
   "note": ""
  },
  {
   "property": "C75",
   "status": "proved",
   "theorems": [
    "C75_init",
    "C75_base_dictionary_refuted",
    "C75_train",
    "C75_predict",
    "C75_bounds"
   ],
   "note": ""
  },
  {
   "property": "C76",
   "status": "proved",
   "theorems": [
    "C76_extract",
    "C76_determined",
    "C76_accumulates",
    "C76_fresh_refuted",
    "C76_feature_proportion_refuted",
    "C76_total_refuted",
    "C76_verb_split_refuted"
   ],
   "note": ""
  },
  {
   "property": "C77",
   "status": "proved",
   "theorems": [
    "C77_load",
    "C77_stem_to_adverb"
   ],
   "note": ""
  },
  {
   "property": "C78",
   "status": "proved",
   "theorems": [
    "C78_nouns",
    "C78_predicators",
    "C78_rest"
   ],
   "note": ""
  },
  {
   "property": "C79",
   "status": "proved",
   "theorems": [
    "C79_total",
    "C79_total_refuted",
    "C79_disjoint",
    "C79_stems",
    "C79_noun_count_refuted",
    "C79_dropped_refuted",
    "C79_repeat_refuted",
    "C79_seam_raises"
   ],
   "note": ""
  },
  {
   "property": "C80",
   "status": "proved",
   "theorems": [
    "C80_dictionaries",
    "C80_selection",
    "C80_selection_total",
    "C80_output",
    "C80_sentence"
   ],
   "note": ""
  },
  {
   "property": "C81",
   "status": "proved",
   "theorems": [
    "C81_fails",
    "C81_default_refuted",
    "C81_vocabulary",
    "C81_graph"
   ],
   "note": ""
  },
  {
   "property": "C82",
   "status": "proved",
   "theorems": [
    "C82_save_load",
    "C82_vocabulary_refuted",
    "C82_verbose_refuted",
    "C82_header",
    "C82_file"
   ],
   "note": ""
  },
  {
   "property": "C83",
   "status": "proved",
   "theorems": [
    "C83_hits",
    "C83_hits_trained",
    "C83_pos_extractor"
   ],
   "note": ""
  },
  {
   "property": "C84",
   "status": "proved",
   "theorems": [
    "C84_train",
    "C84_trained",
    "C84_empty",
    "C84_predicators",
    "C84_train_extract",
    "C84_counts",
    "C84_ensure_normalized_refuted",
    "C84_noun_count_refuted"
   ],
   "note": ""
  },
  {
   "property": "C85",
   "status": "proved",
   "theorems": [
    "C85_interrupted_save",
    "C85_no_invention",
    "C85_detected_refuted",
    "C85_failed_load",
    "C85_load_atomic_refuted"
   ],
   "note": ""
  },
  {
   "property": "C86",
   "status": "proved",
   "theorems": [
    "C86_interrupted_save",
    "C86_no_invention",
    "C86_no_new_pair_refuted",
    "C86_failed_load",
    "C86_reset_after_failed_load_refuted"
   ],
   "note": ""
  },
  {
   "property": "C87",
   "status": "proved",
   "theorems": [
    "C87_interrupted_sort",
    "C87_lines_kept",
    "C87_nothing_lost_refuted"
   ],
   "note": ""
  },
  {
   "property": "C88",
   "status": "proved",
   "theorems": [
    "C88_interrupted_save",
    "C88_indices_refuted"
   ],
   "note": ""
  },
  {
   "property": "C89",
   "status": "proved",
   "theorems": [
    "C89_object",
    "C89_shared",
    "C89_rows_shared",
    "C89_copied",
    "C89_reset_restores",
    "C89_callers_write",
    "C89_argument_untouched_refuted",
    "C89_views_agree_refuted"
   ],
   "note": ""
  },
  {
   "property": "C90",
   "status": "proved",
   "theorems": [
    "C90_nouns",
    "C90_predicators",
    "C90_pos",
    "C90_messages_only_refuted",
    "C90_given_candidates_refuted",
    "C90_given_counts"
   ],
   "note": ""
  },
  {
   "property": "C91",
   "status": "proved",
   "theorems": [
    "C91_reader",
    "C91_reader_deterministic",
    "C91_load",
    "C91_text",
    "C91_roundtrip",
    "C91_single_word_refuted",
    "C91_max_length_refuted",
    "C91_hexadecimal",
    "C91_surrogates",
    "C91_surrogates_unique",
    "C91_numerals",
    "C91_loaded_words"
   ],
   "note": ""
  },
  {
   "property": "C92",
   "status": "proved",
   "theorems": [
    "C92_failed_load",
    "C92_interrupted_save",
    "C92_failed_load_atomic_refuted"
   ],
   "note": ""
  },
  {
   "property": "C93",
   "status": "proved",
   "theorems": [
    "C93_counter_table",
    "C93_counter_sum",
    "C93_train_sum",
    "C93_coverage",
    "C93_sets",
    "C93_sets_grow",
    "C93_new",
    "C93_train",
    "C93_extract",
    "C93_foreign",
    "C93_shared_counter_refuted",
    "C93_shared_set_refuted",
    "C93_after_extract_refuted",
    "C93_coverage_falls_refuted"
   ],
   "note": ""
  },
  {
   "property": "C94",
   "status": "proved",
   "theorems": [
    "C94_lr_modes",
    "C94_lr_debug",
    "C94_simple_modes",
    "C94_simple_debug",
    "C94_words_shown"
   ],
   "note": ""
  },
  {
   "property": "C95",
   "status": "proved",
   "theorems": [
    "C95_step",
    "C95_outcomes",
    "C95_new",
    "C95_frame",
    "C95_agree",
    "C95_max_length",
    "C95_max_length_refuted",
    "C95_same_set_refuted"
   ],
   "note": ""
  },
  {
   "property": "C96",
   "status": "proved",
   "theorems": [
    "C96_interrupted",
    "C96_no_invention",
    "C96_blank_lines",
    "C96_detected_refuted"
   ],
   "note": ""
  },
  {
   "property": "C97",
   "status": "proved",
   "theorems": [
    "C97_outcome",
    "C97_completed",
    "C97_failed",
    "C97_failed_neighbours",
    "C97_again_afresh",
    "C97_again_cumulated",
    "C97_minimum_frequency_refuted",
    "C97_again_refuted"
   ],
   "note": ""
  },
  {
   "property": "C98",
   "status": "proved",
   "theorems": [
    "C98_when_save_works",
    "C98_save_load",
    "C98_failed_save",
    "C98_missing_key",
    "C98_good_histories",
    "C98_old_file_survives_refuted"
   ],
   "note": ""
  },
  {
   "property": "C99",
   "status": "proved",
   "theorems": [
    "C99_answers",
    "C99_outcomes",
    "C99_frame",
    "C99_live",
    "C99_agree",
    "C99_lr_fixed",
    "C99_empty_refuted",
    "C99_preference_refuted"
   ],
   "note": ""
  },
  {
   "property": "C100",
   "status": "proved",
   "theorems": [
    "C100_words",
    "C100_rows",
    "C100_positions_refuted"
   ],
   "note": ""
  },
  {
   "property": "C101",
   "status": "proved",
   "theorems": [
    "C101_forgets",
    "C101_unsettled",
    "C101_answers",
    "C101_features",
    "C101_domain_nothing",
    "C101_same_answers",
    "C101_learnt",
    "C101_trainings_add_up_refuted",
    "C101_extraction_without_reset_leaves_answers_refuted"
   ],
   "note": ""
  },
  {
   "property": "C102",
   "status": "proved",
   "theorems": [
    "C102_forgets",
    "C102_no_trace",
    "C102_trains",
    "C102_train_extract",
    "C102_untrained",
    "C102_answers",
    "C102_one_shot",
    "C102_determined",
    "C102_failed_training_refuted",
    "C102_add_up_refuted"
   ],
   "note": ""
  },
  {
   "property": "C103",
   "status": "proved",
   "theorems": [
    "C103_vocabulary",
    "C103_ends",
    "C103_files",
    "C103_last_fit",
    "C103_save_load",
    "C103_total",
    "C103_coherent",
    "C103_answers",
    "C103_composite",
    "C103_fit_transform_refuted",
    "C103_iterator_refuted",
    "C103_atomic_refuted",
    "C103_blank_refuted"
   ],
   "note": ""
  }
 ]
}