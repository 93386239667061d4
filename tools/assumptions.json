{
"axioms": {
"C01_compose_decompose": [],
"C01_compose_unicode_order": [],
"C01_decompose_compose": [],
"C02_decompose_injective": [],
"C02_decompose_total": [],
"C03_compose_error_iff": [],
"C04_character_classes": [],
"C05_clean_text_unchanged": [],
"C05_encoder_roundtrip": [],
"C06_encode_matrix": [],
"C06_onehot_exact": [],
"C06_onehot_layout": [],
"C07_decode_exact": [],
"C07_invalid_iff_ValueError": [],
"C08_levenshtein_is_edit_distance": [],
"C08_levenshtein_metric": [],
"C09_cost_always_honoured_refuted": [],
"C09_cost_ignored_when_first_is_shorter": [],
"C09_custom_cost_when_first_is_longer": [],
"C100_positions_refuted": [],
"C100_rows": [],
"C100_words": [],
"C101_answers": [
"ClassicalDedekindReals.sig_forall_dec",
"ClassicalDedekindReals.sig_not_dec",
"Classical_Prop.classic",
"FunctionalExtensionality.functional_extensionality_dep"
],
"C101_domain_nothing": [
"ClassicalDedekindReals.sig_forall_dec",
"ClassicalDedekindReals.sig_not_dec",
"Classical_Prop.classic",
"FunctionalExtensionality.functional_extensionality_dep"
],
"C101_extraction_without_reset_leaves_answers_refuted": [
"ClassicalDedekindReals.sig_forall_dec",
"ClassicalDedekindReals.sig_not_dec",
"Classical_Prop.classic",
"FunctionalExtensionality.functional_extensionality_dep"
],
"C101_features": [
"ClassicalDedekindReals.sig_forall_dec",
"ClassicalDedekindReals.sig_not_dec",
"Classical_Prop.classic",
"FunctionalExtensionality.functional_extensionality_dep"
],
"C101_forgets": [
"ClassicalDedekindReals.sig_forall_dec",
"ClassicalDedekindReals.sig_not_dec",
"Classical_Prop.classic",
"FunctionalExtensionality.functional_extensionality_dep"
],
"C101_learnt": [
"ClassicalDedekindReals.sig_forall_dec",
"ClassicalDedekindReals.sig_not_dec",
"Classical_Prop.classic",
"FunctionalExtensionality.functional_extensionality_dep"
],
"C101_same_answers": [
"ClassicalDedekindReals.sig_forall_dec",
"ClassicalDedekindReals.sig_not_dec",
"Classical_Prop.classic",
"FunctionalExtensionality.functional_extensionality_dep"
],
"C101_trainings_add_up_refuted": [
"ClassicalDedekindReals.sig_forall_dec",
"ClassicalDedekindReals.sig_not_dec",
"Classical_Prop.classic",
"FunctionalExtensionality.functional_extensionality_dep"
],
"C101_unsettled": [
"ClassicalDedekindReals.sig_forall_dec",
"ClassicalDedekindReals.sig_not_dec",
"Classical_Prop.classic",
"FunctionalExtensionality.functional_extensionality_dep"
],
"C102_add_up_refuted": [
"ClassicalDedekindReals.sig_forall_dec",
"ClassicalDedekindReals.sig_not_dec",
"Classical_Prop.classic",
"FunctionalExtensionality.functional_extensionality_dep"
],
"C102_answers": [
"ClassicalDedekindReals.sig_forall_dec",
"ClassicalDedekindReals.sig_not_dec",
"Classical_Prop.classic",
"FunctionalExtensionality.functional_extensionality_dep"
],
"C102_determined": [],
"C102_failed_training_refuted": [
"ClassicalDedekindReals.sig_forall_dec",
"ClassicalDedekindReals.sig_not_dec",
"Classical_Prop.classic",
"FunctionalExtensionality.functional_extensionality_dep"
],
"C102_forgets": [
"ClassicalDedekindReals.sig_forall_dec",
"ClassicalDedekindReals.sig_not_dec",
"Classical_Prop.classic",
"FunctionalExtensionality.functional_extensionality_dep"
],
"C102_no_trace": [
"ClassicalDedekindReals.sig_forall_dec",
"ClassicalDedekindReals.sig_not_dec",
"Classical_Prop.classic",
"FunctionalExtensionality.functional_extensionality_dep"
],
"C102_one_shot": [
"ClassicalDedekindReals.sig_forall_dec",
"ClassicalDedekindReals.sig_not_dec",
"Classical_Prop.classic",
"FunctionalExtensionality.functional_extensionality_dep"
],
"C102_train_extract": [
"ClassicalDedekindReals.sig_forall_dec",
"ClassicalDedekindReals.sig_not_dec",
"Classical_Prop.classic",
"FunctionalExtensionality.functional_extensionality_dep"
],
"C102_trains": [
"ClassicalDedekindReals.sig_forall_dec",
"ClassicalDedekindReals.sig_not_dec",
"Classical_Prop.classic",
"FunctionalExtensionality.functional_extensionality_dep"
],
"C102_untrained": [
"ClassicalDedekindReals.sig_forall_dec",
"ClassicalDedekindReals.sig_not_dec",
"Classical_Prop.classic",
"FunctionalExtensionality.functional_extensionality_dep"
],
"C103_atomic_refuted": [],
"C103_blank_refuted": [],
"C103_coherent": [],
"C103_ends": [],
"C103_files": [],
"C103_fit_transform_refuted": [],
"C103_iterator_refuted": [],
"C103_last_fit": [],
"C103_save_load": [],
"C103_total": [],
"C103_vocabulary": [],
"C10_jamo_least_alignment": [],
"C10_jamo_metric": [],
"C11_cosine_exact": [
"ClassicalDedekindReals.sig_forall_dec",
"ClassicalDedekindReals.sig_not_dec",
"FunctionalExtensionality.functional_extensionality_dep"
],
"C11_cosine_properties": [
"ClassicalDedekindReals.sig_forall_dec",
"ClassicalDedekindReals.sig_not_dec",
"FunctionalExtensionality.functional_extensionality_dep"
],
"C11_empty_string": [
"ClassicalDedekindReals.sig_forall_dec",
"ClassicalDedekindReals.sig_not_dec",
"FunctionalExtensionality.functional_extensionality_dep"
],
"C11_jaccard_exact": [],
"C11_jaccard_properties": [],
"C12_facts": [],
"C12_only_hangle": [],
"C12_only_hangle_number": [],
"C12_only_text": [],
"C13_hyphen_never_kept": [],
"C13_normalize_idempotent": [],
"C13_normalize_keeps_enabled_classes": [],
"C13_normalize_remove_repeat": [],
"C13_only_hangul_by_default_refuted": [],
"C14_every_string_has_runs": [],
"C14_idempotent": [],
"C14_no_long_run_remains": [],
"C14_nonpositive_only_whitespace": [],
"C14_repeat_normalize_exact": [],
"C15_emoticon_exact": [],
"C15_emoticon_rule_is_a_function": [],
"C15_no_syllable_lost_refuted": [],
"C15_without_lone_consonants_only_repeats": [],
"C16_lrgraph_sentence_exact": [],
"C16_lrgraph_sentence_facts": [],
"C16_remain_hangle_on_last": [],
"C17_tokenizer_normalize_exact": [],
"C17_unchanged_without_jamo_and_repeats": [],
"C18_hangul_runs": [],
"C18_text_preserved": [],
"C19_best_left": [],
"C19_sentence": [],
"C20_small_max_length": [],
"C20_text_preserved": [],
"C20_tiles": [],
"C21_any_length_refuted": [],
"C21_greedy": [],
"C21_greedy_unique": [],
"C22_scores": [],
"C22_short": [],
"C22_table_score_refuted": [],
"C23_selection": [],
"C23_text": [],
"C23_text_preserved_without_R": [],
"C23_total_and_preserving_refuted": [],
"C24_chain_unique": [],
"C24_greedy_chain": [],
"C25_composed": [],
"C25_composed_scores_refuted": [],
"C25_exact": [],
"C25_nouns": [],
"C25_short_dropped": [],
"C26_counts_positive": [],
"C26_indexes_agree": [],
"C26_no_empty_tables": [],
"C27_add_then_remove": [],
"C27_remove_eojeol": [],
"C27_remove_pair": [],
"C28_add_eojeol": [],
"C28_add_pair": [],
"C29_copy_original": [],
"C29_frozen_not_reset": [],
"C29_reset_restores": [],
"C30_ranking": [],
"C30_stable": [],
"C31_back_to_counter": [],
"C31_counter_of_current_graph": [],
"C31_counter_of_original_graph": [],
"C31_ignore_one_syllable_ignored": [],
"C31_to_lrgraph_exact": [],
"C32_save_load": [],
"C33_empty_corpus": [],
"C33_exact_without_filtering": [],
"C33_filtered_counts_a_suffix": [],
"C33_filtered_exact_when_frequent": [],
"C33_filtered_exactness_refuted": [],
"C34_coverage": [],
"C34_uncovered": [],
"C34_zero_total": [],
"C35_file_order": [],
"C35_save_load": [],
"C36_header_only": [],
"C36_length_agrees": [],
"C36_length_agrees_refuted": [],
"C36_limited": [],
"C36_sentences_clean": [],
"C36_unlimited": [],
"C37_most_similar": [],
"C37_unknown_query": [],
"C38_batches_equal_one_corpus_refuted": [],
"C38_pruning_forgets_a_prefix": [],
"C38_raises_iff_empty": [],
"C38_sentence_order_irrelevant": [],
"C38_train_exact": [],
"C39_cohesion_in_unit_interval": [
"ClassicalDedekindReals.sig_forall_dec",
"ClassicalDedekindReals.sig_not_dec",
"Classical_Prop.classic",
"FunctionalExtensionality.functional_extensionality_dep"
],
"C39_cohesion_value": [
"ClassicalDedekindReals.sig_forall_dec",
"ClassicalDedekindReals.sig_not_dec",
"Classical_Prop.classic",
"FunctionalExtensionality.functional_extensionality_dep"
],
"C39_prefix_suffix_monotone": [],
"C40_accessor_variety_after_training": [
"ClassicalDedekindReals.sig_forall_dec",
"ClassicalDedekindReals.sig_not_dec",
"Classical_Prop.classic",
"FunctionalExtensionality.functional_extensionality_dep"
],
"C40_all_words_agree": [
"ClassicalDedekindReals.sig_forall_dec",
"ClassicalDedekindReals.sig_not_dec",
"Classical_Prop.classic",
"FunctionalExtensionality.functional_extensionality_dep"
],
"C40_all_words_agree_everywhere_refuted": [],
"C40_entropy_bounds": [
"ClassicalDedekindReals.sig_forall_dec",
"ClassicalDedekindReals.sig_not_dec",
"Classical_Prop.classic",
"FunctionalExtensionality.functional_extensionality_dep"
],
"C41_extract_exact": [],
"C41_word_scores": [
"ClassicalDedekindReals.sig_forall_dec",
"ClassicalDedekindReals.sig_not_dec",
"Classical_Prop.classic",
"FunctionalExtensionality.functional_extensionality_dep"
],
"C42_checkpoint_boundary_safe": [],
"C42_checkpoints_forget_a_prefix": [],
"C42_counts_exact": [],
"C42_frequency_selection": [],
"C42_mikolov_selection": [],
"C42_pmi_selection": [
"ClassicalDedekindReals.sig_forall_dec",
"ClassicalDedekindReals.sig_not_dec",
"Classical_Prop.classic",
"FunctionalExtensionality.functional_extensionality_dep"
],
"C42_topk_limits_refuted": [],
"C42_train_raises_iff": [],
"C42_unigram_is_number_of_bigrams": [],
"C43_bow": [],
"C43_decode_bow": [],
"C43_decode_encode": [],
"C43_encode_decode": [],
"C43_fit_bijection": [],
"C43_save_load": [],
"C43_save_load_default": [],
"C43_set_bijection": [],
"C43_to_file": [],
"C43_transform": [],
"C44_constructor": [],
"C44_decreasing": [],
"C44_fit_defined": [],
"C44_membership": [],
"C44_stopwords_ignored": [],
"C44_term_frequency_refuted": [],
"C44_vocabulary_exact": [],
"C45_cooccurrence": [],
"C45_defined": [],
"C45_places": [],
"C45_raises": [],
"C45_shape": [],
"C45_shape_refuted": [],
"C45_symmetric": [],
"C45_vocabulary": [],
"C47_errors": [],
"C47_get_pos_and_max_length": [],
"C47_history": [],
"C47_new": [],
"C47_remove_list": [],
"C47_save_load": [],
"C47_shared_set_refuted": [],
"C48_candidates": [],
"C48_one_syllable_refuted": [],
"C48_order": [],
"C49_default_score": [],
"C49_disjoint": [],
"C49_greedy": [],
"C49_is_verb_refuted": [],
"C49_order": [],
"C49_text_order_refuted": [],
"C50_best": [],
"C50_candidates": [],
"C50_candidates_tile": [],
"C50_compound_scores": [],
"C50_default_scores": [],
"C50_known_noun": [],
"C50_tags_known": [],
"C50_text_preserved": [],
"C50_three_nouns_refuted": [],
"C51_bounds": [],
"C51_predict_exact": [],
"C51_roles": [],
"C52_NJ": [],
"C52_detaching": [],
"C52_ignore_features": [],
"C53_chat": [],
"C53_chat_refuted": [],
"C53_conjugate_exact": [],
"C53_conjugate_junction": [],
"C53_conjugate_total": [],
"C53_errors": [],
"C53_harmony": [],
"C53_harmony_consonant": [],
"C53_other_consonants": [],
"C53_stem_forms": [],
"C53_stem_forms_refuted": [],
"C54_candidates_exact": [],
"C54_candidates_method_refuted": [],
"C54_candidates_sound": [],
"C54_chat_exact": [],
"C54_errors": [],
"C54_lemmatize_exact": [],
"C54_lemmatize_table": [],
"C54_table_words": [],
"C54_table_words_raise": [],
"C54_word_keys_unused": [],
"C55_found_is_returned": [],
"C55_round_trip": [],
"C55_round_trip_refuted": [],
"C55_round_trip_regular": [],
"C57_bounds": [],
"C57_extract": [],
"C57_predict_exact": [],
"C57_result_bounds": [],
"C57_roles": [],
"C57_scores_unique": [],
"C57_stem_forms": [],
"C58_disjoint": [],
"C58_partition": [],
"C58_separation": [],
"C59_hangle_normalize_exact": [],
"C59_hangle_normalize_repeats": [],
"C60_idempotent": [],
"C60_order": [],
"C60_sorted_lines": [],
"C61_both_given": [],
"C61_both_given_raises": [],
"C61_constructor_errors": [],
"C61_from_sentences": [],
"C61_plain_counts_refuted": [],
"C62_marginals": [
"ClassicalDedekindReals.sig_forall_dec",
"ClassicalDedekindReals.sig_not_dec",
"Classical_Prop.classic",
"FunctionalExtensionality.functional_extensionality_dep"
],
"C62_memory_friendly_refuted": [
"ClassicalDedekindReals.sig_forall_dec",
"ClassicalDedekindReals.sig_not_dec",
"Classical_Prop.classic",
"FunctionalExtensionality.functional_extensionality_dep"
],
"C62_symmetric": [
"ClassicalDedekindReals.sig_forall_dec",
"ClassicalDedekindReals.sig_not_dec",
"Classical_Prop.classic",
"FunctionalExtensionality.functional_extensionality_dep"
],
"C62_threshold": [
"ClassicalDedekindReals.sig_forall_dec",
"ClassicalDedekindReals.sig_not_dec",
"Classical_Prop.classic",
"FunctionalExtensionality.functional_extensionality_dep"
],
"C62_values": [
"ClassicalDedekindReals.sig_forall_dec",
"ClassicalDedekindReals.sig_not_dec",
"Classical_Prop.classic",
"FunctionalExtensionality.functional_extensionality_dep"
],
"C63_eojeol_dropped": [],
"C63_postprocess_tiles": [],
"C63_text_preserved": [],
"C63_text_preserved_refuted": [],
"C64_append": [],
"C64_common_disjoint_refuted": [],
"C64_load": [],
"C64_pos_neg_disjoint": [],
"C64_postprocessing_option": [],
"C65_order_independent": [],
"C65_prediction": [],
"C66_compound_frequency_refuted": [
"ClassicalDedekindReals.sig_forall_dec",
"ClassicalDedekindReals.sig_not_dec",
"Classical_Prop.classic",
"FunctionalExtensionality.functional_extensionality_dep"
],
"C66_compounds_filtered": [],
"C66_extract": [
"ClassicalDedekindReals.sig_forall_dec",
"ClassicalDedekindReals.sig_not_dec",
"Classical_Prop.classic",
"FunctionalExtensionality.functional_extensionality_dep"
],
"C66_pos_feature_option": [
"ClassicalDedekindReals.sig_forall_dec",
"ClassicalDedekindReals.sig_not_dec",
"Classical_Prop.classic",
"FunctionalExtensionality.functional_extensionality_dep"
],
"C66_repeatable": [
"ClassicalDedekindReals.sig_forall_dec",
"ClassicalDedekindReals.sig_not_dec",
"Classical_Prop.classic",
"FunctionalExtensionality.functional_extensionality_dep"
],
"C66_repeatable_without_reset_refuted": [
"ClassicalDedekindReals.sig_forall_dec",
"ClassicalDedekindReals.sig_not_dec",
"Classical_Prop.classic",
"FunctionalExtensionality.functional_extensionality_dep"
],
"C67_bounds": [],
"C67_coverage": [],
"C68_blank": [],
"C68_compounds": [],
"C68_decompose": [],
"C68_decompose_exact": [],
"C68_decompose_short": [],
"C69_bounds": [
"ClassicalDedekindReals.sig_forall_dec",
"ClassicalDedekindReals.sig_not_dec",
"Classical_Prop.classic",
"FunctionalExtensionality.functional_extensionality_dep"
],
"C69_extract": [
"ClassicalDedekindReals.sig_forall_dec",
"ClassicalDedekindReals.sig_not_dec",
"Classical_Prop.classic",
"FunctionalExtensionality.functional_extensionality_dep"
],
"C69_frequency_first_refuted": [
"ClassicalDedekindReals.sig_forall_dec",
"ClassicalDedekindReals.sig_not_dec",
"Classical_Prop.classic",
"FunctionalExtensionality.functional_extensionality_dep"
],
"C69_known_endings_refuted": [
"ClassicalDedekindReals.sig_forall_dec",
"ClassicalDedekindReals.sig_not_dec",
"Classical_Prop.classic",
"FunctionalExtensionality.functional_extensionality_dep"
],
"C69_predict_exact": [
"ClassicalDedekindReals.sig_forall_dec",
"ClassicalDedekindReals.sig_not_dec",
"Classical_Prop.classic",
"FunctionalExtensionality.functional_extensionality_dep"
],
"C69_roles": [
"ClassicalDedekindReals.sig_forall_dec"
],
"C69_tables": [],
"C70_bounds": [
"ClassicalDedekindReals.sig_forall_dec",
"ClassicalDedekindReals.sig_not_dec",
"Classical_Prop.classic",
"FunctionalExtensionality.functional_extensionality_dep"
],
"C70_exact": [
"ClassicalDedekindReals.sig_forall_dec",
"ClassicalDedekindReals.sig_not_dec",
"Classical_Prop.classic",
"FunctionalExtensionality.functional_extensionality_dep"
],
"C70_noun_josa_refuted": [
"ClassicalDedekindReals.sig_forall_dec",
"ClassicalDedekindReals.sig_not_dec",
"Classical_Prop.classic",
"FunctionalExtensionality.functional_extensionality_dep"
],
"C70_order": [
"ClassicalDedekindReals.sig_forall_dec",
"ClassicalDedekindReals.sig_not_dec",
"Classical_Prop.classic",
"FunctionalExtensionality.functional_extensionality_dep"
],
"C70_unique": [
"ClassicalDedekindReals.sig_forall_dec",
"ClassicalDedekindReals.sig_not_dec",
"Classical_Prop.classic",
"FunctionalExtensionality.functional_extensionality_dep"
],
"C71_candidates": [],
"C71_empty_analysis_refuted": [],
"C71_extract": [],
"C71_given_candidates_refuted": [],
"C71_minimum_refuted": [],
"C71_order_refuted": [],
"C71_right_analysis_refuted": [],
"C71_sound": [],
"C71_table": [],
"C72_construction": [],
"C72_construction_refuted": [],
"C72_dictionary": [],
"C72_dictionary_raises": [],
"C72_learn": [
"ClassicalDedekindReals.sig_forall_dec",
"ClassicalDedekindReals.sig_not_dec",
"Classical_Prop.classic",
"FunctionalExtensionality.functional_extensionality_dep"
],
"C72_learn_nothing": [],
"C72_minimum_one_refuted": [],
"C72_train_counter": [],
"C72_train_sentences": [],
"C73_all_lines_refuted": [],
"C73_defined": [],
"C73_graph": [],
"C73_load": [],
"C73_right_limit_refuted": [],
"C73_whitespace_refuted": [],
"C73_words": [],
"C74_bounds": [],
"C74_compound_refuted": [
"ClassicalDedekindReals.sig_forall_dec",
"ClassicalDedekindReals.sig_not_dec",
"Classical_Prop.classic",
"FunctionalExtensionality.functional_extensionality_dep"
],
"C74_determined": [],
"C74_extract": [
"ClassicalDedekindReals.sig_forall_dec",
"ClassicalDedekindReals.sig_not_dec",
"Classical_Prop.classic",
"FunctionalExtensionality.functional_extensionality_dep"
],
"C74_frequency_refuted": [
"ClassicalDedekindReals.sig_forall_dec",
"ClassicalDedekindReals.sig_not_dec",
"Classical_Prop.classic",
"FunctionalExtensionality.functional_extensionality_dep"
],
"C74_is_noun": [],
"C74_predict": [],
"C75_base_dictionary_refuted": [],
"C75_bounds": [],
"C75_init": [],
"C75_predict": [],
"C75_train": [],
"C76_accumulates": [],
"C76_determined": [],
"C76_extract": [],
"C76_feature_proportion_refuted": [],
"C76_fresh_refuted": [],
"C76_total_refuted": [],
"C76_verb_split_refuted": [],
"C77_load": [],
"C77_stem_to_adverb": [],
"C78_nouns": [],
"C78_predicators": [],
"C78_rest": [],
"C79_disjoint": [],
"C79_dropped_refuted": [],
"C79_noun_count_refuted": [],
"C79_repeat_refuted": [],
"C79_seam_raises": [],
"C79_stems": [],
"C79_total": [],
"C79_total_refuted": [],
"C80_dictionaries": [],
"C80_output": [],
"C80_selection": [],
"C80_selection_total": [],
"C80_sentence": [],
"C81_default_refuted": [],
"C81_fails": [],
"C81_graph": [],
"C81_vocabulary": [],
"C82_file": [],
"C82_header": [],
"C82_save_load": [],
"C82_verbose_refuted": [],
"C82_vocabulary_refuted": [],
"C83_hits": [],
"C83_hits_trained": [],
"C83_pos_extractor": [],
"C84_counts": [
"ClassicalDedekindReals.sig_forall_dec",
"ClassicalDedekindReals.sig_not_dec",
"Classical_Prop.classic",
"FunctionalExtensionality.functional_extensionality_dep"
],
"C84_empty": [],
"C84_ensure_normalized_refuted": [
"ClassicalDedekindReals.sig_forall_dec",
"ClassicalDedekindReals.sig_not_dec",
"Classical_Prop.classic",
"FunctionalExtensionality.functional_extensionality_dep"
],
"C84_noun_count_refuted": [
"ClassicalDedekindReals.sig_forall_dec",
"ClassicalDedekindReals.sig_not_dec",
"Classical_Prop.classic",
"FunctionalExtensionality.functional_extensionality_dep"
],
"C84_predicators": [
"ClassicalDedekindReals.sig_forall_dec",
"ClassicalDedekindReals.sig_not_dec",
"Classical_Prop.classic",
"FunctionalExtensionality.functional_extensionality_dep"
],
"C84_train": [
"ClassicalDedekindReals.sig_forall_dec",
"ClassicalDedekindReals.sig_not_dec",
"Classical_Prop.classic",
"FunctionalExtensionality.functional_extensionality_dep"
],
"C84_train_extract": [
"ClassicalDedekindReals.sig_forall_dec",
"ClassicalDedekindReals.sig_not_dec",
"Classical_Prop.classic",
"FunctionalExtensionality.functional_extensionality_dep"
],
"C84_trained": [
"ClassicalDedekindReals.sig_forall_dec",
"ClassicalDedekindReals.sig_not_dec",
"Classical_Prop.classic",
"FunctionalExtensionality.functional_extensionality_dep"
],
"C85_detected_refuted": [],
"C85_failed_load": [],
"C85_interrupted_save": [],
"C85_load_atomic_refuted": [],
"C85_no_invention": [],
"C86_failed_load": [],
"C86_interrupted_save": [],
"C86_no_invention": [],
"C86_no_new_pair_refuted": [],
"C86_reset_after_failed_load_refuted": [],
"C87_interrupted_sort": [],
"C87_lines_kept": [],
"C87_nothing_lost_refuted": [],
"C88_indices_refuted": [],
"C88_interrupted_save": [],
"C89_argument_untouched_refuted": [],
"C89_callers_write": [],
"C89_copied": [],
"C89_object": [],
"C89_reset_restores": [],
"C89_rows_shared": [],
"C89_shared": [],
"C89_views_agree_refuted": [],
"C90_given_candidates_refuted": [],
"C90_given_counts": [],
"C90_messages_only_refuted": [
"ClassicalDedekindReals.sig_forall_dec",
"ClassicalDedekindReals.sig_not_dec",
"Classical_Prop.classic",
"FunctionalExtensionality.functional_extensionality_dep"
],
"C90_nouns": [
"ClassicalDedekindReals.sig_forall_dec",
"ClassicalDedekindReals.sig_not_dec",
"Classical_Prop.classic",
"FunctionalExtensionality.functional_extensionality_dep"
],
"C90_pos": [
"ClassicalDedekindReals.sig_forall_dec",
"ClassicalDedekindReals.sig_not_dec",
"Classical_Prop.classic",
"FunctionalExtensionality.functional_extensionality_dep"
],
"C90_predicators": [],
"C91_hexadecimal": [],
"C91_load": [],
"C91_loaded_words": [],
"C91_max_length_refuted": [],
"C91_numerals": [],
"C91_reader": [],
"C91_reader_deterministic": [],
"C91_roundtrip": [],
"C91_single_word_refuted": [],
"C91_surrogates": [],
"C91_surrogates_unique": [],
"C91_text": [],
"C92_failed_load": [],
"C92_failed_load_atomic_refuted": [],
"C92_interrupted_save": [],
"C93_after_extract_refuted": [
"ClassicalDedekindReals.sig_forall_dec",
"ClassicalDedekindReals.sig_not_dec",
"Classical_Prop.classic",
"FunctionalExtensionality.functional_extensionality_dep"
],
"C93_counter_sum": [
"ClassicalDedekindReals.sig_forall_dec",
"ClassicalDedekindReals.sig_not_dec",
"Classical_Prop.classic",
"FunctionalExtensionality.functional_extensionality_dep"
],
"C93_counter_table": [
"ClassicalDedekindReals.sig_forall_dec",
"ClassicalDedekindReals.sig_not_dec",
"Classical_Prop.classic",
"FunctionalExtensionality.functional_extensionality_dep"
],
"C93_coverage": [
"ClassicalDedekindReals.sig_forall_dec",
"ClassicalDedekindReals.sig_not_dec",
"Classical_Prop.classic",
"FunctionalExtensionality.functional_extensionality_dep"
],
"C93_coverage_falls_refuted": [
"ClassicalDedekindReals.sig_forall_dec",
"ClassicalDedekindReals.sig_not_dec",
"Classical_Prop.classic",
"FunctionalExtensionality.functional_extensionality_dep"
],
"C93_extract": [
"ClassicalDedekindReals.sig_forall_dec",
"ClassicalDedekindReals.sig_not_dec",
"Classical_Prop.classic",
"FunctionalExtensionality.functional_extensionality_dep"
],
"C93_foreign": [
"ClassicalDedekindReals.sig_forall_dec",
"ClassicalDedekindReals.sig_not_dec",
"Classical_Prop.classic",
"FunctionalExtensionality.functional_extensionality_dep"
],
"C93_new": [
"ClassicalDedekindReals.sig_forall_dec",
"ClassicalDedekindReals.sig_not_dec",
"Classical_Prop.classic",
"FunctionalExtensionality.functional_extensionality_dep"
],
"C93_sets": [
"ClassicalDedekindReals.sig_forall_dec",
"ClassicalDedekindReals.sig_not_dec",
"Classical_Prop.classic",
"FunctionalExtensionality.functional_extensionality_dep"
],
"C93_sets_grow": [
"ClassicalDedekindReals.sig_forall_dec",
"ClassicalDedekindReals.sig_not_dec",
"Classical_Prop.classic",
"FunctionalExtensionality.functional_extensionality_dep"
],
"C93_shared_counter_refuted": [
"ClassicalDedekindReals.sig_forall_dec",
"ClassicalDedekindReals.sig_not_dec",
"Classical_Prop.classic",
"FunctionalExtensionality.functional_extensionality_dep"
],
"C93_shared_set_refuted": [
"ClassicalDedekindReals.sig_forall_dec",
"ClassicalDedekindReals.sig_not_dec",
"Classical_Prop.classic",
"FunctionalExtensionality.functional_extensionality_dep"
],
"C93_train": [
"ClassicalDedekindReals.sig_forall_dec",
"ClassicalDedekindReals.sig_not_dec",
"Classical_Prop.classic",
"FunctionalExtensionality.functional_extensionality_dep"
],
"C93_train_sum": [
"ClassicalDedekindReals.sig_forall_dec",
"ClassicalDedekindReals.sig_not_dec",
"Classical_Prop.classic",
"FunctionalExtensionality.functional_extensionality_dep"
],
"C94_lr_debug": [],
"C94_lr_modes": [],
"C94_simple_debug": [],
"C94_simple_modes": [],
"C94_words_shown": [],
"C95_agree": [],
"C95_frame": [],
"C95_max_length": [],
"C95_max_length_refuted": [],
"C95_new": [],
"C95_outcomes": [],
"C95_same_set_refuted": [],
"C95_step": [],
"C96_blank_lines": [],
"C96_detected_refuted": [],
"C96_interrupted": [],
"C96_no_invention": [],
"C97_again_afresh": [],
"C97_again_cumulated": [],
"C97_again_refuted": [],
"C97_completed": [],
"C97_failed": [],
"C97_failed_neighbours": [
"ClassicalDedekindReals.sig_forall_dec",
"ClassicalDedekindReals.sig_not_dec",
"Classical_Prop.classic",
"FunctionalExtensionality.functional_extensionality_dep"
],
"C97_minimum_frequency_refuted": [],
"C97_outcome": [],
"C98_failed_save": [],
"C98_good_histories": [],
"C98_missing_key": [],
"C98_old_file_survives_refuted": [],
"C98_save_load": [],
"C98_when_save_works": [],
"C99_agree": [],
"C99_answers": [],
"C99_empty_refuted": [],
"C99_frame": [],
"C99_live": [],
"C99_lr_fixed": [],
"C99_outcomes": [],
"C99_preference_refuted": []
},
"file": {
"C01_compose_decompose": "HangleProps",
"C01_compose_unicode_order": "HangleProps",
"C01_decompose_compose": "HangleProps",
"C02_decompose_injective": "HangleProps",
"C02_decompose_total": "HangleProps",
"C03_compose_error_iff": "HangleProps",
"C04_character_classes": "HangleProps",
"C05_clean_text_unchanged": "HangleProps",
"C05_encoder_roundtrip": "HangleProps",
"C06_encode_matrix": "HangleProps",
"C06_onehot_exact": "HangleProps",
"C06_onehot_layout": "HangleProps",
"C07_decode_exact": "HangleProps",
"C07_invalid_iff_ValueError": "HangleProps",
"C08_levenshtein_is_edit_distance": "DistanceProps",
"C08_levenshtein_metric": "DistanceProps",
"C09_cost_always_honoured_refuted": "DistanceProps",
"C09_cost_ignored_when_first_is_shorter": "DistanceProps",
"C09_custom_cost_when_first_is_longer": "DistanceProps",
"C100_positions_refuted": "LRCallProps",
"C100_rows": "LRCallProps",
"C100_words": "LRCallProps",
"C101_answers": "NounLifeProps",
"C101_domain_nothing": "NounLifeProps",
"C101_extraction_without_reset_leaves_answers_refuted": "NounLifeProps",
"C101_features": "NounLifeProps",
"C101_forgets": "NounLifeProps",
"C101_learnt": "NounLifeProps",
"C101_same_answers": "NounLifeProps",
"C101_trainings_add_up_refuted": "NounLifeProps",
"C101_unsettled": "NounLifeProps",
"C102_add_up_refuted": "NounV1LifeProps",
"C102_answers": "NounV1LifeProps",
"C102_determined": "NounV1LifeProps",
"C102_failed_training_refuted": "NounV1LifeProps",
"C102_forgets": "NounV1LifeProps",
"C102_no_trace": "NounV1LifeProps",
"C102_one_shot": "NounV1LifeProps",
"C102_train_extract": "NounV1LifeProps",
"C102_trains": "NounV1LifeProps",
"C102_untrained": "NounV1LifeProps",
"C103_answers": "VecLifeProps",
"C103_atomic_refuted": "VecLifeProps",
"C103_blank_refuted": "VecLifeProps",
"C103_coherent": "VecLifeProps",
"C103_composite": "VecLifeProps",
"C103_ends": "VecLifeProps",
"C103_files": "VecLifeProps",
"C103_fit_transform_refuted": "VecLifeProps",
"C103_iterator_refuted": "VecLifeProps",
"C103_last_fit": "VecLifeProps",
"C103_save_load": "VecLifeProps",
"C103_total": "VecLifeProps",
"C103_vocabulary": "VecLifeProps",
"C10_jamo_least_alignment": "DistanceProps",
"C10_jamo_metric": "DistanceProps",
"C11_cosine_exact": "DistanceProps",
"C11_cosine_properties": "DistanceProps",
"C11_empty_string": "DistanceProps",
"C11_jaccard_exact": "DistanceProps",
"C11_jaccard_properties": "DistanceProps",
"C12_facts": "NormalizerProps",
"C12_only_hangle": "NormalizerProps",
"C12_only_hangle_number": "NormalizerProps",
"C12_only_text": "NormalizerProps",
"C13_hyphen_never_kept": "NormalizerProps",
"C13_normalize_idempotent": "NormalizerProps",
"C13_normalize_keeps_enabled_classes": "NormalizerProps",
"C13_normalize_remove_repeat": "NormalizerProps",
"C13_only_hangul_by_default_refuted": "NormalizerProps",
"C14_every_string_has_runs": "NormalizerProps",
"C14_idempotent": "NormalizerProps",
"C14_no_long_run_remains": "NormalizerProps",
"C14_nonpositive_only_whitespace": "NormalizerProps",
"C14_repeat_normalize_exact": "NormalizerProps",
"C15_emoticon_exact": "NormalizerProps",
"C15_emoticon_rule_is_a_function": "NormalizerProps",
"C15_no_syllable_lost_refuted": "NormalizerProps",
"C15_without_lone_consonants_only_repeats": "NormalizerProps",
"C16_lrgraph_sentence_exact": "NormalizerProps",
"C16_lrgraph_sentence_facts": "NormalizerProps",
"C16_remain_hangle_on_last": "NormalizerProps",
"C17_tokenizer_normalize_exact": "NormalizerProps",
"C17_unchanged_without_jamo_and_repeats": "NormalizerProps",
"C18_hangul_runs": "TokenizerProps",
"C18_text_preserved": "TokenizerProps",
"C19_best_left": "TokenizerProps",
"C19_sentence": "TokenizerProps",
"C20_small_max_length": "TokenizerProps",
"C20_text_preserved": "TokenizerProps",
"C20_tiles": "TokenizerProps",
"C21_any_length_refuted": "TokenizerProps",
"C21_greedy": "TokenizerProps",
"C21_greedy_unique": "TokenizerProps",
"C22_scores": "TokenizerProps",
"C22_short": "TokenizerProps",
"C22_table_score_refuted": "TokenizerProps",
"C23_selection": "TokenizerProps",
"C23_text": "TokenizerProps",
"C23_text_preserved_without_R": "TokenizerProps",
"C23_total_and_preserving_refuted": "TokenizerProps",
"C24_chain_unique": "TokenizerProps",
"C24_greedy_chain": "TokenizerProps",
"C25_composed": "TokenizerProps",
"C25_composed_scores_refuted": "TokenizerProps",
"C25_exact": "TokenizerProps",
"C25_nouns": "TokenizerProps",
"C25_short_dropped": "TokenizerProps",
"C26_counts_positive": "UtilsProps",
"C26_indexes_agree": "UtilsProps",
"C26_no_empty_tables": "UtilsProps",
"C27_add_then_remove": "UtilsProps",
"C27_remove_eojeol": "UtilsProps",
"C27_remove_pair": "UtilsProps",
"C28_add_eojeol": "UtilsProps",
"C28_add_pair": "UtilsProps",
"C29_copy_original": "UtilsProps",
"C29_frozen_not_reset": "UtilsProps",
"C29_reset_restores": "UtilsProps",
"C30_ranking": "UtilsProps",
"C30_stable": "UtilsProps",
"C31_back_to_counter": "UtilsProps",
"C31_counter_of_current_graph": "UtilsProps2",
"C31_counter_of_original_graph": "UtilsProps2",
"C31_ignore_one_syllable_ignored": "UtilsProps",
"C31_to_lrgraph_exact": "UtilsProps",
"C32_save_load": "UtilsProps",
"C33_empty_corpus": "UtilsProps",
"C33_exact_without_filtering": "UtilsProps",
"C33_filtered_counts_a_suffix": "UtilsProps",
"C33_filtered_exact_when_frequent": "UtilsProps",
"C33_filtered_exactness_refuted": "UtilsProps",
"C34_coverage": "UtilsProps",
"C34_uncovered": "UtilsProps2",
"C34_zero_total": "UtilsProps",
"C35_file_order": "UtilsProps",
"C35_save_load": "UtilsProps",
"C36_header_only": "UtilsProps",
"C36_length_agrees": "UtilsProps",
"C36_length_agrees_refuted": "UtilsProps",
"C36_limited": "UtilsProps",
"C36_sentences_clean": "UtilsProps",
"C36_unlimited": "UtilsProps",
"C37_most_similar": "UtilsProps",
"C37_unknown_query": "UtilsProps",
"C38_batches_equal_one_corpus_refuted": "WordProps",
"C38_pruning_forgets_a_prefix": "WordProps",
"C38_raises_iff_empty": "WordProps",
"C38_sentence_order_irrelevant": "WordProps",
"C38_train_exact": "WordProps",
"C39_cohesion_in_unit_interval": "WordProps",
"C39_cohesion_value": "WordProps",
"C39_prefix_suffix_monotone": "WordProps",
"C40_accessor_variety_after_training": "WordProps",
"C40_all_words_agree": "WordProps",
"C40_all_words_agree_everywhere_refuted": "WordProps",
"C40_entropy_bounds": "WordProps",
"C41_extract_exact": "WordProps",
"C41_word_scores": "WordProps",
"C42_checkpoint_boundary_safe": "WordProps",
"C42_checkpoints_forget_a_prefix": "WordProps",
"C42_counts_exact": "WordProps",
"C42_frequency_selection": "WordProps",
"C42_mikolov_selection": "WordProps",
"C42_pmi_selection": "WordProps",
"C42_topk_limits_refuted": "WordProps",
"C42_train_raises_iff": "WordProps",
"C42_unigram_is_number_of_bigrams": "WordProps",
"C43_bow": "VectorizerProps",
"C43_decode_bow": "VectorizerProps",
"C43_decode_encode": "VectorizerProps",
"C43_encode_decode": "VectorizerProps",
"C43_fit_bijection": "VectorizerProps",
"C43_save_load": "VectorizerProps",
"C43_save_load_default": "VectorizerProps",
"C43_set_bijection": "VectorizerProps",
"C43_to_file": "VectorizerProps",
"C43_transform": "VectorizerProps",
"C44_constructor": "VectorizerProps",
"C44_decreasing": "VectorizerProps",
"C44_fit_defined": "VectorizerProps",
"C44_membership": "VectorizerProps",
"C44_stopwords_ignored": "VectorizerProps",
"C44_term_frequency_refuted": "VectorizerProps",
"C44_vocabulary_exact": "VectorizerProps",
"C45_cooccurrence": "VectorizerProps",
"C45_defined": "VectorizerProps",
"C45_places": "VectorizerProps",
"C45_raises": "RaiseProps",
"C45_shape": "VectorizerProps",
"C45_shape_refuted": "VectorizerProps",
"C45_symmetric": "VectorizerProps",
"C45_vocabulary": "VectorizerProps",
"C47_errors": "TaggerProps",
"C47_get_pos_and_max_length": "TaggerProps",
"C47_history": "TaggerProps",
"C47_new": "TaggerProps",
"C47_remove_list": "RaiseProps",
"C47_save_load": "TaggerProps",
"C47_shared_set_refuted": "TaggerProps",
"C48_candidates": "TaggerProps",
"C48_one_syllable_refuted": "TaggerProps",
"C48_order": "TaggerProps",
"C49_default_score": "TaggerProps",
"C49_disjoint": "TaggerProps",
"C49_greedy": "TaggerProps",
"C49_is_verb_refuted": "TaggerProps",
"C49_order": "TaggerProps",
"C49_text_order_refuted": "TaggerProps",
"C50_best": "TaggerProps",
"C50_candidates": "TaggerProps",
"C50_candidates_tile": "TaggerProps",
"C50_compound_scores": "TaggerProps",
"C50_default_scores": "TaggerProps",
"C50_known_noun": "TaggerProps",
"C50_tags_known": "TaggerProps",
"C50_text_preserved": "TaggerProps",
"C50_three_nouns_refuted": "TaggerProps",
"C51_bounds": "NounProps",
"C51_predict_exact": "NounProps",
"C51_roles": "NounProps",
"C52_NJ": "NounProps",
"C52_detaching": "NounProps",
"C52_ignore_features": "NounProps",
"C53_chat": "LemmaProps",
"C53_chat_refuted": "LemmaProps",
"C53_conjugate_exact": "LemmaProps",
"C53_conjugate_junction": "LemmaProps",
"C53_conjugate_total": "LemmaProps",
"C53_errors": "LemmaProps",
"C53_harmony": "LemmaProps",
"C53_harmony_consonant": "LemmaProps",
"C53_other_consonants": "LemmaProps",
"C53_stem_forms": "LemmaProps",
"C53_stem_forms_refuted": "LemmaProps",
"C54_candidates_exact": "LemmaProps",
"C54_candidates_method_refuted": "LemmaProps",
"C54_candidates_sound": "LemmaProps",
"C54_chat_exact": "LemmaProps",
"C54_errors": "LemmaProps",
"C54_lemmatize_exact": "LemmaProps",
"C54_lemmatize_table": "LemmaProps2",
"C54_table_words": "LemmaProps2",
"C54_table_words_raise": "LemmaProps2",
"C54_word_keys_unused": "LemmaProps",
"C55_found_is_returned": "LemmaProps",
"C55_round_trip": "LemmaProps",
"C55_round_trip_refuted": "LemmaProps",
"C55_round_trip_regular": "LemmaProps",
"C57_bounds": "PredProps",
"C57_extract": "PredProps",
"C57_predict_exact": "PredProps",
"C57_result_bounds": "PredProps",
"C57_roles": "PredProps",
"C57_scores_unique": "PredProps",
"C57_stem_forms": "PredProps",
"C58_disjoint": "PredProps3",
"C58_partition": "PredProps3",
"C58_separation": "PredProps3",
"C59_hangle_normalize_exact": "NormalizerProps",
"C59_hangle_normalize_repeats": "NormalizerProps",
"C60_idempotent": "UtilsProps",
"C60_order": "UtilsProps",
"C60_sorted_lines": "UtilsProps",
"C61_both_given": "RaiseProps",
"C61_both_given_raises": "RaiseProps",
"C61_constructor_errors": "UtilsProps",
"C61_from_sentences": "UtilsProps",
"C61_plain_counts_refuted": "UtilsProps",
"C62_marginals": "PmiProps",
"C62_memory_friendly_refuted": "PmiProps",
"C62_symmetric": "PmiProps",
"C62_threshold": "PmiProps",
"C62_values": "PmiProps",
"C63_eojeol_dropped": "TaggerProps",
"C63_postprocess_tiles": "TaggerProps",
"C63_text_preserved": "TaggerProps",
"C63_text_preserved_refuted": "TaggerProps",
"C64_append": "NounProps2",
"C64_common_disjoint_refuted": "NounProps2",
"C64_load": "NounProps2",
"C64_pos_neg_disjoint": "NounProps2",
"C64_postprocessing_option": "NounProps2",
"C65_order_independent": "NounProps2",
"C65_prediction": "NounProps2",
"C66_compound_frequency_refuted": "NounProps3",
"C66_compounds_filtered": "NounProps3",
"C66_extract": "NounProps3",
"C66_pos_feature_option": "NounProps3",
"C66_repeatable": "NounProps3",
"C66_repeatable_without_reset_refuted": "NounProps3",
"C67_bounds": "NounProps3",
"C67_coverage": "NounProps3",
"C68_blank": "RaiseProps",
"C68_compounds": "NounProps3",
"C68_decompose": "NounProps3",
"C68_decompose_exact": "NounProps3",
"C68_decompose_short": "NounProps3",
"C69_bounds": "PredProps2",
"C69_extract": "PredProps2",
"C69_frequency_first_refuted": "PredProps2",
"C69_known_endings_refuted": "PredProps2",
"C69_predict_exact": "PredProps2",
"C69_roles": "PredProps2",
"C69_tables": "PredProps2",
"C70_bounds": "JosaProps",
"C70_exact": "JosaProps",
"C70_noun_josa_refuted": "JosaProps",
"C70_order": "JosaProps",
"C70_unique": "JosaProps",
"C71_candidates": "PredProps3",
"C71_empty_analysis_refuted": "PredProps3",
"C71_extract": "PredProps3",
"C71_given_candidates_refuted": "PredProps3",
"C71_minimum_refuted": "PredProps3",
"C71_order_refuted": "PredProps3",
"C71_right_analysis_refuted": "PredProps3",
"C71_sound": "PredProps3",
"C71_table": "PredProps3",
"C72_construction": "PredProps4",
"C72_construction_refuted": "PredProps4",
"C72_dictionary": "PredProps4",
"C72_dictionary_raises": "RaiseProps",
"C72_learn": "PredProps4",
"C72_learn_nothing": "PredProps4",
"C72_minimum_one_refuted": "PredProps4",
"C72_train_counter": "PredProps4",
"C72_train_sentences": "PredProps4",
"C73_all_lines_refuted": "NounV1Props",
"C73_defined": "NounV1Props",
"C73_graph": "NounV1Props",
"C73_load": "NounV1Props",
"C73_right_limit_refuted": "NounV1Props",
"C73_whitespace_refuted": "NounV1Props",
"C73_words": "NounV1Props",
"C74_bounds": "NounV1Props",
"C74_compound_refuted": "NounV1Props",
"C74_determined": "NounV1Props",
"C74_extract": "NounV1Props",
"C74_frequency_refuted": "NounV1Props",
"C74_is_noun": "NounV1Props",
"C74_predict": "NounV1Props",
"C75_base_dictionary_refuted": "NewsProps",
"C75_bounds": "NewsProps",
"C75_init": "NewsProps",
"C75_predict": "NewsProps",
"C75_train": "NewsProps",
"C76_accumulates": "NewsProps",
"C76_determined": "NewsProps",
"C76_extract": "NewsProps",
"C76_feature_proportion_refuted": "NewsProps",
"C76_fresh_refuted": "NewsProps",
"C76_total_refuted": "NewsProps",
"C76_verb_split_refuted": "NewsProps",
"C77_load": "PosProps",
"C77_stem_to_adverb": "PosProps",
"C78_nouns": "PosProps",
"C78_predicators": "PosProps",
"C78_rest": "PosProps",
"C79_disjoint": "PosProps",
"C79_dropped_refuted": "PosProps",
"C79_noun_count_refuted": "PosProps",
"C79_repeat_refuted": "PosProps",
"C79_seam_raises": "RaiseProps",
"C79_stems": "PosProps",
"C79_total": "PosProps",
"C79_total_refuted": "PosProps",
"C80_dictionaries": "LRTokProps",
"C80_output": "LRTokProps",
"C80_selection": "LRTokProps",
"C80_selection_total": "LRTokProps",
"C80_sentence": "LRTokProps",
"C81_default_refuted": "BuilderProps",
"C81_fails": "BuilderProps",
"C81_graph": "BuilderProps",
"C81_vocabulary": "BuilderProps",
"C82_file": "BuilderProps2",
"C82_header": "BuilderProps",
"C82_save_load": "BuilderProps",
"C82_verbose_refuted": "BuilderProps",
"C82_vocabulary_refuted": "BuilderProps",
"C83_hits": "BuilderProps",
"C83_hits_trained": "BuilderProps",
"C83_pos_extractor": "BuilderProps",
"C84_counts": "PosTrainProps",
"C84_empty": "PosTrainProps",
"C84_ensure_normalized_refuted": "PosTrainProps",
"C84_noun_count_refuted": "PosTrainProps",
"C84_predicators": "PosTrainProps",
"C84_train": "PosTrainProps",
"C84_train_extract": "PosTrainProps",
"C84_trained": "PosTrainProps",
"C85_detected_refuted": "CrashProps",
"C85_failed_load": "CrashProps",
"C85_interrupted_save": "CrashProps",
"C85_load_atomic_refuted": "CrashProps",
"C85_no_invention": "CrashProps",
"C86_failed_load": "CrashProps2",
"C86_interrupted_save": "CrashProps2",
"C86_no_invention": "CrashProps2",
"C86_no_new_pair_refuted": "CrashProps2",
"C86_reset_after_failed_load_refuted": "CrashProps2",
"C87_interrupted_sort": "CrashProps3",
"C87_lines_kept": "CrashProps3",
"C87_nothing_lost_refuted": "CrashProps3",
"C88_indices_refuted": "CrashProps3",
"C88_interrupted_save": "CrashProps3",
"C89_argument_untouched_refuted": "AliasProps",
"C89_callers_write": "AliasProps",
"C89_copied": "AliasProps",
"C89_object": "AliasProps",
"C89_reset_restores": "AliasProps",
"C89_rows_shared": "AliasProps",
"C89_shared": "AliasProps",
"C89_views_agree_refuted": "AliasProps",
"C90_given_candidates_refuted": "VerboseProps",
"C90_given_counts": "VerboseProps",
"C90_messages_only_refuted": "VerboseProps",
"C90_nouns": "VerboseProps",
"C90_pos": "VerboseProps",
"C90_predicators": "VerboseProps",
"C91_hexadecimal": "JsonProps2",
"C91_load": "JsonProps",
"C91_loaded_words": "JsonProps2",
"C91_max_length_refuted": "JsonProps",
"C91_numerals": "JsonProps2",
"C91_reader": "JsonProps",
"C91_reader_deterministic": "JsonProps",
"C91_roundtrip": "JsonProps",
"C91_single_word_refuted": "JsonProps",
"C91_surrogates": "JsonProps2",
"C91_surrogates_unique": "JsonProps2",
"C91_text": "JsonProps",
"C92_failed_load": "JsonProps",
"C92_failed_load_atomic_refuted": "JsonProps",
"C92_interrupted_save": "JsonProps",
"C93_after_extract_refuted": "ShareProps",
"C93_counter_sum": "ShareProps",
"C93_counter_table": "ShareProps",
"C93_coverage": "ShareProps",
"C93_coverage_falls_refuted": "ShareProps",
"C93_extract": "ShareProps",
"C93_foreign": "ShareProps",
"C93_new": "ShareProps",
"C93_sets": "ShareProps",
"C93_sets_grow": "ShareProps",
"C93_shared_counter_refuted": "ShareProps",
"C93_shared_set_refuted": "ShareProps",
"C93_train": "ShareProps",
"C93_train_sum": "ShareProps",
"C94_lr_debug": "TagModeProps",
"C94_lr_modes": "TagModeProps",
"C94_simple_debug": "TagModeProps",
"C94_simple_modes": "TagModeProps",
"C94_words_shown": "TagModeProps",
"C95_agree": "TagShareProps",
"C95_frame": "TagShareProps",
"C95_max_length": "TagShareProps",
"C95_max_length_refuted": "TagShareProps",
"C95_new": "TagShareProps",
"C95_outcomes": "TagShareProps",
"C95_same_set_refuted": "TagShareProps",
"C95_step": "TagShareProps",
"C96_blank_lines": "BuilderCrashProps",
"C96_detected_refuted": "BuilderCrashProps",
"C96_interrupted": "BuilderCrashProps",
"C96_no_invention": "BuilderCrashProps",
"C97_again_afresh": "WordSaveProps",
"C97_again_cumulated": "WordSaveProps",
"C97_again_refuted": "WordSaveProps",
"C97_completed": "WordSaveProps",
"C97_failed": "WordSaveProps",
"C97_failed_neighbours": "WordSaveProps",
"C97_minimum_frequency_refuted": "WordSaveProps",
"C97_outcome": "WordSaveProps",
"C98_failed_save": "WordSaveProps",
"C98_good_histories": "WordSaveProps",
"C98_missing_key": "WordSaveProps",
"C98_old_file_survives_refuted": "WordSaveProps",
"C98_save_load": "WordSaveProps",
"C98_when_save_works": "WordSaveProps",
"C99_agree": "TokShareProps",
"C99_answers": "TokShareProps",
"C99_empty_refuted": "TokShareProps",
"C99_frame": "TokShareProps",
"C99_live": "TokShareProps",
"C99_lr_fixed": "TokShareProps",
"C99_outcomes": "TokShareProps",
"C99_preference_refuted": "TokShareProps",
"Forall2_imp": "LRTokProps",
"Forall_firstn'": "BuilderCrashProps",
"Rsum_cons": "PmiProps",
"Rsum_group": "PmiProps",
"Rsum_nonneg": "PmiProps",
"Rsum_nth_nonneg": "PmiProps",
"Rsum_one": "PmiProps",
"Rsum_pos": "PmiProps",
"Rsum_scale": "PmiProps",
"Rsum_zero": "PmiProps",
"add_preferred_get": "LRTokProps",
"add_word_In": "BuilderProps",
"after_nil": "NewsProps",
"alone_le": "NewsProps",
"analyses": "PosTrainProps",
"announce_false": "VerboseProps",
"announce_true": "VerboseProps",
"as_set_iff": "JsonProps",
"av_lengths": "WordProps",
"b_le_total": "BuilderProps2",
"b_le_trans": "BuilderProps2",
"base_rows_ok": "LRCallProps",
"base_rows_plain": "LRCallProps",
"base_strip": "LRCallProps",
"blank_row": "BuilderCrashProps",
"born_app": "TokShareProps",
"calls_app": "WordSaveProps",
"clean_ok": "PredProps3",
"col_pos": "PmiProps",
"combine_app": "CrashProps3",
"conjugatable_as_pair": "LemmaProps2",
"contains_noun_spec": "PredProps4",
"contents_frame": "TokShareProps",
"contents_in_range": "TokShareProps",
"corpus_counts": "NounLifeProps",
"counted_any": "VerboseProps",
"debug_le_iff": "TagModeProps",
"debug_total": "TagModeProps",
"debug_trans": "TagModeProps",
"default_NoDup": "LemmaProps2",
"dict_of_last": "UtilsProps2",
"dset_cases": "CrashProps2",
"empty_history": "AliasProps",
"empty_read": "AliasProps",
"enumerate_app": "CrashProps3",
"every_piece": "BuilderCrashProps",
"ex_callers": "AliasProps",
"ex_trained": "PosProps",
"ex_usable": "PosTrainProps",
"ex_write": "AliasProps",
"exp_In": "PmiProps",
"expected_contents": "TokShareProps",
"expected_live": "TokShareProps",
"extract_outcome": "ShareProps",
"extract_z_eq": "NounV1Props",
"file_stays": "WordSaveProps",
"filter_all": "LRCallProps",
"filter_none": "LRCallProps",
"first_column": "NewsProps",
"first_word_cases": "PosProps",
"first_word_split": "PosProps",
"first_word_strip": "PosProps",
"flat_triples": "UtilsProps2",
"fmap_app": "LRCallProps",
"fold_dset_get": "LRTokProps",
"fold_total": "BuilderProps2",
"foreign_run": "ShareProps",
"foreign_step": "ShareProps",
"fs_le": "NewsProps",
"good_valid": "NounLifeProps",
"good_weaken": "NounLifeProps",
"history_ok": "NounLifeProps",
"history_snoc": "NounLifeProps",
"insert_filter": "LRCallProps",
"insert_map": "LRCallProps",
"inter_rows_ok": "LRCallProps",
"inter_strip": "LRCallProps",
"is_training": "NounLifeProps",
"josa_extract_q_eq": "JosaProps",
"jx_ok": "JosaProps",
"keyed_firstn": "BuilderCrashProps",
"kind_nl": "BuilderCrashProps",
"last_in": "NounLifeProps",
"last_map": "LRCallProps",
"last_snoc": "NounLifeProps",
"len_filter": "NewsProps",
"load_params": "JsonProps",
"loads_ok": "CrashProps2",
"lr_complete": "BuilderCrashProps",
"lr_one": "TagModeProps",
"lr_scored": "TagModeProps",
"mapM_map_res": "TagModeProps",
"mapM_sets": "JsonProps",
"mark_nl": "BuilderCrashProps",
"matrix_unfold": "VectorizerProps",
"mean_bounds": "NewsProps",
"mixed_fold": "WordSaveProps",
"new_good": "TaggerProps",
"nil_dec": "BuilderProps",
"no_checkpoint": "NounLifeProps",
"nodupb_sound": "PosProps",
"nthR_diag": "PmiProps",
"nthR_zrange": "PmiProps",
"nth_dget": "VectorizerProps",
"occurs_clean": "BuilderProps",
"one_line": "BuilderCrashProps",
"ones_get": "LRTokProps",
"ones_wf": "LRTokProps",
"opt_str_eqb_spec": "TaggerProps",
"out_zero": "VectorizerProps",
"pair_row": "BuilderCrashProps",
"pairs_firstn": "BuilderCrashProps",
"params_ok": "JsonProps",
"pkey_eqb_spec": "LemmaProps2",
"pos_of_tags": "TagShareProps",
"post_strip": "LRCallProps",
"pred_set_In": "LemmaProps2",
"pred_set_NoDup": "LemmaProps2",
"pred_set_keys": "LemmaProps2",
"predict_bounds": "NounProps",
"pref_get_spec": "TaggerProps",
"py_nonneg": "PmiProps",
"qdiv_range": "NounProps",
"r_le_total": "LRCallProps",
"r_le_trans": "LRCallProps",
"ratio_01": "NewsProps",
"read_listed": "NounProps2",
"row_pos": "PmiProps",
"rows_form": "BuilderCrashProps",
"rows_ok_nl": "BuilderCrashProps",
"rows_strip": "LRCallProps",
"run_all_app": "NounLifeProps",
"run_first": "WordSaveProps",
"run_missing": "WordSaveProps",
"sP_reachable": "ShareProps",
"save_keys": "JsonProps",
"saved_holds": "BuilderProps",
"settled_snoc": "NounLifeProps",
"smooth_nonneg": "PmiProps",
"sort_by_frequency": "BuilderProps2",
"sort_filter": "LRCallProps",
"sort_map": "LRCallProps",
"sort_words_id": "LRCallProps",
"spaces_split": "PosProps",
"split_snoc": "BuilderProps",
"split_spaces": "RaiseProps",
"split_strip": "BuilderProps",
"stem_extract_q_eq": "PredProps2",
"stem_predict_q_eq": "PredProps2",
"step_exists": "TagShareProps",
"strip_line": "CrashProps3",
"strip_nonspace_head": "CrashProps3",
"strip_word": "LRCallProps",
"strip_words": "LRCallProps",
"sx_ME": "PredProps2",
"sx_facts": "PredProps2",
"sx_ok": "PredProps2",
"sym_sum": "PmiProps",
"table_empty": "VerboseProps",
"table_sum_pos": "VerboseProps",
"taint_kind": "WordSaveProps",
"torn_below": "BuilderCrashProps",
"torn_first": "BuilderCrashProps",
"torn_kind": "BuilderCrashProps",
"torn_lr": "BuilderCrashProps",
"torn_middle": "BuilderCrashProps",
"torn_rl": "BuilderCrashProps",
"torn_small": "BuilderCrashProps",
"total_perm": "BuilderProps2",
"total_pos": "PmiProps",
"train_bad": "NounLifeProps",
"train_cases": "BuilderProps",
"train_ok": "BuilderProps",
"trained_clean": "BuilderProps",
"trained_rows": "BuilderCrashProps",
"update_spec": "LemmaProps2",
"updated_pairs": "LemmaProps2",
"vl_eq": "NounV1LifeProps",
"vx_train": "NounV1Props",
"word_cut": "PosProps",
"word_has_total": "LRCallProps",
"written_app": "BuilderCrashProps",
"wrun_inv": "TagShareProps",
"wrun_snoc": "TagShareProps",
"wstep_inv": "TagShareProps",
"x_failed_extractor": "WordSaveProps",
"x_new_extractor": "WordSaveProps",
"zrange_In": "PmiProps",
"zrange_NoDup": "PmiProps",
"zsum_pos": "VerboseProps"
}
}