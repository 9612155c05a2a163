{
 "claims": [
  {
   "property": "C01",
   "status": "proved",
   "theorems": [
    "C01_best_cost_is_minimum"
   ],
   "note": "Hypothesis/reference word alignment (the default mode of the graph)."
  },
  {
   "property": "C02",
   "status": "proved",
   "theorems": [
    "C02_retrieved_attains_cost"
   ],
   "note": "Holds with and without pruning."
  },
  {
   "property": "C03",
   "status": "proved",
   "theorems": [
    "C03_no_word_lost"
   ],
   "note": ""
  },
  {
   "property": "C04",
   "status": "proved",
   "theorems": [
    "C04_no_dead_end",
    "C04_fill_terminates"
   ],
   "note": ""
  },
  {
   "property": "C05",
   "status": "proved",
   "theorems": [
    "C05_addressing_injective",
    "C05_addressing_in_bounds"
   ],
   "note": ""
  },
  {
   "property": "C06",
   "status": "proved",
   "theorems": [
    "C06_store_faithful",
    "C06_count"
   ],
   "note": ""
  },
  {
   "property": "C07",
   "status": "proved",
   "theorems": [
    "C07_block_addressing",
    "C07_compressed_equals_plain",
    "C07_total",
    "C07_compressed_search"
   ],
   "note": "The byte compressor is a parameter, assumed lossless."
  },
  {
   "property": "C08",
   "status": "proved",
   "theorems": [
    "C08_memory_drift",
    "C08_memory_accounting_refuted"
   ],
   "note": "The figure drifts: C08_memory_accounting_refuted shows it is not the bytes held, C08_memory_drift gives the exact relation."
  },
  {
   "property": "C09",
   "status": "proved",
   "theorems": [
    "C09_gc_terminates_refuted",
    "C09_gc_terminates"
   ],
   "note": "Unconditional termination is false (C09_gc_terminates_refuted); it holds when every block shrinks."
  },
  {
   "property": "C10",
   "status": "proved",
   "theorems": [
    "C10_edit_distance_minimal",
    "C10_empty_side",
    "C10_edit_distance_refuted"
   ],
   "note": "Non-empty texts; C10_edit_distance_refuted: an empty text gives 0."
  },
  {
   "property": "C11",
   "status": "proved",
   "theorems": [
    "C11_equivalence_meaning",
    "C11_equivalence_symmetric",
    "C11_equivalence_reflexive",
    "C11_common_beginning_refuted"
   ],
   "note": "C11_common_beginning_refuted: two beginnings match although neither begins with the other."
  },
  {
   "property": "C12",
   "status": "proved",
   "theorems": [
    "C12_overlap_exact",
    "C12_overlap_symmetric"
   ],
   "note": ""
  },
  {
   "property": "C13",
   "status": "proved",
   "theorems": [
    "C13_divider_is_largest_power",
    "C13_unknown_times",
    "C13_divider_terminates_refuted"
   ],
   "note": "C13_divider_terminates_refuted: [0,0] never ends (int overflow)."
  },
  {
   "property": "C14",
   "status": "proved",
   "theorems": [
    "C14_references",
    "C14_hypotheses",
    "C14_twice",
    "C14_report",
    "C14_exact_file_refuted",
    "C14_report_refuted"
   ],
   "note": "The filter keeps exactly the covered segments in order, and is idempotent. File names are matched by prefix and segments sharing a border are dropped without a report (C14_exact_file_refuted, C14_report_refuted)."
  },
  {
   "property": "C15",
   "status": "proved",
   "theorems": [
    "C15_groups",
    "C15_overlap_together",
    "C15_hypotheses",
    "C15_all_systems",
    "C15_second_system_refuted",
    "C15_hypothesis_lost_refuted",
    "C15_lost_refuted"
   ],
   "note": "Also for the iteration over all systems at once. Requires segments of positive length, in time order within each speech. Refuted: preparing the segmenter a second time for the same references, hypothesis segments between groups, zero-length or unordered reference segments."
  },
  {
   "property": "C16",
   "status": "proved",
   "theorems": [
    "C16_lookup",
    "C16_file",
    "C16_separator_refuted",
    "C16_long_line_refuted"
   ],
   "note": "Names of files and channels without the separator; loading a file of six-column rows included. A separator in a name makes entries collide and a seventh column is written behind an array: refuted theorems."
  },
  {
   "property": "C17",
   "status": "proved",
   "theorems": [
    "C17_value",
    "C17_initialised",
    "C17_changed",
    "C17_speech_set",
    "C17_two_readers_refuted",
    "C17_optional_reference_refuted"
   ],
   "note": "Value of every key after every history of settings, initialisations and reads; the change flag; what a speech set answers from its cached settings. That a later setting reaches every speech set, and that a reference set honours \"ref\" for optional words, is refuted."
  },
  {
   "property": "C18",
   "status": "proved",
   "theorems": [
    "C18_scored",
    "C18_one_class",
    "C18_both_refuted",
    "C18_two_systems_refuted"
   ],
   "note": "C18_scored for any list of systems and any record complete for them; C18_one_class: exactly one result. Findings: 'both' forgives only reference words (C18_both_refuted); with two systems an inserted word makes the scorer use a null pointer (C18_two_systems_refuted)."
  },
  {
   "property": "C19",
   "status": "proved",
   "theorems": [
    "C19_counters",
    "C19_totals",
    "C19_end_to_end",
    "C19_reports",
    "C19_second_system_refuted",
    "C19_reference_words_refuted"
   ],
   "note": "C19_counters, C19_totals; C19_end_to_end composes alignment record, scoring and counting from the alignments of one system; C19_reports states the accumulation over systems exactly. Findings: C19_second_system_refuted, C19_reference_words_refuted."
  },
  {
   "property": "C20",
   "status": "proved",
   "theorems": [
    "C20_words_of_a_line",
    "C20_paths_spell_the_transcript",
    "C20_paths_spell_the_timed_transcript",
    "C20_skippable",
    "C20_unbalanced_loops_refuted",
    "C20_unclosed_group_refuted",
    "C20_slash_word_refuted",
    "C20_two_empty_words_refuted",
    "C20_optional_sequence_refuted"
   ],
   "note": "The _refuted theorems show what happens outside the stated syntax: endless recursion on \"} {\", dropped unclosed groups, \"/\" as a word, lost readings."
  },
  {
   "property": "C21",
   "status": "proved",
   "theorems": [
    "C21_mean",
    "C21_median",
    "C21_variance",
    "C21_order",
    "C21_deviation_refuted"
   ],
   "note": "Exact rationals instead of doubles; the square root and the column width are not modelled. C21_deviation_refuted: one value gives 0/0."
  },
  {
   "property": "C22",
   "status": "proved",
   "theorems": [
    "C22_after_a_predecessor",
    "C22_topological_without_joins",
    "C22_chain_in_order",
    "C22_topological_refuted"
   ],
   "note": "C22_topological_refuted: a plain topological order does not hold after an alternation."
  },
  {
   "property": "C23",
   "status": "proved",
   "theorems": [
    "C23_every_token",
    "C23_exactly_once",
    "C23_exactly_once_refuted",
    "C23_optional_end_refuted"
   ],
   "note": "Refuted for optional beginnings (a token twice) and optional ends (a token missing)."
  },
  {
   "property": "C24",
   "status": "proved",
   "theorems": [
    "C24_links_stay_mutual",
    "C24_link_exact",
    "C24_unlink_total",
    "C24_replace_exact",
    "C24_attach_exact",
    "C24_remove_segment_joins",
    "C24_remove_segment_joins_all_refuted"
   ],
   "note": "C24_remove_segment_joins_all_refuted: RemoveSegment re-links only one of several preceding tokens."
  },
  {
   "property": "C25",
   "status": "proved",
   "theorems": [
    "C25_cost_is_the_minimum",
    "C25_words_aligned_at_least_cost"
   ],
   "note": "Distances are exact integers in thousandths; the bound on them keeps the cost under the starting value 999999.9 of the minimum."
  },
  {
   "property": "C26",
   "status": "proved",
   "theorems": [
    "C26_path_is_a_cheapest_alignment",
    "C26_sides_of_the_path",
    "C26_large_distances_lose_the_path_refuted",
    "C26_aligning_again_refuted"
   ],
   "note": "Refuted: a cost of 999999.9 or more gives an empty path, and the networks cannot be aligned a second time."
  },
  {
   "property": "C27",
   "status": "proved",
   "theorems": [
    "C27_distance",
    "C27_deletion_and_insertion",
    "C27_cost_structure",
    "C27_symmetric",
    "C27_without_restrictions_refuted"
   ],
   "note": "Refuted without the restrictions: two null alternatives cost 1 although equal; two different optional words cost as much as deleting and inserting them."
  },
  {
   "property": "C28",
   "status": "proved",
   "theorems": [
    "C28_verdict",
    "C28_verdict_is_symmetric",
    "C28_symmetric_for_fragments_refuted",
    "C28_copies_compare_alike_refuted",
    "C28_optional_words",
    "C28_copies",
    "C28_copy_keeps_the_text_refuted"
   ],
   "note": "Refuted: two fragments (\"-b\" and \"-ab\") are equal in one order only; a copy of an optional word loses the text it is compared by; each copy of a text ending in several stars loses one."
  },
  {
   "property": "C29",
   "status": "proved",
   "theorems": [
    "C29_lists_are_sequences",
    "C29_with_enough_memory",
    "C29_no_leak",
    "C29_copy_over_a_list_refuted",
    "C29_copy_reports_failure_refuted"
   ],
   "note": "malloc is an arbitrary function that may fail at any call and returns only unused addresses. Refuted: copying over a non-empty list (or a list over itself) loses its nodes; a copy that runs out of memory is not reported."
  },
  {
   "property": "C30",
   "status": "proved",
   "theorems": [
    "C30_mean_ranks",
    "C30_mean_ranks_int",
    "C30_ranks"
   ],
   "note": "The library qsort is any function that meets its contract. Values are exact numbers."
  },
  {
   "property": "C31",
   "status": "proved",
   "theorems": [
    "C31_double_sort",
    "C31_int_sort",
    "C31_int_overflow_refuted",
    "C31_string_sort",
    "C31_string_index_sort"
   ],
   "note": "The library qsort is any function that meets its contract. Refuted: the integer comparison subtracts and overflows, so 2000000000 can be sorted before -2000000000."
  },
  {
   "property": "C32",
   "status": "proved",
   "theorems": [
    "C32_probability",
    "C32_names_the_better_average",
    "C32_swap",
    "C32_more_speakers_refuted",
    "C32_swap_with_equal_totals_refuted",
    "C32_many_speakers_refuted"
   ],
   "note": "Refuted: the system better on more speakers is not always the one named; with equal totals the verdict follows the argument order; above 20 speakers every uneven split is reported significant (the normal approximation halves the count)."
  },
  {
   "property": "C33",
   "status": "proved",
   "theorems": [
    "C33_rank_sums",
    "C33_verdict",
    "C33_swap",
    "C33_rank_sums_refuted",
    "C33_many_speakers_refuted"
   ],
   "note": "Refuted: the system named is not always the one favoured by the rank sums (it can be the worse one); from 1024 speakers on the variance overflows and a difference is never reported."
  },
  {
   "property": "C34",
   "status": "proved",
   "theorems": [
    "C34_number_of_ways",
    "C34_exact",
    "C34_probability",
    "C34_monotone",
    "C34_all_successes",
    "C34_all_successes_refuted",
    "C34_approximation_refuted",
    "C34_beyond_n_refuted",
    "C34_table_entry"
   ],
   "note": "Refuted: for n p (1-p) > 5 the value at n successes is about 1/2 and the approximation is far from the tail; more than n successes give values above 1. Exact rational arithmetic instead of floating point."
  },
  {
   "property": "C35",
   "status": "proved",
   "theorems": [
    "C35_every_error_once",
    "C35_swap",
    "C35_all_sentences",
    "C35_statistic",
    "C35_statistic_swap",
    "C35_constant_difference_refuted",
    "C35_no_errors_refuted"
   ],
   "note": "Refuted: a constant difference in every segment is never reported; when no compared sentence has an error the statistic reads outside an array."
  },
  {
   "property": "C36",
   "status": "proved",
   "theorems": [
    "C36_table",
    "C36_verdict",
    "C36_swap",
    "C36_many_sentences_refuted"
   ],
   "note": "Refuted: with more than 20 uneven sentences every uneven split is reported as significant (normal approximation with the wrong variance)."
  },
  {
   "property": "C37",
   "status": "proved",
   "theorems": [
    "C37_groups",
    "C37_counters_add_up"
   ],
   "note": ""
  },
  {
   "property": "C38",
   "status": "proved",
   "theorems": [
    "C38_runs_sorted",
    "C38_permutation",
    "C38_whole_path_refuted"
   ],
   "note": "Refuted: correct and substituted pairs do not move, so the path as a whole need not be in time order."
  },
  {
   "property": "C39",
   "status": "proved",
   "theorems": [
    "C39_decoder",
    "C39_encoder",
    "C39_round_trip",
    "C39_encoder_accepts_every_code_point_refuted",
    "C39_encoder_refuses_from_plane_2"
   ],
   "note": "Refuted: the encoder exits for every code point from 0x20000 on, although such code points have four-byte encodings the decoder understands."
  },
  {
   "property": "C40",
   "status": "proved",
   "theorems": [
    "C40_comparison_is_a_total_order",
    "C40_limited_comparison",
    "C40_comparing_no_character_refuted"
   ],
   "note": "Without case folding. Refuted: a limit of zero characters still compares the first one (do-while)."
  },
  {
   "property": "C41",
   "status": "proved",
   "theorems": [
    "C41_escape_round_trip",
    "C41_word_round_trip",
    "C41_backslash_refuted",
    "C41_empty_word_refuted"
   ],
   "note": "Refuted: backslashes are not escaped and get lost; an empty word with tags reads the byte before its buffer."
  },
  {
   "property": "C42",
   "status": "proved",
   "theorems": [
    "C42_line_reader",
    "C42_reading_a_file",
    "C42_null_byte_refuted"
   ],
   "note": "Refuted: a line starting with a null byte reads the byte before the buffer."
  },
  {
   "property": "C43",
   "status": "proved",
   "theorems": [
    "C43_next_token",
    "C43_all_tokens",
    "C43_next_alternative",
    "C43_buffer_of_the_stated_length_refuted",
    "C43_text_is_dropped_refuted"
   ],
   "note": "Refuted: a buffer of exactly the stated length (as both callers pass) is overrun by one byte by a token of that length; a token that does not fit loses its beginning and an unclosed group is dropped."
  },
  {
   "property": "C44",
   "status": "proved",
   "theorems": [
    "C44_vote",
    "C44_always_a_winner",
    "C44_majority",
    "C44_oracle",
    "C44_zero_confidences_refuted",
    "C44_no_confidences_refuted"
   ],
   "note": "Doubles as exact rationals with NaN and infinities for divisions by zero. C44_zero_confidences_refuted and C44_no_confidences_refuted: the program stops without a winner."
  },
  {
   "property": "C45",
   "status": "proved",
   "theorems": [
    "C45_filter",
    "C45_index",
    "C45_terminates",
    "C45_left_edge_refuted"
   ],
   "note": "apply_rules2 and the index of get_rules2 for the format NIST1; the left edge is refuted"
  },
  {
   "property": "C46",
   "status": "proved",
   "theorems": [
    "C46_center",
    "C46_blanks",
    "C46_half_width",
    "C46_middle_refuted",
    "C46_copy_pad",
    "C46_columns"
   ],
   "note": "C46_middle_refuted: set_pad gives one blank fewer than half the free width, so the text after it is not in the middle."
  },
  {
   "property": "C47",
   "status": "proved",
   "theorems": [
    "C47_entries"
   ],
   "note": ""
  },
  {
   "property": "C48",
   "status": "proved",
   "theorems": [
    "C48_even_times",
    "C48_reaches_the_end_refuted",
    "C48_groups_refuted"
   ],
   "note": "Refuted: the last word need not end with the segment, and words in a group are given the whole time of the segment."
  },
  {
   "property": "C49",
   "status": "proved",
   "theorems": [
    "C49_decision",
    "C49_groups",
    "C49_duration",
    "C49_empty_hypothesis_refuted",
    "C49_overflow_refuted"
   ],
   "note": "recording.cpp decision tests and segmentsgroup.cpp counts; 64 bit overflow and the duration with an empty hypothesis are refuted"
  },
  {
   "property": "C50",
   "status": "proved",
   "theorems": [
    "C50_table",
    "C50_segment",
    "C50_reference_key_refuted",
    "C50_print_refuted"
   ],
   "note": "Rows and the table of rows of an aligned segment, for every history. A system called REFERENCE, and printing after asking for an unknown system: refuted theorems."
  },
  {
   "property": "C51",
   "status": "proved",
   "theorems": [
    "C51_linear_networks_are_word_lists",
    "C51_additions_at_the_ends"
   ],
   "note": "Also for additions at the ends of any well-formed network."
  },
  {
   "property": "C52",
   "status": "proved",
   "theorems": [
    "C52_pruning_exact"
   ],
   "note": ""
  },
  {
   "property": "C53",
   "status": "proved",
   "theorems": [
    "C53_tie_prefers_pairing"
   ],
   "note": ""
  },
  {
   "property": "C54",
   "status": "proved",
   "theorems": [
    "C54_marks_removed",
    "C54_dashes_kept",
    "C54_untouched",
    "C54_become_optional",
    "C54_lone_dash_refuted",
    "C54_empty_text_refuted",
    "C54_stale_fragment_refuted"
   ],
   "note": "Refuted corner cases: \"(-)\", the empty text, the fragment flag surviving a change of text."
  },
  {
   "property": "C55",
   "status": "proved",
   "theorems": [
    "C55_lines_are_well_formed",
    "C55_speech_is_well_formed",
    "C55_optional_end_refuted"
   ],
   "note": "C55_lines_are_well_formed starts from the text of the lines; C55_optional_end_refuted shows the parser shape that is not well formed."
  },
  {
   "property": "C56",
   "status": "proved",
   "theorems": [
    "C56_traversal_visits_every_arc_once",
    "C56_inorder_is_topological",
    "C56_breadth_first_is_not_topological_refuted"
   ],
   "note": "Refuted for the breadth-first mode: it is not a topological order."
  },
  {
   "property": "C57",
   "status": "proved",
   "theorems": [
    "C57_length_counts_characters",
    "C57_length_counts_code_points",
    "C57_characters_are_unique"
   ],
   "note": ""
  },
  {
   "property": "C58",
   "status": "proved",
   "theorems": [
    "C58_time_distance",
    "C58_weight_distance"
   ],
   "note": ""
  },
  {
   "property": "C59",
   "status": "proved",
   "theorems": [
    "C59_map",
    "C59_hypotheses",
    "C59_even",
    "C59_parity_refuted",
    "C59_no_reference"
   ],
   "note": "Gaps are characterised instant by instant with a map and with hypotheses; the even case creates none (C59_even, C59_parity_refuted)."
  },
  {
   "property": "C60",
   "status": "proved",
   "theorems": [
    "C60_record",
    "C60_words"
   ],
   "note": "C60_record, C60_words: any sequence of alignments for any systems."
  },
  {
   "property": "C61",
   "status": "proved",
   "theorems": [
    "C61_pieces",
    "C61_one_conversation",
    "C61_foreign_word_refuted",
    "C61_last_word_refuted",
    "C61_silence_length_refuted"
   ],
   "note": "For one conversation in the buffer; the three _refuted theorems show a word of the next conversation aligned with this one, a lost last word, and cuts at silences shorter than requested."
  },
  {
   "property": "C62",
   "status": "proved",
   "theorems": [
    "C62_free",
    "C62_context",
    "C62_defined",
    "C62_tight_arrow_refuted",
    "C62_slash_refuted",
    "C62_first_slash_refuted"
   ],
   "note": "r_process_data_line; tight arrows, slashes within brackets and a leading slash are refuted"
  },
  {
   "property": "C63",
   "status": "proved",
   "theorems": [
    "C63_assignment",
    "C63_partition",
    "C63_first_segment",
    "C63_unterminated_refuted"
   ],
   "note": "stm2ctm.c on whole files, exact time arithmetic, ASCII; unterminated alternations refuted"
  },
  {
   "property": "C64",
   "status": "proved",
   "theorems": [
    "C64_refused",
    "C64_channels",
    "C64_unknown_channel",
    "C64_refused_feedback_refuted",
    "C64_empty_reference_refuted"
   ],
   "note": "refusal proved for feedback 0; with feedback and for an empty reference refuted (uninitialised memory)"
  },
  {
   "property": "C65",
   "status": "proved",
   "theorems": [
    "C65_network",
    "C65_empty_alternative_refuted",
    "C65_ignored_alternation_refuted"
   ],
   "note": "network as a series of words and parallel word lists; empty inner alternatives and ignored alternations refuted"
  },
  {
   "property": "C66",
   "status": "proved",
   "theorems": [
    "C66_words",
    "C66_none",
    "C66_lost_word_refuted"
   ],
   "note": "flags of words and used segments; the word lost with -m ref is refuted"
  },
  {
   "property": "C67",
   "status": "proved",
   "theorems": [
    "C67_fields_total",
    "C67_line",
    "C67_line_total",
    "C67_file",
    "C67_unfinished_comment_refuted",
    "C67_unfinished_blank_refuted",
    "C67_first_word_refuted"
   ],
   "note": "bytes without NUL, ASCII case conversion, any number conversion; a last comment or blank line without newline and a first word with < are refuted as exceptions"
  },
  {
   "property": "C68",
   "status": "proved",
   "theorems": [
    "C68_line",
    "C68_file",
    "C68_short_line_refuted",
    "C68_long_field_refuted"
   ],
   "note": "as C67; short lines and long fields are refuted as errors that are reported"
  },
  {
   "property": "C69",
   "status": "proved",
   "theorems": [
    "C69_windows",
    "C69_any_size",
    "C69_scored"
   ],
   "note": "equality with the whole file model of C63/C64 for every window size; overlap marks by starred turns are not modelled"
  },
  {
   "property": "C70",
   "status": "proved",
   "theorems": [
    "C70_pairing",
    "C70_sound",
    "C70_any_order",
    "C70_lines",
    "C70_total",
    "C70_last_line_refuted",
    "C70_two_texts_refuted",
    "C70_parentheses_refuted"
   ],
   "note": "ASCII, bytes without NUL; last line without newline, two texts for one id and wrong parentheses are refuted as errors that are reported"
  },
  {
   "property": "C71",
   "status": "proved",
   "theorems": [
    "C71_speakers",
    "C71_total",
    "C71_previous_speaker_refuted",
    "C71_long_id_refuted"
   ],
   "note": "long ids and ids without separator are refuted as errors that are reported"
  },
  {
   "property": "C72",
   "status": "proved",
   "theorems": [
    "C72_merge",
    "C72_beside",
    "C72_replace",
    "C72_tail",
    "C72_head",
    "C72_empty_refuted"
   ],
   "note": "graph level: names of nodes, counters and memory are not modelled; a network without words is refuted"
  },
  {
   "property": "C73",
   "status": "proved",
   "theorems": [
    "C73_arcs",
    "C73_delete",
    "C73_contract",
    "C73_destroy",
    "C73_paths_refuted"
   ],
   "note": "graph level; \"the paths through a deleted arc are gone\" is refuted for an arc that is alone on a side"
  },
  {
   "property": "C74",
   "status": "proved",
   "theorems": [
    "C74_network_says_the_readings",
    "C74_empty_for_blank_texts",
    "C74_ordinary_words",
    "C74_empty_group_refuted",
    "C74_brace_in_word_refuted",
    "C74_unclosed_group_refuted",
    "C74_deep_groups_refuted"
   ],
   "note": "tags of words and names of nodes are not modelled; empty groups, braces inside words, unclosed groups and 31 nested groups are refuted"
  },
  {
   "property": "C75",
   "status": "proved",
   "theorems": [
    "C75_cheapest_readings",
    "C75_ordinary_texts"
   ],
   "note": "distances in exact thousandths; fragments and optionally deletable words are decoded later and are not part of this property"
  },
  {
   "property": "C76",
   "status": "proved",
   "theorems": [
    "C76_shape",
    "C76_words",
    "C76_one_to_one",
    "C76_null_refuted"
   ],
   "note": "graph level; names and counters are not modelled; networks with null arcs are refuted"
  },
  {
   "property": "C77",
   "status": "proved",
   "theorems": [
    "C77_composite",
    "C77_systems",
    "C77_lines",
    "C77_rover",
    "C77_alternatives_refuted"
   ],
   "note": "inputs without alternatives (with alternatives refuted); words with the tag %sync%time are left out of the ROVER instance; distances are exact thousandths"
  },
  {
   "property": "C78",
   "status": "proved",
   "theorems": [
    "C78_report_is_read_back",
    "C78_report_comes_back",
    "C78_report_determines",
    "C78_too_many_systems",
    "C78_piped_report_refuted",
    "C78_quote_refuted",
    "C78_semicolon_refuted"
   ],
   "note": "times, confidences and weights are exact decimals of the printed precision; the newline-separated report, words with quotes and words with semicolons are refuted"
  },
  {
   "property": "C79",
   "status": "proved",
   "theorems": [
    "C79_conversion",
    "C79_case_is_a_function",
    "C79_history",
    "C79_idempotent",
    "C79_cases_agree",
    "C79_compare",
    "C79_compare_is_an_order",
    "C79_first_text_refuted",
    "C79_signs_have_no_case_refuted"
   ],
   "note": "UTF-8 characters as in RFC 3629; a buffer too small for a short first text is refuted; non-null pointers"
  },
  {
   "property": "C80",
   "status": "proved",
   "theorems": [
    "C80_labels",
    "C80_one_label_per_line",
    "C80_firsts",
    "C80_lookup"
   ],
   "note": "lines are texts in which bytes below 128 are characters of their own; reading the file into lines is C42"
  },
  {
   "property": "C81",
   "status": "proved",
   "theorems": [
    "C81_names_exist",
    "C81_sums",
    "C81_reports_agree_on_speakers_refuted",
    "C81_open_bracket_refuted",
    "C81_long_label_refuted",
    "C81_more_speakers_refuted"
   ],
   "note": "counters and column sums; mean, deviation, median and the layout of the report are not modelled; open brackets, long labels and more speakers are refuted"
  },
  {
   "property": "C82",
   "status": "proved",
   "theorems": [
    "C82_doubles",
    "C82_ints",
    "C82_meaning",
    "C82_order",
    "C82_no_ints"
   ],
   "note": "doubles are exact fractions; the standard deviation is given by its square; ints within 2^30"
  },
  {
   "property": "C83",
   "status": "proved",
   "theorems": [
    "C83_made",
    "C83_no_speaker",
    "C83_speaker",
    "C83_balance",
    "C83_sum",
    "C83_statistics",
    "C83_exchanged",
    "C83_weighted_sum",
    "C83_printed",
    "C83_statistics_refuted",
    "C83_merges_refuted",
    "C83_weighted_sum_refuted",
    "C83_weight_zero_refuted"
   ],
   "note": "doubles are exact fractions; the confidence column and the layout are not modelled; for several speakers without reference words the statistics are refuted, as are the columns of merges and splits and the weighted sums"
  },
  {
   "property": "C84",
   "status": "proved",
   "theorems": [
    "C84_table",
    "C84_agrees",
    "C84_executive",
    "C84_means_refuted",
    "C84_speakers_refuted",
    "C84_executive_refuted"
   ],
   "note": "systems with as many speakers as the first; with others, and with speakers without reference words, refuted"
  },
  {
   "property": "C85",
   "status": "proved",
   "theorems": [
    "C85_loaded",
    "C85_spells",
    "C85_last_group",
    "C85_parents",
    "C85_words_kept",
    "C85_fields",
    "C85_blank_line_repeats",
    "C85_spells_refuted",
    "C85_parent_refuted",
    "C85_early_alternative_refuted",
    "C85_empty_alternative_refuted"
   ],
   "note": "well-formed files without empty or early alternatives; the reading of decimal numbers is any function; one speech, so the grouping of files and channels is not modelled"
  },
  {
   "property": "C86",
   "status": "proved",
   "theorems": [
    "C86_separated",
    "C86_units",
    "C86_every_unit_apart",
    "C86_guarani_one_byte_refuted",
    "C86_small_buffer_refuted"
   ],
   "note": "Guarani only with the encodings of several bytes (else refuted); buffers of at least ten bytes, sclite uses 100"
  },
  {
   "property": "C87",
   "status": "proved",
   "theorems": [
    "C87_network_is_spelled",
    "C87_spelled_in_one_way",
    "C87_words_can_be_spelled",
    "C87_cheapest_in_characters",
    "C87_optional_alternatives_refuted",
    "C87_only_hyphens_refuted",
    "C87_empty_optional_refuted",
    "C87_at_and_star_refuted"
   ],
   "note": "optional words only where they alone leave their node (else the loop need not end: refuted); confidences not modelled; the division of a duration is any function"
  },
  {
   "property": "C88",
   "status": "proved",
   "theorems": [
    "C88_nway_is_minimum",
    "C88_iterator_past_end_refuted",
    "C88_without_transitivity_refuted",
    "C88_speech_order_refuted"
   ],
   "note": "plain matrix of costs; list iterators that wrap past the end (strictly undefined: refuted) and an equivalence of tokens (else refuted); unbounded integers"
  },
  {
   "property": "C89",
   "status": "proved",
   "theorems": [
    "C89_time_is_minimum",
    "C89_nway_time_is_minimum",
    "C89_divisor_exists",
    "C89_division_is_exact",
    "C89_undivided_time_is_minimum",
    "C89_every_token_pays_refuted",
    "C89_speaker_penalty_refuted",
    "C89_zero_times_refuted"
   ],
   "note": "plain matrix of costs; unbounded integers; the payment of every token n-way and the speaker penalty are refuted"
  },
  {
   "property": "C90",
   "status": "proved",
   "theorems": [
    "C90_optional_side",
    "C90_both_refuted"
   ],
   "note": "word-based costs; both, the default, is refuted"
  },
  {
   "property": "C91",
   "status": "proved",
   "theorems": [
    "C91_lexicon_is_loaded",
    "C91_lookup",
    "C91_longest_word",
    "C91_network_is_segmented",
    "C91_network_with_nulls",
    "C91_hypothesis_segmentation_is_cheapest",
    "C91_reference_segmentation_is_cheapest",
    "C91_no_null_words",
    "C91_case_refuted",
    "C91_unsorted_lexicon_refuted",
    "C91_null_counts_refuted"
   ],
   "note": "texts whose words are not optional and not fragments; no character @ on the segmented side; out-of-order lexica, case on the reference side and null words are refuted"
  },
  {
   "property": "C92",
   "status": "proved",
   "theorems": [
    "C92_lines",
    "C92_loaded",
    "C92_no_data",
    "C92_pairs",
    "C92_every_utterance_once",
    "C92_missing_hypothesis_refuted",
    "C92_second_system_refuted",
    "C92_odd_lines_refuted",
    "C92_lost_utterances_refuted"
   ],
   "note": "ids of the type spu_id; lines without null bytes; missing hypotheses, further systems, repeated ids and lines without ids are refuted"
  },
  {
   "property": "C93",
   "status": "proved",
   "theorems": [
    "C93_loaded",
    "C93_speech_reads",
    "C93_ids_differ",
    "C93_no_data",
    "C93_few_words_refuted",
    "C93_long_word_refuted",
    "C93_times_elsewhere_refuted",
    "C93_labels_refuted",
    "C93_excluded_ids_refuted",
    "C93_categories_refuted",
    "C93_gap_refuted",
    "C93_words"
   ],
   "note": "lines without null bytes; the comparison with inter_segment_gap with a null byte after the copy, as the memory is otherwise undefined; misplaced times, labels, category titles, ids of excluded segments and short lines are refuted"
  },
  {
   "property": "C94",
   "status": "proved",
   "theorems": [
    "C94_loaded",
    "C94_speech_reads",
    "C94_plain_word",
    "C94_no_turns",
    "C94_few_words_refuted",
    "C94_underscore_refuted",
    "C94_empty_alternative_refuted",
    "C94_order_refuted"
   ],
   "note": "lines without null bytes, fields shorter than the buffers; underscores, empty alternatives, short lines and words outside their turn are refuted"
  },
  {
   "property": "C95",
   "status": "proved",
   "theorems": [
    "C95_loaded",
    "C95_speech_reads",
    "C95_plain_word",
    "C95_no_words",
    "C95_few_words_refuted",
    "C95_quotation_refuted",
    "C95_confidence_refuted",
    "C95_empty_word_refuted"
   ],
   "note": "lines without null bytes, fields shorter than the buffers, durations not negative; short lines, quotation marks, missing confidences and empty words are refuted"
  },
  {
   "property": "C96",
   "status": "proved",
   "theorems": [
    "C96_curve",
    "C96_systems",
    "C96_no_confidences",
    "C96_threshold_refuted",
    "C96_second_system_refuted",
    "C96_unchecked_refuted",
    "C96_full_array_refuted",
    "C96_no_errors_refuted"
   ],
   "note": "exact rationals for doubles, before the change of scale ppndf; lines that no threshold gives, the second system, unchecked systems, full arrays and systems without errors are refuted"
  },
  {
   "property": "C97",
   "status": "proved",
   "theorems": [
    "C97_one_bin",
    "C97_bins",
    "C97_histogram",
    "C97_binned",
    "C97_no_confidences",
    "C97_scaled",
    "C97_negative_refuted",
    "C97_few_words_refuted",
    "C97_more_bins_refuted"
   ],
   "note": "exact rationals for doubles; slightly negative confidences, few words and the number of scaled bins are refuted"
  },
  {
   "property": "C98",
   "status": "proved",
   "theorems": [
    "C98_ranks",
    "C98_rank_order",
    "C98_uneven_refuted",
    "C98_unpaired_refuted"
   ],
   "note": "exact rationals for doubles; the same speakers in the same order for all systems; other orders and uneven numbers of speakers are refuted"
  },
  {
   "property": "C99",
   "status": "proved",
   "theorems": [
    "C99_ranges",
    "C99_mean_marked",
    "C99_gnuplot",
    "C99_gnuplot2",
    "C99_gnuplot2_refuted",
    "C99_low_refuted",
    "C99_high_refuted"
   ],
   "note": "exact rationals for doubles, any square root; layout and rounding not modelled; lowest over 100, highest under 0 and the buffers of the second form are refuted"
  },
  {
   "property": "C100",
   "status": "proved",
   "theorems": [
    "C100_systems",
    "C100_both",
    "C100_table",
    "C100_more_systems_refuted",
    "C100_long_name_refuted",
    "C100_unprotected_refuted",
    "C100_critical_refuted",
    "C100_speaker_ties_refuted"
   ],
   "note": "exact rationals for doubles, comparison with the square root made on squares; more systems than speakers, late ties of speakers, long titles, the unguarded comparison and its limit are refuted"
  },
  {
   "property": "C101",
   "status": "proved",
   "theorems": [
    "C101_nce",
    "C101_below_one",
    "C101_constant",
    "C101_monotone",
    "C101_strict",
    "C101_order",
    "C101_all_correct_refuted"
   ],
   "note": "exact fractions for confidences and real numbers for sums (axioms of the standard real numbers); all correct or all incorrect is refuted"
  },
  {
   "property": "C102",
   "status": "proved",
   "theorems": [
    "C102_listing",
    "C102_any_order",
    "C102_numbers",
    "C102_find",
    "C102_threshold_refuted",
    "C102_find_is_not_a_number_refuted",
    "C102_no_size_refuted"
   ],
   "note": "thresholds above one, the meaning of the result of looking up and an initial size of 0 are refuted; layout not modelled"
  },
  {
   "property": "C103",
   "status": "proved",
   "theorems": [
    "C103_overall",
    "C103_speaker",
    "C103_sums",
    "C103_pairs",
    "C103_sentences",
    "C103_long_pair_refuted",
    "C103_spaces_refuted"
   ],
   "note": "exact percentages; layout not modelled; pairs of 10000 bytes and words with spaces are refuted"
  },
  {
   "property": "C104",
   "status": "proved",
   "theorems": [
    "C104_rows",
    "C104_common",
    "C104_summary",
    "C104_counts",
    "C104_different",
    "C104_score_diff",
    "C104_speakers",
    "C104_sentences",
    "C104_common_speaker_refuted",
    "C104_identical_refuted",
    "C104_end_of_path_refuted",
    "C104_repeated_refuted",
    "C104_score_diff_refuted",
    "C104_only_different_refuted",
    "C104_totals_refuted"
   ],
   "note": "layout of the alignment not modelled; speakers after a missing one, references of unequal length, words missed twice and the mode for differences are refuted"
  },
  {
   "property": "C105",
   "status": "proved",
   "theorems": [
    "C105_printed",
    "C105_whole",
    "C105_columns",
    "C105_fit",
    "C105_read",
    "C105_injective",
    "C105_endless_refuted",
    "C105_stars_refuted",
    "C105_last_word_refuted",
    "C105_upper_case_refuted",
    "C105_long_number_refuted"
   ],
   "note": "conversion to upper case and the texts of numbers are parameters; the head is modelled by its numbers; the endless loop, the stars, the last word, upper case of another length and long numbers are refuted"
  },
  {
   "property": "C106",
   "status": "proved",
   "theorems": [
    "C106_first_alternative",
    "C106_utterances",
    "C106_text",
    "C106_channel",
    "C106_last_channel",
    "C106_only_one",
    "C106_buffer",
    "C106_empty_last_refuted",
    "C106_last_channel_refuted",
    "C106_carriage_return_refuted",
    "C106_marks_refuted",
    "C106_nested_refuted",
    "C106_hundred_refuted",
    "C106_long_word_refuted"
   ],
   "note": "diff is any function whose lines show a way from one file to the other; reading of files, ids and scores as in other properties; the last channel, an empty last utterance, carriage returns, marks, long words, nested choices and references of 100 bytes are refuted"
  },
  {
   "property": "C107",
   "status": "proved",
   "theorems": [
    "C107_table",
    "C107_prints",
    "C107_earlier_table_refuted",
    "C107_unknown_letter_refuted",
    "C107_double_bar_below_refuted",
    "C107_double_bar_within_refuted",
    "C107_letter_n_refuted",
    "C107_blank_break_refuted"
   ],
   "note": "Rows with double bars inside a cell, at the end or with a separation below are outside the statement and refuted; column locks are not modelled"
  },
  {
   "property": "C108",
   "status": "proved",
   "theorems": [
    "C108_loaded",
    "C108_weight",
    "C108_parts",
    "C108_no_weight",
    "C108_unity",
    "C108_aligned_word",
    "C108_long_compound_refuted",
    "C108_missing_column_refuted",
    "C108_odd_quote_refuted",
    "C108_eleven_names_refuted",
    "C108_default_refuted",
    "C108_empty_file_refuted",
    "C108_sixth_weight_refuted",
    "C108_unity_columns_refuted"
   ],
   "note": "weights in thousandths, the text of a number to its weight is a parameter; long compounds, missing columns, odd quotes, eleven names, the place of the default weight, empty files and the columns of unity are refuted"
  },
  {
   "property": "C109",
   "status": "proved",
   "theorems": [
    "C109_sums",
    "C109_consistent",
    "C109_weight_one",
    "C109_rows",
    "C109_unreadable",
    "C109_percents",
    "C109_total",
    "C109_speakers",
    "C109_word_error_rate_refuted",
    "C109_no_weighting_refuted",
    "C109_unity_refuted"
   ],
   "note": "exact weights and percentages, layout not modelled; the word error rate for weight 1, reports without weightings and a row for unity are refuted"
  },
  {
   "property": "C110",
   "status": "proved",
   "theorems": [
    "C110_files",
    "C110_words",
    "C110_defined",
    "C110_speaker_refuted",
    "C110_last_channel_refuted",
    "C110_single_word_channel_refuted",
    "C110_third_channel_refuted",
    "C110_channel_names_refuted",
    "C110_first_alternate_refuted",
    "C110_early_end_refuted",
    "C110_hyp_alternation_refuted",
    "C110_long_name_refuted"
   ],
   "note": "the networks of a piece and the reading in windows are other models; speaker of left over words, last long channel, single word and third channels, names of channels, early end and alternations of the hypothesis are refuted"
  },
  {
   "property": "C111",
   "status": "proved",
   "theorems": [
    "C111_read",
    "C111_empty_undef",
    "C111_order_refuted",
    "C111_files",
    "C111_redirected_refuted",
    "C111_own_file_refuted",
    "C111_unavailable_refuted",
    "C111_quote_refuted",
    "C111_colon_refuted",
    "C111_speaker"
   ],
   "note": "times in thousandths and confidences in millionths, messages not modelled; the order of the segments of a speaker in general, the redirection to the standard output, a file per system, unavailable systems, quotes in words and colons in speaker ids are refuted"
  },
  {
   "property": "C112",
   "status": "proved",
   "theorems": [
    "C112_reports",
    "C112_reports_written",
    "C112_matrix",
    "C112_pairs",
    "C112_pairs_printed",
    "C112_short_names_refuted",
    "C112_one_letter_refuted",
    "C112_long_name_refuted",
    "C112_one_file_refuted"
   ],
   "note": "the unified report is C113; the numbers of the tests are other models; equally long lines for short names, one-letter names and names of 47 letters and one file per system in an output directory are refuted"
  },
  {
   "property": "C113",
   "status": "proved",
   "theorems": [
    "C113_unified",
    "C113_sixteen_refuted",
    "C113_no_probability_refuted",
    "C113_mcnemar",
    "C113_mcnemar_printed",
    "C113_twentyfive_refuted"
   ],
   "note": "probabilities are rational and rounded exactly; the layout is C107; reports for 16 or more systems, matrices for 25, and tests that give no probability are refuted"
  },
  {
   "property": "C114",
   "status": "proved",
   "theorems": [
    "C114_shape",
    "C114_head",
    "C114_speakers",
    "C114_sums",
    "C114_statistics",
    "C114_reports",
    "C114_places",
    "C114_percentage_refuted",
    "C114_mean_refuted",
    "C114_deviation_refuted",
    "C114_no_words_refuted",
    "C114_lost_refuted"
   ],
   "note": "numbers are rational and rounded exactly, the confidence measures are given numbers; percentages of 10000 and more, means of 10000 reference words, the deviation over one speaker, percentages of all speakers without any reference words, and tables whose file cannot be opened are refuted"
  },
  {
   "property": "C115",
   "status": "proved",
   "theorems": [
    "C115_report",
    "C115_systems",
    "C115_same_title_refuted",
    "C115_maximum",
    "C115_minimum_refuted",
    "C115_dimensions_refuted",
    "C115_position_refuted",
    "C115_ampersand_refuted",
    "C115_place",
    "C115_redirected_refuted"
   ],
   "note": "for any aligner and segmenter: the XML report read back by an independent reader; the names, the choice of groups and the destination; the refuted theorems show where titles, positions, limits, escaping and the announced redirection fail"
  },
  {
   "property": "C116",
   "status": "proved",
   "theorems": [
    "C116_log",
    "C116_generic",
    "C116_only",
    "C116_off",
    "C116_system_refuted",
    "C116_dimension_refuted",
    "C116_comma_refuted",
    "C116_invented_refuted",
    "C116_twice_refuted"
   ],
   "note": "for any aligner and any choice of skipped groups; tokens come in their topological order (C16) and a confidence as what %.3f rounds it to; commas in words, the missing name of the system, the system of a group without references, the invented hypothesis and the double listing of skipped groups are refuted"
  },
  {
   "property": "C117",
   "status": "proved",
   "theorems": [
    "C117_options",
    "C117_unknown",
    "C117_missing",
    "C117_file",
    "C117_help",
    "C117_title_refuted",
    "C117_speakers_refuted",
    "C117_directory_refuted",
    "C117_side_refuted",
    "C117_time_refuted",
    "C117_ctm_refuted",
    "C117_memory_refuted"
   ],
   "note": "Every sequence of usable options (words of a small grammar of options). The time-based cost without a hypothesis is excluded: it is undefined (C117_time_refuted). Findings in the C117_*_refuted theorems."
  },
  {
   "property": "C118",
   "status": "proved",
   "theorems": [
    "C118_overlap",
    "C118_clean",
    "C118_accepted",
    "C118_between_refuted",
    "C118_order_refuted",
    "C118_outside_refuted",
    "C118_map_refuted"
   ],
   "note": "Acceptance (C118_accepted) is stated for runs that add no gaps (their making is C59) and do not check the speaker map. Findings in the C118_*_refuted theorems."
  },
  {
   "property": "C119",
   "status": "proved",
   "theorems": [
    "C119_options",
    "C119_piped",
    "C119_unknown",
    "C119_missing",
    "C119_value",
    "C119_mixed_refuted",
    "C119_mixed_undefined_refuted",
    "C119_null_refuted",
    "C119_many_refuted",
    "C119_twice_refuted",
    "C119_default_refuted",
    "C119_name_refuted",
    "C119_directory_refuted",
    "C119_format_refuted",
    "C119_unused_refuted",
    "C119_segment_refuted",
    "C119_tmk_refuted"
   ],
   "note": "Loading, aligning and writing the reports are other models: whether they succeed is given, what they are asked to do is proved. More than 40 hypotheses, piped alignments with files, and piped alignments with -c or -m are outside the statement and refuted, with the other findings, in the C119_*_refuted theorems."
  },
  {
   "property": "C120",
   "status": "proved",
   "theorems": [
    "C120_options",
    "C120_unknown",
    "C120_missing",
    "C120_file",
    "C120_method",
    "C120_output_refuted",
    "C120_many_refuted",
    "C120_nothing_refuted",
    "C120_width_refuted",
    "C120_emptied_refuted",
    "C120_blank_refuted"
   ],
   "note": "The combination itself is C44, C61 and C77. atof is given. More than 50 hypotheses and -o as the last word are outside the statement and refuted, with the other findings, in the C120_*_refuted theorems."
  },
  {
   "property": "C121",
   "status": "proved",
   "theorems": [
    "C121_options",
    "C121_idle",
    "C121_unread",
    "C121_none",
    "C121_unknown",
    "C121_missing",
    "C121_file",
    "C121_pipe_refuted",
    "C121_files_refuted",
    "C121_many_refuted",
    "C121_formula_refuted",
    "C121_unified_refuted",
    "C121_twice_refuted",
    "C121_npr_refuted",
    "C121_det_refuted"
   ],
   "note": "The tests, graphs and reports themselves are other claims or not modelled: which are made, in which order and with what arguments is proved. Messages (and so -f) are not modelled. Runs without -p, more than 40 files and a unified report of reports alone are outside the statement and refuted, with the other findings, in the C121_*_refuted theorems."
  },
  {
   "property": "C122",
   "status": "proved",
   "theorems": [
    "C122_report",
    "C122_speaker",
    "C122_many_labels_refuted",
    "C122_unused_label_refuted"
   ],
   "note": "The counters are those of C81, the statistics those of C83, the layout that of C107; the square root is given, doubles are exact fractions. More than 16 labels are outside the statement and refuted, as is the title of a category with a label nobody uses, in the C122_*_refuted theorems."
  },
  {
   "property": "C123",
   "status": "proved",
   "theorems": [
    "C123_report",
    "C123_many_labels_refuted",
    "C123_more_speakers_refuted",
    "C123_only_errors_refuted"
   ],
   "note": "As C122. More than 16 labels and later systems with more speakers than the first are outside the statement (the report is not printed in the model) and refuted, with the mean of speakers without words, in the C123_*_refuted theorems."
  },
  {
   "property": "C124",
   "status": "proved",
   "theorems": [
    "C124_filter",
    "C124_lines",
    "C124_parts",
    "C124_untouched",
    "C124_refused",
    "C124_long_lines_refuted",
    "C124_zero_first",
    "C124_zero_refuted"
   ],
   "note": "Reading the rules is C62; the run is for debug levels up to 1. Longer lines are cut and zero bytes cut lines: both are outside the statement and refuted in C124_long_lines_refuted and C124_zero_refuted; C124_zero_first is the undefined case."
  }
 ]
}