{
 "claims": [
  {
   "property": "C01",
   "status": "proved",
   "theorems": [
    "C01_envelope_is_window_minmax"
   ],
   "note": ""
  },
  {
   "property": "C02",
   "status": "proved",
   "theorems": [
    "C02_deque_is_a_queue"
   ],
   "note": ""
  },
  {
   "property": "C03",
   "status": "proved",
   "theorems": [
    "C03_warped_is_optimum_f64",
    "C03_warped_is_optimum_exact"
   ],
   "note": ""
  },
  {
   "property": "C04",
   "status": "proved",
   "theorems": [
    "C04_warped_symmetric",
    "C04_warped_symmetric_exact",
    "C04_pairwise_symmetric"
   ],
   "note": ""
  },
  {
   "property": "C05",
   "status": "proved",
   "theorems": [
    "C05_self_distance_zero",
    "C05_never_negative_or_nan"
   ],
   "note": ""
  },
  {
   "property": "C06",
   "status": "proved",
   "theorems": [
    "C06_keogh_admissible"
   ],
   "note": ""
  },
  {
   "property": "C07",
   "status": "proved",
   "theorems": [
    "C07_cascade_inf_or_warped"
   ],
   "note": ""
  },
  {
   "property": "C08",
   "status": "proved",
   "theorems": [
    "C08_early_abandon_exact",
    "C08_early_abandon_f64",
    "C08_float_discard_witness"
   ],
   "note": "Exact arithmetic: no improving candidate is lost. binary64: a discarded candidate is at least every double below the dropout (at most one ulp better), and a witness shows this loss happens."
  },
  {
   "property": "C09",
   "status": "proved",
   "theorems": [
    "C09_pairwise_f64",
    "C09_pairwise_exact",
    "C09_pairwise_different_lengths"
   ],
   "note": ""
  },
  {
   "property": "C10",
   "status": "proved",
   "theorems": [
    "C10_pairwise_metric"
   ],
   "note": ""
  },
  {
   "property": "C11",
   "status": "proved",
   "theorems": [
    "C11_length_one_breaks_band_and_dropout",
    "C11_no_short_series",
    "C11_reduced_witness"
   ],
   "note": "Failure witness, and no match reaches it when the result series have at least two points (witness that this condition is needed)."
  },
  {
   "property": "C12",
   "status": "proved",
   "theorems": [
    "C12_overflow_breaks_warped",
    "C12_bounded_data_safe"
   ],
   "note": ""
  },
  {
   "property": "C13",
   "status": "proved",
   "theorems": [
    "C13_kim_lower_bound",
    "C13_kim_throws_on_length_two",
    "C13_kim_not_admissible_short",
    "C13_kim_dropout",
    "C13_kim_prunes_safely",
    "C13_kim_length_one"
   ],
   "note": "Admissibility in exact arithmetic; counterexamples in binary64 for 3x3 and 5x5."
  },
  {
   "property": "C14",
   "status": "proved",
   "theorems": [
    "C14_band_in_range_f64",
    "C14_band_in_range_exact",
    "C14_band_large_ratio"
   ],
   "note": ""
  },
  {
   "property": "C15",
   "status": "proved",
   "theorems": [
    "C15_traverse_terminates",
    "C15_traverse_order"
   ],
   "note": ""
  },
  {
   "property": "C16",
   "status": "proved",
   "theorems": [
    "C16_skipped_lengths_have_no_match"
   ],
   "note": ""
  },
  {
   "property": "C17",
   "status": "proved",
   "theorems": [
    "C17_groups_partition"
   ],
   "note": ""
  },
  {
   "property": "C18",
   "status": "proved",
   "theorems": [
    "C18_members_within_half_threshold"
   ],
   "note": ""
  },
  {
   "property": "C19",
   "status": "proved",
   "theorems": [
    "C19_diameter_exact"
   ],
   "note": ""
  },
  {
   "property": "C20",
   "status": "proved",
   "theorems": [
    "C20_representatives_separated_exact",
    "C20_representative_is_first"
   ],
   "note": ""
  },
  {
   "property": "C21",
   "status": "proved",
   "theorems": [
    "C21_joins_nearest_exact",
    "C21_founders_exact"
   ],
   "note": ""
  },
  {
   "property": "C22",
   "status": "proved",
   "theorems": [
    "C22_returns_number_of_groups",
    "C22_regrouping",
    "C22_grouping_changes_only_groups",
    "C22_depends_only_on_data"
   ],
   "note": ""
  },
  {
   "property": "C23",
   "status": "proved",
   "theorems": [
    "C23_zero_threshold_exact",
    "C23_negative_threshold"
   ],
   "note": ""
  },
  {
   "property": "C24",
   "status": "proved",
   "theorems": [
    "C24_infinite_threshold_ub_witness",
    "C24_finite_threshold_no_ub"
   ],
   "note": ""
  },
  {
   "property": "C25",
   "status": "proved",
   "theorems": [
    "C25_match_is_real"
   ],
   "note": ""
  },
  {
   "property": "C26",
   "status": "proved",
   "theorems": [
    "C26_best_group_best_member_exact",
    "C26_best_group_best_member"
   ],
   "note": ""
  },
  {
   "property": "C27",
   "status": "proved",
   "theorems": [
    "C27_as_good_as_representatives_exact"
   ],
   "note": ""
  },
  {
   "property": "C28",
   "status": "proved",
   "theorems": [
    "C28_copy_not_found_witness"
   ],
   "note": ""
  },
  {
   "property": "C29",
   "status": "proved",
   "theorems": [
    "C29_bad_request_rejected"
   ],
   "note": ""
  },
  {
   "property": "C30",
   "status": "proved",
   "theorems": [
    "C30_long_query_out_of_bounds",
    "C30_match_returns"
   ],
   "note": ""
  },
  {
   "property": "C31",
   "status": "proved",
   "theorems": [
    "C31_coherent",
    "C31_copy",
    "C31_assign_witness",
    "C31_assign_longer_witness",
    "C31_write_witness",
    "C31_shared_witness",
    "C31_normalize_witness"
   ],
   "note": ""
  },
  {
   "property": "C32",
   "status": "proved",
   "theorems": [
    "C32_PAA",
    "C32_mean_exact",
    "C32_PAA_one",
    "C32_bad_block"
   ],
   "note": ""
  },
  {
   "property": "C33",
   "status": "proved",
   "theorems": [
    "C33_still_grouped",
    "C33_match_undefined",
    "C33_match_never_returns",
    "C33_regroup"
   ],
   "note": ""
  },
  {
   "property": "C34",
   "status": "proved",
   "theorems": [
    "C34_extremes",
    "C34_values",
    "C34_outside_witness"
   ],
   "note": ""
  },
  {
   "property": "C35",
   "status": "proved",
   "theorems": [
    "C35_idempotent"
   ],
   "note": ""
  },
  {
   "property": "C36",
   "status": "proved",
   "theorems": [
    "C36_table_total",
    "C36_load",
    "C36_numeral"
   ],
   "note": ""
  },
  {
   "property": "C37",
   "status": "proved",
   "theorems": [
    "C37_missing_file",
    "C37_malformed",
    "C37_outcomes",
    "C37_stod_ok",
    "C37_overflow"
   ],
   "note": ""
  },
  {
   "property": "C38",
   "status": "proved",
   "theorems": [
    "C38_negative_start",
    "C38_start_beyond",
    "C38_empty_file",
    "C38_blank_lines"
   ],
   "note": ""
  },
  {
   "property": "C39",
   "status": "proved",
   "theorems": [
    "C39_savable",
    "C39_reload",
    "C39_lossy_witness",
    "C39_tiny_witness"
   ],
   "note": ""
  },
  {
   "property": "C40",
   "status": "proved",
   "theorems": [
    "C40_file",
    "C40_save",
    "C40_reload",
    "C40_printable",
    "C40_largest_witness"
   ],
   "note": ""
  },
  {
   "property": "C41",
   "status": "proved",
   "theorems": [
    "C41_missing_file",
    "C41_version",
    "C41_not_a_number",
    "C41_count",
    "C41_length",
    "C41_blank_file",
    "C41_version_too_large",
    "C41_unknown_distance",
    "C41_match_after"
   ],
   "note": ""
  },
  {
   "property": "C42",
   "status": "proved",
   "theorems": [
    "C42_exact",
    "C42_error",
    "C42_power_witness",
    "C42_reload",
    "C42_witness"
   ],
   "note": "binary64. short (Properties_Digits.v) is the class of values that survive; C42_power_witness shows that the condition on powers of two is needed. C42_reload composes this with C40."
  },
  {
   "property": "C43",
   "status": "proved",
   "theorems": [
    "C43_out_of_range",
    "C43_duplicate"
   ],
   "note": ""
  },
  {
   "property": "C44",
   "status": "proved",
   "theorems": [
    "C44_load",
    "C44_unload",
    "C44_unload_all",
    "C44_others",
    "C44_failed_load",
    "C44_list",
    "C44_count"
   ],
   "note": ""
  },
  {
   "property": "C45",
   "status": "proved",
   "theorems": [
    "C45_reachable",
    "C45_frame"
   ],
   "note": ""
  },
  {
   "property": "C46",
   "status": "proved",
   "theorems": [
    "C46_unknown_ids"
   ],
   "note": ""
  },
  {
   "property": "C47",
   "status": "proved",
   "theorems": [
    "C47_failing_operations"
   ],
   "note": ""
  },
  {
   "property": "C48",
   "status": "proved",
   "theorems": [
    "C48_safe_histories",
    "C48_every_call",
    "C48_saved_files",
    "C48_each_condition"
   ],
   "note": "Doubles; histories may load group files that fit the dataset or are refused by their header; each condition of safety shown necessary by a witness."
  },
  {
   "property": "C49",
   "status": "proved",
   "theorems": [
    "C49_words",
    "C49_blank",
    "C49_comment",
    "C49_help",
    "C49_unknown",
    "C49_argument_count",
    "C49_executes",
    "C49_timer",
    "C49_not_numeric",
    "C49_threshold_not_numeric",
    "C49_match_without_end",
    "C49_quit",
    "C49_every_line",
    "C49_ends",
    "C49_crashes",
    "C49_session_reachable",
    "C49_end_of_input",
    "C49_infinite_threshold_witness",
    "C49_match_without_end_witness"
   ],
   "note": "Every line classified; whole runs stay within API-reachable sessions; crash witnesses from the prompt (infinite threshold, match without an end)."
  },
  {
   "property": "C50",
   "status": "proved",
   "theorems": [
    "C50_below_best_is_optimal",
    "C50_no_false_dismissal",
    "C50_decides",
    "C50_kim",
    "C50_keogh",
    "C50_keogh_data",
    "C50_window",
    "C50_kim_short_refuted",
    "C50_large_cost_witness",
    "C50_empty_undefined"
   ],
   "note": "dtw in double arithmetic (soundness below the best-so-far, no false dismissal without a cumulative bound) and in exact arithmetic (exact decision with a valid bound, the three bounds, one whole window). Refuted: the first/last-point bound for 3 to 5 points; witness that costs from 1e20 are understated; empty input undefined."
  },
  {
   "property": "C51",
   "status": "proved",
   "theorems": [
    "C51_meaning",
    "C51_irreflexive",
    "C51_asymmetric",
    "C51_spread",
    "C51_cycle_witness",
    "C51_equivalence_witness",
    "C51_not_strict_weak"
   ],
   "note": ""
  },
  {
   "property": "C52",
   "status": "proved",
   "theorems": [
    "C52_grouping_returns",
    "C52_grouping_divides_by_zero",
    "C52_five_series_suffice"
   ],
   "note": ""
  },
  {
   "property": "C53",
   "status": "proved",
   "theorems": [
    "C53_match_depends_only_on_values",
    "C53_asking_again"
   ],
   "note": ""
  },
  {
   "property": "C54",
   "status": "proved",
   "theorems": [
    "C54_group_negative_length",
    "C54_match_after"
   ],
   "note": ""
  },
  {
   "property": "C55",
   "status": "proved",
   "theorems": [
    "C55_same_file"
   ],
   "note": ""
  },
  {
   "property": "C56",
   "status": "proved",
   "theorems": [
    "C56_nearest",
    "C56_unique",
    "C56_affine",
    "C56_finds_copy",
    "C56_short_data",
    "C56_never_ends",
    "C56_short_query",
    "C56_no_query",
    "C56_wide_band",
    "C56_short_windows_refuted",
    "C56_comparison_witness"
   ],
   "note": "Exact arithmetic, whole function with files as lists of numbers followed by the end or by a character that is not a number. C56_nearest + C56_unique determine the result; copies, scaling, short data. Findings: endless loop on malformed data, undefined behaviour on short queries and wide bands, missed windows for m = 3..5 (double arithmetic), comparison given to qsort not an order."
  },
  {
   "property": "C57",
   "status": "proved",
   "theorems": [
    "C57_match_loaded",
    "C57_match_member",
    "C57_out_of_reach",
    "C57_empty_group_witness",
    "C57_no_group_witness"
   ],
   "note": "binary64, all histories of quiet operations after the load. Statement names loaded_earlier and in_reach (LoadedSpec.v). Findings: groups without members give an infinite match with a subsequence that is in no group; no reachable group gives a null dereference."
  },
  {
   "property": "C58",
   "status": "proved",
   "theorems": [
    "C58_read",
    "C58_range",
    "C58_write",
    "C58_add",
    "C58_add_length",
    "C58_overlap_witness"
   ],
   "note": "Any arithmetic (NumOps). contents, same_cell, updated, sums in AccessSpec.v. C58_overlap_witness: overlapping windows are added with already changed values."
  },
  {
   "property": "C59",
   "status": "proved",
   "theorems": [
    "C59_values",
    "C59_leaks",
    "C59_no_leak",
    "C59_groups_leak",
    "C59_self_assign_witness",
    "C59_moved_witness",
    "C59_delete_strict",
    "C59_delete_witness"
   ],
   "note": "Any arithmetic. Two models of the class related by simulation; the rest of the development uses the value model. The mismatch delete / new[] is a flag of the memory model: with it, destroying any owning series is undefined (C59_delete_strict); the other theorems assume that delete frees the array. Findings: self-assignment of an owning series loses its values; one array leaks per group."
  },
  {
   "property": "C60",
   "status": "proved",
   "theorems": [
    "C60_same_answer",
    "C60_resave",
    "C60_round",
    "C60_one_round",
    "C60_two_rounds",
    "C60_same_group",
    "C60_tie_witness"
   ],
   "note": "binary64, generated and loaded groups alike. C60_same_answer and C60_two_rounds have no hypothesis on the values beyond the representatives being restored by 16 digits (short, see C42); C60_same_group (one round) assumes the bound small64 on values and a group in reach, like C57. C60_tie_witness: one round changes which of several equally near members is answered."
  },
  {
   "property": "C61",
   "status": "proved",
   "theorems": [
    "C61_save",
    "C61_body_unchecked",
    "C61_not_recognised",
    "C61_group_access",
    "C61_total",
    "C61_load_witness"
   ],
   "note": "binary64. C61_body_unchecked ranges over all texts after the distance name (bounds of the lengths within the dataset). C61_load_witness: a session whose own size file crashes when loaded; that every size file does so is not claimed."
  },
  {
   "property": "C62",
   "status": "proved",
   "theorems": [
    "C62_answer_stays",
    "C62_answer_dangles",
    "C62_arrays",
    "C62_all_freed"
   ],
   "note": "Any arithmetic. The array of a load that throws is freed before the call returns and is not recorded in the model."
  },
  {
   "property": "C63",
   "status": "proved",
   "theorems": [
    "C63_every_history",
    "C63_no_misuse",
    "C63_lost",
    "C63_nothing_lost",
    "C63_end",
    "C63_lost_for_ever",
    "C63_all_released_refuted"
   ],
   "note": "Any arithmetic. Calls that are undefined in Api.v end a history. delete of a new[] array counts as releasing it (strict reading: C59_delete_strict). Finding (C63_all_released_refuted): one array leaks per group, because move assignment forgets the array that the group constructor gave the centroid."
  },
  {
   "property": "C64",
   "status": "proved",
   "theorems": [
    "C64_program",
    "C64_typed_run",
    "C64_session",
    "C64_digits",
    "C64_match",
    "C64_done",
    "C64_log",
    "C64_thrown",
    "C64_timer",
    "C64_help",
    "C64_match_read",
    "C64_error",
    "C64_list",
    "C64_list_read",
    "C64_one_line_numbers",
    "C64_match_values",
    "C64_other_digits_witness"
   ],
   "note": "Any arithmetic and number format; C64_match_values and the cases for doubles. Elapsed times are inputs; what readline writes is not modelled. Finding (C64_other_digits_witness): setprecision(4) stays in force, so the same answer is shown as 0.235702 or 0.2357 depending on whether a timed command ran before."
  },
  {
   "property": "C65",
   "status": "proved",
   "theorems": [
    "C65_warped_close_exact",
    "C65_within_quarter_exact",
    "C65_copy_exact",
    "C65_best_exact",
    "C65_exhaustive"
   ],
   "note": "Exact arithmetic, except C65_exhaustive (doubles, singleton groups; up to one unit in the last place as in C26). That the answer can be worse than the best is C28_copy_not_found_witness."
  },
  {
   "property": "C66",
   "status": "proved",
   "theorems": [
    "C66_distance_exact",
    "C66_mean_kept_exact",
    "C66_compose_exact",
    "C66_range",
    "C66_normalized_range",
    "C66_distance_witness",
    "C66_compose_witness",
    "C66_range_witness"
   ],
   "note": "Exact arithmetic for distance, mean and composition; doubles for the ranges and the three witnesses (C66_distance_witness: 0 0 1 / 0 0 0 reduced by 2; C66_compose_witness: 1 2 3; C66_range_witness: 0.1 0.1 0.1)."
  },
  {
   "property": "C67",
   "status": "proved",
   "theorems": [
    "C67_same_or_overflow",
    "C67_load_in_range",
    "C67_load_overflows",
    "C67_load_witness",
    "C67_load_small",
    "C67_load_smallest",
    "C67_after_loading",
    "C67_group_in_range",
    "C67_group_overflows",
    "C67_small_datasets",
    "C67_first_grouping",
    "C67_first_grouping_witness",
    "C67_negative_threshold_number",
    "C67_number_overflows",
    "C67_number_witness"
   ],
   "note": "About step32 (Ints.v), which checks the int expressions of every operation. C67_same_or_overflow relates the two models for every call. Witnesses: a 131071-character file (the smallest), 27000 series of 1000 values, 5 series of 40000 values with threshold -1."
  },
  {
   "property": "C68",
   "status": "proved",
   "theorems": [
    "C68_distance",
    "C68_envelope",
    "C68_band_overflows",
    "C68_ratio_witness",
    "C68_safe_sessions",
    "C68_every_call",
    "C68_small_within",
    "C68_small_sessions",
    "C68_group_file_witness"
   ],
   "note": "About step32 and run32 (Ints.v) and safe histories (SafeSpec.v); within and small are in Ints2Spec.v. Witnesses for the ratio and for a group file; the two example sessions of C48 meet the hypotheses."
  },
  {
   "property": "C69",
   "status": "proved",
   "theorems": [
    "C69_envelope",
    "C69_warped_is_optimum",
    "C69_symmetric",
    "C69_self_zero",
    "C69_never_negative_or_nan",
    "C69_keogh_admissible",
    "C69_early_abandon",
    "C69_pairwise",
    "C69_no_overflow",
    "C69_overflow_witness",
    "C69_arithmetic",
    "C69_conversions"
   ],
   "note": "Over F32 (Single.v): floats with the usual arithmetic conversions, the band in double. Assumes the float overload of sqrt."
  },
  {
   "property": "C70",
   "status": "proved",
   "theorems": [
    "C70_groups_partition",
    "C70_members_within_half_threshold",
    "C70_match_is_real",
    "C70_best_group_best_member"
   ],
   "note": "Over F32 (Single.v). The session may be any one in which the dataset was grouped earlier and whose ratio is a double; the start of a process is not needed."
  },
  {
   "property": "C71",
   "status": "proved",
   "theorems": [
    "C71_same_or_overflow",
    "C71_nearest",
    "C71_overflow",
    "C71_bad_file_overflows"
   ],
   "note": "Exact arithmetic for the nearest window and for the overflow; C71_same_or_overflow compares the 32-bit search with the unbounded one in any arithmetic."
  },
  {
   "property": "C72",
   "status": "proved",
   "theorems": [
    "C72_every_window_counted",
    "C72_which_count",
    "C72_report",
    "C72_short_file",
    "C72_percentages",
    "C72_empty_file_witness"
   ],
   "note": "Counts in any arithmetic, percentages in exact arithmetic and in doubles. The elapsed time and the text of the numbers are not modelled."
  },
  {
   "property": "C73",
   "status": "proved",
   "theorems": [
    "C73_any_doubles",
    "C73_any_doubles_int",
    "C73_hides_rest_of_chunk",
    "C73_found_is_finite",
    "C73_hides_rest",
    "C73_query_not_finite",
    "C73_envelope_of_anything",
    "C73_comparison_of_nan",
    "C73_constant_query",
    "C73_constant_window",
    "C73_two_numbers_witness"
   ],
   "note": "In doubles, with unbounded and with 32-bit counters; the envelope in any arithmetic. qsort is an argument: the theorems hold for every order of the positions it may leave, but its comparison is undefined on NaN (C73_comparison_of_nan)."
  }
 ]
}