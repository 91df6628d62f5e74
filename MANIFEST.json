{
 "claims": [
  {
   "property": "C01",
   "status": "proved",
   "theorems": [
    "C01_vprec_rne_normal"
   ],
   "note": "both formats; at precision 23/52 only where out-of-range shifts are masked (C09)"
  },
  {
   "property": "C02",
   "status": "partial",
   "theorems": [
    "C02_subnormal_rne_partial",
    "C02_subnormal_tie_refuted"
   ],
   "note": "false as stated at the midpoint between 0 and the smallest subnormal (goes up, not to even); exact everywhere else"
  },
  {
   "property": "C03",
   "status": "proved",
   "theorems": [
    "C03_overflow_iff",
    "C03_specials_unchanged"
   ],
   "note": ""
  },
  {
   "property": "C04",
   "status": "proved",
   "theorems": [
    "C04_representable",
    "C04_members_fixed",
    "C04_idempotent"
   ],
   "note": ""
  },
  {
   "property": "C05",
   "status": "proved",
   "theorems": [
    "C05_monotone"
   ],
   "note": ""
  },
  {
   "property": "C06",
   "status": "partial",
   "theorems": [
    "C06_sign_symmetry_partial",
    "C06_negative_underflow_sign_refuted"
   ],
   "note": "false as stated for the sign of a zero produced by underflow; proved otherwise"
  },
  {
   "property": "C07",
   "status": "proved",
   "theorems": [
    "C07_binary_op_modes",
    "C07_fma_modes",
    "C07_image_unique"
   ],
   "note": "relative error mode; native operation an arbitrary function on bit patterns; every configuration history"
  },
  {
   "property": "C08",
   "status": "proved",
   "theorems": [
    "C08_config_bounds",
    "C08_config_effect",
    "C08_config_accepted"
   ],
   "note": "strtol handler arbitrary"
  },
  {
   "property": "C09",
   "status": "partial",
   "theorems": [
    "C09_default_transparent_partial",
    "C09_default_no_ub_refuted"
   ],
   "note": "transparent where shifts are masked; undefined shift by -1 on every normal result by the C standard"
  },
  {
   "property": "C10",
   "status": "proved",
   "theorems": [
    "C10_flush_keeps_sign",
    "C10_flags_otherwise_irrelevant"
   ],
   "note": ""
  },
  {
   "property": "C100",
   "status": "partial",
   "theorems": [
    "C100_selection_partial",
    "C100_most_recent_refuted",
    "C100_all",
    "C100_nothing_left_refuted"
   ],
   "note": "what the code selects; the documented selection of the most recent runs is refuted"
  },
  {
   "property": "C101",
   "status": "partial",
   "theorems": [
    "C101_age",
    "C101_names_partial",
    "C101_names_made",
    "C101_selectors",
    "C101_mixed_refuted",
    "C101_same_second_refuted"
   ],
   "note": "runs all outside git, all of one commit or all of different commits"
  },
  {
   "property": "C102",
   "status": "partial",
   "theorems": [
    "C102_compare",
    "C102_deterministic",
    "C102_filter_deterministic_refuted"
   ],
   "note": "one row per run, test, variable and backend; the deterministic filter of outliers always raises"
  },
  {
   "property": "C103",
   "status": "partial",
   "theorems": [
    "C103_outliers_partial",
    "C103_aligned",
    "C103_zeros_refuted",
    "C103_compare",
    "C103_tooltip_refuted"
   ],
   "note": "exact arithmetic; zero series and the tooltip columns are refuted"
  },
  {
   "property": "C104",
   "status": "partial",
   "theorems": [
    "C104_names_partial",
    "C104_rows",
    "C104_same_branch_refuted",
    "C104_branch_refuted"
   ],
   "note": "one branch of its own for each repository"
  },
  {
   "property": "C105",
   "status": "partial",
   "theorems": [
    "C105_options_partial",
    "C105_logo_refuted",
    "C105_directory_refuted"
   ],
   "note": "texts that normpath and the shell leave alone"
  },
  {
   "property": "C106",
   "status": "partial",
   "theorems": [
    "C106_view_partial",
    "C106_boxes",
    "C106_labels",
    "C106_labels_refuted",
    "C106_empty_run_refuted",
    "C106_minimum_refuted"
   ],
   "note": "every run has data of non-deterministic backends; one repository; exact arithmetic"
  },
  {
   "property": "C107",
   "status": "partial",
   "theorems": [
    "C107_table_partial",
    "C107_deterministic_refuted",
    "C107_click_refuted"
   ],
   "note": "the table of non-deterministic checks; the deterministic one is refuted"
  },
  {
   "property": "C108",
   "status": "partial",
   "theorems": [
    "C108_report_partial",
    "C108_images_partial",
    "C108_installed_refuted",
    "C108_selection_refuted",
    "C108_operations_only_refuted",
    "C108_overwritten_refuted",
    "C108_argument_name_refuted"
   ],
   "note": "the script src/tools/vfc_report; images when the numbers of the call sites differ; the installed program never writes a report (refuted)"
  },
  {
   "property": "C109",
   "status": "partial",
   "theorems": [
    "C109_functions_partial",
    "C109_calls_partial",
    "C109_case_refuted"
   ],
   "note": "functions that differ by more than the case of letters; call sites with different IDs in the page"
  },
  {
   "property": "C11",
   "status": "proved",
   "theorems": [
    "C11_cast_single_rounding"
   ],
   "note": "ib mode rounds to min(range64,8), min(precision64,23)"
  },
  {
   "property": "C110",
   "status": "partial",
   "theorems": [
    "C110_filters_partial",
    "C110_generated_partial",
    "C110_one_thread",
    "C110_lost_refuted",
    "C110_use_after_free_refuted",
    "C110_hang_refuted"
   ],
   "note": "sequentially consistent memory, one size_t access at a time; with VFC_DDEBUG_GEN and several threads completeness and validity of the accesses are refuted"
  },
  {
   "property": "C111",
   "status": "partial",
   "theorems": [
    "C111_installed",
    "C111_refused",
    "C111_any_stop",
    "C111_untracked_refuted",
    "C111_silent_refuted",
    "C111_again_refuted",
    "C111_other_clone"
   ],
   "note": "git and GitPython are modelled, not verified; publishing only the workflow, the meaning of the success message and keeping results on a second run are refuted"
  },
  {
   "property": "C112",
   "status": "partial",
   "theorems": [
    "C112_branch",
    "C112_one_by_one",
    "C112_overtaken",
    "C112_overlap_refuted",
    "C112_gitlab_address_partial",
    "C112_gitlab_address_refuted"
   ],
   "note": "distinct run file names; that overlapping jobs both upload is refuted; gitlab addresses with a colon are only covered by an example"
  },
  {
   "property": "C113",
   "status": "partial",
   "theorems": [
    "C113_life_partial",
    "C113_twice_refuted",
    "C113_reuse_refuted",
    "C113_fortran_name",
    "C113_fortran_unterminated_refuted",
    "C113_fortran_count_refuted"
   ],
   "note": "the table and its items are never freed; the growth of the table is not followed block by block"
  },
  {
   "property": "C114",
   "status": "partial",
   "theorems": [
    "C114_no_overlap_partial",
    "C114_read_once",
    "C114_told",
    "C114_undisturbed",
    "C114_own_function_refuted",
    "C114_unwritten_refuted",
    "C114_lost_push_refuted",
    "C114_read_twice_refuted"
   ],
   "note": "sequentially consistent memory; the table of functions is not part of this model; the function shown to a backend can be that of another thread"
  },
  {
   "property": "C115",
   "status": "partial",
   "theorems": [
    "C115_answers_partial",
    "C115_apart",
    "C115_torn_refuted",
    "C115_count_refuted",
    "C115_same_function_refuted",
    "C115_half_entry_refuted",
    "C115_growth_refuted"
   ],
   "note": "sequentially consistent memory; removals, and the steps of the growth of a table other than the two states shown, are not part of this model"
  },
  {
   "property": "C12",
   "status": "partial",
   "theorems": [
    "C12_abs_error_bound_partial",
    "C12_subnormal_abs_error_refuted",
    "C12_abs_range_refuted"
   ],
   "note": "normal range proved; below it the exponent is misused as a precision; the emulated range is not enforced afterwards"
  },
  {
   "property": "C13",
   "status": "partial",
   "theorems": [
    "C13_precision_in_force_partial",
    "C13_return_partial",
    "C13_other_modes",
    "C13_untold_caller_refuted",
    "C13_library_caller_refuted",
    "C13_outermost_refuted",
    "C13_collision_refuted"
   ],
   "note": "proved when only functions the backend manages call functions it manages; not restored after a callback from a library, a function without float or double operations, or the outermost function; equal hashes share a configuration"
  },
  {
   "property": "C14",
   "status": "partial",
   "theorems": [
    "C14_inputs_partial",
    "C14_outputs_partial",
    "C14_input_bounds_partial",
    "C14_output_bounds_partial",
    "C14_bounds_exact",
    "C14_array_refuted",
    "C14_special_value_refuted"
   ],
   "note": "scalars and first elements are rounded and covered by the bounds; other elements of arrays are neither; NaN, infinities and values from 2^31 make the recording undefined"
  },
  {
   "property": "C15",
   "status": "partial",
   "theorems": [
    "C15_round_trip_partial",
    "C15_stable_partial",
    "C15_long_name_refuted",
    "C15_unnamed_argument_refuted",
    "C15_unfinished_function_refuted",
    "C15_end_of_file_refuted"
   ],
   "note": "proved for names of at most 255 (functions) and 127 (arguments) bytes and a buffer without twelve words at the end of the file; false outside"
  },
  {
   "property": "C16",
   "status": "partial",
   "theorems": [
    "C16_seeds_distinct",
    "C16_threads_distinct",
    "C16_stuck_iff",
    "C16_stuck_refuted",
    "C16_cross_thread_refuted",
    "C16_clock_refuted"
   ],
   "note": "distinctness proved for every schedule; the all-zero state is reached by exactly one seed per thread number; threads of different seeds can share a stream"
  },
  {
   "property": "C17",
   "status": "partial",
   "theorems": [
    "C17_draw_in_unit_interval",
    "C17_all_values_attained",
    "C17_open_interval_refuted"
   ],
   "note": "proved for [0,1); the documented open interval is false, 0 is drawn"
  },
  {
   "property": "C18",
   "status": "proved",
   "theorems": [
    "C18_reproducible_threads",
    "C18_order_matters_refuted"
   ],
   "note": "every schedule of fewer than 2^31 draws; the order of first draws matters, as stated"
  },
  {
   "property": "C19",
   "status": "partial",
   "theorems": [
    "C19_ieee_mode_exact",
    "C19_ieee_cast",
    "C19_ieee_fma_refuted",
    "C19_special_values_unperturbed",
    "C19_special_operands_partial"
   ],
   "note": "+ - * / and the cast exact in mode ieee; the fma is rounded twice (refuted); special values proved for every mode, special operands up to a draw of exactly 1/2"
  },
  {
   "property": "C20",
   "status": "proved",
   "theorems": [
    "C20_rr_exact_results"
   ],
   "note": "any precision in the documented range; + - * /"
  },
  {
   "property": "C21",
   "status": "partial",
   "theorems": [
    "C21_operation_partial",
    "C21_fma_partial",
    "C21_cast_partial",
    "C21_noise_bound",
    "C21_half_draw_refuted",
    "C21_int_exponent_of_operand_refuted"
   ],
   "note": "relative mode; false when mcaquad draws exactly 1/2 (result infinite) and, for mcaint, near the top of a binade"
  },
  {
   "property": "C22",
   "status": "partial",
   "theorems": [
    "C22_each_value",
    "C22_rr_operation_partial",
    "C22_operation_skipped_refuted"
   ],
   "note": "exact per perturbed value and per operation in mode rr; in mode mca an operation makes three decisions"
  },
  {
   "property": "C23",
   "status": "partial",
   "theorems": [
    "C23_configuration",
    "C23_leading_bits",
    "C23_specials_unchanged",
    "C23_representable_unchanged_partial",
    "C23_subnormal_representable_refuted",
    "C23_operation",
    "C23_fma",
    "C23_cast"
   ],
   "note": "proved except that mode ob does not recognise representable subnormal values (refuted)"
  },
  {
   "property": "C24",
   "status": "proved",
   "theorems": [
    "C24_error_bound",
    "C24_zero_truncates",
    "C24_one_largest",
    "C24_rand_reaches_all"
   ],
   "note": "every operator, mode and draw"
  },
  {
   "property": "C25",
   "status": "partial",
   "theorems": [
    "C25_other_operations_ieee",
    "C25_no_cancellation_ieee",
    "C25_cancellation_noise_partial",
    "C25_exact_zero_refuted",
    "C25_small_cancellation_refuted",
    "C25_near_underflow_refuted"
   ],
   "note": "first two parts proved; the noise bound holds when half of the significand is lost and is false for exact zeros, small cancellations and near underflow"
  },
  {
   "property": "C26",
   "status": "partial",
   "theorems": [
    "C26_predicates_partial",
    "C26_unordered_predicates",
    "C26_unordered_predicates_refuted"
   ],
   "note": "ten predicates right; the six unordered-or predicates only test for NaN"
  },
  {
   "property": "C27",
   "status": "proved",
   "theorems": [
    "C27_counts_exact",
    "C27_counts_modulo",
    "C27_not_counting"
   ],
   "note": "any schedule, any number of threads; fewer than 2^63 calls of a kind, modulo 2^64 otherwise"
  },
  {
   "property": "C28",
   "status": "proved",
   "theorems": [
    "C28_text_denotes_value",
    "C28_text_unambiguous",
    "C28_injective",
    "C28_special",
    "C28_nan_sign_refuted",
    "C28_fits_buffer"
   ],
   "note": "both output styles; NaNs all print alike"
  },
  {
   "property": "C29",
   "status": "proved",
   "theorems": [
    "C29_hashmap_finite_map",
    "C29_hashmap_multimap",
    "C29_hashmap_terminates"
   ],
   "note": "insertion histories up to 912680550 insertions (the 31-bit shift limit); values pairwise distinct, see C52"
  },
  {
   "property": "C30",
   "status": "partial",
   "theorems": [
    "C30_hashmap_removal_partial",
    "C30_removed_key_absent_refuted",
    "C30_remove_absent_count_refuted"
   ],
   "note": "false as stated: a removed key is still found as the tombstone 1, and removing an absent key changes the count; everything else proved"
  },
  {
   "property": "C31",
   "status": "partial",
   "theorems": [
    "C31_hashset_adds",
    "C31_hashset_history_partial",
    "C31_hashset_removal_refuted"
   ],
   "note": "exact for additions; with removals no false negatives; false as stated with removals (duplicate storage)"
  },
  {
   "property": "C32",
   "status": "proved",
   "theorems": [
    "C32_probes_exported_once",
    "C33_refusals_sound"
   ],
   "note": "names without newline; %a is an arbitrary formatting function without comma/newline"
  },
  {
   "property": "C33",
   "status": "partial",
   "theorems": [
    "C33_duplicates_refused_partial",
    "C33_refusals_sound",
    "C33_duplicate_refused_refuted"
   ],
   "note": "exact when distinct names have distinct hashes; false as stated with a hash collision"
  },
  {
   "property": "C34",
   "status": "proved",
   "theorems": [
    "C34_each_backend_once",
    "C34_load_order",
    "C34_last_decides",
    "C34_last_decides_others",
    "C34_always_a_result"
   ],
   "note": "backends are arbitrary state transformers"
  },
  {
   "property": "C35",
   "status": "proved",
   "theorems": [
    "C35_lanes_in_order",
    "C35_lane_states"
   ],
   "note": "any width"
  },
  {
   "property": "C36",
   "status": "partial",
   "theorems": [
    "C36_filters",
    "C36_generated_sites",
    "C36_generate_then_include",
    "C36_generate_over_old_file_refuted",
    "C36_long_line_refuted",
    "C36_excluded_fma_refuted"
   ],
   "note": "proved for scalar arithmetic, lines below 2048 bytes and one thread; generation does not empty an older file; an excluded fma is unfused; comparisons and casts are not filtered at all"
  },
  {
   "property": "C37",
   "status": "partial",
   "theorems": [
    "C37_loaded_as_written",
    "C37_sound",
    "C37_memory_safe_partial",
    "C37_overflow_refuted",
    "C37_too_many_refused",
    "C37_precedence",
    "C37_blank_part_refused"
   ],
   "note": "a backend with exactly 256 words writes one past the argument array"
  },
  {
   "property": "C38",
   "status": "partial",
   "theorems": [
    "C38_user_call_independent",
    "C38_function_instrumentation_partial",
    "C38_function_instrumentation_refuted"
   ],
   "note": "proved for interflop_call; function instrumentation shares one va_list: right with one backend, false with two"
  },
  {
   "property": "C39",
   "status": "partial",
   "theorems": [
    "C39_call_stack_partial",
    "C39_any_history",
    "C39_call_stack_refuted"
   ],
   "note": "exact when identifiers have distinct hashes; with equal hashes the stack shows another function"
  },
  {
   "property": "C40",
   "status": "proved",
   "theorems": [
    "C40_ddmin_one_minimal",
    "C40_preconditions_checked"
   ],
   "note": "sequential sampling; any sample outcomes, any consistent cache; duplicate-free delta lists"
  },
  {
   "property": "C41",
   "status": "proved",
   "theorems": [
    "C41_ddmax_one_maximal"
   ],
   "note": "sequential sampling"
  },
  {
   "property": "C42",
   "status": "proved",
   "theorems": [
    "C42_rddmin"
   ],
   "note": "sequential sampling"
  },
  {
   "property": "C43",
   "status": "proved",
   "theorems": [
    "C43_split_partition",
    "C43_split_balanced"
   ],
   "note": ""
  },
  {
   "property": "C44",
   "status": "proved",
   "theorems": [
    "C44_lookup_last_recorded",
    "C44_order_refuted"
   ],
   "note": "configuration = list of deltas in the given order; as a set the claim is false (second theorem)"
  },
  {
   "property": "C45",
   "status": "partial",
   "theorems": [
    "C45_session_verdicts",
    "C45_retest_stable",
    "C45_parallel_retest_refuted",
    "C45_interrupted_session_refuted"
   ],
   "note": "proved for sequential sampling and uninterrupted sessions; false with parallel sampling and after an interrupted session: the re-test raises"
  },
  {
   "property": "C46",
   "status": "partial",
   "theorems": [
    "C46_search_operations",
    "C46_search_arguments",
    "C46_search_any_oracle",
    "C46_no_valid_value_refuted",
    "C46_exploration"
   ],
   "note": "minimality and termination proved for each search and the whole exploration; with no valid value the search never ends instead of failing"
  },
  {
   "property": "C47",
   "status": "partial",
   "theorems": [
    "C47_scalar_bounds_partial",
    "C47_scalar_minimum_partial",
    "C47_float_array_refuted",
    "C47_double_array_refuted"
   ],
   "note": "right for scalars; float arrays are searched as doubles and double arrays are not searched: the type codes differ from VPREC's"
  },
  {
   "property": "C48",
   "status": "partial",
   "theorems": [
    "C48_selection_partial",
    "C48_errors",
    "C48_special_characters_refuted",
    "C48_indented_entry_refuted",
    "C48_any_module_refuted"
   ],
   "note": "proved for patterns of ordinary characters, '.' and '*'; false for other characters special to regular expressions, indented entries and sources without '.' in their path"
  },
  {
   "property": "C49",
   "status": "partial",
   "theorems": [
    "C49_pow2i_exact_partial",
    "C49_pow2i_overflow_refuted"
   ],
   "note": "exact unless i + bias overflows int"
  },
  {
   "property": "C50",
   "status": "partial",
   "theorems": [
    "C50_fpclassify_partial",
    "C50_isnan_isinf_refuted"
   ],
   "note": "interflop_isnan/isinf always answer false; the FPCLASSIFY macro is right"
  },
  {
   "property": "C51",
   "status": "partial",
   "theorems": [
    "C51_representable_normal_partial",
    "C51_representable_sound",
    "C51_representable_subnormal_refuted"
   ],
   "note": "exact on normal numbers, sound on all, incomplete on subnormals"
  },
  {
   "property": "C52",
   "status": "partial",
   "theorems": [
    "C52_shared_value_refuted"
   ],
   "note": "false: a value already on the probe path makes the insertion a no-op"
  },
  {
   "property": "C53",
   "status": "partial",
   "theorems": [
    "C53_option_values_partial",
    "C53_option_wraps_refuted"
   ],
   "note": "values are truncated to int before the range check"
  },
  {
   "property": "C54",
   "status": "partial",
   "theorems": [
    "C54_push_seed_refuted"
   ],
   "note": "false: once a thread has drawn, push_seed has no effect"
  },
  {
   "property": "C55",
   "status": "partial",
   "theorems": [
    "C55_high_precision_no_noise_partial",
    "C55_quad_refuted",
    "C55_int_undefined_refuted"
   ],
   "note": "mcaquad: true from three digits above the maximum up to 480/13000, false beyond; mcaint: undefined behaviour at maximum + 1"
  },
  {
   "property": "C56",
   "status": "partial",
   "theorems": [
    "C56_user_inexact_partial",
    "C56_untouched"
   ],
   "note": "precision at most 480/13000; not for a draw of exactly 1/2"
  },
  {
   "property": "C57",
   "status": "partial",
   "theorems": [
    "C57_defaults_ieee",
    "C57_explicit_default_refuted"
   ],
   "note": "defaults are transparent; the explicit default masks one more bit"
  },
  {
   "property": "C58",
   "status": "partial",
   "theorems": [
    "C58_flush_exactly_subnormals",
    "C58_ftz_no_subnormal_result",
    "C58_daz_operands_zero",
    "C58_flush_keeps_sign_refuted",
    "C58_cast_ftz_refuted"
   ],
   "note": "exactly the subnormals are flushed, for the operations of all modes; the sign is lost, and casts still return subnormals with --ftz"
  },
  {
   "property": "C59",
   "status": "partial",
   "theorems": [
    "C59_accepted_configuration_refuted",
    "C59_valid_operator_safe"
   ],
   "note": "false for the operator sentinel; proved for the three documented operators"
  },
  {
   "property": "C60",
   "status": "partial",
   "theorems": [
    "C60_queries_sound",
    "C60_subset_missed_refuted",
    "C60_superset_raises_refuted",
    "C60_superset_missed_refuted"
   ],
   "note": "answers are sound; both queries miss recorded configurations and the superset query raises"
  },
  {
   "property": "C61",
   "status": "proved",
   "theorems": [
    "C61_srddmin"
   ],
   "note": "sequential sampling; the largest count is the last of the table"
  },
  {
   "property": "C62",
   "status": "partial",
   "theorems": [
    "C62_drddmin",
    "C62_granularity_one_refuted"
   ],
   "note": "proved for granularity at least 2; does not terminate for granularity 1"
  },
  {
   "property": "C63",
   "status": "proved",
   "theorems": [
    "C63_results_correctly_rounded",
    "C63_cast_correctly_rounded"
   ],
   "note": "relative to correctly rounded machine arithmetic"
  },
  {
   "property": "C64",
   "status": "partial",
   "theorems": [
    "C64_operations_readable_partial",
    "C64_arguments_refuted",
    "C64_exploration_never_ends_refuted"
   ],
   "note": "readable when no function has arguments; any argument line makes the file unreadable and the exploration endless"
  },
  {
   "property": "C65",
   "status": "proved",
   "theorems": [
    "C65_profile_read",
    "C65_configuration_written"
   ],
   "note": "functions named File/Parent/Name/Line/Number as verificarlo does, argument names without blanks; ASCII"
  },
  {
   "property": "C66",
   "status": "partial",
   "theorems": [
    "C66_function_partial",
    "C66_function_dot_refuted"
   ],
   "note": "proved for names without characters special to regular expressions; false with '.'"
  },
  {
   "property": "C67",
   "status": "partial",
   "theorems": [
    "C67_block_partial",
    "C67_role_unique",
    "C67_order_independent",
    "C67_two_floats_refuted",
    "C67_two_floats_comparison_refuted"
   ],
   "note": "proved when the results of the wrappers need no coercion; on x86-64 the result of <2 x float> wrappers is dropped"
  },
  {
   "property": "C68",
   "status": "partial",
   "theorems": [
    "C68_ieee_transparent_partial",
    "C68_unordered_or_equal_refuted"
   ],
   "note": "proved without instrumented 'unordered or' comparisons, which the IEEE backend gets wrong"
  },
  {
   "property": "C69",
   "status": "partial",
   "theorems": [
    "C69_mca_partial",
    "C69_mca_invariant",
    "C69_large_precision_refuted",
    "C69_nan_sparsity_refuted",
    "C69_bitmask_partial",
    "C69_cancellation_partial",
    "C69_cancellation_tolerance",
    "C69_warning_argument_refuted",
    "C69_configure_tolerance_refuted"
   ],
   "note": "proved for numbers that fit in an int and reals that are not NaN; precisions are cut to 32 bits before being tested, a NaN sparsity is accepted, --warning ignores its argument and cancellation's configure does not test the tolerance"
  },
  {
   "property": "C70",
   "status": "partial",
   "theorems": [
    "C70_module_partial",
    "C70_marking_unique",
    "C70_budget"
   ],
   "note": "proved for modules whose external functions do not call back, under the signature condition of C67"
  },
  {
   "property": "C71",
   "status": "partial",
   "theorems": [
    "C71_ieee_program_partial"
   ],
   "note": "proved without instrumented 'unordered or' comparisons; external functions do not call back"
  },
  {
   "property": "C72",
   "status": "partial",
   "theorems": [
    "C72_function_pass_partial"
   ],
   "note": "missing: programs that call main, main with float or double parameters, function attributes, invoke instructions"
  },
  {
   "property": "C73",
   "status": "partial",
   "theorems": [
    "C73_passive_transparent_partial"
   ],
   "note": "as C72; external functions do not look at the backends' state"
  },
  {
   "property": "C74",
   "status": "partial",
   "theorems": [
    "C74_ids_unique",
    "C74_call_ids_unique",
    "C74_across_modules_refuted"
   ],
   "note": "proved in one module; refuted for a program of several modules"
  },
  {
   "property": "C75",
   "status": "partial",
   "theorems": [
    "C75_pass_succeeds",
    "C75_never_double_array",
    "C75_pass_through_refuted",
    "C75_indirect_call_refuted",
    "C75_double_array_refuted",
    "C75_main_not_selected_refuted"
   ],
   "note": "proved without indirect calls in callees and where the search for the origin of pointers ends; the general claim is refuted, double arrays are always described as floats"
  },
  {
   "property": "C76",
   "status": "proved",
   "theorems": [
    "C76_value_text_roundtrip"
   ],
   "note": ""
  },
  {
   "property": "C77",
   "status": "partial",
   "theorems": [
    "C77_probes_read_back_partial",
    "C77_nan_aborts_refuted",
    "C77_infinite_aborts_refuted",
    "C77_name_lost_refuted",
    "C77_numeric_names_merged_refuted",
    "C77_boolean_names_refuted"
   ],
   "note": "printable names without quotes; at least one name per column not a number, at least one finite value and threshold; the excluded cases are refuted"
  },
  {
   "property": "C78",
   "status": "partial",
   "theorems": [
    "C78_samples_grouped_partial",
    "C78_silent_runs_reported",
    "C78_repetitions_end_to_end_partial",
    "C78_executables_merged_refuted"
   ],
   "note": "executables with a common variable are merged (refuted); names as read by pandas"
  },
  {
   "property": "C79",
   "status": "partial",
   "theorems": [
    "C79_truncated_file_partial",
    "C79_missing_probes_unnoticed_refuted",
    "C79_failed_check_passes_refuted"
   ],
   "note": "truth of the rows proved; that missing rows are reported is refuted"
  },
  {
   "property": "C80",
   "status": "partial",
   "theorems": [
    "C80_deterministic_checks_partial",
    "C80_cancelling_thresholds_refuted",
    "C80_zero_reference_aborts_refuted",
    "C80_reference_by_position_refuted"
   ],
   "note": "thresholds that are not negative, any order of the additions; references by row number"
  },
  {
   "property": "C81",
   "status": "proved",
   "theorems": [
    "C81_sample_checks",
    "C81_exact_samples_fail_refuted"
   ],
   "note": "mean and standard deviation are arbitrary functions"
  },
  {
   "property": "C82",
   "status": "partial",
   "theorems": [
    "C82_sources_instrumented_partial",
    "C82_objects_instrumented_partial",
    "C82_cxx_extension_refuted",
    "C82_same_object_refuted",
    "C82_assembly_refuted"
   ],
   "note": "file names and installation paths without characters special to the shell, temporary names and objects distinct; the excluded cases are refuted"
  },
  {
   "property": "C83",
   "status": "partial",
   "theorems": [
    "C83_no_argument_lost",
    "C83_options_unchanged_partial",
    "C83_quote_refuted",
    "C83_blank_in_name_refuted",
    "C83_separate_library_refuted"
   ],
   "note": "single quotes in options and blanks in names excluded (refuted); the second theorem for command lines that link"
  },
  {
   "property": "C84",
   "status": "partial",
   "theorems": [
    "C84_options_agree_partial",
    "C84_selection_partial"
   ],
   "note": "command lines that link, without the PRISM backend"
  },
  {
   "property": "C85",
   "status": "proved",
   "theorems": [
    "C85_failure_stops",
    "C85_success_means_all"
   ],
   "note": "which commands fail is an arbitrary function of their position and text"
  },
  {
   "property": "C86",
   "status": "partial",
   "theorems": [
    "C86_conflicts_refused",
    "C86_emit_llvm_refuted",
    "C86_no_input_refuted"
   ],
   "note": "two cases where the driver misses the conflict are refuted"
  },
  {
   "property": "C87",
   "status": "partial",
   "theorems": [
    "C87_module_partial",
    "C87_marking_unique",
    "C87_modified_refuted",
    "C87_vector2_refuted"
   ],
   "note": "functions of the library that follow the calling conventions of their signature (`conforms`), no scalable vectors; refuted: the pass tells LLVM that it has changed nothing; a function on <2 x float> with vector parameters is given doubles"
  },
  {
   "property": "C88",
   "status": "proved",
   "theorems": [
    "C88_names_injective",
    "C88_no_confusion",
    "C88_calls",
    "C88_overload_refuted"
   ],
   "note": "refuted: with two overloads of one name the last one of the file is taken, the parameters are not looked at"
  },
  {
   "property": "C89",
   "status": "partial",
   "theorems": [
    "C89_parsed",
    "C89_extensions",
    "C89_callee_runs",
    "C89_other_features_refuted",
    "C89_registers_refuted",
    "C89_no_attribute_refuted"
   ],
   "note": "for the extensions SSE to AVX512F; the cases left out are refuted"
  },
  {
   "property": "C90",
   "status": "partial",
   "theorems": [
    "C90_strict",
    "C90_lenient",
    "C90_incompatible_refuted",
    "C90_other_types_refuted"
   ],
   "note": "refuted for incompatible target features and for types outside the supported ones"
  },
  {
   "property": "C91",
   "status": "proved",
   "theorems": [
    "C91_selection"
   ],
   "note": "relative to the selection of the other pass (C48, C66)"
  },
  {
   "property": "C92",
   "status": "partial",
   "theorems": [
    "C92_driver_partial",
    "C92_fcmp_refuted"
   ],
   "note": "command lines that link; refuted with --inst-fcmp"
  },
  {
   "property": "C93",
   "status": "proved",
   "theorems": [
    "C93_environment",
    "C93_command_line",
    "C93_tables",
    "C93_dicho_int_refuted"
   ],
   "note": "refuted: an integer for DD_DICHO_TAB"
  },
  {
   "property": "C94",
   "status": "proved",
   "theorems": [
    "C94_minimal_groups",
    "C94_maximal_set",
    "C94_nothing_to_debug",
    "C94_merged_list",
    "C94_report_conditions",
    "C94_granularity_one_refuted",
    "C94_stale_results_refuted"
   ],
   "note": "sequential samples (parallel ones: C45_parallel_retest_refuted), MD5 taken to be injective; refuted: results of earlier sessions, granularity 1"
  },
  {
   "property": "C95",
   "status": "partial",
   "theorems": [
    "C95_stochastic_rounding_partial",
    "C95_fma_partial",
    "C95_probability_partial",
    "C95_int_partial",
    "C95_int_fma_partial",
    "C95_int_probability_partial",
    "C95_cast_deterministic",
    "C95_power_of_two_refuted",
    "C95_subnormal_refuted"
   ],
   "note": "exact results with a power of two as the neighbour nearer to zero, and subnormal ones, are excluded since the property fails there (refuted for mcaquad); mcaquad: the draw 1/2 is excluded from the pointwise theorem (counted as unknown in the probability)"
  },
  {
   "property": "C96",
   "status": "proved",
   "theorems": [
    "C96_set_handler",
    "C96_string_equal",
    "C96_program",
    "C96_checks_sufficient",
    "C96_checks_refuted",
    "C96_long_equal_refuted"
   ],
   "note": "the lists of handlers used by each backend are read off its sources; the panic handler is taken not to return"
  },
  {
   "property": "C97",
   "status": "proved",
   "theorems": [
    "C97_info",
    "C97_warning_error",
    "C97_one_place",
    "C97_init",
    "C97_suppress_refuted",
    "C97_label_refuted",
    "C97_long_name_refuted",
    "C97_open_message_refuted"
   ],
   "note": "messages are given formatted; one thread; writes are taken to succeed"
  },
  {
   "property": "C98",
   "status": "partial",
   "theorems": [
    "C98_structure_partial",
    "C98_postprocess",
    "C98_python3_refuted",
    "C98_float64_refuted",
    "C98_reference_refuted",
    "C98_same_name_refuted",
    "C98_points_refuted"
   ],
   "note": "the Python 2 script; the installed Python 3 program fails on every file with a Float32 array"
  },
  {
   "property": "C99",
   "status": "partial",
   "theorems": [
    "C99_mean_std",
    "C99_digits_partial",
    "C99_invariant",
    "C99_negative_refuted",
    "C99_zero_refuted"
   ],
   "note": "exact arithmetic; positive means: negative ones are always reported with 0 digits"
  }
 ]
}