{
 "claims": [
  {
   "property": "C01",
   "status": "proved",
   "theorems": [
    "C01_dtw_is_the_optimum"
   ],
   "note": "exact extended-real arithmetic; lengths 2..2^30; ratio*length must fit int"
  },
  {
   "property": "C02",
   "status": "proved",
   "theorems": [
    "C02_ieee_dtw_is_a_path_cost",
    "C02_no_overflow_for_moderate_data",
    "C02_overflow_refuted"
   ],
   "note": "IEEE binary64 (Flocq); C02_overflow_refuted shows that the no-overflow hypothesis is needed"
  },
  {
   "property": "C03",
   "status": "proved",
   "theorems": [
    "C03_dtw_cutoff_sound",
    "C03_one_point_series_refuted"
   ],
   "note": "lengths >= 2 as stated; the _refuted theorem shows the claim fails for one-point series"
  },
  {
   "property": "C04",
   "status": "proved",
   "theorems": [
    "C04_pairwise_cutoff_ieee",
    "C04_pairwise_cutoff_euclidean_exact",
    "C04_pairwise_cutoff_euclidean_ieee_partial",
    "C04_euclidean_ieee_refuted",
    "C04_length_mismatch_throws",
    "C51_euclidean_cutoff_near_exact"
   ],
   "note": "as stated (euclidean in exact arithmetic); in IEEE arithmetic euclidean returns the uncut value or infinity, C04_euclidean_ieee_refuted shows rounding can hide a value equal to the cut-off, and C51_euclidean_cutoff_near_exact that this happens only within rounding distance of it"
  },
  {
   "property": "C05",
   "status": "proved",
   "theorems": [
    "C05_pairwise_textbook",
    "C05_pairwise_metric_axioms"
   ],
   "note": "exact arithmetic"
  },
  {
   "property": "C06",
   "status": "proved",
   "theorems": [
    "C06_dtw_symmetric_exact",
    "C06_dtw_self_zero_ieee",
    "C06_dtw_nonnegative_ieee",
    "C51_dtw_near_symmetric"
   ],
   "note": "symmetry in exact arithmetic, in IEEE arithmetic up to rounding"
  },
  {
   "property": "C07",
   "status": "proved",
   "theorems": [
    "C07_envelope_is_sliding_min_max"
   ],
   "note": "IEEE doubles without NaN; any length >= 1 and any band >= 0"
  },
  {
   "property": "C08",
   "status": "proved",
   "theorems": [
    "C08_lower_bounds"
   ],
   "note": "IEEE doubles; the crossed bound may report infinity, then the cut-off is below the DTW distance"
  },
  {
   "property": "C09",
   "status": "proved",
   "theorems": [
    "C09_cascade_lossless"
   ],
   "note": "IEEE doubles"
  },
  {
   "property": "C10",
   "status": "proved",
   "theorems": [
    "C10_band_between_0_and_length",
    "C10_band_defined",
    "C10_band_monotone",
    "C10_band_unrestricted",
    "C10_negative_ratio_gives_infinity"
   ],
   "note": "IEEE doubles"
  },
  {
   "property": "C11",
   "status": "proved",
   "theorems": [
    "C11_matching_legal_and_optimal",
    "C11_matching_legal_ieee"
   ],
   "note": ""
  },
  {
   "property": "C12",
   "status": "partial",
   "theorems": [
    "C12_matching_leaves_band_refuted",
    "C11_matching_legal_ieee"
   ],
   "note": "refuted: with the default ratio 0.1 the matching of [1,2,3,4,5] and [1,1,2,3,7] leaves the band and its cost is not the returned distance; what holds for every band is that the matching is a legal alignment (C11_matching_legal_ieee)"
  },
  {
   "property": "C13",
   "status": "partial",
   "theorems": [
    "C13_cosine_self_distance_refuted",
    "C13_cosine_nan_refuted",
    "C13_sorensen_dtw_null_dereference_refuted",
    "C13_sorensen_dtw_infinite_loop_refuted",
    "C13_cosine_dtw_infinite_loop_refuted",
    "C13_sorensen_cutoff_refuted",
    "C13_basic_self_distance_partial"
   ],
   "note": "refuted: cosine and sorensen (self distance 1, NaN, null dereference, infinite loop, unsound cut-off); proved for the basic metrics"
  },
  {
   "property": "C14",
   "status": "partial",
   "theorems": [
    "C14_value_independent_of_history",
    "C14_query_distance_independent_of_history",
    "C14_memory_grows_refuted"
   ],
   "note": "value independence proved for all ten names; refuted: the shared default matching vector grows with every DTW call"
  },
  {
   "property": "C15",
   "status": "proved",
   "theorems": [
    "C15_names_resolve",
    "C15_names_select_their_metric",
    "C15_listed_names"
   ],
   "note": ""
  },
  {
   "property": "C16",
   "status": "proved",
   "theorems": [
    "C16_grouping_partitions",
    "C16_infinite_threshold_refuted"
   ],
   "note": "any arithmetic satisfying the laws (IEEE doubles and exact), five metrics; threshold/2 must be below infinity: C16_infinite_threshold_refuted shows an uninitialised read otherwise. log_safe excludes the division by zero of C21"
  },
  {
   "property": "C17",
   "status": "proved",
   "theorems": [
    "C17_group_radius",
    "C17_group_diameter"
   ],
   "note": "radius in IEEE doubles for the three basic metrics; diameter in exact arithmetic"
  },
  {
   "property": "C18",
   "status": "proved",
   "theorems": [
    "C18_leader_clustering_ieee",
    "C18_leader_clustering_exact"
   ],
   "note": "manhattan and chebyshev in IEEE doubles; all three in exact arithmetic"
  },
  {
   "property": "C19",
   "status": "proved",
   "theorems": [
    "C19_member_lists"
   ],
   "note": ""
  },
  {
   "property": "C20",
   "status": "proved",
   "theorems": [
    "C20_finishes",
    "C20_same_result",
    "C20_every_length_once",
    "C20_can_finish",
    "C20_same_exception"
   ],
   "note": "all schedules of the pool as a transition system, all thread counts >= 1; the number of steps is bounded up to spurious wake-ups; sequentially consistent memory; same preconditions as C16, the clock as in C21; with exceptions in some lengths the exception and the count agree (C20_same_exception)"
  },
  {
   "property": "C21",
   "status": "partial",
   "theorems": [
    "C21_clock_dependent_refuted",
    "C21_clock_independent_partial"
   ],
   "note": "refuted: the progress log divides by zero on data sets with fewer than five (series x start) slots of some length; proved independent of the clock for data sets with no series, or at least five and fewer than 21474840 slots (for more slots see C68)"
  },
  {
   "property": "C22",
   "status": "proved",
   "theorems": [
    "C22_traverse_order_ieee",
    "C22_traverse_order_exact",
    "C22_long_series_refuted"
   ],
   "note": "IEEE doubles for series of at most 2^26 points and exact arithmetic for all lengths, any ratio >= 0 for which the band fits an int. With doubles and series of 2^30+10 points the rounded band can jump by two and a compatible length is missed: C22_long_series_refuted shows the length bound is needed."
  },
  {
   "property": "C23",
   "status": "proved",
   "theorems": [
    "C23_best_match_ieee",
    "C23_best_match_exact"
   ],
   "note": "For all grouped data sets of moderate size and all query histories, in IEEE doubles (series up to 2^26 points, |values| <= 2^490) and in exact arithmetic. A query longer than the longest series, or with no subsequence of a searched length, is undefined behaviour in the code (C34)."
  },
  {
   "property": "C24",
   "status": "proved",
   "theorems": [
    "C24_k_similar_ieee",
    "C24_k_similar_exact"
   ],
   "note": "For all grouped data sets, query histories, 1 <= k <= ke and any implementation of the standard heap and sort algorithms, in IEEE doubles (sizes as C23) and exact arithmetic; distances of searched subsequences must not be nearly equal (see C26, C27), and at least k must be available."
  },
  {
   "property": "C25",
   "status": "partial",
   "theorems": [
    "C25_no_fabrication_refuted",
    "C25_short_answer_ieee",
    "C25_short_answer_exact"
   ],
   "note": "refuted: vector::resize(k) appends default entries of length 0 at distance 0 when fewer than k subsequences are available; C25_short_answer_* prove the exact form of the answer in that case (all available ones, ascending, then the fabricated ones)."
  },
  {
   "property": "C26",
   "status": "proved",
   "theorems": [
    "C26_brute_force_exact_ieee",
    "C26_brute_force_exact_reals",
    "C26_nonpositive_k_throws",
    "C26_near_ties_refuted"
   ],
   "note": "euclidean, manhattan, chebyshev; IEEE doubles (values up to 2^490, lengths 2..2^30, ratio in [0,1]) and exact arithmetic, any implementation of the standard heap and sort algorithms; C26_near_ties_refuted shows the hypothesis about near ties is needed (undefined behaviour in std::make_heap)"
  },
  {
   "property": "C27",
   "status": "partial",
   "theorems": [
    "C27_order_not_transitive_refuted",
    "C27_strict_weak_order_partial"
   ],
   "note": "refuted: the tolerance EPS makes the order cyclic on three candidates; proved to be a strict weak order on candidates whose distances are pairwise equal or at least EPS apart"
  },
  {
   "property": "C28",
   "status": "proved",
   "theorems": [
    "C28_normalise",
    "C28_overflow_refuted"
   ],
   "note": "IEEE doubles. C28_overflow_refuted shows that the hypothesis that max - min does not overflow is needed."
  },
  {
   "property": "C29",
   "status": "proved",
   "theorems": [
    "C29_load_table",
    "C29_every_file",
    "C29_unreadable"
   ],
   "note": "text to number conversion (std::stod) is a parameter; table with at least one line, rows*columns within int; needed preconditions shown by C29_needs_start, C29_needs_fields, C29_needs_new_object"
  },
  {
   "property": "C30",
   "status": "proved",
   "theorems": [
    "C30_save_reload",
    "C30_lossless",
    "C30_calls"
   ],
   "note": "for every printing and parsing function; names and printed values are non-empty and free of separator and newline"
  },
  {
   "property": "C31",
   "status": "proved",
   "theorems": [
    "C31_subsequence_extraction"
   ],
   "note": "any number system"
  },
  {
   "property": "C32",
   "status": "proved",
   "theorems": [
    "C32_registry",
    "C32_unknown",
    "C32_duplicate",
    "C32_load",
    "C32_others",
    "C32_values"
   ],
   "note": "all histories of API calls that return or raise an exception; any number system. C32_values: the values of a data set are changed by normalising that data set only"
  },
  {
   "property": "C33",
   "status": "partial",
   "theorems": [
    "C33_failed_grouping_refuted",
    "C33_failed_loading_partial",
    "C33_retry_partial"
   ],
   "note": "refuted: a grouping that fails (unknown metric, no threads) leaves the data set marked as grouped with no groups; asking for its info reads an uninitialised variable and every query on it is undefined behaviour. Proved: a group file that is missing or made for other dimensions leaves everything unchanged, and grouping again gives what it would have given without the failure"
  },
  {
   "property": "C34",
   "status": "partial",
   "theorems": [
    "C34_best_match_partial",
    "C34_k_best_partial",
    "C34_brute_force_partial",
    "C34_bad_arguments_partial",
    "C34_nothing_near_refuted",
    "C34_long_query_refuted",
    "C34_nothing_examined_refuted"
   ],
   "note": "refuted: undefined behaviour for every best-match query longer than the longest series (C34_long_query_refuted), with no subsequence of a searched length (C34_nothing_near_refuted), and for k-best with nothing to examine (C34_nothing_examined_refuted). Proved: outside these cases best match, k-best and the exhaustive search answer, after any history in which the data set was grouped and then only queried; wrong arguments raise the library's exception"
  },
  {
   "property": "C35",
   "status": "partial",
   "theorems": [
    "C35_save_load",
    "C35_rejects",
    "C35_best_unchanged_ieee",
    "C35_best_unchanged_exact",
    "C35_answers_ieee",
    "C35_answers_exact",
    "C35_calls",
    "C35_resave_refuted"
   ],
   "note": "refuted: groups of whole series that come from a file cannot be saved again, a null pointer is dereferenced (C35_resave_refuted). Proved for all other histories of grouping, queries, saving and loading: the same metric, threshold, number of groups, representatives, counts and member sets; best-match distances unchanged; C23 and C24 hold after loading; files for other dimensions are refused with the dataset unchanged"
  },
  {
   "property": "C36",
   "status": "partial",
   "theorems": [
    "C36_block_averages_partial",
    "C36_series_averages",
    "C36_leftover_refuted",
    "C36_prepare_refuted"
   ],
   "note": "refuted: for every subsequence whose length is not a multiple of the block size the last block is summed in an uninitialised variable (C36_leftover_refuted); preparation reads lengths[maxLength] and is out of bounds unless there are more series than points (C36_prepare_refuted). Proved: block averages for all multiples of the block size on equally long series (C36_block_averages_partial) and of whole series (C36_series_averages)"
  },
  {
   "property": "C37",
   "status": "partial",
   "theorems": [
    "C37_stale_preparation_refuted",
    "C37_not_prepared_partial",
    "C37_prepare_partial",
    "C37_prepare_refuted",
    "C37_refused"
   ],
   "note": "refuted: unloading does not forget the preparation, so preparing or searching a data set loaded later under that name uses freed memory (C37_stale_preparation_refuted); preparing is out of bounds unless there are more series than points (C37_prepare_refuted). Proved: names never prepared raise 'not prepared'; preparing works on wide enough data sets not unloaded since the first preparation"
  },
  {
   "property": "C38",
   "status": "partial",
   "theorems": [
    "C38_envelope_is_current_partial",
    "C38_element_write_refuted",
    "C38_dataset_write_refuted",
    "C38_assignment_refuted",
    "C38_move_assignment_refuted",
    "C38_shared_addition_refuted"
   ],
   "note": "refuted: the cached envelope stays after an element write, a write into the data set (normalising), an assignment, and an addition to a series sharing points. Proved for all histories without such operations on a series whose envelope is cached (the target of += may be cached)"
  },
  {
   "property": "C39",
   "status": "partial",
   "theorems": [
    "C39_copy",
    "C39_assign_partial",
    "C39_move_partial",
    "C39_elements",
    "C39_add_partial",
    "C39_add_needs_equal_lengths",
    "C39_equal_partial",
    "C39_assign_lengths_refuted",
    "C39_self_assign_refuted",
    "C39_assign_window_refuted",
    "C39_overlapping_add_refuted",
    "C39_equal_windows_refuted",
    "C39_equal_itself",
    "C39_equal_moved",
    "C39_equal_symmetric",
    "C39_equal_nan_refuted",
    "C39_average_refuted"
   ],
   "note": "refuted: assignment between series with their own memory and different lengths, or to itself, or from a window of its own memory; addition of a series that begins before the target and overlaps it; windows of one row always compare equal; a point that is not a number compares equal to every point (C39_equal_nan_refuted); the average always reads an uninitialised variable. Proved: copies for all histories, the exception for different lengths, and assignment, move, addition, equality under the conditions excluding these cases; equality is reflexive and symmetric, also for series emptied by a move (C39_equal_itself, C39_equal_symmetric, C39_equal_moved)"
  },
  {
   "property": "C40",
   "status": "partial",
   "theorems": [
    "C40_line",
    "C40_session",
    "C40_idle",
    "C40_no_command",
    "C40_arguments",
    "C40_not_a_number",
    "C40_no_threshold",
    "C40_harmless",
    "C40_defined_refuted"
   ],
   "note": "refuted: a line can leave defined behaviour inside the library, e.g. list dataset after a group command that failed (C40_defined_refuted). Proved for all histories: the session is over exactly after quit/exit or a confirmed end of input, no exception ends it, rejected lines change nothing, unless a library call is undefined or does not return; C40_harmless lists commands for which that never happens"
  },
  {
   "property": "C41",
   "status": "partial",
   "theorems": [
    "C41_paa_one_ieee_partial",
    "C41_paa_one_reals_partial",
    "C41_paa_search_refuted"
   ],
   "note": "refuted: with block size >= 2 and series of at least 3 points the search never returns (C41_paa_search_refuted). Proved: exactness with block size 1"
  },
  {
   "property": "C42",
   "status": "partial",
   "theorems": [
    "C42_cut_off",
    "C42_cut_off_refuted",
    "C42_lost_groups_refuted"
   ],
   "note": "refuted: after a failed load of a file cut off behind its first two numbers the groups are gone and queries are undefined behaviour. Proved: every cut-off file is reported by an exception and the data are unchanged; files for other dimensions leave everything unchanged (C35_rejects)"
  },
  {
   "property": "C43",
   "status": "partial",
   "theorems": [
    "C43_save_ungrouped_refuted",
    "C43_lost_file_refuted",
    "C43_not_writable_partial"
   ],
   "note": "refuted: the file is truncated before it is known whether there are groups; the exception is reported. Proved: a file that cannot be opened for writing keeps its contents"
  },
  {
   "property": "C44",
   "status": "proved",
   "theorems": [
    "C44_destroy",
    "C44_no_double_free",
    "C44_no_leak"
   ],
   "note": "blocks are never reused in the model; the caller frees only its own buffers; the two cache arrays are part of the object"
  },
  {
   "property": "C45",
   "status": "partial",
   "theorems": [
    "C45_text_round_trip",
    "C45_best_unchanged_ieee",
    "C45_best_unchanged_exact",
    "C45_rejects",
    "C45_too_large",
    "C45_layout",
    "C45_threshold_refuted",
    "C45_k_refuted",
    "C45_digits_refuted",
    "C45_item_length_refuted",
    "C45_cut_off_refuted",
    "C45_sizes_refuted"
   ],
   "note": "refuted: the threshold is never restored, so asking for it or saving again reads an uninitialised variable (C45_threshold_refuted, for every history) and k-best queries may (C45_k_refuted); sixteen digits change some representatives (C45_digits_refuted); files for series of another length, files without their last words and files with sizes only are not refused (C45_item_length_refuted, C45_cut_off_refuted, C45_sizes_refuted). Proved: metric, number, values of representatives and members are restored when the values survive printing with sixteen digits, best matches are as near as before, and files that are missing, of another version or for another number of series are refused with the groups kept; any white space may separate the words of the file (C45_layout)"
  },
  {
   "property": "C46",
   "status": "partial",
   "theorems": [
    "C46_call",
    "C46_ksim_refuted",
    "C46_distance_refuted",
    "C46_names_refuted",
    "C46_ignored_refuted"
   ],
   "note": "refuted: ksim with all arguments ignores the positions, distance without a name uses euclidean_dtw instead of euclidean, kSimBF and printTS of the help texts are no commands, extra arguments of ksimBF are ignored. Proved for every other command line that follows its usage (C46_call)"
  },
  {
   "property": "C47",
   "status": "partial",
   "theorems": [
    "C47_described",
    "C47_length_refuted",
    "C47_names_refuted"
   ],
   "note": "refuted: getTimeSeriesLength does not check the index (C47_length_refuted, undefined behaviour in every state); a line without a field in the name column moves all later names to other series and makes saving undefined (C47_names_refuted). Proved for all histories if every line read has the name column"
  },
  {
   "property": "C48",
   "status": "partial",
   "theorems": [
    "C48_nearest_window",
    "C48_determined",
    "C48_no_window",
    "C48_pruned",
    "C48_no_file",
    "C48_short_query_refuted",
    "C48_copy_refuted"
   ],
   "note": "refuted: with 3 numbers LB_Kim drops the nearest window (C48_short_query_refuted); in double arithmetic an exact copy of the query is missed after a large number in the file, because the running sums keep its rounding error (C48_copy_refuted). Proved in exact arithmetic for queries of 6 to 100000 numbers, all files of up to int_max numbers and every order of the sort"
  },
  {
   "property": "C49",
   "status": "partial",
   "theorems": [
    "C49_dtw",
    "C49_kim_bound",
    "C49_keogh_bound",
    "C49_keogh_data_bound",
    "C49_kim_bound_refuted"
   ],
   "note": "refuted: LB_Kim is no lower bound for 3 numbers (C49_kim_bound_refuted). Proved in exact arithmetic: LB_Kim from 6 numbers on, LB_Keogh for all lengths, DTW for numbers up to 10^6 and lengths up to 10^6 (its INF is 10^20)"
  },
  {
   "property": "C50",
   "status": "partial",
   "theorems": [
    "C50_in_bounds",
    "C50_in_bounds_exact",
    "C50_text",
    "C50_conditions_refuted",
    "C50_comparison_refuted"
   ],
   "note": "refuted: a band as wide as the query, 2 numbers, or too few numbers in the query file are undefined behaviour, and so is a query of equal numbers (C50_conditions_refuted); text in the data file means no report ever (C50_text); the comparison given to qsort is no order (C50_comparison_refuted). Proved for every arithmetic from 3 numbers on with a band smaller than the query: in bounds and ending, unless a comparison of the sort is not an int, which depends on the query file only"
  },
  {
   "property": "C51",
   "status": "proved",
   "theorems": [
    "C51_dtw_near_optimum",
    "C51_dtw_near_symmetric",
    "C51_pairwise_near_exact",
    "C51_pairwise_near_exact_moderate",
    "C51_euclidean_cutoff_near_exact"
   ],
   "note": "IEEE doubles against the reals; without an overflow for warped distances (C02_no_overflow_for_moderate_data: points up to 2^490), and the point-to-point distance may be infinity only for larger points"
  },
  {
   "property": "C52",
   "status": "proved",
   "theorems": [
    "C52_best_match_near_optimum_exact",
    "C52_best_match_near_optimum_ieee",
    "C52_manhattan_within_threshold_refuted"
   ],
   "note": "exact arithmetic for lengths up to 2^30; doubles up to 2^490 for lengths up to 2^26, with the rounding errors of C51. C52_manhattan_within_threshold_refuted: the weaker-sounding claim 'within the threshold' is false of Manhattan, so the factor V in the price is needed"
  },
  {
   "property": "C53",
   "status": "partial",
   "theorems": [
    "C53_call",
    "C53_series",
    "C53_load_and_read",
    "C53_matching_defaults_refuted",
    "C53_matching_keywords_refuted"
   ],
   "note": "refuted: the defaults declared for getMatching, start2 and end2, are aligned with its last two parameters end2 and distanceName, so every call without all nine arguments is rejected (C53_matching_defaults_refuted), and the keyword start2 sets end2 and end2 the name of the distance (C53_matching_keywords_refuted). Proved for all functions, getMatching with all nine arguments; a separator of saveDataset must not be empty"
  },
  {
   "property": "C54",
   "status": "proved",
   "theorems": [
    "C54_unknown_function",
    "C54_wrong_number",
    "C54_bad_keyword",
    "C54_wrong_type",
    "C54_out_of_range",
    "C54_session",
    "C54_unknown_name"
   ],
   "note": "C54_wrong_number and C54_bad_keyword do not cover getMatching with keywords (see C53); Boost.Python's matching of arguments is modelled as documented, missing arguments of parameters without a name followed by keywords are left unspecified"
  },
  {
   "property": "C55",
   "status": "partial",
   "theorems": [
    "C55_distance_exact",
    "C55_distance_ieee",
    "C55_errors",
    "C55_short_name_refuted"
   ],
   "note": "refuted: a distance name of less than three characters makes the matching raise std::out_of_range instead of the library's exception (C55_short_name_refuted, in every state). Proved otherwise: exact values over the reals, the error bounds of C51 in doubles (points up to 2^490), the refused calls; the matching is an optimal warping path in exact arithmetic with an unrestricted band (C55_distance_exact) and a warping path in doubles with any band; a restricted band is covered by C03's findings"
  },
  {
   "property": "C56",
   "status": "partial",
   "theorems": [
    "C56_groups_kept",
    "C56_best_match_partial",
    "C56_k_best_partial",
    "C56_radius_exact",
    "C56_stale_query_refuted",
    "C56_radius_refuted"
   ],
   "note": "refuted: a query before normalising leaves envelopes of the old values in the groups, and a later query misses the nearest group (C56_stale_query_refuted); values that differ by less than 1 move apart, so members leave the radius (C56_radius_refuted). Proved: the groups are kept in all histories; best matches and lists of several matches are right by the normalised values if no call worked on the data set between grouping and normalising (doubles up to 2^490); in exact arithmetic the radius becomes that divided by the difference of the largest and smallest value (C56_radius_exact)"
  },
  {
   "property": "C57",
   "status": "proved",
   "theorems": [
    "C57_k_best_near_optimum_exact",
    "C57_k_best_near_optimum_ieee"
   ],
   "note": "exact arithmetic and IEEE doubles (values up to the moderate bounds of C23); the condition on near ties is the one of C24"
  },
  {
   "property": "C58",
   "status": "proved",
   "theorems": [
    "C58_looking_at_more_ieee",
    "C58_looking_at_more_exact",
    "C58_looking_at_more_refuted"
   ],
   "note": "exact arithmetic and IEEE doubles (moderate bounds of C23); C58_looking_at_more_refuted: the condition that no two groups are equally far cannot be dropped"
  },
  {
   "property": "C59",
   "status": "proved",
   "theorems": [
    "C59_best_match_is_nearest",
    "C59_k_best_are_nearest",
    "C59_whole_numbers",
    "C59_k_whole_numbers"
   ],
   "note": "exact arithmetic, and in doubles for data and queries of whole numbers (C59_whole_numbers, C59_k_whole_numbers); in doubles in general the bounds of C52 and C57 with threshold 0 remain (rounding can make different series have distance 0)"
  },
  {
   "property": "C60",
   "status": "proved",
   "theorems": [
    "C60_alive_while_in_use",
    "C60_deleted_for_good",
    "C60_nothing_left"
   ],
   "note": "for every arithmetic; running out of memory is not modelled; the wrappers of prepared data sets are not data sets: they are never freed (see C37)"
  },
  {
   "property": "C61",
   "status": "partial",
   "theorems": [
    "C61_described_loaded",
    "C61_answers_ieee",
    "C61_answers_exact",
    "C61_wrong_files_refuted"
   ],
   "note": "refuted: a member outside the data is undefined behaviour while loading; a file with a member listed twice, without groups or with an empty group is accepted, and a query then never ends, dereferences a null pointer or answers with distance infinity (C61_wrong_files_refuted). Proved: files that do describe groups are loaded as described (every arithmetic) and queries are answered from them (exact arithmetic, and doubles within the moderate bounds of C23)"
  },
  {
   "property": "C62",
   "status": "partial",
   "theorems": [
    "C62_exception_changes_nothing",
    "C62_prepare_refuted",
    "C33_failed_grouping_refuted",
    "C42_cut_off_refuted"
   ],
   "note": "refuted: preparing with a block size below 1 throws but leaves a preparation behind, so that a search that was refused before is undefined behaviour (C62_prepare_refuted); likewise grouping (C33) and loading cut-off group files (C42). Proved for every other call, every arithmetic and all later sequences of calls (C62_exception_changes_nothing); memory lost by a failing load is not observable"
  },
  {
   "property": "C63",
   "status": "proved",
   "theorems": [
    "C63_data_sets_apart"
   ],
   "note": "for every arithmetic; counting and listing the data sets belong to neither kind of call that is compared; the ratio of the warping band is shared by all data sets, so changing it is not a call about other data sets"
  },
  {
   "property": "C64",
   "status": "partial",
   "theorems": [
    "C64_queries_leave_no_trace",
    "C64_normalise_refuted"
   ],
   "note": "refuted: if the searched data set is normalised after the search, a later search is answered differently than without the first one (C64_normalise_refuted). Proved for every arithmetic, all histories, all asking calls and all later sequences of calls, where a searched data set was not normalised since it last got groups and is not normalised later (C64_queries_leave_no_trace)"
  },
  {
   "property": "C65",
   "status": "partial",
   "theorems": [
    "C65_doubled_threshold",
    "C65_regrouping",
    "C65_extreme_thresholds",
    "C65_extreme_ieee",
    "C65_larger_threshold_refuted"
   ],
   "note": "refuted: for every factor between 1 and 2 there is a data set that gets more groups with the threshold enlarged by that factor (C65_larger_threshold_refuted). Proved in exact arithmetic: a threshold at least twice as large never gives more groups, of any length or in total (C65_doubled_threshold), also through the interface after any history (C65_regrouping); the two extreme cases (C65_extreme_thresholds), in doubles too (C65_extreme_ieee; for one group not with the Euclidean distance)"
  },
  {
   "property": "C66",
   "status": "partial",
   "theorems": [
    "C66_wider_band_exact",
    "C66_straight_exact",
    "C66_nearest_exact",
    "C66_wider_band_ieee",
    "C66_nearest_chebyshev_ieee",
    "C66_wider_band_ieee_refuted",
    "C66_best_match_refuted"
   ],
   "note": "refuted: the search in the groups can answer with a farther match when the band is wider (C66_best_match_refuted: a series of the data set is found with ratio 0 and missed with ratio 1), and in doubles the computed Euclidean and Manhattan distances can grow by the last digits (C66_wider_band_ieee_refuted). Proved through the interface after any history: distances and exhaustive search in exact arithmetic, distances in doubles up to the rounding of C51, both exactly for Chebyshev in doubles, and the comparison with the point-to-point distance"
  },
  {
   "property": "C67",
   "status": "partial",
   "theorems": [
    "C67_distances_exact",
    "C67_groups_exact",
    "C67_nearest_exact",
    "C67_groups_ieee_refuted",
    "C67_nearest_refuted"
   ],
   "note": "refuted: in doubles the number of groups can change (C67_groups_ieee_refuted), and the exhaustive search can miss the query itself after normalising because distances closer than 1e-9 count as equal (C67_nearest_refuted). Proved in exact arithmetic through the interface after any history: all distances are divided by the same number, the groups of every length are the same, and the neighbours are the same where no two distances are closer than 1e-9"
  },
  {
   "property": "C68",
   "status": "partial",
   "theorems": [
    "C68_log_overflow_refuted",
    "C16_grouping_partitions",
    "C21_clock_independent_partial"
   ],
   "note": "refuted: with 21474840 or more slots (series x start positions) of the first length the percentage counter*100 of the progress log leaves the range of int when the log is due (C68_log_overflow_refuted, for all such data sets). All other products of grouping (positions in the member array, sizes) stay in range for every data set: C16_grouping_partitions when the log is not due, C21_clock_independent_partial for fewer slots"
  },
  {
   "property": "C69",
   "status": "proved",
   "theorems": [
    "C69_warped_whole_numbers",
    "C69_paired_whole_numbers",
    "C69_symmetric",
    "C69_wider_band",
    "C69_warped_below_paired"
   ],
   "note": "in IEEE doubles, for the dynamic programme as the code runs it; precondition: (length a + length b) times the largest single cost (4B^2 or 2B for values up to B) at most 2^46"
  },
  {
   "property": "C70",
   "status": "partial",
   "theorems": [
    "C70_more_series",
    "C70_any_order",
    "C70_groups_of_more",
    "C70_groups_refuted",
    "C70_best_match_refuted"
   ],
   "note": "refuted for the groups: the same three series give one group in one order and two in another, and two of them alone also give two (C70_groups_refuted); the best match through the groups depends on the order (C70_best_match_refuted). Proved in doubles through the interface after any history for the exhaustive search without near ties (C70_more_series, C70_any_order); in exact arithmetic a subset with twice the threshold never has more groups of any length (C70_groups_of_more)"
  },
  {
   "property": "C71",
   "status": "partial",
   "theorems": [
    "C71_one_number",
    "C71_short_numbers",
    "C71_second_time",
    "C71_dataset",
    "C71_short_dataset",
    "C71_kept_refuted",
    "C71_loadable_refuted"
   ],
   "note": "refuted as first stated: two series that differ, 1234567 and 1234568, are equal after saving and loading (C71_kept_refuted), and a data set with the value 2^-1022 can be saved but not loaded (C71_loadable_refuted). Proved for all data sets with values of ordinary size: rounding to six digits, the error, the sign, short numbers unchanged, and that saving again writes the same text. %g printing and correctly rounded reading are modelled by their specification (PrintDec.v)"
  },
  {
   "property": "C72",
   "status": "partial",
   "theorems": [
    "C72_every_cut",
    "C72_noticed_refuted",
    "C72_value_refuted",
    "C72_empty_file"
   ],
   "note": "refuted: for every data set and every number k of its series (at least one, not all) there is a crash point after which the file loads without an exception as a data set of the first k series (C72_noticed_refuted); the last number can be changed, 12 to 1 (C72_value_refuted). Proved for every crash point what the loaded data is: whole rows, the first fields of the next row, and perhaps the beginning of one field (C72_every_cut)"
  },
  {
   "property": "C73",
   "status": "partial",
   "theorems": [
    "C73_exhaustive",
    "C73_groups_refuted",
    "C73_groups_bound_partial",
    "C73_representative_partial",
    "C73_representative_ieee_partial"
   ],
   "note": "refuted for the search in groups: a stretch can be in a group whose representative is farther than one that was founded later, and then another stretch is returned at a distance above 0 (C73_groups_refuted). Proved: the exhaustive search finds it, in doubles and for all histories (C73_exhaustive); the search in groups is off by at most the price of half the threshold (C73_groups_bound_partial), and by nothing if the stretch represents a group (C73_representative_partial, exact arithmetic; in doubles by at most 2^-397, C73_representative_ieee_partial)"
  },
  {
   "property": "C74",
   "status": "partial",
   "theorems": [
    "C74_what_is_written",
    "C74_enough_room",
    "C74_noticed_refuted",
    "C74_old_file_refuted",
    "C74_loaded_again_refuted"
   ],
   "note": "refuted for every data set and every amount of room that is too small: the call returns as usual (C74_noticed_refuted), the old contents are lost (C74_old_file_refuted), and loading the file may succeed with fewer series (C74_loaded_again_refuted). Proved in every state and for every amount of room what is on the disk then (C74_what_is_written), and that the statement holds if there is room (C74_enough_room)"
  },
  {
   "property": "C75",
   "status": "partial",
   "theorems": [
    "C75_exact",
    "C75_upside_down",
    "C75_upside_down_groups",
    "C75_upside_down_search",
    "C75_whole_numbers",
    "C75_backwards_refuted",
    "C75_shift_ieee_refuted",
    "C75_backwards_ieee_refuted"
   ],
   "note": "refuted: with series of different lengths and a band narrower than the longer one, reversing both in time can change a warped distance from 0 to above 0 (C75_backwards_refuted); in doubles, adding 2^54 makes different series equal (C75_shift_ieee_refuted), and a sum read from the other end is rounded differently (C75_backwards_ieee_refuted). Proved: all three turns in exact numbers for all six distances, reversing for equal lengths or a full band (C75_exact); turning upside down in doubles for every distance name, for values and matchings, without conditions on the values (C75_upside_down), the same groups (C75_upside_down_groups) and the same reported distances of the exhaustive search where no two distances lie closer than 1e-9 (C75_upside_down_search); all three turns in doubles for whole numbers that are not too large (C75_whole_numbers)."
  },
  {
   "property": "C76",
   "status": "partial",
   "theorems": [
    "C76_load_ends",
    "C76_managed",
    "C76_length",
    "C76_description",
    "C76_grouping",
    "C76_negative_start_refuted",
    "C76_short_line_refuted"
   ],
   "note": "refuted: with a negative start column (below -1 with a name column) every rectangular file of numbers makes the program write outside of its buffer (C76_negative_start_refuted), and after loading a file with a line that ends before the first value column, normalising runs through memory (C76_short_line_refuted). Proved: loading ends for every text, device failure, separators and row limit if the start column is not negative and the table fits into an int (C76_load_ends); after any calls in which the loaded files have no such short lines, saving, unloading, counting, naming, reading stretches, normalising and setting the band ratio end for all arguments and values (C76_managed), grouping ends for finite thresholds (C76_grouping), lengths of existing series (C76_length) and descriptions of data sets that were not grouped (C76_description) can be asked for in every state."
  },
  {
   "property": "C77",
   "status": "partial",
   "theorems": [
    "C77_in_order",
    "C77_warped",
    "C77_cosine_exact",
    "C77_cosine_range",
    "C77_sorensen_exact",
    "C77_cosine_similarity_refuted",
    "C77_sorensen_mirror_refuted",
    "C77_sorensen_triangle_refuted"
   ],
   "note": "refuted: \"cosine\" is the cosine similarity itself, so a series is farthest from itself and nearest to its mirror image (C77_cosine_similarity_refuted); \"sorensen\" is infinite or NaN for mirrored or zero series (C77_sorensen_mirror_refuted) and breaks the triangle inequality (C77_sorensen_triangle_refuted). Proved: in any arithmetic the unwarped measures are exactly the stated sums taken in order (C77_in_order) and the warped ones infinity or the sums along some warping path, for every band and cut-off (C77_warped); over the reals the cosine of the angle, always within [-1,1] (C77_cosine_exact, C77_cosine_range), and |x-y|/|x+y| in [0,1], 0 exactly for equal series without negative values (C77_sorensen_exact)."
  },
  {
   "property": "C78",
   "status": "partial",
   "theorems": [
    "C78_straight",
    "C78_chebyshev",
    "C78_warped",
    "C78_normalise",
    "C78_endless_refuted",
    "C78_search_refuted"
   ],
   "note": "refuted: with the band unrestricted, euclidean_dtw and manhattan_dtw distances and matchings of any two stretches of two or more points never return when one has a missing value before its last point (C78_endless_refuted); loaded groups of such data make searches endless, and chebyshev of stretches without a common known point is minus infinity (C78_search_refuted). Proved in doubles: euclidean and manhattan give NaN or, past the cut-off, infinity (C78_straight); a warped result is never a number (C78_warped, unrestricted band); chebyshev is exactly the largest difference of the known pairs (C78_chebyshev); normalising uses minimum and maximum of the known values and keeps missing values missing (C78_normalise). Not covered: warped distances with a restricted band."
  },
  {
   "property": "C79",
   "status": "partial",
   "theorems": [
    "C79_recorded_is_saved",
    "C79_resumes",
    "C79_same_files",
    "C79_dry",
    "C79_killed_refuted",
    "C79_start_over_refuted",
    "C79_blocked_refuted"
   ],
   "note": "refuted: every run that records a grouping can be killed so that the records file is cut short, after which no run with any command line does anything (C79_killed_refuted); with --start-over a kill leaves a grouping listed as done with a broken file that no resuming run repairs (C79_start_over_refuted); a data set that cannot be loaded keeps all larger ones from ever being grouped (C79_blocked_refuted). Proved for all histories of resuming runs killed anywhere: what is listed is saved (C79_recorded_is_saved); while the records are readable, the next run does exactly what is missing, each once (C79_resumes), with the same files as one uninterrupted run (C79_same_files); dry runs change nothing (C79_dry)."
  },
  {
   "property": "C80",
   "status": "partial",
   "theorems": [
    "C80_queries",
    "C80_every_stretch",
    "C80_results",
    "C80_same_queries",
    "C80_last_point_refuted",
    "C80_short_refuted",
    "C80_fewer_refuted",
    "C80_killed_refuted",
    "C80_other_k_refuted"
   ],
   "note": "refuted: no query ever reaches the last point of its series (C80_last_point_refuted); for series of one or two points the generation never ends (C80_short_refuted); a kill while writing the queries makes all later runs use fewer (C80_fewer_refuted); a kill while writing results loses those of all methods and stops all later runs on the data set (C80_killed_refuted); a run for another number of matches searches nothing and keeps the old results (C80_other_k_refuted). Proved: queries are valid, as many as asked for and split in half (C80_queries); every stretch without the last point can come up (C80_every_stretch); for histories with one number of matches that leave the file readable, the next run does exactly what is missing and all results are the library's (C80_results); the queries never change once written (C80_same_queries)."
  },
  {
   "property": "C81",
   "status": "partial",
   "theorems": [
    "C81_never_better_ieee",
    "C81_error_exact",
    "C81_made_up_refuted"
   ],
   "note": "refuted: if more answers are asked for than there are subsequences of the searched lengths, the made-up entries have distance 0, and the error can be 0 although the answers are wrong (C81_made_up_refuted). Proved otherwise, for distances that are equal or at least 1e-9 apart: no distance is smaller, in doubles and exactly (C81_never_better_ieee, C81_error_exact); in exact arithmetic the error is not negative, 0 only for equal distances, and bounds each difference (C81_error_exact); nothing is lost if all subsequences are looked at."
  },
  {
   "property": "C82",
   "status": "partial",
   "theorems": [
    "C82_wider_ieee",
    "C82_wider_exact",
    "C82_ties_refuted"
   ],
   "note": "refuted: with two groups at the same distance from the query, looking at three subsequences instead of two drops the group with the nearer member and the answer gets worse (C82_ties_refuted). Proved if no two groups of the searched lengths are at the same distance: at every position the distance does not grow with the extent, and is the same for the same extent whatever the number of matches asked for, in doubles and exactly (C82_wider_ieee, C82_wider_exact)."
  },
  {
   "property": "C83",
   "status": "partial",
   "theorems": [
    "C83_extents",
    "C83_records",
    "C83_all_processed",
    "C83_small_stops",
    "C83_last_exact",
    "C83_small_refuted"
   ],
   "note": "refuted: a data set with fewer than 1000 k - 500 subsequences makes the first search look at fewer than k subsequences, the library raises, and the whole script stops before the larger data sets (C83_small_refuted, and C83_small_stops for all such cases). Proved: the thousand extents in doubles are the nearest integers to the thousandths, ascending, the last one is the whole data set (C83_extents); old entries are kept, new ones are what the library answered, none is repeated and nothing is missing after a complete run (C83_records); data sets above the limit are all processed (C83_all_processed); with exact arithmetic errors are not negative and the last one is 0 (C83_last_exact)."
  },
  {
   "property": "C84",
   "status": "partial",
   "theorems": [
    "C84_copied",
    "C84_interrupted",
    "C84_again_raises",
    "C84_records",
    "C84_one_bad",
    "C84_again_refuted",
    "C84_out_refuted",
    "C83_subsequences"
   ],
   "note": "refuted: once it has written a file the preparing script cannot be run again without an exception, because it takes its copies for data sets, and a run that was stopped cannot be made up for (C84_again_raises for all cases, C84_again_refuted); a data set whose name ends in _out gets the numbers of the queries of another one and is not seen by later scripts (C84_out_refuted). Proved: copies are complete, nothing else changes even when stopped (C84_copied, C84_interrupted); records are right and independent of the listing if no name ends in _out (C84_records), the recorded number is the number of subsequences if all series are equally long (C83_subsequences); one unreadable file means no records at all (C84_one_bad)."
  },
  {
   "property": "C85",
   "status": "partial",
   "theorems": [
    "C85_endless",
    "C85_negative",
    "C85_safe_refuted"
   ],
   "note": "refuted: grouping finite data with an infinite or undefined threshold is not safe, because a distance that overflows leaves the group index unset (C85_safe_refuted). Proved: the exact condition under which it is safe and what the groups then are (C85_endless), and the groups made for a negative threshold (C85_negative)."
  },
  {
   "property": "C86",
   "status": "partial",
   "theorems": [
    "C86_same_group_refuted",
    "C86_later_nearer",
    "C86_duplicates_exact"
   ],
   "note": "refuted: C86_same_group_refuted has two equal series in different groups: a group founded between them is nearer to the second. Proved for every data set, length and non-negative threshold: the later of two equal subsequences is at least as near to its representative as the earlier one, and no two groups have equal representatives (C86_later_nearer, manhattan and chebyshev in IEEE doubles); in exact arithmetic, for all three metrics, what equals the representative of a group and comes later joins that group (C86_duplicates_exact)."
  },
  {
   "property": "C87",
   "status": "proved",
   "theorems": [
    "C87_searches",
    "C87_distances"
   ],
   "note": "For any number system, any reachable state, and outcomes of every kind (answers, exceptions, undefined behaviour). Rests on: the envelope code only reads positions inside the series, and every group space of a reachable state uses one of the library's distances."
  },
  {
   "property": "C88",
   "status": "proved",
   "theorems": [
    "C88_one_match_ieee",
    "C88_one_match_exact",
    "C88_near_ties_refuted"
   ],
   "note": "C88_near_ties_refuted shows that the condition on near ties is needed: with distances 0 and 0.6e-9 in one group the search for one match gives the one at 0.6e-9."
  },
  {
   "property": "C89",
   "status": "proved",
   "theorems": [
    "C89_group_search",
    "C89_brute_force_ieee",
    "C89_brute_force_exact",
    "C89_examined_refuted"
   ],
   "note": "C89_examined_refuted shows that the number of examined subsequences must be the same: with another number the answer can be another one."
  },
  {
   "property": "C90",
   "status": "partial",
   "theorems": [
    "C90_paired",
    "C90_exact",
    "C90_warped_ieee_partial",
    "C90_whole_numbers",
    "C90_warped_refuted"
   ],
   "note": "refuted: C90_warped_refuted gives, for each of the warped euclidean, manhattan, cosine and sorensen distances, two loaded series for which the two orders return different doubles. Proved: the paired distances never depend on the order (C90_paired); the three warped kinds do not in exact numbers (C90_exact) and for moderate whole numbers (C90_whole_numbers); for moderate values in doubles the warped chebyshev distance does not, and the other two return values within the bound of C51 of one exact number (C90_warped_ieee_partial)."
  },
  {
   "property": "C91",
   "status": "proved",
   "theorems": [
    "C91_grouping",
    "C91_loading"
   ],
   "note": "any number system, every reachable state; the whole state after the call is the same, not only the reply. A load of groups that fails is left out: it can keep the old groups (C33, C42)."
  },
  {
   "property": "C92",
   "status": "proved",
   "theorems": [
    "C92_band",
    "C92_other_calls"
   ],
   "note": "any number system; the whole state after both calls is the same, not only the replies."
  },
  {
   "property": "C93",
   "status": "proved",
   "theorems": [
    "C93_groups_apart"
   ],
   "note": "any number system, no condition on the state. The contents of files are given for each call, so a file of groups that is saved over a data file is not followed."
  },
  {
   "property": "C94",
   "status": "proved",
   "theorems": [
    "C94_paa_apart"
   ],
   "note": "any number system, no condition on the state."
  },
  {
   "property": "C95",
   "status": "proved",
   "theorems": [
    "C95_fresh",
    "C95_reloaded",
    "C95_prepared_refuted"
   ],
   "note": "any number system. The condition on PAA is needed: C95_prepared_refuted (unloading keeps the old preparation, see C37)."
  },
  {
   "property": "C96",
   "status": "proved",
   "theorems": [
    "C96_swap"
   ],
   "note": "any number system. Nothing is said about pairs of which one call is undefined or does not end."
  }
 ]
}