{
 "claims": [
  {
   "property": "C01",
   "status": "partial",
   "theorems": [
    "C01_bin_slot_contains_value",
    "C01_bin_slot_contains_value_x86_partial",
    "C01_bin_x86_infinity_refuted",
    "C01_bin_x86_large_finite_refuted",
    "C01_bin_numbins0_refuted"
   ],
   "note": "proved for a saturating int32 cast; on x86 proved up to 2^31-2 bins above low and refuted for +inf and beyond; refuted for numbins=0"
  },
  {
   "property": "C02",
   "status": "proved",
   "theorems": [
    "C02_split_slot_contains_value"
   ],
   "note": "any edge order, infinite edges included"
  },
  {
   "property": "C03",
   "status": "proved",
   "theorems": [
    "C03_intbin_slot_is_own_key",
    "C03_intbin_float_is_floor",
    "C03_intbin_wrap_refuted",
    "C03_intbin_float_below_min_refuted"
   ],
   "note": "within the int32 range of the index; refutations outside it and for floats just below min"
  },
  {
   "property": "C04",
   "status": "proved",
   "theorems": [
    "C04_cut_slot",
    "C04_cut_two_keys"
   ],
   "note": "slot and keys of a cut axis"
  },
  {
   "property": "C05",
   "status": "proved",
   "theorems": [
    "C05_groupbin_key_contains_value",
    "C05_groupbin_displayed_interval",
    "C05_groupbin_nan",
    "C05_groupbin_nothing_else_dropped",
    "C05_groupbin_infinity_refuted",
    "C05_groupbin_nan_keys_refuted"
   ],
   "note": "finite values and NaN; refuted for infinite values, and keys() raises once NaN has been filled"
  },
  {
   "property": "C06",
   "status": "proved",
   "theorems": [
    "C06_groups_are_the_distinct_values",
    "C06_each_row_in_exactly_its_group"
   ],
   "note": "rows whose groupby value is not NaN"
  },
  {
   "property": "C07",
   "status": "proved",
   "theorems": [
    "C07_bin_keys_partition",
    "C07_split_keys_partition",
    "C07_intbin_keys_partition"
   ],
   "note": "bin, split and intbin"
  },
  {
   "property": "C08",
   "status": "proved",
   "theorems": [
    "C08_bin_index_in_range",
    "C08_bin_index_monotone",
    "C08_bin_index_monotone_float64"
   ],
   "note": "range for every rounding and cast; monotone for monotone rounding and a saturating cast"
  },
  {
   "property": "C09",
   "status": "proved",
   "theorems": [
    "C09_flat_index_is_injective"
   ],
   "note": "any number of axes whose total number of bins fits int32"
  },
  {
   "property": "C10",
   "status": "proved",
   "theorems": [
    "C10_fill_adds_exactly_the_row_sums",
    "C10_unweighted_counts_rows",
    "C10_blocks_after_fill",
    "C10_dropped_row_with_profile_refuted",
    "C10_missing_axis_column_refuted",
    "C10_fill_end_to_end",
    "C10_cells_hold_the_rows_of_their_keys"
   ],
   "note": "exact sums for every layout; with a profile the rows must be inside the fixed axes (refuted otherwise: the fill raises); an axis of a constant-only function call is refuted"
  },
  {
   "property": "C11",
   "status": "proved",
   "theorems": [
    "C11_total_grows_by_kept_rows",
    "C11_no_row_lost_or_counted_twice"
   ],
   "note": "every column total, and the row count"
  },
  {
   "property": "C12",
   "status": "proved",
   "theorems": [
    "C12_nan_weight_rows_contribute_nothing",
    "C12_infinite_profile_refuted"
   ],
   "note": "for finite profiled values; refuted for an infinite one"
  },
  {
   "property": "C13",
   "status": "proved",
   "theorems": [
    "C13_filter_selects_rows",
    "C13_filter_without_weight",
    "C13_nan_profile_refuted",
    "C13_filter_end_to_end",
    "C13_filter_as_written"
   ],
   "note": "end to end from the written histogram (C13_filter_as_written), with or without a weight, for any content; refuted for NaN profiled values of rejected rows"
  },
  {
   "property": "C14",
   "status": "proved",
   "theorems": [
    "C14_two_chunks",
    "C14_any_chunking",
    "C14_two_group_axes_refuted",
    "C14_chunks_end_to_end",
    "C14_chunks_as_written"
   ],
   "note": "cells for any chunking, blocks too with at most one group axis, also from the written histogram; refuted for blocks with two"
  },
  {
   "property": "C15",
   "status": "proved",
   "theorems": [
    "C15_row_order_irrelevant",
    "C15_row_order_end_to_end",
    "C15_row_order_as_written"
   ],
   "note": "any permutation, also from the written histogram"
  },
  {
   "property": "C16",
   "status": "proved",
   "theorems": [
    "C16_partial_fill_refuted",
    "C16_missing_field_changes_nothing",
    "C16_length_mismatch_changes_nothing",
    "C16_evaluation_error_changes_nothing"
   ],
   "note": "missing field, length mismatch, or an expression that raises: nothing changes and later fills are the same; refuted for a grouped profile histogram whose fill raises after some groups were updated"
  },
  {
   "property": "C17",
   "status": "proved",
   "theorems": [
    "C17_scalar_is_a_constant_column",
    "C17_named_constants",
    "C17_given_constant_is_a_field",
    "C17_keywords_take_precedence",
    "C17_extra_fields_are_ignored"
   ],
   "note": "all four clauses, equality of whole fills"
  },
  {
   "property": "C18",
   "status": "proved",
   "theorems": [
    "C18_schedule_computes_every_goal",
    "C18_no_bad_variable_access",
    "C18_order_independent",
    "C18_constant_calls_are_skipped"
   ],
   "note": "every iteration order; a call whose arguments are all constants is never computed (stated as a theorem)"
  },
  {
   "property": "C19",
   "status": "proved",
   "theorems": [
    "C19_fields_are_the_mentioned_names",
    "C19_constant_axis_refuted"
   ],
   "note": "for histograms without a constant axis; refuted with one (fields raises TypeError)"
  },
  {
   "property": "C20",
   "status": "proved",
   "theorems": [
    "C20_lowering_preserves_value",
    "C20_negated_predicate_refuted"
   ],
   "note": "normal forms without negated predicates, whose predicates are boolean fields; refuted for a negated predicate"
  },
  {
   "property": "C21",
   "status": "proved",
   "theorems": [
    "C21_arithmetic_value",
    "C21_normal_form_value",
    "C21_constant_lost_refuted",
    "C21_cancel_refuted",
    "C21_rejected_refuted"
   ],
   "note": "for the stated class of expressions (syntactic criterion plain, and the weaker criterion good on the parsed operands); refuted outside it: constants lost in products, wrong cancellation, rejected expressions"
  },
  {
   "property": "C22",
   "status": "proved",
   "theorems": [
    "C22_expression_value",
    "C22_truth_preserved",
    "C22_nan_refuted"
   ],
   "note": "through parsing and lowering; refuted for NaN"
  },
  {
   "property": "C23",
   "status": "proved",
   "theorems": [
    "C23_polynomials",
    "C23_distinct_polynomials",
    "C23_peval_is_the_value",
    "C23_laws",
    "C23_commutative",
    "C23_logic_commutative",
    "C23_mirrored_comparison",
    "C23_grouping_refuted",
    "C23_multiplied_out_refuted",
    "C23_spelling_as_written"
   ],
   "note": "commutative laws for all operands, the rest for polynomials; refuted for a grouping of a sum with quotients and for products of two sums with constant terms"
  },
  {
   "property": "C24",
   "status": "partial",
   "theorems": [
    "C24_negated_predicate_refuted",
    "C24_double_negation",
    "C24_filter_not_partial",
    "C24_cut_not_partial",
    "C24_complement_partial"
   ],
   "note": "false of the code as stated: refuted, not p is computed as p for every row if p is a plain name, and not of a comparison does not hold for NaN. Proved in the class of C22 (conditions made of comparisons without NaN): a histogram filtered or cut by not c holds the rows where c is false, and with the one filtered by c all rows"
  },
  {
   "property": "C25",
   "status": "proved",
   "theorems": [
    "C25_sum",
    "C25_commutative",
    "C25_associative",
    "C25_unit",
    "C25_different_axes",
    "C25_mixed_weights_refuted"
   ],
   "note": "both weighted or both not; refuted for a mix, whose sum does not fit its own layout"
  },
  {
   "property": "C26",
   "status": "proved",
   "theorems": [
    "C26_sum_of_fills",
    "C26_end_to_end"
   ],
   "note": "end to end from the arrays given to fill"
  },
  {
   "property": "C27",
   "status": "proved",
   "theorems": [
    "C27_iadd",
    "C27_iadd_error",
    "C27_imul",
    "C27_mixed_weights_refuted",
    "C27_others"
   ],
   "note": "both weighted or both not, and no other histogram changes; refuted for a mix (+ accepts, += raises)"
  },
  {
   "property": "C28",
   "status": "proved",
   "theorems": [
    "C28_cells",
    "C28_product",
    "C28_one",
    "C28_sum",
    "C28_scaled_weights",
    "C28_squared_weights_refuted",
    "C28_unfilled_refuted"
   ],
   "note": "finite scalars; refuted for squared weights and for histograms never filled"
  },
  {
   "property": "C29",
   "status": "proved",
   "theorems": [
    "C29_fills",
    "C29_values",
    "C29_allowed",
    "C29_isolated",
    "C29_copy",
    "C29_copyonfill",
    "C29_copyonfill_imul_refuted",
    "C29_copyonfill_original_refuted"
   ],
   "note": "every program over any number of histograms; refuted for copyonfill() when the copy is changed by *= before its first fill, and when the original is filled before that"
  },
  {
   "property": "C30",
   "status": "proved",
   "theorems": [
    "C30_contents",
    "C30_sum_shares_refuted",
    "C30_derived",
    "C30_select_groups",
    "C30_select_group_shares_refuted",
    "C30_prefill",
    "C30_axes",
    "C30_axes_moved",
    "C30_project_refuted",
    "C30_copy_after_project_refuted",
    "C30_select_refuted",
    "C30_drop_refuted"
   ],
   "note": "contents: for every program of derivations and changes of the originals; axis objects: for every program that keeps axes in place; refuted for project, drop and select that move an axis, and for + and group selections that share groups"
  },
  {
   "property": "C31",
   "status": "proved",
   "theorems": [
    "C31_clear",
    "C31_cleared"
   ],
   "note": "any history that changed no shared array, any fills after"
  },
  {
   "property": "C32",
   "status": "proved",
   "theorems": [
    "C32_axis_equality",
    "C32_axis_equivalence",
    "C32_compatible_equivalence",
    "C32_equal_axes_compatible",
    "C32_hist_compatible_equivalence",
    "C32_contents_equal",
    "C32_equal_histograms",
    "C32_equal_means_same",
    "C32_nan_axis_refuted",
    "C32_nan_content_refuted",
    "C32_hist_equality_equivalence",
    "C32_book_equality_equivalence",
    "C32_book_order_refuted"
   ],
   "note": "NaN-free numbers; histograms and books; refuted with NaN, and for books with the same entries in another order"
  },
  {
   "property": "C33",
   "status": "proved",
   "theorems": [
    "C33_axis_roundtrip",
    "C33_hist_roundtrip",
    "C33_text_roundtrip",
    "C33_text_refuted",
    "C33_null_axis_refuted"
   ],
   "note": "every axis a constructor returns; refuted through JSON text for numeric group keys, and for the null axis of a projection"
  },
  {
   "property": "C34",
   "status": "proved",
   "theorems": [
    "C34_group",
    "C34_errors",
    "C34_filter_refuted",
    "C34_unfilled_refuted",
    "C34_mixed_weights_refuted",
    "C34_no_alias"
   ],
   "note": "filled members without filters, all weighted or none, any later operations; refuted with filters, unfilled or mixed members"
  },
  {
   "property": "C35",
   "status": "proved",
   "theorems": [
    "C35_projection_sums_cells",
    "C35_projection_preserves_totals",
    "C35_projecting_commutes_with_filling",
    "C35_projection_equals_filling_the_smaller_histogram"
   ],
   "note": "every axis subset that includes the group axes, any content, any fills before and after"
  },
  {
   "property": "C36",
   "status": "proved",
   "theorems": [
    "C36_projections_compose",
    "C36_projecting_on_all_axes_changes_nothing",
    "C36_projection_of_a_sum",
    "C36_projection_of_a_multiple",
    "C36_infinite_factor_refuted"
   ],
   "note": "group axes kept; refuted for an infinite factor"
  },
  {
   "property": "C37",
   "status": "proved",
   "theorems": [
    "C37_removed_groups_are_summed",
    "C37_numbers_of_one_removed_group",
    "C37_shape_refuted",
    "C37_second_projection_refuted",
    "C37_one_key_refuted",
    "C37_no_keys_refuted",
    "C37_outer_group_refuted",
    "C37_lists_refuted"
   ],
   "note": "2, 4, 8, ... keys in each removed dict, or one removed group axis; refuted for none, one and other numbers of keys"
  },
  {
   "property": "C38",
   "status": "proved",
   "theorems": [
    "C38_selection_near_an_edge",
    "C38_selection_keeps_the_bins_inside",
    "C38_selection_at_an_edge_succeeds",
    "C38_selection_equals_filling_the_selected_rows",
    "C38_not_nan_keeps_the_numbers",
    "C38_and_selects_in_turn",
    "C38_selected_axis_stays",
    "C38_selecting_a_cut",
    "C38_selecting_a_cut_equals_filling_the_passing_rows",
    "C38_groupbin_selection",
    "C38_cut_on_two_quantities_refuted",
    "C38_equal_nan_refuted",
    "C38_infinite_threshold_refuted",
    "C38_groupbin_with_a_nan_group_refuted",
    "C38_groupbin_below_infinity_refuted",
    "C38_threshold_expressions"
   ],
   "note": "bin, intbin, split, cut and groupbin axes at finite edges, cells and fills; success at every edge, and near an edge with a tolerance of at most half a bin; thresholds written as arithmetic of constants; refuted for == nan, infinite thresholds, cuts on two quantities, groupbin with NaN or inf groups"
  },
  {
   "property": "C39",
   "status": "proved",
   "theorems": [
    "C39_selection_keeps_the_matching_groups",
    "C39_selection_of_comparable_groups_succeeds",
    "C39_and_keeps_the_groups_matching_all",
    "C39_or_keeps_the_groups_matching_one",
    "C39_three_comparisons_joined_by_or_refuted",
    "C39_selection_equals_filling_the_matching_rows",
    "C39_compound_conditions_refuted"
   ],
   "note": "one comparison, any number joined by and, two joined by or; refuted for three or more joined by or, and for mixtures"
  },
  {
   "property": "C40",
   "status": "proved",
   "theorems": [
    "C40_rebin_sums_the_old_bins",
    "C40_rebin_preserves_totals",
    "C40_rebin_commutes_with_filling",
    "C40_rebin_at_edges_succeeds",
    "C40_rebin_at_another_edge_fails",
    "C40_rebin_in_two_steps"
   ],
   "note": "bin, intbin and split axes, any edges among those of the axis, cells, totals, fills and rebinning twice; any other edge is an error"
  },
  {
   "property": "C41",
   "status": "partial",
   "theorems": [
    "C41_rebinby_always_fails_refuted"
   ],
   "note": "false of the code: refuted, rebinby raises an error for every histogram, axis and factor"
  },
  {
   "property": "C42",
   "status": "proved",
   "theorems": [
    "C42_dropping_all_profiles_keeps_counts",
    "C42_keeping_a_profile_refuted",
    "C42_filter_without_weight_refuted",
    "C42_no_profile_given"
   ],
   "note": "all profiles dropped; refuted when a profile is kept, and for a filter without a weight"
  },
  {
   "property": "C43",
   "status": "proved",
   "theorems": [
    "C43_normalized_split",
    "C43_normalized_split_adds_up_to_one",
    "C43_table_lists_every_bin",
    "C43_table_of_filled_bins",
    "C43_means_and_errors_are_sound",
    "C43_effective_count_unweighted",
    "C43_effective_count_equal_weights",
    "C43_unknown_profile_refused",
    "C43_repeated_profile_refuted",
    "C43_normalized_counts_are_shares",
    "C43_normalized_counts_add_up_to_one",
    "C43_normalized_refuted",
    "C43_normalized_groups_refuted",
    "C43_normalized_split_refuted"
   ],
   "note": "any content, any profiles in any order, and normalized counts with equal bins or one split axis; refuted for normalized=True (the sum of counts times widths is the volume of a bin, not 1), for normalized=True with groups or with a split that is not the last axis, and for a profile given twice"
  },
  {
   "property": "C44",
   "status": "proved",
   "theorems": [
    "C44_fraction_of_every_bin",
    "C44_passing_and_failing_is_all",
    "C44_fractions_between_zero_and_one",
    "C44_filled_histograms_are_counted",
    "C44_without_profiles_refuted",
    "C44_unknown_cut_refused",
    "C44_unimplemented_errors_refuted",
    "C44_unknown_error_name_refuted"
   ],
   "note": "any content, any cuts in any order, error None, normal or wilson; refuted for histograms without profiles, unimplemented and unknown error names"
  },
  {
   "property": "C45",
   "status": "proved",
   "theorems": [
    "C45_lookup_returns_what_was_stored",
    "C45_store_fails_only_below_a_histogram",
    "C45_len",
    "C45_stays_unshared",
    "C45_new_book_unshared",
    "C45_shared_refuted",
    "C45_wildcard_name_refuted"
   ],
   "note": "any history of assignments and deletions; refuted for a book stored at two places and for names with wildcard characters, which cannot be looked up"
  },
  {
   "property": "C46",
   "status": "proved",
   "theorems": [
    "C46_delete_removes_exactly_the_entry",
    "C46_pattern_deletes_everything",
    "C46_pattern_refuted",
    "C46_pattern_nested_refuted"
   ],
   "note": "paths without wildcards; refuted for wildcard paths, which delete everything, and fail half way if there are nested books with entries"
  },
  {
   "property": "C47",
   "status": "proved",
   "theorems": [
    "C47_list_is_unique",
    "C47_iteration",
    "C47_iteration_flat",
    "C47_pattern",
    "C47_star_stays_in_one_level_refuted",
    "C47_pattern_in_book_refuted",
    "C47_contains",
    "C47_cycle_refuted"
   ],
   "note": "any history; refuted: a star does not stop at slashes, books are among the results, a pattern is always in the book, a book that contains itself cannot be iterated"
  },
  {
   "property": "C48",
   "status": "proved",
   "theorems": [
    "C48_unrelated",
    "C48_unrelated_fill_is_each_fill",
    "C48_unrelated_origins",
    "C48_multiple_in_same_book_refuted",
    "C48_book_fill_is_each_fill",
    "C48_book_fill_fails_if_one_fails",
    "C48_changes_keep_up_to_date",
    "C48_every_fill_keeps_up_to_date",
    "C48_inner_change_refuted",
    "C48_same_histogram_twice_refuted",
    "C48_empty_book_refuted",
    "C48_number_only_refuted",
    "C48_fill_in_memory"
   ],
   "note": "refuted for a book that has both h and a sum or multiple made from h (they share their destinations, so the second gets every row in every bin without an error), and for an inner book changed directly (the outer book keeps its old instructions), the same histogram under two names, an empty book (TypeError), and a histogram of numbers only (counts once per row of the others)"
  },
  {
   "property": "C49",
   "status": "proved",
   "theorems": [
    "C49_add",
    "C49_add_changes_nothing",
    "C49_sum_isolated",
    "C49_same_paths_isolated",
    "C49_iadd",
    "C49_iadd_changes_only_a",
    "C49_iadd_agrees",
    "C49_sum_independent_refuted",
    "C49_wildcard_names_refuted",
    "C49_add_fails_only",
    "C49_add_succeeds",
    "C49_iadd_fails_only",
    "C49_iadd_succeeds",
    "C49_iadd_wildcard_refuted"
   ],
   "note": "refuted: the sum holds the histograms that only one operand has, not copies, so scaling or filling it changes the operand; entries of the second book whose names contain wildcard characters are missing from the sum, and make += fail"
  },
  {
   "property": "C50",
   "status": "proved",
   "theorems": [
    "C50_copy",
    "C50_cleared",
    "C50_mul",
    "C50_copyonfill",
    "C50_copy_succeeds",
    "C50_copy_changes_nothing",
    "C50_copy_isolated",
    "C50_original_isolated",
    "C50_copyonfill_of_filled_refuted",
    "C50_imul",
    "C50_clear",
    "C50_imul_twice_refuted",
    "C50_cleared_succeeds",
    "C50_copyonfill_succeeds",
    "C50_mul_succeeds",
    "C50_mul_fails_only"
   ],
   "note": "refuted for copyonfill() of a book that is already filled: filling the copy changes the original, because the fill of a book ignores the mark copyonfill() sets"
  },
  {
   "property": "C51",
   "status": "proved",
   "theorems": [
    "C51_samples",
    "C51_view",
    "C51_view_succeeds",
    "C51_view_isolated",
    "C51_sample_isolated",
    "C51_filled_histograms_refuted",
    "C51_samples_succeeds"
   ],
   "note": "refuted for histograms that are already filled: all samples share their contents"
  },
  {
   "property": "C52",
   "status": "proved",
   "theorems": [
    "C52_spark_fill",
    "C52_same_as_numpy",
    "C52_fixed_axis",
    "C52_group_axis",
    "C52_expressions",
    "C52_new_group_refuted",
    "C52_underflow_refuted",
    "C52_overflow_refuted",
    "C52_infinity_refuted",
    "C52_intbin_refuted",
    "C52_groupbin_nan_refuted",
    "C52_filter_refuted",
    "C52_filter_profile_refuted",
    "C52_nan_weight_refuted",
    "C52_division_refuted",
    "C52_nan_comparison_refuted",
    "C52_far_below",
    "C52_far_above",
    "C52_far_above_refuted",
    "C52_null_filter_refuted"
   ],
   "note": "exact arithmetic; refuted for new groups (AttributeError), a filter without a weight (ignored), values below the bins without an underflow bin, values above the bins and NaN with a NaN bin but no overflow bin, infinite and very large values, intbin values above the bins or not whole, groupbin NaN, NaN weights, division by zero, also in filters, and comparisons with NaN"
  },
  {
   "property": "C53",
   "status": "proved",
   "theorems": [
    "C53_pandas_lists_every_bin",
    "C53_each_bin_has_its_row",
    "C53_pandas_fraction_lists_every_bin",
    "C53_other_axes_refused",
    "C53_no_axes_refuted",
    "C53_mixed_groups_refuted",
    "C53_infinite_values_refuted",
    "C53_all_cuts_refuted",
    "C53_level_names_refuted"
   ],
   "note": "refuted for group keys of both types (such as a NaN group beside others), for histograms without axes, when all fixed axes are the given cuts, and for the labels of infinite values"
  },
  {
   "property": "C54",
   "status": "proved",
   "theorems": [
    "C54_root_counts",
    "C54_root_profile",
    "C54_one_root_bin",
    "C54_default_axes",
    "C54_only_one_axis",
    "C54_integer_bins_and_cuts_refuted",
    "C54_two_axes_refuted",
    "C54_split_refuted",
    "C54_nan_bin_refuted",
    "C54_closed_high_edges_refuted"
   ],
   "note": "refuted for split axes, which are shown with bins of equal width, for the NaN bin, which is left out, for integer bins, cuts and two axes, which are errors, and for the edges of bins closed above; with group axes, up to the limits of C37"
  },
  {
   "property": "C55",
   "status": "proved",
   "theorems": [
    "C55_definitions_substitute"
   ],
   "note": "any definitions and expression; only in this direction, since a definition may be a comparison where the written-out one is rejected"
  },
  {
   "property": "C56",
   "status": "proved",
   "theorems": [
    "C56_axis_roundtrip",
    "C56_hist_roundtrip"
   ],
   "note": "every constructed histogram"
  },
  {
   "property": "C57",
   "status": "proved",
   "theorems": [
    "C57_plot_shows_every_bin",
    "C57_plot_of_all_groups",
    "C57_normalized_plot",
    "C57_normalized_groups_refuted",
    "C57_positions_lie_in_their_bins",
    "C57_nan_group_refuted",
    "C57_one_removed_group_refuted",
    "C57_infinite_edge_refuted",
    "C57_narrow_first_bin_refuted"
   ],
   "note": "exact arithmetic; normalized=True with bin and intbin axes only; refuted for normalized=True with group axes (AttributeError), for a groupbin axis with a NaN group (TypeError), for removing a group axis with one key (AttributeError), for a split axis that ends at infinity (its first step is at infinity), and for a first bin narrower than 1e-10 of the axis (its step and error bar are those of the next bin)"
  },
  {
   "property": "C58",
   "status": "proved",
   "theorems": [
    "C58_legend_lists_the_labels",
    "C58_legend_lists_keys_of_the_axis",
    "C58_cut_legend_refuted",
    "C58_intbin_legend_refuted",
    "C58_encoding",
    "C58_stack_order",
    "C58_overlay_and_stack_refuted"
   ],
   "note": "refuted for cuts and intbins: no label of the data is among the colours; and for an overlay and a stack together: the first has no colours"
  },
  {
   "property": "C59",
   "status": "proved",
   "theorems": [
    "C59_chains_have_at_most_one_of_each",
    "C59_last_step",
    "C59_heatmap_step"
   ],
   "note": "any sequence of calls, exactly"
  },
  {
   "property": "C60",
   "status": "proved",
   "theorems": [
    "C60_combination_shows_its_plots",
    "C60_drawn_exactly_if_its_plots_are",
    "C60_layout",
    "C60_error_bars_beside_refuted"
   ],
   "note": "refuted: a plot with error bars directly in beside, below or grid has no filter, so that its marks also get the rows of the other plots"
  },
  {
   "property": "C61",
   "status": "proved",
   "theorems": [
    "C61_heatmap_shows_every_bin",
    "C61_heatmap_of_all_groups",
    "C61_centres",
    "C61_encoding",
    "C61_drawn_exactly_if",
    "C61_intbin_refuted",
    "C61_split_refuted"
   ],
   "note": "exact arithmetic; refuted for an intbin as y axis (AttributeError; as x axis it is drawn) and for split axes (NotImplementedError)"
  },
  {
   "property": "C62",
   "status": "proved",
   "theorems": [
    "C62_accepted",
    "C62_cells_hold_what_is_written",
    "C62_reads_only_written_fields",
    "C62_definitions",
    "C62_name_as_filter_refuted",
    "C62_constant_filter_refuted",
    "C62_infinite_weight_refuted"
   ],
   "note": "exact arithmetic; refuted for a filter that is the name of a boolean field (refused), a constant filter (accepted, but the fill raises TypeError) and an infinite weight together with a filter (read as a field named inf)"
  },
  {
   "property": "C63",
   "status": "proved",
   "theorems": [
    "C63_book_json_roundtrip",
    "C63_book_json_text",
    "C63_failed_assignment_refuted"
   ],
   "note": "refuted after an assignment to a SystematicsBook that raised: it is not undone, and the book does not come back from its JSON"
  },
  {
   "property": "C64",
   "status": "proved",
   "theorems": [
    "C64_compatible",
    "C64_compatible_no_error",
    "C64_compatible_equivalence",
    "C64_assertcompatible",
    "C64_wildcard_names_refuted",
    "C64_kinds_refuted"
   ],
   "note": "refuted for names with wildcard characters (compatible raises AttributeError, assertcompatible ValueError, even for a book and itself) and for a histogram against a book (AttributeError)"
  },
  {
   "property": "C65",
   "status": "proved",
   "theorems": [
    "C65_systematics_checked",
    "C65_systematics_assignment",
    "C65_failed_assignment_refuted",
    "C65_inner_change_refuted"
   ],
   "note": "refuted: an assignment that raises stays in the book, which then refuses good assignments; a book inside it can be changed without a check. A SystematicsBook can never be filled, because it never makes the list of fields (AttributeError)"
  },
  {
   "property": "C66",
   "status": "proved",
   "theorems": [
    "C66_group_histograms",
    "C66_group_paths",
    "C66_group_succeeds",
    "C66_group_keeps_entries",
    "C66_group_attachments",
    "C66_systematics_refuted",
    "C66_wildcard_names_refuted"
   ],
   "note": "refuted for SystematicsBooks (ValueError, because the group of histograms has no attachments) and names with wildcard characters (AttributeError); a group of no books is a TypeError"
  },
  {
   "property": "C67",
   "status": "proved",
   "theorems": [
    "C67_expression_accepted",
    "C67_constants_refuted",
    "C67_cancelled_refuted",
    "C67_bitwise_refuted",
    "C67_comparison_as_number_refuted",
    "C67_call_in_logic_refuted"
   ],
   "note": "refuted for **, %, // and ^ between two constants, also if they only turn out to be constants, as in (x - x)**2 (KeyError), for & and | with a field (NotImplementedError), for a comparison used as a number (ExpressionError) and for a function or a constant as an operand of and (AssertionError); the part on histograms is C62_accepted"
  },
  {
   "property": "C68",
   "status": "proved",
   "theorems": [
    "C68_groupkeys_are_the_values",
    "C68_groupkeys_grow",
    "C68_groupkeys_unfilled_refuted",
    "C68_groupkeys_without_groups_refuted",
    "C68_groupkeys_other_axis",
    "C68_groupkeys_of_written",
    "C68_index_is_the_sum",
    "C68_index_is_the_cell",
    "C68_index_unfilled",
    "C68_index_unfilled_group",
    "C68_index_changes_no_cell",
    "C68_index_in_steps",
    "C68_axis_means_the_text",
    "C68_axis_by_its_own_text",
    "C68_groupkeys_dropped_rows_refuted"
   ],
   "note": "refuted for groupkeys of a histogram never filled (AttributeError, not the empty set), without group axes (UnboundLocalError instead of IndexError), and for the values of rows that another group axis drops: present if it comes later, missing if it comes first and drops all rows of the fill"
  },
  {
   "property": "C69",
   "status": "proved",
   "theorems": [
    "C69_keys_ascend",
    "C69_order_of_values",
    "C69_sorted_keys",
    "C69_legend_in_axis_order",
    "C69_equal_keys",
    "C69_equality_reflexive",
    "C69_equality_transitive",
    "C69_key_with_itself",
    "C69_groupbin_keys_ascend",
    "C69_nan_key_refuted",
    "C69_same_low_refuted",
    "C69_infinite_edge_refuted",
    "C69_intbin_keys_refuted"
   ],
   "note": "refuted for the key of NaN (less than itself), for intervals of different axes with the same low edge (each is greater than the other), for split with an edge at -inf and underflow (two keys that cannot be ordered), and for intbin axes with underflow or overflow, whose keys cannot be sorted, so that overlaying or stacking such an axis raises TypeError"
  },
  {
   "property": "C70",
   "status": "proved",
   "theorems": [
    "C70_write",
    "C70_attach",
    "C70_detach",
    "C70_copy",
    "C70_new",
    "C70_systematic",
    "C70_merge",
    "C70_given",
    "C70_share",
    "C70_given_systematic",
    "C70_only_through_sharers",
    "C70_has_get",
    "C70_destinations",
    "C70_multiple_attach_refuted",
    "C70_given_dict_written_refuted"
   ],
   "note": "refuted: attach on h + g or h * x changes the attachments of h; systematic= writes into the dict that was given as attachment=, and so into everything else that shares it"
  },
  {
   "property": "C71",
   "status": "proved",
   "theorems": [
    "C71_chain_is_direct",
    "C71_chain_succeeds",
    "C71_direct_is_constructor",
    "C71_fluent_is_constructor",
    "C71_either_order",
    "C71_fill_option",
    "C71_fill_array",
    "C71_fill_array_refuted"
   ],
   "note": "refuted for one array as fill= if the axis is not a plain field (x + 1), or a weight or filter needs another field: ValueError whatever the array, although the documentation asks for one field only"
  },
  {
   "property": "C72",
   "status": "proved",
   "theorems": [
    "C72_floor",
    "C72_ceil",
    "C72_trunc",
    "C72_rint",
    "C72_abs",
    "C72_sign",
    "C72_max",
    "C72_min",
    "C72_copysign",
    "C72_mod",
    "C72_percent",
    "C72_pow",
    "C72_heaviside",
    "C72_special",
    "C72_accepted_functions_compute",
    "C72_unknown_function_refused",
    "C72_library_is_admissible",
    "C72_arithmetic_value",
    "C72_fmod_partial",
    "C72_fmod_refuted",
    "C72_missing_functions_refuted",
    "C72_missing_functions_accepted_refuted",
    "C72_unknown_attribute_refuted"
   ],
   "note": "refuted for fmod (all three spellings), which is Python's remainder: fmod(-1, 3) is 2; for round(x), x // y and x ^ y, which are accepted but raise AssertionError in every fill with a row; and for an unknown function of math or numpy, which raises AttributeError; C72_fmod_partial says when fmod is right"
  },
  {
   "property": "C73",
   "status": "proved",
   "theorems": [
    "C73_python_functions_never_write",
    "C73_arguments_seen",
    "C73_fill_only_reads_partial",
    "C73_only_additional_arguments_are_written",
    "C73_book_only_reads_partial",
    "C73_book_only_additional_arguments_are_written",
    "C73_fill_only_reads_refuted"
   ],
   "note": "holds if no Numpy function is called with one argument too many (the two theorems ending in _partial); refuted otherwise: max(x, y, z) is the maximum of two and is written into the caller's array z (C73_fill_only_reads_refuted); an array is never modified unless it is such an argument (C73_only_additional_arguments_are_written)"
  },
  {
   "property": "C74",
   "status": "proved",
   "theorems": [
    "C74_cells",
    "C74_chunks",
    "C74_at_once",
    "C74_round_closest",
    "C74_round_monotone",
    "C74_round_exact",
    "C74_integers",
    "C74_counts_exact",
    "C74_counts_stop",
    "C74_error",
    "C74_order",
    "C74_order_refuted",
    "C74_sum_refuted",
    "C74_chunks_at_once_refuted"
   ],
   "note": "the unrestricted claims are refuted: the order of the rows changes a sum (C74_order_refuted), adding two histograms is not filling one (C74_sum_refuted), and a histogram that counts a fill at once depends on the chunks beyond 2^53 (C74_chunks_at_once_refuted). round53 is proved to be a closest number with 53 bits; its exponent has no bounds (no overflow, no subnormals)"
  },
  {
   "property": "C75",
   "status": "proved",
   "theorems": [
    "C75_erf_formula",
    "C75_erf_range",
    "C75_erf_monotone",
    "C75_erf_odd",
    "C75_erfc",
    "C75_erf_special",
    "C75_erf_zero_refuted",
    "C75_lgamma",
    "C75_gamma",
    "C75_factorial",
    "C75_gamma_negative_refuted",
    "C75_gamma_of_literal_refuted",
    "C75_other_functions",
    "C75_literal_raises_refuted"
   ],
   "note": "findings: erf(0) is 1e-9 and no number has erf 0 (C75_erf_zero_refuted); gamma is NaN between -1 and 0 and below -4.5, where the gamma function has values (C75_gamma_negative_refuted); gamma, lgamma and factorial of a literal raise TypeError because len() is called on a number (C75_gamma_of_literal_refuted, C75_literal_raises_refuted). exp and log are parameters; the distance from the true erf and gamma functions is not proved"
  },
  {
   "property": "C76",
   "status": "proved",
   "theorems": [
    "C76_equality",
    "C76_order_total",
    "C76_order_transitive",
    "C76_order_respects_equality",
    "C76_sorted_canonical",
    "C76_sorted_exists",
    "C76_model_order",
    "C76_model_sorted",
    "C76_model_sorted_calls",
    "C76_equal_hash",
    "C76_axis_hash",
    "C76_mixed_set_refuted",
    "C76_int_float_refuted",
    "C76_sets_refuted"
   ],
   "note": "findings: f(1)*f(1.5) and f(1.0)*f(1.5) are equal factor by factor but are put in different orders, because constants are first ordered by the names of their types, so they are different expressions (C76_int_float_refuted); < between sets is inclusion, so x in {1} or x in {2} may be kept in either order and the two are not equal (C76_sets_refuted); a set literal with values that cannot be ordered, such as {1, 'a'}, cannot be hashed and its expression cannot be used in a selection (C76_mixed_set_refuted)"
  },
  {
   "property": "C77",
   "status": "proved",
   "theorems": [
    "C77_sizes",
    "C77_underflow",
    "C77_overflow",
    "C77_nanflow",
    "C77_closedlow",
    "C77_low_high",
    "C77_min_max",
    "C77_copy",
    "C77_relabel",
    "C77_items",
    "C77_items_wrong_length",
    "C77_split_binwidth",
    "C77_split_binwidth_too_high",
    "C77_split_binwidth_too_low_refuted",
    "C77_bin_binwidth",
    "C77_neighbour",
    "C77_bin_binwidth_refuted",
    "C77_bin_binwidth_none",
    "C77_widths_positive",
    "C77_normalized_tables",
    "C77_new_bin",
    "C77_new_groupbin",
    "C77_new_intbin",
    "C77_new_split",
    "C77_constructor_errors",
    "C77_type_errors",
    "C77_constructor_properties",
    "C77_lookup_sound",
    "C77_lookup_complete",
    "C77_readable",
    "C77_lookup_by_arguments",
    "C77_lookup_split_refuted",
    "C77_lookup_no_bins_refuted"
   ],
   "note": "findings: bin.binwidth is always less than the width of the bins, because the loop that corrects it subtracts at least one unit (C77_bin_binwidth_refuted), and raises ZeroDivisionError without finite bins, which a lookup by binwidth passes on even if another axis fits (C77_lookup_no_bins_refuted); split.binwidth(i) one below the lowest index gives minus the whole range instead of IndexError (C77_split_binwidth_too_low_refuted); a split is never found by a list of its edges, nor by a binwidth (C77_lookup_split_refuted); a negative number of bins is a TypeError and True is accepted as a number"
  },
  {
   "property": "C78",
   "status": "proved",
   "theorems": [
    "C78_exact_instance",
    "C78_exact_projection",
    "C78_sum",
    "C78_iadd",
    "C78_commutative",
    "C78_commutative_machine",
    "C78_unit",
    "C78_different_axes",
    "C78_merge",
    "C78_merge_order",
    "C78_associative",
    "C78_associative_refuted",
    "C78_sum_of_fills",
    "C78_product",
    "C78_product_error",
    "C78_double",
    "C78_power_of_two",
    "C78_power_distributes",
    "C78_product_refuted",
    "C78_distributes_refuted",
    "C78_project_integers",
    "C78_project_error"
   ],
   "note": "numbers have 53 bits and an exponent without bounds: overflow to infinity and subnormal numbers are not modelled; projections that sum over group axes are covered only by the exact model (C36); refuted: associativity, reassociation of factors and distribution for factors that are not powers of two"
  },
  {
   "property": "C79",
   "status": "proved",
   "theorems": [
    "C79_printed_as_a_field",
    "C79_printed_longer",
    "C79_fill_dict",
    "C79_fill_field",
    "C79_fill_expression_fails",
    "C79_fill_other_field_fails",
    "C79_fill_needs_one_axis",
    "C79_printing_injective_refuted"
   ],
   "note": "Spark and Pandas data are not modelled; how Python prints constants is left open; refuted: that printing identifies the expression"
  },
  {
   "property": "C80",
   "status": "proved",
   "theorems": [
    "C80_axis_reads_back",
    "C80_axis_prints_all",
    "C80_axis_prints_what_is_not_default",
    "C80_hist_reads_back",
    "C80_hist_prints_all",
    "C80_hist_prints_only",
    "C80_attachment_printed_refuted",
    "C80_interval_reads_back",
    "C80_interval_prints_all",
    "C80_book_reads_back",
    "C80_book_prints_all",
    "C80_book_prints_only",
    "C80_samplesbook_refuted",
    "C80_systematicsbook_refuted"
   ],
   "note": "the printed call is modelled as class, positional and keyword values, not as text: that Python prints and reads a string, number or tuple as the same value is trusted (inf and nan read back only where these names are defined); definitions given as parsed expressions are not covered, and C79 shows two that print alike; refuted: that the attachment is printed, that a SamplesBook prints a call with its histograms (its constructor takes the dict for a list of samples), and that a SystematicsBook prints a call that does not raise (it needs the attachments)"
  },
  {
   "property": "C81",
   "status": "proved",
   "theorems": [
    "C81_picks_the_elements",
    "C81_shows_the_cells",
    "C81_picks_once",
    "C81_refused",
    "C81_groups_refused",
    "C81_none",
    "C81_ellipsis",
    "C81_none_of_groups",
    "C81_full_slice",
    "C81_second_axis_refuted",
    "C81_last_axis_refuted"
   ],
   "note": "refuted: that hist[:, j] is bin j of the second axis and hist[..., j] element j of the last dimension, as in Numpy; slices of groups raise TypeError because slices have no hash (from Python 3.12 on they have one, and KeyError is raised); arrays of several dimensions as indexes are not modelled"
  },
  {
   "property": "C82",
   "status": "proved",
   "theorems": [
    "C82_shape",
    "C82_arrays",
    "C82_algebra",
    "C82_project",
    "C82_select",
    "C82_rebin",
    "C82_drop",
    "C82_drop_refuted"
   ],
   "note": "refuted for drop of some profiles and not others, which leaves arrays of another shape (C42)"
  },
  {
   "property": "C83",
   "status": "proved",
   "theorems": [
    "C83_pop",
    "C83_setdefault",
    "C83_setdefault_none",
    "C83_setdefault_pattern",
    "C83_update",
    "C83_update_from_book_refuted",
    "C83_popitem_refuted",
    "C83_pop_pattern_refuted"
   ],
   "note": "refuted for popitem, which never removes anything, for update with another book, which raises TypeError if that has a histogram, both because iterating over a book gives pairs and not keys, and for pop of a pattern, which removes the entries that do not match as well"
  }
 ]
}
