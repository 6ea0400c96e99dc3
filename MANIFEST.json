{
 "claims": [
  {
   "property": "C01",
   "status": "proved",
   "theorems": [
    "cut_fields_disjoint",
    "cut_used_word_exact",
    "cut_used_word_exact_refuted"
   ],
   "note": "Disjointness, non-emptiness and coverage for every history and any names; exactness of the used word for names of at most 64 bytes; refuted beyond. That a raising call leaves the registry unchanged is by construction of the model (nothing is written before the exception)."
  },
  {
   "property": "C02",
   "status": "proved",
   "theorems": [
    "boolean_cut_frame",
    "boolean_cut_succeeds"
   ],
   "note": "All reachable registries, stated through good/bad/category_codes/select_category."
  },
  {
   "property": "C03",
   "status": "proved",
   "theorems": [
    "good_bad_complementary",
    "selection_is_intersection",
    "good_raises_iff_bad_raises"
   ],
   "note": "Field names of at most 64 bytes for the several-fields selection."
  },
  {
   "property": "C04",
   "status": "proved",
   "theorems": [
    "categorical_reads_back",
    "categorical_succeeds",
    "categorical_reads_back_refuted"
   ],
   "note": "Proved from registration to selection for names of at most 64 bytes, when no boolean field has the same name; refuted when a boolean field shares the name (the labels are then used as an index array)."
  },
  {
   "property": "C05",
   "status": "proved",
   "theorems": [
    "clear_cut_frame",
    "clear_cut_raises"
   ],
   "note": ""
  },
  {
   "property": "C06",
   "status": "proved",
   "theorems": [
    "cut_parameter_limits",
    "cut_parameter_range",
    "cut_parameter_list_any",
    "cut_parameter_list",
    "cut_parameter_widening",
    "cut_parameter_nan_refuted",
    "cut_parameter_unbounded_element_refuted"
   ],
   "note": "All values and limits, NaN and infinities included; the documented a < x < b is refuted for NaN, and an unlimited first range of a list raises."
  },
  {
   "property": "C07",
   "status": "proved",
   "theorems": [
    "fresh_field_good",
    "fresh_field_good_no_unregistration",
    "fresh_field_good_refuted"
   ],
   "note": "The unconditional claim is refuted (bits of an unregistered field are inherited); proved for all histories that unregister only clean fields."
  },
  {
   "property": "C08",
   "status": "proved",
   "theorems": [
    "crash_found_disjoint",
    "crash_in_unregister_safe",
    "crash_harmless",
    "crash_in_boolean_safe",
    "crash_disjoint_refuted"
   ],
   "note": "The unconditional claim is refuted (descriptions are written before the used word)."
  },
  {
   "property": "C09",
   "status": "proved",
   "theorems": [
    "nearest_arrivals_correct",
    "nearest_arrivals_no_trigger",
    "nearest_arrivals_one_trigger",
    "nearest_arrivals_one_trigger_refuted",
    "nearest_arrivals_versions_agree",
    "nearest_arrivals_versions_agree_refuted"
   ],
   "note": "Any sorted lists, ties included. An empty pulse list returns one array instead of two (model: SingleEmptyArray). int64 wrap-around not modelled."
  },
  {
   "property": "C10",
   "status": "proved",
   "theorems": [
    "max_deriv_spike",
    "max_deriv_plain",
    "max_deriv_versions_agree",
    "max_deriv_kernel_length_refuted"
   ],
   "note": "For records of at least 7 samples after the ignored ones (5 without spike rejection) and five-entry kernels; shorter records are read out of bounds (undefined) and other kernel lengths raise although the reference accepts them (refuted form). float32 conversion of the result not modelled."
  },
  {
   "property": "C11",
   "status": "proved",
   "theorems": [
    "five_lag_vertex",
    "five_lag_defined",
    "five_lag_implementations_agree",
    "five_lag_transform",
    "five_lag_transform_refuted"
   ],
   "note": "At least 8 samples, filter 4 shorter than the record; the transform is a length-preserving function."
  },
  {
   "property": "C12",
   "status": "proved",
   "theorems": [
    "flux_jumps_whole_quanta",
    "flux_jumps_restored",
    "flux_jumps_unchanged",
    "flux_jumps_raises",
    "flux_jumps_restored_refuted"
   ],
   "note": "Positive quantum; restoration without the span condition is refuted."
  },
  {
   "property": "C13",
   "status": "proved",
   "theorems": [
    "shorth_is_shortest",
    "shorth_normalized",
    "shorth_normalized_one_refuted",
    "shorth_half_refuted",
    "shorth_mean_refuted"
   ],
   "note": "For all data. The documented 'at least half' (even number of data) and the documented shorth mean (ties) are refuted in extra theorems; normalising one datum raises."
  },
  {
   "property": "C14",
   "status": "proved",
   "theorems": [
    "high_median_unweighted",
    "high_median_equal_weights",
    "high_median_weighted",
    "high_median_refuted"
   ],
   "note": "The exact claim for general weights is refuted; the bound on the error is proved for all non-negative weights."
  },
  {
   "property": "C15",
   "status": "proved",
   "theorems": [
    "qscale_order_statistic",
    "qscale_small",
    "qscale_returns_refuted"
   ],
   "note": "Single-precision rounding of the trial value not modelled. That it always returns is refuted (equal values)."
  },
  {
   "property": "C16",
   "status": "proved",
   "theorems": [
    "merge_sorted",
    "merge_empty_first",
    "merge_empty_first_refuted"
   ],
   "note": "Exact values; NaN not modelled."
  },
  {
   "property": "C17",
   "status": "proved",
   "theorems": [
    "toeplitz_symmetric_solution",
    "toeplitz_symmetric_returns",
    "toeplitz_order_one_refuted",
    "toeplitz_regular_refuted"
   ],
   "note": "order-1 matrices raise IndexError and regular matrices with a vanishing leading minor give infinities (refuted forms); exact arithmetic"
  },
  {
   "property": "C18",
   "status": "proved",
   "theorems": [
    "toeplitz_asymmetric_solution"
   ],
   "note": "exact arithmetic"
  },
  {
   "property": "C19",
   "status": "proved",
   "theorems": [
    "toeplitz_mult_product",
    "toeplitz_solve_mult",
    "toeplitz_mult_solve",
    "toeplitz_mult_integer_refuted"
   ],
   "note": "for floating-point vectors; with integer vectors the result is truncated (refuted form)"
  },
  {
   "property": "C20",
   "status": "proved",
   "theorems": [
    "whiten_is_arma",
    "whiten_solveW_inverse",
    "whiten_is_matrix",
    "whiten_time_invariant",
    "whiten_pure_ar_refuted"
   ],
   "note": "coefficient lists with one element other than 1 break it for more than one sample (refuted form); exact arithmetic, floating-point inputs"
  },
  {
   "property": "C21",
   "status": "proved",
   "theorems": [
    "applyWT_is_transpose",
    "solveWT_is_transpose",
    "applyWT_pure_ar_refuted"
   ],
   "note": "same exception as C20 (refuted form)"
  },
  {
   "property": "C22",
   "status": "proved",
   "theorems": [
    "five_lag_ignores_constants",
    "five_lag_unit_response",
    "five_lag_peak_response",
    "five_lag_minimum_variance",
    "five_lag_negative_pulse_refuted",
    "filters_need_autocorrelation"
   ],
   "note": "without low-pass smoothing; exact arithmetic; the resolution (sqrt, log) is not modelled; for negative-going pulses the response is not the nominal peak (refuted form)"
  },
  {
   "property": "C23",
   "status": "proved",
   "theorems": [
    "ats_separates",
    "ats_estimates",
    "ats_minimum_variance",
    "filters_need_autocorrelation"
   ],
   "note": "without low-pass smoothing; exact arithmetic; with a whitener the C20 exception for one-coefficient lists applies"
  },
  {
   "property": "C24",
   "status": "proved",
   "theorems": [
    "bracketR_is_quadratic_form",
    "bracketR_short_noise"
   ],
   "note": "exact arithmetic"
  },
  {
   "property": "C25",
   "status": "proved",
   "theorems": [
    "extend_refused",
    "extend_shape",
    "extend_dual",
    "extend_ignores_old",
    "extend_dual_iff",
    "extend_no_worse",
    "extend_exact",
    "model_dual",
    "model_refused",
    "model_from_file",
    "five_lags",
    "extend_dual_refuted"
   ],
   "note": "over the reals, for any qr and pinv that meet their contracts and any random numbers; without independence it is refuted (extend_dual_refuted)"
  },
  {
   "property": "C26",
   "status": "proved",
   "theorems": [
    "save_keeps",
    "save_inverted_changes",
    "save_inverted_twice",
    "save_inverted_dual",
    "save_inverted_modelled",
    "save_load",
    "save_refused",
    "load_version",
    "save_keeps_refuted"
   ],
   "note": "that saving never changes the model is refuted (save_keeps_refuted)"
  },
  {
   "property": "C27",
   "status": "proved",
   "theorems": [
    "phase_save_load",
    "phase_save_history",
    "phase_save_history_iff",
    "phase_no_overwrite",
    "phase_save_new",
    "phase_load_version",
    "phase_save_load_refuted",
    "phase_save_load_slopes_refuted"
   ],
   "note": "for correctors whose splines have no given end slopes, as phase_correct makes them; the unrestricted claim is refuted for a shorter second save (phase_save_load_refuted) and for given slopes (phase_save_load_slopes_refuted)"
  },
  {
   "property": "C28",
   "status": "proved",
   "theorems": [
    "phase_each_pulse",
    "phase_refused",
    "phase_negative_unchanged",
    "phase_zero_unchanged",
    "phase_at_line",
    "phase_between_lines",
    "phase_below_first",
    "phase_above_last",
    "phase_above_only",
    "phase_no_lines",
    "phase_continuous",
    "phase_continuous_moving",
    "phase_continuous_in_phase",
    "correct_each_pulse",
    "correct_continuous"
   ],
   "note": "over the reals"
  },
  {
   "property": "C29",
   "status": "proved",
   "theorems": [
    "spline_interpolates",
    "spline_refused",
    "spline_smooth",
    "spline_twice_smooth",
    "spline_twice_smooth_inside",
    "spline_below",
    "spline_above",
    "spline_is_the_spline",
    "spline_reproduces",
    "spline_line",
    "spline_derivative",
    "linterp_mean",
    "linterp_refused",
    "spline_third",
    "spline_twice_smooth_refuted",
    "spline_third_refuted"
   ],
   "note": "Over the reals, all knot sets of at least two different abscissas, in any order, and all boundary conditions. The claim that der=2 is continuous at clamped ends and that der=3 is the third derivative are false and refuted."
  },
  {
   "property": "C30",
   "status": "proved",
   "theorems": [
    "expression_value",
    "expression_one_meaning",
    "arithmetic_value",
    "summation_value",
    "multiplication_value",
    "composition_value",
    "multiplication_ends",
    "derivative_again",
    "object_derivatives",
    "expression_derivatives",
    "derivatives_agree",
    "number_on_the_right",
    "expression_value_refuted",
    "composition_value_refuted",
    "derivative_refuted",
    "log_derivative_refuted",
    "third_derivative_refuted",
    "number_on_the_right_refuted"
   ],
   "note": "Expressions of any depth over the real numbers; values and all orders of derivatives, with the points at which they hold stated; the points and forms for which the naive claim fails are the _refuted theorems."
  },
  {
   "property": "C31",
   "status": "proved",
   "theorems": [
    "kink_model_optimum",
    "kink_model_found",
    "kink_model_order",
    "kink_model_residuals",
    "kink_model_order_refuted",
    "fit_kink_optimum"
   ],
   "note": "np.linalg.solve is exact (Cramer's rule); minimize_scalar is an argument. Refuted: X2 does not depend on the order of the samples."
  },
  {
   "property": "C32",
   "status": "proved",
   "theorems": [
    "points_in_step",
    "operation_effect",
    "add_refused",
    "add_accepted",
    "one_place",
    "remove_name_raises",
    "points_are_a_table",
    "keyed_by_energy_refuted",
    "refused_point_is_kept_refuted",
    "remove_energy_refuted"
   ],
   "note": "Over the reals; argsort, float() of strings, the table of lines and the smoothing splines are arguments. Refuted as first stated: a named point can be moved onto the energy of another, a point that raises for falling energies stays, and remove_cal_point_energy leaves the second of two points in its window."
  },
  {
   "property": "C33",
   "status": "proved",
   "theorems": [
    "reload_same_points",
    "reload_settings",
    "reload_converts",
    "reload_tidy",
    "reload_same_points_refuted",
    "reload_nonlinearity_refuted"
   ],
   "note": "Over the reals. Refuted without the conditions: a point may replace another when it is reloaded; the nonlinearity is always reloaded as 1.15."
  },
  {
   "property": "C34",
   "status": "proved",
   "theorems": [
    "fit_ranges_succeed",
    "fit_ranges_exact",
    "fit_ranges_contain_line",
    "fit_ranges_do_not_overlap",
    "fit_ranges_avoid",
    "fit_ranges_ph",
    "fit_ranges_negative_refuted"
   ],
   "note": "a negative width gives ranges without the line (refuted form)"
  },
  {
   "property": "C35",
   "status": "proved",
   "theorems": [
    "ljh_read_back",
    "ljh_crash",
    "ljh_read_exact"
   ],
   "note": "byte-level; header fields other than numbers, and float(), abstract"
  },
  {
   "property": "C36",
   "status": "proved",
   "theorems": [
    "ljh_append",
    "ljh_append_all",
    "ljh_append_keeps",
    "ljh_read_index",
    "ljh_truncate_count",
    "ljh_truncate_too_many",
    "ljh_truncate_time",
    "ljh_append_partial_refuted",
    "ljh_append_other_length_refuted",
    "ljh_truncate_strict_refuted",
    "ljh_truncate_header_refuted"
   ],
   "note": "appending behind an incomplete record or with another record length goes wrong (refuted forms); truncation keeps records at the time stamp itself, against its documentation; an indented '#End of Header' entry breaks truncation (refuted form)"
  },
  {
   "property": "C37",
   "status": "proved",
   "theorems": [
    "ljh_copy",
    "ljh_copies_drift",
    "ljh_copy_refused",
    "ljh_copy_presamples_refuted",
    "ljh_copy_negative_refuted"
   ],
   "note": "that the pretrigger length is kept is refuted; negative counts cannot be copied"
  },
  {
   "property": "C38",
   "status": "proved",
   "theorems": [
    "pairing_exact",
    "pairing_keeps_wanted",
    "pairing_duplicate_refuted",
    "pairing_empty_refuted"
   ],
   "note": "Repeated channels and an empty first list are the exceptions (refuted forms); dictionaries keep the last file of a channel."
  },
  {
   "property": "C39",
   "status": "proved",
   "theorems": [
    "channum_is_last",
    "channum_absent",
    "generated_channum",
    "ljhfile_channum_generated",
    "generated_extension_refuted",
    "generated_negative_refuted",
    "ljhfile_channum_refuted"
   ],
   "note": "Whatever-the-base-name is false if the extension mentions a channel, and for LJHFile if the path contains _chan earlier (refuted forms). ASCII digits; names of directories not modelled."
  },
  {
   "property": "C40",
   "status": "proved",
   "theorems": [
    "segments_visit_all",
    "segments_defined"
   ],
   "note": ""
  },
  {
   "property": "C41",
   "status": "proved",
   "theorems": [
    "off_read_back",
    "off_stopped",
    "off_incomplete_refused",
    "off_sample_times",
    "off_two_bases_refuted",
    "off_non_ascii_refuted"
   ],
   "note": "Floats as bit patterns, JSON abstract. The claim as first stated is false with fewer than three basis elements (off_two_bases_refuted) and for a non-ASCII header (off_non_ascii_refuted)."
  },
  {
   "property": "C42",
   "status": "proved",
   "theorems": [
    "states_of_pulses",
    "states_exclusive",
    "states_rounding_refuted"
   ],
   "note": "file parsing, exclusion and attribution; times compared after an arbitrary rounding; the claim at full precision is refuted"
  },
  {
   "property": "C43",
   "status": "proved",
   "theorems": [
    "states_refreshed",
    "states_refresh_succeeds",
    "states_file_grown",
    "states_refresh_repeated_refuted",
    "states_refresh_raises_refuted",
    "states_refresh_excluded_refuted",
    "states_refresh_first_refuted",
    "states_refresh_late_refuted",
    "states_auto_once_refuted",
    "states_half_line_refuted"
   ],
   "note": "reliable refreshes characterised; each condition shown necessary by a counterexample"
  },
  {
   "property": "C44",
   "status": "proved",
   "theorems": [
    "recipe_values",
    "recipe_equations",
    "recipe_negation",
    "recipe_function",
    "recipe_accepted",
    "recipe_overwritten_refuted",
    "recipe_hidden_refuted",
    "recipe_twice_refuted"
   ],
   "note": "early binding characterised for all sequences of definitions; late binding refuted in general and proved when names are not reused"
  },
  {
   "property": "C45",
   "status": "proved",
   "theorems": [
    "include_bad_contexts",
    "include_bad_ends",
    "include_bad_nested_refuted",
    "include_bad_why_refuted"
   ],
   "note": "programs with marking, exceptions and contexts; nesting refuted"
  },
  {
   "property": "C46",
   "status": "proved",
   "theorems": [
    "group_loop_all",
    "group_loop_isolated",
    "group_loop_rethrow",
    "core_loop_all",
    "core_loop_message_refuted"
   ],
   "note": "both the OFF and the TESGroup loop; methods may change only their own channel; the attribute size limit is a parameter"
  },
  {
   "property": "C47",
   "status": "proved",
   "theorems": [
    "status_history",
    "status_good_succeeds",
    "status_bad_succeeds",
    "status_reopened",
    "status_raises_refuted",
    "status_count_refuted"
   ],
   "note": "set iteration order arbitrary; the attribute size limit is a parameter"
  },
  {
   "property": "C48",
   "status": "proved",
   "theorems": [
    "histogram_counts",
    "histogram_one_bin",
    "channel_histogram",
    "group_histogram",
    "off_histogram",
    "off_group_histogram",
    "histogram_unordered",
    "histogram_time_zero_refuted",
    "histogram_twice_refuted",
    "off_group_histograms"
   ],
   "note": "A pulse exactly at t0 (by default 0) is not counted; two data sets with one channel number are counted once (both as _refuted)."
  },
  {
   "property": "C49",
   "status": "proved",
   "theorems": [
    "veto_made",
    "veto_hits",
    "veto_pulse",
    "veto_window",
    "veto_in_range",
    "veto_index_refuted",
    "veto_same_channel_refuted",
    "veto_overflow_refuted",
    "veto_before"
   ],
   "note": "Exact arithmetic. Same-channel vetoes, the int8 overflow at 128 pulses and the IndexError for b = 0 are _refuted theorems; the veto by another channel only, as in the documentation, is therefore false."
  },
  {
   "property": "C50",
   "status": "proved",
   "theorems": [
    "crosstalk_loop_flags",
    "crosstalk_loop_sound",
    "crosstalk_combined",
    "crosstalk_never_flags",
    "crosstalk_not_flagged_refuted",
    "crosstalk_overlap_refuted",
    "crosstalk_order_refuted",
    "crosstalk_categories",
    "crosstalk_selected"
   ],
   "note": "Exact arithmetic; h5py older than version 3 (attribute .value), numpy's isin of a dictionary view is a single false. The naive claim is refuted: no flag is ever set; overlapping windows lose pulses; unordered pulses move flags."
  },
  {
   "property": "C51",
   "status": "proved",
   "theorems": [
    "auto_cuts_exact",
    "auto_cuts_limits",
    "auto_cuts_limits_order",
    "auto_cuts_deriv_last",
    "auto_cuts_all_records_refuted",
    "auto_cuts_reload_refuted",
    "auto_cuts_reload"
   ],
   "note": "The claim that the limits depend on all noise records is false (auto_cuts_all_records_refuted): the derivative limit comes from the last record. The saved limits lose the lower bounds when read back (auto_cuts_reload_refuted). The statement says what is true. Standard deviation and percentile are arguments; exact arithmetic."
  },
  {
   "property": "C52",
   "status": "proved",
   "theorems": [
    "first_n_good",
    "upto_meaning",
    "auto_mask_first",
    "auto_mask_no_good",
    "auto_mask_zero_refuted"
   ],
   "note": "n = 0 in avg_pulses_auto_masks selects the first pulse of the file if it qualifies (refuted form)"
  },
  {
   "property": "C53",
   "status": "proved",
   "theorems": [
    "padded_length_smallest"
   ],
   "note": "np.log2 taken as exact"
  },
  {
   "property": "C54",
   "status": "proved",
   "theorems": [
    "overlap_segments",
    "overlap_covers",
    "overlap_short_data",
    "plain_segments",
    "compute_spectrum_segments",
    "reshaped_segments",
    "compute_spectrum_cover_refuted",
    "reshaped_refuted"
   ],
   "note": "offsets in exact arithmetic; the Fourier transforms are not modelled"
  },
  {
   "property": "C55",
   "status": "proved",
   "theorems": [
    "savgol_fits",
    "savgol_fit_exists",
    "savgol_polynomial",
    "savgol_expansion",
    "savgol_reproduces",
    "savgol_rising_line",
    "savgol_refused",
    "savgol_derivative_refuted",
    "savgol_falling_line_refuted",
    "savgol_short_refuted"
   ],
   "note": "np.linalg.pinv is any function giving a matrix P with BPB=B and BP symmetric for the matrix B of powers. Refuted: odd derivatives have the right sign (np.convolve reverses the kernel); falling lines are reproduced at the ends; the result has the length of the input when it has no more than half a window of samples."
  },
  {
   "property": "C56",
   "status": "proved",
   "theorems": [
    "entropy_is_integral",
    "integral_unique",
    "entropy_refused",
    "entropy_approximated",
    "recurrences_sum",
    "entropy_invariance"
   ],
   "note": "Over the real numbers (rounding not modelled); the approximate mode is an argument. Uses the axioms of Coq's Reals."
  },
  {
   "property": "C57",
   "status": "proved",
   "theorems": [
    "sort_filenames_sorted",
    "sort_filenames_independent",
    "sort_inclusion_raises"
   ],
   "note": ""
  },
  {
   "property": "C58",
   "status": "proved",
   "theorems": [
    "continuous_autocorrelation",
    "broken_autocorrelation",
    "stored_autocorrelation",
    "stored_lags_refuted",
    "continuous_range_refuted"
   ],
   "note": "irfft(|rfft|^2) is modelled as the circular autocorrelation; other numbers of lags than the record length cannot be stored, and a range of samples is taken as a range of records for continuous noise (refuted forms)"
  },
  {
   "property": "C59",
   "status": "proved",
   "theorems": [
    "rebin_means",
    "rebin_one_bin",
    "rebin_many_nan"
   ],
   "note": ""
  },
  {
   "property": "C60",
   "status": "proved",
   "theorems": [
    "average_pulse_is_mean",
    "average_pulse_not_recomputed",
    "average_pulse_of_none"
   ],
   "note": ""
  },
  {
   "property": "C61",
   "status": "proved",
   "theorems": [
    "off_conversion",
    "off_conversion_succeeds",
    "off_conversion_empty_refuted"
   ],
   "note": "Floating-point operations abstract; version 0.3.0. A file without data cannot be converted (off_conversion_empty_refuted)."
  },
  {
   "property": "C62",
   "status": "proved",
   "theorems": [
    "slices_selected",
    "slices_selected_pointwise",
    "states_selected",
    "slices_reversed_refuted"
   ],
   "note": ""
  },
  {
   "property": "C63",
   "status": "proved",
   "theorems": [
    "apply_cuts_exact",
    "apply_cuts_quantities",
    "apply_cuts_fields",
    "apply_cuts_standard"
   ],
   "note": "forceNew=False has no effect in apply_cuts (it only logs). Lists of ranges must be non-empty and each element have a limit."
  },
  {
   "property": "C64",
   "status": "proved",
   "theorems": [
    "cross_entropy_is_integral",
    "divergence_is_integral",
    "cross_entropy_refused",
    "cross_entropy_approximated"
   ],
   "note": "Over the real numbers (rounding not modelled); the approximate mode is an argument. q is constant at its floor outside the range over which it is normalised. Uses the axioms of Coq's Reals."
  },
  {
   "property": "C65",
   "status": "proved",
   "theorems": [
    "range_refused",
    "range_orthonormal",
    "range_inside",
    "range_covers",
    "svd_exact",
    "gram_schmidt_ok",
    "tr_pinv"
   ],
   "note": "over the reals, for any qr and svd that meet their contracts; gram_schmidt_ok and tr_pinv show that the contracts can be met"
  },
  {
   "property": "C66",
   "status": "proved",
   "theorems": [
    "labels_number",
    "labels_which",
    "labels_refuted"
   ],
   "note": "that all 5-lag elements are labelled so is refuted"
  },
  {
   "property": "C67",
   "status": "proved",
   "theorems": [
    "conversion_value",
    "conversion_raises",
    "conversion_of_points",
    "conversion_derivatives",
    "inverse_of_points",
    "one_energy",
    "one_point_raises",
    "no_points",
    "drop_one_errors_value",
    "conversion_of_arrays",
    "curve_chosen"
   ],
   "note": "Over the reals; smoothing splines (three points or more with use_approximation) are an argument and excluded. A gain curve with equal signs at both ends raises."
  },
  {
   "property": "C68",
   "status": "proved",
   "theorems": [
    "history_does_not_matter"
   ],
   "note": "For different pulse heights and at least one point; smoothing splines are an argument."
  },
  {
   "property": "C69",
   "status": "proved",
   "theorems": [
    "summary_statistics",
    "summary_rms_defined",
    "summary_raises",
    "summary_always_refuted"
   ],
   "note": "Cython version, exact arithmetic; the rms values as squares. That a record can always be summarized is refuted (ZeroDivisionError when the record is at most half a unit above the baseline)."
  },
  {
   "property": "C70",
   "status": "proved",
   "theorems": [
    "python_statistics",
    "python_defined",
    "versions_agree",
    "postpeak_value",
    "versions_agree_refuted",
    "python_peak_refuted"
   ],
   "note": "The unconditional agreement is refuted."
  },
  {
   "property": "C71",
   "status": "proved",
   "theorems": [
    "rise_time_value",
    "rise_time_positive",
    "rise_time_of_line",
    "rise_time_positive_refuted",
    "estimate_rise_value",
    "estimate_rise_independent_refuted",
    "postpeak_undefined"
   ],
   "note": "That a rise time is positive, and that it does not depend on other records, are refuted in general."
  },
  {
   "property": "C72",
   "status": "proved",
   "theorems": [
    "segments_do_not_matter",
    "long_segments_raise",
    "long_segment_repeats",
    "segments_do_not_matter_refuted",
    "rise_baseline"
   ],
   "note": "Refuted for segments of more than 65535 records."
  },
  {
   "property": "C73",
   "status": "proved",
   "theorems": [
    "trimean_of_quartiles",
    "trimean_defined",
    "trimean_follows",
    "deviation_follows",
    "any_order",
    "trimean_robust",
    "deviation_value",
    "deviation_halves",
    "deviation_zero",
    "deviation_robust",
    "median_minimises"
   ],
   "note": "Exact rational data; np.median and np.percentile with linear interpolation."
  },
  {
   "property": "C74",
   "status": "proved",
   "theorems": [
    "bisquare_value",
    "huber_value",
    "no_width_raises",
    "means_in_range",
    "means_follow",
    "means_any_order",
    "bisquare_improves",
    "huber_improves",
    "huber_optimal",
    "bisquare_ignores",
    "bisquare_without_data",
    "huber_ignores_refuted",
    "huber_of_near_data",
    "equal_data_raise",
    "always_a_mean_refuted"
   ],
   "note": "The docstring of huber_weighted_mean says distant data get no weight (huber_ignores_refuted), and neither function always returns a value (always_a_mean_refuted). Negative k is not covered for huber_weighted_mean."
  },
  {
   "property": "C75",
   "status": "proved",
   "theorems": [
    "maxima_found",
    "maxima_follow"
   ],
   "note": "smoothing by Fourier transforms is an arbitrary function that keeps the length"
  },
  {
   "property": "C76",
   "status": "proved",
   "theorems": [
    "assignment_lines",
    "assignment_found",
    "straight_found",
    "tolerant",
    "few_lines",
    "same_energy_thrice",
    "assignment_follows",
    "no_increment_refuted",
    "same_peak_thrice_refuted"
   ],
   "note": "rounding not modelled; the last sentence is given by same_energy_thrice and the refuted theorems"
  },
  {
   "property": "C77",
   "status": "proved",
   "theorems": [
    "residual_of_bin",
    "residual_increases",
    "residuals_are_likelihood",
    "smaller_is_likelier",
    "composite_agrees_refuted",
    "residuals_without_data"
   ],
   "note": "composite residual differs for negative models (refuted form given)"
  },
  {
   "property": "C78",
   "status": "proved",
   "theorems": [
    "model_value",
    "model_raises",
    "model_defined",
    "model_units",
    "model_without_tails",
    "tails_off_refuted",
    "tail_units_refuted",
    "smeared_grid",
    "smeared_aligned",
    "tail_weights"
   ],
   "note": "agreement of the versions with and without tails is refuted"
  },
  {
   "property": "C79",
   "status": "proved",
   "theorems": [
    "guess_peak",
    "guess_background",
    "guess_integral",
    "guess_fwhm",
    "guess_width_nonneg",
    "guess_flat"
   ],
   "note": "lmfit's own limits on parameters are not modelled"
  },
  {
   "property": "C80",
   "status": "proved",
   "theorems": [
    "combined_sigma",
    "pdf_is_sum",
    "component_value",
    "pdf_raises",
    "pdf_area",
    "lorentzian_area",
    "one_line_widths",
    "minimum_fwhm_value",
    "approximate_width",
    "never_without_width"
   ],
   "note": "unit area of Gaussian and Voigt profiles is a hypothesis"
  },
  {
   "property": "C81",
   "status": "proved",
   "theorems": [
    "addline_result",
    "addline_taken",
    "addline_ratios",
    "addline_accepts",
    "addline_name"
   ],
   "note": ""
  },
  {
   "property": "C82",
   "status": "proved",
   "theorems": [
    "rvs_positive",
    "rvs_first_round",
    "rvs_keeps",
    "rvs_reproducible",
    "rvs_reproducible_refuted"
   ],
   "note": "reproducibility with a given generator is refuted"
  },
  {
   "property": "C83",
   "status": "proved",
   "theorems": [
    "film_efficiency_value",
    "film_efficiency_unit",
    "film_complementary",
    "thicker_passes_less",
    "area_fixes_efficiency",
    "one_area_for_all",
    "thickness_fixes_efficiency",
    "one_thickness_first_only",
    "one_thickness_for_all_refuted",
    "film_made",
    "area_divides",
    "area_divides_one"
   ],
   "note": "the claim that one thickness holds for all materials is refuted"
  },
  {
   "property": "C84",
   "status": "proved",
   "theorems": [
    "stack_product",
    "stack_order",
    "stack_of_films",
    "stack_unit",
    "added_component",
    "first_component",
    "replaced_component",
    "added_multiplies_refuted",
    "layers_in_series"
   ],
   "note": "that adding always multiplies is refuted (a name already there)"
  },
  {
   "property": "C85",
   "status": "proved",
   "theorems": [
    "oxide_layers",
    "oxide_efficiency",
    "surfaces_checked",
    "polymer_layers",
    "polymer_as_meant_refuted",
    "lex_ht_value"
   ],
   "note": "that AlFilmWithPolymer is the film its docstring describes is refuted"
  },
  {
   "property": "C86",
   "status": "proved",
   "theorems": [
    "smoother_bins",
    "smoother_step",
    "smoother_kernel",
    "smoothed_total",
    "smoothed_value",
    "smoothed_order",
    "smoothed_raises",
    "smoothed_wraps",
    "histogram_limits",
    "truncated_toward_zero"
   ],
   "note": "Fourier transforms modelled as the circular convolution they compute"
  },
  {
   "property": "C87",
   "status": "proved",
   "theorems": [
    "correction_offset",
    "correction_shift",
    "correction_entropy",
    "channel_corrected",
    "median_pulse_unchanged",
    "channel_shift",
    "bad_pulses_ignored",
    "correction_kept",
    "percentile_rank"
   ],
   "note": "scipy's minimizer is an argument"
  },
  {
   "property": "C88",
   "status": "proved",
   "theorems": [
    "degrees_chosen",
    "thinned_enough",
    "training_normalized",
    "time_entropy",
    "training_limits",
    "coefficients_greedy",
    "channel_limits_ignored",
    "channel_time_corrected",
    "coefficient_minimises",
    "training_pairs",
    "channel_training"
   ],
   "note": "scipy's minimizer, the entropy and the Legendre polynomials are arguments"
  },
  {
   "property": "C89",
   "status": "proved",
   "theorems": [
    "neighbors_set",
    "neighbors_order",
    "neighbors_zero",
    "neighbors_symmetric",
    "neighbors_moved",
    "neighbors_line",
    "neighbors_kept",
    "neighbors_raise",
    "neighbors_failed",
    "list_of_the_map_refuted",
    "nearest_is_first_refuted",
    "neighbors_selected"
   ],
   "note": "integers unbounded, squared distances exact; the naive claims that the list is that of the map given and that the nearest channel is a first neighbour are refuted"
  },
  {
   "property": "C90",
   "status": "proved",
   "theorems": [
    "segment_number",
    "segment_past_end",
    "group_size_raises",
    "group_size_set",
    "group_n_segments_refuted",
    "mask_right",
    "mask_no_gains",
    "mask_choice",
    "masks_number",
    "empty_marked",
    "average_good_only",
    "average_refused",
    "report_right",
    "report_stops"
   ],
   "note": "the group's n_segments after set_segment_size is the number of pulses per segment, not of segments (group_n_segments_refuted)"
  },
  {
   "property": "C91",
   "status": "proved",
   "theorems": [
    "triggers_read",
    "triggers_read_plain",
    "triggers_hdf5",
    "triggers_held",
    "one_time_scale",
    "timing_always_raises",
    "timing_right",
    "timing_channels",
    "timing_cases",
    "timing_one_trigger_refuted"
   ],
   "note": "timing_always_raises: the method as written cannot run; timing_one_trigger_refuted: with one trigger a pulse before it would be given distance 0"
  },
  {
   "property": "C92",
   "status": "proved",
   "theorems": [
    "five_lag_noise_strength",
    "ats_noise_strength",
    "toeplitz_strength",
    "white_noise_kept",
    "white_noise_set",
    "white_noise_once",
    "white_noise_same_filters",
    "white_noise_filter",
    "white_noise_zero_variance"
   ],
   "note": "Exact rationals. Noise arrays have at least one entry (an empty one raises IndexError). None stands for an exception or infinities/NaN in the result."
  },
  {
   "property": "C93",
   "status": "proved",
   "theorems": [
    "fit_request",
    "fit_edges",
    "fit_returns",
    "fit_other_attribute_raises",
    "quality_marks",
    "quality_raises",
    "quality_ignores_cut",
    "quality_named_cut_refuted",
    "drop_one_marks",
    "drop_one_single_threshold"
   ],
   "note": "Closed under the global context. The named cut is not used (quality_named_cut_refuted)."
  },
  {
   "property": "C94",
   "status": "proved",
   "theorems": [
    "line_chosen",
    "energy_given_refuted",
    "plan_holds",
    "plan_missing",
    "plan_followed",
    "plan_not_followed",
    "plan_without_fits"
   ],
   "note": "Closed under the global context. An energy given with the name of a known line is ignored (energy_given_refuted)."
  },
  {
   "property": "C95",
   "status": "proved",
   "theorems": [
    "peak_bin",
    "peak_bin_of_histogram_refuted",
    "align_outside",
    "align_points",
    "align_same",
    "align_ordered",
    "align_below_refuted",
    "aligned_plan",
    "aligned_plan_kept",
    "aligned_plan_raises",
    "curvature_test",
    "ks_value",
    "ks_properties",
    "ks_raises",
    "ratio_of_medians"
   ],
   "note": "Closed under the global context. The path of fastdtw is any warping path. Peaks on an edge and scaled peaks below the first bin: peak_bin_of_histogram_refuted, align_below_refuted."
  },
  {
   "property": "C96",
   "status": "proved",
   "theorems": [
    "off_lag_of_record",
    "off_lag_vertex",
    "off_lag_raises",
    "off_lag_scale"
   ],
   "note": "Equality with filter_data on the modelled record; least-squares vertex; scaling; exact shapes refused."
  },
  {
   "property": "C97",
   "status": "proved",
   "theorems": [
    "residual_rule",
    "small_pulses_cut",
    "few_pulses_all_cut",
    "one_bin_all_cut",
    "residual_monotone",
    "no_pulses_raise",
    "min_fv_refuted",
    "own_bin_refuted",
    "empty_bin_refuted"
   ],
   "note": "The naive forms (a pulse is judged by its own bin, minFv is always a lower limit, a residual of 0 is never cut) are refuted."
  },
  {
   "property": "C98",
   "status": "proved",
   "theorems": [
    "hists_written",
    "hists_twice_raise",
    "hists_state_name_raises",
    "group_hists_written",
    "group_without_channels_raises",
    "energies_written",
    "energies_without_labels_raise",
    "energies_two_slices_raise",
    "energies_any_state_refuted"
   ],
   "note": "The claim that any channel with valid states and trigger times is written is refuted (energies_any_state_refuted)."
  },
  {
   "property": "C99",
   "status": "proved",
   "theorems": [
    "drift_applied",
    "drift_round_trip",
    "drift_read_iff",
    "drift_twice_raises",
    "off_timing_right",
    "off_timing_misspelt_key",
    "off_timing_divisions_refuted",
    "off_timing_raises",
    "off_timing_keeps",
    "off_group_timing",
    "off_group_timing_stops"
   ],
   "note": "The claim that the header's SubframeDivisions are used is false and given as off_timing_divisions_refuted."
  },
  {
   "property": "C100",
   "status": "proved",
   "theorems": [
    "states_select_pulses",
    "no_states_no_change",
    "states_registered_once",
    "states_with_gap_refuted",
    "states_uncategorized_refuted",
    "states_reopened_refuted",
    "states_grown_refuted"
   ],
   "note": "Rounding of the pulse times is an arbitrary function; nondecreasing after rounding is assumed. Labels are taken as ASCII text."
  },
  {
   "property": "C101",
   "status": "proved",
   "theorems": [
    "ats_filtered",
    "five_lag_filtered",
    "filtered_once",
    "filter_refused",
    "ats_transform_refused",
    "five_lag_filter_computed",
    "ats_filter_reloaded",
    "five_lag_filter_reloaded",
    "five_lag_values_unaffected",
    "five_lag_cut_reloaded_refuted",
    "five_lag_peak_reloaded_refuted",
    "new_filter_not_used_refuted"
   ],
   "note": "How a 5-lag filter is made is a parameter, with the contract five_lag_maker for the reloading theorem; five_lag_values_unaffected proves it for the model of compute_5lag. The training of ATS filters and HDF5 files of versions before 2 are not modelled."
  },
  {
   "property": "C102",
   "status": "proved",
   "theorems": [
    "group_cut_chosen",
    "channel_default_set",
    "bin_size_set",
    "books_saved",
    "books_loaded",
    "books_load_stops",
    "books_restored",
    "models_given",
    "models_missing",
    "added_recipe_readable",
    "loaded_not_readable_refuted",
    "bad_books_lost_refuted",
    "own_default_refuted",
    "negated_cut_refused",
    "bin_size_in_context_refuted"
   ],
   "note": "Recipes and pulse models are of any type; the pickle file is a list of numbers and books. Naive forms given as *_refuted."
  },
  {
   "property": "C103",
   "status": "proved",
   "theorems": [
    "vectors_ready",
    "vectors_result",
    "vectors_refused",
    "opened",
    "opened_new",
    "open_refused",
    "reopened_same",
    "resize_raises",
    "copy_raises",
    "energies_converted",
    "energies_refused",
    "energies_possible",
    "calibration_found",
    "calibration_made",
    "phase_skipped",
    "phase_corrected",
    "phase_not_made",
    "energies_of_another_refuted",
    "calibration_names_refuted",
    "phase_retry_refuted"
   ],
   "note": "Calibrations and phase corrections, and what is stored of them, are of any type; reopened_same assumes that a saved calibration loads as itself (C33) and a saved correction loads (C27). Naive forms given as *_refuted."
  },
  {
   "property": "C104",
   "status": "proved",
   "theorems": [
    "band_limit_scales",
    "band_limit_unique",
    "oscillations_determine",
    "nothing_to_limit",
    "empty_raises",
    "tones_scaled",
    "band_limit_linear",
    "energy_not_increased",
    "sum_kept",
    "beyond_half_the_rate",
    "below_zero",
    "twice_is_once",
    "moving_commutes",
    "columns_limited",
    "half_the_power_refuted",
    "start_unchanged_refuted",
    "odd_signals_raise",
    "lowpass_keeps_below",
    "lowpass_is_band_limit",
    "same_limit_refuted",
    "lowpass_limits"
   ],
   "note": "Discrete Fourier transforms are modelled over exact reals (rfft, irfft with n, fft, ifft); spec in terms of cosine and sine contents. The claims that f_3db is a 3 dB point, that the start of a vector does not depend on its end and that both low-pass filters agree are refuted (half_the_power_refuted, start_unchanged_refuted, same_limit_refuted)."
  },
  {
   "property": "C105",
   "status": "proved",
   "theorems": [
    "segment_spectrum",
    "segment_raises",
    "no_time_step",
    "segments_mean",
    "segments_any_order",
    "power_adds_up",
    "whole_sum_refuted",
    "tone_spectrum",
    "scaled_spectrum",
    "moved_spectrum",
    "limited_spectrum",
    "spectrum_of_correlation",
    "short_window_refuted",
    "compute_spectrum_mean",
    "window_sequence_ignored_refuted",
    "windows_shape"
   ],
   "note": "On top of the discrete Fourier transforms of C104 and the segments of NoiModel. That the entries as they are add up to the mean square, that windows of another length raise and that computeSpectrum uses a window given as a sequence are refuted."
  },
  {
   "property": "C106",
   "status": "proved",
   "theorems": [
    "transforms_invert",
    "spectra_invert",
    "default_length_refuted",
    "correlation_by_transforms",
    "padded_is_even",
    "convolution_by_transforms",
    "smoother_by_transforms",
    "smoothing_scales",
    "smoothing_keeps",
    "smoothing_linear",
    "tails_contents",
    "tails_sum",
    "tails_energy",
    "tails_linear",
    "tails_moved",
    "tails_mirrored",
    "no_tails",
    "tails_negative_refuted",
    "smeared_spectrum"
   ],
   "note": "The naive claims (no length given, no negative entries) are refuted. Exact arithmetic; even lengths where the code gives no length."
  },
  {
   "property": "C107",
   "status": "proved",
   "theorems": [
    "fourier_always_raises",
    "fourier_fitting_asserts",
    "fourier_not_fitting",
    "fourier_documented_length",
    "fourier_arguments",
    "fourier_file_unusable",
    "noise_left_length",
    "noise_left_white",
    "noise_left_real_refuted",
    "shape_sum",
    "shape_white",
    "shape_white_all",
    "shape_limit_refuted"
   ],
   "note": "The claims that the shortened noise stays real and that the band limit is obeyed are refuted. The theorems on exceptions hold for any kind of numbers and transforms with the right lengths; the others are over exact reals."
  },
  {
   "property": "C108",
   "status": "proved",
   "theorems": [
    "row_parsed",
    "load_hangs",
    "load_lines",
    "load_names",
    "load_unreadable",
    "getitem_finds",
    "getitem_any_case",
    "getitem_one_word",
    "getitem_only",
    "type_lines",
    "type_other",
    "energies_exact",
    "energies_raise_iff",
    "nickname_refuted",
    "nickname_never",
    "ll_refuted",
    "edge_refuted"
   ],
   "note": "Nicknames do not work in __getitem__, although its code and the error message say so: the text looked up is in small letters and the keys in capitals (nickname_refuted, nickname_never). The nickname Ll is not found by type because the type is put in capitals (ll_refuted). Transitions with a space cannot be looked up at all (edge_refuted). A file without a header line is read for ever (load_hangs)."
  },
  {
   "property": "C109",
   "status": "proved",
   "theorems": [
    "levels_given",
    "levels_unknown_unit",
    "levels_missing",
    "levels_bad_j",
    "single_level",
    "single_missing",
    "ion_lines",
    "ion_lines_taken",
    "line_names_differ",
    "H_and_He",
    "unknown_energy_refuted",
    "max_levels_refuted"
   ],
   "note": "A level without an energy (NaN) gives a line at NaN (unknown_energy_refuted); maxLevels gives one line more if the ground state is not among the levels (max_levels_refuted); an unknown unit gives None, or an empty dictionary if nothing matches."
  },
  {
   "property": "C110",
   "status": "proved",
   "theorems": [
    "dump_read",
    "write_only_empty",
    "write_raises",
    "one_row_raises"
   ],
   "note": "write_asd_pickle iterates over values() where items() is meant, so it raises for every dump with a level (write_raises)."
  },
  {
   "property": "C111",
   "status": "proved",
   "theorems": [
    "rate_by_width",
    "rate_last_lost",
    "rate_raises",
    "rate_by_edges",
    "rate_widths_refuted"
   ],
   "note": "the fit of the histogram is HistModel's; times are finite rationals; that every rate is count over width is refuted for unequal edges"
  },
  {
   "property": "C112",
   "status": "proved",
   "theorems": [
    "summary_printed",
    "summary_counts_refuted",
    "smart_cuts_done",
    "smart_cuts_skipped",
    "smart_cuts_force_refuted",
    "noise_skipped",
    "noise_stored",
    "noise_short",
    "peak_common",
    "peak_exists"
   ],
   "note": "the robust fit and the noise computation are arguments; that counts per cut are printed and that forceNew replaces old cuts are refuted"
  },
  {
   "property": "C113",
   "status": "proved",
   "theorems": [
    "single_fitted",
    "single_raises",
    "autocal_done",
    "autocal_raises",
    "same_energy_raises",
    "never_failed",
    "lines_fitted",
    "widths_by_line_refuted"
   ],
   "note": "find_local_maxima, lmfit, the approximate calibration and add_cal_point are arguments (see C75, C76, C34, C32 for them); that bin widths belong to the lines as given is refuted"
  },
  {
   "property": "C114",
   "status": "proved",
   "theorems": [
    "natural_ends",
    "basis_refused",
    "natural_ends_three_refuted",
    "combination",
    "every_natural_curve",
    "combination_three_refuted",
    "second_derivative_straight",
    "omega_is_integral",
    "integral_unique",
    "curvature_form",
    "best_params_minimal",
    "distance_falls",
    "smooth_is_smoothest",
    "straight_line_raises",
    "line_fit_refuted",
    "unsolvable_raises"
   ],
   "note": "Exact arithmetic. np.linalg.solve and brentq are arguments with contracts; that some natural cubic spline passes through the data is a hypothesis. The naive forms for three knots and the docstring's claim on line fits are refuted."
  },
  {
   "property": "C115",
   "status": "proved",
   "theorems": [
    "curve_between",
    "curve_tangent",
    "curve_slope_outside",
    "constant_slope_refuted",
    "derivative_vanishes",
    "derivative_of_scaled",
    "derivative_value_refuted"
   ],
   "note": "The slope outside the knots when the end is flat, and derivative() as the derivative, are refuted as naive claims."
  },
  {
   "property": "C116",
   "status": "proved",
   "theorems": [
    "channels_listed",
    "channels_of_folder",
    "channels_generated",
    "channels_of_both",
    "bare_name_raises",
    "root_folder_raises",
    "channel_once_refuted",
    "channel_of_folder_refuted",
    "folder_with_dot_refuted"
   ],
   "note": "Paths as written; os.listdir is any list of names. The naive forms are refuted: channel_once_refuted, channel_of_folder_refuted, folder_with_dot_refuted."
  },
  {
   "property": "C117",
   "status": "proved",
   "theorems": [
    "output_name",
    "mass_folder_name",
    "output_raises",
    "output_bare_raises",
    "output_again",
    "names_beside",
    "microphone_name",
    "load_aux_raises",
    "modify_raises",
    "modify_effect",
    "modify_loses",
    "invert_involution",
    "invert_raises"
   ],
   "note": "LJHModify: that no LJH file has header_lines is part of the model."
  },
  {
   "property": "C118",
   "status": "proved",
   "theorems": [
    "mean_is_natural_spline",
    "mean_unique",
    "residuals_balanced",
    "line_kept",
    "exact_data_kept",
    "sigmaf_even",
    "natural_ends"
   ],
   "note": ""
  },
  {
   "property": "C119",
   "status": "proved",
   "theorems": [
    "best_weights",
    "covariance_value",
    "variance_is_diagonal",
    "variance_is_least",
    "variance_at_knot",
    "scalar_raises"
   ],
   "note": ""
  },
  {
   "property": "C120",
   "status": "proved",
   "theorems": [
    "names_fixed",
    "set_values",
    "raise_keeps_earlier",
    "one_name",
    "empty_dictionary_raises",
    "list_of_types_exits",
    "control_names",
    "namespace_values",
    "back_to_dicts",
    "shared_name_raises",
    "there_and_back",
    "none_and_numbers_refuted"
   ],
   "note": "the documented rule for checked parameters (None or any number) is refuted"
  },
  {
   "property": "C121",
   "status": "proved",
   "theorems": [
    "one_energy_scale",
    "peak_is_the_named",
    "composite_defined",
    "background_raises",
    "peak_is_free",
    "hlike_value",
    "helike_value",
    "prefix_clean_of",
    "prefixes_distinct_refuted",
    "peak_is_free_refuted"
   ],
   "note": "distinct prefixes and a free peak in nested composites are refuted"
  },
  {
   "property": "C122",
   "status": "proved",
   "theorems": [
    "weights_refused",
    "fit_defaults",
    "refit_value",
    "bins_small_enough",
    "fit_returned",
    "unchecked_fits",
    "same_prefix_raises",
    "weights_refused_refuted"
   ],
   "note": "lmfit's fit is an argument; positive bins and dph_de for the check of bins."
  },
  {
   "property": "C123",
   "status": "proved",
   "theorems": [
    "counts_shared",
    "scales_shared",
    "scales_unweighted",
    "shares_within_one_refuted",
    "shape_value",
    "zero_samples",
    "model_peak",
    "stored_rounds",
    "stored_wraps",
    "stored_zero",
    "stored_nearest_refuted",
    "record_values",
    "lowpass_total",
    "lowpass_within_records_refuted",
    "read_trace_value",
    "channels_odd"
   ],
   "note": "Random numbers are arguments; conversion of out-of-range floats to uint16 modelled modulo 2^16."
  },
  {
   "property": "C124",
   "status": "proved",
   "theorems": [
    "array_accepted",
    "array_recipes",
    "array_records",
    "array_times",
    "unixnano_resolution_refuted",
    "recipe_class_values",
    "ratio_recipe",
    "array_group",
    "array_group_raises"
   ],
   "note": "Exact rationals; slices with non-negative bounds."
  },
  {
   "property": "C125",
   "status": "proved",
   "theorems": [
    "merge_records",
    "merge_stops",
    "merge_refuses",
    "merge_inputs_unchanged",
    "merge_keeps_first",
    "merge_output_among_inputs",
    "merge_bad_start",
    "out_path_channum",
    "main_merges",
    "main_dry_run",
    "merge_again_refuted",
    "merge_incomplete_first_refuted",
    "merge_old_refuted",
    "main_outdir_refuted",
    "merge_other_length_refuted",
    "out_path_beside"
   ],
   "note": "Merging without these conditions loses or garbles records: merge_again_refuted (repeating a merge whose pattern matches its result), merge_incomplete_first_refuted (an incomplete last record in the first file), merge_old_refuted (2.1 files), merge_other_length_refuted (another record length), main_outdir_refuted (an output directory whose name contains _chan)."
  },
  {
   "property": "C126",
   "status": "proved",
   "theorems": [
    "truncate_all",
    "inputs_are_not_outputs",
    "too_few_stops",
    "truncate_changes_outputs_only",
    "at_most_refuted",
    "other_names_refuted",
    "negative_count_refuted",
    "pattern_refuted"
   ],
   "note": "Refuted forms: at_most_refuted (n as an upper bound), other_names_refuted (files that the pattern finds but the expression does not), negative_count_refuted (a negative n empties the outputs), pattern_refuted (a pattern with a channel number and .ljh in it)."
  },
  {
   "property": "C127",
   "status": "proved",
   "theorems": [
    "loop_converts",
    "loop_changes_off_only",
    "loop_keeps_ljh",
    "loop_raises",
    "state_file_copied",
    "newlines_kept",
    "state_file_missing",
    "main_keeps_ljh",
    "main_refuses",
    "limit_zero_refuted",
    "some_missing_refuted",
    "error_after_writing_refuted",
    "nothing_to_convert_refuted"
   ],
   "note": "The conversion of one channel (C41, C61) is an argument. Refuted forms: limit_zero_refuted (max_channels=0 converts all), some_missing_refuted (several base names, one file missing), error_after_writing_refuted, nothing_to_convert_refuted."
  },
  {
   "property": "C128",
   "status": "proved",
   "theorems": [
    "group_consistent",
    "group_channels",
    "group_channels_no_noise",
    "group_opens",
    "hdf5_name_of_run",
    "restore_implied",
    "restore_given",
    "restore_roundtrip",
    "limit_noise",
    "limit_without_noise_refuted",
    "wrong_noise_recorded_refuted",
    "restore_no_noise_refuted",
    "shared_group_refuted",
    "restore_given_roundtrip"
   ],
   "note": ""
  },
  {
   "property": "C129",
   "status": "proved",
   "theorems": [
    "noise_channels",
    "noise_one_shape",
    "noise_opens",
    "noise_opens_iff",
    "noise_empty_file_refuted"
   ],
   "note": ""
  }
 ]
}