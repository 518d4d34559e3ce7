{"claims": [
{"property": "C01", "status": "proved", "theorems": ["C01_shift", "C01_shift_unique"], "note": ""},
{"property": "C02", "status": "partial", "theorems": ["C02_resample_refuted", "C02_resample_iff_partial", "C02_resample_prime_partial", "C02_resample_integral", "C02_resample_errors", "C02_resample_factors_exact"], "note": "Part of the statement is false of the code: C02_resample_refuted."},
{"property": "C03", "status": "proved", "theorems": ["C03_make_decreasing", "C03_zero_refuted"], "note": "C03_zero_refuted shows that the positivity hypothesis of the statement is needed."},
{"property": "C04", "status": "proved", "theorems": ["C04_calc_offset_didv", "C04_calc_offset_plain"], "note": ""},
{"property": "C05", "status": "proved", "theorems": ["C05_slope_least_squares", "C05_slope_shift", "C05_slope_through_origin"], "note": ""},
{"property": "C06", "status": "proved", "theorems": ["C06_fill_negatives_length", "C06_fill_negatives_keeps", "C06_fill_negatives_mid", "C06_lin_interp_between", "C06_fill_negatives_head", "C06_fill_negatives_tail", "C06_fill_negatives_positive", "C06_fill_negatives_none", "C06_fill_negatives_idempotent"], "note": ""},
{"property": "C07", "status": "proved", "theorems": ["C07_power_ohm", "C07_powertrace_pointwise", "C07_power_max", "C07_energy_flat_zero", "C07_energy_flat_zero_own_baseline", "C07_energy_fs_time", "C07_energy_errors", "C07_energy_value"], "note": ""},
{"property": "C08", "status": "proved", "theorems": ["C08_estimate_g", "C08_estimate_g_nocov"], "note": ""},
{"property": "C09", "status": "proved", "theorems": ["C09_make_template"], "note": ""},
{"property": "C10", "status": "proved", "theorems": ["C10_stops", "C10_mask", "C10_not_skewed", "C10_more_rounds", "C10_interval"], "note": ""},
{"property": "C11", "status": "partial", "theorems": ["C11_terminates", "C11_fuel_irrelevant", "C11_statistics", "C11_selection", "C11_same_mask", "C11_unbiased", "C11_constant", "C11_negative_precision_refuted"], "note": "Everything is proved for a positive precision; for a negative precision termination is false (C11_negative_precision_refuted)."},
{"property": "C12", "status": "proved", "theorems": ["C12_rejects", "C12_stops", "C12_result", "C12_few_events", "C12_history"], "note": ""},
{"property": "C13", "status": "partial", "theorems": ["C13_survivors", "C13_mask_refuted"], "note": "The mask is characterised whenever autocuts returns, and errors are traced to a stage. That it always returns a mask is false: C13_mask_refuted."},
{"property": "C14", "status": "partial", "theorems": ["C14_slopecut_refuted"], "note": "The statement is false of the code: every trace is always kept."},
{"property": "C15", "status": "partial", "theorems": ["C15_known_algorithms", "C15_unknown_algorithm_refuted", "C15_rejects"], "note": "The two documented names work; for every other name the exception is NameError instead of ValueError."},
{"property": "C16", "status": "partial", "theorems": ["C16_muon_cut_refuted"], "note": "The statement is false of the code: NameError for every nonempty set of nonempty traces."},
{"property": "C17", "status": "proved", "theorems": ["C17_window_bins", "C17_window_errors"], "note": ""},
{"property": "C18", "status": "partial", "theorems": ["C18_invalid_arguments", "C18_empty_window", "C18_stationary_refuted", "C18_constrained_minimum", "C18_direction_mask"], "note": "Part of the statement is false of the code: C18_stationary_refuted."},
{"property": "C19", "status": "proved", "theorems": ["C19_nodelay_optimal"], "note": ""},
{"property": "C20", "status": "proved", "theorems": ["C20_scan", "C20_global", "C20_single_bin"], "note": ""},
{"property": "C21", "status": "partial", "theorems": ["C21_pulse_nodelay", "C21_pulse_scan_partial", "C21_scan_amplitude_refuted"], "note": "Part of the statement is false of the code: C21_scan_amplitude_refuted."},
{"property": "C22", "status": "proved", "theorems": ["C22_nodelay_additive", "C22_nodelay_scaling", "C22_scan_scaling", "C22_chi2_bounds", "C22_nopulse"], "note": ""},
{"property": "C23", "status": "proved", "theorems": ["C23_history_independent"], "note": ""},
{"property": "C24", "status": "partial", "theorems": ["C24_ofamp_withdelay", "C24_ofamp_nodelay", "C24_sigma", "C24_pileup", "C24_stationary", "C24_nopulse", "C24_lowfreq", "C24_psd_length", "C24_empty_window_refuted", "C24_pileup_scratch"], "note": "Part of the statement is false of the code: C24_empty_window_refuted."},
{"property": "C25", "status": "proved", "theorems": ["C25_iterative", "C25_two_pulse_residual"], "note": ""},
{"property": "C26", "status": "partial", "theorems": ["C26_exact_bin", "C26_float_bin_refuted"], "note": "Part of the statement is false of the code: C26_float_bin_refuted."},
{"property": "C27", "status": "partial", "theorems": ["C27_chi2_true", "C27_zero_delay", "C27_zero_delay_refuted"], "note": "Part of the statement is false of the code: C27_zero_delay_refuted."},
{"property": "C28", "status": "partial", "theorems": ["C28_baseline_scan", "C28_joint_unconstrained_partial", "C28_constrained_refuted"], "note": "Part of the statement is false of the code: C28_constrained_refuted."},
{"property": "C29", "status": "proved", "theorems": ["C29_nonneg", "C29_monotone", "C29_exact_match", "C29_total"], "note": ""},
{"property": "C30", "status": "proved", "theorems": ["C30_parabola", "C30_exact_on_quadratics", "C30_interpolated_scan", "C30_interpolated_pileup", "C30_interpolated_baseline"], "note": ""},
{"property": "C31", "status": "proved", "theorems": ["C31_values", "C31_fold_agrees", "C31_foldpsd", "C31_total_power", "C31_parseval"], "note": ""},
{"property": "C32", "status": "partial", "theorems": ["C32_smooth_psd_partial", "C32_flat_refuted"], "note": "Part of the statement is false of the code: C32_flat_refuted."},
{"property": "C33", "status": "partial", "theorems": ["C33_gen_noise", "C33_argument_refuted"], "note": "Part of the statement is false of the code: C33_argument_refuted."},
{"property": "C34", "status": "partial", "theorems": ["C34_against_calc_psd_partial", "C34_dc_refuted"], "note": "Part of the statement is false of the code: C34_dc_refuted."},
{"property": "C35", "status": "partial", "theorems": ["C35_current_traces", "C35_uncorr_without_slope_partial", "C35_uncorr_after_csd_partial", "C35_stale_csd_refuted"], "note": "Part of the statement is false of the code: C35_stale_csd_refuted."},
{"property": "C36", "status": "proved", "theorems": ["C36_remove_trace_slope"], "note": ""},
{"property": "C37", "status": "proved", "theorems": ["C37_sum"], "note": ""},
{"property": "C38", "status": "partial", "theorems": ["C38_ohm_joule", "C38_normal_fit", "C38_errors_partial", "C38_rfit_err_refuted"], "note": "Formulas and the errors of current, resistance, power and normal resistance are proved; the error attribute rfit_err is false (a copy of rfit). The propagation takes intercept and slope as independent, as the code does."},
{"property": "C39", "status": "partial", "theorems": ["C39_initial_segment_partial", "C39_all_points_refuted"], "note": "The last clause is false: one point fewer is returned when all points are consistent."},
{"property": "C40", "status": "partial", "theorems": ["C40_forms_partial", "C40_full_array_refuted"], "note": "Proved for scalar, per-channel and per-temperature-and-channel arrays; the 3-d form raises AttributeError."},
{"property": "C41", "status": "proved", "theorems": ["C41_lines", "C41_crossing", "C41_no_sc"], "note": ""},
{"property": "C42", "status": "partial", "theorems": ["C42_rtes_err", "C42_ptes_err", "C42_point_errors", "C42_offset_errors_partial", "C42_ioff_err_refuted", "C42_fit_covariance_refuted", "C42_rfit_err_partial", "C42_rfit_err_refuted"], "note": "R_tes and P_tes are proved for any covariance; the current-offset error, the use of the fit covariance and the resistance errors are refuted."},
{"property": "C43", "status": "partial", "theorems": ["C43_floats_refuted", "C43_arrays_partial"], "note": "Floats raise TypeError; 3-d arrays are used as given."},
{"property": "C44", "status": "proved", "theorems": ["C44_to_tes_and_back_one", "C44_to_tes_and_back_two", "C44_to_tes_and_back_three", "C44_from_tes_and_back_one", "C44_from_tes_and_back_two", "C44_from_tes_and_back_three"], "note": ""},
{"property": "C45", "status": "partial", "theorems": ["C45_onepole", "C45_twopole", "C45_threepole", "C45_missing", "C45_admittance", "C45_conjugate", "C45_gratio_zero", "C45_l_zero", "C45_documented_parameters_refuted"], "note": "Part of the statement is false of the code: C45_documented_parameters_refuted."},
{"property": "C46", "status": "proved", "theorems": ["C46_onepole", "C46_twopole", "C46_threepole", "C46_sorted"], "note": ""},
{"property": "C47", "status": "partial", "theorems": ["C47_squarewave", "C47_deconvolve_partial", "C47_odd_length_refuted"], "note": "Part of the statement is false of the code: C47_odd_length_refuted."},
{"property": "C48", "status": "partial", "theorems": ["C48_whole_periods_partial", "C48_rounding_refuted"], "note": "Part of the statement is false of the code: C48_rounding_refuted."},
{"property": "C49", "status": "partial", "theorems": ["C49_repeatable_partial", "C49_add180phase_refuted"], "note": "Part of the statement is false of the code: C49_add180phase_refuted."},
{"property": "C50", "status": "partial", "theorems": ["C50_last_fit", "C50_no_fit", "C50_stored", "C50_bad_poles_partial", "C50_bad_poles_refuted"], "note": "Part of the statement is false of the code: C50_bad_poles_refuted."},
{"property": "C51", "status": "partial", "theorems": ["C51_start_one_partial", "C51_start_two_partial", "C51_start_three_partial", "C51_dt0_refuted"], "note": "Part of the statement is false of the code: C51_dt0_refuted."},
{"property": "C52", "status": "proved", "theorems": ["C52_dIdV", "C52_total", "C52_total_normal_sc", "C52_power", "C52_limits", "C52_tfn"], "note": "Real arithmetic, one frequency at a time."},
{"property": "C53", "status": "partial", "theorems": ["C53_transition_partial", "C53_superconducting_partial", "C53_errors", "C53_normal_refuted", "C53_identity_refuted"], "note": "noisetype 'normal' always raises ValueError; strings are compared with 'is', so only interned strings are recognised."},
{"property": "C54", "status": "partial", "theorems": ["C54_nsmb", "C54_nsmb_succeeds", "C54_mb", "C54_mb_default", "C54_few_backgrounds_refuted", "C54_constraints"], "note": "Proved for one signal template and two or more backgrounds, pinv an oracle satisfying the Penrose equations; zero or one background raises."},
{"property": "C55", "status": "partial", "theorems": ["C55_disallowed", "C55_con_partial", "C55_default", "C55_succeeds", "C55_sign_refuted", "C55_mb_sign_refuted", "C55_one_left_refuted"], "note": "The sign claim is false: a witness returns a negative amplitude under a positive constraint. Optimality over the floating amplitudes, over all allowed ones when no warning is printed, and success are proved."},
{"property": "C56", "status": "partial", "theorems": ["C56_templates_partial", "C56_succeeds_partial", "C56_length_refuted", "C56_rejects"], "note": "False for 49*2^k bins (ValueError). Otherwise right length or ValueError for all n up to 2^51; success for n<=48 and powers of two."},
{"property": "C57", "status": "partial", "theorems": ["C57_ttl_partial", "C57_succeeds_partial", "C57_notch_refuted", "C57_dense_refuted", "C57_rejects"], "note": "Integer rates up to 2^24 and lengths up to 2^23. Notches past the end and triggers closer than half a bin raise."},
{"property": "C58", "status": "partial", "theorems": ["C58_peak_partial", "C58_sign_refuted", "C58_equal_refuted"], "note": "Height and time-domain part proved for both orderings. For tau_r > tau_f the frequency-domain pulse has the opposite sign (code uses abs(tau_r-tau_f))."},
{"property": "C59", "status": "proved", "theorems": ["C59_nonlin", "C59_muon"], "note": ""},
{"property": "C60", "status": "partial", "theorems": ["C60_positive_partial", "C60_negative_refuted"], "note": "False for negative start values: default bounds are inverted and least_squares raises ValueError."},
{"property": "C61", "status": "partial", "theorems": ["C61_make_decreasing_positive_refuted"], "note": "Part of the statement is false of the code: C61_make_decreasing_positive_refuted."},
{"property": "C62", "status": "proved", "theorems": ["C62_muon_offset", "C62_muon_offset_trace", "C62_muon_offset_succeeds"], "note": ""},
{"property": "C63", "status": "partial", "theorems": ["C63_offgrid_refuted"], "note": "Part of the statement is false of the code: C63_offgrid_refuted."},
{"property": "C64", "status": "proved", "theorems": ["C64_energy_resolution"], "note": ""},
{"property": "C65", "status": "proved", "theorems": ["C65_time_resolution"], "note": ""},
{"property": "C66", "status": "partial", "theorems": ["C66_last_bin_refuted"], "note": "Part of the statement is false of the code: C66_last_bin_refuted."},
{"property": "C67", "status": "partial", "theorems": ["C67_unfolded", "C67_folded_refuted"], "note": "Part of the statement is false of the code: C67_folded_refuted."},
{"property": "C68", "status": "proved", "theorems": ["C68_bounds"], "note": ""},
{"property": "C69", "status": "proved", "theorems": ["C69_corrcoeff", "C69_single_channel"], "note": ""},
{"property": "C70", "status": "proved", "theorems": ["C70_onepole", "C70_twopole", "C70_threepole"], "note": ""},
{"property": "C71", "status": "partial", "theorems": ["C71_processed_partial", "C71_ragged_refuted"], "note": "Part of the statement is false of the code: C71_ragged_refuted."},
{"property": "C72", "status": "partial", "theorems": ["C72_from_data_partial", "C72_priors_guess_refuted"], "note": "Part of the statement is false of the code: C72_priors_guess_refuted."},
{"property": "C73", "status": "proved", "theorems": ["C73_likelihood", "C73_start"], "note": ""},
{"property": "C74", "status": "partial", "theorems": ["C74_keeps_something_refuted"], "note": "The statement is false of the code."},
{"property": "C75", "status": "partial", "theorems": ["C75_trimmed_bins_partial", "C75_symmetric_refuted"], "note": "Exact counts per bin are proved; the symmetry claim is false when the upper side is the heavier one."},
{"property": "C76", "status": "proved", "theorems": ["C76_iv_exact"], "note": ""},
{"property": "C77", "status": "proved", "theorems": ["C77_ibis_exact"], "note": ""},
{"property": "C78", "status": "partial", "theorems": ["C78_no_sc_partial", "C78_no_sc_refuted"], "note": "False for a 3-d rp_guess (AttributeError) and for a scalar rp_guess with 1-d or 2-d data (IndexError)."},
{"property": "C79", "status": "partial", "theorems": ["C79_no_sc_errors_refuted"], "note": "The statement is false of the code."},
{"property": "C80", "status": "proved", "theorems": ["C80_circuit"], "note": ""},
{"property": "C81", "status": "proved", "theorems": ["C81_response", "C81_johnson"], "note": ""},
{"property": "C82", "status": "partial", "theorems": ["C82_superconducting_methods_refuted"], "note": "loop gain 0: dIdP, s_ites, s_itfn, s_itot and s_ptot divide by zero. Scalar division modelled as raising; numpy scalars would give inf/nan."},
{"property": "C83", "status": "proved", "theorems": ["C83_laws", "C83_formula"], "note": "Trapezoid rule exactly; real arithmetic."},
{"property": "C84", "status": "partial", "theorems": ["C84_two_sided_refuted"], "note": "the two results differ by a factor 2."},
{"property": "C85", "status": "partial", "theorems": ["C85_never_zero", "C85_zero_refuted"], "note": "False: best bin 0 raises TypeError."},
{"property": "C86", "status": "partial", "theorems": ["C86_window", "C86_unchanged_refuted"], "note": "False for windows with negative bins; the exact effect is proved."},
{"property": "C87", "status": "partial", "theorems": ["C87_interp_partial", "C87_parabola"], "note": "Search over all bins, best bin not the last one, up to whole trace lengths in time."},
{"property": "C88", "status": "partial", "theorems": ["C88_windows", "C88_one_bin_refuted"], "note": "Proved for successful runs; a window of one bin is never accepted."},
{"property": "C89", "status": "partial", "theorems": ["C89_int_refuted"], "note": "False: ValueError for every integer."},
{"property": "C90", "status": "partial", "theorems": ["C90_count_partial", "C90_count_refuted"], "note": "False: one trigger can be lost when the length is a whole number of periods; exact up to that."},
{"property": "C91", "status": "partial", "theorems": ["C91_nan_refuted"], "note": "False: both shifts are 0."},
{"property": "C92", "status": "proved", "theorems": ["C92_descent"], "note": "The minimizer is an oracle assumed to descend and to stay inside the bounds."},
{"property": "C93", "status": "partial", "theorems": ["C93_bounds_partial", "C93_scale_refuted"], "note": "False: x_scale=p0 rejects every start with an entry <= 0 whatever the bounds."},
{"property": "C94", "status": "partial", "theorems": ["C94_start_partial", "C94_early_refuted", "C94_window_refuted", "C94_equal_refuted"], "note": "False for early maxima, low sample rates, a maximum at the last sample and equal guessed time constants; sufficient conditions proved."},
{"property": "C95", "status": "proved", "theorems": ["C95_muon"], "note": ""},
{"property": "C96", "status": "partial", "theorems": ["C96_rejects_partial", "C96_stale_refuted", "C96_type_refuted"], "note": "False for numbers of poles outside 1..4."},
{"property": "C97", "status": "proved", "theorems": ["C97_nesting", "C97_hermitian"], "note": ""},
{"property": "C98", "status": "proved", "theorems": ["C98_fourpole", "C98_threepole", "C98_twopole", "C98_muon"], "note": ""},
{"property": "C99", "status": "proved", "theorems": ["C99_fractional_shift", "C99_whole_shift", "C99_line"], "note": ""},
{"property": "C100", "status": "proved", "theorems": ["C100_resample", "C100_rejects"], "note": ""},
{"property": "C101", "status": "proved", "theorems": ["C101_rows", "C101_equations", "C101_rejects", "C101_linear", "C101_constant", "C101_range"], "note": ""},
{"property": "C102", "status": "partial", "theorems": ["C102_response", "C102_one_pass", "C102_three_db_refuted"], "note": "False: each of the two passes is 3 dB, so the filter is 6 dB down at the cut-off."},
{"property": "C103", "status": "partial", "theorems": ["C103_align", "C103_gain_offset", "C103_copy", "C103_condition", "C103_constant_refuted"], "note": "Proved for traces whose filtered beginnings vary; false for a constant trace, which is moved by all its length."},
{"property": "C104", "status": "partial", "theorems": ["C104_arguments_refuted", "C104_invalid_accepted"], "note": "False: both arguments are ignored."},
{"property": "C105", "status": "proved", "theorems": ["C105_rejects", "C105_fields", "C105_gain", "C105_zero"], "note": ""},
{"property": "C106", "status": "proved", "theorems": ["C106_csd", "C106_matrix", "C106_single_channel"], "note": ""},
{"property": "C107", "status": "proved", "theorems": ["C107_psd_parts"], "note": ""},
{"property": "C108", "status": "proved", "theorems": ["C108_too_few_traces"], "note": "Exact arithmetic; rounding can make a singular matrix invertible."},
{"property": "C109", "status": "partial", "theorems": ["C109_objective", "C109_bins", "C109_stored_cost", "C109_cost_refuted"], "note": "The stored cost is half the chi-square (scipy's least_squares convention), not the chi-square as documented; everything else is proved."},
{"property": "C110", "status": "proved", "theorems": ["C110_arrays", "C110_flat", "C110_means", "C110_excited", "C110_unexcited"], "note": ""},
{"property": "C111", "status": "proved", "theorems": ["C111_noise"], "note": ""},
{"property": "C112", "status": "partial", "theorems": ["C112_single_trace_refuted", "C112_zero_error_rejected"], "note": "False: the error of the mean is 0 at the excited bins, the weights are infinite, and every fit raises ValueError."},
{"property": "C113", "status": "proved", "theorems": ["C113_stored", "C113_others_kept", "C113_didv0_one", "C113_didv0_two", "C113_didv0_three", "C113_short_priors"], "note": ""},
{"property": "C114", "status": "proved", "theorems": ["C114_no_fit", "C114_lowest_cost"], "note": ""},
{"property": "C115", "status": "proved", "theorems": ["C115_baseline", "C115_pileup", "C115_chi2", "C115_bins"], "note": ""},
{"property": "C116", "status": "proved", "theorems": ["C116_removeoutliers", "C116_skewness", "C116_iterstat", "C116_pileup", "C116_chi2", "C116_baseline", "C116_autocuts", "C116_polarity_refuted", "C116_argument_refuted"], "note": "invariance proved; polarity independence and the unchanged argument refuted"},
{"property": "C117", "status": "proved", "theorems": ["C117_removeoutliers", "C117_iterstat", "C117_stages", "C117_autocuts", "C117_duplicates"], "note": ""},
{"property": "C118", "status": "proved", "theorems": ["C118_overlay", "C118_subplots", "C118_real_imag", "C118_not_calculated", "C118_no_channels"], "note": ""},
{"property": "C119", "status": "proved", "theorems": ["C119_pairs"], "note": ""},
{"property": "C120", "status": "partial", "theorems": ["C120_selected", "C120_labels", "C120_all_or_nothing", "C120_every_pair_refuted", "C120_files", "C120_file_identifies_pair_refuted"], "note": "channel numbers of 10 and more cannot be selected, and file names collide between calls (refuted)"},
{"property": "C121", "status": "partial", "theorems": ["C121_compares_refuted", "C121_unknown_names", "C121_with_dictionary", "C121_dictionary"], "note": "false for objects as the class builds them (AttributeError); proved for objects that carry chann_dict"},
{"property": "C122", "status": "proved", "theorems": ["C122_overlay", "C122_subplots", "C122_total"], "note": ""},
{"property": "C123", "status": "partial", "theorems": ["C123_saving_changes_nothing_shown", "C123_file", "C123_reim_file", "C123_method_saves_refuted", "C123_saved_or_reported"], "note": "the method plot_reim_psd ignores the request to save (refuted)"},
{"property": "C124", "status": "proved", "theorems": ["C124_path", "C124_errors", "C124_spaces"], "note": ""},
{"property": "C125", "status": "proved", "theorems": ["C125_figure", "C125_legend", "C125_out_of_range", "C125_unanalysed", "C125_after_analysis"], "note": ""},
{"property": "C126", "status": "partial", "theorems": ["C126_fit_line_partial", "C126_padded_refuted"], "note": "proved without missing bias points; refuted with nan padding"},
{"property": "C127", "status": "partial", "theorems": ["C127_functions", "C127_methods_refuted", "C127_all_curves"], "note": "the methods raise TypeError after saving (refuted)"},
{"property": "C128", "status": "proved", "theorems": ["C128_iv", "C128_ibis", "C128_iv_drawn", "C128_ibis_drawn"], "note": ""},
{"property": "C129", "status": "proved", "theorems": ["C129_current", "C129_power", "C129_states"], "note": ""},
{"property": "C130", "status": "proved", "theorems": ["C130_sums", "C130_power_current"], "note": ""},
{"property": "C131", "status": "partial", "theorems": ["C131_saved", "C131_raises", "C131_lengths_refuted"], "note": "a PSD of two bins is broadcast in the power plot (refuted)"},
{"property": "C132", "status": "partial", "theorems": ["C132_unchanged_partial", "C132_unchanged_refuted"], "note": "the transition plots overwrite freqs (refuted)"},
{"property": "C133", "status": "partial", "theorems": ["C133_identity_refuted"], "note": "refuted"},
{"property": "C134", "status": "proved", "theorems": ["C134_superconducting"], "note": ""},
{"property": "C135", "status": "proved", "theorems": ["C135_sources", "C135_equipartition", "C135_thermal_factor"], "note": ""},
{"property": "C136", "status": "proved", "theorems": ["C136_squid"], "note": ""},
{"property": "C137", "status": "proved", "theorems": ["C137_iv", "C137_ibis"], "note": ""},
{"property": "C138", "status": "partial", "theorems": ["C138_values", "C138_errors_partial", "C138_rnorm_err_refuted", "C138_rp_err_partial", "C138_rp_err_refuted"], "note": "False for rp_err (variance of the inverse slope used as standard deviation; formula proved) and rnorm_err (shunt uncertainty counted twice). Values and current uncertainties proved."},
{"property": "C139", "status": "partial", "theorems": ["C139_circuit_partial", "C139_circuit_refuted"], "note": "True where the offset equals that of bias point 0; false otherwise, since resistance and power use the offsets of bias point 0."},
{"property": "C140", "status": "proved", "theorems": ["C140_full_trace", "C140_single_period", "C140_zoomed", "C140_which_fits", "C140_best_offset"], "note": ""},
{"property": "C141", "status": "proved", "theorems": ["C141_flipped", "C141_symmetric_overlays"], "note": ""},
{"property": "C142", "status": "proved", "theorems": ["C142_real_imaginary", "C142_magnitude_phase"], "note": ""},
{"property": "C143", "status": "proved", "theorems": ["C143_phase_of", "C143_polar"], "note": ""},
{"property": "C144", "status": "proved", "theorems": ["C144_real_imaginary", "C144_magnitude_phase", "C144_impedance"], "note": ""},
{"property": "C145", "status": "proved", "theorems": ["C145_impedance_plot", "C145_reciprocal"], "note": ""},
{"property": "C146", "status": "proved", "theorems": ["C146_not_processed", "C146_nothing_measured", "C146_all_cut", "C146_mismatched", "C146_all_cut_times"], "note": ""},
{"property": "C147", "status": "proved", "theorems": ["C147_didv", "C147_from_data", "C147_priors", "C147_attributes"], "note": ""},
{"property": "C148", "status": "partial", "theorems": ["C148_bounds_partial", "C148_bounds_refuted"], "note": "True without a fitted offset; false with one: the error pair is rotated by the phase of the offset, so the bounds can coincide with the mean although both errors are positive."},
{"property": "C149", "status": "proved", "theorems": ["C149_result", "C149_start", "C149_parameters", "C149_data_power", "C149_rise_kept"], "note": ""},
{"property": "C150", "status": "proved", "theorems": ["C150_figure", "C150_parts", "C150_rejects", "C150_zero_rate"], "note": ""},
{"property": "C151", "status": "partial", "theorems": ["C151_nsmb", "C151_con", "C151_mb", "C151_when_partial", "C151_plot_only_refuted"], "note": "Refuted in general: the plot low-passes the data at 30 kHz, so it raises ValueError for sampling rates up to 60 kHz and for traces of at most six bins, and IndexError for fewer shifts than backgrounds (C151_plot_only_refuted); C151_when_partial gives the exact condition for of_nsmb."},
{"property": "C152", "status": "partial", "theorems": ["C152_figure", "C152_texts", "C152_rejects", "C152_equal_times_refuted"], "note": "C152_figure covers positive parameters with different time constants, C152_texts every successful fit. Refuted without that: for equal rise and fall time with scaled amplitude both fit curves are nan (C152_equal_times_refuted). For a fixed rise time its text is not shown, though it is prepared in the code."},
{"property": "C153", "status": "partial", "theorems": ["C153_baseline_partial", "C153_baseline_refuted", "C153_window_partial", "C153_window_refuted", "C153_window_wraps"], "note": "Refuted in general: for an early pulse in a trace that ends within 9000 samples after it the whole drawn trace is nan (C153_baseline_refuted); a window starting before the trace has a negative first index, which counts from the end, so that nothing is drawn (C153_window_refuted)."},
{"property": "C154", "status": "proved", "theorems": ["C154_same_fit"], "note": ""}
]}
