# Formal model of QETpy in Rocq (Coq 8.16.1)

## Layout

* `properties.jsonl` – the properties, `MANIFEST.json` – what is proved for each.
* `rocq/theories/` – the model and proofs. Per area: `*Model.v` (functions mirroring the Python,
  each with file and line citation), `*Spec.v` (small independent specification), `*Proofs.v`,
  `*Props.v` (property theorems only, each with `Print Assumptions`, and the examples that show
  the hypotheses are met).
* `seeded/LOG.jsonl` – seeded bugs and which theorems caught them.

## Modelling conventions

* Python exceptions are values: `res A := Ok a | Err exn`.
* Arrays are lists. Out-of-range indexing and shape mismatches are error values.
* Unless a property is about rounding, IEEE doubles are modelled by real numbers `R` (stdlib Reals),
  complex doubles by Coquelicot's `C = R*R`. NaN is not modelled; divisions by zero are excluded by
  hypotheses or modelled as error/NaN values explicitly.
* Properties about rounding use the stdlib `SpecFloat` binary64 (round to nearest even), which computes.
* FFTs are modelled by the mathematical DFT sums.
* External algorithms (scipy `least_squares`, `curve_fit`, `fsolve`, `skew`, random draws, ...) are
  oracles: universally quantified function arguments.

## Trusted base

* The Coq 8.16.1 kernel and its standard library. Coquelicot and Flocq supply definitions and
  proved lemmas; neither adds axioms. No axiom, `Admitted`, section-less variable, functor or
  disabled check is used in this development.
* The axioms listed by `Print Assumptions` are those of the standard library's real numbers
  and classical logic only. The full list per theorem (regenerate with `seeded/assumptions.py`):

<!-- assumptions:begin -->
- closed under the global context (19 theorems): C01_shift, C01_shift_unique, C02_resample_integral, C02_resample_factors_exact, C02_resample_errors, C17_window_bins, C26_float_bin_refuted, C48_rounding_refuted, C71_ragged_refuted, C120_labels, C120_all_or_nothing, C121_dictionary, C124_path, C124_errors, C124_spaces, C125_legend, C137_iv, C137_ibis, C140_which_fits
- `ClassicalDedekindReals.sig_forall_dec` (3 theorems): C07_powertrace_pointwise, C25_two_pulse_residual, C147_attributes
- `ClassicalDedekindReals.sig_forall_dec`, `FunctionalExtensionality.functional_extensionality_dep` (88 theorems): C02_resample_refuted, C02_resample_iff_partial, C02_resample_prime_partial, C03_make_decreasing, C03_zero_refuted, C05_slope_least_squares, C05_slope_shift, C05_slope_through_origin, C06_fill_negatives_length, C06_fill_negatives_keeps, C06_fill_negatives_mid, C06_lin_interp_between, C06_fill_negatives_head, C06_fill_negatives_tail, C06_fill_negatives_positive, C06_fill_negatives_none, C06_fill_negatives_idempotent, C07_power_ohm, C07_power_max, C07_energy_flat_zero, C07_energy_flat_zero_own_baseline, C07_energy_fs_time, C07_energy_value, C07_energy_errors, C10_stops, C10_mask, C10_not_skewed, C10_more_rounds, C10_interval, C16_muon_cut_refuted, C17_window_errors, C18_constrained_minimum, C18_direction_mask, C26_exact_bin, C30_parabola, C30_exact_on_quadratics, C31_foldpsd, C31_total_power, C32_smooth_psd_partial, C32_flat_refuted, C36_remove_trace_slope, C39_initial_segment_partial, C39_all_points_refuted, C44_to_tes_and_back_one, C44_to_tes_and_back_two, C44_to_tes_and_back_three, C44_from_tes_and_back_one, C44_from_tes_and_back_two, C44_from_tes_and_back_three, C46_sorted, C55_disallowed, C56_rejects, C57_rejects, C61_make_decreasing_positive_refuted, C62_muon_offset, C62_muon_offset_trace, C62_muon_offset_succeeds, C72_priors_guess_refuted, C73_start, C75_trimmed_bins_partial, C75_symmetric_refuted, C87_parabola, C99_fractional_shift, C99_whole_shift, C99_line, C100_resample, C100_rejects, C105_rejects, C105_zero, C105_fields, C109_bins, C114_no_fit, C114_lowest_cost, C115_bins, C116_removeoutliers, C116_argument_refuted, C117_removeoutliers, C125_figure, C125_out_of_range, C125_unanalysed, C126_fit_line_partial, C126_padded_refuted, C127_functions, C127_methods_refuted, C127_all_curves, C140_best_offset, C141_symmetric_overlays, C150_parts
- `ClassicalDedekindReals.sig_forall_dec`, `ClassicalDedekindReals.sig_not_dec`, `FunctionalExtensionality.functional_extensionality_dep` (249 theorems): C04_calc_offset_didv, C04_calc_offset_plain, C11_fuel_irrelevant, C11_statistics, C11_selection, C11_same_mask, C11_unbiased, C11_constant, C11_negative_precision_refuted, C12_rejects, C12_stops, C12_result, C12_history, C12_few_events, C13_mask_refuted, C15_unknown_algorithm_refuted, C15_rejects, C18_invalid_arguments, C18_empty_window, C18_stationary_refuted, C19_nodelay_optimal, C20_scan, C20_global, C20_single_bin, C21_pulse_nodelay, C21_pulse_scan_partial, C21_scan_amplitude_refuted, C22_nodelay_additive, C22_nodelay_scaling, C22_scan_scaling, C22_chi2_bounds, C22_nopulse, C23_history_independent, C24_ofamp_withdelay, C24_ofamp_nodelay, C24_sigma, C24_pileup, C24_pileup_scratch, C24_stationary, C24_nopulse, C24_lowfreq, C24_psd_length, C24_empty_window_refuted, C25_iterative, C27_chi2_true, C27_zero_delay, C27_zero_delay_refuted, C28_baseline_scan, C28_joint_unconstrained_partial, C28_constrained_refuted, C29_nonneg, C29_monotone, C29_exact_match, C29_total, C30_interpolated_scan, C30_interpolated_pileup, C30_interpolated_baseline, C31_values, C31_fold_agrees, C31_parseval, C33_gen_noise, C33_argument_refuted, C34_against_calc_psd_partial, C34_dc_refuted, C35_current_traces, C35_uncorr_without_slope_partial, C35_uncorr_after_csd_partial, C35_stale_csd_refuted, C37_sum, C38_ohm_joule, C40_forms_partial, C40_full_array_refuted, C41_lines, C41_crossing, C41_no_sc, C43_floats_refuted, C43_arrays_partial, C45_onepole, C45_twopole, C45_threepole, C45_missing, C45_admittance, C45_conjugate, C45_gratio_zero, C45_l_zero, C45_documented_parameters_refuted, C46_onepole, C46_twopole, C46_threepole, C47_squarewave, C47_deconvolve_partial, C47_odd_length_refuted, C48_whole_periods_partial, C49_repeatable_partial, C49_add180phase_refuted, C50_last_fit, C50_no_fit, C50_stored, C50_bad_poles_partial, C50_bad_poles_refuted, C51_start_one_partial, C51_start_two_partial, C51_start_three_partial, C51_dt0_refuted, C52_dIdV, C52_limits, C54_nsmb, C54_nsmb_succeeds, C54_mb, C54_mb_default, C54_few_backgrounds_refuted, C54_constraints, C55_con_partial, C55_default, C55_succeeds, C55_sign_refuted, C55_mb_sign_refuted, C55_one_left_refuted, C59_muon, C63_offgrid_refuted, C64_energy_resolution, C66_last_bin_refuted, C67_unfolded, C67_folded_refuted, C68_bounds, C69_corrcoeff, C69_single_channel, C70_onepole, C70_twopole, C70_threepole, C71_processed_partial, C72_from_data_partial, C73_likelihood, C74_keeps_something_refuted, C77_ibis_exact, C78_no_sc_partial, C78_no_sc_refuted, C79_no_sc_errors_refuted, C80_circuit, C81_response, C81_johnson, C83_laws, C83_formula, C84_two_sided_refuted, C85_never_zero, C85_zero_refuted, C86_window, C86_unchanged_refuted, C87_interp_partial, C88_windows, C88_one_bin_refuted, C89_int_refuted, C95_muon, C101_rows, C101_equations, C101_rejects, C101_linear, C101_constant, C102_response, C102_one_pass, C102_three_db_refuted, C103_align, C103_gain_offset, C103_copy, C103_condition, C103_constant_refuted, C104_arguments_refuted, C104_invalid_accepted, C105_gain, C106_csd, C106_matrix, C106_single_channel, C107_psd_parts, C108_too_few_traces, C109_objective, C109_stored_cost, C109_cost_refuted, C110_arrays, C110_flat, C110_means, C110_excited, C110_unexcited, C111_noise, C112_single_trace_refuted, C112_zero_error_rejected, C113_stored, C113_others_kept, C113_didv0_one, C113_didv0_two, C113_didv0_three, C113_short_priors, C116_skewness, C116_iterstat, C116_baseline, C116_polarity_refuted, C118_overlay, C118_subplots, C118_real_imag, C118_not_calculated, C118_no_channels, C119_pairs, C120_selected, C120_every_pair_refuted, C120_files, C120_file_identifies_pair_refuted, C121_compares_refuted, C121_unknown_names, C121_with_dictionary, C122_overlay, C122_subplots, C122_total, C123_saving_changes_nothing_shown, C123_saved_or_reported, C123_file, C123_reim_file, C123_method_saves_refuted, C125_after_analysis, C128_iv, C128_ibis, C128_iv_drawn, C128_ibis_drawn, C135_sources, C138_values, C139_circuit_partial, C139_circuit_refuted, C140_full_trace, C140_single_period, C140_zoomed, C141_flipped, C142_real_imaginary, C144_real_imaginary, C144_impedance, C145_impedance_plot, C145_reciprocal, C146_all_cut_times, C147_didv, C147_from_data, C147_priors, C148_bounds_partial, C148_bounds_refuted, C149_data_power, C150_figure, C150_rejects, C150_zero_rate, C151_nsmb, C151_con, C151_mb, C151_when_partial, C151_plot_only_refuted
- `ClassicalDedekindReals.sig_forall_dec`, `ClassicalDedekindReals.sig_not_dec`, `Classical_Prop.classic`, `FunctionalExtensionality.functional_extensionality_dep` (114 theorems): C08_estimate_g, C08_estimate_g_nocov, C09_make_template, C11_terminates, C13_survivors, C14_slopecut_refuted, C15_known_algorithms, C38_normal_fit, C38_errors_partial, C38_rfit_err_refuted, C42_rtes_err, C42_ptes_err, C42_point_errors, C42_offset_errors_partial, C42_ioff_err_refuted, C42_fit_covariance_refuted, C42_rfit_err_partial, C42_rfit_err_refuted, C52_total, C52_total_normal_sc, C52_power, C52_tfn, C53_transition_partial, C53_superconducting_partial, C53_errors, C53_normal_refuted, C53_identity_refuted, C56_templates_partial, C56_succeeds_partial, C56_length_refuted, C57_ttl_partial, C57_succeeds_partial, C57_notch_refuted, C57_dense_refuted, C58_peak_partial, C58_sign_refuted, C58_equal_refuted, C59_nonlin, C60_positive_partial, C60_negative_refuted, C65_time_resolution, C76_iv_exact, C82_superconducting_methods_refuted, C90_count_partial, C90_count_refuted, C91_nan_refuted, C92_descent, C93_bounds_partial, C93_scale_refuted, C94_start_partial, C94_early_refuted, C94_window_refuted, C94_equal_refuted, C96_stale_refuted, C96_type_refuted, C96_rejects_partial, C97_nesting, C97_hermitian, C98_fourpole, C98_threepole, C98_twopole, C98_muon, C101_range, C115_baseline, C115_pileup, C115_chi2, C116_pileup, C116_chi2, C116_autocuts, C117_iterstat, C117_stages, C117_autocuts, C117_duplicates, C129_current, C129_power, C129_states, C130_sums, C130_power_current, C131_saved, C131_raises, C131_lengths_refuted, C132_unchanged_partial, C132_unchanged_refuted, C133_identity_refuted, C134_superconducting, C135_equipartition, C135_thermal_factor, C136_squid, C138_errors_partial, C138_rnorm_err_refuted, C138_rp_err_partial, C138_rp_err_refuted, C142_magnitude_phase, C143_phase_of, C143_polar, C144_magnitude_phase, C146_not_processed, C146_nothing_measured, C146_all_cut, C146_mismatched, C149_result, C149_start, C149_parameters, C149_rise_kept, C152_figure, C152_texts, C152_rejects, C152_equal_times_refuted, C153_baseline_partial, C153_baseline_refuted, C153_window_partial, C153_window_wraps, C153_window_refuted, C154_same_fit
<!-- assumptions:end -->

* That the model says what the Python does: every definition cites the lines it models; this is
  checked by reading only. The behaviour of numpy and scipy functions is taken from their
  documentation. Oracle arguments (see the conventions above) are unconstrained unless a theorem
  states the assumption it makes about them.

### Modelled

| module | functions | model |
| --- | --- | --- |
| `utils/_utils.py` | all: `shift` (whole and fractional), `resample_factors`, `resample_data`, `make_template`, `make_decreasing`, `calc_offset`, `slope`, `fill_negatives`, `lowpassfilter` (order 1), `align_traces`, `get_offset_from_muon`, `powertrace_simple`, `energy_absorbed`, `estimate_g` | `UtilsModel`, `FilterModel` |
| `core/_fitting.py` | `_argmin_chi2`, `_get_pulse_direction_constraint_mask`, every method of `OptimumFilter`, the free functions `ofamp`, `ofamp_pileup`, `ofamp_pileup_stationary`, `chi2lowfreq`, `chi2_nopulse` | `WindowModel`, `OFModel`, `OFFreeModel` |
| `core/_fitting.py` | `OFnonlin` and `MuonTailFit`: pulse models, residuals, chi2, start values, bounds, results; `least_squares` is an oracle | `NonlinModel` |
| `core/_noise.py` | `foldpsd`, `calc_psd`, `smooth_psd`, `gen_noise`, `Noise` with its calculations | `NoiseModel` |
| `core/_of_nsmb.py` | all functions | `NsmbModel`, `NsmbTtlModel` |
| `core/_iv.py`, `core/_ibis.py` | constructors, fits, error propagation; `curve_fit` is the closed form of the weighted line fit or an oracle | `IvModel` |
| `core/didv/*` | impedances, square wave response, (de)convolution, parameter conversions, fall times (`fsolve` an oracle), `processtraces`, `dofit`, `fitresult`, `didvinitfromdata`, priors; `least_squares` is an oracle | `DidvModel` |
| `cut/_cut.py` | all functions; random draws are oracles | `CutModel` |
| `sim/_sim.py` | all functions and methods | `SimModel` |
| `plotting/_noise_plotting.py`, `Noise.save` | all functions: the data handed to matplotlib (titles, axes, curves, labels), messages, files, exceptions; `plot_noise_sim` for numpy arrays with positive frequencies after the first and a path that can be written; not colours, fonts, ticks, limits, rendering | `PlotModel`, `SimPlotModel` |
| `plotting/_iv_plotting.py`, `plotting/_ibis_plotting.py` and the methods calling them | the data handed to matplotlib, labels, files, exceptions; not colours, fonts, ticks, rendering; selections "all", integer or list | `IvPlotModel` |
| `core/didv/_plot_didv.py` | all methods: titles, curves, labels, limits, files, exceptions; not colours, fonts, axis labels, log scales; `poles` "all", integer or list | `DidvPlotModel` |
| `plotting/_of_nsmb_plotting.py` | `plotnsmb` (curves, labels, lines, limits, file, exceptions; not colours, fonts, axis labels) and the `lgcplot` branches of `of_mb`, `of_nsmb`, `of_nsmb_con` | `NsmbPlotModel` |
| `plotting/_fitting_plotting.py` | `plotnonlin` (titles, curves, legend texts up to rounding, exceptions; not colours, fonts, axis labels, scales) and the `lgcplot` branch of `OFnonlin.fit_falltimes`; simplification: trace and psd of the same length | `NonlinPlotModel` |

### Not modelled

* The drawing by matplotlib itself, and of the figures what their rows above leave out (colours, fonts, ticks, rendering).
* The bytes written by `Noise.save` (pickle file).
* Warnings, printing, and the `lgcplot` branches not named above, except where they raise or
  change a result.
* Rounding, overflow and nan propagation of floating point, except in the theorems that say so
  (`FloatModel`, the `_refuted` theorems on rounding). Times and memory.
* Filter orders above one in `lowpassfilter`, and keyword arguments passed on to scipy
  (`resample_data`, `calc_psd`'s window arguments other than those modelled).

## Plan per property

* **C01 Integer shift moves every sample and fills the gap** – `shift` over `list A`, `Z` shift; slices modelled by Python slice semantics. Spec: pointwise law. Proof: list/`nth_error` reasoning.
* **C02 resample_factors makes fs/sgfreq an integer** – `resample_factors` over `Z` with trial-division factorisation standing for `sympy.factorrat`; banker's rounding exact. Full claim is false (refuted by witness); prove the cases that are true (integer ratio, single-prime denominator).
* **C03 make_decreasing returns a non-increasing interpolation** – `make_decreasing` over `list R`: running-minimum selection, `!= 0` filter, linear interpolation with extrapolation. Induction on the list; zero entries give a refutation.
* **C04 calc_offset uses a whole number of signal-generator periods** – `calc_offset` over `R`, `int()` as truncation (`Ztrunc`).
* **C05 slope is the least-squares slope** – `slope` over `list R`; spec is minimality of the sum of squared residuals over all lines; completing the square.
* **C06 fill_negatives leaves positives alone and returns only positives** – `fill_negatives` over `list R` with `np.interp` modelled (clamped linear interpolation).
* **C07 Power and energy estimates obey the circuit identities** – `powertrace_simple`, `energy_absorbed` (options for keyword args, error values), trapezoid rule on lists.
* **C08 estimate_g propagates the uncertainty correctly** – `estimate_g` over `R` with `Rpower`; derivatives by Coquelicot `is_derive`.
* **C09 make_template is a unit-peak pulse which is zero before its start** – `make_template` over `list R`.
* **C10 removeoutliers only shrinks its selection and always stops** – `removeoutliers` loop with fuel = maxiter; skewness is an arbitrary oracle; the median is modelled.
* **C11 iterstat returns statistics of exactly the selected data** – `iterstat` loop on fuel; consistency is an invariant; termination for positive precision by a potential function (number of kept data times a power of the variance grows) over the finitely many masks; negative precision refuted.
* **C12 itercov always stops and returns statistics of the selected data** – `itercov` loop on fuel bounded by maxiter; means and covariances modelled, matrix inverse an oracle.
* **C13 autocuts only removes traces and marks exactly the survivors** – `autocuts` with modelled stage cuts; list index algebra.
* **C14 slopecut removes sloped traces** – `slopecut` faithful mask computation with oracles for the random part; claim refuted: mask is all True.
* **C15 Unknown outlier algorithm is reported as ValueError** – branch model with exceptions as values; refuted: NameError.
* **C16 get_muon_cut returns one flag per trace** – straight-line model with name resolution; refuted: NameError.
* **C17 Fit window selects exactly the documented bins** – `_argmin_chi2` index sets over `Z`; case analysis with `lia`.
* **C18 Constrained minimum is the minimum over the allowed bins** – argmin over filtered index list; induction on list.
* **C19 No-delay optimum filter amplitude is the least-chi2 amplitude** – DFT over `C` (Coquelicot complex), PSD with possible infinity; completing the square.
* **C20 Delay scan agrees with the fixed-delay fit in every bin** – DFT inversion and shift theorem.
* **C21 Noise-free scaled and shifted template is recovered exactly** – corollary of shift theorem and 19.
* **C22 Amplitude scaling: filter amplitude and chi2 are homogeneous** – linearity.
* **C23 Optimum-filter results do not depend on call history** – state machine with explicit caches; invariant `cache = fresh value` by induction over histories.
* **C24 Functional and object-oriented optimum filters agree** – two models, pointwise equality.
* **C25 Iterative pileup amplitude is optimal for the fixed first pulse** – expansion of chi2; DFT cross-correlation.
* **C26 First-pulse time is converted to the right bin** – IEEE binary64 through stdlib `SpecFloat`; refuted by witness at fs=625 kHz.
* **C27 Stationary pileup amplitudes solve the joint two-pulse fit** – 2x2 normal equations, best over the allowed delays; zero-delay bin refuted.
* **C28 Baseline fit is the joint least-chi2 fit** – 2x2 normal equations.
* **C29 Low-frequency chi2 is a partial chi2** – weighted sums of squares.
* **C30 Sub-bin interpolation stays next to the minimum** – real algebra; the interpolated scans return the quadratics through three neighbouring delays at the vertex of the chi-square.
* **C31 PSD folding preserves total power and agrees with the folded PSD calculation** – DFT Hermitian symmetry, Parseval; list index algebra by parity.
* **C32 smooth_psd is a symmetric non-increasing spectrum** – mirror index algebra on top of 3.
* **C33 gen_noise colours white noise with the requested PSD and leaves its arguments alone** – DFT inversion; mutation as returned state; refuted for psd[0]=inf.
* **C34 Noise.calculate_psd is the folded PSD of the stored traces** – refuted (DC/Nyquist bins doubled); interior bins equal.
* **C35 Noise results reflect the stored traces whatever the call order** – state machine; refuted for calculate_uncorr_noise after remove_trace_slope; proved for the rest.
* **C36 remove_trace_slope leaves a zero slope** – least squares algebra.
* **C37 Correlated and uncorrelated noise add up to the total** – linear algebra identity per bin.
* **C38 IV curve quantities satisfy Ohm's and Joule's law** – algebra over R, derivatives; `rfit_err` refuted.
* **C39 IV normal-branch search keeps only consistent points** – loop with fitter oracle; last clause refuted (last point dropped).
* **C40 Every documented rload form of IV is usable** – shape dispatch; 3-d case refuted (attribute never set).
* **C41 IBIS: normal and superconducting fit lines meet at the reported offset** – field algebra.
* **C42 IBIS error propagation uses exact partial derivatives** – derivatives; wrong terms refuted.
* **C43 IBIS.analyze accepts documented offsets** – type-error model; refuted.
* **C44 TES parameter conversions are inverse to each other** – field algebra.
* **C45 Complex impedance follows the documented circuit model** – complex algebra; dispatch over option records; doc parameter list refuted.
* **C46 Reported fall times are the poles of the admittance** – complex polynomial identities.
* **C47 Square-wave response inverts back to the admittance** – DFT model of both functions.
* **C48 processtraces keeps a whole number of periods** – `SpecFloat` model of the period count; refuted by witnesses; exact-arithmetic version proved.
* **C49 processtraces can be repeated** – state machine; refuted.
* **C50 fitresult returns the latest fit of that pole number** – state machine with fit oracle; induction over histories.
* **C51 dIdV fit start values lie inside the fit bounds** – inequalities over R; boundary refutations.
* **C52 TES noise components are consistent** – complex algebra, inequalities.
* **C53 loadfromdidv supports the documented noise types** – branch model; 'normal' refuted.
* **C54 N-template fit amplitudes minimise chi2** – weighted inner products of Fourier coefficients; pseudo-inverse as oracle with the Penrose equations; normal equations imply minimality.
* **C55 Polarity-constrained fit respects its constraints** – active-set steps per bin; the sign claim is refuted by a witness, optimality under the warning flag and success proved.
* **C56 Background template helpers have the right length for every trace length** – binary64 length of arange(0,1,1/n) via Flocq error bounds; refuted for 49*2^k.
* **C57 TTL background windows exclude exactly the notched bins** – count, roll and shifts in binary64 (error bounds), index window by list reasoning; refuted for notches past the end.
* **C58 Two-pole pulse has the requested peak amplitude** – derivative/convexity argument over R.
* **C59 Nonlinear-fit residuals reproduce the chi2** – sum identities.
* **C60 Nonlinear-fit start values lie inside the default bounds** – inequalities; negative amplitude refuted.
* **C61 make_decreasing keeps a positive spectrum positive** – reals; witness with two equal entries; refuted.
* **C62 Offset from a muon pulse satisfies the circuit equations** – field algebra on the returned record.
* **C63 chi2 of the iterative pileup fit is never negative** – exact DFT sums; witness off the sample grid; refuted.
* **C64 Energy resolution is the one-sigma width of the chi2 parabola** – quadratic chi2 in the amplitude.
* **C65 Time resolution is the one-sigma width in time** – second derivative of the chi2 in the delay (Coquelicot).
* **C66 Interpolated fit works in every window** – index model of the three-point interpolation; refuted in the last bin.
* **C67 calc_psd works along the last axis for any number of dimensions** – channel-wise DFT; folded case refuted.
* **C68 Uncorrelated noise lies between zero and the total noise** – positivity of the inverse CSD diagonal; oracle inverse.
* **C69 Correlation coefficients are a symmetric matrix with unit diagonal in [-1,1]** – Cauchy-Schwarz on the covariance sums.
* **C70 didv0 of a fit result is the fitted admittance at zero frequency** – field algebra at zero frequency.
* **C71 processtraces works for every number of periods in the trace** – period stacking over Z; ragged case refuted.
* **C72 An object built from processed data fits the same** – record equality of the two construction paths; refuted for DIDVPriors.
* **C73 DIDVPriors minimises the DIDV chi-square plus the prior term, from an allowed start** – sum identity of the residuals and the prior term.
* **C74 removeoutliers keeps some entry** – loop with fuel; witness; refuted.
* **C75 symmetrizedist keeps a histogram symmetric about zero** – histogram counts with a draw oracle; symmetry refuted.
* **C76 IV recovers a noise-free sweep** – least-squares uniqueness on exact data, field algebra.
* **C77 IBIS recovers a noise-free sweep** – the same for the two lines of IBIS.
* **C78 IBIS.analyze works without superconducting data** – shape dispatch; two refuted cases.
* **C79 IBIS offset uncertainties without superconducting data** – witness; refuted.
* **C80 IBIS quantities satisfy the circuit equations** – field algebra.
* **C81 dIdV and dIdP solve the linearised TES equations** – the two linear equations are solved in C, uniqueness and existence.
* **C82 Every noise method of a superconducting object returns a value** – branch model; refuted.
* **C83 The energy resolution estimate** – trapezoid sums: positivity, scaling, monotonicity; the sum over the frequencies with explicit constants.
* **C84 energy_res_estimate accepts one-sided and two-sided PSDs** – mirrored grid: trapezoid sum doubles, half the PSD doubles again; refuted.
* **C85 The constrained fit can return every delay of the window** – the slice around bin 0 is empty, polyfit raises TypeError; refuted.
* **C86 The N-template fit leaves its arguments unchanged** – window stored modulo the trace length; refuted for negative bins.
* **C87 The interpolated minimum of the constrained fit is no worse and close to the best bin** – parabola through three points whose middle one is lowest; excludes the last bin.
* **C88 Extra windows of the constrained fit** – rolled chi2 array; a window of one bin is refuted.
* **C89 The signal constraint is accepted in its documented type** – np.concatenate rejects a scalar; refuted.
* **C90 Number of trigger templates** – binary64 division error bound; refuted for 6 bins, 10 Hz, 5 Hz.
* **C91 Slope and dc templates have shift nan** – read off the returned shifts; refuted.
* **C92 Nonlinear fit is not worse than its start** – fit model with the minimizer as an oracle that descends and stays in bounds.
* **C93 Bounds of the caller decide which start values the nonlinear fit accepts** – checks of least_squares modelled; x_scale=p0 makes nonpositive starts fail (refuted), positive ones accepted (partial).
* **C94 Nonlinear fit finds its own start values** – nl_guess; empty slices and equal time constants refute the claim, conditions for success proved.
* **C95 Start of the muon tail fit** – argmin and range characterisation, equivalence.
* **C96 Invalid fit requests are rejected** – refuted for pole numbers outside 1..4 (stale rise time, TypeError); the other two parts proved.
* **C97 Pulse models nest and are real** – complex algebra.
* **C98 Frequency-domain pulses are transforms of the time-domain pulses** – improper integrals of damped sines with Coquelicot.
* **C99 Shift by a fractional number of bins interpolates linearly** – `ndimage.shift(order=1)` as documented (linear interpolation, fill outside); compared with the integer shifts of C01.
* **C100 Resampling keeps the duration and rate consistent** – the factors of C02, the documented length of `resample_poly`, its samples an oracle; floor/ceiling arithmetic over Z.
* **C101 The low-pass filter is linear, keeps constants and does not overshoot** – first-order Butterworth coefficients, `lfilter` as a recursion, `filtfilt` with the even extension; inductions on the recursion, edges included.
* **C102 The cut-off frequency is the 3 dB frequency** – gain of one pass by complex algebra; two passes refute the claim (exact sinusoid at fs/4).
* **C103 align_traces finds the shift of best overlap** – convolution sum, first maximum; autocorrelation argument for the first trace; a constant trace refuted.
* **C104 align_traces uses its filter arguments** – refuted: the function does not depend on them.
* **C105 Noise objects are built from the traces they are given** – the constructor case by case; the gain through linearity of the DFT.
* **C106 calculate_csd stores Welch cross spectra** – the spec writes the window as a squared sine and the scaling from scratch; the matrix inequality is a complex Cauchy–Schwarz inequality for Gram matrices.
* **C107 Real and imaginary noise add up to the PSD** – unfold the three spectra, |z|² = re² + im².
* **C108 The noise split needs as many traces as channels** – T equations in more than T unknowns have a non-zero solution (elimination by induction on T), so the Gram matrix has no inverse.
* **C109 The cost of a dIdV fit is the chi-square of the used bins** – induction over the bins; the factor 1/2 of least_squares refutes the docstring.
* **C110 processtraces: what the processed data are** – whole-period arithmetic, linearity of the DFT, the analytic spectrum of the square wave; near-zero detection at unexcited bins.
* **C111 Noise enters the mean admittance linearly** – spectrum of squarewaveresponse plus linearity.
* **C112 A single trace can be fitted** – refuted: one trace has no spread, and a zero error makes the weights infinite.
* **C113 DIDVPriors.dofit stores the minimum of the likelihood** – case analysis of the call; the minimiser is an oracle.
* **C114 Plots use the time offset of the best fit** – case analysis over the three results.
* **C115 The stage cuts look at the baseline mean, the pulse amplitude and the fit residual** – the free function ofamp is tied to the optimum filter model, whose global optimality (C21) gives the best pulse; white noise turns the weighted chi2 into a residual spread.
* **C116 Cuts do not depend on unit and offset** – invariance of median, moments and thresholds; scaling of the optimum filter fit; counterexample [1,1,1,5] for the polarity.
* **C117 Cuts do not depend on the order of the data** – permutation invariance of sums, sorts and extrema; the chain of stages commutes with reordering.
* **C118 What the spectrum plots show** – invariants of the object over histories (array shapes, non-negative spectra), loop invariant of the cell filling, arithmetic of the cell index.
* **C119 The correlation plot shows every pair once** – the double loop enumerates {j<i} without repetition; counting by induction.
* **C120 Cross spectra are selected by label** – induction over the labels and over the figures; injectivity of the decimal text.
* **C121 compare_noise** – induction over channels and objects.
* **C122 De-correlated noise plots** – case analysis over the flags on top of the layout lemma; the parts add up entry by entry.
* **C123 Saving figures** – saving adds no shown figure; the drawing part does not read the saving arguments; the event lists are built from saved-or-reported figures (inductive predicate `accounted`).
* **C124 Where Noise.save writes** – induction over strings.
* **C125 What the IV, resistance and power plots show** – index arithmetic of the double loop; Forall2 between stored and drawn rows; injectivity of the integer text up to the comma.
* **C126 The fit line of the IV plot** – the folds of argmax, max and min return an extremal element.
* **C127 Saving the IV plots** – the drawing does not read the saving arguments.
* **C128 The three IV plots agree** – Joule law of the stored values, carried through the units; drawn rows against the missing inputs.
* **C129 What plot_noise_sim shows** – the explicit list of curves; positivity of the noise parts.
* **C130 The total of plot_noise_sim is the quadratic sum of its parts** – reading the heights off the curves; the sum rule and power rule of the simulation (C52).
* **C131 Saving and exceptions of plot_noise_sim** – case analysis of the dispatch; numpy broadcasting of one entry.
* **C132 plot_noise_sim and the simulation object** – case analysis.
* **C133 The type argument of plot_noise_sim** – the identity test needs the interned object.
* **C134 Plotting a superconducting object** – its loop gain is 0.
* **C135 The noise sources of TESnoise** – antiderivative arctan and its limit; Bernoulli inequality for real powers.
* **C136 The SQUID noise of TESnoise** – monotonicity of real powers; explicit frequency for every epsilon.
* **C137 What the constructors of IV and IBIS accept** – each test of the constructor is an exact characterisation; IBIS reduces to IV.
* **C138 Resistances of IBIS and their uncertainties** – explicit gradients; counterexamples with exact fits and uncertain shunt, and with an uncertain slope.
* **C139 Given offset arrays and the circuit equations of IBIS** – the equations for the offsets of bias point 0; counterexample with an offset that changes.
* **C140 What the time domain dIdV plots show** – the list of drawn fits is characterised independently and unique; limits by algebra.
* **C141 The flipped trace** – pointwise comparison of the two curves.
* **C142 What the frequency domain dIdV plots show** – masks as filters, maxima as attained upper bounds.
* **C143 The four frequency plots agree** – polar form of np.angle.
* **C144 Data that follow the best fit lie on its curve** – the phase factor of the data cancels the one of the offset.
* **C145 The impedance plot** – complex inverses.
* **C146 Failing dIdV plots leave no figure** – evaluation of the error monad.
* **C147 Objects made by the API can be plotted** – invariant of the object over histories.
* **C148 The bounds in the frequency plots** – the errors are multiplied by the phase factor of the offset as if they were the measured value; witness where both bounds coincide with the mean.
* **C149 What fit_falltimes works with and reports** – inversion of the fit; Parseval for the units; first-closest sample of the decay.
* **C150 plotnsmb draws the data, the fit and its parts** – the inverse transform of each row is the shifted template (masked amplitudes in the N-template lemma); Parseval form of chi2.
* **C151 A fit with lgcplot=True returns and draws the same result** – C54/C55 for the residual, C150 for the figure.
* **C152 plotnonlin draws the data, the fitted pulse and the fitted parameters** – the mask f > 0 selects bins 1..(n-1)/2; the time pulses of C58/C98; the legend by unpacking.
* **C153 plotnonlin removes the baseline and shows the pulse** – bounds of the python slices.
* **C154 fit_falltimes with lgcplot=True is the same fit** – a successful fit has parameters that unpack, so C152 applies.
