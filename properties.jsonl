{"id": "C01", "title": "Integer shift moves every sample and fills the gap", "statement": "shift(arr, num, fill_value) with an integer num returns an array of the same length whose i-th value is arr[i-num] when 0 <= i-num < len(arr) and fill_value otherwise, also when |num| >= len(arr).", "quantifier": "every 1-d array, every integer num of either sign and any size, every fill value, every index", "why_tests_cant": "The three slice branches have different corner cases (0, |num|>=len, empty array); a test picks a few num values.", "anchors": ["qetpy/utils/_utils.py:shift"]}
{"id": "C02", "title": "resample_factors makes fs/sgfreq an integer", "statement": "For integers fs, sgfreq > 0, if (up, down) = resample_factors(fs, sgfreq) then fs*up/down is an integer multiple of sgfreq; an already integer ratio is left alone with (1, 1); non-integer inputs raise ValueError.", "quantifier": "every pair of positive integers fs, sgfreq", "why_tests_cant": "The promise depends on the prime factorisation of fs/sgfreq; tests use one or two ratios whose reduced denominator happens to be a single prime.", "anchors": ["qetpy/utils/_utils.py:resample_factors", "qetpy/utils/_utils.py:resample_data"]}
{"id": "C03", "title": "make_decreasing returns a non-increasing interpolation", "statement": "make_decreasing(y) with all-positive y whose running minimum is attained at two or more points returns an array of the same length, never increasing, which coincides with y at every point that is a strict new minimum.", "quantifier": "every array length and every positive array", "why_tests_cant": "Monotonicity of an interpolation through the kept points is a statement over all arrays, including the extrapolated tail.", "anchors": ["qetpy/utils/_utils.py:make_decreasing"]}
{"id": "C04", "title": "calc_offset uses a whole number of signal-generator periods", "statement": "calc_offset truncates each trace to the largest whole number of periods it contains, and the returned offset is the mean over all samples of all truncated traces; with is_didv False it uses the whole trace. The standard deviation it returns is zero exactly when all per-trace means agree.", "quantifier": "every number of traces, trace length, sampling and signal-generator frequency", "why_tests_cant": "Truncation index is an integer/real rounding question over all (length, fs, sgfreq).", "anchors": ["qetpy/utils/_utils.py:calc_offset"]}
{"id": "C05", "title": "slope is the least-squares slope", "statement": "slope(x, y) with removemeans=True equals the slope of the least-squares straight line (minimiser of the sum of squared residuals over all slopes and intercepts), and it does not change when a constant is added to y.", "quantifier": "every x with at least two different values, every y, every line", "why_tests_cant": "Optimality over all lines; the code subtracts the mean of x from y, which looks like a typo and is only harmless because of an identity.", "anchors": ["qetpy/utils/_utils.py:slope"]}
{"id": "C06", "title": "fill_negatives leaves positives alone and returns only positives", "statement": "fill_negatives(arr) never changes an entry that is positive, replaces every entry <= 0 by a value between the nearest positive neighbours, so that the result is all positive whenever one entry was positive, leaves the array alone when none is, and applying it twice changes nothing more.", "quantifier": "every array of real numbers", "why_tests_cant": "Holds for all sign patterns including runs at either edge.", "anchors": ["qetpy/utils/_utils.py:fill_negatives"]}
{"id": "C07", "title": "Power and energy estimates obey the circuit identities", "statement": "powertrace_simple(I, ioff, rload, vbias) equals J^2*R with J = I-ioff and R = vbias/J - rload, is largest at J = vbias/(2 rload); energy_absorbed is zero for a trace that equals its baseline, is unchanged between the fs form and the equivalent uniform time axis, and raises ValueError exactly when the required arguments are missing.", "quantifier": "every trace, offset, bias voltage, load resistance, sampling rate, argument combination", "why_tests_cant": "Algebraic identities over the reals and argument-combination completeness.", "anchors": ["qetpy/utils/_utils.py:powertrace_simple", "qetpy/utils/_utils.py:energy_absorbed"]}
{"id": "C08", "title": "estimate_g propagates the uncertainty correctly", "statement": "estimate_g(p0, tc, tbath, ...) returns G = n p0 tc^(n-1)/(tc^n - tbath^n) and, with a covariance, g_err^2 = J Cov J^T where J holds the exact partial derivatives of G; without covariance the relative error of G equals that of p0.", "quantifier": "every p0, tc > 0, tbath > 0, tc <> tbath, real exponent n, covariance matrix", "why_tests_cant": "Exactness of hand-written partial derivatives is a statement about derivatives at every point.", "anchors": ["qetpy/utils/_utils.py:estimate_g"]}
{"id": "C09", "title": "make_template is a unit-peak pulse which is zero before its start", "statement": "make_template(t, tau_r, tau_f, offset) has maximum exactly 1 and is zero before bin len(t)//2+offset, and has the length of t, whenever tau_f > tau_r > 0 and the pulse starts inside the window on a uniform positive time grid.", "quantifier": "every positive tau_r < tau_f, every grid, every offset inside the window", "why_tests_cant": "Normalisation relies on positivity of the pulse for all parameters.", "anchors": ["qetpy/utils/_utils.py:make_template"]}
{"id": "C10", "title": "removeoutliers only shrinks its selection and always stops", "statement": "removeoutliers(x, maxiter, skewTarget) always terminates after at most max(1, maxiter+1) rounds, the returned mask has the length of x, excludes +inf entries, and every extra round only removes entries; each round keeps the selected entries closer to the median of the selection than the nearer extreme entry of x; the kept values form an interval; if the skew of the finite entries is already at or below target nothing is removed.", "quantifier": "every data vector, every iteration bound, every skew target and every behaviour of the skewness function", "why_tests_cant": "Termination and monotonicity over all inputs.", "anchors": ["qetpy/cut/_cut.py:removeoutliers"]}
{"id": "C11", "title": "iterstat returns statistics of exactly the selected data", "statement": "Whenever iterstat returns, the mean and standard deviation it returns are those of the data it marks as kept, the mask has the input length, the kept data are those within cut standard deviations of the mean of the last selection (or all data), the choice of the unbiased estimators does not change the mask, and constant data are kept entirely. It terminates for every input.", "quantifier": "every data vector, cut value, precision and (un)biased estimator choice, every number of loop rounds", "why_tests_cant": "The loop has no iteration bound, and returned values are computed in a different place from the mask.", "anchors": ["qetpy/cut/_cut.py:iterstat"]}
{"id": "C12", "title": "itercov always stops and returns statistics of the selected data", "statement": "itercov stops after at most maxiter+2 rounds, rejects malformed arguments (scalars, ragged vectors, a single dimension) with ValueError, and the returned mean/covariance are those of the events marked as kept, which are all events or the ones inside the chi2 and per-coordinate limits around an earlier selection; it raises otherwise only if a covariance matrix has no inverse.", "quantifier": "every list of data arrays, cut value and maxiter", "why_tests_cant": "Loop bound and mask/statistic agreement over all inputs.", "anchors": ["qetpy/cut/_cut.py:itercov"]}
{"id": "C13", "title": "autocuts only removes traces and marks exactly the survivors", "statement": "autocuts returns a boolean array with one entry per trace; an entry is True exactly if the trace survives every stage in order (pileup 1, slope, baseline, pileup 2 for dIdV data only, chi2), each stage being computed from the survivors of the stages before it only; the rejected traces stay rejected.", "quantifier": "every number of traces and every behaviour of the individual stage cuts", "why_tests_cant": "Index bookkeeping through five chained fancy-index selections over all masks.", "anchors": ["qetpy/cut/_cut.py:autocuts"]}
{"id": "C14", "title": "slopecut removes sloped traces", "statement": "slopecut marks as False the traces whose slope is an outlier.", "quantifier": "every set of traces", "why_tests_cant": "A test would need to know the effect of the random symmetrisation; the claim is about every input.", "anchors": ["qetpy/cut/_cut.py:slopecut"]}
{"id": "C15", "title": "Unknown outlier algorithm is reported as ValueError", "statement": "pileupcut, slopecut, baselinecut and chi2cut raise ValueError for an unknown outlieralgo string and run for 'removeoutliers' and 'iterstat'.", "quantifier": "every string other than the two supported names", "why_tests_cant": "Universally quantified over strings; the failing branch is not covered.", "anchors": ["qetpy/cut/_cut.py:pileupcut", "qetpy/cut/_cut.py:slopecut", "qetpy/cut/_cut.py:baselinecut", "qetpy/cut/_cut.py:chi2cut"]}
{"id": "C16", "title": "get_muon_cut returns one flag per trace", "statement": "get_muon_cut(traces) returns a boolean array marking the traces which are muon candidates.", "quantifier": "every nonempty set of traces", "why_tests_cant": "Claim about every call.", "anchors": ["qetpy/cut/_cut.py:get_muon_cut"]}
{"id": "C17", "title": "Fit window selects exactly the documented bins", "statement": "In a time-constrained optimum filter with nconstrain bins centred at windowcenter the searched bins are exactly those within the window (clipped to the trace), with lgcoutsidewindow exactly the complement; out-of-range windowcenter or nconstrain <= 0 raise ValueError.", "quantifier": "every trace length, every window width of either parity, every window centre, both inside/outside modes", "why_tests_cant": "Even/odd trace length x even/odd width x centre x mode makes many slice corner cases with negative indices.", "anchors": ["qetpy/core/_fitting.py:_argmin_chi2"]}
{"id": "C18", "title": "Constrained minimum is the minimum over the allowed bins", "statement": "The bin returned by the constrained search lies in the window and satisfies the pulse-direction constraint, no other allowed bin has smaller chi2, and it is the first such; if no bin is allowed the fit returns amplitude 0, time 0 and the no-pulse chi2.", "quantifier": "every chi2 vector, every amplitude vector, every window, every pulse direction flag", "why_tests_cant": "Minimality over all allowed bins for all arrays.", "anchors": ["qetpy/core/_fitting.py:_argmin_chi2", "qetpy/core/_fitting.py:_get_pulse_direction_constraint_mask", "qetpy/core/_fitting.py:OptimumFilter.ofamp_withdelay"]}
{"id": "C19", "title": "No-delay optimum filter amplitude is the least-chi2 amplitude", "statement": "OptimumFilter.ofamp_nodelay returns the amplitude minimising the noise-weighted chi2 between signal and amplitude x template shifted by windowcenter bins, and the returned chi2 is exactly the residual's noise-weighted chi2 at that amplitude.", "quantifier": "every real signal, template, positive PSD (AC or DC coupled), sampling rate, trace length, windowcenter, every competing real amplitude", "why_tests_cant": "Optimality over the continuum of amplitudes; chi2 is computed by a shortcut formula rather than from the residual.", "anchors": ["qetpy/core/_fitting.py:OptimumFilter.ofamp_nodelay", "qetpy/core/_fitting.py:OptimumFilter.__init__", "qetpy/core/_fitting.py:OptimumFilter.chi2_nopulse"]}
{"id": "C20", "title": "Delay scan agrees with the fixed-delay fit in every bin", "statement": "For every bin, the amplitude and chi2 used by ofamp_withdelay equal those of ofamp_nodelay at that delay; hence its unconstrained result is the global minimum of chi2 over amplitude and integer delay, and the returned t0 is the bin offset from the trace centre divided by fs.", "quantifier": "every signal, template, PSD, every bin, every competing amplitude and delay", "why_tests_cant": "Identity between an inverse FFT and a direct frequency sum for all signals and lengths (odd and even).", "anchors": ["qetpy/core/_fitting.py:OptimumFilter.ofamp_withdelay"]}
{"id": "C21", "title": "Noise-free scaled and shifted template is recovered exactly", "statement": "If the signal is A times the template circularly shifted by d bins, the no-delay fit at windowcenter d returns amplitude A and chi2 0, and the delay scan returns chi2 0 at a bin with amplitude A.", "quantifier": "every amplitude A, shift d, template with non-zero filter norm, PSD", "why_tests_cant": "Holds over all A, d, templates; tests have one template.", "anchors": ["qetpy/core/_fitting.py:OptimumFilter"]}
{"id": "C22", "title": "Amplitude scaling: filter amplitude and chi2 are homogeneous", "statement": "Scaling the signal by c scales every amplitude by c and every chi2 by c^2 and leaves the best bin unchanged; amplitudes are additive in the signal; chi2 values are never negative and never above the no-pulse chi2.", "quantifier": "every signal pair, every real c", "why_tests_cant": "Universal over signals.", "anchors": ["qetpy/core/_fitting.py:OptimumFilter"]}
{"id": "C23", "title": "Optimum-filter results do not depend on call history", "statement": "After any sequence of OptimumFilter calls (fits with any arguments and update_signal), each call returns exactly what a freshly constructed filter with the current signal returns.", "quantifier": "every finite history of method calls, every argument, every signal", "why_tests_cant": "Caches (chi0, amps, chi, filtered template) survive between calls; all interleavings matter.", "anchors": ["qetpy/core/_fitting.py:OptimumFilter.update_signal", "qetpy/core/_fitting.py:OptimumFilter"]}
{"id": "C24", "title": "Functional and object-oriented optimum filters agree", "statement": "ofamp / ofamp_pileup / chi2_nopulse / chi2lowfreq return the same numbers as the OptimumFilter methods with the same options, trace by trace, and a PSD of the wrong length raises ValueError.", "quantifier": "every batch of signals, template, PSD, coupling, option values", "why_tests_cant": "Two independently written implementations, equality over all inputs.", "anchors": ["qetpy/core/_fitting.py:ofamp", "qetpy/core/_fitting.py:ofamp_pileup", "qetpy/core/_fitting.py:chi2_nopulse", "qetpy/core/_fitting.py:chi2lowfreq"]}
{"id": "C25", "title": "Iterative pileup amplitude is optimal for the fixed first pulse", "statement": "With the first pulse (a1, t1 on the sample grid) held fixed, ofamp_pileup_iterative returns for the best bin the amplitude minimising chi2 of signal minus both pulses, and the returned chi2 is the true chi2 of that two-pulse model.", "quantifier": "every signal, template, PSD, first pulse on the grid, every competing second amplitude and delay", "why_tests_cant": "Optimality over a continuum, formula is a hand-derived expansion.", "anchors": ["qetpy/core/_fitting.py:OptimumFilter.ofamp_pileup_iterative", "qetpy/core/_fitting.py:ofamp_pileup"]}
{"id": "C26", "title": "First-pulse time is converted to the right bin", "statement": "In the iterative pileup fit a first-pulse time t1 = k/fs computed in floating point is used as bin k.", "quantifier": "every sampling rate and bin", "why_tests_cant": "Floating-point truncation int(t1*fs): fails only for some k.", "anchors": ["qetpy/core/_fitting.py:OptimumFilter.ofamp_pileup_iterative", "qetpy/core/_fitting.py:ofamp_pileup"]}
{"id": "C27", "title": "Stationary pileup amplitudes solve the joint two-pulse fit", "statement": "ofamp_pileup_stationary returns, for every delay of the second pulse, the amplitude pair minimising the joint chi2, with the true chi2 of the two-pulse model, including the degenerate zero delay where the two amplitudes add up to the single-pulse amplitude.", "quantifier": "every signal, template, PSD, delay and every competing amplitude pair", "why_tests_cant": "Joint optimality over R^2 for all delays including the degenerate one.", "anchors": ["qetpy/core/_fitting.py:OptimumFilter.ofamp_pileup_stationary", "qetpy/core/_fitting.py:ofamp_pileup_stationary"]}
{"id": "C28", "title": "Baseline fit is the joint least-chi2 fit", "statement": "ofamp_baseline at the selected bin returns the amplitude (and baseline) minimising chi2 of signal - amplitude x template - baseline at that delay.", "quantifier": "every signal, template, PSD, coupling, every competing (amplitude, baseline)", "why_tests_cant": "Joint optimality over R^2.", "anchors": ["qetpy/core/_fitting.py:OptimumFilter.ofamp_baseline"]}
{"id": "C29", "title": "Low-frequency chi2 is a partial chi2", "statement": "chi2_lowfreq with cutoff f is non-negative, non-decreasing in the cutoff, zero for an exact template match, and with a cutoff above Nyquist equals the total chi2 of the fitted pulse.", "quantifier": "every amplitude, time shift, cutoff, signal, template, PSD", "why_tests_cant": "Monotonicity in a real parameter over all inputs.", "anchors": ["qetpy/core/_fitting.py:OptimumFilter.chi2_lowfreq", "qetpy/core/_fitting.py:chi2lowfreq"]}
{"id": "C30", "title": "Sub-bin interpolation stays next to the minimum", "statement": "The parabola interpolation around the best bin returns, for a strict local minimum, a time within half a bin of it and an interpolated chi2 not above the bin value; it is exact on quadratics.", "quantifier": "every triple of values, every bin width", "why_tests_cant": "Real-algebraic inequality over all triples; border bins wrap or overrun.", "anchors": ["qetpy/core/_fitting.py:OptimumFilter._interpolate_parabola", "qetpy/core/_fitting.py:OptimumFilter._interpolate_of"]}
{"id": "C31", "title": "PSD folding preserves total power and agrees with the folded PSD calculation", "statement": "foldpsd(calc_psd(x, folded=False)) equals calc_psd(x, folded=True) with the same frequencies, the sum over the folded PSD equals the sum over the two-sided PSD, and the integral of the PSD is the mean square of the trace (Parseval).", "quantifier": "every set of real traces, every length of either parity, every sampling rate", "why_tests_cant": "Even/odd Nyquist handling written twice with different formulas.", "anchors": ["qetpy/core/_noise.py:foldpsd", "qetpy/core/_noise.py:calc_psd"]}
{"id": "C32", "title": "smooth_psd is a symmetric non-increasing spectrum", "statement": "smooth_psd returns a PSD of the same length which is symmetric under k -> n-k and non-increasing over positive frequencies.", "quantifier": "every length and every positive PSD", "why_tests_cant": "Parity-dependent mirror index arithmetic.", "anchors": ["qetpy/core/_noise.py:smooth_psd"]}
{"id": "C33", "title": "gen_noise colours white noise with the requested PSD and leaves its arguments alone", "statement": "For a symmetric PSD, the two-sided PSD of each generated trace is the PSD of the white-noise draw times the requested PSD, traces are real, and the argument array is not modified.", "quantifier": "every symmetric psd, fs, number of traces and every random draw", "why_tests_cant": "Spectral identity for all random draws; argument mutation only happens for psd[0]=inf.", "anchors": ["qetpy/core/_noise.py:gen_noise"]}
{"id": "C34", "title": "Noise.calculate_psd is the folded PSD of the stored traces", "statement": "The PSD stored by Noise.calculate_psd equals calc_psd(folded=True) of the stored traces channel by channel.", "quantifier": "every set of traces", "why_tests_cant": "Equality in every bin; DC and Nyquist bins are special.", "anchors": ["qetpy/core/_noise.py:Noise.calculate_psd", "qetpy/core/_noise.py:calc_psd"]}
{"id": "C35", "title": "Noise results reflect the stored traces whatever the call order", "statement": "After any sequence of Noise method calls, each method's stored result is that of the current traces.", "quantifier": "every history of remove_trace_slope / calculate_psd / calculate_csd / calculate_uncorr_noise", "why_tests_cant": "History dependence through cached csd.", "anchors": ["qetpy/core/_noise.py:Noise.remove_trace_slope", "qetpy/core/_noise.py:Noise.calculate_csd", "qetpy/core/_noise.py:Noise.calculate_uncorr_noise"]}
{"id": "C36", "title": "remove_trace_slope leaves a zero slope", "statement": "After remove_trace_slope each trace has least-squares slope zero, its mean is unchanged up to the documented convention, and doing it twice changes nothing.", "quantifier": "every trace of length at least two", "why_tests_cant": "Idempotence over all traces.", "anchors": ["qetpy/core/_noise.py:Noise.remove_trace_slope"]}
{"id": "C37", "title": "Correlated and uncorrelated noise add up to the total", "statement": "uncorr_noise + corr_noise equals the diagonal cross spectral density in every bin and channel.", "quantifier": "every csd array and every number of channels", "why_tests_cant": "Linear-algebra identity for every matrix inverse.", "anchors": ["qetpy/core/_noise.py:Noise.calculate_uncorr_noise"]}
{"id": "C38", "title": "IV curve quantities satisfy Ohm's and Joule's law", "statement": "IV.calc_iv: r0 = vb/ites - rload, ptes = ites^2 r0 = vb ites - rload ites^2, rnorm+rload is the inverse slope of the normal fit line, and the reported errors are the linear error propagation of these formulas.", "quantifier": "every bias point, every offset, every uncertainty", "why_tests_cant": "Algebraic identities and derivatives over the reals.", "anchors": ["qetpy/core/_iv.py:IV.calc_iv"]}
{"id": "C39", "title": "IV normal-branch search keeps only consistent points", "statement": "The normal-region search returns an initial segment of the bias points, at least one point, which ends before the first point at which the refitted line fails the chi2 threshold; if all points are consistent all points are used.", "quantifier": "every data set and every behaviour of the fitter", "why_tests_cant": "Loop over arbitrary fit outcomes.", "anchors": ["qetpy/core/_iv.py:IV._findnormalinds"]}
{"id": "C40", "title": "Every documented rload form of IV is usable", "statement": "IV accepts rload as scalar, per-channel, per-temperature-and-channel and full 3-d array and calc_iv then works with that rload.", "quantifier": "every valid shape combination", "why_tests_cant": "Shape dispatch over all accepted shapes.", "anchors": ["qetpy/core/_iv.py:IV.__init__"]}
{"id": "C41", "title": "IBIS: normal and superconducting fit lines meet at the reported offset", "statement": "The reported offset point (ibias_off, ioff) lies on both fitted lines, and is the only such point.", "quantifier": "every pair of non-parallel lines", "why_tests_cant": "Algebraic uniqueness.", "anchors": ["qetpy/core/_ibis.py:IBIS.analyze"]}
{"id": "C42", "title": "IBIS error propagation uses exact partial derivatives", "statement": "The uncertainties of R_tes, P_tes and the offset point reported by IBIS are sqrt(J Cov J^T) with J the exact partial derivatives, and the resistances' errors are propagated standard deviations.", "quantifier": "every operating point and covariance", "why_tests_cant": "Derivatives at every point; wrong partials give plausible numbers.", "anchors": ["qetpy/core/_ibis.py:IBIS._rtes_err", "qetpy/core/_ibis.py:IBIS._ptes_err", "qetpy/core/_ibis.py:IBIS.analyze"]}
{"id": "C43", "title": "IBIS.analyze accepts documented offsets", "statement": "IBIS.analyze(xoff=float, yoff=float) uses those offsets.", "quantifier": "every float pair", "why_tests_cant": "Every call with the documented argument type.", "anchors": ["qetpy/core/_ibis.py:IBIS.analyze"]}
{"id": "C44", "title": "TES parameter conversions are inverse to each other", "statement": "Converting small-signal TES parameters to fit parameters and back returns the same values, and vice versa, for the 1-, 2- and 3-pole models.", "quantifier": "every parameter set with non-degenerate denominators", "why_tests_cant": "Rational-function identity over all parameters.", "anchors": ["qetpy/core/didv/_base_didv.py:_BaseDIDV._convertfromtesvalues", "qetpy/core/didv/_base_didv.py:_BaseDIDV._converttotesvalues"]}
{"id": "C45", "title": "Complex impedance follows the documented circuit model", "statement": "compleximpedance equals the documented formula for the model selected by the passed parameters, complexadmittance is its reciprocal, impedance(-f) is the conjugate of impedance(f), the 3-pole model with gratio=0 equals the 2-pole model and the 2-pole model with l=0 equals the 1-pole form; passing exactly the documented parameters selects the documented model.", "quantifier": "every frequency and parameter value, every subset of passed parameters", "why_tests_cant": "Identities over the reals and all subsets of 9 keyword arguments.", "anchors": ["qetpy/core/didv/_base_didv.py:compleximpedance", "qetpy/core/didv/_base_didv.py:complexadmittance", "qetpy/core/didv/_base_didv.py:_pole_extractor"]}
{"id": "C46", "title": "Reported fall times are the poles of the admittance", "statement": "Whenever the solved equations for the fall times hold, the admittance factorises into simple poles with exactly these fall times.", "quantifier": "every parameter set and every solution of the equations, every frequency", "why_tests_cant": "Polynomial identity in frequency.", "anchors": ["qetpy/core/didv/_base_didv.py:_BaseDIDV._findpolefalltimes"]}
{"id": "C47", "title": "Square-wave response inverts back to the admittance", "statement": "squarewaveresponse produces a real trace; deconvolving a noise-free simulated square-wave response gives back the model's complex admittance at every excited harmonic; the duty-cycle formula at 0.5 agrees with the dedicated branch.", "quantifier": "every model parameter, trace length, number of periods, duty cycle, harmonic", "why_tests_cant": "Composition of two DFTs for all lengths; Nyquist handling depends on parity.", "anchors": ["qetpy/core/didv/_base_didv.py:_BaseDIDV._convolvedidv", "qetpy/core/didv/_base_didv.py:_BaseDIDV._deconvolvedidv", "qetpy/core/didv/_base_didv.py:squarewaveresponse"]}
{"id": "C48", "title": "processtraces keeps a whole number of periods", "statement": "processtraces truncates traces to the largest whole number of signal-generator periods; a trace holding exactly k periods is used entirely.", "quantifier": "every fs, sgfreq with integer ratio, every number of periods, in floating-point arithmetic", "why_tests_cant": "Depends on IEEE rounding of n*(1/fs)/(1/sgfreq).", "anchors": ["qetpy/core/didv/_base_didv.py:_BaseDIDV.processtraces"]}
{"id": "C49", "title": "processtraces can be repeated", "statement": "Calling processtraces again on the same object gives the same processed data, whatever was called before.", "quantifier": "every history of processtraces/dofit calls", "why_tests_cant": "History dependence through the in-place dt0 shift.", "anchors": ["qetpy/core/didv/_base_didv.py:_BaseDIDV.processtraces", "qetpy/core/didv/_didv_priors.py:DIDVPriors._guessparams"]}
{"id": "C50", "title": "fitresult returns the latest fit of that pole number", "statement": "After any sequence of dofit calls, fitresult(p) is the result of the last successful dofit(p) and an empty dict before the first; dofit with poles outside 1,2,3 raises ValueError and changes nothing.", "quantifier": "every history of dofit/fitresult calls", "why_tests_cant": "All histories.", "anchors": ["qetpy/core/didv/_base_didv.py:_BaseDIDV.fitresult", "qetpy/core/didv/_didv.py:DIDV.dofit"]}
{"id": "C51", "title": "dIdV fit start values lie inside the fit bounds", "statement": "For every processed trace the starting guess passed to the bounded least-squares fit lies inside its bounds and its scale vector is positive.", "quantifier": "every trace, dt0, loop-gain branch, number of poles", "why_tests_cant": "Universal over traces; the failing values (dt0=0, flat trace) are boundary cases.", "anchors": ["qetpy/core/didv/_base_didv.py:_BaseDIDV._guessdidvparams", "qetpy/core/didv/_didv.py:DIDV._fitdidv", "qetpy/core/didv/_didv.py:DIDV.dofit"]}
{"id": "C52", "title": "TES noise components are consistent", "statement": "TESnoise.dIdV equals complexadmittance with rload = rsh + rp; total noise is the sum of its parts, non-negative and never below each part; power noise times |dI/dP|^2 is current noise; superconducting and normal dIdV are the r0 = 0 and zero-loop-gain zero-beta limits; the thermal-fluctuation factor lies in (0,1] for tbath < tc in both limits.", "quantifier": "every parameter set and frequency", "why_tests_cant": "Two modules, all real parameters.", "anchors": ["qetpy/sim/_sim.py:TESnoise", "qetpy/core/didv/_base_didv.py:complexadmittance"]}
{"id": "C53", "title": "loadfromdidv supports the documented noise types", "statement": "loadfromdidv returns a TESnoise object for noisetype transition, superconducting and normal (with rnormal), carrying the fit parameters, and raises ValueError otherwise.", "quantifier": "every fit result and argument combination", "why_tests_cant": "Every call with noisetype='normal' regardless of rnormal.", "anchors": ["qetpy/sim/_sim.py:loadfromdidv"]}
{"id": "C54", "title": "N-template fit amplitudes minimise chi2", "statement": "of_nsmb amplitudes for each time bin minimise the chi2 over all amplitude vectors, the returned chi2 is the chi2 of the model with these amplitudes, and the returned time bin minimises it inside the window. One sign constraint counts for all backgrounds; any other number than one or the number of backgrounds raises ValueError.", "quantifier": "every number of signal and background templates, traces, PSDs, windows, every competing amplitude vector", "why_tests_cant": "Optimality over R^(ns+nb) for arbitrary dimension.", "anchors": ["qetpy/core/_of_nsmb.py:of_nsmb", "qetpy/core/_of_nsmb.py:of_nsmb_setup", "qetpy/core/_of_nsmb.py:of_nsmb_getiP", "qetpy/core/_of_nsmb.py:of_mb"]}
{"id": "C55", "title": "Polarity-constrained fit respects its constraints", "statement": "of_nsmb_con returns amplitudes obeying the requested signs; the disallowed-index test flags exactly the amplitudes violating or on the boundary of the sign constraint.", "quantifier": "every amplitude vector and constraint vector, every iteration of the active-set loop", "why_tests_cant": "Active set iteration over all inputs.", "anchors": ["qetpy/core/_of_nsmb.py:of_nsmb_con", "qetpy/core/_of_nsmb.py:_index_disallowed"]}
{"id": "C56", "title": "Background template helpers have the right length for every trace length", "statement": "get_slope_dc_template_nsmb(nbin, ...) returns templates of exactly nbin bins. Zero bins raise ZeroDivisionError, a negative number ValueError.", "quantifier": "every positive nbin, in floating-point arithmetic", "why_tests_cant": "np.arange(0,1,1/nbin) has nbin+1 entries for some nbin only.", "anchors": ["qetpy/core/_of_nsmb.py:get_slope_dc_template_nsmb"]}
{"id": "C57", "title": "TTL background windows exclude exactly the notched bins", "statement": "maketemplate_ttlfit_nsmb returns background templates which are shifted copies of the first one and an index window which is exactly the complement of the notch windows around every TTL position. Zero rates raise ZeroDivisionError; negative trigger rates raise an exception.", "quantifier": "every trace length, TTL rate, notch size", "why_tests_cant": "Index arithmetic with wrap-around for all parameters.", "anchors": ["qetpy/core/_of_nsmb.py:maketemplate_ttlfit_nsmb"]}
{"id": "C58", "title": "Two-pole pulse has the requested peak amplitude", "statement": "OFnonlin two-pole time-domain pulse (with amplitude scaling) has maximum exactly the amplitude parameter, for both orderings of rise and fall time, and the frequency-domain form describes the same pulse. (For equal time constants there is no such pulse: the scaled forms give nan without an exception.)", "quantifier": "every amplitude, positive distinct rise and fall times, every time", "why_tests_cant": "Maximum over continuous time.", "anchors": ["qetpy/core/_fitting.py:OFnonlin.twopole", "qetpy/core/_fitting.py:OFnonlin.twopoletime"]}
{"id": "C59", "title": "Nonlinear-fit residuals reproduce the chi2", "statement": "The sum of squares of the residual vector used by the fit equals the reported chi2 times its degrees-of-freedom factor.", "quantifier": "every model, signal, PSD", "why_tests_cant": "Identity between two independently coded formulas.", "anchors": ["qetpy/core/_fitting.py:OFnonlin.residuals", "qetpy/core/_fitting.py:OFnonlin.calcchi2", "qetpy/core/_fitting.py:MuonTailFit"]}
{"id": "C60", "title": "Nonlinear-fit start values lie inside the default bounds", "statement": "With default bounds, fit_falltimes starts inside its bounds for pulses of either polarity.", "quantifier": "every amplitude guess", "why_tests_cant": "Negative-going pulses invert the default bounds.", "anchors": ["qetpy/core/_fitting.py:OFnonlin.fit_falltimes"]}
{"id": "C61", "title": "make_decreasing keeps a positive spectrum positive", "statement": "make_decreasing of an all-positive array is all positive, so a smoothed PSD is still a PSD.", "quantifier": "every positive array with at least two running minima", "why_tests_cant": "The extrapolated tail depends on the last two kept points; whether it crosses zero depends on the whole array.", "anchors": ["qetpy/utils/_utils.py:make_decreasing", "qetpy/core/_noise.py:smooth_psd"]}
{"id": "C62", "title": "Offset from a muon pulse satisfies the circuit equations", "statement": "The offset, resistance, current and power returned by get_offset_from_muon satisfy that at saturation the TES has its normal resistance and that at the quiescent point current times total resistance is the bias voltage and power is current squared times resistance.", "quantifier": "every muon trace, bias, and set of resistances with a non-zero total", "why_tests_cant": "An algebraic identity over all circuit parameters.", "anchors": ["qetpy/utils/_utils.py:get_offset_from_muon"]}
{"id": "C63", "title": "chi2 of the iterative pileup fit is never negative", "statement": "ofamp_pileup_iterative returns a chi2 >= 0 for every first pulse time inside the trace, including sub-sample times such as those returned by the interpolated single-pulse fit.", "quantifier": "every signal, template, PSD, first-pulse amplitude and time", "why_tests_cant": "The code mixes a truncated bin index with an untruncated phase factor; tests use times on the sample grid.", "anchors": ["qetpy/core/_fitting.py:OptimumFilter.ofamp_pileup_iterative", "qetpy/core/_fitting.py:ofamp_pileup"]}
{"id": "C64", "title": "Energy resolution is the one-sigma width of the chi2 parabola", "statement": "Moving the fitted amplitude by plus or minus energy_resolution() raises the chi2 by exactly one.", "quantifier": "every signal, template, PSD, coupling, delay", "why_tests_cant": "A statement about the chi2 as a function on all problems, not about one number.", "anchors": ["qetpy/core/_fitting.py:OptimumFilter.energy_resolution", "qetpy/core/_fitting.py:OptimumFilter.ofamp_nodelay"]}
{"id": "C65", "title": "Time resolution is the one-sigma width in time", "statement": "For a noise-free pulse of amplitude A at delay zero the chi2 as a function of the fitted delay time has a stationary point at zero whose second derivative is 2/time_resolution(A)^2.", "quantifier": "every template, PSD, coupling, amplitude", "why_tests_cant": "Second derivative of a function over all delays; needs calculus.", "anchors": ["qetpy/core/_fitting.py:OptimumFilter.time_resolution", "qetpy/core/_fitting.py:OptimumFilter.chi2_lowfreq"]}
{"id": "C66", "title": "Interpolated fit works in every window", "statement": "ofamp_withdelay with interpolate_t0=True returns a result for every valid window, also when the best bin is the last one.", "quantifier": "every signal, template, PSD and valid fit window", "why_tests_cant": "The best bin has to be the last bin of the trace; rare in test data.", "anchors": ["qetpy/core/_fitting.py:OptimumFilter.ofamp_withdelay", "qetpy/core/_fitting.py:_interpolate_parabola"]}
{"id": "C67", "title": "calc_psd works along the last axis for any number of dimensions", "statement": "calc_psd of an array (traces, channels, bins) is channel by channel the calc_psd of the (traces, bins) array of that channel.", "quantifier": "every set of multi-channel traces, every number of channels, folded or not", "why_tests_cant": "Whether the doubled slice hits channels or frequencies depends on the shape; tests use 1-d and 2-d input.", "anchors": ["qetpy/core/_noise.py:calc_psd"]}
{"id": "C68", "title": "Uncorrelated noise lies between zero and the total noise", "statement": "Whenever calculate_uncorr_noise on a fresh object succeeds, in every channel and bin 0 < uncorrelated noise <= total noise and the correlated noise is not negative.", "quantifier": "every set of multi-channel traces for which the cross spectral density can be inverted", "why_tests_cant": "Needs the Cauchy-Schwarz inequality for the cross spectral density of arbitrary data.", "anchors": ["qetpy/core/_noise.py:Noise.calculate_uncorr_noise", "qetpy/core/_noise.py:Noise.calculate_csd"]}
{"id": "C69", "title": "Correlation coefficients are a symmetric matrix with unit diagonal in [-1,1]", "statement": "calculate_corrcoeff stores for every frequency bin a symmetric matrix with ones on the diagonal and entries between -1 and 1; with a single channel it raises ValueError and stores nothing.", "quantifier": "every set of multi-channel traces whose spectra vary from trace to trace", "why_tests_cant": "An inequality over all data.", "anchors": ["qetpy/core/_noise.py:Noise.calculate_corrcoeff"]}
{"id": "C70", "title": "didv0 of a fit result is the fitted admittance at zero frequency", "statement": "The didv0 entry of a fit result is the value at zero frequency of the admittance with the fitted parameters: 1/A, 1/(A+B) and 1/(A+B/(1-C)) for 1, 2 and 3 poles.", "quantifier": "every fit result with non-degenerate parameters", "why_tests_cant": "The value goes through the small-signal conversion and back; equality for all parameters needs algebra.", "anchors": ["qetpy/core/didv/_didv.py:DIDV._fitresult", "qetpy/core/didv/_base_didv.py:complexadmittance"]}
{"id": "C71", "title": "processtraces works for every number of periods in the trace", "statement": "For traces of at least one whole period with fs/sgfreq an integer, processtraces succeeds: the flat regions of all periods have the same number of samples and can be stacked.", "quantifier": "every integer fs/sgfreq, every trace length", "why_tests_cant": "Depends on rounding of int((i+0.48)*period) for every period index.", "anchors": ["qetpy/core/didv/_base_didv.py:_BaseDIDV.processtraces"]}
{"id": "C72", "title": "An object built from processed data fits the same", "statement": "didvinitfromdata, given the processed data and settings of a DIDV object, returns an object whose dofit gives the same outcome and the same result; the starting object DIDVPriors builds this way uses the same time offset as the object itself.", "quantifier": "every DIDV object that has been processed, every pole number and cutoff", "why_tests_cant": "Quantifies over all data and settings.", "anchors": ["qetpy/core/didv/_didv.py:didvinitfromdata", "qetpy/core/didv/_didv_priors.py:DIDVPriors._guessparams"]}
{"id": "C73", "title": "DIDVPriors minimises the DIDV chi-square plus the prior term, from an allowed start", "statement": "For parameters whose shunt resistance equals the nominal one the function minimised by DIDVPriors.dofit is half the sum of squared residuals that DIDV minimises for the same model plus half of (priors-params)^T priorscov^-1 (priors-params); the starting point takes every non-zero prior, is otherwise the absolute value of the guess, and lies inside the limits when the priors are not negative.", "quantifier": "every data set, priors, covariance and parameter vector", "why_tests_cant": "All parameter vectors.", "anchors": ["qetpy/core/didv/_didv_priors.py:DIDVPriors._fitdidv", "qetpy/core/didv/_didv_priors.py:DIDVPriors.dofit"]}
{"id": "C74", "title": "removeoutliers keeps some entry", "statement": "removeoutliers never rejects every entry of a data vector that has a finite entry.", "quantifier": "every data vector with at least one finite entry", "why_tests_cant": "Claim about every data set; the failing ones are data where the smallest entry is also the median.", "anchors": ["qetpy/cut/_cut.py:removeoutliers"]}
{"id": "C75", "title": "symmetrizedist keeps a histogram symmetric about zero", "statement": "symmetrizedist returns a mask of the length of its argument; the kept values have a histogram symmetric about zero: values above the central bin are kept, and in each bin below the centre as many values are kept as there are in the mirrored bin.", "quantifier": "every data vector and every outcome of the random draws", "why_tests_cant": "Random draws; every data set.", "anchors": ["qetpy/cut/_cut.py:symmetrizedist"]}
{"id": "C76", "title": "IV recovers a noise-free sweep", "statement": "On noise-free data of a resistor in series with the load resistance, IV.calc_iv returns the true current offset and normal resistance, and at every other bias point the true sensor resistance.", "quantifier": "every sweep, every offset, every least-squares fitter", "why_tests_cant": "Holds for every parameter set; tests try a few.", "anchors": ["qetpy/core/_iv.py:IV.calc_iv"]}
{"id": "C77", "title": "IBIS recovers a noise-free sweep", "statement": "On noise-free data of the shunt/parasitic/sensor current divider, IBIS.analyze with superconducting fit returns the true offsets, parasitic and normal resistances, and the true resistance and Joule power at every bias point.", "quantifier": "every sweep, every least-squares fitter", "why_tests_cant": "Holds for every parameter set.", "anchors": ["qetpy/core/_ibis.py:IBIS.analyze"]}
{"id": "C78", "title": "IBIS.analyze works without superconducting data", "statement": "IBIS.analyze(fit_sc=False) returns a result for 1-, 2- and 3-dimensional data with every documented form of rp_guess.", "quantifier": "every accepted shape combination", "why_tests_cant": "Shape dispatch over all combinations.", "anchors": ["qetpy/core/_ibis.py:IBIS.__init__", "qetpy/core/_ibis.py:IBIS.analyze"]}
{"id": "C79", "title": "IBIS offset uncertainties without superconducting data", "statement": "Without superconducting fit the reported uncertainty of the current offset is that of the fitted normal intercept, and the fixed zero bias offset has no uncertainty.", "quantifier": "every fit result", "why_tests_cant": "Wrong propagation gives plausible numbers.", "anchors": ["qetpy/core/_ibis.py:IBIS.analyze"]}
{"id": "C80", "title": "IBIS quantities satisfy the circuit equations", "statement": "The reported currents, resistances and powers satisfy Kirchhoff's law (ibias_true - ites) rshunt = ites (rp + r0), ptes = ites^2 r0, vb = ibias_true rshunt and rnorm + rshunt + rp = rfit.", "quantifier": "every bias point of every analysed sweep", "why_tests_cant": "Algebraic identity over all reals.", "anchors": ["qetpy/core/_ibis.py:IBIS.analyze", "qetpy/core/_ibis.py:IBIS._rtes", "qetpy/core/_ibis.py:IBIS._ptes"]}
{"id": "C81", "title": "dIdV and dIdP solve the linearised TES equations", "statement": "For any applied voltage and power, dIdV*dV + dIdP*dP is the only current that satisfies the linearised electro-thermal equations of the sensor with some temperature, and s_ites is s_vtes times the squared response to a noise voltage that takes its power out of the sensor.", "quantifier": "every parameter set with loop gain not 0 or 1, every frequency, voltage and power", "why_tests_cant": "A physical law over all complex amplitudes.", "anchors": ["qetpy/sim/_sim.py:TESnoise.dIdV", "qetpy/sim/_sim.py:TESnoise.dIdP", "qetpy/sim/_sim.py:TESnoise.s_ites"]}
{"id": "C82", "title": "Every noise method of a superconducting object returns a value", "statement": "The object returned by loadfromdidv for a superconducting sensor can be asked for every noise quantity of the class.", "quantifier": "every fit result, frequency", "why_tests_cant": "All fits, all methods.", "anchors": ["qetpy/sim/_sim.py:loadfromdidv", "qetpy/sim/_sim.py:TESnoise.dIdP", "qetpy/sim/_sim.py:TESnoise.s_itot"]}
{"id": "C83", "title": "The energy resolution estimate", "statement": "The inverse square of energy_res_estimate (in joule) is the trapezoid sum over the frequencies of four times the squared pulse spectrum eff^2/(1+(2 pi f tau)^2) divided by the noise. Hence it is positive, inversely proportional to the collection efficiency, proportional to the square root of the noise power, and never better for a longer collection time.", "quantifier": "every increasing frequency grid, positive PSD, efficiency and time constant", "why_tests_cant": "Monotonicity over all real inputs.", "anchors": ["qetpy/sim/_sim.py:energy_res_estimate"]}
{"id": "C84", "title": "energy_res_estimate accepts one-sided and two-sided PSDs", "statement": "The documented one-sided or two-sided power noise spectra of the same noise give the same resolution.", "quantifier": "every one-sided spectrum and its two-sided counterpart", "why_tests_cant": "Two encodings of the same noise, all spectra.", "anchors": ["qetpy/sim/_sim.py:energy_res_estimate"]}
{"id": "C85", "title": "The constrained fit can return every delay of the window", "statement": "of_nsmb_con returns the best delay of its search window whatever this delay is, zero included.", "quantifier": "every trace, window, template set and constraint vector", "why_tests_cant": "The failure needs the best bin to be bin 0, over all data.", "anchors": ["qetpy/core/_of_nsmb.py:of_nsmb_con", "qetpy/core/_of_nsmb.py:_interpchi2"]}
{"id": "C86", "title": "The N-template fit leaves its arguments unchanged", "statement": "of_nsmb does not modify the index window it is given.", "quantifier": "every window and trace length", "why_tests_cant": "In-place modification for some windows only.", "anchors": ["qetpy/core/_of_nsmb.py:of_nsmb"]}
{"id": "C87", "title": "The interpolated minimum of the constrained fit is no worse and close to the best bin", "statement": "The interpolated chi2 is at most the chi2 of the best bin and the interpolated time is within half a bin of the best delay. Time and chi2 are the vertex of the parabola through the three chi2 values around the best bin, and the interpolated amplitude is the value there of the parabola through the three amplitudes.", "quantifier": "every trace and template set", "why_tests_cant": "All data, all neighbouring chi2 values.", "anchors": ["qetpy/core/_of_nsmb.py:of_nsmb_con", "qetpy/core/_of_nsmb.py:_interpchi2"]}
{"id": "C88", "title": "Extra windows of the constrained fit", "statement": "For every further index window of_nsmb_con returns amplitude, chi2 and time of one of its bins, the best one if there are no constraints; time 0 is the middle of the trace.", "quantifier": "every list of windows, trace, template set", "why_tests_cant": "Minimality over every window.", "anchors": ["qetpy/core/_of_nsmb.py:of_nsmb_con"]}
{"id": "C89", "title": "The signal constraint is accepted in its documented type", "statement": "of_nsmb_con accepts an integer sigpolarityconstraint.", "quantifier": "every integer and input", "why_tests_cant": "Type contract for all inputs.", "anchors": ["qetpy/core/_of_nsmb.py:of_nsmb_con"]}
{"id": "C90", "title": "Number of trigger templates", "statement": "maketemplate_ttlfit_nsmb makes one template for each trigger inside the trace: floor(length*rate/fs).", "quantifier": "every length, sample rate and trigger rate, in floating-point arithmetic", "why_tests_cant": "Two roundings lose a trigger for some parameters only.", "anchors": ["qetpy/core/_of_nsmb.py:maketemplate_ttlfit_nsmb"]}
{"id": "C91", "title": "Slope and dc templates have shift nan", "statement": "The shifts returned by maketemplate_ttlfit_nsmb for slope and dc are nan, as documented and as in get_slope_dc_template_nsmb.", "quantifier": "every input", "why_tests_cant": "Contract over all inputs.", "anchors": ["qetpy/core/_of_nsmb.py:maketemplate_ttlfit_nsmb"]}
{"id": "C92", "title": "Nonlinear fit is not worse than its start", "statement": "With a minimizer that does not increase the cost and stays in its bounds, fit_falltimes reports a chi2 between 0 and the chi2 of the start values, and parameters inside the bounds.", "quantifier": "every pulse, PSD, number of poles, start, bounds", "why_tests_cant": "Depends on the residuals, the bounds and the chi2 being consistent for all inputs.", "anchors": ["qetpy/core/_fitting.py:OFnonlin.fit_falltimes"]}
{"id": "C93", "title": "Bounds of the caller decide which start values the nonlinear fit accepts", "statement": "fit_falltimes accepts every start value strictly inside bounds given by the caller.", "quantifier": "every start, bounds", "why_tests_cant": "Start values of zero or negative sign are rare in tests.", "anchors": ["qetpy/core/_fitting.py:OFnonlin.fit_falltimes"]}
{"id": "C94", "title": "Nonlinear fit finds its own start values", "statement": "Without guess, fit_falltimes starts for every pulse, wherever its maximum lies and whatever the sample rate.", "quantifier": "every pulse, sample rate, number of poles", "why_tests_cant": "Edge positions and particular sample rates.", "anchors": ["qetpy/core/_fitting.py:OFnonlin.fit_falltimes"]}
{"id": "C95", "title": "Start of the muon tail fit", "statement": "fitmuontail is carried out exactly when the signal is not constant and its first sample is not the one closest to (max-min)/e; otherwise it raises ValueError.", "quantifier": "every signal, sample rate", "why_tests_cant": "An equivalence over all signals.", "anchors": ["qetpy/core/_fitting.py:MuonTailFit.fitmuontail"]}
{"id": "C96", "title": "Invalid fit requests are rejected", "statement": "fit_falltimes raises ValueError for an unsupported number of poles, a wrong number of start values, or a missing rise time, and does not depend on earlier calls.", "quantifier": "every number of poles, call history", "why_tests_cant": "State left by earlier calls.", "anchors": ["qetpy/core/_fitting.py:OFnonlin.fit_falltimes", "qetpy/core/_fitting.py:OFnonlin.onepole", "qetpy/core/_fitting.py:OFnonlin.residuals"]}
{"id": "C97", "title": "Pulse models nest and are real", "statement": "A pole of zero amplitude reduces the pulse model to the one with a pole fewer, and every model takes conjugate values at opposite frequencies.", "quantifier": "every parameter, bin", "why_tests_cant": "Identity over all parameters.", "anchors": ["qetpy/core/_fitting.py:OFnonlin.fourpole", "qetpy/core/_fitting.py:OFnonlin.threepole", "qetpy/core/_fitting.py:OFnonlin.twopole", "qetpy/core/_fitting.py:OFnonlin.onepole"]}
{"id": "C98", "title": "Frequency-domain pulses are transforms of the time-domain pulses", "statement": "The unscaled 2-, 3- and 4-pole pulses and the muon tail in the frequency domain are sqrt(df)*exp(-i w t0) times the Fourier integral of the time-domain pulse, which starts at zero (poles) and is sampled and shifted by int(t0*fs).", "quantifier": "every positive time constant, amplitude, bin", "why_tests_cant": "Relates two independently coded formulas through an integral.", "anchors": ["qetpy/core/_fitting.py:OFnonlin.fourpole", "qetpy/core/_fitting.py:OFnonlin.fourpoletime", "qetpy/core/_fitting.py:OFnonlin.threepole", "qetpy/core/_fitting.py:OFnonlin.threepoletime", "qetpy/core/_fitting.py:OFnonlin.twopole", "qetpy/core/_fitting.py:OFnonlin.twopoletime", "qetpy/core/_fitting.py:MuonTailFit.muontailfcn"]}
{"id": "C99", "title": "Shift by a fractional number of bins interpolates linearly", "statement": "shift(arr, k+f) with a whole k and 0<f<1 gives (1-f) times the shift by k plus f times the shift by k+1 where both source samples exist and the fill value elsewhere; the length is kept, whole numbers given as floats shift like integers and a straight line is moved exactly.", "quantifier": "every array, whole number, fraction, fill value", "why_tests_cant": "Holds for every real shift and array length.", "anchors": ["qetpy/utils/_utils.py:shift"]}
{"id": "C100", "title": "Resampling keeps the duration and rate consistent", "statement": "resample_data returns the data at the rate fs*up/down of the factors of resample_factors, covers the same duration up to one sample of the new rate, leaves the data alone if fs is a multiple of sgfreq and refuses fractional rates.", "quantifier": "every trace, positive integer rates", "why_tests_cant": "Unbounded rates and lengths.", "anchors": ["qetpy/utils/_utils.py:resample_data", "qetpy/utils/_utils.py:resample_factors"]}
{"id": "C101", "title": "The low-pass filter is linear, keeps constants and does not overshoot", "statement": "lowpassfilter filters each row on its own, keeps its length, maps affine combinations of traces to the same combinations, keeps constants, stays within the range of the trace for cut-offs up to fs/4, satisfies the first-order Butterworth equation forwards and backwards, and raises ValueError for cut-offs outside (0, fs/2) or traces of at most 6 samples.", "quantifier": "every trace, cut-off, sample rate", "why_tests_cant": "Universal over traces and real frequencies.", "anchors": ["qetpy/utils/_utils.py:lowpassfilter"]}
{"id": "C102", "title": "The cut-off frequency is the 3 dB frequency", "statement": "A sinusoid at the cut-off frequency comes out of lowpassfilter with its power halved.", "quantifier": "every cut-off frequency", "why_tests_cant": "Statement about a frequency response.", "anchors": ["qetpy/utils/_utils.py:lowpassfilter"]}
{"id": "C103", "title": "align_traces finds the shift of best overlap", "statement": "The shift of each trace is the lag at which its filtered, centred beginning overlaps best with that of the first trace; the first trace is not moved; gains and offsets of the traces do not matter; the aligned traces are the traces moved by the shifts with the missing samples masked.", "quantifier": "every set of traces, cut length", "why_tests_cant": "Optimality over all lags and all traces.", "anchors": ["qetpy/utils/_utils.py:align_traces"]}
{"id": "C104", "title": "align_traces uses its filter arguments", "statement": "The cut_off_freq and fs arguments of align_traces set the filter.", "quantifier": "every cut-off, sample rate", "why_tests_cant": "Needs traces that tell the filters apart.", "anchors": ["qetpy/utils/_utils.py:align_traces"]}
{"id": "C105", "title": "Noise objects are built from the traces they are given", "statement": "Noise(traces, sampleRate, channNames, tracegain) raises ValueError for one-dimensional traces or when the number of names differs from the number of channels, and ZeroDivisionError for a zero rate or traces without samples. Otherwise the object holds the traces divided by tracegain, the times given or j/sampleRate, and no results; its PSD falls with the square of tracegain.", "quantifier": "every array of traces, sample rate, list of names, gain, time array", "why_tests_cant": "Quantifies over every shape and gain.", "anchors": ["qetpy/core/_noise.py:Noise.__init__"]}
{"id": "C106", "title": "calculate_csd stores Welch cross spectra", "statement": "With several channels calculate_csd stores for each pair of channels and each bin the mean over the traces of the one-sided Hann-windowed cross spectral density, and in real_csd, imag_csd, real_csd_std, imag_csd_std the means and standard deviations of its parts with negative values filled. The matrix is Hermitian with non-negative diagonal and |csd_ij|^2 <= csd_ii csd_jj. With one channel it raises ValueError and changes nothing.", "quantifier": "every Noise object, pair of channels, bin", "why_tests_cant": "Inequalities and formulas over all traces and bins.", "anchors": ["qetpy/core/_noise.py:Noise.calculate_csd"]}
{"id": "C107", "title": "Real and imaginary noise add up to the PSD", "statement": "calculate_psd stores n/2+1 bins per channel; real_psd and imag_psd are the scaled mean squares of the real and imaginary parts of the traces' Fourier transforms and add up to psd in each bin.", "quantifier": "every Noise object, channel, bin", "why_tests_cant": "Identity over all traces and bins.", "anchors": ["qetpy/core/_noise.py:Noise.calculate_psd"]}
{"id": "C108", "title": "The noise split needs as many traces as channels", "statement": "With fewer traces than channels the cross spectral matrices are singular: calculate_uncorr_noise of an object without csd raises LinAlgError.", "quantifier": "every number of channels and traces, every correct matrix inversion", "why_tests_cant": "Holds for every set of traces; in floating point the failure may be hidden by rounding.", "anchors": ["qetpy/core/_noise.py:Noise.calculate_uncorr_noise"]}
{"id": "C109", "title": "The cost of a dIdV fit is the chi-square of the used bins", "statement": "The least-squares residual of a parameter vector has two entries per frequency bin below fcutoff (|f| < fcutoff), its sum of squares is the chi-square of the documented dV/dI delayed by the time offset, and the stored 'cost' is that chi-square.", "quantifier": "every data set, cutoff, parameter vector of 3, 5 or 7 values, and least-squares routine", "why_tests_cant": "The objective is evaluated inside the optimizer; tests only see the optimum.", "anchors": ["qetpy/core/didv/_didv.py:DIDV._fitdidv", "qetpy/core/didv/_base_didv.py:_BaseDIDV.fitresult"]}
{"id": "C110", "title": "processtraces: what the processed data are", "statement": "After processtraces the time axis, frequencies, kept traces (gain divided out, whole periods only, traces with a vanishing Fourier value dropped), flat indices, mean trace, offset and its error are the documented ones; at a harmonic of the square wave the mean admittance is the DFT of the mean trace over that of the square wave with the standard error of the mean as error, and at every other bin the error is 1e20 (unless the mean trace has no power there).", "quantifier": "every set of raw traces, gain, sampling and signal frequency with a whole number of samples per period, duty cycle, dt0", "why_tests_cant": "Exact values for every trace set and bin.", "anchors": ["qetpy/core/didv/_base_didv.py:_BaseDIDV.processtraces", "qetpy/core/didv/_base_didv.py:_BaseDIDV._deconvolvedidv", "qetpy/core/didv/_base_didv.py:stdcomplex"]}
{"id": "C111", "title": "Noise enters the mean admittance linearly", "statement": "When every trace is the response of a TES circuit plus noise, the mean admittance at an excited harmonic is the admittance of the circuit plus the DFT of the mean noise over the DFT of the square wave.", "quantifier": "every TES circuit of one, two or three poles and every noise", "why_tests_cant": "Universal over noise and parameters.", "anchors": ["qetpy/core/didv/_base_didv.py:_BaseDIDV.processtraces", "qetpy/core/didv/_base_didv.py:squarewaveresponse"]}
{"id": "C112", "title": "A single trace can be fitted", "statement": "dofit works on an object made from one trace.", "quantifier": "every trace, pole number, least-squares routine", "why_tests_cant": "The failure holds for every single trace, not for a particular one.", "anchors": ["qetpy/core/didv/_base_didv.py:_BaseDIDV.processtraces", "qetpy/core/didv/_didv.py:DIDV.dofit", "qetpy/core/didv/_didv.py:DIDV._fitdidv"]}
{"id": "C113", "title": "DIDVPriors.dofit stores the minimum of the likelihood", "statement": "A successful DIDVPriors.dofit(poles) minimises the prior likelihood on the bins below fcutoff from the non-zero priors (else the values of a DIDV fit) within non-negative limits, and fitresult(poles) holds the parameters, covariance, errors, cost, fall times, zero-frequency admittance, priors and prior covariance of that minimum; other pole numbers, and all results after a failed call, are unchanged.", "quantifier": "every data set, prior, covariance, pole number, minimiser", "why_tests_cant": "All objects and minimisers; each result field is derived from the minimiser's answer.", "anchors": ["qetpy/core/didv/_didv_priors.py:DIDVPriors.dofit", "qetpy/core/didv/_didv_priors.py:DIDVPriors._fitdidv", "qetpy/core/didv/_didv_priors.py:DIDVPriors._guessparams"]}
{"id": "C114", "title": "Plots use the time offset of the best fit", "statement": "The plots shift the data by the time offset of the stored fit with the lowest cost, the one with the fewest poles among equals, and by 0 without a fit.", "quantifier": "every combination of stored fits and costs", "why_tests_cant": "Every combination including ties.", "anchors": ["qetpy/core/didv/_plot_didv.py:_PlotDIDV._get_best_time_offset"]}
{"id": "C115", "title": "The stage cuts look at the baseline mean, the pulse amplitude and the fit residual", "statement": "baselinecut applies the outlier algorithm to the mean over the baseline bins (the first tenth of the trace; for dIdV data the bins between 1/4 and 3/8, or 5/16 for fewer than two periods, of the first period) and keeps everything if there is no such bin; pileupcut applies it to the absolute amplitudes, chi2cut to the residual sums, of the best fit of a normalised 10/100 microsecond pulse over all amplitudes and circular delays.", "quantifier": "every list of equally long traces (at least 2 samples), rate, algorithm, nsig", "why_tests_cant": "The optimality is over all amplitudes and delays and holds for all traces.", "anchors": ["qetpy/cut/_cut.py:pileupcut", "qetpy/cut/_cut.py:baselinecut", "qetpy/cut/_cut.py:chi2cut"]}
{"id": "C116", "title": "Cuts do not depend on unit and offset", "statement": "removeoutliers and baselinecut select the same entries after any positive gain and offset, iterstat after any nonzero gain (returning the transformed mean and deviation), pileupcut and chi2cut after any nonzero common gain and any offset of each trace (hence removemeans does not change the pileup mask), and autocuts after any positive gain and offset. False: the polarity does not matter for removeoutliers; pileupcut(removemeans=True) leaves the caller's array unchanged.", "quantifier": "every data set, gain, offset, algorithm, cut settings", "why_tests_cant": "Statement about pairs of data sets and all gains and offsets.", "anchors": ["qetpy/cut/_cut.py:removeoutliers", "qetpy/cut/_cut.py:iterstat", "qetpy/cut/_cut.py:pileupcut", "qetpy/cut/_cut.py:chi2cut", "qetpy/cut/_cut.py:baselinecut", "qetpy/cut/_cut.py:autocuts"]}
{"id": "C117", "title": "Cuts do not depend on the order of the data", "statement": "For every reordering of the data removeoutliers, iterstat, all stage cuts and autocuts flag every entry by the same test of its value (or raise the same exception); equal traces get equal flags.", "quantifier": "every data set and every permutation of it", "why_tests_cant": "All permutations of all data sets.", "anchors": ["qetpy/cut/_cut.py:removeoutliers", "qetpy/cut/_cut.py:iterstat", "qetpy/cut/_cut.py:pileupcut", "qetpy/cut/_cut.py:slopecut", "qetpy/cut/_cut.py:baselinecut", "qetpy/cut/_cut.py:chi2cut", "qetpy/cut/_cut.py:autocuts"]}
{"id": "C118", "title": "What the spectrum plots show", "statement": "plot_psd(lgcoverlay=True) shows one axes with one curve per channel in the order of channames, labelled with the channel's name; with lgcoverlay=False, and in plot_reim_psd, channel i sits alone on the axes reached by counting down the two columns, with its name as title, and a surplus axes is switched off. Each curve shows sqrt(spectrum) against the frequency without the zero bin: w*w equals the stored spectrum, all ordinates are numbers, frequencies are positive and increasing. A plot of something not calculated yet only prints a message. False at the edge: with no channels the subplots raise ValueError.", "quantifier": "every object produced by the constructor (positive rate, nonzero gain, some trace) and any history of calculating calls", "why_tests_cant": "Covers every number of channels, every data set and every history of method calls.", "anchors": ["qetpy/plotting/_noise_plotting.py:plot_psd", "qetpy/plotting/_noise_plotting.py:plot_reim_psd", "qetpy/core/_noise.py:Noise.plot_psd", "qetpy/core/_noise.py:Noise.plot_reim_psd"]}
{"id": "C119", "title": "The correlation plot shows every pair once", "statement": "plot_corrcoeff(lgcsmooth=False) draws exactly one curve per unordered pair of different channels (n(n-1)/2 in all), labelled 'i - j' with the two names, with the stored coefficients without the zero bin.", "quantifier": "every reachable object with correlation coefficients", "why_tests_cant": "All numbers of channels and all data.", "anchors": ["qetpy/plotting/_noise_plotting.py:plot_corrcoeff", "qetpy/core/_noise.py:Noise.plot_corrcoeff"]}
{"id": "C120", "title": "Cross spectra are selected by label", "statement": "plot_csd draws one figure per label, in order, with the real (lgcreal) or imaginary cross spectrum of the two channels named by the label's digits and their names in the title; if any label is not a string, is too short, has a non-digit or names a missing channel, no figure at all is drawn (message, IndexError or ValueError). Every pair of channels below 10 has a label. One call writes one file per label, all different. False: every pair of channels can be drawn (a channel number of 10 or more cannot be named); the file name identifies the pair and the part (it only holds the position in the list).", "quantifier": "every reachable object with cross spectra, every list of labels", "why_tests_cant": "All label lists and all channel counts, including more than ten channels.", "anchors": ["qetpy/plotting/_noise_plotting.py:plot_csd", "qetpy/core/_noise.py:Noise.plot_csd"]}
{"id": "C121", "title": "compare_noise", "statement": "compare_noise plots each requested channel's spectrum of every object having that channel. False of Noise objects: the function reads the attribute chann_dict which the class does not define (its dictionary is chandict), so whenever some requested channel exists the call raises AttributeError before any figure is shown or saved. Names no object has only give a message. If the dictionary is supplied under the expected name, every requested channel gets one figure titled with the channel and one curve per object that has it (the power spectrum under the object's name, or the de-correlated one under name + ' Decorrelated Noise'), saved as savepath + channel + '_PSD_comparison.png' when asked for; and the dictionary maps a name to the last channel with that name.", "quantifier": "every list of objects, every list of channel names", "why_tests_cant": "Exhibits a failure for all inputs, and the behaviour of the repaired attribute for all inputs.", "anchors": ["qetpy/plotting/_noise_plotting.py:compare_noise", "qetpy/core/_noise.py:Noise.__init__"]}
{"id": "C122", "title": "De-correlated noise plots", "statement": "plot_decorrelatednoise with lgcoverlay=True shows the uncorrelated noise of every channel (the four flags are ignored); with lgcoverlay=False each channel's axes holds, in this order and only if its flag is set, 'Data' (diagonal of the real cross spectrum), 'Uncorrelated Noise', 'Correlated Noise' and 'Total Noise' (sum of the two). After a successful calculate_uncorr_noise the total equals the spectrum drawn as 'Data'.", "quantifier": "every reachable object with de-correlated noise, all flags", "why_tests_cant": "All data, channel counts and flags.", "anchors": ["qetpy/plotting/_noise_plotting.py:plot_decorrelatednoise", "qetpy/core/_noise.py:Noise.plot_decorrelatednoise", "qetpy/core/_noise.py:Noise.calculate_uncorr_noise"]}
{"id": "C123", "title": "Saving figures", "statement": "Whether and where a noise plot is saved, and whether saving fails, changes neither the figures shown nor the outcome; no exception of saving escapes. When saving is asked for, every figure shown has just been saved or its failure has just been reported with a message; otherwise no file and no such message. A saved figure of plot_psd or plot_reim_psd is the one file savepath + name (spaces to underscores) + suffix. False: the method Noise.plot_reim_psd saves when asked; it never writes a file.", "quantifier": "every object, save path, name and file system behaviour", "why_tests_cant": "All combinations of file system outcomes and arguments.", "anchors": ["qetpy/plotting/_noise_plotting.py:plot_psd", "qetpy/plotting/_noise_plotting.py:plot_reim_psd", "qetpy/plotting/_noise_plotting.py:plot_corrcoeff", "qetpy/plotting/_noise_plotting.py:plot_csd", "qetpy/plotting/_noise_plotting.py:plot_decorrelatednoise", "qetpy/core/_noise.py:Noise.plot_reim_psd"]}
{"id": "C124", "title": "Where Noise.save writes", "statement": "Noise.save writes to directory + '/' + name (spaces to underscores) + '.pkl', the slash being added only when missing; an empty path raises IndexError and an unnamed object AttributeError. Replacing spaces keeps the length and leaves names without spaces alone.", "quantifier": "every path and name", "why_tests_cant": "All strings.", "anchors": ["qetpy/core/_noise.py:Noise.save"]}
{"id": "C125", "title": "What the IV, resistance and power plots show", "statement": "plot_iv, plot_rv and plot_pv (and the IBIS versions) draw, for every chosen temperature and channel in the order of the choice, one group of points, line and error bars with its own colour: bias voltage in microvolt against current in microampere, resistance in milliohm or power in picowatt, missing values left out, horizontal errors only for IBIS. The legend names the channel, and the temperature if there are several; different ones have different entries. Negative choices count from the end; a choice that does not exist raises IndexError and nothing is drawn. Before the analysis plot_iv raises TypeError, plot_rv and plot_pv AttributeError; after calc_iv or analyze all three work.", "quantifier": "every object, selection of temperatures and channels and flag", "why_tests_cant": "Covers all numbers of temperatures and channels, all selections and all data.", "anchors": ["qetpy/plotting/_iv_plotting.py:plot_iv", "qetpy/plotting/_iv_plotting.py:plot_rv", "qetpy/plotting/_iv_plotting.py:plot_pv", "qetpy/plotting/_ibis_plotting.py:_plot_iv", "qetpy/plotting/_ibis_plotting.py:_plot_rv", "qetpy/plotting/_ibis_plotting.py:_plot_pv"]}
{"id": "C126", "title": "The fit line of the IV plot", "statement": "plot_iv(showfit=True) adds to each channel ten points on the line through the origin with slope 1/rfit, reaching from the origin to the farthest bias point. False of channels with nan padding: argmax picks the nan, so the line is drawn to the smallest bias instead (bias points 2, 1, nan give the line from 1 to 0).", "quantifier": "every analysed object with at least one bias point", "why_tests_cant": "All data, positive and negative bias; and a counterexample.", "anchors": ["qetpy/plotting/_iv_plotting.py:plot_iv", "qetpy/plotting/_ibis_plotting.py:_plot_iv"]}
{"id": "C127", "title": "Saving the IV plots", "statement": "With lgcsave=True the functions write the figure they would return to savepath + iv_curve_/rv_curve_/pv_curve_ + savename + .png and return None; plot_all_curves writes the three files; an exception of savefig escapes. False: the methods plot_iv, plot_rv and plot_pv of IV and IBIS save figures; they write the file and then raise TypeError, since they unpack the None.", "quantifier": "every analysed object, path and name", "why_tests_cant": "All arguments and file system outcomes.", "anchors": ["qetpy/plotting/_iv_plotting.py:plot_iv", "qetpy/plotting/_iv_plotting.py:plot_rv", "qetpy/plotting/_iv_plotting.py:plot_pv", "qetpy/plotting/_ibis_plotting.py:_plot_iv", "qetpy/plotting/_ibis_plotting.py:_plot_rv", "qetpy/plotting/_ibis_plotting.py:_plot_pv", "qetpy/plotting/_iv_plotting.py:plot_all_curves", "qetpy/plotting/_ibis_plotting.py:_plot_all_curves", "qetpy/core/_iv.py:IV.plot_iv", "qetpy/core/_iv.py:IV.plot_rv", "qetpy/core/_iv.py:IV.plot_pv", "qetpy/core/_ibis.py:IBIS.plot_iv", "qetpy/core/_ibis.py:IBIS.plot_rv", "qetpy/core/_ibis.py:IBIS.plot_pv"]}
{"id": "C128", "title": "The three IV plots agree", "statement": "The current, resistance and power plots of one analysed IV object (IBIS object analysed without given offsets) show the same legend entries and the same bias voltages, and in the drawn units power = current^2 * resistance / 1000 at every point that all three show with non-zero current. Each drawn value and error bar is the analysed one in its unit and is left out exactly where a measured input of it is missing.", "quantifier": "every analysed object and selection", "why_tests_cant": "A relation between three figures over all data.", "anchors": ["qetpy/plotting/_iv_plotting.py:plot_iv", "qetpy/plotting/_iv_plotting.py:plot_rv", "qetpy/plotting/_iv_plotting.py:plot_pv", "qetpy/plotting/_ibis_plotting.py:_plot_iv", "qetpy/plotting/_ibis_plotting.py:_plot_rv", "qetpy/plotting/_ibis_plotting.py:_plot_pv", "qetpy/core/_iv.py:IV.calc_iv", "qetpy/core/_ibis.py:IBIS.analyze"]}
{"id": "C129", "title": "What plot_noise_sim shows", "statement": "plot_noise_sim draws over all frequencies but the first the square roots of the simulated noise parts (TES Johnson, load, thermal fluctuation, SQUID; those of the state for 'sc' and 'normal'), of their total and of the measured PSD, with these legend entries; for 'power' the data are divided by |dIdP| like the simulation.", "quantifier": "every TESnoise object with non-negative temperatures and resistances (and, for the transition plots, a transition operating point), every frequency axis and PSD of one length", "why_tests_cant": "All parameters and data.", "anchors": ["qetpy/plotting/_noise_plotting.py:plot_noise_sim", "qetpy/plotting/_noise_plotting.py:_plot_ti_noise", "qetpy/plotting/_noise_plotting.py:_plot_tp_noise", "qetpy/plotting/_noise_plotting.py:_plot_sc_noise", "qetpy/plotting/_noise_plotting.py:_plot_n_noise"]}
{"id": "C130", "title": "The total of plot_noise_sim is the quadratic sum of its parts", "statement": "In every figure returned or saved, at every frequency the square of the curve Total Noise is the sum of the squares of the other simulated curves; and every curve of the power plot, including the data, times |dIdP| is the curve of the current plot with the same label.", "quantifier": "every figure of plot_noise_sim with the conditions of C129", "why_tests_cant": "Relations between drawn curves and between two figures.", "anchors": ["qetpy/plotting/_noise_plotting.py:plot_noise_sim", "qetpy/plotting/_noise_plotting.py:_plot_ti_noise", "qetpy/plotting/_noise_plotting.py:_plot_tp_noise", "qetpy/plotting/_noise_plotting.py:_plot_sc_noise", "qetpy/plotting/_noise_plotting.py:_plot_n_noise"]}
{"id": "C131", "title": "Saving and exceptions of plot_noise_sim", "statement": "With lgcsave the call returns None and writes the same figure to exactly one file, named after the type and the bias; otherwise it writes none and returns the figure. Without a transition operating point the transition plots raise ZeroDivisionError; arrays of different lengths raise ValueError. False for the power plot and a PSD of two bins: its second bin is drawn at every frequency.", "quantifier": "every argument", "why_tests_cant": "All arguments; and a counterexample.", "anchors": ["qetpy/plotting/_noise_plotting.py:plot_noise_sim", "qetpy/plotting/_noise_plotting.py:_plot_ti_noise", "qetpy/plotting/_noise_plotting.py:_plot_tp_noise", "qetpy/plotting/_noise_plotting.py:_plot_sc_noise", "qetpy/plotting/_noise_plotting.py:_plot_n_noise"]}
{"id": "C132", "title": "plot_noise_sim and the simulation object", "statement": "plot_noise_sim does not change the sensor parameters of the object, and for 'sc' and 'normal' nothing of it. False: it leaves the object unchanged; the transition plots replace its frequencies by those of the PSD without the first, also when they raise.", "quantifier": "every argument", "why_tests_cant": "Side effects on the caller's object are not looked at in tests of figures.", "anchors": ["qetpy/plotting/_noise_plotting.py:plot_noise_sim", "qetpy/plotting/_noise_plotting.py:_plot_ti_noise", "qetpy/plotting/_noise_plotting.py:_plot_tp_noise", "qetpy/plotting/_noise_plotting.py:_plot_sc_noise", "qetpy/plotting/_noise_plotting.py:_plot_n_noise"]}
{"id": "C133", "title": "The type argument of plot_noise_sim", "statement": "Claimed: istype selects the plot by its text, other texts are rejected. False: the text is compared by identity, so a computed string with the right text, like any other string, gives no figure, no file and no exception.", "quantifier": "every argument", "why_tests_cant": "Literals in a test are interned, so the comparison succeeds there.", "anchors": ["qetpy/plotting/_noise_plotting.py:plot_noise_sim", "qetpy/plotting/_noise_plotting.py:_plot_ti_noise", "qetpy/plotting/_noise_plotting.py:_plot_tp_noise", "qetpy/plotting/_noise_plotting.py:_plot_sc_noise", "qetpy/plotting/_noise_plotting.py:_plot_n_noise"]}
{"id": "C134", "title": "Plotting a superconducting object", "statement": "A TESnoise object loaded from a dIdV fit as superconducting can be plotted with 'sc'; 'current' and 'power' raise ZeroDivisionError.", "quantifier": "every fit result that loads, every frequency axis and PSD of one length", "why_tests_cant": "All fits and data.", "anchors": ["qetpy/plotting/_noise_plotting.py:plot_noise_sim", "qetpy/plotting/_noise_plotting.py:_plot_ti_noise", "qetpy/plotting/_noise_plotting.py:_plot_tp_noise", "qetpy/plotting/_noise_plotting.py:_plot_sc_noise", "qetpy/plotting/_noise_plotting.py:_plot_n_noise", "qetpy/sim/_sim.py:loadfromdidv"]}
{"id": "C135", "title": "The noise sources of TESnoise", "statement": "The current noise of the load is 4kTR of the load times |dIdV|^2, that of the sensor 4kTcR0(1+beta)^2 times |dIdV - i0 dIdP|^2, the thermal fluctuation noise 4kTc^2 G F times |dIdP|^2, likewise in the normal and superconducting state with their admittances. Integrated over all frequencies the load noise of the superconducting state is kT/L (equipartition), that of the normal state kT/L with the mean temperature weighted by the resistances. The factor F has the ballistic or diffusive formula, is 1 in equilibrium, 1/2 or n/(2n+1) for a cold bath, and the diffusive one lies between (Tb/Tc)^(n+1) and 1.", "quantifier": "all sensor parameters, frequencies and temperatures", "why_tests_cant": "Integrals over all frequencies and all parameters; constants and exponents are visible only in absolute values.", "anchors": ["qetpy/sim/_sim.py:TESnoise.s_vload", "qetpy/sim/_sim.py:TESnoise.s_iload", "qetpy/sim/_sim.py:TESnoise.s_vtes", "qetpy/sim/_sim.py:TESnoise.s_ites", "qetpy/sim/_sim.py:TESnoise.s_ptfn", "qetpy/sim/_sim.py:TESnoise.s_itfn", "qetpy/sim/_sim.py:TESnoise.s_iloadnormal", "qetpy/sim/_sim.py:TESnoise.s_vtesnormal", "qetpy/sim/_sim.py:TESnoise.s_itesnormal", "qetpy/sim/_sim.py:TESnoise.s_iloadsc", "qetpy/sim/_sim.py:TESnoise.__init__"]}
{"id": "C136", "title": "The SQUID noise of TESnoise", "statement": "s_isquid is (squiddc (1 + (squidpole/f)^squidn))^2: above the floor squiddc^2, strictly falling with frequency towards the floor, and four times the floor at the pole.", "quantifier": "every positive pole and exponent, non-zero floor and positive frequencies", "why_tests_cant": "All frequencies, including the limit.", "anchors": ["qetpy/sim/_sim.py:TESnoise.s_isquid"]}
{"id": "C137", "title": "What the constructors of IV and IBIS accept", "statement": "The constructors accept data of one to three axes with as many channel names as channels, other arrays of the same size and a resistance that is a number or an array over channels, over temperatures and channels, or over all axes; IBIS with fitsc also needs scinds. Anything else raises ValueError.", "quantifier": "all arrays, resistances whose error has the same form, numbers of names and index lists", "why_tests_cant": "All shapes and sizes.", "anchors": ["qetpy/core/_iv.py:IV.__init__", "qetpy/core/_ibis.py:IBIS.__init__"]}
{"id": "C138", "title": "Resistances of IBIS and their uncertainties", "statement": "analyze reports rfit = rsh/slope_n and rp = rsh/slope_sc - rsh (or the given parasitic resistance), the uncertainties of the two currents by propagation of those of the data and the offset, and the uncertainties of rp and rnorm by propagation of those of the fits and the shunt.", "quantifier": "every data set, fitter and channel on which analyze succeeds", "why_tests_cant": "Uncertainties of derived quantities for all inputs; correlations through the shunt.", "anchors": ["qetpy/core/_ibis.py:IBIS.analyze"]}
{"id": "C139", "title": "Given offset arrays and the circuit equations of IBIS", "statement": "With offsets given as arrays, the reported currents, resistances and powers satisfy Kirchhoff's and Joule's laws at every bias point.", "quantifier": "every data set, fitter, channel and bias point on which analyze succeeds", "why_tests_cant": "All bias points and offset arrays; the documented floats fail before (C43).", "anchors": ["qetpy/core/_ibis.py:IBIS.analyze", "qetpy/core/_ibis.py:IBIS._rtes", "qetpy/core/_ibis.py:IBIS._ptes"]}
{"id": "C140", "title": "What the time domain dIdV plots show", "statement": "plot_full_trace, plot_single_period_of_trace and plot_zoomed_in_trace draw one figure with the mean trace minus its offset (in uA against us, labelled 'Mean') and, for each stored fit that is asked for, in the order one, two, three poles, the square wave response of that fit with its own time offset. The full plot spans the whole time axis, the single-period plot one period from its start, the zoomed plot zoomfactor periods centred on half a period plus the offset of the best fit. The figure is saved under the documented name or shown, never both.", "quantifier": "every processed object whose fits carry the arguments of their model, every pole selection, save flag, path and name", "why_tests_cant": "All objects, selections and zoom factors.", "anchors": ["qetpy/core/didv/_plot_didv.py:_PlotDIDV.plot_full_trace", "qetpy/core/didv/_plot_didv.py:_PlotDIDV.plot_single_period_of_trace", "qetpy/core/didv/_plot_didv.py:_PlotDIDV.plot_zoomed_in_trace", "qetpy/core/didv/_plot_didv.py:_PlotDIDV._plot_time_domain"]}
{"id": "C141", "title": "The flipped trace", "statement": "plot_didv_flipped adds to the time domain plot the negated mean trace moved by half a period. If the mean trace (minus its offset) changes sign under a shift by half a period, the flipped curve coincides with the mean point by point.", "quantifier": "every processed object whose fits carry the arguments of their model, every pole selection, save flag, path and name", "why_tests_cant": "All traces with that symmetry, all lengths.", "anchors": ["qetpy/core/didv/_plot_didv.py:_PlotDIDV.plot_didv_flipped"]}
{"id": "C142", "title": "What the frequency domain dIdV plots show", "statement": "plot_re_im_didv and plot_abs_phase_didv draw two figures. Each shows, for exactly the bins of positive frequency whose mean exceeds twice its error, the real part (imaginary part, magnitude, phase) of the mean undone by the offset of the best fit, two bounding lines, and each stored fit that is asked for at all positive frequencies without its own offset. The frequency axis spans the positive frequencies; the limits of the real and imaginary figure just hold the points below 100 kHz, the magnitude runs from 0 to the largest of them, the phase from -pi to pi.", "quantifier": "every processed object whose fits carry the arguments of their model, every pole selection, save flag, path and name, with a significant bin below 100 kHz", "why_tests_cant": "All spectra and errors.", "anchors": ["qetpy/core/didv/_plot_didv.py:_PlotDIDV.plot_re_im_didv", "qetpy/core/didv/_plot_didv.py:_PlotDIDV.plot_abs_phase_didv", "qetpy/core/didv/_plot_didv.py:_PlotDIDV._plot_freq_domain"]}
{"id": "C143", "title": "The four frequency plots agree", "statement": "The k-th point of the real, imaginary, magnitude and phase plot has the same positive frequency, positive magnitude, a phase in (-pi, pi], and re = m cos(phase), im = m sin(phase).", "quantifier": "every processed object whose fits carry the arguments of their model, every pole selection, save flag, path and name", "why_tests_cant": "All points of all spectra.", "anchors": ["qetpy/core/didv/_plot_didv.py:_PlotDIDV.plot_re_im_didv", "qetpy/core/didv/_plot_didv.py:_PlotDIDV.plot_abs_phase_didv"]}
{"id": "C144", "title": "Data that follow the best fit lie on its curve", "statement": "If the measured admittance equals the model of the fit of lowest cost, including its time offset, and that fit is drawn, then every data point of the real, imaginary, magnitude, phase and impedance plot lies on the drawn curve of that fit.", "quantifier": "every processed object whose fits carry the arguments of their model, every pole selection, save flag, path and name, impedances nonzero for the impedance plot", "why_tests_cant": "All spectra, parameters and offsets.", "anchors": ["qetpy/core/didv/_plot_didv.py:_PlotDIDV._plot_freq_domain", "qetpy/core/didv/_plot_didv.py:_PlotDIDV.plot_re_vs_im_dvdi", "qetpy/core/didv/_plot_didv.py:_PlotDIDV._get_best_time_offset"]}
{"id": "C145", "title": "The impedance plot", "statement": "plot_re_vs_im_dvdi draws the imaginary against the real part of the impedance 1/(dI/dV) for the same bins, and of the fits that are drawn. Its k-th point is the reciprocal of the complex number whose parts are the k-th points of the real and imaginary admittance plots.", "quantifier": "every processed object whose fits carry the arguments of their model, every pole selection, save flag, path and name with nonzero impedances", "why_tests_cant": "All spectra and parameters.", "anchors": ["qetpy/core/didv/_plot_didv.py:_PlotDIDV.plot_re_vs_im_dvdi"]}
{"id": "C146", "title": "Failing dIdV plots leave no figure", "statement": "Before processtraces every plot raises TypeError. Without a significant bin below 100 kHz, with all traces cut, or with spectra of different lengths the frequency plots raise ValueError. In all these cases nothing is saved or shown.", "quantifier": "every object in that state and all arguments", "why_tests_cant": "Covers every state of the object.", "anchors": ["qetpy/core/didv/_plot_didv.py:_PlotDIDV"]}
{"id": "C147", "title": "Objects made by the API can be plotted", "statement": "After the constructor (or didvinitfromdata with arrays of one length, at least two) and any sequence of processtraces, dofit and calls raising exceptions, and after any sequence of DIDVPriors.dofit, each stored fit carries all arguments of its model, and the processed arrays have matching lengths: the conditions of the other plot properties hold.", "quantifier": "every history of calls, every optimizer", "why_tests_cant": "All histories.", "anchors": ["qetpy/core/didv/_didv.py:DIDV", "qetpy/core/didv/_plot_didv.py:_PlotDIDV._plot_time_domain", "qetpy/core/didv/_didv_priors.py:DIDVPriors.dofit"]}
{"id": "C148", "title": "The bounds in the frequency plots", "statement": "The two lines drawn with the real (imaginary) part lie one error of the real (imaginary) part above and below the mean.", "quantifier": "every processed object whose fits carry the arguments of their model, every pole selection, save flag, path and name", "why_tests_cant": "All offsets and errors; needs a nonzero fitted offset.", "anchors": ["qetpy/core/didv/_plot_didv.py:_PlotDIDV._plot_freq_domain"]}
{"id": "C149", "title": "What fit_falltimes works with and reports", "statement": "The minimizer gets the whitened residuals of data in units of the psd, the documented order of parameters, the start values (given, or taken from the maximum of the trace or template as documented), the given bounds or the documented ones (a factor of 100 for amplitudes, 10 for time constants, 30 samples for the start time), and the start values as scales. Reported are its parameters and success flag, the pseudo-inverse of J^T J as covariance, and the roots of its diagonal as errors. The stored rise time changes only by a one-pole fit with a rise time.", "quantifier": "every minimizer, pseudo-inverse, trace, spectrum, number of poles, guess and bounds", "why_tests_cant": "All inputs and all minimizers.", "anchors": ["qetpy/core/_fitting.py:OFnonlin.fit_falltimes", "qetpy/core/_fitting.py:OFnonlin.residuals", "qetpy/core/_fitting.py:OFnonlin.__init__"]}
{"id": "C150", "title": "plotnsmb draws the data, the fit and its parts", "statement": "For two or more backgrounds and a delay by a whole number of bins, the figure of plotnsmb has, in this order: the data (and, with a low-pass frequency, the filtered data before it), the sum of the delayed signal and the backgrounds with its chi2 against the data in the label, each background but the last two with the last two (slope and offset) added, and the signal with the last two added if its amplitude exceeds 1e-20 in size. These parts add up to the fit. Vertical lines stand at the given shifts, one per background. The file is written only if lgcsaveplots is not False or 0, under savepath + figPrefix + lgcsaveplots + '.png'. A low-pass frequency outside (0, fs/2) or a trace of at most six bins raises ValueError; fewer shifts than backgrounds raise IndexError.", "quantifier": "every trace, amplitudes, delay in bins, number of templates, and optional argument", "why_tests_cant": "All inputs; existing tests do not look at figures.", "anchors": ["qetpy/plotting/_of_nsmb_plotting.py:plotnsmb"]}
{"id": "C151", "title": "A fit with lgcplot=True returns and draws the same result", "statement": "of_nsmb, of_nsmb_con and of_mb called with lgcplot=True return what they return without it; the drawn fit is the trace minus the returned residual, and the chi2 in its label is the returned one. The background-only figure has no signal curve. Files are ./scFit<n>.png and ./bcFit<n>.png.", "quantifier": "every set of templates, spectrum, trace and window", "why_tests_cant": "All inputs; the tests never plot.", "anchors": ["qetpy/core/_of_nsmb.py:of_nsmb", "qetpy/core/_of_nsmb.py:of_nsmb_con", "qetpy/core/_of_nsmb.py:of_mb", "qetpy/plotting/_of_nsmb_plotting.py:plotnsmb"]}
{"id": "C152", "title": "plotnonlin draws the data, the fitted pulse and the fitted parameters", "statement": "For a trace of the length of the spectrum and positive fit parameters with different rise and fall times, plotnonlin draws: over the bins 1 to (n-1)/2, the sizes of the transformed trace and of the fitted pulse and the noise level; over all times in ms, the trace without its baseline and the fitted pulse, a sum of exponentials delayed by int(t0*fs) samples (of height A if the amplitude is scaled). The legend shows each fitted parameter once with its error, amplitudes in microampere, time constants in microseconds, the start time in ms, and the title names the number of poles. Parameters or errors of the wrong number raise ValueError, a missing rise time raises TypeError.", "quantifier": "every trace, parameters, errors, number of poles, sampling rate and length", "why_tests_cant": "All inputs; existing tests do not look at figures.", "anchors": ["qetpy/plotting/_fitting_plotting.py:plotnonlin"]}
{"id": "C153", "title": "plotnonlin removes the baseline and shows the pulse", "statement": "The drawn trace is the trace minus the mean of its samples up to 1000 samples before the pulse; for a pulse within the first 1000 samples, minus the mean of the samples from 9000 after the start of the pulse on. The zoomed axes show the samples from five rise times before the start of the pulse to seven fall times after it (nine for three or four poles), of both curves.", "quantifier": "every trace, parameters, sampling rate and length", "why_tests_cant": "Depends on the position of the pulse in the trace; existing tests do not look at figures.", "anchors": ["qetpy/plotting/_fitting_plotting.py:plotnonlin"]}
{"id": "C154", "title": "fit_falltimes with lgcplot=True is the same fit", "statement": "fit_falltimes with lgcplot=True and positive sampling rate returns the same parameters, errors, covariance, chi2 and success flag, leaves the same rise time on the object and raises the same exceptions as without plot; a successful fit is always drawn, with the transformed trace, the fitted parameters and the noise level of that call.", "quantifier": "every spectrum, trace, template, start values, bounds and number of poles", "why_tests_cant": "All inputs; the tests never plot.", "anchors": ["qetpy/core/_fitting.py:OFnonlin.fit_falltimes", "qetpy/plotting/_fitting_plotting.py:plotnonlin"]}
