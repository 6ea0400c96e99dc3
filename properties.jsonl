{"id": "C01", "title": "Cut fields own disjoint bits after any history", "statement": "However boolean and categorical cut fields are registered and unregistered, every registered field owns at least one of the 32 per-pulse bits, no two fields share a bit, and every owned bit is set in the persisted 'used bits' word. While all names have at most 64 bytes the word is exactly the union of the registered fields' bits; with longer names it need not be, because stored names are cut to 64 bytes and bits leak. Calls that raise leave the registry as it was.", "quantifier": "every finite sequence of register/unregister calls with arbitrary names and category lists, including calls that fail because no bit is free", "why_tests_cant": "the set of call histories is unbounded; fragmentation of the free bits depends on the whole history", "anchors": ["mass/core/cut.py:CutFieldMixin.register_boolean_cut_fields", "mass/core/cut.py:CutFieldMixin.unregister_boolean_cut_fields", "mass/core/cut.py:CutFieldMixin.register_categorical_cut_field", "mass/core/cut.py:CutFieldMixin.unregister_categorical_cut_field"]}
{"id": "C02", "title": "A boolean cut touches only its own field", "statement": "Cuts.cut(name, mask) on a boolean field marks exactly the pulses in mask as bad for that field (in addition to those already bad), and changes neither the verdict of any other boolean field nor the category of any pulse in any categorical field.", "quantifier": "every reachable registry, every pulse mask word, every boolean vector", "why_tests_cant": "requires all registries and all 2^32 mask words per pulse", "anchors": ["mass/core/cut.py:Cuts.cut", "mass/core/cut.py:Cuts.good", "mass/core/cut.py:Cuts.bad", "mass/core/cut.py:Cuts.category_codes"]}
{"id": "C03", "title": "good() and bad() are complementary", "statement": "For any selection of boolean fields, with or without a category restriction, every pulse inside the selected categories is in exactly one of good(...) and bad(...), and a pulse outside them is in neither.", "quantifier": "every registry, every field selection, every category restriction and every mask word", "why_tests_cant": "all field subsets and mask words", "anchors": ["mass/core/cut.py:Cuts.good", "mass/core/cut.py:Cuts.bad", "mass/core/cut.py:Cuts.select_category"]}
{"id": "C04", "title": "Categorical assignment reads back", "statement": "After Cuts.cut_categorical(field, {category: mask}) succeeds on a field no boolean field shares its name with, selecting a category returns exactly the pulses that were assigned to it, unassigned pulses belong to the default category, and no other field's bits change. The call succeeds whenever the categories are known, the masks have the right length and no pulse is assigned twice. If a boolean field has the same name, the assignment can be lost.", "quantifier": "every reachable registry (including fragmented bit layouts), every list of categories, every assignment", "why_tests_cant": "bit layouts depend on the registration history", "anchors": ["mass/core/cut.py:Cuts.cut_categorical", "mass/core/cut.py:Cuts.select_category", "mass/core/cut.py:CutFieldMixin.register_categorical_cut_field"]}
{"id": "C05", "title": "Clearing cuts never touches categories", "statement": "Cuts.clear_cut(names) makes every pulse good for the named boolean fields (all of them when no name is given), leaves all other boolean fields and every categorical assignment unchanged, and clearing twice equals clearing once.", "quantifier": "every reachable registry, name list and mask word", "why_tests_cant": "all layouts and mask words", "anchors": ["mass/core/cut.py:Cuts.clear_cut", "mass/core/cut.py:Cuts._boolean_fields_bit_mask"]}
{"id": "C06", "title": "cut_parameter keeps exactly the allowed range", "statement": "cut_parameter(data,(a,b),field) marks as bad exactly the values at or beyond a limit; a missing limit marks nothing and NaN is never marked, so for numbers these are exactly the values that fail a < x < b. A list of ranges marks exactly the values in none of the closed ranges (or, with 'invert', in at least one), NaN being in none; a range without limits raises if it comes first and is ignored otherwise. Widening an allowed range never marks more pulses.", "quantifier": "every data vector (including infinities and NaN) and all limits, including zero and missing limits", "why_tests_cant": "limits equal to zero take a different code path; NaN ordering", "anchors": ["mass/core/cut.py:Cuts.cut_parameter"]}
{"id": "C07", "title": "A newly registered cut field starts with no pulse cut", "statement": "Immediately after a new boolean field is registered every pulse is good for that field, provided earlier fields were unregistered only while no pulse was cut by them (or, for categorical fields, while all pulses had code 0). Without that condition it is false: the bits of an unregistered field stay set and are inherited.", "quantifier": "every history of registering, cutting and unregistering", "why_tests_cant": "needs a history in which a bit is reused", "anchors": ["mass/core/cut.py:CutFieldMixin.register_boolean_cut_fields", "mass/core/cut.py:CutFieldMixin.unregister_boolean_cut_fields", "mass/core/cut.py:Cuts.cut"]}
{"id": "C08", "title": "Interrupted registration leaves a consistent registry", "statement": "If the process dies between the separate attribute writes of a call, the registry found on reopening still gives disjoint bits to fields. Deaths anywhere but between the descriptions and the used word of a registration are harmless for ever after. Deaths in registrations of boolean fields never make fields overlap until a categorical field is registered; a categorical registration after such a death can overlap another field.", "quantifier": "every crash point of every registration call", "why_tests_cant": "tests do not kill the process between two HDF5 attribute writes", "anchors": ["mass/core/cut.py:CutFieldMixin.register_boolean_cut_fields", "mass/core/cut.py:CutFieldMixin.register_categorical_cut_field"]}
{"id": "C09", "title": "Nearest trigger times", "statement": "nearest_arrivals(pulse times, sorted trigger times) returns for each pulse the time since the latest trigger at or before it and the time until the earliest trigger after it (with the maximum value when there is none), for no trigger and for two or more triggers. With one trigger this holds for pulses after it, and every other pulse gets the maximum value and 0. The pure Python version agrees when no pulse coincides with a trigger, and not otherwise.", "quantifier": "all sorted pulse and trigger lists of any length, ties included", "why_tests_cant": "boundary cases: one trigger, none before, none after, ties", "anchors": ["mass/core/analysis_algorithms.pyx:nearest_arrivals", "mass/core/analysis_algorithms.pyx:python_nearest_arrivals"]}
{"id": "C10", "title": "Fast post-peak derivative equals the reference", "statement": "compute_max_deriv (the optimised sliding computation) returns the same value as the direct definition: the largest of the five-point/ seven-point derivative estimates over the record after the ignored samples, with the spike-rejection rule.", "quantifier": "all records of any length for which the routine is defined", "why_tests_cant": "sliding-window bookkeeping over every length and content", "anchors": ["mass/core/analysis_algorithms.pyx:compute_max_deriv", "mass/core/analysis_algorithms.pyx:python_compute_max_deriv"]}
{"id": "C11", "title": "Sliding five-lag filter equals five dot products", "statement": "filter_data computes, for each record, the five lagged dot products of a 5-lag filter and the record and returns the vertex (position and height) of their least-squares parabola, whichever of the two implementations is used. The Python implementation applies a requested transform to the pretrigger-subtracted record first; the default Cython implementation ignores it.", "quantifier": "all records and filters of matching length", "why_tests_cant": "index bookkeeping for all lengths", "anchors": ["mass/core/analysis_algorithms.pyx:filter_data_5lag_cython", "mass/core/channel.py:MicrocalDataSet._filter_data_segment_5lag"]}
{"id": "C12", "title": "Flux-jump correction is exact modulo the quantum", "statement": "correct_flux_jumps changes each value only by an integer number of flux quanta, never changes the first value, and returns values that lie within one quantum; values that span less than one quantum are returned unchanged. If the values span at least one quantum and the good values are a baseline varying by less than a quarter quantum plus whole quanta, the corrected good values differ exactly like the baseline. It raises only for no values, a mask of another length, or no good value.", "quantifier": "all value sequences and good masks", "why_tests_cant": "arbitrary jump histories", "anchors": ["mass/core/analysis_algorithms.pyx:correct_flux_jumps"]}
{"id": "C13", "title": "Shorth interval", "statement": "shorth_range returns the length and centre of a shortest interval whose endpoints are data points and that contains more than half of the data, leaves the caller's data alone unless asked to sort in place, and normalising multiplies the range by a positive factor depending only on the number of data.", "quantifier": "all data lists of length at least 2", "why_tests_cant": "optimality over all windows", "anchors": ["mass/mathstat/robust.pyx:shorth_range"]}
{"id": "C14", "title": "Weighted high median", "statement": "high_median(x) and high_median with equal weights return the smallest element whose cumulative weight exceeds half of the total weight. For general non-negative weights the element returned is never larger than that, but can be smaller; with at most 2^j data and weights up to m, the cumulative weight of the element returned falls short of half of the total by less than j*m.", "quantifier": "all data lists and non-negative integer weights", "why_tests_cant": "wrong bookkeeping needs specific weight patterns", "anchors": ["mass/mathstat/robust.pyx:high_median", "mass/mathstat/robust.pyx:_high_median"]}
{"id": "C15", "title": "Rousseeuw-Croux Q scale", "statement": "Whenever the fast Qscale algorithm returns, for up to 65537 values, it returns the same order statistic of pairwise distances as sorting all n(n-1)/2 distances. Up to five values it always returns; with more it can raise, for example on eight equal values.", "quantifier": "all data lists", "why_tests_cant": "O(n log n) bracketing algorithm over every input", "anchors": ["mass/mathstat/robust.pyx:Qscale", "mass/mathstat/robust.pyx:_Qscale_subroutine"]}
{"id": "C16", "title": "Merging ordered lists", "statement": "Merging two sorted lists, the first not empty, yields the sorted union with multiplicity together with a correct flag telling from which list each entry came. With an empty first list the values are those of the second, but all are flagged as coming from the first; two empty lists raise.", "quantifier": "all pairs of sorted lists, including empty ones", "why_tests_cant": "empty inputs and ties", "anchors": ["mass/mathstat/entropy.pyx:_merge_orderedlists"]}
{"id": "C17", "title": "Symmetric Toeplitz solver", "statement": "ToeplitzSolver(T)(y) returns x with T x = y whenever no intermediate pivot vanishes, for every size.", "quantifier": "all symmetric Toeplitz matrices of size at least 2 with non-vanishing pivots and all right-hand sides", "why_tests_cant": "all sizes and contents", "anchors": ["mass/mathstat/toeplitz.py:ToeplitzSolver"]}
{"id": "C18", "title": "Asymmetric Toeplitz solver", "statement": "ToeplitzSolver(T, symmetric=False)(y) returns x with T x = y whenever no intermediate pivot vanishes.", "quantifier": "all Toeplitz matrices of size at least 2 with non-vanishing pivots", "why_tests_cant": "all sizes and contents", "anchors": ["mass/mathstat/toeplitz.py:ToeplitzSolver"]}
{"id": "C19", "title": "Toeplitz multiply", "statement": "ToeplitzSolver.mult(x) is the matrix-vector product with T_ij = R_|i-j|, and solving it back returns x.", "quantifier": "all sizes and vectors", "why_tests_cant": "all sizes", "anchors": ["mass/mathstat/toeplitz.py:ToeplitzSolver.mult"]}
{"id": "C20", "title": "ARMA whitener inverts exactly", "statement": "ToeplitzWhitener.solveW(whiten(v)) = v and whiten(solveW(v)) = v; whitening is the linear map of the ARMA recursion phi(B) v = theta(B) w, and delaying the input by zeros delays the output. A one-element coefficient list other than [1.0] breaks this for two or more samples.", "quantifier": "all MA and AR coefficient lists with non-zero leading coefficients (each with two or more elements or equal to [1.0]), all vector lengths", "why_tests_cant": "boundary cases q=0, p=0, short vectors", "anchors": ["mass/core/optimal_filtering.py:ToeplitzWhitener"]}
{"id": "C21", "title": "Whitener transpose operations", "statement": "applyWT is the transpose of whiten and solveWT the transpose of solveW: <whiten u, v> = <u, applyWT v>.", "quantifier": "all coefficient lists, all vector lengths", "why_tests_cant": "all sizes", "anchors": ["mass/core/optimal_filtering.py:ToeplitzWhitener"]}
{"id": "C22", "title": "Optimal filter ignores the baseline and has unit response", "statement": "The 5-lag optimal filter gives zero response to any constant offset, and applied through the 5-lag estimator to a*pulse + b it returns a.", "quantifier": "all pulse shapes, noise autocorrelations and record lengths for which it is defined", "why_tests_cant": "exact algebraic identity over all inputs", "anchors": ["mass/core/optimal_filtering.py:FilterMaker.compute_5lag", "mass/core/optimal_filtering.py:FilterMaker._normalize_5lag_filter"]}
{"id": "C23", "title": "Arrival-time-safe filter separates amplitude, time shift and baseline", "statement": "With compute_ats, the amplitude, arrival-time and constant filters applied to a*pulse + b*dpulse + c return a, b and c exactly.", "quantifier": "all linearly independent pulse and derivative models and noise autocorrelations", "why_tests_cant": "exact algebraic identity over all inputs", "anchors": ["mass/core/optimal_filtering.py:FilterMaker.compute_ats"]}
{"id": "C24", "title": "Predicted variance is the quadratic form", "statement": "bracketR(q, noise) equals the double sum of q_i noise_|i-j| q_j.", "quantifier": "all vectors with at least as many noise lags", "why_tests_cant": "all sizes", "anchors": ["mass/core/optimal_filtering.py:bracketR"]}
{"id": "C25", "title": "Pulse model projectors stay dual to the basis", "statement": "If the projectors given to PulseModel are a left inverse of its basis and the sampled residuals (of the training pulses, then of the shifted 5-lag filters) are linearly independent, the extended projectors are a left inverse of the extended basis, which has n_basis elements with the given ones first. In any case the new projectors ignore the given elements, the result is a left inverse exactly if the given projectors ignore the new elements, no pulse is modelled worse than before, and a pulse whose residual was sampled is modelled exactly. Refused are arrays of different shapes, fewer elements than given, and training pulses of another length.", "quantifier": "all matrices over any field", "why_tests_cant": "all dimensions", "anchors": ["mass/core/pulse_model.py:PulseModel._additional_projectors_tsvd"]}
{"id": "C26", "title": "Saving a pulse model does not change it", "statement": "PulseModel.toHDF5 without inversion leaves the model unchanged. With save_inverted it negates all basis elements but the first and their projectors in the model itself; this keeps the projectors a left inverse and the modelled pulses the same, and a second inverted save restores the model. A new group receives the model as it is after the call and fromHDF5 returns that model; a group that already holds a model is refused and unchanged; other versions are refused.", "quantifier": "both values of save_inverted, all models", "why_tests_cant": "needs observation of aliasing across repeated calls", "anchors": ["mass/core/pulse_model.py:PulseModel.toHDF5"]}
{"id": "C27", "title": "Phase corrector survives save and reload", "statement": "After any sequence of toHDF5 saves with overwrite to a new group, PhaseCorrector.fromHDF5 returns the smooth phase curve and the names of the last corrector saved, with its corrections followed by those of higher number left by earlier saves; so it is the last corrector exactly when no earlier one had more corrections. Without overwrite a group that holds a corrector is refused and left unchanged, and an empty one is written as with overwrite. Files of other versions are refused.", "quantifier": "all histories of saves with overwrite", "why_tests_cant": "needs a history with a shorter second save", "anchors": ["mass/core/phase_correct.py:PhaseCorrector.toHDF5", "mass/core/phase_correct.py:PhaseCorrector.fromHDF5"]}
{"id": "C28", "title": "Phase correction interpolates between lines", "statement": "The corrected value uses the two bracketing line corrections with linear weights, equals the line's own correction at its height, is proportional to the height below the first line, follows the last two lines above the last, and depends continuously on the pulse height and on the phase, also through correct() with its smooth phase curve and limit of 0.6. Negative heights and pulses of phase 0 are unchanged, each pulse is corrected by itself, and the call is refused exactly when the lengths differ or the line heights are not positive and increasing.", "quantifier": "all sorted line heights and correction functions", "why_tests_cant": "all line sets", "anchors": ["mass/core/phase_correct.py:_phase_corrected_filtvals"]}
{"id": "C29", "title": "Cubic spline", "statement": "For points with different x, given in any order, CubicSpline passes through all of them, is differentiable everywhere with the continuous first derivative it returns for der=1, continues beyond the first and last knot as the straight line with the slope it has there (the slope given, if any), and is twice continuously differentiable everywhere (with the value for der=2) except at an end where a slope is given; between the knots it is the only piecewise cubic with these properties, and so reproduces cubics and lines. derivative() agrees with der; LinterpCubicSpline is the weighted mean of splines with the same knots. (False: twice differentiable at an end with given slope; the value for der=3 is the third derivative - it is too large by the square of the interval.)", "quantifier": "all knot sets of at least 3 increasing abscissas and both boundary conditions", "why_tests_cant": "all knot sets", "anchors": ["mass/mathstat/interpolate.py:CubicSpline"]}
{"id": "C30", "title": "Symbolic derivatives", "statement": "The function objects' algebraic simplifications keep the value of every expression built with the operators of Function (+, -, *, /, **, <<, with numbers on the left, and / by a number) at every point where each simplified composition may be simplified: powers of powers of x at x >= 0 or with a whole outer exponent, exp and log where the logarithm is not clipped at 1e-6. On the open set where the expression is smooth, derivative(i), derivative(1) taken i times, and calls with der=i all give its i-th derivative, for every i (splines: up to the second). Elsewhere this fails: sqrt(x^2) becomes x, exp(log(x)) becomes x below 1e-6, the derivative of the clipped logarithm is taken to be 1/x, the third derivative of a spline is wrong, and f + 3, f - 3 and f * 3 make objects that cannot be called.", "quantifier": "all expressions built from the public operators and all points of the domain", "why_tests_cant": "unbounded expression trees", "anchors": ["mass/mathstat/derivative.py:ExprMeta", "mass/mathstat/derivative.py:Function"]}
{"id": "C31", "title": "Kink model fit", "statement": "kink_model succeeds exactly if the samples determine a kinked line with its kink there, and returns the only (a, b, c) with the least sum of squares, which does not depend on the order of the samples; the model values belong to the samples and X2 is their sum of squares if the samples left of the kink come first (as when x is in order), but not in general. Given samples in order, fit_kink_model's result is at least as good as any kinked line with its kink in the bounds, if minimize_scalar finds the minimum.", "quantifier": "all samples and kink positions", "why_tests_cant": "all inputs", "anchors": ["mass/mathstat/fitting.py:kink_model"]}
{"id": "C32", "title": "Calibration points behave like a map keyed by energy", "statement": "In every state of every program the names, pulse heights, energies and uncertainties of a calibration are columns of one list of points, and no name is given twice. Each operation has the stated effect: a point takes the place of the point of its name, or else of the nearest point within its energy uncertainty, or else is new. If the lines used are further apart than all energy uncertainties and windows of removal, and have names of their own, the points are exactly those of a table keyed by line energy.", "quantifier": "all operation sequences", "why_tests_cant": "unbounded histories", "anchors": ["mass/calibration/energy_calibration.py:EnergyCalibration.add_cal_point", "mass/calibration/energy_calibration.py:EnergyCalibration.remove_cal_point_energy", "mass/calibration/energy_calibration.py:EnergyCalibration.remove_cal_point_name"]}
{"id": "C33", "title": "Calibration survives save and reload", "statement": "For points at different pulse heights and energies, load_from_hdf5 after save_to_hdf5 returns a calibration with the same points in the same order exactly if names are different, energies grow with pulse height, and each point is further from the earlier ones than its energy uncertainty; the curve type and the use of approximation are kept, and it converts alike unless the nonlinearity of a one-point power law was changed or a smoothing spline of the older kind was used.", "quantifier": "all calibrations reachable by add_cal_point", "why_tests_cant": "needs specific uncertainties", "anchors": ["mass/calibration/energy_calibration.py:EnergyCalibration.save_to_hdf5", "mass/calibration/energy_calibration.py:EnergyCalibration.load_from_hdf5"]}
{"id": "C34", "title": "Fit ranges contain their lines and do not overlap", "statement": "build_fit_ranges fails exactly if two of the included and excluded lines have the same energy; otherwise it returns, sorted by energy, for each line exactly the range of energies within half the width of the line and no closer to any other included or excluded line, so for widths that are not negative each range contains its line and ranges of different lines share at most an end point; a monotone calibration preserves this in pulse heights.", "quantifier": "all line lists and widths", "why_tests_cant": "all line spacings", "anchors": ["mass/calibration/algorithms.py:build_fit_ranges"]}
{"id": "C35", "title": "LJH records survive write, crash and read", "statement": "Records written in LJH 2.2 form are read back unchanged; if the file is cut at any byte, the records read are exactly the complete records before the cut.", "quantifier": "all record lists, sample values and cut positions", "why_tests_cant": "every truncation point of every file", "anchors": ["mass/core/files.py:LJHFile2_2", "mass/core/ljh_modify.py:helper_write_pulse"]}
{"id": "C36", "title": "LJH append and truncate", "statement": "Appending traces to a 2.2 file with the same record length and no incomplete last record makes it read as the concatenation, and no append, failed or not, loses a record; truncating to n records or to a timestamp makes the file read as the corresponding prefix (records at the timestamp included) with the same header.", "quantifier": "all files, including ones with a partial last record", "why_tests_cant": "needs unusual files", "anchors": ["mass/core/ljh_modify.py:ljh_append_traces", "mass/core/ljh_modify.py:ljh_truncate"]}
{"id": "C37", "title": "Copying LJH traces keeps the header meaning", "statement": "ljh_copy_traces gives a 2.2 file with the chosen records and the same record length; the pretrigger length read back grows by exactly 3 with every copy.", "quantifier": "any number of copies", "why_tests_cant": "drift appears only on repeated copying or for non-DASTARD headers", "anchors": ["mass/core/ljh_modify.py:ljh_copy_traces", "mass/core/files.py:LJHFile"]}
{"id": "C38", "title": "Pairing pulse and noise files", "statement": "For a non-empty first list and one file per channel in each list, remove_unpaired_channel_files keeps exactly the files whose channel occurs in both lists (in the first only, if the second is empty), is not in never_use and is in use_only if that is given, in order and whatever the set iteration order; with repeated channels it never raises and never removes a file that should stay (but may leave one that should go).", "quantifier": "all pairs of file lists, never_use and use_only lists", "why_tests_cant": "duplicate channels and empty lists", "anchors": ["mass/core/ljh_util.py:remove_unpaired_channel_files"]}
{"id": "C39", "title": "Channel numbers in file names", "statement": "ljh_basename_channum returns what stands before the last _chan<digits> of the name and its number; hence the channel number and base extracted from a name generated by ljh_chan_names for channel c >= 0 are c and the base name, whatever the base name, unless the extension itself mentions a channel. The number found by LJHFile is the same if the base name does not contain _chan.", "quantifier": "all names and channel numbers", "why_tests_cant": "base names that themselves contain channel-like text", "anchors": ["mass/core/ljh_util.py:ljh_basename_channum", "mass/core/ljh_util.py:ljh_chan_names", "mass/core/files.py:LJHFile"]}
{"id": "C40", "title": "Segmented processing visits each record once", "statement": "Processing a file segment by segment visits every record exactly once and in order, for any segment size.", "quantifier": "all file and segment sizes, including trailing partial records", "why_tests_cant": "all size combinations", "anchors": ["mass/core/files.py:LJHFile.set_segment_size", "mass/core/channel.py:MicrocalDataSet.summarize_data"]}
{"id": "C41", "title": "OFF files read complete records only", "statement": "Opening an OFF file with an ASCII header and at least three basis elements, stopped anywhere in its records, gives the projectors, the basis and exactly the records completely written; every field reads as written, and the coefficients read under their names are those read together. A file stopped before its first record area is refused.", "quantifier": "all file lengths and basis counts", "why_tests_cant": "every truncation and basis size", "anchors": ["mass/off/off.py:OffFile", "mass/off/off.py:recordDtype"]}
{"id": "C42", "title": "Experiment states partition the pulses", "statement": "With the label times read from the state file and the pulse times, as converted to floating point for the comparison, both in non-decreasing order, the indices of a state are in order exactly the pulses whose latest label at or before their time is not excluded and has that state's name; no pulse is in two states. (At full integer precision this fails: the times are converted to float64, so a pulse a few ns before a state change may be counted in the new state.)", "quantifier": "all sorted label and pulse times, repeated labels included", "why_tests_cant": "all label/pulse interleavings", "anchors": ["mass/off/experiment_state.py:ExperimentStateFile.calcStatesDict"]}
{"id": "C43", "title": "Incremental state update equals a full recomputation", "statement": "Refreshing any number of times as whole lines of labels and pulses arrive succeeds and gives the same states as computing them once at the end, provided that at each refresh labels and pulses appear in time order, the set of excluded labels does not change, and the last label known before is not excluded and is the first of its state. (Without any one of these conditions it fails: new pulses go to the wrong state, are counted twice, or an exception is raised.)", "quantifier": "all interleavings of new labels, new pulses and refreshes", "why_tests_cant": "needs specific refresh schedules", "anchors": ["mass/off/experiment_state.py:ExperimentStateFile.calcStatesDict", "mass/off/channels.py:ChannelGroup.refreshFromFiles"]}
{"id": "C44", "title": "Recipes compute what their ingredients say", "statement": "Reading a recipe attribute gives its latest definition's function on the values its ingredients had when it was defined; if no name is defined twice or hides a base ingredient this is the function on the present values of the ingredients. A cut recipe is negated when the number of leading '!' is odd; other names with '!' fail. A definition is accepted exactly when its ingredients are known, there are no more of them than parameters, and its name is new (or overwriting is asked) and has no leading '!'. (Redefining a recipe or hiding a base ingredient does not change earlier recipes; an ingredient asked for twice is passed once.)", "quantifier": "all recipe books", "why_tests_cant": "unbounded dependency graphs", "anchors": ["mass/off/util.py:RecipeBook"]}
{"id": "C45", "title": "Bad channels are skipped, and includeBad includes them", "statement": "Iterating a channel group yields exactly the channels not marked bad, in order; inside an includeBad context it yields all of them until that context ends, however channels are marked and exceptions raised, provided no context is opened inside another. (Leaving an inner context, or reading whyChanBad, ends the outer one.)", "quantifier": "all histories of marking, context entry and exit, nested contexts", "why_tests_cant": "needs nested use", "anchors": ["mass/off/channels.py:ChannelGroup"]}
{"id": "C46", "title": "A failing channel does not disturb the others", "statement": "A group loop runs the method on every channel iterated over; a channel whose call raises is marked bad with the reason and all other channels and returned values are as if the failing one were absent; with _rethrow the loop stops at the first failure. In a TESGroup the same holds if the reasons can be stored in the HDF5 file. (A message that is not ASCII or too long aborts the TESGroup's loop.)", "quantifier": "all sets of failing channels", "why_tests_cant": "all failure patterns", "anchors": ["mass/off/util.py:add_group_loop", "mass/core/channel.py:_add_group_loop"]}
{"id": "C47", "title": "Channel status follows the last command", "statement": "After any sequence of set_chan_good, set_chan_bad and set_all_chan_good that raise no exception, the comments on a channel are those since it was last set good, the good channels are those without comments, and the file agrees with memory and gives the same comments when reopened. Setting good never fails; setting bad fails exactly when a channel has no group in the file or the comments cannot be stored. (On failure the channel is bad in memory but not in the file; n_good_channels can differ from the number of good channels.)", "quantifier": "all command sequences", "why_tests_cant": "unbounded histories", "anchors": ["mass/core/channel_group.py:TESGroup.set_chan_bad", "mass/core/channel_group.py:TESGroup.set_chan_good"]}
{"id": "C48", "title": "Group histogram is the sum of channel histograms and loses no pulse", "statement": "For nondecreasing edges, a value within the edges is in exactly one bin (bins are closed below and open above, the last closed); hist counts in each bin exactly the pulses that are good, strictly between t0 and tlast, not NaN and accepted by g_func; the total is the number of such pulses within the edges; the group histogram is the sum over good channels (with distinct numbers), for TESGroup and for ChannelGroup. Decreasing edges are refused.", "quantifier": "all values and increasing edges", "why_tests_cant": "edge values", "anchors": ["mass/core/channel.py:MicrocalDataSet.hist", "mass/core/channel_group.py:TESGroup.hist"]}
{"id": "C49", "title": "Crosstalk veto", "statement": "With a window from a <= 0 to b >= 1 ms, time-ordered channels and fewer than 128 pulses covering a millisecond, CrosstalkVeto.veto at the time of a good pulse is True exactly when the window (or the 8 ms after it, for pile-ups) of another good pulse of any channel, the same one included, covers its millisecond; in time, when the difference is within [a-1/2, b-1/2] ms and only within (a-3/2, b+1/2) ms; and it does not raise.", "quantifier": "all pulse time lists", "why_tests_cant": "needs many coincident pulses", "anchors": ["mass/core/channel_group.py:CrosstalkVeto"]}
{"id": "C50", "title": "Crosstalk flagging", "statement": "The loop of flag_crosstalking_pulses flags a pulse exactly when some listed neighbouring channel has a pulse within the given time before or after it, if the windows around the pulses do not overlap, and flags no other pulse if the pulses are in order of time; the combined flags are those for the neighbours of all categories; but, because of a test on a dictionary view, the method itself never changes any flag.", "quantifier": "all pulse time lists, including pulses closer together than the window", "why_tests_cant": "overlapping windows", "anchors": ["mass/core/channel.py:MicrocalDataSet.flag_crosstalking_pulses"]}
{"id": "C51", "title": "Automatic cut limits use the whole noise file", "statement": "auto_cuts makes good exactly the pulses with 0 < peak time < 1.25 T, 0 < rise time < 1.1 T, pretrigger rms below max(0, m + 1.4826 d nsigma) and postpeak derivative below v, where m and d are the median and median absolute deviation of the pretrigger rms over all noise records (in any order) and v is the largest derivative of the last noise record only; so the derivative limit does not use the whole noise file, and nsigma_max_deriv has no effect.", "quantifier": "all noise files", "why_tests_cant": "needs two noise files that differ in one record", "anchors": ["mass/core/channel.py:MicrocalDataSet.auto_cuts"]}
{"id": "C52", "title": "First n good pulses", "statement": "first_n_good_pulses(n) returns the records and numbers of the good pulses in record order cut as by [:n]; the mask of avg_pulses_auto_masks marks the first n >= 1 of the good pulses within 5% of the median of the good ones, or all of them if there are fewer.", "quantifier": "all masks and n", "why_tests_cant": "all masks", "anchors": ["mass/core/channel.py:MicrocalDataSet.first_n_good_pulses", "mass/core/channel.py:MicrocalDataSet.avg_pulses_auto_masks"]}
{"id": "C53", "title": "FFT padding length", "statement": "The padded length used for autocorrelation is at least n, at most 2n, of the form 1, 3 or 5 times a power of two, and the smallest such number.", "quantifier": "all n >= 1", "why_tests_cant": "all n", "anchors": ["mass/core/channel.py:NoiseRecords._compute_continuous_autocorrelation"]}
{"id": "C54", "title": "Power spectrum segments", "statement": "PowerSpectrumOverlap.addLongData uses (n-1)//m segments of length 2m, the first starting at the beginning, the last ending at the end of the data and each overlapping the one before by at least half, so that all data are covered, for data of at least 2m samples; PowerSpectrum.addLongData uses the consecutive segments; computeSpectrum uses the first 2s-2 half-overlapping segments (never the last half segment); resegmenting continuous noise gives the consecutive segments of the joined records for even lengths that divide the total.", "quantifier": "all data lengths, segment lengths and counts", "why_tests_cant": "all lengths and their divisibility", "anchors": ["mass/mathstat/power_spectrum.py:PowerSpectrumOverlap.addLongData", "mass/mathstat/power_spectrum.py:PowerSpectrum.addLongData", "mass/mathstat/power_spectrum.py:computeSpectrum", "mass/core/channel.py:NoiseRecords.compute_power_spectrum_reshape"]}
{"id": "C55", "title": "Savitzky-Golay smoothing", "statement": "savitzky_golay returns at each sample, up to the sign (-1)^d, coefficient d of the polynomial of the given order that fits best (least squares) the samples within half a window, the samples being continued downwards before the first and upwards after the last; so polynomials up to the order are reproduced away from the ends, deriv=d returns (-1)^d times their d-th derivative over d!, and rising straight lines are reproduced everywhere.", "quantifier": "all polynomials, windows and orders", "why_tests_cant": "all polynomials", "anchors": ["mass/mathstat/utilities.py:savitzky_golay"]}
{"id": "C56", "title": "Laplace-kernel entropy recurrences", "statement": "laplace_entropy in its exact mode equals minus the integral over the real line of p log p, where p is the Laplace kernel-density estimate of the data (itself a probability density); its linear-time recurrences give the same kernel sums as the direct double sum, the order of the data does not matter, and an affine change of scale by k (data and width) adds log k. Empty data and widths that are not positive are refused, nothing else is.", "quantifier": "all sorted data lists", "why_tests_cant": "all data", "anchors": ["mass/mathstat/entropy.pyx:laplace_entropy"]}
{"id": "C57", "title": "Sorting file names by channel", "statement": "ljh_sort_filenames_numerically without an inclusion list returns a rearrangement of its (non-empty, channel-bearing) names sorted by channel number and then by name, independent of the order of its argument, whose list it also rearranges; with an inclusion list it raises.", "quantifier": "all lists of names", "why_tests_cant": "many files per channel, names that are prefixes of each other, and any order", "anchors": ["mass/core/ljh_util.py:ljh_sort_filenames_numerically"]}
{"id": "C58", "title": "Noise autocorrelation", "statement": "The noise autocorrelation computed for continuous noise (through padded Fourier transforms of stretches of 15 times the number of lags) is the average over the quiet stretches of the autocovariance of each stretch, without wrap-around; for separate records it is the average over the quiet records in the range.", "quantifier": "all noise records, lags and excursion limits", "why_tests_cant": "all data; wrap-around depends on the padding", "anchors": ["mass/core/channel.py:NoiseRecords._compute_continuous_autocorrelation", "mass/core/channel.py:NoiseRecords._compute_broken_autocorrelation", "mass/core/channel.py:NoiseRecords.compute_autocorrelation"]}
{"id": "C59", "title": "Rebinned power spectra", "statement": "spectrum(nbins) puts every frequency in exactly one coarse bin, the nearest, and for at most (m+1)/2 bins each coarse bin is the mean of a non-empty set of them; with more bins the last is not a number.", "quantifier": "all spectra and bin numbers", "why_tests_cant": "all lengths and bin numbers", "anchors": ["mass/mathstat/power_spectrum.py:PowerSpectrum.spectrum"]}
{"id": "C60", "title": "Average pulse", "statement": "compute_average_pulse stores the mean of the selected records sample by sample, less the mean of its samples before the trigger (which then have mean zero), does nothing if an average exists and a new one was not asked for, and gives no numbers without selected pulses.", "quantifier": "all records, masks and pre-trigger lengths", "why_tests_cant": "all data and masks", "anchors": ["mass/core/channel.py:MicrocalDataSet.compute_average_pulse"]}
{"id": "C61", "title": "LJH to OFF conversion keeps every pulse", "statement": "Converting LJH files to an OFF file and reading it back gives the given projectors and basis and one record per pulse, in order, holding the pulse's frame number, time, pretrigger level and slope, model coefficients and residual, however the conversion is divided into segments; the conversion succeeds exactly if there is a file and every file has data of the projectors' length and a valid pretrigger region.", "quantifier": "all projectors, bases, LJH files and header texts", "why_tests_cant": "any number of files, pulses and segments", "anchors": ["mass/core/ljh2off.py:multi_ljh2off", "mass/core/ljh2off.py:ljh_records_to_off"]}
{"id": "C62", "title": "Reading an attribute of given states and cut", "statement": "Reading slices with a cut gives the records of each slice that pass the cut, slice by slice in order; for states of the state file, state by state the records in force under it that pass the cut. (A slice ending before it starts may lose records.)", "quantifier": "all record files, slices, states and cuts", "why_tests_cant": "needs specific preallocation sizes and broadcast of single records", "anchors": ["mass/off/channels.py:Channel._indexOffWithCuts", "mass/off/channels.py:Channel.getStatesIndicies", "mass/off/channels.py:Channel.getAttr"]}
{"id": "C63", "title": "Applying cut controls", "statement": "apply_cuts marks a pulse in a field exactly if it was marked before (and clearing was not asked for) or its quantity fails the limits given for that field; the pretrigger mean is compared with the median over the pulses good after all other cuts; other fields and categories are untouched, and a missing control cuts nothing.", "quantifier": "all registries reachable from a new file with the built-in fields, all pulses, all controls", "why_tests_cant": "thirteen controls, some depending on what the others have cut, some with two kinds of limits and NaN values", "anchors": ["mass/core/channel.py:MicrocalDataSet.apply_cuts", "mass/core/controller.py:AnalysisControl"]}
{"id": "C64", "title": "Cross entropy and divergence are the integrals they stand for", "statement": "laplace_cross_entropy in its exact mode never fails on non-empty data and a positive width, and equals minus the integral over the real line of p log q, where p is the Laplace kernel-density estimate of x and q the box kernel-density estimate of y with half width sqrt(6) w that leaves a share 1/sqrt(n+3) of the probability to a constant floor; q is positive and has probability one from 10 w below the smallest to 10 w above the largest node. laplace_KL_divergence is the integral of p log(p/q).", "quantifier": "all non-empty lists of real x and y, all widths w > 0, all modes", "why_tests_cant": "The result is a closed form assembled from merged, tied and interleaved nodes; tests compare it with a histogram approximation to a few percent, and cannot detect an error confined to ties, to one ordering of the nodes, or to the tails.", "anchors": ["mass/mathstat/entropy.pyx:laplace_cross_entropy", "mass/mathstat/entropy.pyx:laplace_cross_entropy_arrays", "mass/mathstat/entropy.pyx:laplace_KL_divergence"]}
{"id": "C65", "title": "Random range finder and SVD", "statement": "find_range_randomly returns orthonormal columns, min(rows, nl) of them, and raises exactly for negative q; they are combinations of the columns of A if the sampled vectors are independent, and projecting on them reproduces everything that was sampled. If the samples span all columns of A, find_svd_randomly returns a singular value decomposition of A.", "quantifier": "all real matrices, all random samples, all nl and q >= 0", "why_tests_cant": "The result is random and tests look at a few well-conditioned matrices; they do not reach rank-deficient ones or the exactness condition.", "anchors": ["mass/mathstat/utilities.py:find_range_randomly", "mass/mathstat/utilities.py:find_svd_randomly"]}
{"id": "C66", "title": "Labels of a pulse model", "statement": "PulseModel.labels returns one label for each of n_basis >= 3 elements; of the extra_n_basis_5lag elements made from the 5-lag filter all but the first are labelled 5lag.", "quantifier": "all n_basis >= 3 and 0 <= extra_n_basis_5lag <= n_basis - 3", "why_tests_cant": "Labels only appear in plots, which no test looks at.", "anchors": ["mass/core/pulse_model.py:PulseModel.labels"]}
{"id": "C67", "title": "Conversions follow the calibration curve", "statement": "A curve type is chosen by name, in capital or small letters, or by its number; others raise and change nothing. For different positive pulse heights and positive energies, ph2energy gives the value of the curve of the chosen type (loglog, linear, linear+0, gain, invgain, loggain): the natural cubic spline in its coordinates, which goes through the points; der=1 and der=2 give its derivatives; energy2ph gives back the pulse heights of the points if the curve takes no value twice; drop_one_errors gives, in order of energy, the errors of the curves through the other points.", "quantifier": "all calibrations and pulse heights", "why_tests_cant": "all curves and real values; exact derivatives", "anchors": ["mass/calibration/energy_calibration.py:EnergyCalibration.ph2energy", "mass/calibration/energy_calibration.py:EnergyCalibration._update_exactcurves", "mass/calibration/energy_calibration.py:EnergyCalibration._update_converters", "mass/calibration/energy_calibration.py:EnergyCalibration.energy2ph", "mass/calibration/energy_calibration.py:EnergyCalibration.drop_one_errors"]}
{"id": "C68", "title": "Conversions depend on points and settings only", "statement": "Two calibrations, whatever their histories of additions, removals, changes of settings and conversions, that hold the same points in any order with the same settings convert pulse heights to energies and back alike: cached curves are never out of date.", "quantifier": "all pairs of operation sequences", "why_tests_cant": "unbounded histories; caches", "anchors": ["mass/calibration/energy_calibration.py:EnergyCalibration.ph2energy", "mass/calibration/energy_calibration.py:EnergyCalibration.set_curvetype", "mass/calibration/energy_calibration.py:EnergyCalibration.set_nonlinearity", "mass/calibration/energy_calibration.py:EnergyCalibration.add_cal_point"]}
{"id": "C69", "title": "Pulse summaries are the statistics they are named after", "statement": "For records of samples from 0 to 65535, summarize_data_cython gives: the pretrigger mean and rms of the samples before nPresamples-pretrigger_ignore; shift1 exactly when sample nPresamples-1 exceeds that mean by more than 4.3 times the rms; the least sample; the mean and mean square relative to the baseline of the samples from nPresamples-1 on; and, when the largest sample exceeds the baseline, its first place, its height above the baseline rounded to the nearest integer, and the promptness as the mean of six samples from nPresamples+2 (one earlier with shift1) relative to the height. The arguments of the square roots are never negative. It raises ZeroDivisionError exactly when the largest sample is above the baseline by at most one half.", "quantifier": "for all records up to 65535 samples, all nPresamples and pretrigger_ignore with 0 <= ignore < nPresamples <= record length, nPresamples + 8 < 65536", "why_tests_cant": "The loop updates ten running quantities with C integer types in one pass and sets some of them at one sample; tests compare a few records with stored numbers.", "anchors": ["mass/core/cython_channel.pyx:summarize_data_cython", "mass/core/channel.py:MicrocalDataSet.summarize_data"]}
{"id": "C70", "title": "Compiled and Python pulse summaries", "statement": "With cut_pre = cut_post = 0, summarize_data gives with use_cython=True and use_cython=False the same pretrigger mean and rms, shift1, minimum and (with at least 7 samples from peak_samplenumber on) postpeak_deriv. The compiled pulse average and rms include sample nPresamples-1 and the Python ones do not; the formula linking them is exact. When the largest sample is after the trigger and above the baseline the peak indices agree and the Python peak value is larger by one exactly when the fractional part of the pretrigger mean is at least one half. Otherwise they differ; for a record that falls after the trigger the Python peak value wraps to near 65536.", "quantifier": "for all records of samples from 0 to 65535 and all settings with 0 <= ignore < nPresamples < record length", "why_tests_cant": "Agreement of two implementations is tested on one data file with tolerances.", "anchors": ["mass/core/cython_channel.pyx:summarize_data_cython", "mass/core/channel.py:MicrocalDataSet._summarize_data_segment"]}
{"id": "C71", "title": "Rise times", "statement": "The rise time in a compiled summary is timebase times the number of samples from the first sample above 10% of the height to the one before the first above 90%, scaled from their difference to the full height, and the timebase when these two samples do not rise; it is positive except when the record is above 90% at the trigger and was higher one sample before, and then it is negative; on a straight edge it is timebase*height/slope. estimateRiseTime gives for each record the corresponding value, whatever the other records are, when it passes 10% and 90% at different samples and peaks after the trigger; for other records the value depends on the other records of the segment.", "quantifier": "for all records of samples from 0 to 65535 with 0 <= ignore < nPresamples < record length, all timebases, all lists of records", "why_tests_cant": "The special cases are records that jump in one sample, which tests with realistic pulses do not contain.", "anchors": ["mass/core/cython_channel.pyx:summarize_data_cython", "mass/core/analysis_algorithms.pyx:estimateRiseTime"]}
{"id": "C72", "title": "Summaries do not depend on segments", "statement": "With at most 65535 records in a segment, summarize_data stores for each record the summary of that record, whatever the segment size. A segment of 65536 or more records makes it raise, unless the number is 1 modulo 65536, when every record of the segment gets the summary of the first.", "quantifier": "for all lists of records, all segment sizes, all numbers of segments that cover the file", "why_tests_cant": "The number of records of a segment is kept in an unsigned short; test files have few records.", "anchors": ["mass/core/cython_channel.pyx:summarize_data_cython", "mass/core/channel.py:MicrocalDataSet.summarize_data"]}
{"id": "C73", "title": "Trimean and median absolute deviation", "statement": "trimean returns a quarter of the sum of the quartiles with the median counted twice, and median_abs_dev the median of the distances from the median, divided by 0.67448 if normalized. Both fail only without data, do not depend on the order of the data, and follow moved and scaled data. Fewer than a quarter of the data on each side of a range cannot carry the trimean out of it, and a majority of the data within a range limits the deviation to its width. The deviation is zero exactly when more than half of the data are the same.", "quantifier": "for all data, all factors and offsets, all ranges", "why_tests_cant": "A few random samples say nothing about ties, even and odd lengths, negative factors, or how many bad data can be tolerated.", "anchors": ["mass/mathstat/robust.pyx:trimean", "mass/mathstat/robust.pyx:median_abs_dev"]}
{"id": "C74", "title": "Bisquare and Huber weighted means", "statement": "For k > 0, bisquare_weighted_mean and huber_weighted_mean return the first of the reweighted means, starting from the given centre or the median, that changes by less than the tolerance, within 100 rounds, and raise if there is none. The result is within the range of the data, independent of their order, and follows moved and scaled data. Its loss is not above that of the starting point. Huber's result is the best possible to within the tolerance. Data farther than k from the others and the start have no influence on the bisquare mean, but they do have influence on Huber's. With the default tolerance both raise if more than half of the data are equal.", "quantifier": "for all data, all k, centres and tolerances", "why_tests_cant": "Convergence and optimality are statements about every starting point and data set, and the docstring of the Huber mean makes a claim that only fails for particular data.", "anchors": ["mass/mathstat/robust.pyx:bisquare_weighted_mean", "mass/mathstat/robust.pyx:huber_weighted_mean"]}
{"id": "C75", "title": "Peaks of a smoothed histogram", "statement": "find_local_maxima counts every pulse in exactly one of 131072 equal bins reaching three widths beyond the pulses, and returns the centres and heights of exactly the strict inner maxima of the smoothed histogram, highest first. It raises without pulses. When the pulses are moved, or stretched together with the width, the maxima follow and the heights stay the same.", "quantifier": "for all pulses, positive widths, numbers of bins, smoothing functions that keep the length, and sorting functions", "why_tests_cant": "Bin edges, ties and plateaus occur only for particular data, and the default data sets have a few clear peaks.", "anchors": ["mass/calibration/algorithms.py:find_local_maxima"]}
{"id": "C76", "title": "Best assignment of peaks to lines", "statement": "find_opt_assignment returns the lines by increasing energy, and for them the increasing choice of peaks with the least sum of squared differences of relative distances, the earliest of equal ones, among the first peaks; their number is the smallest one tried that allows a choice within maxacc, and it raises exactly if there is none, provided no energy or peak occurs three times and the increment is positive. Peaks exactly on a straight line with different energies are recognised. With maxacc of one or more it raises only without enough peaks. The result follows moved and stretched peaks and does not depend on the scale of the energies. An increment of zero may never finish, and three equal peaks or energies are accepted without any check.", "quantifier": "for all peaks, lines, limits and increments", "why_tests_cant": "The search is over all combinations, and the exceptional cases need coincidences in the data.", "anchors": ["mass/calibration/algorithms.py:find_opt_assignment"]}
{"id": "C77", "title": "Residuals of a maximum-likelihood fit", "statement": "For a model value y >= 0 and data d >= 0 with y > 0 where d > 0, MLEModel._residual (and CompositeMLEModel._residual) returns a number r with the sign of y - d and r*r = 2(y - d + d ln(d/y)), or 2y if d = 0; r grows strictly with y. For integer counts, half the sum of squared residuals is exactly ln(L_best/L), where L is the product of the Poisson probabilities of the counts under the model and L_best the same with the model equal to the data; hence of two models the one with the smaller sum of squares has the larger likelihood. Where a sum of models is negative and there are no counts, the two classes differ: one gives 0, the other not-a-number.", "quantifier": "all model values and counts, all lengths", "why_tests_cant": "Tests compare a few fits; the identity with the likelihood holds for all counts and models.", "anchors": ["mass/calibration/line_models.py:92-113", "mass/calibration/line_models.py:216-228"]}
{"id": "C78", "title": "Line model function", "statement": "Without tails, GenericLineModel's function returns for bin k: (integral * dE * pdf(E_k, fwhm) + max(0, background + bg_slope*k)) * qe(E_k), with E_k = (bin_k - peak_ph)/dph_de + peak_energy and dE the bin width over dph_de. It raises exactly if there are fewer than two bins, dph_de is zero or a value comes out negative; never for a non-negative pdf, integral >= 0, dph_de > 0 and bins in order. It does not depend on unit or origin of the pulse heights. With tails the spectrum is evaluated on a padded grid aligned with the energies (resolution plus six tail lengths, at most ten times the bins on either side, at most 100000 points), filtered with weights that sum to between 1 - 2e-6 and 1, and cut back with negative values set to zero. With tails but tail_frac = 0 the counts come out multiplied by dph_de squared, so the two versions agree only for dph_de = 1 and the version with tails depends on the unit.", "quantifier": "all spectra, bins and parameters; the Fourier filter is any function that keeps the length", "why_tests_cant": "Every test with tails uses dph_de = 1, where the wrong factor is invisible.", "anchors": ["mass/calibration/line_models.py:12-83", "mass/calibration/line_models.py:251-298"]}
{"id": "C79", "title": "First guess of line parameters", "statement": "For non-empty data and dph_de <> 0, GenericLineModel.guess proposes as peak the first of the fullest bins; a positive background (the mean of the first ten bins or one count over all bins, whichever is larger, for more than 20 bins, else 0.1); an integral that is not negative (counts minus background, or all counts if that is negative); and a width of 0.7/dph_de times the distance between the bins where one quarter and three quarters of the counts are first exceeded, which is not negative for bins in order. Evenly spread counts over more than 20 bins give integral 0.", "quantifier": "all non-negative histograms", "why_tests_cant": "Tests use a few simulated spectra.", "anchors": ["mass/calibration/line_models.py:316-337"]}
{"id": "C80", "title": "Spectrum of a fluorescence line", "statement": "SpectralLine.pdf is the sum of its components; each component is its intensity times the Voigt profile of its energy, half its width and sigma, where sigma^2 = fwhm^2/(8 ln 2) + intrinsic_sigma^2. It fails exactly for a negative resolution, or if resolution, intrinsic sigma and the width of a component are all zero. If the Voigt profiles have unit area and the intensities sum to 1 so has the spectrum; without broadening this holds outright, for any positive widths. A single line has the full width at half maximum that was asked for, in the Lorentzian and in the Gaussian case. minimum_fwhm is the smallest width, the resolution and the intrinsic width in quadrature; voigt_approx_fwhm lies between the larger width (to one part in a million) and the sum of both (to four parts in a million) and scales with the unit.", "quantifier": "all lines with any number of components, all energies and resolutions; wofz is any function", "why_tests_cant": "Tests integrate a few lines numerically.", "anchors": ["mass/calibration/fluorescence_lines.py:81-100", "mass/calibration/fluorescence_lines.py:176-201", "mass/mathstat/special.py:25-94"]}
{"id": "C81", "title": "Adding a fluorescence line", "statement": "addline returns a line with the given energies and widths, whose intensities sum to 1, and registers it under its short name without changing any other entry or the order of names (a new name comes last). A name that is taken is refused unless allow_replacement. The intensities are such that the areas, or the peak heights of the Lorentzian components, or the peak heights of the components broadened by the reference resolution (as selected by reference_amplitude_type) are in the ratios of reference_amplitude. For the first two types it succeeds exactly if the reference is known, a KAlpha line comes with ka12_energy_diff, the name is free or replaceable, and the areas do not sum to zero.", "quantifier": "all registries and requests", "why_tests_cant": "The tables in the package exercise only valid requests.", "anchors": ["mass/calibration/fluorescence_lines.py:365-431"]}
{"id": "C82", "title": "Random energies of a fluorescence line", "statement": "SpectralLine.rvs returns as many values as asked for, all positive, each the energy of a component plus a Cauchy number times half the width of the same component plus a normal number times sigma. In the first round component i is taken exactly where the uniform number lies between the sums of the intensities before and after i. Positive values of the first round are kept; if all are positive the result depends on the given generator only. Otherwise it also depends on the module's own generator, since the recursive call does not pass the given one on.", "quantifier": "all lines, generators and sizes", "why_tests_cant": "A non-positive value is so rare that seeded tests never see the wrong generator.", "anchors": ["mass/calibration/fluorescence_lines.py:139-163"]}
{"id": "C83", "title": "A film lets through what its optical depth says", "statement": "Film.get_efficiency at an energy is 1 - f (1 - T) for a filter and f (1 - T) for an absorber, where f is the fill fraction, T = exp(-depth), and the depth is the sum over the layers of coefficient times thickness. It lies between 0 and 1 for a physical film, what a film absorbs and what the same film passes add up to one, and a thicker film passes no more. Given masses per area, the density plays no part; one mass per area is taken for every material, but one thickness counts for the first material only. A film is made exactly when the materials are elements, there is one density for each, and either thicknesses or masses per area are given.", "quantifier": "all coefficients, materials, densities, thicknesses and fill fractions", "why_tests_cant": "The tests compare a few stacks at a few energies; whether the density cancels or layers are dropped shows only in particular calls.", "anchors": ["mass/materials/efficiency_models.py"]}
{"id": "C84", "title": "The efficiency of a stack is the product over all its films", "statement": "FilterStack.get_efficiency is the product of its components' efficiencies, whatever their order and however stacks are nested, an error if any stack in it is empty, and between 0 and 1 for physical films. Adding a component with a new name multiplies the efficiency by that component's own; with a name already there it takes the old one's place and the old one is lost. Two films of the same materials one behind the other are one of the joint thickness.", "quantifier": "all stacks of any depth", "why_tests_cant": "No test nests stacks or adds the same name twice.", "anchors": ["mass/materials/efficiency_models.py"]}
{"id": "C85", "title": "Layers of the ready-made films", "statement": "AlFilmWithOxide is aluminium followed by every element of the oxide with three nanometres for each oxidised surface, so that it passes what the aluminium and the oxide pass one behind the other. AlFilmWithPolymer gives that thickness to the first element of the oxide only: the others get the polymer's thickness, and as many of the polymer's elements are left out. Any number of surfaces other than one or two is an error. LEX_HT passes what its film passes times what its mesh with fill fraction 0.19 passes, whatever the densities.", "quantifier": "all thicknesses, densities, compounds and coefficients", "why_tests_cant": "Transmission values look plausible; the tests check only that curves come out.", "anchors": ["mass/materials/efficiency_models.py"]}
{"id": "C86", "title": "A smoothed histogram keeps its counts", "statement": "HistogramSmoother uses the least power of two of bins that is at least 1024 and at least the number wanted for its width; its kernel is positive, symmetric and sums to one. The smoothed histogram (make_smooth_histogram, HistogramSmoother.__call__) is nowhere negative, sums to the number of values between the limits, does not depend on the order of the values, and is the circular convolution of the histogram with the kernel, so counts at one end reach the other. A zero width or limits in the wrong order raise.", "quantifier": "all widths, limits and values", "why_tests_cant": "A test sees one histogram; conservation and wrapping at the ends are statements about all.", "anchors": ["mass/core/analysis_algorithms.pyx"]}
{"id": "C87", "title": "Correction by the pretrigger mean", "statement": "drift_correct takes the median of the indicator as offset and a slope from a minimizer; adding a constant to the indicator changes neither the slope nor any corrected height, and if the minimizer does no worse than its first starting point the correction does not raise the entropy. MicrocalDataSet.drift_correct scales every pulse, good or bad, by one plus slope times the distance of its pretrigger mean from the offset, leaves a pulse at the offset unchanged, ignores cut pulses in finding the correction, and once done is not repeated unless asked for or unless it changed nothing.", "quantifier": "all pulse heights, pretrigger means, cuts and minimizers", "why_tests_cant": "Numerical tests see one data set with one optimizer run.", "anchors": ["mass/core/analysis_algorithms.pyx", "mass/core/channel.py"]}
{"id": "C88", "title": "Correction in time", "statement": "time_drift_correct uses at least one degree, at most the number allowed, and no more than the time and the number of pulses give; thinning out keeps at least the wanted number of pulses for each degree. It uses only heights between the limits, at normalized times in [-1,1], finds the coefficients one after the other, and what it returns never raises the entropy of the pulses used: a model that does is replaced by none. MicrocalDataSet.time_drift_correct scales every pulse by the model at its time and takes no notice of sec_per_degree, pulses_per_degree and max_degrees.", "quantifier": "all times, heights, limits, entropies and minimizers", "why_tests_cant": "The guarantee rests on a comparison that tests reach only in one direction; the ignored arguments have no visible effect in a test with default values.", "anchors": ["mass/core/channel.py"]}
{"id": "C89", "title": "Nearest neighbours on the array", "statement": "set_nearest_neighbors_list stores one line for each line of the map, in its order: the channel number, the squared distance from this channel's position (a channel stands where its first line says) and the place of that distance, from zero, among all squared distances within the box around the array. Places are ordered as distances, place 0 is the same position, two channels agree about each other, moving the whole map changes nothing, and in one dimension the place is the distance. It raises exactly when the map is no table of two lines and two columns, a stored dataset has another size, the channel is not in the map or the distance type is not cartesian, and then keeps the old list; a list that is not all zero is kept without forceNew even when the map says otherwise. flag_crosstalking_pulses selects exactly the channels at the wanted places.", "quantifier": "all maps in any number of dimensions, channels, stored lists", "why_tests_cant": "Tests use one small map; that the dictionary lookup never fails and that lists are symmetric are statements about all maps.", "anchors": ["mass/core/channel.py"]}
{"id": "C90", "title": "Segments, masks and the report of a group", "statement": "TESGroup.sample2segnum gives the segment whose segnum2sample_range holds the pulse, and the last segment past the end. set_segment_size raises exactly when there is no good channel, a file's record does not fit or two files would hold different numbers; otherwise every good file holds that many records per segment. make_masks uses the last range given (ValueError without any), marks channels without pulses bad and gives for each channel that has a gain a mask that is true exactly for the good pulses whose value divided by the gain is between the limits, in either order. compute_average_pulse refuses a wrong number of masks or a mask that is no array and otherwise averages each good channel with its own mask. report counts the pulses from the first to the last good one, with the rate over the time between them and the percentage good, in (0,100] and 100 only if all are good, and raises at the first channel without good pulses.", "quantifier": "all groups, pulse numbers, ranges, gains, masks and cuts", "why_tests_cant": "The masks, limits and counts are tested, if at all, on one data set.", "anchors": ["mass/core/channel_group.py", "mass/core/files.py"]}
{"id": "C91", "title": "External triggers", "statement": "external_trigger_subframe_count reads the counts back from a binary file (a header line, then int64 numbers; an incomplete one at the end is dropped) and takes the divisions named at the end of the header, else those of the first good channel; an HDF5 file comes first, and in it the times with offsets. What was read once is not read again. The counts in seconds are the counts times the subframe time, which every channel then shares. calc_external_trigger_timing raises for every group, since it asks a channel for an attribute that only the group has; its loop would store, for two triggers or more, the right delays and the distance to the nearest trigger, skip bad channels and channels already done, and mark a channel without pulses bad.", "quantifier": "all files, headers, counts, channels", "why_tests_cant": "Only one file is tested, and calc_external_trigger_timing is not tested at all.", "anchors": ["mass/core/channel_group.py", "mass/core/analysis_algorithms.pyx"]}
{"id": "C92", "title": "White noise and the strength of the noise", "statement": "assume_white_noise puts the given variance at lag zero, zero at every other lag and 2*variance*timebase in the whole spectrum, if forced or if the autocorrelation is all zero, and otherwise changes nothing; a second unforced call changes nothing unless the first variance was zero. As its documentation says, any two nonzero variances lead to the same filters (5-lag and arrival-time-safe, with a whitener or without), only the predicted variance is scaled by their ratio; the same holds for any noise autocorrelation and any nonzero factor. In white noise the 5-lag filter is proportional to the average pulse less its mean. A variance of zero leaves no filter.", "quantifier": "all pulse shapes, noise autocorrelations, variances, cuts and peaks", "why_tests_cant": "Filters for one pulse and one noise model are compared with stored numbers; the effect of another noise level is not tested.", "anchors": ["mass/core/channel.py:1564", "mass/core/optimal_filtering.py:362", "mass/core/optimal_filtering.py:509", "mass/mathstat/toeplitz.py:142"]}
{"id": "C93", "title": "Line fits and quality checks of an OFF channel use the request given and mark the channel when they should", "statement": "linefit histograms from lo to hi in steps of the bin size, where the edges not given come from the line and the defaults; a fit of an attribute other than an energy without a calibration always raises, whatever is given. qualityCheckLinefit marks the channel bad exactly when the fitted position is further from the line than allowed or the resolution is larger than allowed; the name of a cut given to it is not used for the fit. qualityCheckDropOneErrors marks the channel when some point leaves its error limits, and needs both thresholds: an absolute one alone raises, a relative one alone checks nothing.", "quantifier": "for all lines, requests, defaults, fit results, thresholds and calibration errors", "why_tests_cant": "The interplay of optional arguments (bin edges, dlo and dhi, lo and hi, bin size, calibration, cut name, one or two thresholds) has many combinations; the tests use the default ones.", "anchors": ["mass/off/channels.py:linefit", "mass/off/channels.py:qualityCheckLinefit", "mass/off/channels.py:qualityCheckDropOneErrors"]}
{"id": "C94", "title": "A calibration plan keeps the points in order, and following it refines the calibration round by round", "statement": "After calibrationPlanInit and any sequence of calibrationPlanAddPoint calls, values, states and lines are kept in step and in order, and the recipe energyRough is made of exactly these pulse heights and line energies; a known line name wins over an energy given. calibrateFollowingPlan fits every line in every round with the calibration of the round before, learns one point from every good fit, returns the fits of the last round and marks the channel bad once for every fit that gave no point; it raises when no round is asked for or when the recipe exists and may not be overwritten, in the second case after all the fits.", "quantifier": "for all line tables, plans, numbers of rounds and fitting functions", "why_tests_cant": "A test fits a few real lines; that the points of each round come from exactly the good fits with the calibration before, for every number of rounds and every pattern of failures, is a statement about all runs.", "anchors": ["mass/off/channels.py:calibrationPlanAddPoint", "mass/off/channels.py:calibrateFollowingPlan", "mass/off/channels.py:CalibrationPlan"]}
{"id": "C95", "title": "Aligning a channel to a reference pairs the peaks along the warping path and copies the plan", "statement": "A peak belongs to the bin with lower edge < position <= upper edge, and one outside the bins raises. Without scaling, the partner of a peak is the first bin that the warping path pairs with it, and the calibration gets the centres of the two bins; with any positive scale the order of the peaks is kept, but a peak can be moved below the first bin and is then counted from the end. alignToReferenceChannel copies attribute, states and lines of the reference's plan at the aligned pulse heights, and leaves the plan alone for given peaks or on the reference itself. The curvature test passes exactly when all slopes are within the threshold of their median, and the Kolmogorov-Smirnov statistic is the largest difference of the cumulative fractions, from 0 to 1, symmetric, and 0 only for equal ones.", "quantifier": "for all bin edges, warping paths, peaks, plans, thresholds and histograms", "why_tests_cant": "The tests align a few simulated channels that look alike; peaks on edges, paths that stand still, and scales that move a bin out of range do not occur in them.", "anchors": ["mass/off/channels.py:alignToReferenceChannel", "mass/off/channels.py:AlignBToA", "mass/off/channels.py:_ksStatistic"]}
{"id": "C96", "title": "Five-lag filtering of OFF coefficients equals five-lag filtering of the record they stand for", "statement": "With a filter four samples shorter than the records and as many coefficients as basis elements, the five-lag recipes of an OFF channel give exactly the phase and value that filter_data gives on the record modelled by the coefficients: the vertex of the least-squares parabola through the filter's outputs at five lags, undefined only when that parabola is a straight line. Scaling the coefficients scales the value and keeps the phase. They raise exactly when those lengths do not match.", "quantifier": "for all filters, bases, coefficients and scales", "why_tests_cant": "The tests compare the five-lag values of one data file within a tolerance; they cannot show equality for every basis and filter, nor which shapes are refused.", "anchors": ["mass/off/fivelag.py:calc_5lag_fit_matrix", "mass/off/recipe_classes.py:MatMulAB_FixedB", "mass/off/channels.py:add5LagRecipes"]}
{"id": "C97", "title": "The cut learned from residualStdDev follows the robust limits of its bins", "statement": "With more than four pulses and minFv below the middle of the first bin, a pulse above minFv is kept exactly when its residual is below the limit of the deciding bin: median plus nsigma times 1.4826 times the median absolute deviation of the residuals in it. The deciding bin of a filtValue is the first one whose middle is not below it, or the last bin. No pulse up to minFv is kept, a bin without pulses cuts everything that it decides on, and with at most four pulses, or no filtValue above the bin size, every pulse is cut. A smaller residual is never worse. Without pulses it raises.", "quantifier": "for all pulses, bin sizes, numbers of sigmas and smallest filtValues", "why_tests_cant": "The tests look at the number of pulses kept in one file; sparse bins, few pulses and filtValues in the upper half of a bin are not told apart by a total.", "anchors": ["mass/off/channels.py:learnResidualStdDevCut", "mass/off/util.py:RobustPolynomial"]}
{"id": "C98", "title": "HDF5 output of OFF channels holds the histograms and the records of each state", "statement": "histsToHDF5 of a channel that is not in the file yet writes the histogram of every state and the one of all pulses, and nothing else; the rest of the file stays as it was. A group's output holds those of every good channel, and under all_channels bin by bin their sums. Writing a channel twice raises and changes nothing; a state named like one of the channel's own datasets always raises; a group without good channels raises. energyTimestampLabelToHDF5 writes for each state the energies, times and trigger times of the same records: those of the state that pass the cut, in order. It always raises without state labels, and, with trigger times, when a state was active more than once.", "quantifier": "for all files, channels, state labels, slices, cuts and histograms", "why_tests_cant": "The tests write one file and look at some of its keys; name clashes, a second call, states that come back and channels without states are not tried.", "anchors": ["mass/off/channels.py:histsToHDF5", "mass/off/channels.py:energyTimestampLabelToHDF5", "mass/off/channels.py:ChannelGroup.histsToHDF5"]}
{"id": "C99", "title": "Drift corrections and trigger times of OFF channels", "statement": "DriftCorrection.apply leaves values at the median indicator alone, is linear in the value and changes by slope times value per unit of indicator. toHDF5 followed by fromHDF5 gives an equal object for any plain name in any group with room, keeps the rest of the file, and a second toHDF5 of the same name raises and changes nothing; fromHDF5 returns an object only if the five entries are there and the version is 1. Where a frame is divided in NumberOfRows and triggers are counted in rows (two or more, ascending), calcExternalTriggerTiming gives each pulse the rows and seconds since the latest trigger not after it, until the first one after it, and to the nearest. A header key SubframeDivisions is not looked at (the code asks for SubframeDivsions), so the times are wrong with other divisions, and with the misspelt key the seconds are too long by divisions/rows. An attribute not asked for keeps its earlier value. The group times all good channels, but a good channel without records stops it: that channel is marked bad, the exception is raised and later channels are left alone.", "quantifier": "all corrections, groups, names and files; all headers, frame counts, periods, trigger lists and trigger files; all lists of channels", "why_tests_cant": "The tests check one round trip of a DriftCorrection and never time a channel whose divisions differ from its rows or that has no records.", "anchors": ["mass/off/channels.py:32-73", "mass/off/channels.py:852-890", "mass/off/channels.py:1424-1445", "mass/off/util.py:243-259"]}
{"id": "C100", "title": "Experiment states as a category of LJH pulses", "statement": "Opening a group registers the experiment states that are not excluded as categories of the field state, and each channel sets the category of its pulses. If fields had only been registered before (none unregistered, none called state), labels are ASCII of at most 64 characters, none is called uncategorized, and times do not decrease, then cuts.select(state=x) gives exactly the pulses whose time is in state x, cuts.select(state='uncategorized') exactly those in no state, and all other fields of the pulses are as before. Without a state file nothing changes, and a field that exists already is left as it is. The conditions are needed: after a field was unregistered the bits of the field may have gaps and pulses of a state are found uncategorized; a state called uncategorized shifts the codes, so that its pulses are selected as the next state; opening the same HDF5 file with other excluded states selects the pulses of one state as another; and after the state file has grown, the new states have no category.", "quantifier": "all state files, exclusions, roundings, pulse times, cut words, and sequences of registrations before and after", "why_tests_cant": "The tests open one group with one state file and a fresh HDF5 file; gaps in the bits and reopened files are never tried.", "anchors": ["mass/core/channel_group.py:204-218", "mass/core/channel.py:1046-1069", "mass/core/cut.py:245-293"]}
{"id": "C101", "title": "Filters of LJH channels and filtering their records", "statement": "filter_data does nothing if any filtered value is not zero, unless forced. With an arrival-time-safe filter one sample shorter than the records, each value is the filter's response to the record from its second sample on, or from the first if the record is marked shift1; with one as long as the records it is the response to the whole record; the phase is the ratio of the two responses. With a 5-lag filter each record gets the vertex of the parabola that fits the responses at five lags best, for either implementation. The size of the segments does not matter and nothing but the results changes. Without a filter, with an unknown type, or with use_cython for arrival-time-safe filters it raises and the channel is as before. A transform with an arrival-time-safe filter one sample shorter than the records always raises if there is more than one segment. compute_5lag_filter keeps a stored filter unless forced, changes nothing when it raises, and otherwise uses and stores the new filter. An arrival-time-safe filter is loaded again with the same values, derivative filter, peak, variance, resolution and smoothing. A 5-lag filter is computed again on opening: values and variance are the same if no samples were cut and pulse and noise are unchanged, but with samples cut the values differ from the stored ones, and the nominal peak can differ in any case. After a new filter, results of the old one stay unless filtering is forced.", "quantifier": "all channels, records, filters, segment sizes, transforms and arguments", "why_tests_cant": "The tests filter one file in one segment and reopen a 5-lag filter without cut samples; they compare neither peaks nor filters with cut samples.", "anchors": ["mass/core/channel.py:745-798", "mass/core/channel.py:1122-1183", "mass/core/channel.py:1299-1355", "mass/core/channel.py:1408-1474"]}
{"id": "C102", "title": "Settings of groups of OFF channels", "statement": "cutSetDefault of a channel accepts exactly the recipes that the channel has and whose name starts with cut; otherwise it raises and changes nothing. The cut a group works with is the one named, or the default cut of its first good channel if none is named, and it raises unless every channel iterated over has it; a negated name that a channel accepts is refused by the group. binsizeEV of a group reaches every channel, bad ones too, and changes nothing else, but ends an includeBad context that was open. saveRecipeBooks keeps the books of the channels iterated over, under their numbers; loadRecipeBooks gives each channel in the file its book, whether good or bad, and changes nothing else, and raises at the first channel that the group does not have, after assigning those before. Books of bad channels are not saved, and after loading in another session recipes are in the book but cannot be read as attributes unless the name was added in that session. add5LagRecipes gives each channel iterated over the model and recipes of its number and leaves others alone; a channel without a model stops it, with it and later ones as before.", "quantifier": "all groups, channels, marks, recipe books, names, models and files", "why_tests_cant": "The tests load the books in the session that made them, with all channels good and the same default cut in each.", "anchors": ["mass/off/channels.py:183-191", "mass/off/channels.py:223-232", "mass/off/channels.py:1150-1155", "mass/off/channels.py:1162-1171", "mass/off/channels.py:1186-1190", "mass/off/channels.py:1401-1407", "mass/off/channels.py:1416-1427", "mass/off/util.py:84-92"]}
{"id": "C103", "title": "Stored vectors, energies and phase correction of LJH channels", "statement": "Opening a channel on an HDF5 group gives every per-pulse vector: stored ones as they are, missing ones as zeros, subframe counts under their old name rowcount if that is stored, and cut masks stored with signs as the same bits without; it raises exactly when something stored under one of the names has another length or a type that the vector's type cannot be cast to, and what was stored is still there. A group made for another number of pulses or another channel is refused and unchanged, and a channel without a group cannot be made, so copy always raises. After any sequence of writes, calibrations, conversions and phase corrections, opening the group again gives the same vectors and calibrations and the phase correction last saved. resize never shrinks: for fewer pulses it raises after the size was changed, with vectors of the old length. convert_to_energy puts the calibrated values of the attribute into p_energy and changes no other vector, or raises and changes nothing. calibrate returns a calibration of that name if there is one and it is not forced, without converting; otherwise it fits the good values, keeps and saves the calibration (also if the conversion raises) and converts, and a failed fit changes nothing; names of attribute and extension can collide. phase_correct does nothing if there is a correction and it is not forced; otherwise the one made from the good pulses is applied to all pulses, kept, and saved if asked; if it cannot be applied it is kept all the same, and the next call does nothing.", "quantifier": "all groups, numbers of pulses and samples, stored vectors, calibrations, corrections, attributes, and sequences of steps", "why_tests_cant": "The tests never resize, copy or reopen a channel after a failed step, and do not open files of the old layout.", "anchors": ["mass/core/channel.py:603-666", "mass/core/channel.py:684-743", "mass/core/channel.py:800-816", "mass/core/channel.py:871-884", "mass/core/channel.py:1793-1827", "mass/core/channel.py:1904-1951", "mass/core/cut.py:333-341"]}
{"id": "C104", "title": "Limiting the band of model vectors and low-pass filtering of signals", "statement": "band_limit returns a vector of the same length in which the oscillation of k turns over the vector, for every k up to half the samples, is that of the input times one real factor: nothing above fmax, otherwise 1/(1+(f/f_3db)^2) with f the frequency k/(n dt), and 1 without limits; no other vector has these oscillations. So tones are scaled, the operation is linear, it commutes with moving the vector round, it never increases the sum of squares, keeps the sum if fmax is not negative, does nothing for fmax from half the sampling frequency on, gives zeros for a negative one, and limiting twice is limiting by the smaller fmax. Without limits a vector is returned as it is; an empty vector raises otherwise; the columns of a matrix are limited one by one. At f_3db the amplitude is one half (the power a quarter, not a half), and the end of a vector changes its start. filter_signal_lowpass raises exactly for signals of odd length and empty ones; otherwise its result is real and keeps exactly the oscillations of frequency below the cutoff, which is the hard limit of band_limit unless a frequency equals the cutoff.", "quantifier": "all vectors and matrices of any size, sampling intervals, limits, and all combinations of a hard limit and a one-pole filter; all signals, sampling frequencies and cutoffs", "why_tests_cant": "The statements relate every frequency of every vector; a test compares a few vectors with tolerances.", "anchors": ["mass/core/optimal_filtering.py:186-224", "mass/core/analysis_algorithms.pyx:762-779"]}
{"id": "C105", "title": "Power spectra of data segments", "statement": "A segment of 2m samples with a window adds, at each of the m+1 frequencies k/(2 m dt), 2 dt / (sum of the window's squares) times the squared cosine and sine contents of the windowed data, and nothing else about earlier segments matters: the spectrum is the mean of the spectra of the segments, in any order; a segment of another length, an empty one or a window of another length raises (a window of one entry is broadcast and gives a spectrum 2m times too large). The entries times the frequency step add up to the weighted mean square of the data if the first and the last are halved (as they are, a constant counts twice). A tone shows at its own frequency only, with half its squared amplitude. Scaling the data scales the spectrum by the square, moving them round changes nothing, limiting their band multiplies each entry by the square of what is kept, and the spectrum is the cosine transform of the circular correlation of the data with themselves. computeSpectrum returns the mean over its segments, with frequencies exactly if a time step is given; a window given as a sequence is silently ignored. The windows bartlett, welch, hann and hamming are symmetric, lie between their end value (0, 0, 0, 0.08) and 1.", "quantifier": "all segment lengths, data, windows, time steps and numbers of segments", "why_tests_cant": "The identities hold for all data and frequencies exactly; tests compare a few numbers.", "anchors": ["mass/mathstat/power_spectrum.py:65-159", "mass/mathstat/power_spectrum.py:217-243", "mass/mathstat/power_spectrum.py:281-325"]}
{"id": "C106", "title": "Convolutions computed with Fourier transforms", "statement": "Transforming a vector and transforming back with its length gives the vector (without the length, an odd number of entries gives another vector). The steps done with transforms are the sums they stand for: the correlation of centred noise at each lag (all vectors transformed there have even length), and the circular convolution of a histogram with the smoothing kernel. The smoothing of find_local_maxima multiplies the content at each frequency by the Gaussian exp(-(2 pi sigma k / (hi - lo))^2 / 2) with sigma = fwhm / (2 sqrt(2 ln 2)), so it keeps the total, does not raise the sum of squares, and commutes with sums, mirroring and moving. The tails of line models multiply each content by the transform of exponentials pointing down (lo) and up (hi): the total is multiplied by the sum of the weights, the sum of squares by at most its square, mirroring exchanges the tails, and no tails change nothing; the spectrum behind a line model with tails keeps its total up to 2e-6, but a spectrum without negative entries can come out with negative ones (which the code then sets to zero).", "quantifier": "all vectors, widths, weights, lengths of tails", "why_tests_cant": "The identities hold for all vectors exactly; tests look at a few spectra.", "anchors": ["mass/core/channel.py:331-334", "mass/core/analysis_algorithms.pyx:257-268", "mass/calibration/algorithms.py:48-58", "mass/calibration/line_models.py:56-68"]}
{"id": "C107", "title": "Fourier filters", "statement": "FilterMaker.compute_fourier raises for every signal, noise spectrum and argument: it normalizes the filter against the signal it has already shortened by four samples, which _normalize_5lag_filter refuses (AssertionError for a signal of at least six samples and a spectrum of the length that belongs to it; without assertions numpy refuses the lengths). Spectra of other lengths, the documented 2N+1 included, and no spectrum raise ValueError; positive cuts raise NotImplementedError and other negative ones ValueError. So a channel whose HDF5 file holds a Fourier filter cannot be opened. The filter that is computed before that adds up to zero, and for white noise is the signal without its mean over the noise, with the contents beyond a band limit removed; but the band limit takes the frequencies to be lower than they are, so that oscillations beyond fmax are kept, and the shortened noise correlation is not symmetric, so that a real noise spectrum turns complex.", "quantifier": "all signals, noise spectra, cuts, band limits; for the exceptions any arithmetic", "why_tests_cant": "A test can show one call that fails; that no input works, whatever the numbers, is a statement about all of them.", "anchors": ["mass/core/optimal_filtering.py:426-507", "mass/core/optimal_filtering.py:671-690", "mass/core/channel.py:791-796"]}
{"id": "C108", "title": "The X-ray line database", "statement": "A row of the table gives the element, transition, peak, uncertainty, blend and reference that stand in their columns, and is skipped if a number is missing; the database has the lines of all rows below the header lines of the files that can be opened, the last one of each name under that name; loading ends if and only if each of these files has a header line; looking up an element and a transition finds, in any case of letters, the line of exactly that name or raises; looking up all lines of a type gives, in the order of the elements, the lines of the transition the type or its nickname stands for (except Ll); the dictionary of energies has for each line its element followed by each name of the transition, with the peak, and nothing else.", "quantifier": "All tables, names and number parsers; energies: all databases whose lines have an element symbol and a transition beginning with a capital that is not another line's name.", "why_tests_cant": "Tests use the two tables shipped with the package and a few names; they cannot cover other tables, name clashes, or all nicknames.", "anchors": ["mass/calibration/nist_xray_database.py:38-148", "mass/calibration/energy_calibration.py:15-51"]}
{"id": "C109", "title": "Levels and lines of highly charged ions", "statement": "getAvailableLevels gives the levels of the required configuration, term and J, in the order of the database, at most maxLevels of them (none for 0, all for a negative number), in cm^-1 or times the conversion factor, with or without uncertainty, and leaves out names that are not of three words; it raises for a missing ion and for a third word without an equals sign; getSingleLevel gives the same as getAvailableLevels for a full specification; the H-like and He-like lines of an element are its levels of nonzero energy in order, under names no other ion has, and adding them raises if one of them is there already.", "quantifier": "All databases of levels, requests, registries and conversion factors; distinct level names without white space inside the parts.", "why_tests_cant": "Tests use the shipped database and four elements; they cannot cover levels with missing energies, odd names, or repeated additions.", "anchors": ["mass/calibration/hci_lines.py:23-204"]}
{"id": "C110", "title": "Import of a dump of levels", "statement": "Reading a dump stores for each element, charge and level name the energy and uncertainty of the last row for it, NaN where not numbers, leaving out rows without configuration or term or with the term *; writing the result raises whenever any level was read, so that only an empty dictionary is ever written; a statement with a single row raises if one of its texts is too short.", "quantifier": "All field lists without repetition or back quotes, all rows, and all parsers of numbers and literals.", "why_tests_cant": "Nobody tests the conversion script; it needs a database dump that is not in the repository.", "anchors": ["mass/calibration/import_asd.py:1-90"]}
{"id": "C111", "title": "Count rate of a channel", "statement": "count_rate with a width gives the middles of the regular bins of that width from the first pulse, and the number of (good) pulses of each bin over the width; it raises without pulses or when they span no more than one width; the last pulse is never in a bin; given regular edges it does the same with them; with edges of differing widths all counts are divided by the first width, so that not every rate is count over width.", "quantifier": "All times, masks of good pulses, widths and edges.", "why_tests_cant": "Sampling cannot cover all spans and widths; the loss of the last pulse is invisible in plots.", "anchors": ["mass/core/channel.py:2105-2117"]}
{"id": "C112", "title": "Summary of cuts, smart cuts, noise and peak position of a channel", "statement": "cut_summary prints for each two different boolean cuts how many pulses both and either cut, then one line per cut that does not depend on the pulses, and the number of pulses; smart_cuts, when no pulse has such a cut or by force, cuts in addition those whose fitted distance exceeds the squared threshold, changes no other cut and never removes an old one, and otherwise does nothing; compute_noise stores the first entries of autocorrelation and power spectrum if forced or if the stored autocorrelation is all zero, nothing otherwise, and raises without storing anything for noise records that are too short; the peak sample number is the most common (smallest of several) place of the first largest sample between the cut ends, and raises exactly without pulses or samples between them.", "quantifier": "All registries, cut words, fits, thresholds, records and cut ends.", "why_tests_cant": "Sampling shows single runs only; that old marks survive forceNew and that printed text never depends on the pulses is about all of them.", "anchors": ["mass/core/channel.py:2119-2134", "mass/core/channel.py:2242-2263", "mass/core/channel.py:1605-1628", "mass/core/channel.py:886-895"]}
{"id": "C113", "title": "Automatic calibration", "statement": "autocal, when it succeeds, orders the lines by energy, fits each in the energies that are nearest to it and within half the width, converted to pulse heights, with regular bins from the lower end, and gives the calibration the fitted pulse height, the energy and the name of each line in this order; it raises without peaks or assignment, when two lines have the same energy or a line cannot be fitted, leaving the calibration as it was, and keeps the earlier points if one is refused; a fit raises exactly for non-positive bins, a range of no more than one bin or more than 5000 bins, unless the fit itself fails; anyfailed raises before a fit and is false after one; bin widths given as a list are used in the order of energies, not of the lines given.", "quantifier": "All lines, energies, pulse heights, peaks, widths, approximate calibrations, fits and calibrations.", "why_tests_cant": "Sampling cannot cover all orders of lines and failures half way.", "anchors": ["mass/calibration/algorithms.py:205-245", "mass/calibration/algorithms.py:249-334"]}
{"id": "C114", "title": "Smoothing splines: the fit", "statement": "With at least four increasing knots every function of the natural basis has zero second derivative at both ends, the expanded coefficients give the combination of the basis, and every natural cubic spline on the knots is such a combination; Omega holds the integrals of the products of second derivatives; the parameters for a weight p minimise p times the squared distance plus 1-p times the curvature among all natural cubic splines, a larger weight never gives a larger distance, and smooth, when it succeeds, gives a curve whose chi-squared is the target and whose curvature is the least among natural cubic splines at most that far from the data; it raises if a straight line is nearer to the data than the target; with three knots the basis is not natural and the chi-squared that is kept is not that of the curve.", "quantifier": "All numbers of knots, increasing knots, data, non-zero errors, weights and targets, and all solvers and root finders that keep their contracts.", "why_tests_cant": "Tests cannot compare a curve with all other curves.", "anchors": ["mass/mathstat/interpolate.py:371-434", "mass/mathstat/interpolate.py:437-549"]}
{"id": "C115", "title": "Smoothing splines: evaluation and derivatives", "statement": "Between the ends a smoothing spline is the spline of the scaled argument, with derivatives divided by powers of the scale; outside it is the tangent at the nearest end, its second and higher derivatives are zero and its first derivative is the slope at the end unless that is zero, when the value at the end over the scale is returned; derivative() makes a function of the scaled argument, so it is not the derivative at the same argument unless the scale is one; derivatives beyond the third are zero.", "quantifier": "All knots, scales, coefficients, arguments and orders.", "why_tests_cant": "Tests with sloping data never meet an end slope of exactly zero.", "anchors": ["mass/mathstat/interpolate.py:551-586", "mass/mathstat/interpolate.py:589-610"]}
{"id": "C116", "title": "Channels of a run in its folder", "statement": "ljh_get_channels of a file (or of a folder named as the run) lists one number for each file of the same run in the folder, in increasing order; a folder with the names of given channels gives those channels, however it is listed; ljh_get_channels_both gives the channels of both, once each, increasing. A name without a folder, and the root, raise. (Two files of one channel count twice; a channel mentioned only by the folder's name is taken.)", "quantifier": "all folders, listings and names", "why_tests_cant": "needs names that are prefixes of each other, several kinds of file and folders with channel-like names", "anchors": ["mass/core/ljh_util.py:ljh_get_channels", "mass/core/ljh_util.py:ljh_get_channels_both", "mass/core/ljh_util.py:ljh_basename_channum"]}
{"id": "C117", "title": "Output folders, names beside a file, and LJHModify", "statement": "output_basename_from_ljh_fname and mass_folder_from_ljh_fname make the folder mass_output or mass beside the file if it is missing, change nothing else and name a file in it; asked again they give the same name and make nothing; they raise, changing nothing, if the file's folder is not there or not written or a file is in the way. load_aux_file always raises. LJHModify never returns, and empties its output file whenever input and output are different files, the input is readable and the output may be written. callback_invert is its own inverse.", "quantifier": "all names, folders, files and samples", "why_tests_cant": "needs missing folders and the loss of an existing file after a failure", "anchors": ["mass/core/ljh_util.py:output_basename_from_ljh_fname", "mass/core/ljh_util.py:mass_folder_from_ljh_fname", "mass/core/ljh_util.py:load_aux_file", "mass/core/ljh_modify.py:LJHModify", "mass/core/ljh_modify.py:callback_invert"]}
{"id": "C118", "title": "A Gaussian-process spline is a natural cubic spline determined by the data", "statement": "For a GPRSpline with given sigmaf whose linear algebra succeeds, the values at the knots are those of a line plus cubes starting at the knots whose coefficients have no sum and no first moment (so the curve is straight beyond both ends), where sigmaf^2/6 times the coefficient times the cube is added and the coefficient times the squared error is the residual; these conditions determine the values. Residuals over squared errors have no sum and no first moment. Data on a line and points without error are reproduced; the sign of sigmaf does not matter.", "quantifier": "for all numbers of points, data, errors, values of sigmaf and all correct routines of linear algebra", "why_tests_cant": "Tests compare a few curves to stored values; they do not show that the Cholesky algebra gives the minimising spline for all data", "anchors": ["mass/mathstat/interpolate.py:264", "mass/mathstat/interpolate.py:232"]}
{"id": "C119", "title": "The variance of a Gaussian-process spline is the least mean square error", "statement": "variance of one point of a GPRSpline is the least mean square error of linear predictions that are exact for straight lines, and it is attained; the best weights exist and are unique; the covariance matrix is symmetric, is that of the best predictions, and variance is its diagonal. At a knot the variance is at most the squared error there. A single number raises in both, the covariance of no points raises and their variance is empty.", "quantifier": "for all numbers of points, data, errors, test points and all correct routines of linear algebra", "why_tests_cant": "An optimality statement over all weights cannot be sampled; the documented equality of variance and the diagonal of covariance is only checked for a few points", "anchors": ["mass/mathstat/interpolate.py:340", "mass/mathstat/interpolate.py:356"]}
{"id": "C120", "title": "Parameters are set only under registered names", "statement": "PrmDictBase.set never adds or removes names of the parameter dictionaries. If it returns and no user parameters are allowed, every name given was registered, holds the last value given, and all others keep their values; if it raises, exactly the names before the offending one have been set. For separate dictionaries that are not empty: an unregistered name raises NameError, a name with a check is set if the value passes, otherwise the program exits (a False check makes it NameError); a list of types accepts nothing. AnalysisControl accepts exactly its fourteen names. dicts2namespace and namespace2dicts are inverse for separate dictionaries and a namespace without their names; a name in two dictionaries raises KeyError on the way back. The documented freedom to set a checked parameter to None or another number is refuted.", "quantifier": "for all dictionaries, checks, names, values and orders of arguments", "why_tests_cant": "Tests set a few known names; the state after an exception, the checks and the namespaces are not tested at all", "anchors": ["mass/core/param_dict_base.py:96", "mass/core/param_dict_base.py:125", "mass/core/param_dict_base.py:183", "mass/core/param_dict_base.py:205", "mass/core/controller.py:12"]}
{"id": "C121", "title": "Composite models of ion lines have one energy scale", "statement": "In a model built by initialize_hci_composite_model every line has the width and the pulse height per energy of the peak component, and sees the same energy at every pulse height, for all values that obey the hints; only parameters of lines beside the peak are tied. The peak is the first line with the name asked for, or the first line. It succeeds iff there is no background, no two components share a prefix, and the peak is there. Hydrogen-like models need both lines, take J=3/2 as the peak and give J=1/2 half its integral (by a ratio fixed unless asked); helium-like complexes hold the three lines and those added. A linear background always raises, because the class does not exist. Prefixes have no space, slash, star or dot, but two lines can share one (refuted), and a peak tied in an inner composite depends on itself (refuted).", "quantifier": "for all lists of models, names, energies and values of parameters", "why_tests_cant": "Tests build a few composites for known ions; they never ask for a background nor look at the constraints between lines", "anchors": ["mass/calibration/hci_models.py:15", "mass/calibration/hci_models.py:32", "mass/calibration/hci_models.py:75", "mass/calibration/hci_models.py:109", "mass/calibration/hci_models.py:138"]}
{"id": "C122", "title": "Fits of lines are returned only with bins small enough", "statement": "MLEModel.fit refuses weights given by name but not by position (refuted). Its method is least_squares and its minimum 3 bins per width unless given. With leastsq_refit the result is a leastsq fit that succeeded with error bars, or else a least_squares fit that starts where the first ended if starting parameters were given. A fit to bin_centers is returned only if every line's narrowest Lorentzian, widened by the instrument and the line's Gaussian, covers the minimum number of bins, and it is then returned unchanged; it is always returned without bin_centers or with VALIDATE_BIN_SIZE off, and never with fewer than two bins. A component that is no line but has a line's prefix makes it raise.", "quantifier": "for all models, parameters, bins, methods and fitters", "why_tests_cant": "Tests fit one or two spectra with fine bins and never refit, pass weights by position or share prefixes", "anchors": ["mass/calibration/line_models.py:166", "mass/calibration/line_models.py:188", "mass/calibration/line_models.py:399"]}
{"id": "C123", "title": "Fake pulses: shares, shape and rounding", "statement": "_generate_virtual_file divides exactly n_pulses among the distributions: no share is negative, each is less than one pulse below its weight's part, and none is above it except one largest share, which takes the rest and can exceed its part by more than one (refuted: within one); the scale factors are a permutation of that many draws from each. Without distributions all factors are 1; with distributions and without weights it raises, although equal weights are documented. The model pulse is zero at the presamples and one more sample, positive after, and has the peak asked for. Samples below 2^15 are rounded to the nearest integer; those from 2^15 on become negative, and every value between -1.5 and 0.5 becomes 0, so noise is not rounded to the nearest (refuted). Low-pass filtering keeps the sum of the noise but crosses records (refuted). VirtualFile.read_trace gives the record asked for, negative numbers counting from the end, and raises otherwise; fake channels are numbered 1, 3, 5\u2026", "quantifier": "for all numbers of pulses, weights, distributions, levels, noise and records", "why_tests_cant": "Tests generate a few hundred pulses of one distribution and only use the shapes of the arrays", "anchors": ["mass/core/fake_data.py:29", "mass/core/fake_data.py:54", "mass/core/fake_data.py:91", "mass/core/fake_data.py:117", "mass/core/files.py:84"]}
{"id": "C124", "title": "Channels made of arrays", "statement": "A ChannelFromNpArray can be made of every array with fields, except an empty one with p_timestamp, which raises. Its default cut cutNone cuts nothing; with p_timestamp, relTimeSec is the time since the first record, and unixnano, unless it is a field, is a billion times the whole seconds, so times within a second are lost (refuted: nanoseconds). Without another cut a slice gives its records, a list of slices theirs in order, NoCutInds all records, and an empty list raises. The recipe classes compute differences, sums, scaled differences and ratios. In a ChannelGroupFromNpArrays a number gives the last channel given with it, the default cut is that of a good channel, and without one it raises.", "quantifier": "for all arrays, slices, channel numbers and lists of channels", "why_tests_cant": "Tests make one array with a few whole-second timestamps", "anchors": ["mass/off/channels.py:1447", "mass/off/channels.py:1463", "mass/off/channels.py:1488", "mass/off/channels.py:1539", "mass/off/recipe_classes.py:60"]}
{"id": "C125", "title": "Merging LJH files keeps every record once and in order", "statement": "bin/ljh_merge: when every file is LJH 2.2, of one channel and one record length, the first one ends after a complete record and its header after a newline, all time stamps are non-negative, the output is none of the inputs and its path carries the inputs' channel number, the output has the first file's header and the records of all files in the order given, and no other file changes. An existing output is refused without --force and left alone. A later file that cannot be opened or is of another channel raises and leaves an output with the records of the files before it. Whatever happens, no input is changed and the output starts with the first file's records. An output that is among the later inputs loses its old records and gets the ones merged so far twice. The path made by the script carries the right channel number when the directory does not contain '_chan'.", "quantifier": "all file systems, file contents, lists of names, channel numbers and record counts", "why_tests_cant": "tests merge two small good files; wrong channels in the middle, the output among its own inputs, incomplete last records and old file versions only show on real directories", "anchors": ["bin/ljh_merge:merge", "bin/ljh_merge:main", "mass/core/ljh_modify.py:ljh_append_traces"]}
{"id": "C126", "title": "Truncating a set of LJH files writes one output per channel and touches nothing else", "statement": "bin/ljh_truncate: for files <pattern>_chan<digits>.ljh in the 2.2 format, with a pattern that does not contain '.ljh', each gets the output <pattern>_<out>_chan<digits>.ljh with its header and its first n records (or its records up to the first one later than the time); every other file, the inputs among them, stays as it is, and no input is ever an output. A file with fewer than n records raises: its output is a whole copy, the files before it are truncated and those after it get no output. Whatever happens only paths of the form of an output change.", "quantifier": "all patterns, suffixes, channel numbers, file contents, limits and file systems", "why_tests_cant": "tests truncate single files with ljh_truncate; the loop over channels with short files, other names and its outputs are not tested", "anchors": ["bin/ljh_truncate:main", "mass/core/ljh_modify.py:ljh_truncate"]}
{"id": "C127", "title": "Conversion loops to OFF files: which channels, which files", "statement": "ljh2off.multi_ljh2off_loop converts, in increasing order of channel number, the channels of the pulse models for which some LJH file exists, up to max_channels (all when that is not positive), and returns their LJH and OFF names; each OFF file is what the conversion of its channel gives and nothing else changes. Whatever the conversions do, no LJH file and no file other than OFF files of channels with pulse models changes, and the loop raises only if a conversion does. ljh2off_loop also copies the experiment state file beside the OFF files, with newlines for all line ends, or leaves it when source and destination are the same; a required but missing one raises after all OFF files have been written. The script leaves an existing directory alone without --replace_output.", "quantifier": "all conversions, pulse models, base names, limits and file systems", "why_tests_cant": "tests convert two channels of one run; limits, missing channels and missing state files depend on the directory", "anchors": ["mass/core/ljh2off.py:multi_ljh2off_loop", "mass/core/ljh2off.py:ljh2off_loop", "mass/core/ljh2off.py:main"]}
{"id": "C128", "title": "Opening a group of channels keeps matching channels of one shape, and restoring it gives the same files", "statement": "TESGroup opens every pulse file with its noise file. Every channel added has pulses, has a noise file of its own channel number if there are noise files, and all channels share nSamples, nPresamples and timebase; the channels are, in file order, exactly those with pulses whose noise file has the same channel number. Pulse files of distinct channels with equal shapes and matching noise files are always opened without an exception into a new HDF5 file, which records each channel's pulse and noise file. The HDF5 file is named after the text before the first _chan<digits>. RestoreTESGroup without a noise HDF5 name succeeds exactly when each group names a noise file and all imply one name; with one it succeeds exactly when it has all the channels; restoring an opened group gives the same pairs of files in whatever order HDF5 lists them. max_chans takes equally many pulse and noise files from the front.", "quantifier": "all lists of pulse and noise files, all earlier contents of the HDF5 files, all orders of HDF5 groups, all limits", "why_tests_cant": "tests open a few files of one run; which channels survive depends on every combination of empty files, shapes, noise channels and earlier HDF5 contents", "anchors": ["mass/core/channel_group.py:33-42", "45-89", "155-159", "250-330"]}
{"id": "C129", "title": "A group of noise files has all of them as channels, and one shape if all have records", "statement": "TESGroup with noise_only makes every noise file a channel, in order. If every file has records, all share nSamples, nPresamples and timebase, which become the group's. Files of distinct channels with one shape are always opened into a new HDF5 file, which names each of them; for distinct channels with records, the group can be opened exactly when the shapes agree. With a file that has no records, channels of different shapes can end up in one group.", "quantifier": "all lists of noise files and all earlier contents of the HDF5 file", "why_tests_cant": "tests open one or two noise files of one run; files without records or of other shapes, in every position, are not tried", "anchors": ["mass/core/channel_group.py:332-371"]}
