# Formal model of usnistgov/mass in Rocq (Coq 8.16.1)

## Layout

`rocq/theories/` holds, per area `Foo`:

* `FooModel.v`  – Gallina functions following the Python/Cython code branch by branch; each definition cites file and lines in /repo. No proofs.
* `FooSpec.v`   – small specifications that do not use the model's helpers (merged in the Props file when they are one line).
* `FooProofs.v` and further files – lemmas.
* `FooProps.v`  – the property theorems, their non-vacuity `Example`s and `Print Assumptions`.

`QcPre.v`, `QSort.v`, `Kept.v`, `BitLemmas.v` hold generic lemmas.

A theorem named `..._refuted` shows that the claim, as a user would read it, is false of the code and exhibits the witness.
When a claim is false as a user would first state it, `properties.jsonl` states what is true instead, with the conditions; the naive form is the `_refuted` theorem and the conditions are shown to be needed.
A theorem named `..._partial` would prove less than its claim; there are none at present.

## Modelling conventions

* Exceptions are values (`option`, or a flag next to the object as it is left). Partial Python operations are never totalised by a default: the error branch is part of the model.
* `np.uint32` words are `N`; bitwise operations are `N.land`, `N.lor`, `N.ldiff`, `N.shiftl`, with `mod 2^32` written where the code can wrap.
* Floating-point numbers are exact rationals `Qc` (canonical, Leibniz equality), Coq's reals `R` where square roots, logarithms or analysis are needed, or `Z`; where NaN and infinities matter, an explicit extended type (`xval` in CutModel). Rounding, overflow to infinity and NaN propagation are not modelled elsewhere.
* numpy arrays are lists or functions with a length; in-place updates become functions returning the new list; where aliasing matters (PulseModel, `_rebuild`, sorted arguments) the result of the mutation is returned too.
* HDF5 attributes and datasets are fields of a persistent state record, each attribute write being one atomic step.
* Files are lists of bytes; names are strings or lists of code points.
* External routines (FFT, SVD, QR, pinv, curve fits, argsort, float parsing, JSON) are universally quantified arguments, with what is assumed of them as a hypothesis of the theorem.

## Trusted base

* Coq's kernel (8.16.1).
* Axioms: what `Print Assumptions` prints under each theorem in the `*Props.v` files; see the table at the end. No axiom is declared in this development.
* The reading of the code: the Gallina model is a transcription by hand, with the line citations as the only tie.

## What is modelled

| model | code | claims | not modelled / simplified |
|---|---|---|---|
| CutModel | core/cut.py 48-639 (registry, Cuts), cut_parameter in core/channel.py | C01–C08 | names contain no NUL; masks in memory |
| ArrModel | core/analysis_algorithms.pyx 636-759 nearest_arrivals, python_nearest_arrivals | C09 | int64 wrap-around |
| DerModel | analysis_algorithms.pyx 96-226 compute_max_deriv and its reference | C10 | float32 conversion of the result; out-of-bounds reads of short records |
| LagModel | analysis_algorithms.pyx 824-886, core/channel.py 1299-1437 five-lag filtering | C11 | rounding |
| FluxModel | analysis_algorithms.pyx 782-821 correct_flux_jumps | C12 | non-positive quantum |
| RobModel | mathstat/robust.pyx 189-535 shorth_range, high_median, Qscale | C13–C15 | float32 trial value; see the table of robust averages below |
| MrgModel | mathstat/entropy.pyx 138-190 | C16 | NaN |
| ToepModel | mathstat/toeplitz.py | C17–C19 | 2-D right-hand sides (column by column) |
| WhiModel | core/optimal_filtering.py 14-168 ToeplitzWhitener | C20, C21 | integer arrays |
| OptModel | optimal_filtering.py 362-424, 509-722 compute_5lag, compute_ats, bracketR; channel.py 1439-1460 | C22–C24 | low-pass smoothing (fmax, f_3db), Fourier filter, resolution |
| PmModel | core/pulse_model.py, mathstat/utilities.py (range finder) | C25, C26, C65, C66 | plotting, projector scripts |
| PhaseModel | core/phase_correct.py, phase correction in channel.py | C27, C28 | broadcasting of a single phase |
| SplModel | mathstat/interpolate.py CubicSpline, CubicSplineFunction, LinterpCubicSpline | C29 | equal knots; GPR splines |
| DvModel | mathstat/derivative.py, CubicSplineFunction | C30 | pickling |
| KinkModel | mathstat/fitting.py kink models | C31 | scipy's minimizer (an argument) |
| EcModel | calibration/energy_calibration.py | C32, C33, C67, C68 | smoothing/GPR splines (an argument), plotting |
| FitModel | calibration/algorithms.py 23-34, 114-165 | C34 | line table (an argument) |
| LjhModel | core/files.py, core/ljh_modify.py | C35–C37, C40 | column number, float parsing; LJHModify is in LfModel |
| NameModel | core/ljh_util.py, core/files.py 204 | C38, C39, C57 | non-ASCII digits; directories are in LfModel |
| OffModel | off/off.py, core/ljh2off.py | C41, C61 | JSON, floating-point arithmetic |
| StModel | off/experiment_state.py, off/channels.py 333-338, 1192-1209 | C42, C43 | non-ASCII state files |
| RecModel | off/util.py recipes, off/channels.py indexing with cuts | C44, C62 | recipes' pickling |
| GrpModel | off/channels.py groups, off/util.py, core/channel_group.py good/bad channels | C45–C47 | plotting |
| HistModel | hist/hists in core and off | C48 | bins given by count |
| XtModel | CrosstalkVeto, flag_crosstalking_pulses | C49, C50 | |
| AcModel | auto_cuts, apply_cuts, core/controller.py | C51, C63 | scipy statistics (arguments) |
| AvgModel | core/channel.py 1072-1120, 1828-1847 | C52, C60 | |
| NoiModel | core/channel.py 159-205, 270-403, mathstat/power_spectrum.py | C53, C54, C58, C59 | Fourier transforms (related to it by C106) |
| SgModel | mathstat/utilities.py 103-171 savitzky_golay | C55 | |
| EntModel | mathstat/entropy.pyx | C56, C64 | approximate mode (an argument) |
| SumModel | core/cython_channel.pyx summarize_data_cython, core/channel.py 898-1044, analysis_algorithms.pyx 29-92 estimateRiseTime | C69–C72 | float32 results; the optional line through the pretrigger samples; _compute_peak_samplenumber; rms values as squares; cut_pre/cut_post other than 0 only in the model |
| LocModel | mathstat/robust.pyx 39-143: bisquare_weighted_mean, huber_weighted_mean, trimean, median_abs_dev | C73–C74 | rounding (exact rationals); not-a-number as an exception; huber_weighted_mean with k < 0 |
| AsgModel | calibration/algorithms.py 37-111: find_local_maxima, find_opt_assignment | C75–C76 | the Fourier smoothing of the histogram (an argument that keeps the length; see C106), np.argsort (an argument), rounding, negative numbers of peaks; the search loop is cut off after a given number of rounds |
| MleModel | calibration/line_models.py: _smear_exponential_tail, _scale_add_bg, both _residual methods, the functions of GenericLineModel, guess | C77–C79 | the Fourier filter (an argument that keeps the length, see C106; its weights at frequency zero are modelled), the pdf (an argument), lmfit's parameters, limits and fitting, rounding; a negative grid step raises |
| SpcModel | mathstat/special.py; calibration/fluorescence_lines.py: SpectralLine (pdf, components, rvs, _gaussian_sigma, minimum_fwhm, quick_monochromatic_line), addline | C80–C82 | scipy's wofz (an argument), the search for the peak energy, the entries in module globals, fitters, the tables themselves, broadcasting of arrays of different length; the depth of recursion in rvs is limited by a given number |
| FilModel | materials/efficiency_models.py: FilterStack (add…, get_efficiency), Film, AlFilmWithOxide, AlFilmWithPolymer, LEX_HT | C83–C85 | xraydb (coefficients, densities and compositions are arguments), uncertainties (nominal values only), arrays of energies (one energy at a time), densities of oxide and polymer given by the caller, the stacks of instruments, plots and texts |
| DcModel | analysis_algorithms.pyx 233-337: HistogramSmoother, make_smooth_histogram, drift_correct; core/channel.py 1715-1740, 2057-2089, 2599-2703: drift_correct, time_drift_correct | C86–C88 | Fourier transforms (as circular convolution, which C106 shows them to be), scipy's minimizer, laplace_entropy and Legendre polynomials (arguments), negative sec_per_degree or pulses_per_degree, float32 storage |
| NbrModel | core/channel.py 2381-2497: set_nearest_neighbors_list with its HDF5 datasets | C89 | reading the text of the map file (the rows are given), process_matching_channel (never called), int64 bounds, float rounding of squared distances |
| GtModel | core/channel_group.py 503-512, 593-647, 850-929, 1024-1033, 1082-1089: segments, external triggers and their timing, make_masks, compute_average_pulse, report, set_segment_size | C90, C91 | finding the trigger files, non-ASCII headers, the printed text, failures of set_chan_bad, int64 overflow of differences |
| WnModel | core/channel.py 1564-1581: assume_white_noise; and how compute_5lag and compute_ats (OptModel) depend on the strength of the noise | C92 | the HDF5 storage of the arrays |
| OcModel | off/channels.py 113-188: linefit; 609-728: calibration plans, calibrateFollowingPlan, alignToReferenceChannel; 731-817: quality checks; 897-1062: AlignBToA; 1064-1096: CalibrationPlan | C93, C94, C95 | the fits, the histograms, the calibration curves and the path of fastdtw are arguments (the path is any warping path); plots; learnCalibrationPlanFromEnergiesAndPeaks (its parts are LocModel and AsgModel) |
| FlModel | off/fivelag.py; off/recipe_classes.py: MatMulAB_FixedB; off/channels.py 843-850: add5LagRecipes | C96 | rounding; matrices are lists of rows |
| RsModel | off/channels.py 253-294: learnResidualStdDevCut; off/util.py 349-359: median_absolute_deviation | C97 | plots; which pulses a cut or state selects (C42, C44); scipy's interp1d of kind next is modelled as sorting and looking up |
| HxModel | off/channels.py 760-798: histsToHDF5, energyTimestampLabelToHDF5; 1211-1237, 1304-1320: those of a group | C98 | an HDF5 file is a list of paths with contents; what the histograms and the energy recipe compute (C44, C48) are arguments; str(channum) is a name |
| DtModel | off/channels.py 32-73: DriftCorrection; 852-890, 1424-1445: external trigger timing of a channel and of a group | C99 | counts are unbounded integers; floating point seconds are exact; a stored dataset is text, a number or a version |
| LsModel | core/channel_group.py 204-218, core/channel.py 1046-1069: experiment states as the categorical field `state` of LJH channels, on top of CutModel and StModel | C100 | labels are ASCII text; the multiplication of time stamps by 1e9 is part of the rounding function |
| FdModel | core/channel.py 745-798, 1122-1183, 1299-1355, 1408-1474: computing, storing, loading filters of LJH channels and filtering their records segment by segment, on top of LagModel and OptModel | C101 | the training of ATS filters and the Fourier filter are parameters; HDF5 groups of versions before 2; a transform acts on each record; storage as float32 |
| CgModel | off/channels.py 183-191, 223-232, 1135, 1150-1155, 1162-1171, 1186-1190, 1401-1407, 1416-1427, off/util.py 84-92: cuts, bin sizes, recipe books and 5-lag models of a group of OFF channels, on top of GrpModel | C102 | recipes and models are of any type; pickling; the group's own cutSetDefault (see findings) |
| LvModel | core/channel.py 603-666, 684-743, 800-816, 871-884, 1793-1827, 1904-1951, core/cut.py 333-341: opening an LJH channel on its HDF5 group, its vectors, resize, copy, convert_to_energy, calibrate, phase_correct | C103 | calibrations, corrections and how they are fitted, stored and applied are arguments (C32, C33, C27, C28); storage as float32; loading filters (C101) and automatic cuts (C51); writing a single value into a vector |
| FtModel | core/optimal_filtering.py 186-224: band_limit; core/analysis_algorithms.pyx 762-779: filter_signal_lowpass; numpy's fft, ifft, rfft, irfft as discrete Fourier transforms | C104 | rounding; f_3db = 0 (division by zero); a sampling interval of zero |
| PsModel | mathstat/power_spectrum.py 65-159, 217-243, 281-325: PowerSpectrum, computeSpectrum, windows, on top of FtModel and the segments of NoiModel | C105 | not-a-numbers; a window whose squares sum to zero; rebinning (C59) |
| FoModel | core/channel.py 331-334, core/analysis_algorithms.pyx 257-268, calibration/algorithms.py 48-58, calibration/line_models.py 56-68: what NoiModel, DcModel, AsgModel and MleModel take from Fourier transforms, computed with those of FtModel | C106 | rounding; odd lengths where the code gives irfft no length (they do not occur: 131072, powers of two and padded lengths) |
| FfModel | core/optimal_filtering.py 426-507, 612-690 as far as compute_fourier uses them: lengths and exceptions for any arithmetic, and the filter before normalization over exact reals | C107 | the variance and resolution computed after the normalization, which is never passed; signals of integers; models of pulses that are lists rather than arrays |
| NxModel | calibration/nist_xray_database.py 38-148; LineEnergies, calibration/energy_calibration.py 15-51; float() an argument, ASCII texts | C108 | downloading the tables; \_\_str\_\_; column_defs other than the default; alllines is a list instead of a set of distinct objects |
| AsdModel | calibration/hci_lines.py 23-204 (levels, lines of ions; the registry of spectra by name and energy only), calibration/import_asd.py 17-86 (ast.literal_eval, int and float arguments) | C109, C110 | pickling; charges given as texts (int() of them); the sorting after the loop that always raises; the widths and ratios of the lines (constants); spectra made by addline: see SpcModel |
| CmModel | core/channel.py 886-895, 1605-1628, 2105-2134, 2242-2263 | C111, C112 | MinCovDet and the noise records' own computations (arguments); the text formatting of the numbers printed |
| AlModel | calibration/algorithms.py 205-245, 249-334 | C113 | lmfit and the models of lines, the peak finder and the approximate calibration (arguments; their own models are AsgModel, FitModel, EcModel); diagnose; names that are unknown features |
| SsModel | mathstat/interpolate.py 371-434 (NaturalBsplineBasis), 437-586 (SmoothingSpline), 589-610 (SmoothingSplineFunction) | C114, C115 | rounding; scipy's splev is modelled by the Cox-de Boor recursion, np.linalg.solve and brentq are arguments; errors in x (the rough quadratic fit); SmoothingSplineLog |
| LfModel | core/ljh_util.py 20-56, 77-107, 209-223; core/ljh_modify.py 16-86 | C116, C117 | the current folder and links (paths are read as written; LJHModify has the file behind a path as an argument); permissions; callback_shift; load_mic_file; filename_glob_expand (glob) |
| GprModel | mathstat/interpolate.py 232-235 (k_spline), 264-309 (GPRSpline, given sigmaf and the errors), 340-354 (variance), 356-368 (covariance) | C118, C119 | rounding; np.linalg.cholesky and np.linalg.solve are arguments (contracts `factors`, `solves`); the cubic spline through the result (SplModel); best_sigmaf, _marginal_like, errors in x |
| PrmModel | core/param_dict_base.py 26-168, 183-194, 205-215; core/controller.py 12-75 | C120 | printing; properties and dicts2namespace2 (exec); derived _update |
| HcModel | calibration/hci_models.py 15-154 | C121 | lmfit (a sum refuses shared parameters; the hint set last counts; hints of parts are kept); atomic numbers; the list of common models in 157-222 |
| FwModel | line_models.py MLEModel.fit 166-186, _fit 188-206, _validate_bins_per_fwhm 399-425 | C122 | lmfit's fit (argument), messages, division by dph_de = 0 |
| FgModel | fake_data.py FakeDataGenerator 29-143; files.py VirtualFile 84-127 (samples, read_trace) | C123 | random numbers (arguments), times of pulses, rounding of floats, zero or negative weights, TESGroup itself |
| NpModel | off/channels.py 1447-1556 (ChannelFromNpArray, ChannelGroupFromNpArrays), off/recipe_classes.py, on top of RecModel | C124 | _listMethodSelect=0; negative or open slices in lists; structured fields; division by zero; int64 overflow |
| MgModel | bin/ljh_merge: merge 22-39, main 42-90 after the expansion of the patterns | C125 | glob expansion, messages, links between files, missing or read-only directories |
| TrModel | bin/ljh_truncate: the loop of main 36-40 | C126 | glob expansion, argparse, links between files |
| LoModel | core/ljh2off.py: multi_ljh2off_loop 129-154, ljh2off_loop 157-184, main 221-234 | C127 | the conversion of a channel (an argument, C41, C61), the reading of pulse models, progress bars, parse_args |
| TgModel | core/channel_group.py 33-42, 45-89, 155-159, 250-330; core/channel.py 646-656 | C128 | calibrations, bad channels, the experiment state, datasets already in the noise HDF5 file, failures to open it |
| TnModel | core/channel_group.py 332-371; core/channel.py 646-656 | C129 | autocorrelation and spectrum datasets already in the noise HDF5 file |

Models added later are listed at the end of the table of properties in `properties.jsonl` and cite their code at the head of the file.

Not modelled at all: plotting, the Qt guis, `nonstandard/`, the fluorescence-line tables, `import_asd.py`, scripts and demos, multiprocessing, and anything inside numpy, scipy, h5py and lmfit.

## Findings

Behaviour the proofs brought up that a user would not expect. Those in bold are stated by a `_refuted` theorem.

* Cuts: **names longer than 64 bytes leak bits**; **a categorical field sharing its name with a boolean one loses assignments**; **NaN is never cut by a single range**; **a range without limits raises if first**; **a new field can inherit the cuts of an unregistered one**; **a registration killed between its two writes can make a later categorical field overlap**. A boolean field whose registration was interrupted never gets its bit into the used word on retry.
* nearest_arrivals: **with one trigger the time until it is reported as 0**; **the two versions differ on ties**; an empty list of pulses returns one array instead of two.
* compute_max_deriv: **only kernels of length 5 are accepted, though the reference takes any**.
* Five-lag filter: **the default implementation ignores the transform**.
* correct_flux_jumps: **a jump leaving the range below one quantum is kept**.
* Robust: **high_median with weights misses the weight at every left turn**; **Qscale raises on equal values**, wraps beyond 65537 values, and raises on integer arrays; **shorth documentation (half, mean) is wrong**; **normalising one datum raises**.
* Merge: **an empty first list gets all flags wrong**.
* Toeplitz: **order 1 raises IndexError**; **regular matrices with a vanishing minor fail**; **mult truncates for integer vectors**.
* Whitener: **a one-coefficient list other than 1 divides the first sample twice**.
* Optimal filters: **negative-going pulses are scaled by the upward excursion**; a FilterMaker with only a whitener always fails.
* PulseModel: **saving inverted changes the model**; **the first 5-lag element is labelled svd**; **dependent bases break duality**; only the length of f_5lag is used.
* Phase correction: **saving fewer corrections leaves stale ones**; **given end slopes are lost on reload**; phase_correct sorts the caller's list of peaks.
* Splines: **der=3 is too large by dx²**; **the second derivative jumps at clamped ends**.
* derivative.py: **sqrt(x²) simplifies to x**, **exp∘log to x**, **f+3 and the like cannot be called**.
* Kink model: **X2 depends on the order of the samples**.
* Calibration: **the constructor overwrites the nonlinearity by 1.15**; **a refused point stays**; **remove_cal_point_energy with two matches removes a wrong point or raises**; **reloading can merge points and loses the nonlinearity**; the documentation of e_error and of remove_cal_point_prefix is wrong.
* Fit ranges: **a negative width gives ranges without the line**.
* LJH: LJHModify always fails after truncating its output; **a copy has 3 presamples more per copy**; **appending after an incomplete record is misaligned**; truncation keeps the time stamp itself; **an indented "#End of Header" breaks truncation**.
* Names: **repeated channels leave a file out**; **LJHFile and ljh_util disagree on the channel number**; sorting with an inclusion list raises and mutates its argument.
* OFF: **fewer than three basis elements are misread**; **a non-ASCII header shifts the records**; **an LJH file without data cannot be converted**.
* States: **times are compared after rounding to float64**; **several refresh orders give wrong states**.
* Recipes: **redefining an ingredient does not change recipes made from it**; reversed slices with cuts lose records.
* Groups: **nested contexts end the outer one**; set_chan_good() without channels raises.
* Histograms: **a pulse exactly at t0 is not counted**; **repeated channel numbers are counted once**.
* Crosstalk: **CrosstalkVeto vetoes pulses of the same channel**, **overflows at 128 pulses**, **raises for b = 0**; **flag_crosstalking_pulses never flags anything**, **loses flags for overlapping windows**, **moves flags of unordered pulses**.
* auto_cuts: **the derivative limit comes from the last noise record only**; **saved limits lose their lower bounds**; apply_cuts(forceNew=False) only logs.
* Noise: **a range of samples is taken as a range of records**; **only as many lags as samples can be stored**; computeSpectrum never uses the last half segment.
* savitzky_golay: **odd derivatives have the wrong sign**; **falling lines are changed at the ends**; **short input gives output of another length**.
* Entropy: the density is at its floor outside the range over which it is normalised.
* Summaries: **a record at most half a unit above its baseline raises ZeroDivisionError**; **the compiled and Python versions differ in pulse average, rms and peak value**; **the Python peak value wraps for falling records**; **rise times can be negative**; **estimateRiseTime depends on the other records, and compares an amplitude ratio with the timebase**; **a segment of 65537 records gets the first record's summary throughout**, 65536 or other larger numbers raise. postpeak_deriv reads outside of the record when peak_samplenumber is within its last six samples.
* Robust averages: **data far away keep their influence on huber_weighted_mean**, against its docstring; **with the default tolerance both weighted means raise if more than half of the data are equal**, since the tolerance is then zero.
* Peak assignment: **find_opt_assignment never ends with nincrement = 0 if the first attempt is not good enough**; **three equal peaks, or three lines of equal energy, give not-a-number, which is preferred and accepted** even if a perfect assignment exists.
* Line models: **with tails the spectrum is multiplied by dph_de instead of divided**, so that with tail_frac = 0 the counts differ by dph_de squared, and tail lengths are multiplied by dph_de though the grid is in energies (every test uses dph_de = 1); **a negative sum of models gives not-a-number in a composite model** where a single model gives 0.
* Spectral lines: **rvs with a given generator also uses the module's own** when a value comes out negative, so the result is not reproducible; plot_all_spectra calls the lines without arguments and so always raises TypeError (not modelled).
* Films: **AlFilmWithPolymer shifts the thicknesses by one**: the oxide's thickness is one number where the oxide has two elements, so the oxide's oxygen gets the polymer's thickness and the polymer's last element is dropped by zip; its argument polymer_fractions is never used; a scalar thickness counts for the first of several materials only, where a scalar mass per area counts for all; a component of a name already there silently replaces the old one. A float for oxide_density or polymer_density raises TypeError (float times list; not modelled).
* Drift correction: **MicrocalDataSet.time_drift_correct ignores sec_per_degree, pulses_per_degree and max_degrees** (they are not passed on); the cubic spline computed at the end is never returned; smoothing is circular, so counts near the upper limit leak to bin 0.
* Neighbours: **the place n counts all distances possible in the box, not those between channels**, so a channel may have no first neighbour at all; a stored list is kept without forceNew even if the map has changed (and a map with another number of lines then raises TypeError).
* Group: **TESGroup.calc_external_trigger_timing always raises AttributeError**: it reads external_trigger_subframe_count from a channel (channel_group.py:627), and only the group has that property. **TESGroup.set_segment_size sets n_segments to the pulses per segment** (line 1086). report raises IndexError for a channel without good pulses and so reports nothing on later channels.
* OFF channels: linefit of any attribute that is not an energy raises without a calibration, even with bin edges (`params` is never set); **qualityCheckLinefit passes the name of the cut as `plot`**, so the cut is not used; qualityCheckDropOneErrors raises TypeError with an absolute threshold alone and checks nothing with a relative one alone; **calibrationPlanAddPoint ignores the energy for a known line name**; calibrateFollowingPlan raises UnboundLocalError for n_iter = 0, adds a calibration without points if every fit fails, and never uses require_errorbars and params_fixed; **a peak on a bin edge is put into the bin below**, other than in the histogram; **a scaled peak below the first bin counts from the end**.
* Residual cut: **pulses in the upper half of a bin are judged by the next bin's limit** (a pulse can be cut by a limit it is below in its own bin); **a bin without pulses cuts everything it decides on**, since `len(inds) <= 4` tests the length of the mask and not the number of pulses; with at most four pulses, or no filtValue above the bin size, every pulse is cut, the ones learned from included; minFv above the middle of the first bin is no lower limit.
* HDF5 output: **energyTimestampLabelToHDF5 always raises without state labels** (`state` is not set) **and for a state that was active twice when trigger times were calculated**; a state called counts, bin_centers_ev or name_of_energy_indicator makes histsToHDF5 raise after part of the output; a group without good channels raises and leaves an empty group all_channels.
* OFF trigger times: **the header key SubframeDivisions is misspelt in the code, so divisions other than the rows are not used**; with the misspelt key the seconds are scaled wrongly; one good channel without records stops the whole group.
* States of LJH channels: codes are written as consecutive numbers, so **after a field has been unregistered (bits with gaps) pulses of a state are found uncategorized**; **reopening an HDF5 file with other excluded states, or after the state file has grown, labels pulses wrongly**, since the field keeps its first categories; a state called `uncategorized` shifts the codes of all others.
* Filters of LJH channels: **a 5-lag filter is computed anew when a file is opened again, without the samples that were cut, so its values differ from the stored ones**; its nominal peak (and predicted resolution) differs too, since it is then taken as the maximum of the average pulse; **a transform with arrival-time-safe filters raises as soon as there are two segments** (`self.data` instead of the segment); after `compute_*_filter(forceNew=True)` a plain `filter_data()` keeps the results of the old filter.
* Groups of OFF channels: **recipe books loaded in another session cannot be read as attributes**; books of bad channels are not saved; **the group's cutSetDefault always raises, since a group has no recipes** (not modelled); a negated cut is refused by a group; setting the bin size ends an open includeBad context.
* Stored vectors of LJH channels: **resize raises for fewer pulses, after the number of pulses was changed**; **copy always raises**, as does a channel without HDF5 group (the default); a file that has grown cannot be opened on its old HDF5 group; **calibrate for a name that exists leaves the energies of another calibration**; attribute and extension of different calibrations can give the same name; **a phase correction that could not be applied is kept, so that the next call silently does nothing**; phase_correct always records p_filt_value_dc as the uncorrected attribute (not modelled).
* Limiting the band: **the amplitude at f_3db is one half (6 dB), not 3 dB down**; the filter goes round, the end of a vector changes its start; **filter_signal_lowpass raises for every signal of odd length** and removes the cutoff frequency itself, which band_limit keeps.
* Power spectra: **the first and last entries are twice too large** (as a comment in the code says); **computeSpectrum ignores a window given as a sequence**; a window of one entry gives a spectrum 2m times too large.
- Line models with exponential tails compute them with a circular Fourier filter that undershoots on the steep side of a sharp line: a spectrum without negative entries can come out with negative ones. The code sets those to zero, so the total of the smeared spectrum is then larger than that of the sharp one (`tails_negative_refuted`).
- `FilterMaker.compute_fourier` can never succeed: it passes the signal already shortened by four samples to `_normalize_5lag_filter`, whose assertion needs it four samples longer than the filter (`fourier_always_raises`). A channel whose HDF5 file holds a Fourier filter therefore cannot be opened (`fourier_file_unusable`).
- Within it, the shortened noise correlation takes one sample too many from its end: it is not symmetric and its spectrum is complex (`noise_left_real_refuted`); and the band limit uses the frequency spacing of the unshortened signal (`shape_limit_refuted`). The documented length of the noise spectrum, 2N+1, is refused (`fourier_documented_length`).
- **Line database** (nist_xray_database.py): `db["Mn KAlpha1"]` and `db["Mn KA1"]` raise KeyError, because __getitem__ puts the nickname in small letters and looks it up among keys in capitals; the nickname branch never succeeds (`nickname_refuted`, `nickname_never`). get_lines_by_type("Ll") is always looked up as "LL" and so finds nothing (`ll_refuted`). Absorption edges ("Mn K edge") cannot be looked up by __getitem__ at all (`edge_refuted`). A file without the header line makes the constructor loop for ever (`load_hangs`).
- **Ion levels** (hci_lines.py, import_asd.py): write_asd_pickle unpacks `energyLevelsDict.values()` into pairs (items() is meant), so it raises for any dump that has a level (`write_raises`, `write_only_empty`); the shipped pickle cannot be made with the shipped script. An INSERT statement with one row is taken apart into characters (`one_row_raises`). Levels with unknown energy become lines at NaN (`unknown_energy_refuted`). A level name whose third word has no "=" raises an IndexError that the ValueError handler does not catch (`levels_bad_j`).
- `MicrocalDataSet.count_rate` never counts the last pulse (the edges of np.arange stop before it) and divides all bins by the width of the first; `cut_summary` prints braces instead of the counts of each cut (the string lacks its f); `smart_cuts(forceNew=True)` keeps the old marks; `compute_noise_spectra` passes a keyword `n_lags` that the function does not take, so it always raises TypeError (not modelled).
- `EnergyCalibrationAutocal`: a list of bin widths is looked up by the position in the order of energies although the caller gives it beside unsorted line names; `anyfailed` can never be True, as no `FailedFit` is ever made.
- Smoothing splines: with three knots the basis is not natural (the middle function only gets its lower end corrected) and `actualchisq` is not the curve's. When a straight line fits within maxchisq the constructor raises (brentq sees the same sign at both ends), where the docstring promises a smaller chi-squared. Where the slope at an end is exactly zero, `poly1d` drops the leading coefficient and the first derivative outside the knots is the value over the scale. `derivative()` passes the already scaled x (and forgets maxchisq), so `spline.derivative()(x)` is not `spline(x, der=1)`. Read, not modelled: SmoothingSplineLog returns the exponential of a derivative for der > 0, and `dx /= x` changes the caller's array.
- Runs and folders: **LJHModify always fails, and with overwrite=True the old output is lost**; load_aux_file always raises; a bare file name raises in ljh_get_channels and for output folders; the root folder raises IndexError; a channel number is taken from the folder's name if the file has none; a folder named with a dot stands for another run
- GPRSpline.variance and covariance of a single number always raise: both iterate over an array without dimensions before they look whether the argument is a number (mass/mathstat/interpolate.py 346, 359). The covariance of no points raises, their variance does not.
- Parameter dictionaries: a parameter checked against its previous type cannot be set to None or to a number of another type, as documented; isinstance(value, (type, None)) raises TypeError and set then ends the program (core/param_dict_base.py 141, 113-115). operator.isNumberType (144) is never reached; it does not exist in Python 3. A list of types raises for every value. After an exception, earlier arguments stay set.
- Models of ion lines: **a linear background always raises AttributeError in composite models (hci_models.py 149), because line_models has no LinearBackgroundModel**, so models(has_linear_background=True) always fails. Line names that differ only in a star or a dot share a prefix and cannot be in one composite. If the peak of an outer composite was tied in an inner one, its parameters are defined in a circle.
- FwModel: weights given to MLEModel.fit by position are not refused (and then ignored by _residual); a component that is no line but shares a line's prefix makes fit raise AttributeError in the check of bins.
- FgModel: fake distributions without weights raise IndexError though documented as equal weights (so generate_microcal_dataset with distributions always raises); the largest share takes the whole remainder; samples of 32768 and more become negative because VirtualFile holds int16; noise is truncated toward zero after adding 0.5, so all values from -1.5 to 0.5 become 0; the low-pass of fake noise rolls across records; the default n_presamples is a float, n/4.
- NpModel: the recipe unixnano of arrays truncates p_timestamp to whole seconds before multiplying (and gives floats, despite the name ScalarMultAndTurnToInt64), so states are assigned with a resolution of a second; empty arrays with p_timestamp raise IndexError.
- ljh_merge: a pattern that matches an earlier result (`*_chan1.ljh` matches merged_chan1.ljh) with --force destroys that result and doubles the records merged so far; 2.1 files and files with another record length are appended without a message; an incomplete last record of the first file garbles everything after it; a wrong channel in the middle leaves a partial output behind.
- bin/ljh_truncate: with --npulses a channel with fewer records than asked for raises, so the channels after it get no output; so does any file found by the pattern whose name goes on after the channel number; a negative number silently makes empty outputs.
- ljh2off: max_channels=0 converts all channels; with several base names a channel of which only some files exist raises and may leave an incomplete OFF file, though the loop checks that any exists; a missing experiment state file raises only after all OFF files were written; the script ends in an IndexError when no channel matches.
- TESGroup with max_chans but no noise files raises TypeError (channel_group.py 159); a channel left out because its noise file is of another channel is still recorded in both HDF5 files with that noise file; a group opened without noise files cannot be restored; two pulse files of one channel with equally many pulses share one HDF5 group (TgProps).
- A noise-only TESGroup does not skip files without records, and does not compare shapes until a file with records has been added, so its channels can have different shapes (TnProps).

## Axioms

`Print Assumptions` prints "Closed under the global context" for every theorem of the areas over `N`, `Z`, `Qc` and bytes: Cut, Arr, Der, Lag, Flux, Rob, Mrg, Toep, Whi, Opt, Ljh, Name, Noi, Fit, Avg, Off, St, Rec, Grp, Hist, Xt, Ac, Kink, Sg, Sum, Loc, Asg, Nbr, Gt, Wn, Oc, Fl, Rs, Hx, Dt, Ls, Fd, Cg, Lv, Nx, Asd, Cm, Al, Ss, Lf, Prm, Hc, Np, Mg, Tr, Lo, Tg, Tn.

The areas over `R` use only the axioms of Coq's standard library of real numbers and logic:

| area | axioms |
|---|---|
| Spl, Phase, Gpr | ClassicalDedekindReals.sig_forall_dec, FunctionalExtensionality.functional_extensionality_dep |
| Pm, Ft, Ps, Fo, Ff | the same, and ClassicalDedekindReals.sig_not_dec where square roots or sines appear; Classical_Prop.classic in the Fo theorems on smoothing and line models |
| Ent, Dv, Ec, Mle, Spc, Fil, Dc, Fw, Fg | the same, and Classical_Prop.classic where limits, derivatives, integrals or exponentials appear |

## Seeded faults

`seeded/LOG.jsonl` holds one line per wrong program tried: the definition edited, the edit, the claim it breaks and the theorems whose proofs fail. Where a fault was not detected, the theorem tightened because of it is named.
