#!/usr/bin/env python3
"""Regenerates /verif/properties.jsonl (kept as a script so entries stay easy to review)."""
import json, pathlib
P = []
def p(id, title, statement, quantifier, why, *anchors):
    P.append(dict(id=id, title=title, statement=statement, quantifier=quantifier,
                  why_tests_cant=why, anchors=list(anchors)))

p("C01", "Mode index is a bijection",
  "For a waveform with modes ell_min..ell_max, the column that `index(ell, m)` names is the position of [ell, m] in `LM`; distinct modes get distinct columns and the columns used are exactly 0..n_modes-1.",
  "all 0 <= ell_min <= ell_max, all valid (ell, m)",
  "there are unboundedly many (ell_min, ell_max, ell, m); a test checks a few",
  "scri/waveform_modes.py: WaveformModes.LM, index, indices, ells")
p("C02", "Slicing a waveform by ell returns the requested modes",
  "w[:, a:b] (and w[:, ell]) returns exactly the columns of the modes with a <= ell < b, with ell_min/ell_max/LM of the result describing those columns; requests below the stored ell range are not silently answered with other modes.",
  "all ell_min <= ell_max, all slice bounds a, b, all data",
  "the slice arithmetic has corner cases (a or b equal to 0, b <= ell_min) that depend on the numeric range",
  "scri/waveform_modes.py: WaveformModes.__getitem__", "scri/waveform_base.py: WaveformBase.__getitem__")
p("C03", "XOR time-series encoding is lossless",
  "`xor_timeseries_reverse(xor_timeseries(c)) == c` and `xor_timeseries(xor_timeseries_reverse(c)) == c` bit for bit, with the first sample unchanged and every later sample the XOR of consecutive samples.",
  "all time series of any length, all bit patterns (NaN, infinities, signed zeros included)",
  "the bit patterns and lengths are unbounded",
  "scri/utilities.py: xor_timeseries, xor_timeseries_reverse")
p("C04", "multishuffle is lossless",
  "For every tuple of positive bit widths whose sum is 8, 16, 32 or 64, `unshuffle(shuffle(a)) == a` for every array; the shuffled array holds the same number of words and every word fits in the word size; other width sums are rejected with ValueError.",
  "all width tuples, all arrays, all word values",
  "the number of width tuples is exponential and arrays are unbounded; tests sample about 40 tuples",
  "scri/utilities.py: multishuffle, shuffle, unshuffle")
p("C05", "multishuffle output is the concatenated bit planes",
  "The bit stream of the shuffled array is: for each width in order, the corresponding bit field of every element in turn. In particular with all widths 8 it is the byte transposition done by the HDF5 shuffle filter.",
  "all width tuples, all arrays, all bit positions",
  "a functional specification of every output bit for every input",
  "scri/utilities.py: multishuffle")
p("C06", "fletcher32 equals its mathematical definition",
  "The checksum returned by `fletcher32` is (c1 << 16) | c0, where c0 is the sum of all 16-bit words mod 65535 and c1 is the sum of all prefix sums mod 65535, and no intermediate value exceeds the 32-bit accumulators; 360 is the largest block length with this guarantee.",
  "all inputs of any length",
  "the overflow bound concerns worst-case data of unbounded length",
  "scri/utilities.py: fletcher32")
p("C07", "fletcher32 detects small corruptions",
  "Changing any single 16-bit word (other than between 0x0000 and 0xFFFF) or exchanging two adjacent different words (again other than 0x0000/0xFFFF) changes the checksum.",
  "all inputs, all positions, all replacement values",
  "all pairs of inputs",
  "scri/utilities.py: fletcher32")
p("C08", "Conjugate-pair conversion is invertible and norm preserving",
  "`convert_from_conjugate_pairs` undoes `convert_to_conjugate_pairs` (and conversely), m=0 columns are untouched, and the squared norm of every time sample is unchanged.",
  "all ell_min <= ell_max, all complex data (exact arithmetic)",
  "all data; tests use random data at rounding accuracy",
  "scri/waveform_modes.py: convert_to_conjugate_pairs, convert_from_conjugate_pairs")
p("C09", "Corotating-paired-XOR files read back what was written, and nothing else",
  "Saving a corotating waveform (increasing times, no frame or one rotor per time, no instant at which all modes vanish, 10/2^62 <= tolerance < 20, values within double range) succeeds, and loading the file, with or without validation, gives the same times, ell range and data type, frame type Corotating, both scaling flags set, at each instant modes within sqrt(2)*tolerance of the stored ones relative to the instant's norm, and frames that are exponentials of logarithms within tolerance/20; a `log_frame` that is passed in is stored exactly. Inertial input is rotated first and other frame types raise ValueError. A changed 16-bit word, a wrong number of times, sizes or format are rejected with ValueError unless validation is ignored; without the JSON file loading always fails. A tolerance of exactly 0 changes the data silently, a constant rotor with several times cannot be saved, and an instant with only zeros makes the file unreadable. The object returned by saving with a tolerance holds the encoded numbers: for three or more times its times are never those of the waveform; with tolerance 0 they are.",
  "all waveforms, tolerances, frames and alterations of one word",
  "composition of five encodings over all inputs and all bit patterns, plus the tolerance switch",
  "scri/SpEC/file_io/corotating_paired_xor.py: save, load")
p("C10", "Monotonic filtering of times (SpEC reader)",
  "`monotonic_indices(T)` returns strictly increasing indices starting at the first, the selected times are strictly monotone in the direction of last-minus-first time, filtering is idempotent, keeps everything when T is already strictly monotone, and keeps every sample that exceeds all earlier ones.",
  "all finite sequences of times",
  "unbounded sequences with arbitrary repeats and back-steps",
  "scri/SpEC/file_io/__init__.py: index_is_monotonic, monotonic_indices, monotonize")
p("C11", "Monotonic filtering of times (extrapolation)",
  "When `extrapolation.monotonic_indices(T, MinTimeStep)` returns, the selected times increase by more than MinTimeStep at every step and the last sample is always retained. It returns for every input in which no later sample lies within MinTimeStep of (or before) the first one; otherwise it can loop forever.",
  "all finite sequences of times, all MinTimeStep >= 0",
  "termination and correctness over all inputs; a non-terminating input cannot be tested",
  "scri/extrapolation.py: monotonic_indices")
p("C12", "Intersection of two time series",
  "`intersection(t1, t2, ...)` never writes outside its buffer of len(t1)+len(t2) entries, terminates, and returns a strictly increasing sequence that starts at the latest of the two starts (and min_time) and stays strictly before the earliest of the ends (and max_time), each step being at least the smaller local step.",
  "all strictly increasing t1, t2 and all options",
  "the buffer bound needs a charging argument over all sequences",
  "scri/extrapolation.py: intersection")
p("C13", "Data-type codes survive translation to and from SpEC codes",
  "Translating each of the eleven data types to the SpEC numbering and back gives the same data type; different data types get different codes, and exactly the codes that name a data type are accepted.",
  "all data types",
  "a table property, complete over the finite domain",
  "scri/SpEC/file_io/__init__.py: translate_data_types_GWFrames_to_waveforms, translate_data_types_waveforms_to_GWFrames")
p("C14", "Weights and unit conversion tables are mutually consistent",
  "The r-scaling, m-scaling, spin and conformal weight tables are mutually consistent: along psi0..psi4 each step lowers the spin and the r-exponent by one, and each time derivative (h, hdot, psi4) lowers the conformal weight by one and raises the m-exponent by one; the shear has the opposite spin and the same conformal weight as the strain, but its mass exponent is one too low for its power of r. `SI_units` multiplies a scaled waveform by the physical factor for its data type, does nothing the second time, and never fails for waveform data; the curvature is returned per square metre, not per square second as its documentation says. make_variable_dimensionless scales by M to the documented exponent and rejects the types it has no exponent for.",
  "all data types, masses and distances",
  "tables are hand-written in several places and must agree for all values",
  "scri/__init__.py", "scri/waveform_base.py: SI_units, gamma_weight, conformal_weight", "scri/SpEC/file_io/__init__.py: make_variable_dimensionless")
p("C15", "History nesting depth is balanced",
  "Any sequence of recording methods that return normally leaves every waveform's history depth where it was. Each method that returns a new waveform, and rotate_decomposition_basis, adds exactly one uncommented line to the history of its result (nested calls add only commented lines). The documented aim that the history replays the object fails for truncate, the conjugate-pair conversions, to_inertial/corotating/coprecessing_frame, rotate_physical_system and align_decomposition_frame_to_modes, which add none, and after any exception inside a recording method, which leaves the depth raised.",
  "all call trees of decorated methods, including nested ones and exceptions",
  "all call histories",
  "scri/waveform_base.py: waveform_alterations, _append_history")
p("C16", "Copies do not share mutable state",
  "After w2 = w.copy() (or the constructor applied to a waveform), no history appended to one appears in the other. Operations that build a new waveform by handing over the history list object (to_modes, from_modes) do share it.",
  "all sequences of operations on any number of waveform objects",
  "aliasing shows only under particular interleavings of operations",
  "scri/waveform_base.py: __init__, copy, deepcopy, copy_without_data, _append_history", "scri/waveform_grid.py: to_modes, from_modes")
p("C17", "ensure_validity reports what it checked",
  "If ensure_validity(alter=False, assertions=True) returns, every documented shape relation holds (t one-dimensional and strictly increasing, data.shape = (n_times, n_modes), frame size 0, 1 or n_times, ell range consistent). With assertions=False the boolean it returns is True only when they hold for the mode-specific checks; failures of the base-class checks are not reflected.",
  "all waveform states",
  "all combinations of malformed fields",
  "scri/waveform_base.py: ensure_validity", "scri/waveform_modes.py: ensure_validity", "scri/waveform_grid.py: ensure_validity")
p("C18", "Parity operations are commuting involutions",
  "x-, y- and z-parity conjugates and the full parity conjugate are each involutions, commute pairwise, full parity is the composition of the three, and symmetric plus antisymmetric parts give back the waveform, for every data type with a defined spin weight.",
  "all ell ranges, data and spin weights (exact arithmetic)",
  "all data",
  "scri/waveform_modes.py: x_parity_conjugate ... parity_antisymmetric_part")
p("C19", "Parity violation measures are normalised",
  "The normalised parity violation of each kind lies between 0 and 1 at every time with nonzero norm, is 0 exactly when the waveform is symmetric there and 1 exactly when it is antisymmetric; the squared norms of the symmetric and antisymmetric parts add up to the squared norm.",
  "all data",
  "needs the orthogonal decomposition for all data",
  "scri/waveform_modes.py: *_parity_violation_squared, *_parity_violation_normalized")
p("C20", "Spin raising and lowering factors",
  "`apply_eth` with a string of raising and lowering operators multiplies each mode by the product of the ladder factors in right-to-left order; raising then lowering multiplies by -(ell-s)(ell+s+1) times the convention factor; the commutator gives 2s; modes with ell below the new |s| become 0.",
  "all operation strings, spin weights, ell",
  "unbounded operation strings",
  "scri/waveform_modes.py: ladder_factor, apply_eth")
p("C21", "Angular-momentum expectation <LL> is a positive quadratic form",
  "The matrix returned by LLMatrix is, at every time, real symmetric and positive semi-definite with trace sum ell(ell+1)|f|^2.",
  "all modes data, all ell ranges",
  "all data",
  "scri/mode_calculations.py: _LLMatrix, LLMatrix")
p("C22", "Comparison matrix <L_a L_b> between two waveforms",
  "LLComparisonMatrix(w, w) should equal LLMatrix(w); the implementation stores the y-z component in the y-y slot, so it does not.",
  "all pairs of waveforms",
  "a wrong index in one of nine slots is invisible for non-precessing data",
  "scri/mode_calculations.py: _LLComparisonMatrix")
p("C23", "<L d/dt> and <L> vectors",
  "LVector and LdtVector are the expectation values of the three rotation generators: each component equals the sesquilinear form of the corresponding Hermitian generator matrix; LVector of any data is real.",
  "all data and ell ranges",
  "all data",
  "scri/mode_calculations.py: _LVector, _LdtVector")
p("C24", "Dominant eigenvector signs",
  "The vectors returned by LLDominantEigenvector are unit vectors along the axes found at each time, and the one at RoughDirectionIndex does not point away from RoughDirection. Consecutive vectors differ by less than 120 degrees, and by at most 60 degrees wherever the consecutive axes are within 60 degrees of each other. (Beyond 60 degrees the sign test flips a vector that was already the closer one, so signs are not continuous there.)",
  "all sequences of axes, all reference indices and directions",
  "the sign at one time depends on all times between it and the reference index",
  "scri/mode_calculations.py: _LLDominantEigenvector, LLDominantEigenvector")
p("C25", "Rotating the decomposition basis is an action",
  "rotate_decomposition_basis replaces the modes of each ell, at each time, by their product with the rotor's Wigner matrix (ells never mix, no access leaves the arrays, the reused workspaces do not leak between ells or times); rotating by R1 then R2 equals rotating by R1 R2, data and frame included, for constant rotors and for series; the norm per ell is unchanged; the modes referred to the inertial frame never change; rotate_physical_system undoes it, and going to a rotating frame and then to_inertial_frame restores every mode; rotating by exp(phi z) multiplies mode (l, m) by exp(2 i m phi). (For the Wigner matrices as documented these hold without further assumption: they are a unitary representation.) A series of wrong length is a ValueError. Exceptions: to_inertial_frame raises ValueError on a waveform without frame data, and after a constant rotation a series leaves a two-dimensional frame from which to_inertial_frame raises IndexError; tuples of rotors are silently ignored.",
  "all waveforms of any ell range and number of times, all unit rotors, constant or per time",
  "all rotor sequences and mode ranges; aliasing of the workspace with the result only shows for particular index orders",
  "scri/rotations.py: rotate_decomposition_basis, rotate_decomposition_basis_by_constant, rotate_decomposition_basis_by_series, to_inertial_frame, rotate_physical_system")
p("C26", "Transition functions",
  "On sorted samples transition_function is y0 for x <= x0, y1 for x >= x1, monotone and between y0 and y1 in between, and the returned indices delimit the constant parts; transition_function_derivative samples its exact derivative; the bump function is y0 up to x0, y12 on [x1, x2], y3 from x3; transition_to_constant leaves f unchanged up to t1, subtracts the running integral of f times the slope in between, and keeps the last value from t2 on (zero if no sample precedes t2). The exponential inside never overflows a double, and what is cut off is below 2^-1013 of the step; the derivative however is not a number near the 700th part of the interval, where both sides of its fraction overflow.",
  "all sorted sample arrays of any length, all real parameters",
  "continuum of inputs",
  "scri/utilities.py: transition_function, bump_function, transition_to_constant")
p("C27", "Transition index search stays inside the array",
  "The index loops used by the transition functions stay inside x exactly when some sample is > x0 and, from the first such sample on, some sample is >= x1 (for sorted x: when the last sample is); otherwise the numba-compiled loop reads out of bounds.",
  "all arrays and parameters",
  "out-of-bounds reads in compiled code are silent",
  "scri/utilities.py: _transition_function, transition_function_derivative, bump_function, transition_to_constant")
p("C28", "Supertranslation arguments are completed and made real",
  "After processing, the supertranslation satisfies a(l,m) = (-1)^m conj a(l,-m) for every mode, its length is a perfect square >= 4, data already satisfying the condition is unchanged, and time_translation overrides space_translation overrides spacetime_translation overrides supertranslation on the ell<=1 modes. AsymptoticBondiData silently replaces other data by its real part; WaveformGrid refuses data violating the condition by more than a tolerance. An integer time_translation is refused.",
  "all argument combinations and lengths",
  "all lengths and override combinations",
  "scri/asymptotic_bondi_data/transformations.py: _process_transformation_kwargs", "scri/waveform_grid.py: process_transformation_kwargs")
p("C29", "Transformed data are never extrapolated in time",
  "Each output time slice u' kept by a BMS transformation corresponds, in every direction, to an input time inside the input time range; every candidate slice with this property is kept, in increasing order, and a pure time translation keeps them all.",
  "all grids, supertranslations, boosts below light speed, time arrays",
  "quantifies over every direction and every slice",
  "scri/waveform_grid.py: from_modes", "scri/asymptotic_bondi_data/transformations.py: transform")
p("C30", "Weyl scalar mixing is a representation of null rotations",
  "A BMS transformation changes the quartic form with coefficients psi0..psi4 by a null rotation and weight 1/k^3, which determines the new scalars; two such changes compose by adding the parameters, and with parameter 0 and k=1 nothing changes. AsymptoticBondiData.transform and WaveformGrid.from_modes give the same fields (psi0..psi4, shear and strain, for data with r scaled out) up to the documented conversion of conventions.",
  "all field values and parameters",
  "all complex values",
  "scri/asymptotic_bondi_data/transformations.py: transform", "scri/waveform_grid.py: from_modes")
p("C31", "BMS transformations: reordering preserves the transformation",
  "reorder(output_order) yields a transformation in that order with the same effect on every point (time, direction) of future null infinity, for each of the 36 order pairs, when ell_max >= 12 and the supertranslation is not truncated by its expansion in modes (exactly so for space-time translations); reordering back recovers boost velocity, supertranslation and, up to sign, the rotor. With ell_max < 12 reordering from boost-rotation-supertranslation, or to any order in which the supertranslation is not first, raises ValueError; with ell_max > 12 the modes above 12 are dropped.",
  "all transformations and order pairs",
  "all group elements and 36 code paths",
  "scri/bms_transformations.py: BMSTransformation.reorder, LorentzTransformation.reorder, spin_matrix_to_Lorentz")
p("C32", "BMS transformations form a group under * and inverse",
  "a*b has the effect of first b, then a; (a*b)*c and a*(b*c) have the same effect; the default BMSTransformation has none; a.inverse() undoes a on both sides, in any requested order. With ell_max < 12, a.inverse() of a transformation in normal order exists but a*a.inverse() raises ValueError.",
  "all transformations in any of the six orders",
  "all triples of group elements",
  "scri/bms_transformations.py: BMSTransformation.__mul__, inverse")
p("C33", "Rotation part of the spin-matrix representation",
  "The spin matrix of a rotation has determinant one, is unitary, and the map from unit quaternions (other than -1, for which the matrix is NaN) to spin matrices is multiplicative; boosts give Hermitian positive matrices of determinant one.",
  "all unit quaternions and velocities below 1",
  "all rotors",
  "scri/bms_transformations.py: fourvec_to_spin_matrix, Lorentz_to_spin_matrix")
p("C34", "from_initial_values solves the Bondi evolution equations",
  "With time-polynomial shear, the constructed psi4..psi0 satisfy the three Bianchi identities, the two definitions of psi3 and psi4 and the reality condition of the mass aspect at every time, exactly, and take the given initial values at time 0. With sampled shear the definitions of psi3 and psi4 hold exactly and the mass aspect is real at the first sample.",
  "all initial data, all times",
  "all initial values; tests check rounding-level residuals for samples",
  "scri/asymptotic_bondi_data/from_initial_values.py: from_initial_values", "scri/asymptotic_bondi_data/constraints.py")
p("C35", "Supermomentum definitions",
  "The Geroch supermomentum is the mean of Moreschi and Geroch-Winicour; all four agree on ell <= 1; when the mass-aspect constraint holds the Moreschi supermomentum is real. Names are recognised in any letter case, others are rejected, and integrated=True returns the modes of the conjugate divided by -sqrt(4 pi).",
  "all Bondi data",
  "all data",
  "scri/asymptotic_bondi_data/bms_charges.py: supermomentum")
p("C36", "Center-of-mass charge and four-momentum",
  "bondi_CoM_charge = bondi_boost_charge + t * momentum at every time; charge_vector_from_aspect is the ell<=1 projection: applied to the modes of a constant c plus a vector v it returns (c, v/3). The four-momentum is minus that of the supermomentum in each of its four definitions. mass_aspect(k) drops modes above k for k != 0 but mass_aspect(0) drops nothing.",
  "all Bondi data and times",
  "all data",
  "scri/asymptotic_bondi_data/bms_charges.py: charge_vector_from_aspect, bondi_boost_charge, bondi_CoM_charge, bondi_four_momentum")
p("C37", "Operator D and its inverse",
  "D (Dinverse h) = Dinverse (D h) = h with the ell<2 modes removed, for every mode array holding ell <= ell_max; modes above ell_max are left alone. D is eth^2 ethbar^2, so the potential used by CWWY_angular_momentum is twice the function generating an electric shear.",
  "all ell_max and data",
  "all sizes",
  "scri/asymptotic_bondi_data/map_to_superrest_frame.py: D, Dinverse")
p("C38", "Iterative frame fixing returns its best iterate",
  "Each iterative solver performs at most N_itr_max iterations, stops as soon as the tolerance is met, and returns the first iterate with the smallest error seen; errors that are not numbers never become the best. Every iterate follows from the previous one by the documented correction (perturbation from the supermomentum at the current supertranslation; fit of the transformed data composed with the current transformation). The supertranslation solver returns a pure supertranslation without ell<2 modes, the centre-of-mass solver only a translation and a boost, the rotation solver only a rotation. map_to_superrest_frame and map_to_abd_frame return the round with the least (mean) error and raise UnboundLocalError when no round improves on infinity; with time_phase last the tolerances are never consulted; an unknown name in `order` silently repeats the previous transformation.",
  "all error sequences (including NaN), all iteration limits and tolerances",
  "all error histories",
  "scri/asymptotic_bondi_data/map_to_superrest_frame.py", "scri/asymptotic_bondi_data/map_to_abd_frame.py")
p("C39", "Spin alignment rotor",
  "rotation_from_spin_charge returns the rotor taking z to the direction of the spin at the time closest to 0 (in the rotated frame the spin points along +z, also when it started nearer to -z), about an axis orthogonal to both, for every spin direction other than -z; for -z the quaternion to be normalised is zero.",
  "all unit vectors",
  "continuum of directions",
  "scri/asymptotic_bondi_data/map_to_superrest_frame.py: rotation_from_spin_charge")
p("C40", "Energy flux is non-negative and diagonal",
  "energy_flux equals the sum of |hdot_lm|^2 over 16 pi at each time, hence is never negative and vanishes only when every mode does.",
  "all waveforms",
  "all data",
  "scri/flux.py: energy_flux, matrix_expectation_value")
p("C41", "Momentum, angular momentum and boost fluxes",
  "For strain waveforms (or their time derivative) with any range of ell reaching at least 1, momentum_flux is (1/16 pi) <hdot| n |hdot> with the standard matrix elements of the direction n on spin weight -2; its norm never exceeds energy_flux at any time. angular_momentum_flux is -(1/16 pi) Re <hdot| i J h> with the standard angular momentum matrices (which obey the commutation relations), and equals energy flux over angular velocity for rigidly rotating patterns. boost_flux is the documented combination; the imaginary parts dropped by the code are exactly zero, and moving the origin of time adds one quarter of the momentum flux per unit of time. poincare_fluxes agrees with the four separate functions. Mismatched spin weights, ell ranges, times or data types are refused. A waveform that stores only the (0,0) mode is refused by all but energy_flux.",
  "all waveforms, ell ranges, times",
  "an operator inequality and adjointness relations over all mode contents",
  "scri/flux.py: momentum_flux, angular_momentum_flux, boost_flux, poincare_fluxes, matrix_expectation_value, p_z, p_plusminus, j_z, j_plusminus")
p("C42", "Average center-of-mass fit is the least-squares optimum",
  "For exact moments on [t_i, t_f] the returned x, v (and a) minimise the integrated squared deviation from the trajectory, strictly better than any other parameters, and uniform (uniformly accelerated) motion is recovered exactly. The moments are integrated between the samples nearest t_i and t_f while the formulas use t_i and t_f themselves, so a motionless binary is recovered only if the samples span exactly [t_i, t_f].",
  "all trajectories, moments and time intervals",
  "rational identities in six variables over a continuum of trajectories",
  "scri/SpEC/com_motion.py: estimate_avg_com_motion, com_motion")
p("C43", "Extrapolation recovers the asymptotic waveform of polynomial data",
  "If the r-dependence is a polynomial of degree <= N in 1/r and there are more than N distinct nonzero radii, a least-squares fit of order N returns exactly the asymptotic value, for every mode and time. For any data, the value extrapolated at order N from distinct nonzero radii is a sum over the radii of the data with real weights that depend only on the radii at that time and on N, the same for all modes and waveforms; it does not depend on the order in which the waveforms and their radii are listed, nor on the unit of length of the radii; negative orders return the stored waveform of that index. Inputs are rejected with ValueError exactly when an order cannot be fitted or names no waveform, or the numbers of radii, frequencies, times or modes disagree (the first set of radii is not checked). As soon as there is something to extrapolate, passing Omegas raises TypeError and NoiseFloor raises NameError for psi0 and psi1 data.",
  "all radii, polynomial data, orders",
  "all data",
  "scri/extrapolation.py: _Extrapolate")
p("C44", "Extrapolation bookkeeping files survive crashes",
  "A run of RunExtrapolation that completes leaves exactly one of the finished and error markers (both, if the final message cannot be printed) and its verdict does not depend on the markers found at the start; a crash at any point leaves the directory reported as started and unfinished, except that a finished marker left by an earlier run stays visible until it is removed. An exception is reported with return code 0, and the command that is run never names the script that was just written.",
  "all initial directory states, all crash points, all outcomes of the child process",
  "crash points and histories",
  "scri/extrapolation.py: RunExtrapolation, UnstartedExtrapolations, StartedButUnfinishedExtrapolations, ErroredExtrapolations, NewerDataThanExtrapolation")
p("C45", "Plot time scale and its inverse",
  "For t_merger <= t_ringdown the merger_zoom axis transform is strictly increasing and its inverse transform undoes it (and conversely); with the two times swapped it is not monotone.",
  "all real times and parameters",
  "continuum of inputs",
  "scri/plotting.py: WaveformTimeTransform, InvertedWaveformTimeTransform")
p("C46", "Time slicing keeps data aligned",
  "w[a:b] keeps times, data rows and per-time frame rotors of the same samples together; a constant (single-rotor) frame survives only if the slice includes index 0.",
  "all waveforms and slice bounds",
  "all bounds, negative ones included",
  "scri/waveform_base.py: __getitem__")
p("C47", "Bondi data container: sharing of arrays between objects and fields",
  "In every history of constructions, copies, time translations and in-place assignments of Bondi data objects: the modes of a field change only by assigning that field of that object; the time of an object changes only by assigning it (or, through sharing, the time of a field); assignment is rejected exactly when the shape differs and otherwise is read back. The fields of constructed and translated objects always show the object's own time. copy() gives an object that shows the same times, modes, frame and frame type and changes nothing else, but its fields never follow its own time: they keep the time at copying (and, when numpy hands over the metadata dictionary by reference, follow the original for ever), and interpolate() on the copy uses that stale time. A translated object has times minus t_0, equal modes, an empty frame and inertial type, leaves everything else unchanged, and translations compose. interpolate() evaluates the spline of each field at the new times and interpolates the frame when it has one entry per time.",
  "all histories of construct / copy / translate / assign commands",
  "aliasing histories are unbounded",
  "scri/asymptotic_bondi_data/__init__.py: __init__, copy, interpolate, time setter, psi setters", "scri/asymptotic_bondi_data/map_to_superrest_frame.py: time_translation", "scri/modes_time_series.py: time setter")
p("C48", "NRAR file round trip",
  "A waveform written by write_to_h5 to a new file, or to a new group of a file, lands in the directory of the given name under its base name with the descriptor prefix, and read_from_h5 under that name restores times, modes, ell range, data and frame types, scaling flags, center-of-mass attributes and every history line, whatever keyword arguments are passed, exactly when its times are strictly monotone (increasing or decreasing); otherwise reading raises ValueError. Data sets may be listed in any order. Writing another group does not change what is read from this one. The version history is kept without a group and lost with one; the frame is never stored; files in the other format cannot be read; names with a second .h5 are refused. A data type that is not stored is guessed from the file name, and for names with .h5 the guess is never a Weyl component or the shear.",
  "all waveforms, directory, group and file names, attributes, modes of opening and previous files",
  "the round trip runs through decimal names, a regular expression, sorting and filtering; tests use a few modes and one file name",
  "scri/SpEC/file_io/__init__.py: read_from_h5, write_to_h5",
  "scri/waveform_base.py: descriptor_string, _append_history")
p("C49", "Truncation of mode precision is bounded",
  "truncate(tol) rounds each complex component to a multiple of the smallest power of two not below tol*norm/sqrt(n_modes), moving it by at most half of that unit; the total change of a sample is less than sqrt(2)*tol times its norm; values already on the grid are unchanged; the shape is kept. A sample that is exactly zero becomes not-a-number.",
  "all data and tolerances",
  "all data",
  "scri/waveform_modes.py: truncate")
p("C50", "max_norm_index finds the maximum in the allowed region",
  "max_norm_index(skip) returns the first index at or after the skipped part at which the norm is largest, always inside the array; it raises when nothing is left after skipping.",
  "all waveforms and skip fractions",
  "all data",
  "scri/waveform_base.py: max_norm_index, norm")
p("C51", "Data sharing between waveforms",
  "In programs that do not slice, no two waveforms ever share data: changing one in place never changes another, and each method returning a new waveform leaves the data of all existing ones alone. A time slice w[a:b] is a view: truncating, rotating or converting it in place rewrites the corresponding samples of w.",
  "all sequences of operations on any number of waveform objects",
  "aliasing shows only in particular sequences of operations; tests look at one",
  "scri/waveform_base.py: __getitem__, copy, __init__", "scri/waveform_modes.py: truncate, __getitem__", "scri/rotations.py: rotate_decomposition_basis")
p("C52", "The angular velocity minimises the time dependence of the modes",
  "Whenever omega solves LLMatrix.omega = -LdtVector (what angular_velocity returns), no other angular velocity gives a smaller total of |d f/dt + i (omega.L) f|^2 over all modes at that time, and any other minimiser differs by a rotation that leaves the data unchanged.",
  "all mode data and derivatives, all ell ranges, all candidate angular velocities",
  "an optimality claim quantifies over all competitors",
  "scri/mode_calculations.py: angular_velocity, _LLMatrix, _LdtVector")
p("C53", "Inner product of waveforms",
  "inner_product integrates, over the requested time span, the sum over the common (ell,m) modes of conj(a)*b; exchanging the waveforms conjugates the result, and the integrand of a waveform with itself is its squared norm; it raises for different spin weights, for different ell ranges unless allowed (and always when they do not overlap), and for different times unless allowed.",
  "all pairs of waveforms and options (integration rule linear and positive)",
  "all data and all combinations of the compatibility flags",
  "scri/waveform_modes.py: inner_product")
p("C54", "Centre-of-mass trajectory",
  "com_motion returns the mass-weighted mean of the two body positions, which lies on the segment between them for positive masses. For black holes the masses in the file are used and masses given by the caller are ignored; for neutron stars positions are rescaled to units of the total mass and files with disagreeing times are rejected.",
  "all trajectories and masses",
  "all data and argument combinations",
  "scri/SpEC/com_motion.py: com_motion")
p("C55", "Directions and conformal factor of a boosted grid",
  "For a boost below light speed each point of the transformed grid is evaluated at the aberrated direction (relativistic aberration formula, in the plane of the velocity and the rotated direction), and the conformal factor there is the Doppler factor, positive and bounded; without boost the directions are only rotated.",
  "all frame rotations, grid points and velocities",
  "all velocities and directions; the trigonometric formula hides special cases",
  "scri/asymptotic_bondi_data/transformations.py: boosted_grid, conformal_factors", "scri/waveform_grid.py: process_transformation_kwargs, from_modes")
p("C56", "Dimensionless spin is that of the rest frame",
  "bondi_dimensionless_spin equals the spatial angular momentum of the tensor (J, N) boosted to the frame in which the momentum vanishes, divided by the squared rest mass; it does not change under translations of space and time, and for a system at rest it is J/M^2.",
  "all charges with timelike momentum",
  "all velocities and charges",
  "scri/asymptotic_bondi_data/bms_charges.py: bondi_dimensionless_spin")
p("C57", "Bondi charges obey their balance laws",
  "For data satisfying the Bondi-gauge evolution equations, the rate of the four-momentum is minus the ell<=1 part of the squared news (so the energy never grows, and falls at the sum of the squared news modes of degree at least 2 over 4 pi), the rates of angular momentum and boost charge are the quadratic fluxes in shear and news, and without news all of them are conserved while the centre of mass moves uniformly with the momentum.",
  "all solutions of the evolution equations, all times, any ell_max >= 1",
  "continuum of data and times; a test can check one waveform at rounding accuracy",
  "scri/asymptotic_bondi_data/bms_charges.py: bondi_four_momentum, bondi_angular_momentum, bondi_boost_charge, bondi_CoM_charge")

p("C58", "Reading one finite-radius waveform",
  "The reader used by extrapolation keeps the first and last sample and, between them, samples more than 0.001 apart in time; of each it returns the areal radius over M, the modes multiplied by the power of (areal/coordinate radius) and of M that belong to the data type, and the time (proper time accumulated with the redshift factor, minus tortoise radius)/M. For a static observer in Schwarzschild this is exactly the retarded time; at fixed radius with positive lapse the times increase. Other data types are refused, samples inside the horizon have no time, and the result does not depend on the unit of length as long as the time filter keeps the same samples. The filter itself is absolute, repeated times are not skipped but rejected in the NRAR format, and a growing radius can make times decrease.",
  "all recorded series of times, lapses, radii, modes, masses, data types and both file formats",
  "all data; combined effect of the filter, the quadrature and the rescaling",
  "scri/extrapolation.py: read_finite_radius_waveform, read_finite_radius_waveform_nrar, read_finite_radius_waveform_rpdmb, monotonic_indices")
p("C59", "Which finite-radius data are accepted",
  "A group of finite-radius data passes validation exactly if every selected waveform has areal radius and lapse tables of equal, two-column shape, mode tables all of one shape with three columns and as many rows, and the same number of modes (not necessarily the same modes). The data type is that of the text before the first underscore of the file name, in any directory; without an underscore every .h5 file is taken for strain. Without a list of radii all groups are read and paired with the radius in their names; with a list, each group is read once for each matching entry, in file order, and the list is returned as given. Integer positions and files in the XOR format always raise; several '.h5' in a name raise; mass zero raises.",
  "all files, names, lists of radii",
  "all file contents and names; tests use one well-formed file",
  "scri/extrapolation.py: validate_single_waveform, validate_group_of_waveforms, datatype_from_filename, read_finite_radius_data, read_finite_radius_waveform")
p("C60", "What extrapolate combines and where it writes it",
  "With n data sets exactly the orders -n..n-1 are accepted. All waveforms are taken to increasing common times at which each of them has data, starting at the latest start. With no list of radii all of them are rotated into the corotating frame of the waveform with the greatest radius. In a directory without the output files every order is written and reads back equal (in NRAR format); orders written to groups of one file replace its earlier contents. Negative orders count from the last group of the file, which need not be the outermost; a list of radii in another order than the file picks the wrong frame, an entry matching two groups leaves one in the inertial frame, and repeating a run with one file per order fails.",
  "all lists of radii, orders, times, directories and waveforms",
  "depends on combinations of file order, list order and previous runs",
  "scri/extrapolation.py: extrapolate, set_common_time", "scri/SpEC/file_io/__init__.py: write_to_h5")

p("C61", "Asymptotic data created from files are the data of the files",
  "The object made from files of Weyl scalars and strain holds, at the monotonic times of the first file in units of the mass, each mode of each file at that time, divided by its physical unit and multiplied by (-sqrt 2)^(2-n) for psi_n in the SpEC convention; the shear is the conjugate of the strain, halved in that convention; everything else is zero. The strain read back is then the strain of the file (twice it in the Moreschi-Boyle convention). The stored fields satisfy the Bondi-gauge equations exactly if the file data satisfy them in SpEC conventions. Valid files with equal times and ell_max are accepted; files with different times never are (with a TypeError), nor other ell_max except a lone (0,0) mode, which is copied to all modes. The result does not depend on the unit of length, except that SpECTRE times t become t/M - R. Requested times are used strictly inside the data, without the one nearest to each end.",
  "all files, conventions, masses, units and requested times",
  "depends on conventions and units that agree in the usual test data",
  "scri/SpEC/file_io/__init__.py: create_abd_from_h5, make_variable_dimensionless", "scri/asymptotic_bondi_data/__init__.py: sigma, h")

p("C62", "Conversion to and from the sxs package keeps the waveform",
  "Converting a valid waveform to the sxs package and back gives the same times, data, rotors, types, scalings and range of ell, and a history that starts with the old one; the lines added also appear in the history of the original, which shares the list. From the sxs package and back, everything given is kept when there is no frame or a rotor for each of several times. Type names are recognised in any case, unknown ones become the unknown type. Extrapolation radii, space translation and boost velocity are registered as modifications of the sxs object but never come back. A constant rotor other than 1 stored by the sxs package does not become a frame of one rotor, and a frame of any other length raises NameError.",
  "all waveforms, type names, metadata and histories",
  "all names and shapes of frames; sharing of lists is invisible in value comparisons",
  "scri/waveform_modes.py: from_sxs, to_sxs", "scri/waveform_base.py: __init__, ensure_validity")
p("C63", "compare gives the difference of two waveforms at the common times",
  "b.compare(a) gives, for two valid waveforms with the same modes and overlapping times, a waveform of b's kind at increasing times inside both, whose data are the interpolated data of a minus those of b, mode by mode; with rotors at all times in both, its frame is the interpolated rotor of a times the inverse of that of b, up to one sign. Comparing in the other order negates the data; comparing a waveform with itself gives zero data and unit rotors. Waveforms with different numbers of modes are refused. If b has a constant frame, or a has one and b has a rotor for each time, it always raises AttributeError; a constant frame of a alone is lost; min_time_step and min_time have no effect; waveforms with other modes but as many of them are accepted, subtracting for instance (7,-7) from (2,-2).",
  "all waveforms, times, frames and limits",
  "depends on combinations of frames and ranges of modes that tests do not use",
  "scri/waveform_base.py: compare", "scri/utilities.py: intersection")
p("C64", "Equality up to a tolerance, and the numbers of objects",
  "For objects whose attributes are of the same kinds and shapes, _allclose gives true exactly when the types agree and every attribute that is not excepted and whose name does not end in __num is equal, or close elementwise for arrays, histories counting only if their beginnings are asked for; report_all changes only what is printed. An object equals itself. An attribute missing from the other object raises KeyError, one missing from the first is never looked at. Closeness depends on the order of the objects, and shapes are broadcast: no frame is close to any constant frame, one sample is compared with all. Constructed objects have distinct numbers; an unpickled object has the number of the next object.",
  "all objects, tolerances, exceptions and sequences of creation",
  "all attribute values and shapes; numbers depend on the history of the process",
  "scri/waveform_base.py: _allclose, __init__, __setstate__, num")

p("C65", "What is read from files in LVC format",
  "A file with increasing times and with splines of amplitude and phase for all modes of a range of ell, and phases of no other ell, gives a strain waveform with these times and modes, each mode being amplitude times exp(i phase) at each time; at the nodes of interpolating splines it is the stored amplitude and phase, and its modulus that of the amplitude. The order of the members does not matter, and uninitialised memory does not show. Without times (KeyError), without any phase (IndexError) or with a mode missing between the least and greatest ell, reading fails. The text of the history is taken over line by line as comments. Amplitudes of an ell without phases are dropped silently, and numbers in names written with leading zeros fail.",
  "all files, names, ranges of modes, times and splines",
  "all sets of members and names; tests read one well-formed file",
  "scri/LVC/file_io.py: read_from_h5")

p("C66", "Aligning the decomposition frame to the modes",
  "For a consistent waveform in a rotating frame with one rotor per time and the modes of ell 2, and a fiducial time within its increasing times, align_decomposition_frame_to_modes succeeds for every direction nHat: one constant unit rotor is applied at all times. In the new frame the z axis lies along the dominant axis of the modes (up to the given ell_max) interpolated to the fiducial time, on the side of the angular velocity measured in a window of at most eleven samples around that time; the (2,2) and (2,-2) modes at the fiducial time have equal phases and unchanged moduli; and the x axis, seen from the inertial frame, is not opposite to nHat. The phases are zero, as documented, if the modes are conjugates of each other, but not in general. Other frame types, another number of rotors, fiducial times outside the data and waveforms without ell 2 are refused with ValueError.",
  "all waveforms, times, fiducial times, directions and ranges of ell",
  "relations between computed rotors and modes for arbitrary data",
  "scri/rotations.py: get_alignment_of_decomposition_frame_to_modes, align_decomposition_frame_to_modes")

p("C67", "Corotating and coprecessing frames",
  "to_corotating_frame moves the waveform (modes turned, frame multiplied, type Corotating) by the rotor integrated from its angular velocity; with a z_alignment_region, by that rotor times one constant rotor such that the dominant axes at the samples of the region, seen from the new frame, have their mean along +z; the samples are those nearest to the given fractions of the time to the largest norm, and the sign is that of the angular velocity. With truncate_log_frame the logarithm returned has components that are multiples of one power of two u, tol < u <= 2 tol, within tol of the logarithm of the rotor; the waveform is moved by its exponential, a unit rotor within sqrt(3) tol of the original. The flags change only what is returned. to_coprecessing_frame moves the waveform by unit rotors whose z axes lie along the dominant axes at every time (up to the first transition time), on the side of RoughDirection at the given index. A region fails on waveforms of at most ten times, and on regions without samples; truncation needs a positive tolerance.",
  "all waveforms, times, tolerances, regions, directions and indices",
  "relations between computed rotors, axes and modes for arbitrary data",
  "scri/rotations.py: to_corotating_frame, to_coprecessing_frame", "scri/mode_calculations.py: corotating_frame")

p("C68", "BMS transformation of a waveform from end to end",
  "WaveformModes.transform with a rotation and a time translation gives exactly the modes turned by the Wigner matrices of the rotor, at every time, with all times shifted by the translation; it does not depend on the grid chosen, agrees with rotate_decomposition_basis where both have modes, two such transformations in a row equal the one with the product of the rotors and the sum of the translations, and degrees the waveform did not have come out as zero. Evaluating on a grid and decomposing again gives back the modes. In general, the grid made by from_modes with any supertranslation, rotation and boost holds at every pair of direction and input time that meets a new time slice exactly the transformed field there. The sampling used is that of the documented harmonics: evaluation at a rotor q r is evaluation at r of the turned modes, conjugation exchanges spin weights s and -s, real functions have conjugate-symmetric modes, an exact inverse of sampling exists on every grid. Waveforms not labelled inertial, data without a spin weight within ell_max, and Weyl scalars without those of higher index (unless only rotated and translated in time) are refused with ValueError. The frame of the waveform, however, is ignored.",
  "all waveforms of at least four times, rotors, translations, supertranslations, boosts, grids, spin weights and degrees",
  "a statement about functions on the sphere, through sampling, interpolation and decomposition, for arbitrary degree",
  "scri/waveform_grid.py: from_modes, to_modes, transform", "scri/waveform_modes.py: transform, to_grid")

p("C69", "BMS transformation of asymptotic Bondi data from end to end",
  "AsymptoticBondiData.transform with a rotation and a time translation gives, for each of the six fields, exactly the modes turned by the Wigner matrices of the rotor, with all times shifted; modes below the spin weight and above the input ell_max come out as zero. Two such transformations in a row equal the one with the product of the rotors and the sum of the translations, and no transformation at all gives back the data. For every BMS transformation (supertranslation, rotation, boost) the six fields at every direction of the grid and new time that is the image of an input time are those of the input, mixed as the Weyl scalars and the shear must be; and transforming one field as a waveform, with the scalars of higher index beside it, on the same grid, gives the same times and the same modes up to the factor between the conventions. Results of the decomposition that do not have the output size are refused with ValueError, as are all arguments that the argument reader refuses. The frame of the data is ignored, and the result is always labelled inertial.",
  "all data of at least two (for the comparison four) times, rotors, translations, supertranslations, boosts, sizes and degrees",
  "a statement about functions on the sphere through sampling, interpolation and decomposition, and about the equality of two implementations for all transformations",
  "scri/asymptotic_bondi_data/transformations.py: transform", "scri/waveform_grid.py: from_modes, to_modes")

p("C70", "One supertranslation pass towards the superrest frame",
  "compute_bondi_rest_mass_and_conformal_factor returns the rest mass of the four-momentum of the supermomentum; its conformal factor is that of the boost to the rest frame when the momentum has no y component, and is taken in the direction mirrored in y (so differs somewhere on every grid) whenever it has one. For a stationary system at rest supertranslation_to_map_to_superrest_frame needs a single pass: it returns exactly the real function whose D equals the ell >= 2 part of the supermomentum, without ell < 2 modes, the transformed supermomentum has no ell >= 2 modes left, and the reported error is 0. The correction vanishes exactly when nothing is to be corrected. An ell_max above that of the data is refused with IndexError; one below makes the code evaluate the data in other directions than it decomposes them in. transformation_from_CoM_charge turns a charge g + v t into the translation by g and the boost with velocity v.",
  "all supermomenta, momenta inside the light cone, degrees, tolerances, sets of times and least-squares fits",
  "a statement about functions on the sphere and about an iteration; the tests use data with negligible momentum, where the sign of the y component does not show",
  "scri/asymptotic_bondi_data/map_to_superrest_frame.py: compute_bondi_rest_mass_and_conformal_factor, compute_Moreschi_supermomentum, compute_alpha_perturbation, supertranslation_to_map_to_superrest_frame, transformation_from_CoM_charge")

p("C71", "Rotation of Bondi data about the z axis",
  "rotation(abd, phi) multiplies mode (l, m) of each of the six fields by exp(i m phi), zeroes the modes of degree below the spin weight and keeps times, frame and frame type. For inertial data it returns exactly what abd.transform(frame_rotation=[cos(phi/2), 0, 0, sin(phi/2)]) returns; for others it keeps the frame that transform discards. Rotations compose by adding angles, full turns change nothing and the opposite angle undoes a rotation. MT_to_WM and WM_to_MT undo each other exactly when the data type passed has the spin weight of the series; with the default type any other series comes back with spin weight -2. The target's news used to measure and correct the rotation are differentiated once more than the news of the data they are compared with, so they differ even when both have the same strain.",
  "all Bondi data with ell_max >= 2, angles, series and derivative operators exact on linear functions",
  "an equality of two implementations for all data, and algebraic laws over all angles; tests compare at finite tolerance on a single waveform",
  "scri/asymptotic_bondi_data/map_to_superrest_frame.py: rotation, MT_to_WM, WM_to_MT, rel_err_for_abd_in_superrest", "scri/rotations.py: rotate_physical_system", "scri/asymptotic_bondi_data/transformations.py: transform")

p("C72", "Products of functions on the sphere",
  "a.grid_multiply(b) returns, at every time, the modes of the pointwise product of the two functions, of the sum of the spin weights, up to output_ell_max (default: that of a), whenever working_ell_max is at least the sum of the two ell_max (the default) and output_ell_max does not exceed it; for equal ell_max these are the modes Modes.multiply gives. The factors may be exchanged if output_ell_max is given or both have the same ell_max, and not otherwise. Different times, and an output_ell_max above working_ell_max, raise ValueError. With a smaller working_ell_max modes appear that the product does not have. The product of two harmonics is a sum of harmonics up to the sum of the degrees, with unique real coefficients, symmetric in the factors and under reversal of signs, and with a mean only for equal degrees and opposite orders; so the statements on Bondi charges, supermomentum and energy loss hold for the harmonics themselves.",
  "all series, spin weights, degrees, times and keyword values",
  "identity of functions at every point for all degrees; tests compare two implementations for a few degrees",
  "scri/modes_time_series.py: grid_multiply", "scri/asymptotic_bondi_data/bms_charges.py: supermomentum, bondi_four_momentum")

p("C73", "Sample waveforms and their analytical supertranslations",
  "Transforming a waveform whose modes are linear in time, h = a + t b, by a supertranslation (without boost) gives exactly the modes of a + (u + alpha) b at the new times u, less eth-eth alpha for the strain and half of it for the shear, turned by the frame rotation, provided the spline reproduces straight lines and the grid has the points for the product; the new times are u = t minus the time translation, kept where every direction has data. The waveform of single_mode_proportional_to_time_supertranslated is the product beta (t + alpha(n)) Y_lm on the sphere, cut at ell_max, so transforming single_mode_proportional_to_time (with the same supertranslation and space_translation) agrees with it at common times for psi4, news and hdot, and differs by exactly the derivative of alpha for h and sigma. A space translation v is alpha = - v.n. The times of the single-mode functions are t_0 + i dt, the last being the first not before t_1; only the requested mode is nonzero, and is exp(i omega t) (decaying at the imaginary part of omega) or beta t; the data type has the requested spin weight; other spin weights raise ValueError; an order one above the degree silently selects the next degree. A supertranslation of a size that is not a square raises ValueError. constant_waveform and single_mode ignore their keyword arguments. Leading-order amplitudes obey h_{l,-m} = (-1)^l conj h_{l,m}, do not depend on which mass is the first, vanish for m = 0 and, for equal masses, for odd m; the (2,2) mode is 8 sqrt(pi/5) nu x.",
  "all modes, spin weights, times, constants of proportionality, real supertranslations, grids large enough, mass ratios and frequencies",
  "the tests compare numerically for a few modes and translations; agreement for all modes and supertranslations needs the product expansion of harmonics",
  "scri/sample_waveforms.py: single_mode_proportional_to_time, single_mode_proportional_to_time_supertranslated, single_mode_constant_rotation, constant_waveform, single_mode, pn_leading_order_amplitude", "scri/waveform_modes.py: transform")

p("C74", "Fake finite-radius files",
  "create_fake_finite_radius_strain_h5file writes one group per radius, at integers just below radii equally spaced in inverse radius from r_min to r_max, with constant coordinate radius, areal radius (larger by avg_areal_radius_diff), lapse and energy, at equally spaced times from 0 to t_1 + r_max; simulation time is the inverse of the retarded time the finite-radius reader computes. With n_subleading = 0, reading a group back gives, at every stored sample, exactly the retarded time divided by the mass and the interpolated asymptotic waveform at that retarded time (zero outside its range), times areal over coordinate radius over mass, plus noise of 1e-14 times the time. With n_subleading = 1 the smallest radius has the documented correction. Every other correction accumulates: terms multiply what smaller radii and earlier terms have left in the asymptotic waveform, so the data are not h_0 + h_1/r + ... with radius-independent h_n. mass_ratio has no effect. An existing file is refused with OSError and left alone. More radii than integers between r_min and r_max raise ValueError and leave a file behind.",
  "all waveforms, radii, energies, lapses, amplitudes, numbers of terms and times",
  "tests that extrapolate such a file cannot tell accumulated corrections from intended ones; the inverse relation holds for all energies and radii",
  "scri/sample_waveforms.py: create_fake_finite_radius_strain_h5file", "scri/extrapolation.py: read_finite_radius_waveform")

p("C75", "Removing centre-of-mass motion from files",
  "remove_avg_com_motion in NRAR format writes the corrected waveform beside the original, under its name with _CoM before .h5 and in the same group, touches no other file, and reading that file gives the content of the waveform returned together with the translation and velocity removed. For two black holes whose mass-weighted mean is x + v t, with Simpson's rule and samples at both ends of the interval of the fit, exactly x and v are removed; with the centre of mass always at the origin, strain, news and psi4 are returned and stored unchanged. psi0 to psi3 are corrected with all scalars of higher index, read from the files with their prefixes in the same directory; if one cannot be read, nothing is returned. Nothing is written when not asked for; a second correction into the same group is refused; only inertial frames are accepted; an unknown format is refused when reading. It fails in these cases: a directory name containing the prefix sends the output (or the search for the other scalars) to another directory; the version history is returned but not stored; with a waveform given, an unknown format silently writes nothing; the catalog script changes nothing at all; rows of the table of centres of mass have 11 cells for 10 headings.",
  "all waveforms, trajectories, directory and file names, groups, write modes and states of the disk",
  "tests use one naming scheme and one simulation; where files go depends on arbitrary path names, and the catalog scripts are not tested",
  "scri/SpEC/com_motion.py: estimate_avg_com_motion, remove_avg_com_motion", "scri/SpEC/remove_avg_com_from_catalog.py: run_in", "scri/SpEC/find_com_in_catalog.py: run_in")

p("C76", "Supertranslations and rotations keep the Bondi gauge conditions",
  "Data whose six fields satisfy the six Bondi-gauge equations (three Bianchi identities, psi3 and psi4 from the shear, real mass aspect) still satisfy them, as partial differential equations on the sphere and in time, after transform with a rotation and any supertranslation, although the transform mixes the fields and shifts time by an amount that depends on direction. For data polynomial in time of degree n, the transformed fields have finitely many modes (up to L + (n+4) La) and these modes satisfy the equations; the array returned by transform for sampled cubic data is the samples of such a solution, at the times it returns, if the interpolation goes through its points and reproduces cubics and the output has room. The quantity psi2 + sigma d(sigma-bar)/du + eth^2 sigma-bar of the result at a point is that of the data at the same point of null infinity minus eth^2 ethbar^2 of the supertranslation (no other term). The exact branch of from_initial_values gives such data whenever ell_max leaves room for the products. eth and eth-bar acting on modes are the differential operators on functions of rotors, in spherical coordinates the textbook ones, and satisfy the product rule.",
  "all solutions, all supertranslations, rotations, times and directions; no boost",
  "tests check residuals of one set of initial data to a tolerance; that four identities survive the mixing for every supertranslation is an algebraic fact about the formulas in the code",
  "scri/asymptotic_bondi_data/transformations.py: transform", "scri/asymptotic_bondi_data/constraints.py", "scri/asymptotic_bondi_data/from_initial_values.py: from_initial_values", "scri/modes_time_series.py: eth_GHP, ethbar_GHP")

p("C77", "Bondi-gauge violations measure exactly the failure of the equations",
  "The six entries of bondi_violations are, for sampled data cubic in time and products kept to twice the highest degree, the modes of left side minus right side of the six documented differential equations on the sphere, at the times of the data; an entry of bondi_violation_norms is zero exactly at the times at which that equation holds all over the sphere. Data on a solution have all norms zero; so have their interpolations to any times, and the results of transform by rotations and supertranslations if the output has room and four times are left. Data from the exact branch of from_initial_values with a shear linear in time have all norms zero for any ell_max, since their products are cut at ell_max like those of the construction; cutting changes nothing else in the violations. psi3 and psi4 made from any sampled shear have none. But interpolate and transform return objects whose products are not cut any more, so that such data acquire violations from interpolation to their own times or from the transformation that does nothing. The six methods return both sides, one of them or None as asked for, and refuse fewer than two or unordered times.",
  "all data that are cubic in time, all highest degrees, times and directions; all flags; for cut products and sides, all data and splines",
  "a test can compare norms with a tolerance for one set of data; it cannot show that zero norms mean a solution, nor see that what is measured depends on the history of the object",
  "scri/asymptotic_bondi_data/constraints.py", "scri/asymptotic_bondi_data/__init__.py: interpolate", "scri/asymptotic_bondi_data/transformations.py: transform", "scri/modes_time_series.py: interpolate, derivative, dot, ddot")

p("C78", "Charges of transformed data are the transformed charges",
  "For every set of asymptotic Bondi data and every rotation with a time translation t0 given to transform: the energies and rest masses of the result are those of the original at the corresponding times; linear momentum, angular momentum, center-of-mass charge and dimensionless spin are the original vectors turned into the new frame; the boost charge is the turned sum of the original and t0 times the momentum; the Chen-Wang-Wang-Yau angular momentum turns as well if the highest degree is kept.",
  "all data of all sizes, all times, all rotations given by any quaternion far enough from zero, all time translations, all output and working degrees with room for the data; any spline whose derivatives are linear in the values and do not notice a shift of the times",
  "a test can compare one object with one rotation to a tolerance; it cannot show that no part of the many products and projections in the charges spoils the behaviour under rotations, and for data with products of all degrees",
  "scri/asymptotic_bondi_data/bms_charges.py", "scri/asymptotic_bondi_data/transformations.py: transform", "scri/asymptotic_bondi_data/map_to_superrest_frame.py: 𝔇inverse")

p("C79", "Charges of stationary data under translations and supertranslations",
  "For data that solve the Bondi-gauge equations and carry no radiation (the shear does not change in time) the energy, momentum, angular momentum, boost charge, rest mass and spin are the same at every time, and: (1) any real supertranslation, with or without a rotation, leaves energy and rest mass as they are and turns the momentum P with the rotation only; (2) a translation by t0 and x (the result of time_translation = t0 and space_translation = -x) adds x cross P to the angular momentum and E x + t0 P to the boost charge, before both are turned, while the dimensionless spin of a body moving slower than light is only turned; (3) if psi2 is real the Chen-Wang-Wang-Yau angular momentum changes under a supertranslation by x cross P only, where x is its l = 1 part: it does not notice the modes l >= 2; (4) the translated data are given at all the original times, less t0, that are at least |x| away from both ends.",
  "all stationary data of all sizes, all times, all real supertranslations, translations and rotations, all output and working degrees with room for the products; any spline that reproduces cubic polynomials",
  "a test computes the charges of one solution before and after one supertranslation to a tolerance; that the conjugations, factors and products in the six transformed fields and in the charges fit together for all modes, and that every l >= 2 contribution cancels exactly in one of the charges, are identities between integrals over the sphere of products of arbitrary degree",
  "scri/asymptotic_bondi_data/bms_charges.py", "scri/asymptotic_bondi_data/transformations.py: transform")

p("C80", "Alignment of the spin and fit of the centre of mass for whole data",
  "On the way to the superrest frame the rotation pass, applied to whole data whose spin s at the time nearest zero is neither zero nor along -z, returns a pure rotation (no boost, zero supertranslation) that takes z to the direction of s; the data it is applied to have spin (0, 0, |s|) at that time, whether one or many passes are done, and the list of errors starts with infinity and repeats one number from then on. If the spin has the same direction u at all times the first error is exactly zero, so only one pass is made, and the spin of the result is along z at all times. For data without radiation the centre-of-mass fit returns the boost with velocity P / E and the translation by N / E where E, P and N are energy, momentum and boost charge, whatever the times are.",
  "all data of all sizes and all times, all numbers of passes and tolerances, any derivative spline that is linear, any line fit that minimises squares",
  "a test looks at one binary after one call to a tolerance; that the rotation found depends only on the spin at one time, that repeated composition in a given order returns to the same rotation, and the exact velocity and position for every stationary solution, are statements about all data",
  "scri/asymptotic_bondi_data/map_to_superrest_frame.py: rotation_to_map_to_superrest_frame, com_transformation_to_map_to_superrest_frame")

p("C81", "Batches of extrapolations on disk",
  "Searching a top directory for possible extrapolations lists exactly once each of the six data files in each directory below it that is named Lev followed by digits and holds metadata.txt, as (path below the top directory, file), provided the top directory is not itself such a directory, is written without a slash at the end, and its name followed by a slash does not come again further down (otherwise the reported path is not the path below the top: every occurrence is removed). Filling in a script template replaces the known fields in braces and keeps the unknown ones, and filling in two steps is filling in at once if the values have no braces; doubled braces do not survive the first step and a template with {} raises. With an absolute output directory a run changes the marker files of its own (directory, file) pair only, leaves it finished or errored as the command decided, stamps the finished marker with the time of the end, and returns to the original directory; after running any list of different pairs none of them is unstarted or unfinished, the errored ones are those whose command failed, and every other pair has the status it had. With a relative output directory the outcome can never be recorded: the run raises and the pair stays unfinished whatever the command did. Newer data are the finished pairs whose data or metadata changed strictly after the run ended; one finished pair without its data makes the whole query raise.",
  "all directory trees and names, all templates made of text and fields, all worlds of files and times, all lists of runs and results of commands",
  "tests make one small tree in a temporary directory with an absolute path; which names break the removal of the top directory, that two pairs never share a marker file, and the status of everything after any sequence of runs, are statements about all names and all sequences",
  "scri/extrapolation.py: FindPossibleExtrapolationsToRun, RunExtrapolation, UnstartedExtrapolations, NewerDataThanExtrapolation, StartedButUnfinishedExtrapolations, ErroredExtrapolations, _safe_format")

p("C82", "Mass of the horizons picked for extrapolation",
  "For two columns of equal length N >= 1 the mass picked is the lower edge of the first of the fullest of N equal bins between the smallest and largest sum of the two masses; some sample lies at most one bin above it. If the sum is the same mu at all times the result is mu for an even number of samples but mu - 1/(2N) for an odd number.",
  "all lists of masses of any length",
  "a test with one file cannot tell that the returned edge is within a bin of a sample for all data, nor that constant masses are wrong for every odd number of samples and right for every even number",
  "scri/extrapolation.py: pick_Ch_mass")

p("C83", "BMS transformations as objects, copies, files and comparison",
  "A BMSTransformation with ell_max >= 0 (and no working_ell_max) can be constructed exactly when ell_max >= 1, the arguments are acceptable for a transformation of data, and the supertranslation has at most (ell_max+1)^2 entries; a longer one raises ValueError. Its supertranslation then has all (ell_max+1)^2 modes of a real function (the real part of the argument, translations overriding, zero beyond), its rotor is a unit, its speed is below one, and its order is the one given followed by the missing parts, each once. copy() has exactly the same attributes. Whatever to_file writes in any mode and group, from_file reads back with the same attributes; adding to a file leaves the other groups as they were, mode w removes them, and a group that exists is never overwritten in modes a and r+; any number of objects appended to different groups of one file are all read back. is_close_to is exactly |a-b| <= 1e-8 + 1e-5 |b| for every component of rotor, velocity and supertranslation if both have the same ell_max; it is not symmetric, ignores the order although the transformations differ, is always False for rotors q and -q, and raises for objects with different ell_max.",
  "all arguments, sizes, orders, files, groups and sequences of writes; all pairs of objects",
  "round trips are tested for a few objects; that padding, normalisation and completion change nothing the second time for any object, and that no sequence of writes disturbs other groups, needs all objects and files",
  "scri/bms_transformations.py: BMSTransformation.__init__, copy, to_file, from_file, is_close_to, LorentzTransformation.is_close_to")

p("C84", "Parity conjugates are mirror images, with their frames",
  "The parity conjugates of a waveform are mirror images of its field: the value of the conjugate at a rotor is the complex conjugate of the value at the mirrored triad (second leg reversed), for reflection along x and y without and along z and along all axes with the factor (-1)^s. Two reflections along x and y are half a turn about z; a reflection along z and one along x or y are half a turn about the third axis times (-1)^s, so for odd spin weight (psi1, psi3) the reflections are not consistent and a field that is its own mirror image along z counts as completely antisymmetric. Rotating and then mirroring gives exactly the same waveform (modes, frame, or error) as mirroring and then rotating by the mirrored rotors, for every kind of argument; so mirroring commutes with to_inertial_frame. A violation is unchanged by rotations that carry the mirror into itself (every rotation for the full parity) and not by others. The frames of the symmetric and antisymmetric part add up to the frame, so they are never both rotors; the antisymmetric part with respect to all axes has the frame zero.",
  "all mode data, degrees, spin weights, rotors, frames, rotor arguments and contents of uninitialised arrays",
  "the tests check that the operations are involutions on random data; that the modes of the conjugate belong to the reflected field at every point, and that reflection and rotation commute for every rotor and degree, needs the Wigner matrices in general",
  "scri/waveform_modes.py: x_parity_conjugate, y_parity_conjugate, z_parity_conjugate, parity_conjugate, *_parity_symmetric_part, *_parity_antisymmetric_part, *_parity_violation_normalized; scri/rotations.py: rotate_decomposition_basis, to_inertial_frame")

p("C85", "Mapping to the frame of other data",
  "Whatever the inner solvers find, the transformation map_to_superrest_frame returns (components in the usual order) moves the time to t_0, applies what was found for the data so far, step after step and round after round, and moves the time back; if only rotations and boosts are found the instant t_0 stays t_0 in every direction, and if nothing is found it is the identity. The transformation map_to_abd_frame returns comes out of a round, all the data are transformed by it, and the error reported is that of the interpolated piece transformed by it. A round makes the new transformation followed by that of the target to its superrest frame equal to the old one followed by that of the transformed data to theirs (with the time and phase of the first alignment in between and those of the second at the end, if these are to be fixed); so it changes nothing exactly if both are equally far from their superrest frames, and data compared with themselves get the identity. The first guess moves the sample whose energy is nearest to that of the target at t_0 to t_0: it finds the delay of delayed data whose energy decreases, but takes the first sample to t_0 if the energy is constant, even for the target itself. The piece is cut before that guess: it has all samples needed if the data are late by at most half the padding, and none as late as t_0 if by more than one and a half. The error is zero for equal fields, |c| times the share of fields that do not vanish for fields in the ratio 1 + c, does not depend on units if no field of the reference vanishes; it is not symmetric, and it is the absolute difference where the reference vanishes.",
  "all data, numbers of rounds, orders of steps, results of the solvers and alignments, times, paddings and supertranslations that the projection on modes reproduces",
  "a test runs one pair of data; that the product of all steps is assembled in the right order, with the right inverses and time translations, has to hold for every sequence of results of the solvers",
  "scri/asymptotic_bondi_data/map_to_abd_frame.py: map_to_abd_frame, rel_err_between_abds; scri/asymptotic_bondi_data/map_to_superrest_frame.py: map_to_superrest_frame; scri/bms_transformations.py: BMSTransformation.__mul__, reorder, inverse")

p("C86", "Generators, expectation values and angular velocity under rotations",
  "The modes that a combination of the rotation generators along a vector makes of modes seen from a rotated frame are those it makes along the same vector before, seen from that frame. So LVector and LdtVector turn as vectors and LLMatrix as a tensor, with the same eigenvalues and eigenvectors seen from the new frame. The angular velocity is the one velocity of a frame for which the modes change least, unless the waveform is symmetric about some axis (for example without waves), when it raises LinAlgError. After rotate_decomposition_basis with a constant it is the same vector seen from the new frame. Seen from a rotating frame the modes change by the rotation with the frame's velocity in addition: the angular velocity is that in the inertial frame minus that of the frame, seen from the frame; it vanishes exactly if the frame corotates, and then the modes change less than in any other frame. The result with include_frame_velocity adds the velocity of the frame in components of the inertial frame to that difference in components of the frame; it is the total seen from the frame, as documented, exactly if the frame turns about an axis it shares with the inertial frame, and a waveform that does not change at all gets an angular velocity of length sqrt(2) in a frame that turns once about the z axis lying on its side.",
  "all modes of all degrees, unit quaternions, frames differentiable in time, waveforms with any number of modes and times, derivatives by weights or exact",
  "a test checks one rotation of one waveform to rounding; the law for every rotation of every waveform needs the differential of the Wigner matrices",
  "scri/mode_calculations.py: LVector, LdtVector, LLMatrix, angular_velocity; scri/rotations.py: rotate_decomposition_basis")

p("C87", "How far data are from the superrest frame",
  "rel_err_for_abd_in_superrest measures the supermomentum by the length of the vector of its Moreschi modes of degrees 2 and more at the time nearest to zero, less those of the target if one is given; it is zero exactly if these modes vanish or are those of the target, and a target with another highest degree raises ValueError. Rotating the frame of the data leaves the errors of the centre of mass and of the supermomentum as they are, also against a target rotated along; the error of the spin becomes that of the spin against the axis z of the new frame; and rotating the data and a target strain together leaves the error of the rotation as it is. If the angular velocities of the data's news and of the second derivative of the target strain have the same directions at all times, that error is the average of zeros. It is the second derivative that is compared with the data's news: so data compared with their own strain need not have the error zero, and a strain quadratic in time always raises ValueError, even if the angular velocity of its news has a direction at all times.",
  "all data, targets, numbers of times and degrees, unit quaternions; splines linear in the values (and exact for cubics for the last claim), any integration rule",
  "a test checks the errors of one data set in one frame to rounding",
  "scri/asymptotic_bondi_data/map_to_superrest_frame.py: rel_err_for_abd_in_superrest, map_to_superrest_frame; scri/asymptotic_bondi_data/bms_charges.py: supermomentum")

p("C88", "Supertranslating to a target supermomentum",
  "With a target supermomentum, the supertranslation found for stationary data at rest moves every mode of degree 2 and more by four times the difference of the data's and the target's modes over (l+2)(l+1)l(l-1) and no mode of degree 0 or 1. If the target is constant in time and has a mode of degree 2 or more, one round is enough: the error is 0 and the supertranslated data have the modes of the target from degree 2 on and their own below. No round fails for such data, whatever the target constant in time. A target without modes of degree 2 and more is not the same as no target, although the documentation says that no target means the target zero: all errors are then infinite or undefined, every permitted round is spent, and the supertranslation returned is zero whatever the data. A target that changes with time is interpolated, at each point of the sphere, at the time which the supertranslation found so far gives that point. A target with a higher ell_max than the one the supertranslation is computed with raises IndexError, one with a lower ell_max of at least 1 raises ValueError.",
  "all data and targets, degrees, numbers of times, tolerances and limits of the rounds; any spline that keeps constants, any exact decomposition on the grid",
  "a test reaches one target to rounding for one resolution",
  "scri/asymptotic_bondi_data/map_to_superrest_frame.py: supertranslation_to_map_to_superrest_frame, compute_alpha_perturbation, map_to_superrest_frame")

p("C89", "Rotating data to the angular velocity of a target strain",
  "With a target strain, the rotation pass returns the rotation of the round with the least error, where the error of a round is what rel_err_for_abd_in_superrest finds for the rotated data, or no rotation if no error is below infinity; the result never contains a supertranslation or a boost. If the alignment of the two series of directions returns a rotation taking the data's directions to the target's at all times, one round is enough: the error is 0 and the rotated data's angular velocity has the target's directions. In general the first round turns the data's directions by the rotation that the alignment returns, and its error is the mean distance from the target's directions then; so an alignment of the opposite sense (taking the target's directions to the data's) leaves an error equal to the mean distance of the target from itself turned twice. A target whose second derivative has no angular velocity at some time, in particular every strain quadratic in time, raises ValueError whatever the data and even if no round is asked for.",
  "all data and targets, degrees, numbers of times, alignments, tolerances and limits of the rounds; splines linear in the values, exact decompositions on the grid, any integration rule",
  "a test aligns one waveform to rounding",
  "scri/asymptotic_bondi_data/map_to_superrest_frame.py: rotation_from_vectors, rotation_to_map_to_superrest_frame")

p("C90", "The sample waveform of a precessing binary",
  "For 0 < dt <= 10 and positive mass ratios, fake_precessing_waveform raises ValueError exactly if the merger (100 before t_1) comes at most 39/2 dt after t_0, and otherwise returns data at the times t_0 + k dt, the last within dt of t_1, with a unit rotor for every time; steps -100 <= dt < 0 always raise ValueError. Inverting the mass ratio changes nothing. In the corotating frame the modes of order 0 vanish, those of odd order too for equal masses, and the modes (l, m) and (l, -m) are related by reflection up to a common factor of at most 41/39, which is 1 from merger + 20 + dt on. Up to 10 + 2 dt before the merger modes and frame follow the stated leading-order phase and frequency exactly; from merger + 20 + dt on every mode is its value at frequency 1/4 times 9/4 exp(-2/23 (t - merger)). The first rotor squared is the rotor before the initial tweak. With inertial=True the modes are those of the corotating frame turned back, with a constant frame. Contrary to the documentation the axis precesses with the orbital phase divided, not multiplied, by precession_relative_rate; precession_nutation_angle has no effect before the merger; after the merger the axis settles only without nutation, otherwise it is not the same at any three successive times; and the default rate of opening is reckoned to merger + 20 instead of to the merger.",
  "all arguments as stated, all times, degrees and orders; any integration rule with one value for every time (linear on constant integrands, or the phase going forward by at most 3 per step, for the circling after the merger); any Wigner matrices for the inertial frame",
  "the tests only use the default arguments as input for other functions, and never look at phase, axis or limits of the waveform itself",
  "scri/sample_waveforms.py: fake_precessing_waveform")

p("C91", "The random sample waveforms",
  "random_waveform and random_waveform_proportional_to_time return strain with the modes of degree 2 to 8 and one row of 77 modes for every time, in a corotating frame with one rotor for every time unless rotating is false. Without uniform_time the times are n_times numbers from begin to end in order, and an argument t is ignored; with it they are equally spaced from begin to end, or those given. Other limits begin < end stretch the times of random_waveform and change neither data nor frames; turning the rotation off does not change its times. Its frames are in the directions of four numbers drawn one after the other. Data proportional to time are the time multiplied by one number for each mode; their frame turns about one axis, exactly four times between first and last time, where its rotors agree, although the documentation promises a random orientation at each instant. Within one process the waveform depends neither on the state of numpy's generator nor on any other keyword argument, although such arguments are documented as being passed on, and the state of the generator after the call no longer depends on what the user had seeded it with. A negative n_times raises ValueError; a rotating waveform proportional to time without any time raises IndexError.",
  "all arguments, generators, states of the generator and hashes; for the frames all generators whose uniform numbers are never exactly one half",
  "the tests use one sequence of random numbers for each process, and never look at the waveforms themselves",
  "scri/sample_waveforms.py: random_waveform, random_waveform_proportional_to_time")

p("C92", "The files written by extrapolate",
  "With an output directory, extrapolate writes each order to its file and, for every order after the first in the list, its comparison with the order before to the file named by both orders; if these files are all different (and those of the orders after the first do not exist yet) all of them can be read back with the contents written, and no other file changes, but for the one deleted as below. Difference files are written whatever was there before. Without names for differences, or with a single order, no difference is written. If all differences go to groups of one file, only the comparison of the first two orders is left in the end, since each overwrites the file. Names ending in .dat raise AttributeError. Without an output directory nothing is written; but in the old format with names of groups in a file X.h5/... the file X.h5 of the current directory is deleted, with or without an output directory, although the results do not go to that file and no files of any kind are to be output without one.",
  "all lists of orders, waveforms, file names, directories and their contents; any comparison of two waveforms",
  "tests write to fresh temporary directories with the default names",
  "scri/extrapolation.py: extrapolate; scri/SpEC/file_io/__init__.py: write_to_h5")

p("C93", "Saving and loading waveforms in the RPXMB format",
  "Loading an RPXMB file gives the decoded waveform with the JSON data and the logarithm of the frame as its attributes json_data and log_frame: by itself if the inertial frame was asked for, otherwise as a pair with that logarithm. Without keywords, validation failures are errors, checksums are verified and a pair is returned. Saving without keywords overwrites, with tolerance 1e-10. Every error of the decoder or of the conversion is passed on. A waveform that cannot be converted, for example because its number of frames is neither 0, 1 nor the number of times, is refused before anything is written. If decoding returns what was encoded, with data and frames as close as the format makes them, then so do save and load together: same times, types and modes, data as close, and the decoded frames. Radii of extrapolation, translation and boost are lost as attributes.",
  "all waveforms, options, files and disks; any encoder and decoder",
  "the encoder and decoder are in another package; tests compare single waveforms after one round trip",
  "scri/SpEC/file_io/rotating_paired_xor_multishuffle_bzip2.py: save, load; scri/waveform_modes.py: to_sxs, from_sxs")

p("C94", "Amplitude and unwrapped phase of the data",
  "For every time and mode, the data are abs times exp(i arg) and also abs times exp(i arg_unwrapped); arg is in (-pi, pi] and 0 for data that are zero. arg_unwrapped has the shape of the data, equals arg at the first time, differs from it by full turns afterwards, and never steps by more than pi; where arg steps by less than pi the two agree. If a mode is nowhere zero and its phase steps by less than pi, arg_unwrapped is that phase up to one constant number of full turns; multiplying the mode by a constant shifts it by a constant, and later samples do not change it. A signal turning by between pi and 2 pi from sample to sample is given the phase of one turning the other way, and a sample that is exactly zero can cost a full turn although an arbitrarily small one does not.",
  "all arrays of data, any number of times and modes",
  "a statement about all sequences of complex numbers, including the steps of exactly half a turn; tests use smooth data",
  "scri/waveform_base.py: abs, arg, arg_unwrapped")

p("C95", "Derivatives and integrals of time series",
  "For times that increase, at least two, data_dot, data_ddot, data_int and data_iint (and dot, ddot, int, iint of a ModesTimeSeries) are, column by column, samples of the first and second derivative and of the first and second integral from the first time of one and the same curve through the data; the integrals are zero at the first time. With four or more times this curve is the only one that passes through the data, is twice differentiable, is a cubic between neighbouring times and a single cubic over the first two and over the last two steps; for data sampled from a cubic, values, three derivatives and both integrals are exact at every time, inside and outside the range, and the curve depends linearly on the data and not on the origin of time. Other times, and derivative orders above 3, raise ValueError. The derivative of the integral is in general not the data; with three times cubics are not reproduced; interpolate(..., out=array) raises ValueError whenever the array has two or more entries, and does not fill one that holds a single zero.",
  "all increasing times with any spacing and number, all data",
  "existence, uniqueness and smoothness of a curve for every set of points; tests check one function to a tolerance",
  "scri/waveform_base.py: data_dot, data_ddot, data_int, data_iint; scri/modes_time_series.py: interpolate, antiderivative, derivative, dot, ddot, int, iint")

p("C96", "Integration behind the fit of the centre-of-mass motion",
  "If the mass-weighted mean position of two black holes is x + v t at the sampled times, and samples lie at both ends of the chosen interval, estimate_avg_com_motion returns exactly x and v, for every spacing of the samples, when the number of steps between the ends is even; with scipy 1.11 to 1.13 also when it is odd and at least three. With scipy up to 1.10 and an odd number of steps every component of the velocity is returned too large by the factor 1 + r, where r is the sum of the cubes of the first and the last step over the cube of the interval, and x is off by -r v times the middle of the interval. With fit_acceleration=True and 2n equal steps, uniform motion is recovered, and for a uniformly accelerated motion the acceleration is returned as a (1 + 3/(2 n^4)), with position and velocity off accordingly. A centre of mass at the origin is never moved. For any samples and window, the fit of a linear combination of two trajectories sampled at the same times is that combination of their fits.",
  "all numbers of samples, increasing times with any spacing, positions, velocities, accelerations, fractions skipped",
  "exactness of a quadrature for all spacings and the closed form of its error; a test sees one spacing and a tolerance",
  "scri/SpEC/com_motion.py: estimate_avg_com_motion")

out = pathlib.Path(__file__).resolve().parents[1] / "properties.jsonl"
out.write_text("".join(json.dumps(d, ensure_ascii=False) + "\n" for d in P))
print(len(P), "properties")
