# Formal model of moble/scri — design

The model lives in `rocq/theories` (logical name `Verif`), Coq 8.16.1. `properties.jsonl` lists the
properties, `MANIFEST.json` maps each to its theorems, `ASSUMPTIONS.md` gives the output of
`Print Assumptions` for every theorem (made by `tools/assumptions.py`), and `seeded/LOG.jsonl` records the
mutation experiments. `tools/mkprops.py` and `tools/mkmanifest.py` generate the first two files.

## Conventions

* Each topic `X` has `X_Model.v` (definitions only, each citing file and lines of /repo) and one or more
  `…_Proofs.v` (a small independent specification first, then lemmas, theorems, and `Example`s showing that the
  hypotheses of the theorems are met by concrete, non-trivial data). A theorem `Cnn_…` belongs to property Cnn.
* Python integers are `Z`; arrays are lists (or functions of an index) with explicit failure values for
  out-of-range access; wrapping of negative indices is modelled where the code can reach it.
* Exceptions are values: `res A` is `Ok a` or `Err e`, `e` naming the Python exception (`Common.v`).
  `OutOfBounds` stands for a read outside an array in code compiled without bounds checks.
* Loops that might not end take fuel and return a distinguished error when it runs out; theorems about them show
  how much fuel is enough, or that no amount is.
* Fixed-width integers: the wrap-around (mod 2^k) is written in the model.
* Rounding is not modelled. Numbers are the standard library's reals `R` (own complex numbers in `Cplx.v`,
  quaternions in `Quat.v`), except: bit-level codecs work on exact words; `Double_Model.v` has the exact IEEE 754
  word of a number; `Validity_Model.v` and `Superrest_Model.v` have NaN and infinities; `Transition_Model.v` has the
  overflow of doubles.
* Where a claim is false of the code, the property states the exact condition under which it holds: a positive theorem
  under that condition plus a theorem `…_refuted` with a witness for the failing case.

## Trusted base

* Coq's kernel. No `Admitted`, no axioms of our own, no kernel check switched off, no plugins.
* `Print Assumptions` of every theorem lists nothing but these axioms of the standard library (see `ASSUMPTIONS.md` for
  which theorem uses which): `ClassicalDedekindReals.sig_forall_dec`, `ClassicalDedekindReals.sig_not_dec`,
  `FunctionalExtensionality.functional_extensionality_dep`, `Classical_Prop.classic`. They come with the library's
  real numbers and analysis; theorems about integers, lists, bits and object heaps alone are closed.
* The translation by hand from Python to Gallina, which the line references are meant to let a reader check.
* External libraries. Either their documented behaviour is written out in the model (numpy slicing, masks, `argmax`,
  `searchsorted`; quaternion products; `sf.LM_range`, `sf.LM_index`; HDF5 as trees of named values), or the call is a
  `Section` variable and the theorem quantifies over everything it might do, possibly under a stated hypothesis:

| external call | where | assumed of it |
|---|---|---|
| `spherical_functions` product of modes (Clebsch–Gordan table) | `ABD_Model` `K` | nothing; some theorems need the table symmetric, invariant under reversal of signs, orthogonal (K_symmetric, K_flip, K_orthogonal), or multiplying function values (`evaluation`); `Product_Proofs` and `Gridmul_Proofs` construct the table of the spin-weighted harmonics and prove all four of it (C72) |
| Wigner D matrices | `Rotate_Model` | homomorphism and unit (`Dw_mul`, `Dw_one`); unitary for norms.  All three are proved for the formula of the package's documentation (`Wigner_Model`, `C25_wigner_*`, `C25_documented_*`), so only "the package computes its documented formula" is left |
| `spinsfast` evaluation/projection on grids | `Transform_Model`, `Spin_Model` | values at a direction are inputs; projection is the identity on the modes it keeps |
| splines: `interpolate`, `.dot`, `.int`, `indefinite_integral` | `Transition_Model`, `ABD_Model`, `Store_Model`, `Numeric_Model` | one value per sample; linear in the samples where used |
| `numpy.linalg.svd`, `scipy.linalg.logm` | `Spin_Model` | defining equations of a singular value decomposition; closed form of the principal logarithm |
| `numpy.linalg.eigh` | `Ops_Model`/`Dominant_Proofs` | returns some eigenvectors; only sign fixing is modelled |
| work inside one frame-fixing pass | `Superrest_Model` | nothing (may raise, may return NaN) |
| `quaternion.as_quat_array`, `np.diff` on non-vectors | `Validity_Model` | nothing |
| `quaternion.squad`, `CubicSpline`, mean rotor | `Compare_Model` | one rotor per time, non-zero if all given are; mean of unit rotors 1 is 1 (only in `C63_self`, `C63_frame`) |
| `as_quat_array` of four numbers | `Sxs_Model` | bare rotor or 0-dimensional array (both covered) |
| `InterpolatedUnivariateSpline`, `np.empty` | `Lvc_Model` | one value per time (or an exception); interpolates at nodes only in `C65_at_nodes`; memory arbitrary |
| `angular_velocity`, `squad`, `CubicSpline`, `LLDominantEigenvector` at one time, `quaternion.sqrt`, `math.atan2` | `Align_Model` | one angular velocity per time; unit rotors give a unit rotor; as many columns as the rows; the axis is not zero; `qsqrt`, `atan2` are written out in exact arithmetic, without signed zeros |
| `angular_velocity`, `integrate_angular_velocity`, `max_norm_time`, `np.linalg.eigh`, `minimal_rotation`, slowing part of the coprecessing frame, `np.log`, `np.exp` of quaternions | `Corot_Model` | one unit rotor per time; eigenvectors not zero; minimal_rotation multiplies each rotor by some exp(gamma z); slowing rotors are unit rotors; `qlog`, `qexp` are written out in exact arithmetic; integers from 2^64 on are refused by arrays (numpy before 2) |
| `InterpolatedUnivariateSpline`, `spinsfast.map2salm`, `sf.SWSH`, `sf.eth_GHP`, `sf.ethbar_GHP` | `Pipeline_Model`, `Sphere_Model` | the spline passes through its points if these are at least four in increasing order; `map2salm` recovers the modes of every band-limited field sampled on the grid (`exact`, shown to be satisfiable for every grid by `C68_inverse_exists`); the harmonics are the documented ones, written out with the Wigner matrices of `Wigner_Model`; eth and ethbar multiply the modes by the documented factors |
| `CubicSpline` | `Abdpipe_Model` | passes through its points if these are at least two in increasing order; for the comparison with waveforms only: acts on real and imaginary parts separately, agrees with `InterpolatedUnivariateSpline` for at least four points, and both it and `map2salm` commute with real factors |
| `CubicSpline`, `spinsfast.map2salm`, `numpy.polyfit` | `Rest_Model` | the spline through constant data is that constant (for the refusal: it accepts one value per time); `map2salm` is exact on band-limited functions; `polyfit` with deg=1 minimises the sum of squares |
| `scipy.interpolate.CubicSpline`, `PPoly` | `Spline_Model` | written out after scipy's algorithm (system for the slopes, coefficients, evaluation, derivative, antiderivative); the banded solver is replaced by exact elimination. `Splineuse_Proofs` shows that this spline has the properties that other theorems assume of a spline: `C95_passes`, `C95_by_parts`, `C95_scales` (`Abdpipe_Proofs`), `C95_cubics` (`Bianchimodes_Proofs`), `C95_derives` (`Constraints_Proofs`), `C95_linear` (`Charges_Proofs`), `C95_interpolates` (`Pipeline_Proofs`), `C95_straight` (`Linear_Proofs`), `C95_keeps_constants` (`Rest_Proofs`), `C95_covariant` (`Fake_Proofs`), `C95_matrices` (the matrices of `ABD_Model`) |
| `numpy.unwrap`, `numpy.angle` | `Phase_Model` | written out after numpy's implementation |
| `sxs.rpxmb.save`, `sxs.rpxmb.load` | `Saved_Model` | parameters; for `C93_round_trip` decoding gives back times, types, modes and frames, and data in any relation that keeps lengths |
| `compare` of two waveforms, `str.format` | `Diffout_Model` | parameters; `compare` itself is modelled in `Compare_Model` |
| `numpy.random` (`seed`, `uniform`, `normal`), `hash` | `Random_Model` | a state from which numbers are drawn, uniform(a, b) = a + (b - a) u; u in [0, 1) for the limits of the times, u not exactly 1/2 for unit rotors; `seed` accepts 32 bits |
| `quaternion.calculus.indefinite_integral` | `Precess_Model` | parameter `integral`: one value for every time; for `C90_settling_refuted` also linear where the integrand is constant (shown for the trapezoidal rule); the package integrates splines where scipy is present, and for any rule `C90_circling_refuted` asks only that the phase go forward by at most 3 in each step after the merger |
| `quaternion.optimal_alignment_in_Euclidean_metric` | `Follow_Model` | parameter `alignment`: any unit quaternion other than -1; which of the two series it takes to the other is a hypothesis of `C89_reached` and `C89_other_sense` |
| integration of an array containing nan | `Resterr_Model` | parameter `undefined`: any value or exception |
| `numpy.linalg.solve` | `Velocity_Model` | defined: Cramer's rule, ValueError (LinAlgError) for a singular matrix |
| `WaveformModes.data_dot`, `quaternion.derivative` | `Velocity_Model` | parameters: exact derivatives, or a linear combination of the values of each mode |
| `sxs` `align2d` | `Target_Model` | a parameter: an error, a time and a phase; the phase is not an odd number of full turns |
| `np.x_parity_conjugate`, `np.x_parity_symmetric_part`, ... of the quaternion package | `Parframe_Model` | the sign changes and projections of the components of a quaternion |
| `h5py` files | `Bmsfile_Model` | data sets and groups are stored and returned unchanged; creating an existing one raises ValueError; opening modes `w`, `a`, `r+`, `x` as documented; flat group names |
| `os.walk`, `os.path`, `open`, `re.search`, `str.replace`, `string.Formatter`, `subprocess.call`, `numpy.histogram` | `Batch_Model` | written as functions after their documentation; the command run is any change of the files with any return value (theorems assume it leaves marker files alone) |
| `spinsfast.salm2map` | `Gridmul_Model` | for grids of at least 2 ell_max + 1 points in each direction it returns the values of the field |
| `sf.Wigner3j` | `Sample_Model` | gives the coefficients of products of scalar harmonics with the harmonic of the waveform |
| `CubicSpline` | `Linear_Proofs` | reproduces straight lines |
| `CubicSpline`, `fake_precessing_waveform` | `Fake_Model` | the spline goes through its points and does not depend on origin and unit of time; of the waveform only increasing times and columns of the same length |
| `os.path.abspath`, `simps`, the spline, `map2salm`, the files of horizons, matter and metadata, the RPXMB format | `Comfile_Model` | Simpson's rule is exact for degree two and an odd number of samples (or zero for zeros); the spline goes through its points and `map2salm` is exact where a theorem says so; nothing about the others |
| `scipy.integrate.simps` | `Simpson_Model` | written out after scipy's code in the two versions of the treatment of an even number of samples (up to 1.10, and 1.11 to 1.13). `C96_simpson` and `C96_zero` show that it has what C75 assumes of integration |
| `numpy.polynomial.polynomial.polyfit`, `numpy.polyfit` with deg=1 | `Polyfit_Model` | least squares written out (orthogonal polynomials; normal equations) instead of numpy's singular value decomposition. `C43_polyfit` and `C70_line` show that this minimises the sum of squares, which is what C43, C70 and C80 assume; `C43_unique`: with more than N distinct points every other method gives the same |
| the spline of `transform` | `Bianchimodes_Proofs` | it goes through its points and reproduces cubics (true of scipy's not-a-knot `CubicSpline` with four points or more); a spline with both properties is exhibited |
| `CubicSpline` and its derivatives; `Modes.__mul__`, `norm`, `imag`, sums of `Modes` | `Constraints_Model` | the spline through four or more points of a cubic is the cubic, with its derivatives (hypothesis `derives`; `ex_dspl` has the property); derivatives linear in the samples for `C77_sampled`; spin weights must agree in sums, products are cut by the truncator of the first factor |
| `CubicSpline.derivative` for the shear | `Charges_Model` | linear in the values and invariant under a shift of all times (hypothesis `linear_spline`; `ex_dspl` has the property) |
| `sf.SWSH_modes.Modes`, time derivative, `quaternion.from_rotation_vector` | `Zturn_Model` | `Modes` puts zeros below ell_min and wants the right number of modes; the derivative is exact on linear functions; exp of half the vector |
| bzip2/gzip, JSON text, file names on disk | `H5_Model`, `Paired_Model` | lossless |

## What is modelled

| source | functions | model | properties |
|---|---|---|---|
| `waveform_modes.py` | `LM`, `index`, `indices`, ell setters, `__getitem__` | `Modes_Model` | C01, C02, C46 |
| | conjugate pairs, parity, `ladder_factor`, `apply_eth`, norms | `Modal_Model` | C08, C18–C20 |
| | `truncate`, `inner_product`, `norm`, `max_norm_index` | `Numeric_Model` | C49, C50, C53 |
| `waveform_base.py`, `waveform_modes.py`, `waveform_grid.py` | `ensure_validity`, `is_valid` | `Validity_Model` | C17 |
| | constructor, copies, slices, history decorator, aliasing | `Objects_Model` | C15, C16, C51 |
| | weights, `SI_units`, scalings, names | `Tables_Model` | C13, C14 |
| `utilities.py` | `xor_timeseries*`, `fletcher32`, `multishuffle` | `Codec_Model` | C03–C07 |
| | transition and bump functions | `Transition_Model` | C26, C27 |
| `mode_calculations.py` | `LdtVector`, `LVector`, `LLMatrix`, comparison matrix, dominant eigenvector, angular velocity | `Ops_Model` | C21–C24 |
| `rotations.py` | both kernels, `rotate_decomposition_basis`, `rotate_physical_system`, `to_inertial_frame` | `Rotate_Model`, `Wigner_Model` (documented D matrices of the external package) | C25 |
| | `get_alignment_of_decomposition_frame_to_modes`, `align_decomposition_frame_to_modes` (without the history) | `Align_Model` | C66 |
| | `to_corotating_frame`, `to_coprecessing_frame`, `corotating_frame` of `mode_calculations.py` (without the histories; numerical integration, eigenvectors are parameters) | `Corot_Model` | C67 |
| `waveform_grid.py` | `from_modes`, `to_modes`, `transform` from end to end (two-dimensional data; without histories, warnings, left-over keywords); spin-weighted harmonics as sampled by spherical_functions | `Pipeline_Model`, `Sphere_Model` | C68 |
| `asymptotic_bondi_data/transformations.py` | `transform` from end to end (without multiplication truncators; arithmetic between a Grid and the array of times acts along the time axis, as the code comments say) | `Abdpipe_Model` | C69 |
| `asymptotic_bondi_data/transformations.py`, `waveform_grid.py` | argument processing | `Kwargs_Model` | C28 |
| | transformation of the fields in each direction, time slices, mixing | `Transform_Model` | C29, C30 |
| `bms_transformations.py` | Lorentz and BMS transformations: reorder, inverse, products, equality | `Spin_Model` | C31–C33, C52 |
| `from_initial_values.py`, `constraints.py`, `bms_charges.py`, `modes_time_series.py` | evolution, constraints, charges, supermomentum, D operators | `ABD_Model` | C34–C37, C56, C57 |
| `map_to_superrest_frame.py`, `map_to_abd_frame.py` | iteration loops, their bookkeeping, alignment quaternion | `Superrest_Model` | C38, C39 |
| `map_to_superrest_frame.py` | rest mass and conformal factor, supertranslated supermomentum, correction, the whole supertranslation solver without a target, fit to the centre-of-mass charge (nan and inf from a spacelike momentum are not modelled) | `Rest_Model` | C70 |
| `modes_time_series.py` | `grid_multiply`; other keywords have no effect and are left out | `Gridmul_Model` | C72 |
| `sample_waveforms.py` | `modes_constructor`, `constant_waveform`, `single_mode`, the three `single_mode_...` functions of time, `pn_leading_order_amplitude` | `Sample_Model` | C73 |
| `sample_waveforms.py` | `create_fake_finite_radius_strain_h5file`; `fake_precessing_waveform` is a parameter | `Fake_Model` | C74 |
| `sample_waveforms.py` 383-533 | `fake_precessing_waveform` | `Precess_Model` | C90 |
| `sample_waveforms.py` 104-192 | `random_waveform`, `random_waveform_proportional_to_time` (frames of nan aside) | `Random_Model` | C91 |
| `SpEC/com_motion.py`, `SpEC/remove_avg_com_from_catalog.py`, `SpEC/find_com_in_catalog.py` | `estimate_avg_com_motion` as a whole, `remove_avg_com_motion` (plots aside), `run_in` of both scripts | `Comfile_Model` | C75 |
| (as above: `abd_transform`, `abd_point`, `from_initial_values_exact`, `eth_GHP`) | the transform against the Bondi-gauge equations; eth as a differential operator | no new model | C76 |
| `asymptotic_bondi_data/constraints.py`, `asymptotic_bondi_data/__init__.py`: `interpolate`, `modes_time_series.py`: `interpolate`, `derivative` | sides, violations and norms; truncators of products; interpolation of the six fields (frame left out, antiderivatives left out) | `Constraints_Model` | C77 |
| `asymptotic_bondi_data/bms_charges.py` (as methods of the whole object: `bondi_four_momentum`, `bondi_rest_mass`, `bondi_angular_momentum`, `bondi_boost_charge`, `bondi_CoM_charge`, `bondi_dimensionless_spin`, `CWWY_angular_momentum`) | one entry for each time, time derivative of the shear by the spline | `Charges_Model` | C78 |
| `asymptotic_bondi_data/bms_charges.py` and `transformations.py` (together, for data without radiation) | no new definitions: `Charges_Model` after `Abdpipe_Model` | `Nonradiative_Proofs` | C79 |
| `asymptotic_bondi_data/map_to_superrest_frame.py` 345-419, 527-554 (the rotation pass without target strain and the centre-of-mass pass on whole data) | `Passes_Model` | `Passes_Proofs` | C80 |
| `asymptotic_bondi_data/map_to_superrest_frame.py` 621-668 (`rel_err_for_abd_in_superrest`); `bms_charges.py` 192-270 for the whole object | `Resterr_Model` | `Resterr_Proofs` | C87 |
| `asymptotic_bondi_data/map_to_superrest_frame.py` 219, 268-277, 285-298 (the supertranslation pass with a target supermomentum) | `Aim_Model` | `Aim_Proofs` | C88 |
| `asymptotic_bondi_data/map_to_superrest_frame.py` 422-438, 475-525 (the rotation pass with a target strain) | `Follow_Model` | `Follow_Proofs` | C89 |
| `mode_calculations.py` 403-431 (angular velocity of a waveform, with that of its frame) | `Velocity_Model` | `Velocity_Proofs` | C86 |
| `asymptotic_bondi_data/map_to_abd_frame.py` 21-57, 148-301, `map_to_superrest_frame.py` 766-907 (the transformations that are multiplied together, the pieces, the first guess and the errors) | `Target_Model` | `Target_Proofs`, `Target_Cases` | C85 |
| `waveform_modes.py` 722-945 (the parity operations with their frames; modes as in `Modal_Model`) | `Parframe_Model` | `Parframe_Proofs` | C84 |
| `bms_transformations.py` 243-246, 269-286, 300-307, 533-537, 594-631 (the arrays of an object: construction, copy, comparison, HDF5 files) | `Bmsfile_Model` | `Bmsfile_Proofs` | C83 |
| `extrapolation.py` 7-23, 1055-1236 (`pick_Ch_mass`, templates, searching the input, marker files and current directory) | `Batch_Model` | `Batch_Proofs` | C81, C82 |
| `map_to_superrest_frame.py` | `rotation`, `MT_to_WM` (not the sxs version), `WM_to_MT`, the two kinds of news; ell_max below 2 is not covered by the theorems | `Zturn_Model` | C71 |
| `flux.py` | all flux functions and their matrix elements | `Flux_Model` | C40, C41, C55 |
| `SpEC/com_motion.py`, `plotting.py` | fits of the centre of mass, horizons; time-axis transform | `Motion_Model` | C42, C45, C54 |
| `SpEC/com_motion.py` 196, 206-209 | the integrals `simps(y, t)` of `estimate_avg_com_motion` | `Simpson_Model` | C96 |
| `extrapolation.py` | `intersection`, time selection | `Times_Model` | C11, C12 |
| | `_Extrapolate`, job status files and return codes | `Extrap_Model` | C43, C44 |
| | `read_finite_radius_waveform` and both readers behind it | `Finite_Model` | C58 |
| | validation, data type of a name, `read_finite_radius_data` | `Driver_Model` | C59 |
| | `extrapolate`: keywords, order checks, common times, common frame, output files; `set_common_time` | `Driver_Model` | C60 |
| `waveform_base.py` 689-703, `modes_time_series.py` 72-126 | `data_dot`, `data_ddot`, `data_int`, `data_iint`; `interpolate` with any order and `out`, `derivative`, `antiderivative`, `dot`, `ddot`, `int`, `iint` | `Spline_Model` | C95 |
| `waveform_base.py` 523-533 | `abs`, `arg`, `arg_unwrapped` (signed zeros aside) | `Phase_Model` | C94 |
| `SpEC/file_io/rotating_paired_xor_multishuffle_bzip2.py`, `corotating_paired_xor.py` 84-94, 104-105, 162 | `save`, `load`; the object returned by `save` | `Saved_Model` | C93, C09 |
| `extrapolation.py` 661-664, 788-794, 812-908 | removal of the old file, output of orders and differences (plots aside) | `Diffout_Model` | C92 |
| `SpEC/file_io/__init__.py` | `create_abd_from_h5`: SpECTRE groups and columns, time check, units, conventions, filling with broadcasting, times to interpolate to (readers of other formats are parameters) | `Create_Model` | C61 |
| `LVC/file_io.py` | `read_from_h5` (splines are a parameter; of `int` only signs and digits) | `Lvc_Model` | C65 |
| `waveform_modes.py` | `from_sxs`, `to_sxs` (the other package's object is a record of what it is given) | `Sxs_Model` | C62 |
| `waveform_base.py` | `compare`, `_allclose`, numbers of constructed and unpickled objects | `Compare_Model` | C63, C64 |
| `SpEC/file_io/__init__.py` | `monotonic_indices` | `Times_Model` | C10 |
| | `write_to_h5`, `read_from_h5`, names, groups, history | `H5_Model` | C48 |
| `SpEC/file_io/corotating_paired_xor.py` | `save`, `load` | `Paired_Model`, `Double_Model` | C09 |
| `asymptotic_bondi_data/__init__.py`, `modes_time_series.py` | shared arrays, copies, time setter, translation | `Store_Model` | C47 |

Simplifications are stated in the comment of the definition concerned and in the header of each model file.

## What is not modelled

Rounding errors everywhere (except where listed above); printing, warnings, plotting, progress output; in `extrapolate` the interpolation itself;
numerical integration of rotors;
the encoder and decoder of the multishuffle–bzip2 file format; in the frame-fixing
passes `align2d`; how spinsfast evaluates and decomposes functions.

## Findings

Behaviour of the code that contradicts its documentation or an evident intention, each backed by a theorem. Seen in the source but
not covered by a theorem: the documented argument `alpha_ell_max` of `map_to_superrest_frame`
(685, 783) is never used.

| property | finding | theorem |
|---|---|---|
| C02 | the (0,0) mode of a waveform holding only that mode cannot be requested (ValueError); a stop of 0, or one below ell_min, returns modes that were not requested, the latter with labels that do not match | `C02_single_mode_slice_refuted`, `C02_zero_stop_refuted`, `C02_low_stop_refuted` |
| C07 | words 0 and 0xffff are not told apart by fletcher32 | `C07_zero_ffff_collision` |
| C09 | tolerance 0 skips two encodings that loading undoes, changing the data silently | `C09_zero_tolerance_refuted` |
| C09 | a constant rotor with several times cannot be saved; a sample of zeros makes the file unreadable; without the JSON file loading fails even when validation is ignored | `C09_constant_frame_refuted`, `C09_zero_sample_refuted`, `C09_missing_json` |
| C11 | `extrapolation.monotonic_indices` loops forever when a later time lies within the step of the first, or before it | `C11_diverges_otherwise_refuted` |
| C14 | the mass exponent of the shear is one lower than that of the strain although both are lengths; the curvature scalars are converted with metres where the docstring promises seconds | `C14_shear_mass_exponent_refuted`, `C14_SI_units_seconds_refuted` |
| C15 | some altering methods are not recorded; an exception inside a recorded method leaves the history depth raised | `C15_…_refuted` |
| C16 | conversion between grid and modes shares the history list | `C16_grid_conversion_shares_history_refuted` |
| C17 | `is_valid` of a waveform of modes can be true although the base-class check fails | `C17_is_valid_ignores_base_refuted` |
| C22 | `LLComparisonMatrix` puts the y–z element into the y–y slot and leaves the y–z slot zero | `C22_yz_slot_refuted` |
| C24 | axes more than 60 degrees apart are flipped although they were already the closer ones | `C24_continuity_refuted` |
| C25 | `to_inertial_frame` of a waveform without frame data raises; a constant rotation followed by a series of rotors leaves a two-dimensional frame that cannot be undone; two-dimensional arrays raise IndexError and tuples are silently ignored | `C25_inertial_of_inertial_refuted`, `C25_constant_then_series_refuted`, `C25_other_arguments_refuted` |
| C26 | the derivative of the transition function is NaN near 1/700 of the interval (inf/inf) | `C26_derivative_not_a_number_refuted` |
| C27 | the loops read past the end when the series ends before the transition does | `C27_short_series_refuted` |
| C28 | for a supertranslation that is not real one entry point drops the imaginary part and the other raises; an integer time translation is refused | `C28_imaginary_refuted`, `C28_integer_time_refuted` |
| C32 | with ell_max below 12 a transformation in normal order has an inverse but multiplying by it raises ValueError | `C32_small_ell_max_refuted` |
| C33 | the rotor -1 has no spin matrix (its axis is 0/0) | `C33_minus_one_refuted` |
| C36 | `mass_aspect(0)` keeps modes above ell = 0 | `C36_mass_aspect_zero_refuted` |
| C39 | a spin along -z gives no rotation (zero divided by zero) | `C39_opposite_refuted` |
| C41 | a waveform with only the (0,0) mode raises in the momentum flux but not in the energy flux | `C41_monopole_only_refuted` |
| C42 | a motionless centre of mass away from the origin is reported as moving when the samples do not span exactly the chosen interval | `C42_motionless_iff`, `C42_motionless_refuted` |
| C43 | extrapolation in 1/(r Omega) and the noise floor raise whenever there is anything to extrapolate | `C43_omegas_refuted`, `C43_noise_floor_refuted` |
| C44 | a re-run that dies early is still reported as finished; a run can be both finished and errored; a run that raised returns 0; the file name in the command is not filled in | `C44_…_refuted` |
| C45 | with merger and ringdown times exchanged the time axis is not monotone | `C45_swapped_refuted` |
| C46 | a constant frame is dropped by slices that exclude the first sample | `C46_constant_frame_refuted` |
| C47 | setting the time of a copy does not reach the copy's fields; with a shared metadata dictionary changes of times pass between copy and original; `_raw_data` of a copy is not what its fields show | `C47_…_refuted` |
| C48 | Weyl components and the shear are never guessed from names containing ".h5"; decreasing times are accepted and the frame of a corotating waveform is lost | `C48_guessed_type_refuted`, `C48_valid_and_complete_refuted` |
| C49 | an instant at which all modes vanish becomes NaN | `C49_zero_row_refuted` |
| C51 | slices are views: changing one changes the original | `C51_slice_is_a_view_refuted` |
| C54 | the masses passed as arguments are ignored | `C54_masses_ignored_refuted` |
| C58 | repeated times, which the reader is meant to skip, are rejected or make the search endless; the filter on time steps is in units of the file; a growing radius gives decreasing times | `C58_repeated_times_refuted`, `C58_units_of_filter_refuted`, `C58_moving_radius_refuted` |
| C59 | validation compares only the number of modes; without "_" every ".h5" file is taken for strain; the XOR format is unreachable (the condition for it repeats the previous one); integer positions in `CoordRadii` raise although documented | `C59_other_modes_refuted`, `C59_no_underscore_refuted`, `C59_rpxmb_refuted`, `C59_positions_refuted` |
| C60 | the list of radii is paired with groups in file order whatever its own order; an entry matching two groups mixes frames; order -1 is the last group, not the outermost; repeating a run fails when every order has its file; `AlignmentTime=0` is taken for none (and the value is then only recorded, never used) | `C60_listed_order_refuted`, `C60_two_matches_refuted`, `C60_outermost_extraction_refuted`, `C60_rerun_refuted`, `C60_alignment_at_zero_refuted` |
| C61 | composing the message for different times raises TypeError; times are compared before units are converted; strain in the Moreschi-Boyle convention reads back doubled; a lone (0,0) mode is broadcast into all modes; the SpECTRE radius is subtracted after dividing times by the mass but is not divided itself; the requested times nearest to the ends of the data are dropped | `C61_times_error_refuted`, `C61_mixed_units_refuted`, `C61_moreschi_boyle_strain_refuted`, `C61_monopole_refuted`, `C61_radius_units_refuted`, `C61_interpolation_ends_refuted` |
| C62 | the round trip appends to the history of the original; extra attributes are lost; a constant rotor of the sxs package fails or becomes a frame without axis; the message for a wrong length uses an undefined name | `C62_original_history_refuted`, `C62_attributes_lost_refuted`, `C62_constant_frame_refuted`, `C62_frame_length_refuted` |
| C63 | constant frames call functions that do not exist; the frame of the argument can be lost; two arguments have no effect; other modes are subtracted from each other if their number agrees | `C63_constant_frames_refuted`, `C63_frame_of_argument_lost_refuted`, `C63_limits_ignored_refuted`, `C63_other_modes_refuted` |
| C64 | not symmetric; shapes are broadcast, so no frame equals any constant frame; attributes only the other object has are ignored; unpickled objects share the number of the next one | `C64_symmetric_refuted`, `C64_empty_frame_refuted`, `C64_broadcast_refuted`, `C64_extra_attribute_refuted`, `C64_unpickled_number_refuted` |
| C65 | amplitudes without phases are dropped silently; names with leading zeros are counted but then not found | `C65_lone_amplitude_refuted`, `C65_leading_zero_refuted` |
| C66 | the documented zero phase of (2,2) is in general only equality of the phases of (2,2) and (2,-2) | `C66_phase_refuted` |
| C67 | a `z_alignment_region` fails for waveforms of at most ten times (the angular velocity is read at index 10) and reads outside an array if no sample lies in the region | `C67_short_refuted`, `C67_empty_region_refuted` |
| C68 | `transform` requires the label inertial but ignores the frame: a waveform after `rotate_decomposition_basis` by a constant rotor, the same field with a frame, comes out as a different field without a frame | `C68_frame_refuted` |
| C69 | `AsymptoticBondiData.transform` neither checks nor uses the frame and frame type: data in a corotating frame are treated as inertial and the result is labelled inertial | `C69_frame_refuted` |
| C70 | `compute_bondi_rest_mass_and_conformal_factor` feeds values of the harmonics where `charge_vector_from_aspect` expects mode weights, so its direction vector is (x, -y, z): the conformal factor is wrong whenever the momentum has a y component | `C70_four_vector`, `C70_conformal_factor_refuted` |
| C70 | `compute_Moreschi_supermomentum` evaluates the supermomentum on the grid of the data's own ell_max: a larger `ell_max` argument raises IndexError, a smaller one mixes two sets of directions | `C70_larger_refused`, `C70_smaller_refuted` |
| C72 | `grid_multiply`: the degree of the result is that of the left factor, so products of series of different ell_max depend on their order | `C72_default_output_refuted` |
| C87 | `rel_err_for_abd_in_superrest` compares the data's news with the second derivative of the target strain, labelled as news; a strain quadratic in time raises ValueError | `C87_target_refuted`, `C87_target_quadratic` |
| C88 | the documentation says that `target_PsiM=None` means the target zero, but a target without modes of degree 2 and more gives only infinite or undefined errors and the zero supertranslation | `C88_zero_target_refuted` |
| C89 | the rotation pass compares the data's news with the second derivative of the target strain; a strain quadratic in time raises ValueError | `C89_quadratic` |
| C90 | `fake_precessing_waveform` divides the orbital phase by `precession_relative_rate` (documented as a fraction of the orbital rate): by default the axis precesses ten times faster than the orbit | `C90_precession`, `C90_precession_refuted` |
| C90 | the nutation is multiplied by the ringdown transition: none before the merger, and afterwards the axis keeps circling instead of settling | `C90_nutation`, `C90_settling`, `C90_settling_refuted`, `C90_circling_refuted` |
| C90 | the default of `precession_opening_angle_dot` is reckoned to 20 after the merger, not to the merger; the message of the ValueError swaps the two times | `C90_opening_rate` |
| C91 | `random_waveform` and `random_waveform_proportional_to_time` drop all further keyword arguments, although they are documented as being passed to `modes_constructor`; they reseed numpy's global generator, overwriting the user's seed | `C91_keywords_refuted`, `C91_repeatable` |
| C91 | the frame of `random_waveform_proportional_to_time` turns about one axis at a constant rate instead of having a random orientation at each instant | `C91_orientation_refuted` |
| C92 | differences written to groups of one file overwrite each other; only that of the first two orders is left | `C92_one_file_refuted` |
| C92 | `.dat` names for extrapolated or difference files raise AttributeError (waveforms have no `Output`) | `C92_dat_refuted`, `C92_dat_differences_refuted` |
| C92 | the old file to be removed is looked for in the current directory instead of the output directory; it is deleted there even if no output was asked for | `C92_deleted_refuted`, `C92_deleted_with_output_refuted` |
| C93 | extrapolation radii, translation and boost are not attributes of a waveform loaded from an RPXMB file | `C93_attributes_lost_refuted` |
| C94 | a sample that is exactly zero has argument 0, which can cost a full turn in `arg_unwrapped` | `C94_zero_refuted` |
| C95 | `interpolate(..., out=array)` asks for the truth value of the array: ValueError for two or more entries, and a single zero entry is not filled | `C95_out_refuted`, `C95_out_one` |
| C96 | uniform motion sampled at an even number of times is fitted with too large a velocity (scipy up to 1.10); the fit with acceleration overestimates the acceleration | `C96_uniform_refuted`, `C96_acceleration_refuted` |
| C09 | `save` with a tolerance returns an object with XOR-encoded times and modes instead of the waveform | `C09_returned_refuted` |
| C09 | `load` marks mass and radius as scaled out whatever the waveform saved said | `C09_scaling_refuted` |
| C86 | `angular_velocity(include_frame_velocity=True)` adds inertial components of the frame's velocity to components in the frame | `C86_with_frame_refuted`, `C86_with_frame_when` |
| C85 | for data without radiation the first guess of map_to_abd_frame moves the first sample to t_0, even if the data are the target | `C85_start_refuted` |
| C85 | map_to_abd_frame cuts the piece it works on before moving the times: for data late by more than one and a half paddings nothing is left at or after t_0 | `C85_piece_refuted` |
| C85 | the error between two sets of data is not symmetric and mixes relative and absolute (unit dependent) parts | `C85_error_symmetric_refuted`, `C85_error_units_refuted` |
| C84 | reflections along z and along all axes have the wrong sign for odd spin weights, and violations depend on the frame | `C84_odd_spin_refuted`, `C84_violation_refuted` |
| C84 | the symmetric and antisymmetric parts get frames that are not rotors | `C84_part_frames_refuted` |
| C83 | `is_close_to` ignores the order of the parts, is not symmetric, never finds q and -q close, and raises for different `ell_max` | `C83_close_order_refuted`, `C83_close_symmetric_refuted`, `C83_close_sign_refuted`, `C83_close_sizes_refuted` |
| C81 | with a relative output directory `RunExtrapolation` always raises after the command has run (markers are opened relative to the directory it changed to) and the pair stays "unfinished" | `C81_relative_refuted` |
| C81 | the top directory's name is removed wherever it occurs in a path; a top directory that is a Lev directory or ends with a slash is not removed at all | `C81_subdirectory_refuted`, `C81_found_refuted` |
| C81 | a template with `{}` (an empty dictionary) raises after the marker is written, so the pair stays unfinished; doubled braces collapse in the first step; finished pairs whose data are gone make `NewerDataThanExtrapolation` raise | `C81_template_braces_refuted`, `C81_bad_template_refuted`, `C81_template_steps_refuted`, `C81_newer_missing_refuted` |
| C82 | constant masses: an odd number N of samples gives a mass too small by 1/(2N) | `C82_constant_refuted` |
| C72 | `working_ell_max` below the sum of the degrees: Y_11 squared on the grid for ell <= 1 comes out as a multiple of Y_{1,-1} (the documentation warns of it) | `C72_aliasing_refuted` |
| C73 | `single_mode` (and the single-mode waveforms): a mode below `ell_min` is written to the column of another mode by negative indexing | `C73_low_mode_refuted` |
| C73 | `constant_waveform`, `single_mode`: keyword arguments documented as passed on are dropped | `C73_kwargs_refuted` |
| C73 | `single_mode_...`: an order just above the degree is not refused but fills the lowest order of the next degree | `C73_wrong_mode_refuted` |
| C74 | `create_fake_finite_radius_strain_h5file`: `new_data` is a view of `h0.data`, so corrections accumulate over radii and terms instead of h_0 + h_1/r + ... | `C74_expansion_refuted`, `C74_second_term_refuted` |
| C74 | `create_fake_finite_radius_strain_h5file`: `mass_ratio` is not passed on | `C74_mass_ratio_refuted` |
| C74 | `create_fake_finite_radius_strain_h5file`: radii that round to the same integer raise ValueError and leave a file that blocks later calls | `C74_crowded_refuted` |
| C75 | `remove_avg_com_motion`: `re.sub` removes the prefix from directory names too, so that the output goes elsewhere | `C75_directory_refuted` |
| C75 | `remove_avg_com_motion`: the search for the other Weyl scalars replaces the first known name anywhere in the path | `C75_companion_refuted` |
| C75 | `remove_avg_com_motion`: `version_hist` is restored after the NRAR file has been written | `C75_versions_refuted` |
| C75 | `remove_avg_com_motion`: an unknown `file_format` with `w_m` given silently writes nothing | `C75_unknown_format_refuted` |
| C75 | `remove_avg_com_from_catalog.run_in` passes the path as `w_m`: nothing is ever corrected | `C75_catalog_refuted` |
| C75 | `find_com_in_catalog.run_in` writes 11 cells under 10 headings | `C75_table_refuted` |
| C77 | `AsymptoticBondiData.interpolate` and `.transform` drop the `multiplication_truncator`: data with zero violations have nonzero ones after interpolation to their own times or an identity transform | `C77_truncator_refuted` |
| C71 | `rotation` is documented as a faster `transform`, but keeps frame and frame type of data that are not inertial | `C71_frame_refuted` |
| C71 | `target_news` (475-488, 625-638) takes `data_dot` and then `.dot` again: the second derivative of the target strain is compared with the first derivative of the data's strain | `C71_target_news_refuted` |

## Mutation testing

A script (outside this repository) makes one-token edits of the `_Model.v` files in a scratch copy, rebuilds everything,
and records which theorems fail. Edits that nothing noticed were reviewed one by one: they are either equivalent to the
original or led to a new or stronger theorem. See `seeded/LOG.jsonl`.
