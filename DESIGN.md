# gridpp formal model: design

Subject: metno/gridpp, the C++ library in `/repo/src/api` (read as text, not built or run).
Tool: Rocq/Coq 8.16.1. Build: `cd rocq && coq_makefile -f _CoqProject -o Makefile && make -j4`.

## Layout

* `rocq/theories/Base.v`, `RBase.v`, `QcTac.v`, `ListLib.v`: value types, outcome type, array access, arithmetic tactics.
* `M_*.v`: the model, one file per group of source files. Every definition cites file and lines.
* `S_*.v`: small independent specifications used in theorem statements.
* `P_*.v`: lemmas and proofs.
* `T_*.v`: the property theorems only, each `exact`ing a lemma, with `Print Assumptions` beneath and a concrete example.
* `properties.jsonl`: the properties. `MANIFEST.json`: status and theorem names. `seeded/LOG.jsonl`: wrong programs tried against the theorems.

## Modelling decisions and simplifications

* **Values.** `float`/`double` are `val := NaN | PInf | NInf | Fin (q : Qc)`: NaN and the infinities are explicit,
  finite numbers are exact rationals (canonical `Qc`, so Leibniz equality, computable). *Rounding, overflow to infinity,
  underflow and signed zero are not modelled.* Comparisons with NaN are false, arithmetic on NaN/inf follows IEEE 754.
  `x/0` is NaN or an infinity with the sign of x (zero is treated as +0).
* **Transcendental code** (exp, log, pow, trigonometry) is modelled over the Coq reals with the same explicit NaN and
  infinities: `rv := RNaN | RPInf | RNInf | RF (x : R)` (`RBase.v`). `v2r` embeds `val` in `rv`.
* **Outcomes.** `res A := Ok a | Throw e | Abort | UB`. `Throw` is a C++ exception reaching the caller; `Abort` is an exception
  leaving an OpenMP region (std::terminate); `UB` is undefined behaviour: out-of-range `operator[]`,
  conversion of NaN/out-of-range float to int, integer division by zero.
  All array accesses of the model go through a bounds check that yields `UB`.
* **Integers.** `Z`, no overflow (array sizes and halfwidths are assumed to keep `i+halfwidth` within int).
* **assert** is not modelled (NDEBUG semantics).
* **Threads.** `#pragma omp parallel for` loops are modelled sequentially; C24 proves this adequate for loops whose
  iterations write their own cells, for every distribution and interleaving (sequentially consistent steps), and C23 models
  the one shared variable that matters (`curr_quantile`) explicitly.
* **Logging, timing, debug output, Python bindings, file output** are not modelled.

## Trusted base

* Coq 8.16.1's kernel (and its `vm_compute` for examples and witnesses). Nothing else is switched off or added: no own axioms,
  no `Admitted`, no plugins, no functors or module types.
* Axioms listed by `Print Assumptions` under each theorem: see the table below. Everything over `Qc`/`Z` is closed under the
  global context. Theorems over the reals use the standard library's
  `ClassicalDedekindReals.sig_forall_dec`, `ClassicalDedekindReals.sig_not_dec`,
  `FunctionalExtensionality.functional_extensionality_dep` and `Classical_Prop.classic`.
* `vcheck` also lists `Coq.ssr.ssrunder` module parameters among loaded libraries; they belong to the standard distribution
  and no theorem depends on them.
* The faithfulness of the hand-written model to the C++ text (cited line by line).
* External code taken as oracles, i.e. section variables or record parameters with the assumed contract as a hypothesis of
  the theorem:
  * boost R-tree and sin/cos conversion: record `geo` (`M_Geo.v`), contract `geo_ok` (`S_Geo.v`); instance `G0` proved to satisfy it.
  * `sqrt` on rationals: `ext_sqrt` (`Base.v`), any function unless the theorem says `exact_sqrt`.
  * `rand()`: `ext_rand`.
  * `std::sort`: insertion sort; undefined when a NaN meets another element (strict weak order broken).

## What is modelled

| model file | source |
|---|---|
| M_Stat | util.cpp: calc_statistic, calc_quantile, calc_even_quantiles, num_missing and helpers |
| M_Interp | util.cpp: get_lower_index, get_upper_index, interpolate |
| M_Window | window.cpp |
| M_Neigh, M_Fast, M_Sched | neighbourhood.cpp: neighbourhood (2D, 3D), brute force, quantile, quantile_fast, get_neighbourhood_thresholds; interleavings of the parallel loops |
| M_Search | neighbourhood_search.cpp |
| M_Curve, M_TfVec | curve.cpp, quantile_mapping.cpp, and the vector overloads of curves and transforms |
| M_Score | metric_optimizer.cpp scores (calc_score) |
| M_Geo | kdtree.cpp, point.cpp, points.cpp, grid.cpp, convert_coordinates, compatible_size |
| M_Near, M_Grd | nearest.cpp, count.cpp, gridding.cpp, fill.cpp, doping.cpp |
| M_Bilin | bilinear.cpp |
| M_Down | downscaling.cpp, simple_gradient.cpp, gradient.cpp, calc_gradient.cpp, downscale_probability.cpp, mask_threshold_downscale_consensus.cpp |
| M_Struct | structure.cpp |
| M_OI | oi.cpp (all four overloads); exact arithmetic instead of binary32, so theorems say nothing about conditioning |
| M_Trans, RPow | transform.cpp scalar versions (array versions: M_TfVec); pow and atan2 with IEEE special values |
| M_Diag, M_RelHum, M_Wind32 | wind.cpp, pressure.cpp, qnh.cpp, humidity.cpp; M_Wind32 is wind_direction rounded to binary32 |
| M_Dist | kdtree.cpp: calc_distance, calc_distance_fast, calc_straight_distance; distance.cpp |
| M_NScore | neighbourhood_score.cpp |
| M_CorrPts | corr_points.cpp; smart.cpp |
| M_LDC | local_distribution_correction.cpp |
| M_Opt | metric_optimizer.cpp: get_optimal_threshold, metric_optimizer_curve (not: the unused calc_uncertainty); distribution.cpp; gridpp.cpp: get_statistic |
| M_EnsMulti | oi_ensi_multi.cpp: optimal_interpolation_ensi_multi_ebesc, Points and Grid |
| M_Ensi | oi_ensi.cpp |
| M_EnsDyn | oi_ensi_multi.cpp: optimal_interpolation_ensi_multi_ebe, Points and Grid |
| M_EnsUtem | oi_ensi_multi.cpp: optimal_interpolation_ensi_multi_utem, Points and Grid |
| M_COpt | client: Util::split, Options.{h,cpp}, Variable.cpp (constructors from options, add) |
| M_CDate | client: Util::getDate, getTime, getUnixTime, calcDate (with Boost's calendar algorithms) |
| M_CText | client: Util::formatDescription |
| M_CUtil | client: Util::isValid, calculateStat, getLowerIndex, getUpperIndex, interpolate; Location comparisons; Field |
| M_CCal | client: Calibrator accumulate, deaccumulate, sort, threshold, qc, cloud, phase, window; Calibrator::shuffle |
| M_CCal2 | client: Calibrator windDirection, regression (with training), mask, override; Parameters access |
| M_CTree | client: KDTree; brute force nearest point of Downscaler; Util::getDistance (the great-circle formula itself is a parameter) |
| M_CDown | client: File::setLats, setLons and their tags; Downscaler::getNearestNeighbour with its cache; Downscaler nearestNeighbour, upscale, smart, pressure (the exponential is a parameter) |
| M_CNeigh | client: Calibrator neighbourhood |
| M_CQq | client: Calibrator qq with its training (options as arguments; printing of a curve left out) |
| M_CGradient | client: Downscaler gradient (with downscaler=nearestNeighbour; calcBaseValues and calcNeighbourhoodMean are never called) |
| M_CPar | client: ParameterFile, ParameterFileSimple and ParameterFileText (reading and writing; streams as texts) |
| M_CSetup | client: Setup (file names, opening of files, state machine of the command line; files, calibrators, downscalers and parameter files as oracles) |
| M_CDist | client: Calibrator/Gaussian, Bct and Zaga (calibration; training only the predictors of Zaga; reading of options not modelled) |
| M_CDiag | client: Calibrator/DiagnoseWind, DiagnoseHumidity, Qnh and Altitude (reading of options not modelled) |
| M_CCoast | client: Calibrator/Coastal (calibration; not train) |
| M_CBilin | client: Downscaler/Bilinear |
| M_CKrig | client: Calibrator/Kriging |
| M_COi | client: Calibrator/Oi (single-member mode without transform and bias; calcDelta) |
| M_COiTr | client: Calibrator/Oi (transforms) |
| M_CFile | client: File/File (cache, aliases), File/Text, File/Point, File/NorcomQnh (values), Downscaler/Bypass |
| M_COiEns | client: Calibrator/Oi::calibrateCore at a point in ensemble mode with two parameters; radar mode (three parameters) is a parameter; inverse and eigendecomposition are functions with the properties lib_ok and elib_ok |
| M_CTrain | client: Util::regression, Calibrator/Coastal::train; the inverse of a matrix is a function with the property lu_inverts |
| M_CMain | client: Driver/Gridpp.cpp main, the calls made as a list; Setup as in M_CSetup |
| M_CNc | client: File/Netcdf.cpp getFieldCore, writeCore (dimensions, variables and data), getLatLonVariable; the NetCDF library by its documented behaviour (nc_get_vara, nc_put_vara with conversion of types as a parameter of each variable) |
| M_CParNc | client: ParameterFile/Netcdf.cpp: constructor (with getLatDim, getLonDim, getGridValues and the positions in the buffer), handling of fill values, writing; isValid's checks of the format are those of the NetCDF library and not modelled |
| M_CNcOpen | client: File/Netcdf.cpp: constructor with the detection of dimensions and variables, elevations, land fractions, times and reference time, isValid; names, units and standard names of variables not modelled |
| M_CNcRest | client: File/Netcdf.cpp: defining and writing times, reference time and altitude in writeCore; attributes not modelled |
| M_CNorcom | client: File/NorcomQnh.cpp: constructor, time stamps and the whole text written; File/Fake.cpp: constructor |
| M_CVars | client: File/File.cpp: getVariable, getScheme |
| M_CLik | client: Calibrator/Gaussian.cpp and Zaga.cpp: getPdf and the functions that training minimises; the minimiser (GSL) is not modelled |

Not modelled: swig.cpp and the SWIG wrappers, debug/warning/error output, `clock`, `#pragma omp` scheduling details beyond C23/C24, and the parts of `src/client` not in the table. Of the client these are: Temperature.cpp, Grid.cpp (getters and setters), NetcdfUtil.cpp (wrappers of library calls), Scheme.cpp, Driver/Custom.cpp (written against an older Setup class) and Calibrator/devel; the GSL minimisers, Boost and Armadillo are arguments of the models.

## Properties

Per property: status, how it is modelled and proved, theorems with their axioms
([] none; F = sig_forall_dec, N = sig_not_dec, E = functional_extensionality_dep, C = classic).

* **C01** Statistics ignore missing values and order. *proved*. calc_statistic/calc_quantile in M_Stat; permutation and sortedness of the sort, Qc algebra. Exact arithmetic; invariance under permutation and missing entries, no throw.
  `C01_statistics_ignore_missing_and_order` []
* **C02** Statistics have their mathematical value. *proved*. calc_statistic/calc_quantile in M_Stat; permutation and sortedness of the sort, Qc algebra. Std is the external sqrt applied to the variance.
  `C02_statistics_have_their_value` []
* **C03** Min, Max and Median are order statistics of the finite values. *proved*. calc_statistic/calc_quantile in M_Stat; permutation and sortedness of the sort, Qc algebra. 
  `C03_min_max_median_order_statistics` []
* **C04** calc_quantile is the linear-interpolation quantile. *proved*. calc_statistic/calc_quantile in M_Stat; permutation and sortedness of the sort, Qc algebra. Exact arithmetic.
  `C04_calc_quantile_spec` []
* **C05** calc_quantile commutes with increasing affine rescaling and is monotone in the data. *proved*. calc_statistic/calc_quantile in M_Stat; permutation and sortedness of the sort, Qc algebra. Exact arithmetic.
  `C05_quantile_affine_and_monotone` []
* **C06** calc_even_quantiles returns sorted levels taken from the data, from lowest to highest. *proved*. calc_even_quantiles in M_Stat; invariant of the selection loop. 
  `C06_even_quantiles` []
* **C07** calc_even_quantiles ignores duplicate values. *partial*. calc_even_quantiles in M_Stat; invariant of the selection loop. False in general: [1,1,1,1,2,3] with num=4 gives 1,2,3,3. Holds (with exactly num levels) when the data has at least num distinct values.
  `C07_even_quantiles_distinct_refuted` []
  `C07_even_quantiles_distinct_partial` []
* **C08** Index lookup brackets the lookup value. *proved*. M_Interp; induction over the knots. 
  `C08_index_lookup_brackets` []
* **C09** interpolate is bounded, exact at knots and monotone. *proved*. M_Interp; induction over the knots. 
  `C09_interpolate_spec` []
* **C10** interpolate is memory safe for every curve. *partial*. M_Interp; induction over the knots. False when the first or last knot of the x-list is missing (index read from an unset int). Proved safe for every x when the two end knots are finite, inner knots arbitrary.
  `C10_interpolate_memory_safe_refuted` []
  `C10_interpolate_memory_safe_partial` []
* **C11** Vector overloads equal pointwise application. *partial*. Map lemmas on the monadic loops of every overload. Exact pointwise characterisation for every overload; the two corner cases that break it (calc_quantile on rows without columns drops the rows; apply_curve with 3D curves on an empty field is undefined) are refuted.
  `C11_vector_overloads_pointwise_partial` []
  `C11_vector_overloads_pointwise_refuted` []
* **C12** window equals the statistic over the clipped time window (non-accumulating statistics). *proved*. M_Window with bounds-checked prefix arrays. 
  `C12_window_order_statistics` []
  `C12_window_rejects` []
* **C13** window with Sum/Mean/Count equals the statistic over the clipped time window. *partial*. M_Window with bounds-checked prefix arrays. Mean, Count and keep_missing read counts[-1] (undefined). Proved: every Sum/Mean call not needing that read is correct; correct for all flags if the read returned 0; Count then ignores keep_missing/missing_edges.
  `C13_window_accumulation_refuted` []
  `C13_window_accumulation_partial` []
* **C14** window never reads outside its buffers. *partial*. M_Window with bounds-checked prefix arrays. False; the partial theorem gives the exact set of calls that read out of bounds (iff) and success otherwise.
  `C14_window_in_bounds_refuted` []
  `C14_window_in_bounds_partial` []
* **C15** Fast neighbourhood mean, sum and count equal the brute-force definition. *proved*. M_Neigh with the summed-area table as an explicitly filled array; invariant 'cell = sum over prefix rectangle', slivers for min/max, variance identity. 
  `C15_fast_sums_equal_brute_force` []
* **C16** Fast neighbourhood min and max equal the brute-force definition. *proved*. M_Neigh with the summed-area table as an explicitly filled array; invariant 'cell = sum over prefix rectangle', slivers for min/max, variance identity. 
  `C16_fast_min_max_equal_brute_force` []
* **C17** Fast neighbourhood variance equals the brute-force definition and is never negative. *proved*. M_Neigh with the summed-area table as an explicitly filled array; invariant 'cell = sum over prefix rectangle', slivers for min/max, variance identity. exact arithmetic
  `C17_fast_variance_equals_brute_force` []
* **C18** Neighbourhood filters preserve shape, constants and bounds. *proved*. M_Neigh with the summed-area table as an explicitly filled array; invariant 'cell = sum over prefix rectangle', slivers for min/max, variance identity. missing input cells (NaN or infinite) come out as NaN at halfwidth 0
  `C18_filters_preserve_shape_constants_bounds` []
* **C19** Ensemble neighbourhood computes the statistic across neighbourhood and all members. *partial*. M_Neigh with the summed-area table as an explicitly filled array; invariant 'cell = sum over prefix rectangle', slivers for min/max, variance identity. proved for Min/Max/Sum and Mean with equal member counts; refuted for Mean with missing members, Count, Median, Variance
  `C19_ensemble_neighbourhood_partial` []
  `C19_ensemble_neighbourhood_refuted` []
* **C20** Neighbourhood functions are safe on empty and ragged-free inputs. *partial*. M_Neigh with the summed-area table as an explicitly filled array; invariant 'cell = sum over prefix rectangle', slivers for min/max, variance identity. refuted for neighbourhood(3D) on a field without cells; proved for every other overload (rand() >= 0 assumed)
  `C20_rectangular_inputs_safe_partial` []
  `C20_rectangular_inputs_safe_refuted` []
* **C21** Invalid neighbourhood arguments are reported as exceptions. *partial*. M_Neigh with the summed-area table as an explicitly filled array; invariant 'cell = sum over prefix rectangle', slivers for min/max, variance identity. negative halfwidth throws; level outside [0,1] terminates the program (exception leaves an OpenMP region)
  `C21_invalid_arguments_throw_partial` []
  `C21_invalid_arguments_throw_refuted` []
  `C21_bad_level_terminates` []
* **C22** neighbourhood_quantile_fast stays within the thresholds and follows the neighbourhood cdf. *proved*. On top of C09 and C15. 2D scalar level, 2D level field, 3D ensemble with scalar (1x1) level or level field. For ensembles the cdf is the mean over cells of the fraction of finite members, as coded.
  `C22_quantile_fast_follows_neighbourhood_cdf` []
  `C22_quantile_fast_checks_arguments` []
  `C22_level_field_has_the_size_of_the_input` []
  `C22_quantile_fast_checks_arguments_of_ensembles` []
* **C23** neighbourhood_quantile_fast does not depend on the thread schedule. *partial*. Interleaving semantics over a shared store. Proved for a scalar level with any number of threads, and for level fields with one thread. Refuted for a level field with two threads: curr_quantile is shared and unprotected (neighbourhood.cpp:365).
  `C23_quantile_fast_schedule_partial` []
  `C23_quantile_fast_schedule_refuted` []
* **C24** OpenMP loops with per-iteration output cells are schedule independent. *proved*. Interleaving semantics over a shared store. All distributions (with repetition) and interleavings; termination, progress, and failure behaviour included. Steps are sequentially consistent.
  `C24_parallel_rows_equal_sequential_loop` []
  `C24_parallel_cells_equal_sequential_loop` []
* **C25** get_neighbourhood_thresholds returns sorted values of the field. *proved*. M_Neigh with the summed-area table as an explicitly filled array; invariant 'cell = sum over prefix rectangle', slivers for min/max, variance identity. 
  `C25_thresholds_sorted_values_of_field` []
* **C26** neighbourhood_search averages in-target neighbours and leaves other cells alone. *proved*. Invariant of the window scan. 
  `C26_neighbourhood_search` []
  `C26_search_arguments_checked` []
* **C27** apply_curve interpolates inside and extrapolates continuously outside the curve. *proved*. M_Curve; induction over the curve. Extrapolation slopes need the two defining forecast values to differ (slope_defined), otherwise the code divides by zero.
  `C27_apply_curve` []
* **C28** apply_curve preserves order. *proved*. M_Curve; induction over the curve. 
  `C28_apply_curve_preserves_order` []
* **C29** monotonize_curve returns a subsequence with increasing forecast values. *proved*. M_Curve; induction over the curve. Also proves that every returned point lies below all later complete points.
  `C29_monotonize_curve` []
* **C30** monotonize_curve handles every non-empty curve. *partial*. M_Curve; induction over the curve. False: undefined exactly when no pair is complete.
  `C30_monotonize_defined_partial` []
  `C30_monotonize_defined_refuted` []
* **C31** quantile_mapping_curve pairs sorted samples. *proved*. M_Curve; induction over the curve. 
  `C31_quantile_mapping_curve_sorts` []
* **C32** quantile_mapping_curve with levels returns sample quantiles. *partial*. M_Curve; induction over the curve. False for unsorted samples: the code indexes the unsorted arrays. Proved for sorted samples of at least two pairs.
  `C32_quantile_mapping_levels_partial` []
  `C32_quantile_mapping_levels_refuted` []
* **C33** Contingency scores stay in their documented ranges. *proved*. M_Score; rational inequalities and counting. 
  `C33_scores` []
* **C34** calc_score on vectors classifies every pair exactly once. *proved*. M_Score; rational inequalities and counting. 
  `C34_score_classifies_pairs` []
* **C35** Grid linear index round-trips. *proved*. M_Geo with the R-tree as an oracle satisfying geo_ok. 
  `C35_grid_index_round_trip` []
* **C36** Radius search returns exactly the points within the radius. *partial*. M_Geo with the R-tree as an oracle satisfying geo_ok. The search additionally requires every coordinate difference to be strictly below the radius (box query is strict), so points exactly at the radius along an axis, and coinciding points at radius 0, are dropped; refuted as stated, exact set characterised in the partial theorem.
  `C36_radius_search_partial` []
  `C36_radius_search_refuted` []
* **C37** Nearest neighbour search returns a closest point. *proved*. M_Geo with the R-tree as an oracle satisfying geo_ok. 
  `C37_nearest_neighbours` []
* **C38** Copying or subsetting Points keeps the coordinate type. *partial*. M_Geo with the R-tree as an oracle satisfying geo_ok. Cartesian Points become Geodetic when copied, assigned or subset (or the copy throws); Geodetic objects are copied exactly.
  `C38_copies_keep_type_partial` []
  `C38_copies_keep_type_refuted` []
* **C39** A Point has the same 3D position however it is obtained. *partial*. M_Geo with the R-tree as an oracle satisfying geo_ok. The Cartesian Point constructor exchanges x and y relative to get_point; Geodetic points agree and distances within one kind agree.
  `C39_point_position_partial` []
  `C39_point_position_refuted` []
* **C40** Grid::get_box returns an in-range cell that contains the point. *proved*. M_Geo with the R-tree as an oracle satisfying geo_ok. 
  `C40_get_box` []
* **C41** point_in_rectangle is exact for axis-aligned rectangles. *proved*. M_Geo with the R-tree as an oracle satisfying geo_ok. 
  `C41_point_in_rectangle` []
* **C42** Nearest-neighbour downscaling copies values. *proved*. M_Near/M_Grd on top of the search theorems C36/C37. All eight overloads. Output latitudes must be valid for the input coordinate type. The spatial index is an oracle with the contract geo_ok.
  `C42_nearest_from_grid` []
  `C42_nearest_from_points` []
  `C42_nearest_grid_and_points_agree` []
* **C43** Bilinear interpolation is a convex combination that reproduces its corners and affine fields. *proved*. M_Bilin; algebra of the two bilinear formulas. All four overloads on grids whose cells are non-degenerate parallelograms; exact arithmetic. For cells of any shape a returned value is still a weighted mean of the corners. Coordinates must be accepted by get_box (C68).
  `C43_bilinear_grid` []
  `C43_bilinear_points` []
  `C43_bilinear_between_corners` []
  `C43_bilinear_at_grid_point` []
  `C43_bilinear_reproduces_affine` []
  `C43_bilinear_mean_any_cell` []
* **C44** gridding aggregates exactly the points in range. *partial*. M_Near/M_Grd on top of the search theorems C36/C37. Fails as stated: a point exactly at the radius along an axis is left out (refuted). Proved with 'within radius' read as strictly inside the bounding box and not farther than the radius.
  `C44_gridding_grid_partial` []
  `C44_gridding_points_partial` []
  `C44_gridding_invalid_partial` []
  `C44_gridding_boundary_refuted` []
* **C45** gridding_nearest assigns every point to exactly one cell. *proved*. M_Near/M_Grd on top of the search theorems C36/C37. Conservation for min_num 0 or 1 (a larger min_num drops cells by definition).
  `C45_gridding_nearest_grid` []
  `C45_gridding_nearest_points` []
* **C46** fill changes exactly the cells inside (outside) the circles. *partial*. M_Near/M_Grd on top of the search theorems C36/C37. Fails as stated: a cell exactly at the radius along an axis is not filled (refuted). Proved for the circle as the radius search sees it.
  `C46_fill_partial` []
  `C46_fill_throws` []
  `C46_fill_boundary_refuted` []
* **C47** Doping overwrites only targeted cells and the last observation wins. *partial*. M_Near/M_Grd on top of the search theorems C36/C37. Square variant proved in full. Circle variant fails at the boundary like C46 (refuted), proved for the circle as the radius search sees it.
  `C47_doping_square` []
  `C47_doping_circle_partial` []
  `C47_doping_throws` []
  `C47_doping_circle_boundary_refuted` []
* **C48** fill_missing never alters valid values and interpolates gaps. *proved*. M_Near/M_Grd on top of the search theorems C36/C37. 
  `C48_fill_missing` []
* **C49** fill_missing returns a field without missing values. *partial*. M_Near/M_Grd on top of the search theorems C36/C37. Refuted: leading and trailing gaps stay missing. Proved when every missing cell lies between known cells in its row or column.
  `C49_fill_missing_complete_refuted` []
  `C49_fill_missing_complete_partial` []
* **C50** downscale_probability is a probability and complements add up. *proved*. M_Down on top of C01-C05, C42 and C43. nearest cell's finite members; range, complement and monotonicity laws; inputs of the documented shape
  `C50_downscale_probability` []
  `C50_probability_laws` []
* **C51** Masked threshold consensus uses each member once. *proved*. M_Down on top of C01-C05, C42 and C43. all listed statistics and every quantile level in [0,1]
  `C51_mask_threshold_downscale` []
* **C52** Gradient downscaling reduces to plain downscaling at zero gradient or equal elevation. *partial*. M_Down on top of C01-C05, C42 and C43. all eight overloads proved equal to plain value plus corrections (given that plain downscaling succeeds: C42, C43); 'no correction where elevation is missing' holds for full_gradient and is refuted for simple_gradient
  `C52_simple_gradient` []
  `C52_full_gradient` []
  `C52_no_correction_partial` []
  `C52_missing_elevation_refuted` []
* **C53** Barnes and power-law correlations are proper correlation functions. *proved*. M_Struct over the reals; closed form of each correlation, then real analysis; induction over nested structures. exact real arithmetic; scales v, w may also be 0 (disabled)
  `C53_barnes_powerlaw` [FNCE]
* **C54** All structure functions are symmetric and within [0,1]. *partial*. M_Struct over the reals; closed form of each correlation, then real analysis; induction over nested structures. refuted: the signed elevation or land-fraction difference is used, so Cressman and Soar can be negative, Toar exceeds 1 and none is symmetric; holds where the differences are missing, zero or disabled (Cressman: no larger than the scale)
  `C54_vertical_symmetry_refuted` [FNCE]
  `C54_symmetric_partial` [FNCE]
* **C55** Localization distance covers every correlated point. *proved*. M_Struct over the reals; closed form of each correlation, then real analysis; induction over nested structures. for Barnes and also for the power law
  `C55_localization` [FNCE]
* **C56** CrossValidation removes observations near the background point. *proved*. M_Struct over the reals; closed form of each correlation, then real analysis; induction over nested structures. for every constructible wrapped structure; also the vector form and rejected distances
  `C56_cross_validation` [FNCE]
* **C57** Optimal interpolation leaves unobserved and missing cells unchanged. *proved*. M_OI models oi.cpp over extended rationals: the structure function is an oracle (record sfn), arma::inv and std::sort are an oracle (record lib) with contract lib_ok (two-sided inverse of finite matrices, throws only when singular, keeps sizes; sort permutes and sorts). An instance L0 (Gaussian elimination) is proved to meet the contract, so it is satisfiable. The specification speaks of the set U of used observations, the linear system (P+R) w = g and sums over U; the proofs show that the code solves that system and that its solution is unique, and derive the rest by quadratic forms. A missing background, and any cell without usable observation, keeps its background (and variance); no observations returns the background.
  `C57_background_unchanged` []
* **C58** Optimal interpolation with zero innovation returns the background. *proved*. M_OI models oi.cpp over extended rationals: the structure function is an oracle (record sfn), arma::inv and std::sort are an oracle (record lib) with contract lib_ok (two-sided inverse of finite matrices, throws only when singular, keeps sizes; sort permutes and sorts). An instance L0 (Gaussian elimination) is proved to meet the contract, so it is satisfiable. The specification speaks of the set U of used observations, the linear system (P+R) w = g and sums over U; the proofs show that the code solves that system and that its solution is unique, and derive the rest by quadratic forms. For finite correlations and variances.
  `C58_no_departure` []
* **C59** Optimal interpolation uses the most correlated observations, at most max_points. *proved*. M_OI models oi.cpp over extended rationals: the structure function is an oracle (record sfn), arma::inv and std::sort are an oracle (record lib) with contract lib_ok (two-sided inverse of finite matrices, throws only when singular, keeps sizes; sort permutes and sorts). An instance L0 (Gaussian elimination) is proved to meet the contract, so it is satisfiable. The specification speaks of the set U of used observations, the linear system (P+R) w = g and sums over U; the proofs show that the code solves that system and that its solution is unique, and derive the rest by quadratic forms. Includes the characterisation of the chosen observations (predicate chosen) and the resulting analysis.
  `C59_analysis` []
* **C60** Single-observation analysis lies between background and corrected background. *proved*. M_OI models oi.cpp over extended rationals: the structure function is an oracle (record sfn), arma::inv and std::sort are an oracle (record lib) with contract lib_ok (two-sided inverse of finite matrices, throws only when singular, keeps sizes; sort permutes and sorts). An instance L0 (Gaussian elimination) is proved to meet the contract, so it is satisfiable. The specification speaks of the set U of used observations, the linear system (P+R) w = g and sums over U; the proofs show that the code solves that system and that its solution is unique, and derive the rest by quadratic forms. 
  `C60_single_observation` []
* **C61** Without extrapolation the analysis increment never exceeds the observed increments. *partial*. M_OI models oi.cpp over extended rationals: the structure function is an oracle (record sfn), arma::inv and std::sort are an oracle (record lib) with contract lib_ok (two-sided inverse of finite matrices, throws only when singular, keeps sizes; sort permutes and sorts). An instance L0 (Gaussian elimination) is proved to meet the contract, so it is satisfiable. The specification speaks of the set U of used observations, the linear system (P+R) w = g and sums over U; the proofs show that the code solves that system and that its solution is unique, and derive the rest by quadratic forms. False when the largest (smallest) departure is exactly 0; proved otherwise.
  `C61_no_extrapolation_refuted` []
  `C61_no_extrapolation_partial` []
* **C62** optimal_interpolation_full is memory safe for every observation set. *partial*. M_OI models oi.cpp over extended rationals: the structure function is an oracle (record sfn), arma::inv and std::sort are an oracle (record lib) with contract lib_ok (two-sided inverse of finite matrices, throws only when singular, keeps sizes; sort permutes and sorts). An instance L0 (Gaussian elimination) is proved to meet the contract, so it is satisfiable. The specification speaks of the set U of used observations, the linear system (P+R) w = g and sums over U; the proofs show that the code solves that system and that its solution is unique, and derive the rest by quadratic forms. False without observations (read of an unwritten vector); proved for at least one observation.
  `C62_full_grid_refuted` []
  `C62_full_grid_partial` []
* **C63** Transforms are inverse to each other. *proved*. M_Trans over the reals with pow/exp/log of the C library including special values; closed forms, then real analysis. Boost's gamma and normal distribution functions are an oracle with contract boost_ok (instance B0 proved). 
  `C63_transforms_inverse` [FNCE]
* **C64** BoxCox with a negative parameter is invertible. *partial*. M_Trans over the reals with pow/exp/log of the C library including special values; closed forms, then real analysis. Boost's gamma and normal distribution functions are an oracle with contract boost_ok (instance B0 proved). False: for a negative parameter and x > 0 backward(forward(x)) is always +infinity.
  `C64_boxcox_negative_refuted` [FNCE]
  `C64_boxcox_negative_infinite` [FNCE]
* **C65** Wind speed and direction are polar coordinates of the wind vector. *proved*. M_Diag/M_RelHum over exact arithmetic (decimal constants exact, gridpp::pi as the float it is); closed forms, then real analysis. C87 uses M_Wind32, wind_direction with every operation rounded to binary32 (Flocq). Exact arithmetic; for binary32 see C87. Direction equals the true angle up to 1e-5 degrees because gridpp::pi is a float.
  `C65_wind_speed` [FNE]
  `C65_wind_direction` [FNCE]
  `C65_wind_determined` [FNCE]
* **C66** pressure adjusts consistently with elevation. *proved*. M_Diag/M_RelHum over exact arithmetic (decimal constants exact, gridpp::pi as the float it is); closed forms, then real analysis. C87 uses M_Wind32, wind_direction with every operation rounded to binary32 (Flocq). 
  `C66_pressure` [FNCE]
  `C66_qnh` [FNCE]
* **C67** Humidity conversions stay in range. *proved*. M_Diag/M_RelHum over exact arithmetic (decimal constants exact, gridpp::pi as the float it is); closed forms, then real analysis. C87 uses M_Wind32, wind_direction with every operation rounded to binary32 (Flocq). 
  `C67_relative_humidity` []
  `C67_dewpoint` [FNCE]
* **C68** Cell search works on every valid grid. *partial*. M_Geo with the R-tree as an oracle satisfying geo_ok. get_box builds its corner points as Geodetic, so it throws for Cartesian grids with |y| > 90.001; never an error for Geodetic grids.
  `C68_get_box_geodetic_partial` []
  `C68_get_box_cartesian_refuted` []
* **C69** count returns the number of locations found in the radius. *proved*. M_Near/M_Grd on top of the search theorems C36/C37. All four overloads; 'found' is the radius search of C36.
  `C69_count` []
* **C70** Bilinear interpolation handles every convex cell. *partial*. M_Bilin; algebra of the two bilinear formulas. False: for a trapezoid cell with constant latitude along rows and decreasing with the row the third branch of calcGeneral tries the same root twice and the call aborts. Returned values are weighted means (C43_bilinear_mean_any_cell).
  `C70_bilinear_convex_cell_refuted` []
  `C43_bilinear_mean_any_cell` []
* **C71** full_gradient_debug agrees with full_gradient and explains it. *partial*. M_Down on top of C01-C05, C42 and C43. holds with both gradients given; with the default empty laf_gradient every call reads an empty array
  `C71_full_gradient_debug_partial` []
  `C71_debug_without_land_gradient` []
  `C71_full_gradient_debug_refuted` []
* **C72** MinMax gradients are the slope between the extremes of the base. *partial*. M_Down on top of C01-C05, C42 and C43. constant base with min_range missing (the default) gives 0/0 instead of the default gradient
  `C72_minmax_gradient_partial` []
  `C72_calc_gradient_rejects` []
  `C72_flat_terrain_refuted` []
* **C73** Regression gradients minimise the squared error. *proved*. M_Down on top of C01-C05, C42 and C43. square root is an oracle (any function)
  `C73_regression_gradient` []
  `C73_regression_recovers_line` []
* **C74** Soar and Toar honour their horizontal cut-off. *partial*. M_Struct over the reals; closed form of each correlation, then real analysis; induction over nested structures. refuted: with hmax = h/2 the localization distance is negative and even a point's correlation with itself is 0; the default cut-off truncates where the correlation still exceeds 0.0013; partial: correlation is the untruncated product up to the localization distance and 0 beyond
  `C74_soar_toar_cutoff_refuted` [FNCE]
  `C74_soar_toar_cutoff_partial` [FNCE]
* **C75** The vector form of a correlation agrees with the single form. *partial*. M_Struct over the reals; closed form of each correlation, then real analysis; induction over nested structures. refuted where a spatially varying scale is missing (single form 1, vector form 0); proved when the scales are present and the smallest correlation is in (0,1)
  `C75_vector_form_partial` [FNCE]
  `C75_vector_form_refuted` [FNCE]
* **C76** LinearStructure decreases linearly from 1 to the given minimum. *partial*. M_Struct over the reals; closed form of each correlation, then real analysis; induction over nested structures. refuted: correlation is 0 at any positive distance, and scale 0 does not disable; holds for collocated points
  `C76_linear_refuted` [FNCE]
  `C76_linear_partial` [FNCE]
* **C77** Copies of a structure function behave the same. *proved*. M_Struct over the reals; closed form of each correlation, then real analysis; induction over nested structures. 
  `C77_clone` [FNCE]
* **C78** MultipleStructure takes each factor from its own structure. *proved*. M_Struct over the reals; closed form of each correlation, then real analysis; induction over nested structures. 
  `C78_multiple` [FNCE]
* **C79** Observations never increase the analysis variance. *proved*. M_OI models oi.cpp over extended rationals: the structure function is an oracle (record sfn), arma::inv and std::sort are an oracle (record lib) with contract lib_ok (two-sided inverse of finite matrices, throws only when singular, keeps sizes; sort permutes and sorts). An instance L0 (Gaussian elimination) is proved to meet the contract, so it is satisfiable. The specification speaks of the set U of used observations, the linear system (P+R) w = g and sums over U; the proofs show that the code solves that system and that its solution is unique, and derive the rest by quadratic forms. 
  `C79_variance_reduced` []
* **C80** The analysis fits an error-free observation at the cell exactly. *proved*. M_OI models oi.cpp over extended rationals: the structure function is an oracle (record sfn), arma::inv and std::sort are an oracle (record lib) with contract lib_ok (two-sided inverse of finite matrices, throws only when singular, keeps sizes; sort permutes and sorts). An instance L0 (Gaussian elimination) is proved to meet the contract, so it is satisfiable. The specification speaks of the set U of used observations, the linear system (P+R) w = g and sums over U; the proofs show that the code solves that system and that its solution is unique, and derive the rest by quadratic forms. 
  `C80_exact_at_observation` []
* **C81** The order of the observations does not matter. *proved*. M_OI models oi.cpp over extended rationals: the structure function is an oracle (record sfn), arma::inv and std::sort are an oracle (record lib) with contract lib_ok (two-sided inverse of finite matrices, throws only when singular, keeps sizes; sort permutes and sorts). An instance L0 (Gaussian elimination) is proved to meet the contract, so it is satisfiable. The specification speaks of the set U of used observations, the linear system (P+R) w = g and sums over U; the proofs show that the code solves that system and that its solution is unique, and derive the rest by quadratic forms. 
  `C81_observation_order` []
* **C82** All versions of optimal interpolation compute the same documented analysis. *proved*. M_OI models oi.cpp over extended rationals: the structure function is an oracle (record sfn), arma::inv and std::sort are an oracle (record lib) with contract lib_ok (two-sided inverse of finite matrices, throws only when singular, keeps sizes; sort permutes and sorts). An instance L0 (Gaussian elimination) is proved to meet the contract, so it is satisfiable. The specification speaks of the set U of used observations, the linear system (P+R) w = g and sums over U; the proofs show that the code solves that system and that its solution is unique, and derive the rest by quadratic forms. 
  `C82_points` []
  `C82_grid` []
  `C82_full_grid` []
* **C83** optimal_interpolation rejects arguments whose sizes do not fit. *partial*. M_OI models oi.cpp over extended rationals: the structure function is an oracle (record sfn), arma::inv and std::sort are an oracle (record lib) with contract lib_ok (two-sided inverse of finite matrices, throws only when singular, keeps sizes; sort permutes and sorts). An instance L0 (Gaussian elimination) is proved to meet the contract, so it is satisfiable. The specification speaks of the set U of used observations, the linear system (P+R) w = g and sums over U; the proofs show that the code solves that system and that its solution is unique, and derive the rest by quadratic forms. The background at the observations (Points) and background variances (full Grid) are not checked; all other sizes are.
  `C83_sizes_refuted` []
  `C83_sizes_points_partial` []
  `C83_sizes_grid_partial` []
* **C84** Optimal interpolation always returns for valid correlations and positive observation errors. *proved*. M_OI models oi.cpp over extended rationals: the structure function is an oracle (record sfn), arma::inv and std::sort are an oracle (record lib) with contract lib_ok (two-sided inverse of finite matrices, throws only when singular, keeps sizes; sort permutes and sorts). An instance L0 (Gaussian elimination) is proved to meet the contract, so it is satisfiable. The specification speaks of the set U of used observations, the linear system (P+R) w = g and sums over U; the proofs show that the code solves that system and that its solution is unique, and derive the rest by quadratic forms. 
  `C84_always_returns` []
* **C85** Transforms are onto and treat negative amounts as zero. *proved*. M_Trans over the reals with pow/exp/log of the C library including special values; closed forms, then real analysis. Boost's gamma and normal distribution functions are an oracle with contract boost_ok (instance B0 proved). 
  `C85_transforms_onto` [FNCE]
* **C86** The Gamma transform is invertible. *proved*. M_Trans over the reals with pow/exp/log of the C library including special values; closed forms, then real analysis. Boost's gamma and normal distribution functions are an oracle with contract boost_ok (instance B0 proved). Relative to Boost's distribution functions satisfying boost_ok.
  `C86_gamma_inverse` [FE]
* **C87** wind_direction is below 360 in floating point arithmetic. *partial*. M_Diag/M_RelHum over exact arithmetic (decimal constants exact, gridpp::pi as the float it is); closed forms, then real analysis. C87 uses M_Wind32, wind_direction with every operation rounded to binary32 (Flocq). False: a tiny positive xwind with negative ywind gives 360. The result is always in [0,360].
  `C87_direction_360_refuted` [FNCE]
  `C87_direction_range_partial` [FNCE]
* **C88** Drier air has a lower dew point. *partial*. M_Diag/M_RelHum over exact arithmetic (decimal constants exact, gridpp::pi as the float it is); closed forms, then real analysis. C87 uses M_Wind32, wind_direction with every operation rounded to binary32 (Flocq). False at relative humidity 0, where the dew point is the temperature. True on (0,1] for temperatures from 30.11 to 4000 K.
  `C88_dewpoint_dry_refuted` [FNCE]
  `C88_dewpoint_monotone_partial` [FNCE]
* **C89** Wet-bulb temperature lies between dew point and temperature. *partial*. M_Diag/M_RelHum over exact arithmetic (decimal constants exact, gridpp::pi as the float it is); closed forms, then real analysis. C87 uses M_Wind32, wind_direction with every operation rounded to binary32 (Flocq). False near saturation. True up to 90 % relative humidity and 50 degrees.
  `C89_wetbulb_exceeds_refuted` [FNCE]
  `C89_wetbulb_between_partial` [FNCE]
  `C89_wetbulb_missing` [FNCE]
  `C89_wetbulb_unphysical` [FNCE]
* **C90** sea_level_pressure of physical input is a number. *partial*. M_Diag/M_RelHum over exact arithmetic (decimal constants exact, gridpp::pi as the float it is); closed forms, then real analysis. C87 uses M_Wind32, wind_direction with every operation rounded to binary32 (Flocq). False for relative humidity 0 below 50 m (NaN). Partial: altitude 0, altitude >= 50 m and the exceptions.
  `C90_slp_dry_refuted` [FNCE]
  `C90_slp_partial` [FNCE]
* **C91** Array versions of the diagnostics apply the scalar version to each element. *partial*. M_Diag/M_RelHum over exact arithmetic (decimal constants exact, gridpp::pi as the float it is); closed forms, then real analysis. C87 uses M_Wind32, wind_direction with every operation rounded to binary32 (Flocq). False only for sea_level_pressure with an element the scalar version rejects: the exception leaves a parallel loop and the program ends.
  `C91_arrays_two` [FNCE]
  `C91_relative_humidity_array` []
  `C91_arrays_more` [FNCE]
  `C91_slp_array_partial` [FNCE]
  `C91_slp_array_aborts_refuted` [FNCE]
* **C92** neighbourhood_score scores the cells of the window. *proved*. M_NScore on M_Grd, M_Neigh and M_Score: the four contingency fields count the cell's pairs, the window means are counts over the same number of cells, and the scores are homogeneous of degree 0. Metrics of the API only; an invalid metric throws inside a parallel loop.
  `C92_neighbourhood_score` []
  `C92_invalid_arguments` []
* **C93** calc_distance is a metric. *proved*. M_Dist over the reals; arcs by half-angle and addition formulas, triangle inequality from the Cauchy-Schwarz inequality. Real arithmetic.
  `C93_distance` [FNCE]
  `C93_approximate_distance` [FNCE]
  `C93_approximate_plane` [FNCE]
  `C93_point_objects` [FNCE]
* **C94** distance gives the largest distance to the num closest locations. *proved*. M_Dist on the tree contract of M_Geo; num = 0 and negative num are outside (negative num throws inside a parallel loop). Real arithmetic; rtree contract.
  `C94_grid_to_points` [FNCE]
  `C94_grid_to_grid` [FNCE]
  `C94_points_to_grid` [FNCE]
  `C94_points_to_points` [FNCE]
  `C94_coordinate_types` [FNCE]
  `C94_more_neighbours` [FNCE]
  `C94_one_neighbour` [FNCE]
* **C95** Static correlations to knots keep the strongest links. *proved*. M_CorrPts on the search theorems C36/C37 with std::sort as the oracle of M_OI; the kept indices are the tail of a sorted permutation. 
  `C95_static_correlations` []
  `C95_invalid_arguments` []
* **C96** smart returns the mean of the num most correlated neighbours. *proved*. M_CorrPts on the search theorems C36/C37 with std::sort as the oracle of M_OI; the kept indices are the tail of a sorted permutation. exact arithmetic; the ordering is stated when no correlation is NaN
  `C96_smart_neighbours` []
* **C97** local_distribution_correction maps quantiles of nearby pairs. *proved*. M_LDC: exp and std::sort are an oracle (record ldclib, contract ldclib_ok, instance LD0 proved). The specification lists the pairs in reach, their sorted middle part and the two curves; curves with flat parts are inverted with the interpolation rule of C09. exact arithmetic; exp and sort are oracles with a stated contract; weights in reach assumed finite and positive
  `C97_distribution_correction` []
  `C97_agreement_unchanged` []
  `C97_size_error` []
* **C98** local_distribution_correction keeps the background without observations. *partial*. M_LDC: exp and std::sort are an oracle (record ldclib, contract ldclib_ok, instance LD0 proved). The specification lists the pairs in reach, their sorted middle part and the two curves; curves with flat parts are inverted with the interpolation rule of C09. false with the default min_points = 0 for backgrounds below 0.1; holds for min_points > 0 or backgrounds of at least 0.1
  `C98_no_observations_refuted` []
  `C98_no_observations_partial` []
* **C99** get_optimal_threshold returns a useful forecast threshold or missing. *proved*. M_Opt: boost's brent_find_minima is an oracle (contract brent_ok: the place lies in the search interval and the value is the function's value there; instance B0 proved). Scores are stated by counting pairs in the four classes (S_Score), independent of calc_score. The search interval is the pair of best scoring tenths' neighbours, shown to lie in the range of the forecasts. the minimiser is an oracle with a recorded contract
  `C99_optimal_threshold` []
  `C99_unknown_metric` []
* **C100** get_optimal_threshold removes optima at the boundary. *partial*. M_Opt: boost's brent_find_minima is an oracle (contract brent_ok: the place lies in the search interval and the value is the function's value there; instance B0 proved). Scores are stated by counting pairs in the four classes (S_Score), independent of calc_score. The search interval is the pair of best scoring tenths' neighbours, shown to lie in the range of the forecasts. false of the code both ways (the negated score is compared); proved: a returned threshold's negated score differs from the scores at the ends
  `C100_boundary_kept_refuted` []
  `C100_interior_removed_refuted` []
  `C100_boundary_partial` []
* **C101** metric_optimizer_curve keeps exactly the thresholds with an optimum. *proved*. M_Opt: boost's brent_find_minima is an oracle (contract brent_ok: the place lies in the search interval and the value is the function's value there; instance B0 proved). Scores are stated by counting pairs in the four classes (S_Score), independent of calc_score. The search interval is the pair of best scoring tenths' neighbours, shown to lie in the range of the forecasts. 
  `C101_optimizer_curve` []
  `C101_size_error` []
* **C102** gamma_inv returns gamma quantiles. *partial*. M_Opt: boost's gamma quantile is an oracle (contract gquant_ok: finite and nonnegative below level 1, 0 at 0, increasing, throws at level 1; instance Q0 proved). An exception inside the parallel loop is the outcome Abort. level 1 ends the program instead of giving a quantile; vectors shorter than the shapes are read past their end; proved for levels below 1
  `C102_gamma_quantiles_partial` []
  `C102_gamma_monotone` []
  `C102_gamma_errors` []
  `C102_level_one_refuted` []
  `C102_sizes_refuted` []
* **C103** get_statistic knows every statistic by name. *partial*. M_Opt.get_statistic over all strings; the names are listed separately in S_Opt. "variance" is not known; proved for all other strings
  `C103_names_refuted` []
  `C103_names_partial` []
* **C104** The scaled ensemble analysis is the member-by-member linear analysis. *partial*. M_EnsMulti models ebesc for Points and Grid on top of the structure function and linear algebra oracles of M_OI. The members with values everywhere are found as in the code; the innovations are stored at the original member number in a matrix that has only as many columns as there are complete members (out of range: arma's bounds check, outcome LogicError). The analysis is proved for every input whose incomplete members come last; the general statement is refuted. Refuted: a member with missing values before a complete one makes the analysis throw. Proved when the incomplete members come last.
  `C104_member_analysis_refuted` []
  `C104_member_analysis_partial` []
* **C105** The scaled ensemble analysis is defined whenever the statistics are consistent. *proved*. M_EnsMulti models ebesc for Points and Grid on top of the structure function and linear algebra oracles of M_OI. The members with values everywhere are found as in the code; the innovations are stored at the original member number in a matrix that has only as many columns as there are complete members (out of range: arma's bounds check, outcome LogicError). The analysis is proved for every input whose incomplete members come last; the general statement is refuted. Incomplete members last (see C104).
  `C105_analysis_defined` []
* **C106** The scaled ensemble analysis agrees with optimal_interpolation member by member. *proved*. M_EnsMulti models ebesc for Points and Grid on top of the structure function and linear algebra oracles of M_OI. The members with values everywhere are found as in the code; the innovations are stored at the original member number in a matrix that has only as many columns as there are complete members (out of range: arma's bounds check, outcome LogicError). The analysis is proved for every input whose incomplete members come last; the general statement is refuted. Incomplete members last (see C104).
  `C106_same_as_optimal_interpolation` []
* **C107** The scaled ensemble analysis rejects arguments that do not fit. *proved*. M_EnsMulti models ebesc for Points and Grid on top of the structure function and linear algebra oracles of M_OI. The members with values everywhere are found as in the code; the innovations are stored at the original member number in a matrix that has only as many columns as there are complete members (out of range: arma's bounds check, outcome LogicError). The analysis is proved for every input whose incomplete members come last; the general statement is refuted. 
  `C107_argument_checks` []
  `C107_grid_argument_checks` []
* **C108** Grid version of the scaled ensemble analysis. *proved*. M_EnsMulti models ebesc for Points and Grid on top of the structure function and linear algebra oracles of M_OI. The members with values everywhere are found as in the code; the innovations are stored at the original member number in a matrix that has only as many columns as there are complete members (out of range: arma's bounds check, outcome LogicError). The analysis is proved for every input whose incomplete members come last; the general statement is refuted. 
  `C108_grid_version` []
* **C109** Structure function constructors reject unusable scales. *partial*. M_Struct.mk_base, mk_cressman and mk_spatial; acceptance is characterised exactly. Refuted for the gridded constructors, which accept negative and missing scales; exact characterisation proved for the others, and of sizes for the gridded ones.
  `C109_scales_checked_refuted` [FE]
  `C109_scales_checked_partial` [FNE]
  `C109_cressman_scales_checked` []
  `C109_gridded_scales_sized` []
* **C110** The ensemble analysis has the Kalman filter's mean. *partial*. M_Ensi models oi_ensi.cpp; matrices of rationals up to the eigenvalue step, reals after it. arma::rcond, inv and eig_sym are oracles with the contracts elib_ok and lib_ok (S_Ensi, S_OI): rcond is positive unless the matrix is singular, inv inverts, eig_sym gives orthonormal eigenvectors. The proofs derive the Kalman formulas from the ensemble-space ones (P_EnsiAlg: push-through identities over sums), show that the eigenvector product is the unique symmetric positive semidefinite root (P_EnsiRoot) and that the precision matrix is positive definite, so inversion succeeds for finite data. The formulas hold when members that take no part have no valid background at the stations; otherwise the code's station means include them and the claim is refuted. False of the code when a member that takes no part has a background value at a station (refuted with a witness). Proved when such members have none; points where the eigenvalue solver gives up keep the background.
  `C110_ensemble_mean_partial` [FNE]
  `C110_ensemble_mean_refuted` [FNE]
* **C111** The ensemble analysis has the Kalman filter's variance. *partial*. M_Ensi models oi_ensi.cpp; matrices of rationals up to the eigenvalue step, reals after it. arma::rcond, inv and eig_sym are oracles with the contracts elib_ok and lib_ok (S_Ensi, S_OI): rcond is positive unless the matrix is singular, inv inverts, eig_sym gives orthonormal eigenvectors. The proofs derive the Kalman formulas from the ensemble-space ones (P_EnsiAlg: push-through identities over sums), show that the eigenvector product is the unique symmetric positive semidefinite root (P_EnsiRoot) and that the precision matrix is positive definite, so inversion succeeds for finite data. The formulas hold when members that take no part have no valid background at the stations; otherwise the code's station means include them and the claim is refuted. Proved under the restriction of C110; the variance formula contains no observed value.
  `C111_ensemble_spread_partial` [FNE]
* **C112** The ensemble analysis uses the symmetric square root. *partial*. M_Ensi models oi_ensi.cpp; matrices of rationals up to the eigenvalue step, reals after it. arma::rcond, inv and eig_sym are oracles with the contracts elib_ok and lib_ok (S_Ensi, S_OI): rcond is positive unless the matrix is singular, inv inverts, eig_sym gives orthonormal eigenvectors. The proofs derive the Kalman formulas from the ensemble-space ones (P_EnsiAlg: push-through identities over sums), show that the eigenvector product is the unique symmetric positive semidefinite root (P_EnsiRoot) and that the precision matrix is positive definite, so inversion succeeds for finite data. The formulas hold when members that take no part have no valid background at the stations; otherwise the code's station means include them and the claim is refuted. Proved under the restriction of C110, with uniqueness of the root.
  `C112_ensemble_transform_partial` [FNE]
* **C113** The ensemble analysis does not extrapolate. *partial*. M_Ensi models oi_ensi.cpp; matrices of rationals up to the eigenvalue step, reals after it. arma::rcond, inv and eig_sym are oracles with the contracts elib_ok and lib_ok (S_Ensi, S_OI): rcond is positive unless the matrix is singular, inv inverts, eig_sym gives orthonormal eigenvectors. The proofs derive the Kalman formulas from the ensemble-space ones (P_EnsiAlg: push-through identities over sums), show that the eigenvector product is the unique symmetric positive semidefinite root (P_EnsiRoot) and that the precision matrix is positive definite, so inversion succeeds for finite data. The formulas hold when members that take no part have no valid background at the stations; otherwise the code's station means include them and the claim is refuted. False of the code with several stations (wrong element of the matrix is used; refuted with a witness). Proved for points with one chosen observation whose departure is not 0; with departure 0 the code does not limit.
  `C113_no_extrapolation_partial` [FNE]
  `C113_no_extrapolation_refuted` [FNE]
* **C114** The ensemble analysis leaves the rest alone. *proved*. M_Ensi models oi_ensi.cpp; matrices of rationals up to the eigenvalue step, reals after it. arma::rcond, inv and eig_sym are oracles with the contracts elib_ok and lib_ok (S_Ensi, S_OI): rcond is positive unless the matrix is singular, inv inverts, eig_sym gives orthonormal eigenvectors. The proofs derive the Kalman formulas from the ensemble-space ones (P_EnsiAlg: push-through identities over sums), show that the eigenvector product is the unique symmetric positive semidefinite root (P_EnsiRoot) and that the precision matrix is positive definite, so inversion succeeds for finite data. The formulas hold when members that take no part have no valid background at the stations; otherwise the code's station means include them and the claim is refuted. 
  `C114_left_alone` [FNE]
* **C115** The ensemble analysis is defined. *proved*. M_Ensi models oi_ensi.cpp; matrices of rationals up to the eigenvalue step, reals after it. arma::rcond, inv and eig_sym are oracles with the contracts elib_ok and lib_ok (S_Ensi, S_OI): rcond is positive unless the matrix is singular, inv inverts, eig_sym gives orthonormal eigenvectors. The proofs derive the Kalman formulas from the ensemble-space ones (P_EnsiAlg: push-through identities over sums), show that the eigenvector product is the unique symmetric positive semidefinite root (P_EnsiRoot) and that the precision matrix is positive definite, so inversion succeeds for finite data. The formulas hold when members that take no part have no valid background at the stations; otherwise the code's station means include them and the claim is refuted. Both sentences.
  `C115_analysis_defined` [FNE]
* **C116** The ensemble analysis rejects arguments that do not fit. *proved*. M_Ensi models oi_ensi.cpp; matrices of rationals up to the eigenvalue step, reals after it. arma::rcond, inv and eig_sym are oracles with the contracts elib_ok and lib_ok (S_Ensi, S_OI): rcond is positive unless the matrix is singular, inv inverts, eig_sym gives orthonormal eigenvectors. The proofs derive the Kalman formulas from the ensemble-space ones (P_EnsiAlg: push-through identities over sums), show that the eigenvector product is the unique symmetric positive semidefinite root (P_EnsiRoot) and that the precision matrix is positive definite, so inversion succeeds for finite data. The formulas hold when members that take no part have no valid background at the stations; otherwise the code's station means include them and the claim is refuted. 
  `C116_argument_checks` [FNE]
  `C116_grid_argument_checks` [FNE]
* **C117** Grid version of the ensemble analysis. *proved*. M_Ensi models oi_ensi.cpp; matrices of rationals up to the eigenvalue step, reals after it. arma::rcond, inv and eig_sym are oracles with the contracts elib_ok and lib_ok (S_Ensi, S_OI): rcond is positive unless the matrix is singular, inv inverts, eig_sym gives orthonormal eigenvectors. The proofs derive the Kalman formulas from the ensemble-space ones (P_EnsiAlg: push-through identities over sums), show that the eigenvector product is the unique symmetric positive semidefinite root (P_EnsiRoot) and that the precision matrix is positive definite, so inversion succeeds for finite data. The formulas hold when members that take no part have no valid background at the stations; otherwise the code's station means include them and the claim is refuted. 
  `C117_grid_version` [FNE]
* **C118** The ensemble analysis never increases the spread and keeps a mean that agrees with the observations. *partial*. M_Ensi models oi_ensi.cpp; matrices of rationals up to the eigenvalue step, reals after it. arma::rcond, inv and eig_sym are oracles with the contracts elib_ok and lib_ok (S_Ensi, S_OI): rcond is positive unless the matrix is singular, inv inverts, eig_sym gives orthonormal eigenvectors. The proofs derive the Kalman formulas from the ensemble-space ones (P_EnsiAlg: push-through identities over sums), show that the eigenvector product is the unique symmetric positive semidefinite root (P_EnsiRoot) and that the precision matrix is positive definite, so inversion succeeds for finite data. The formulas hold when members that take no part have no valid background at the stations; otherwise the code's station means include them and the claim is refuted. Proved under the restriction of C110; the witness there also refutes the second sentence.
  `C118_mean_kept_and_spread_reduced_partial` [FNE]
  `C110_ensemble_mean_refuted` [FNE]
* **C119** Ensemble-based correlations: the analysis is the member-by-member linear analysis with the ensemble's correlations. *partial*. M_EnsDyn models optimal_interpolation_ensi_multi_ebe for Points and Grid; everything after the standard deviations is over the reals. arma::inv of a real matrix is an oracle with the contract rlib_ok (S_EnsDyn), which an elimination over the reals is shown to meet (P_RInv). The inner products of normalised perturbations are shown to be m/(m-1) times the correlations (P_EnsDyn.inner_corr), the row computed is shown to solve the analysis equations uniquely (P_EnsDynCell), and the localized correlation matrix plus positive ratios is shown to be regular for any ensemble (a sum over the members of quadratic forms of the localization). Refuted: the perturbations are divided by the population standard deviation and by sqrt(m-1), so every correlation, also of a quantity with itself, is multiplied by m/(m-1); and a member with missing values before a complete one makes the analysis throw. Proved with the correlations multiplied by m/(m-1) and the incomplete members last.
  `C119_dynamic_analysis_refuted` [FNE]
  `C119_missing_members_refuted` [FNE]
  `C119_dynamic_analysis_partial` [FNE]
* **C120** Ensemble-based correlations: the analysis is defined. *partial*. M_EnsDyn models optimal_interpolation_ensi_multi_ebe for Points and Grid; everything after the standard deviations is over the reals. arma::inv of a real matrix is an oracle with the contract rlib_ok (S_EnsDyn), which an elimination over the reals is shown to meet (P_RInv). The inner products of normalised perturbations are shown to be m/(m-1) times the correlations (P_EnsDyn.inner_corr), the row computed is shown to solve the analysis equations uniquely (P_EnsDynCell), and the localized correlation matrix plus positive ratios is shown to be regular for any ensemble (a sum over the members of quadratic forms of the localization). Refuted: with more stations than background points an array is written past its end, whatever the data. Proved for at most as many stations as background points.
  `C120_analysis_defined_refuted` [FNE]
  `C120_more_stations_than_points` [FNE]
  `C120_analysis_defined_partial` [FNE]
* **C121** Ensemble-based correlations: arguments that do not fit are rejected. *proved*. M_EnsDyn models optimal_interpolation_ensi_multi_ebe for Points and Grid; everything after the standard deviations is over the reals. arma::inv of a real matrix is an oracle with the contract rlib_ok (S_EnsDyn), which an elimination over the reals is shown to meet (P_RInv). The inner products of normalised perturbations are shown to be m/(m-1) times the correlations (P_EnsDyn.inner_corr), the row computed is shown to solve the analysis equations uniquely (P_EnsDynCell), and the localized correlation matrix plus positive ratios is shown to be regular for any ensemble (a sum over the members of quadratic forms of the localization). 
  `C121_argument_checks` [FNE]
  `C121_grid_argument_checks` [FNE]
* **C122** Ensemble-based correlations: Grid version. *proved*. M_EnsDyn models optimal_interpolation_ensi_multi_ebe for Points and Grid; everything after the standard deviations is over the reals. arma::inv of a real matrix is an oracle with the contract rlib_ok (S_EnsDyn), which an elimination over the reals is shown to meet (P_RInv). The inner products of normalised perturbations are shown to be m/(m-1) times the correlations (P_EnsDyn.inner_corr), the row computed is shown to solve the analysis equations uniquely (P_EnsDynCell), and the localized correlation matrix plus positive ratios is shown to be regular for any ensemble (a sum over the members of quadratic forms of the localization). 
  `C122_grid_version` [FNE]
* **C123** Ensemble-based correlations: no spread or no departures, no change. *proved*. M_EnsDyn models optimal_interpolation_ensi_multi_ebe for Points and Grid; everything after the standard deviations is over the reals. arma::inv of a real matrix is an oracle with the contract rlib_ok (S_EnsDyn), which an elimination over the reals is shown to meet (P_RInv). The inner products of normalised perturbations are shown to be m/(m-1) times the correlations (P_EnsDyn.inner_corr), the row computed is shown to solve the analysis equations uniquely (P_EnsDynCell), and the localized correlation matrix plus positive ratios is shown to be regular for any ensemble (a sum over the members of quadratic forms of the localization). Incomplete members last (see C119).
  `C123_no_spread_or_departures` [FNE]
* **C124** Ensemble transform with ensemble correlations: mean, spread and members. *proved*. M_EnsUtem models optimal_interpolation_ensi_multi_utem for Points and Grid. arma::rcond, arma::eig_sym (xlib) and arma::inv (rlib) of real matrices are oracles with the contracts xlib_ok (S_EnsUtem) and rlib_ok (S_EnsDyn); P_XLib and P_RInv show instances that meet them. P_RAlg derives the interpolation equations for mean and variance from the ensemble-space inverse (push-through identities over sums of reals), P_EnsUtem and P_EnsUtemAll carry them through the code, P_EnsUtemSpec shows that the eigenvector product is the unique inverse root and that the description determines the analysis; P_EnsUtemRef and P_EnsUtemTop contain the statements and the counterexamples. Finite values in the valid members and positive error ratios. The scaling n/(n-1) of all correlations is part of the statement; C124_determined shows that the statement fixes every member.
  `C124_transform` [FNE]
  `C124_determined` [FNE]
* **C125** Ensemble transform with ensemble correlations: stations without spread change nothing. *partial*. M_EnsUtem models optimal_interpolation_ensi_multi_utem for Points and Grid. arma::rcond, arma::eig_sym (xlib) and arma::inv (rlib) of real matrices are oracles with the contracts xlib_ok (S_EnsUtem) and rlib_ok (S_EnsDyn); P_XLib and P_RInv show instances that meet them. P_RAlg derives the interpolation equations for mean and variance from the ensemble-space inverse (push-through identities over sums of reals), P_EnsUtem and P_EnsUtemAll carry them through the code, P_EnsUtemSpec shows that the eigenvector product is the unique inverse root and that the description determines the analysis; P_EnsUtemRef and P_EnsUtemTop contain the statements and the counterexamples. Refuted: when the correlation ensemble differs from the background its standardized perturbations replace those of the background (0 and 2 become 2 and 0). Proved: the result is the mean plus the background standard deviation times the standardized correlation ensemble, which is the background when the two ensembles agree and vary.
  `C125_uninformative_refuted` [FNE]
  `C125_uninformative_partial` [FNE]
* **C126** Ensemble transform with ensemble correlations: points without spread keep their background. *partial*. M_EnsUtem models optimal_interpolation_ensi_multi_utem for Points and Grid. arma::rcond, arma::eig_sym (xlib) and arma::inv (rlib) of real matrices are oracles with the contracts xlib_ok (S_EnsUtem) and rlib_ok (S_EnsDyn); P_XLib and P_RInv show instances that meet them. P_RAlg derives the interpolation equations for mean and variance from the ensemble-space inverse (push-through identities over sums of reals), P_EnsUtem and P_EnsUtemAll carry them through the code, P_EnsUtemSpec shows that the eigenvector product is the unique inverse root and that the description determines the analysis; P_EnsUtemRef and P_EnsUtemTop contain the statements and the counterexamples. Refuted: every member becomes the ensemble mean. Proved: exactly that, for all inputs.
  `C126_no_spread_refuted` [FNE]
  `C126_no_spread_partial` [FNE]
* **C127** Ensemble transform with ensemble correlations: no extrapolation. *partial*. M_EnsUtem models optimal_interpolation_ensi_multi_utem for Points and Grid. arma::rcond, arma::eig_sym (xlib) and arma::inv (rlib) of real matrices are oracles with the contracts xlib_ok (S_EnsUtem) and rlib_ok (S_EnsDyn); P_XLib and P_RInv show instances that meet them. P_RAlg derives the interpolation equations for mean and variance from the ensemble-space inverse (push-through identities over sums of reals), P_EnsUtem and P_EnsUtemAll carry them through the code, P_EnsUtemSpec shows that the eigenvector product is the unique inverse root and that the description determines the analysis; P_EnsUtemRef and P_EnsUtemTop contain the statements and the counterexamples. Refuted for two stations (linear index into the matrix of station perturbations, as C113). Proved for one chosen station.
  `C127_no_extrapolation_refuted` [FNE]
  `C127_no_extrapolation_partial` [FNE]
* **C128** Ensemble transform with ensemble correlations: what is left alone. *proved*. M_EnsUtem models optimal_interpolation_ensi_multi_utem for Points and Grid. arma::rcond, arma::eig_sym (xlib) and arma::inv (rlib) of real matrices are oracles with the contracts xlib_ok (S_EnsUtem) and rlib_ok (S_EnsDyn); P_XLib and P_RInv show instances that meet them. P_RAlg derives the interpolation equations for mean and variance from the ensemble-space inverse (push-through identities over sums of reals), P_EnsUtem and P_EnsUtemAll carry them through the code, P_EnsUtemSpec shows that the eigenvector product is the unique inverse root and that the description determines the analysis; P_EnsUtemRef and P_EnsUtemTop contain the statements and the counterexamples. 
  `C128_left_alone` [FNE]
* **C129** Ensemble transform with ensemble correlations: the analysis is defined. *partial*. M_EnsUtem models optimal_interpolation_ensi_multi_utem for Points and Grid. arma::rcond, arma::eig_sym (xlib) and arma::inv (rlib) of real matrices are oracles with the contracts xlib_ok (S_EnsUtem) and rlib_ok (S_EnsDyn); P_XLib and P_RInv show instances that meet them. P_RAlg derives the interpolation equations for mean and variance from the ensemble-space inverse (push-through identities over sums of reals), P_EnsUtem and P_EnsUtemAll carry them through the code, P_EnsUtemSpec shows that the eigenvector product is the unique inverse root and that the description determines the analysis; P_EnsUtemRef and P_EnsUtemTop contain the statements and the counterexamples. Refuted: with more stations than background points arrays are written out of range (always, when there is a valid member). Proved for at most as many stations as background points.
  `C129_analysis_defined_refuted` [FNE]
  `C129_more_stations_than_points` [FNE]
  `C129_analysis_defined_partial` [FNE]
* **C130** Ensemble transform with ensemble correlations: arguments that do not fit are rejected. *proved*. M_EnsUtem models optimal_interpolation_ensi_multi_utem for Points and Grid. arma::rcond, arma::eig_sym (xlib) and arma::inv (rlib) of real matrices are oracles with the contracts xlib_ok (S_EnsUtem) and rlib_ok (S_EnsDyn); P_XLib and P_RInv show instances that meet them. P_RAlg derives the interpolation equations for mean and variance from the ensemble-space inverse (push-through identities over sums of reals), P_EnsUtem and P_EnsUtemAll carry them through the code, P_EnsUtemSpec shows that the eigenvector product is the unique inverse root and that the description determines the analysis; P_EnsUtemRef and P_EnsUtemTop contain the statements and the counterexamples. 
  `C130_argument_checks` [FNE]
  `C130_grid_argument_checks` [FNE]
* **C131** Ensemble transform with ensemble correlations: Grid version. *proved*. M_EnsUtem models optimal_interpolation_ensi_multi_utem for Points and Grid. arma::rcond, arma::eig_sym (xlib) and arma::inv (rlib) of real matrices are oracles with the contracts xlib_ok (S_EnsUtem) and rlib_ok (S_EnsDyn); P_XLib and P_RInv show instances that meet them. P_RAlg derives the interpolation equations for mean and variance from the ensemble-space inverse (push-through identities over sums of reals), P_EnsUtem and P_EnsUtemAll carry them through the code, P_EnsUtemSpec shows that the eigenvector product is the unique inverse root and that the description determines the analysis; P_EnsUtemRef and P_EnsUtemTop contain the statements and the counterexamples. 
  `C131_grid_version` [FNE]
* **C132** Option strings: the last value wins. *proved*. M_COpt models Util::split, Options and Variable of the client on strings as lists of characters. S_COpt describes the words of a text inductively, what a word assigns, and histories of calls; P_COpt shows by induction that splitting yields the only list of words and that the container holds the last assignment. 
  `C132_last_value_wins` []
  `C132_words` []
* **C133** Option strings: text and container correspond. *partial*. M_COpt models Util::split, Options and Variable of the client on strings as lists of characters. S_COpt describes the words of a text inductively, what a word assigns, and histories of calls; P_COpt shows by induction that splitting yields the only list of words and that the container holds the last assignment. False when addOption(key, value) was given a value (or key) with a space or a key with '='. Proved for containers filled from option strings or with keys and values such strings can express.
  `C133_text_rebuilds_refuted` []
  `C133_text_rebuilds_partial` []
* **C134** Options: equality. *partial*. M_COpt models Util::split, Options and Variable of the client on strings as lists of characters. S_COpt describes the words of a text inductively, what a word assigns, and histories of calls; P_COpt shows by induction that splitting yields the only list of words and that the container holds the last assignment. False with white space in a value: getValue extracts the first word only, so a container does not even equal itself. Proved for values without white space.
  `C134_equality_refuted` []
  `C134_equality_partial` []
* **C135** Options: unread options are reported. *partial*. M_COpt models Util::split, Options and Variable of the client on strings as lists of characters. S_COpt describes the words of a text inductively, what a word assigns, and histories of calls; P_COpt shows by induction that splitting yields the only list of words and that the container holds the last assignment. False after clear(), which keeps the record of keys read. Proved for histories without clear(); with clear() the result tells whether every key has ever been read.
  `C135_unread_options_refuted` []
  `C135_unread_options_partial` []
  `C135_unread_options_ever` []
* **C136** Variables: added options take effect. *partial*. M_COpt models Util::split, Options and Variable of the client on strings as lists of characters. S_COpt describes the words of a text inductively, what a word assigns, and histories of calls; P_COpt shows by induction that splitting yields the only list of words and that the container holds the last assignment. False: "max" has no effect, because Variable.cpp:94 reads "min" again; "min" sets both. Proved for options without "min" and "max". Proved for the constructor: all options take effect, max too, and without a name the program stops.
  `C136_variable_options_refuted` []
  `C136_variable_options_partial` []
  `C136_min_sets_both` []
  `C136_made_from_options` []
* **C137** Client dates: conversions are inverse. *proved*. M_CDate models the date functions of the client and the calendar algorithms of Boost they call. S_CDate defines the Gregorian calendar by the relation "next day"; P_CDate shows, by a computation over one period of 400 years (P_CDateChk) and periodicity, that the algorithms count days. 
  `C137_round_trip` []
  `C137_unix_time` []
* **C138** Client dates: calendar date and time. *partial*. M_CDate models the date functions of the client and the calendar algorithms of Boost they call. S_CDate defines the Gregorian calendar by the relation "next day"; P_CDate shows, by a computation over one period of 400 years (P_CDateChk) and periodicity, that the algorithms count days. False before 1970: -1 gives 19700101 and a negative time. Proved from 1970 on; for every time the date is that of the day counted towards 1970, and an exception is thrown exactly outside the years 1400-9999.
  `C138_date_and_time_refuted` []
  `C138_date_and_time_partial` []
  `C138_any_time` []
* **C139** Client dates: adding hours. *proved*. M_CDate models the date functions of the client and the calendar algorithms of Boost they call. S_CDate defines the Gregorian calendar by the relation "next day"; P_CDate shows, by a computation over one period of 400 years (P_CDateChk) and periodicity, that the algorithms count days. 
  `C139_add_hours` []
* **C140** Help texts keep their words. *partial*. M_CText models formatDescription on lists of characters; S_CText describes lines, S_COpt words. P_CText shows by induction over the words how the text splits. False when the indented title fills its column: the first word of the message is appended to it. Proved when the title is shorter than the column, or when the fallback to one line applies.
  `C140_words_kept_refuted` []
  `C140_words_kept_partial` []
* **C141** Help texts keep within the line length. *partial*. M_CText models formatDescription on lists of characters; S_CText describes lines, S_COpt words. P_CText shows by induction over the words how the text splits. False: the space before a word is not counted, so lines can have one character more. Proved with a limit one higher.
  `C141_line_length_refuted` []
  `C141_line_length_partial` []
* **C142** Client statistics agree with the library. *proved*. M_CUtil models calculateStat; P_CUtil relates its loops to those of the library's model (M_Stat) with -999 replaced by NaN, and reuses the results about it. 
  `C142_statistics_agree` []
  `C142_quantiles_agree` []
* **C143** Client statistics: missing results. *partial*. M_CUtil models calculateStat; P_CUtil relates its loops to those of the library's model (M_Stat) with -999 replaced by NaN, and reuses the results about it. False: the mean and the median of -998 and -1000 are -999. Proved for min, max and std, for sums of non-negative values and otherwise for values above -999.
  `C143_missing_result_refuted` []
  `C143_missing_result_partial` []
  `C143_nothing_present` []
* **C144** Client quantiles: levels. *proved*. M_CUtil models calculateStat; P_CUtil relates its loops to those of the library's model (M_Stat) with -999 replaced by NaN, and reuses the results about it. 
  `C144_quantile_levels` []
* **C145** Client interpolation agrees with the library. *partial*. M_CUtil models the client's interpolate; P_CUtil relates its index searches to those of the library (M_Interp) for knots other than -999. False where knots coincide at an end of the curve (the client takes the mean), and with a knot at -999 (an assertion fails). Proved for strictly increasing knots other than -999; the client's value is given for all sorted knots other than -999.
  `C145_interpolation_refuted` []
  `C145_knot_missing_refuted` []
  `C145_interpolation_partial` []
  `C145_curve` []
* **C146** Client locations are ordered. *partial*. M_CUtil models Location's comparisons and Field. P_CUtil proves lexicographic ordering by cases and that the index of an element determines its coordinates. False with an elevation that is NaN. Proved for locations without NaN.
  `C146_location_order_refuted` []
  `C146_location_order_partial` []
  `C146_place_order_partial` []
* **C147** Client fields are arrays. *proved*. M_CUtil models Location's comparisons and Field. P_CUtil proves lexicographic ordering by cases and that the index of an element determines its coordinates. 
  `C147_new_field` []
  `C147_set_get` []
  `C147_outside` []
  `C147_members` []
* **C148** Client fields: equality. *partial*. M_CUtil models Location's comparisons and Field. P_CUtil proves lexicographic ordering by cases and that the index of an element determines its coordinates. False for fields of different sizes: only the underlying arrays are compared. Proved for fields of the same size.
  `C148_equal_fields_refuted` []
  `C148_equal_fields_partial` []
* **C149** Accumulate: running sums. *partial*. M_CCal models the calibrators as loops over fields; S_CCal describes elements, sums, windows and sorted members. P_CCal has one rule for elementwise loops (every element is visited once and only that element is written) and for loops over times, and reuses the results on the client's statistics (P_CUtil) and sorting (P_Stat). False when a partial sum is -999, which is then taken for missing. Proved when no partial sum is; in particular for non-negative amounts, where the sums also do not decrease.
  `C149_accumulate_refuted` []
  `C149_accumulate_partial` []
  `C149_accumulate_amounts` []
* **C150** Deaccumulate: differences, inverse of accumulate. *proved*. M_CCal models the calibrators as loops over fields; S_CCal describes elements, sums, windows and sorted members. P_CCal has one rule for elementwise loops (every element is visited once and only that element is written) and for loops over times, and reuses the results on the client's statistics (P_CUtil) and sorting (P_Stat). 
  `C150_deaccumulate` []
  `C150_inverse_of_accumulate` []
* **C151** Sort: members in increasing order, missing last. *partial*. M_CCal models the calibrators as loops over fields; S_CCal describes elements, sums, windows and sorted members. P_CCal has one rule for elementwise loops (every element is visited once and only that element is written) and for loops over times, and reuses the results on the client's statistics (P_CUtil) and sorting (P_Stat). False with NaN members: std::sort then has undefined behaviour. Proved without NaN.
  `C151_sort_refuted` []
  `C151_sort_partial` []
* **C152** Threshold: value of the interval. *proved*. M_CCal models the calibrators as loops over fields; S_CCal describes elements, sums, windows and sorted members. P_CCal has one rule for elementwise loops (every element is visited once and only that element is written) and for loops over times, and reuses the results on the client's statistics (P_CUtil) and sorting (P_Stat). 
  `C152_threshold` []
  `C152_sizes_checked` []
* **C153** Quality control clamps. *proved*. M_CCal models the calibrators as loops over fields; S_CCal describes elements, sums, windows and sorted members. P_CCal has one rule for elementwise loops (every element is visited once and only that element is written) and for loops over times, and reuses the results on the client's statistics (P_CUtil) and sorting (P_Stat). For a minimum not above the maximum.
  `C153_clamp` []
* **C154** Cloud: precipitation implies clouds. *proved*. M_CCal models the calibrators as loops over fields; S_CCal describes elements, sums, windows and sorted members. P_CCal has one rule for elementwise loops (every element is visited once and only that element is written) and for loops over times, and reuses the results on the client's statistics (P_CUtil) and sorting (P_Stat). 
  `C154_cloud` []
* **C155** Phase: precipitation phase from temperature. *partial*. M_CCal models the calibrators as loops over fields; S_CCal describes elements, sums, windows and sorted members. P_CCal has one rule for elementwise loops (every element is visited once and only that element is written) and for loops over times, and reuses the results on the client's statistics (P_CUtil) and sorting (P_Stat). False for precipitation equal to the limit, which counts as none. Proved otherwise; at the snow threshold the phase is snow.
  `C155_phase_refuted` []
  `C155_phase_partial` []
* **C156** Window: statistics over time. *proved*. M_CCal models the calibrators as loops over fields; S_CCal describes elements, sums, windows and sorted members. P_CCal has one rule for elementwise loops (every element is visited once and only that element is written) and for loops over times, and reuses the results on the client's statistics (P_CUtil) and sorting (P_Stat). 
  `C156_window` []
  `C156_arguments_checked` []
* **C157** Wind direction: factor from a Fourier series. *partial*. M_CCal2 models the calibrators with parameters, which are given by functions of time and point, as are distances and nearest points. P_CCal2 uses the loop rules of P_CCal; the training results follow from writing the squared error as a sum of squares around the fitted coefficients; mask and override by induction over times and locations. False: missing winds are multiplied, and missing parameters give the factor -999. Proved for missing directions, and when all is present.
  `C157_wind_direction_refuted` []
  `C157_wind_direction_partial` []
* **C158** Regression: polynomial or linear combination. *partial*. M_CCal2 models the calibrators with parameters, which are given by functions of time and point, as are distances and nearest points. P_CCal2 uses the loop rules of P_CCal; the training results follow from writing the squared error as a sum of squares around the fitted coefficients; mask and override by induction over times and locations. Polynomials in full. With predictors false: a missing predictor is used as -999. Proved when the predictors are present.
  `C158_regression_refuted` []
  `C158_polynomial` []
  `C158_regression_partial` []
* **C159** Regression: training minimises the squared error. *partial*. M_CCal2 models the calibrators with parameters, which are given by functions of time and point, as are distances and nearest points. P_CCal2 uses the loop rules of P_CCal; the training results follow from writing the squared error as a sum of squares around the fitted coefficients; mask and override by induction over times and locations. False for a line when all forecasts are equal: the parameters are NaN. Proved when two forecasts differ (without intercept: one is not 0), and for order 0 always.
  `C159_training_refuted` []
  `C159_training_mean` []
  `C159_training_partial` []
  `C159_training_slope` []
  `C159_arguments_checked` []
* **C160** Mask: points near locations. *partial*. M_CCal2 models the calibrators with parameters, which are given by functions of time and point, as are distances and nearest points. P_CCal2 uses the loop rules of P_CCal; the training results follow from writing the squared error as a sum of squares around the fitted coefficients; mask and override by induction over times and locations. False for parameters that depend on time: a point that was within a radius at one time stays so. Proved when they do not; for all files the result is described with the earlier times.
  `C160_mask_refuted` []
  `C160_mask_partial` []
  `C160_mask_any_file` []
* **C161** Override: points near locations take their values. *proved*. M_CCal2 models the calibrators with parameters, which are given by functions of time and point, as are distances and nearest points. P_CCal2 uses the loop rules of P_CCal; the training results follow from writing the squared error as a sum of squares around the fitted coefficients; mask and override by induction over times and locations. 
  `C161_override` []
  `C161_arguments_checked` []
* **C162** Shuffle: the order of the members is kept. *proved*. M_CCal models the calibrators as loops over fields; S_CCal describes elements, sums, windows and sorted members. P_CCal has one rule for elementwise loops (every element is visited once and only that element is written) and for loops over times, and reuses the results on the client's statistics (P_CUtil) and sorting (P_Stat). 
  `C162_shuffle` []
  `C162_unchanged` []
* **C163** Client: tree search finds a nearest grid point. *partial*. M_CTree models the tree (construction by sorting and splitting at the median, search from a leaf upwards with recursion into the other branches). P_CTree shows that construction keeps all points, separated by the splitting coordinate, and by induction over the tree that the search returns the best of the points and never discards a closer one. The counterexample is computed with exact arcs on the meridians 0, 90 and 180. False for distances along the great circle: the tree takes the distance to a meridian along the point's own parallel, and points beyond the pole or the date line can be closer. Proved for all distances for which points beyond a meridian or parallel are not closer than the point of that line with the same latitude or longitude.
  `C163_nearest_point_refuted` [FNCE]
  `C163_great_circle_exists` [FNCE]
  `C163_nearest_point_partial` []
  `C163_no_points` []
* **C164** Client: brute force search finds a nearest grid point. *proved*. M_CTree models the tree (construction by sorting and splitting at the median, search from a leaf upwards with recursion into the other branches). P_CTree shows that construction keeps all points, separated by the splitting coordinate, and by induction over the tree that the search returns the best of the points and never discards a closer one. The counterexample is computed with exact arcs on the meridians 0, 90 and 180. 
  `C164_brute_force` []
* **C165** Client: nearest points of a whole grid. *partial*. M_CDown models coordinates of files with their tags, the cache, and the downscalers. C166 is an invariant of all states that operations reach: two files with the same tag have the same coordinates, tags are below the next one, and every cache entry is what would be computed for files with its tags. The downscalers follow from the loop rules of P_CCal and, for C170, from sortedness of the differences. For distances as in C163; identical grids in full.
  `C165_nearest_points_partial` []
  `C165_same_grid` []
* **C166** Client: the cache of nearest points is transparent. *proved*. M_CDown models coordinates of files with their tags, the cache, and the downscalers. C166 is an invariant of all states that operations reach: two files with the same tag have the same coordinates, tags are below the next one, and every cache entry is what would be computed for files with its tags. The downscalers follow from the loop rules of P_CCal and, for C170, from sortedness of the differences. 
  `C166_cache` []
* **C167** Client: coordinates of a file. *partial*. M_CDown models coordinates of files with their tags, the cache, and the downscalers. C166 is an invariant of all states that operations reach: two files with the same tag have the same coordinates, tags are below the next one, and every cache entry is what would be computed for files with its tags. The downscalers follow from the loop rules of P_CCal and, for C170, from sortedness of the differences. False for longitude 0, where 0/0 is converted to an integer, which is undefined. Proved for all other longitudes, and for latitudes and sizes.
  `C167_longitudes_refuted` []
  `C167_longitudes_partial` []
  `C167_latitudes` []
  `C167_sizes` []
* **C168** Client: nearest neighbour downscaler. *proved*. M_CDown models coordinates of files with their tags, the cache, and the downscalers. C166 is an invariant of all states that operations reach: two files with the same tag have the same coordinates, tags are below the next one, and every cache entry is what would be computed for files with its tags. The downscalers follow from the loop rules of P_CCal and, for C170, from sortedness of the differences. 
  `C168_nearest_neighbour` []
  `C168_too_few_members` []
  `C168_number_of_times` []
* **C169** Client: upscaling aggregates the points that are closest. *partial*. M_CDown models coordinates of files with their tags, the cache, and the downscalers. C166 is an invariant of all states that operations reach: two files with the same tag have the same coordinates, tags are below the next one, and every cache entry is what would be computed for files with its tags. The downscalers follow from the loop rules of P_CCal and, for C170, from sortedness of the differences. For distances as in C163.
  `C169_upscale_partial` []
* **C170** Client: smart downscaler averages points of similar elevation. *partial*. M_CDown models coordinates of files with their tags, the cache, and the downscalers. C166 is an invariant of all states that operations reach: two files with the same tag have the same coordinates, tags are below the next one, and every cache entry is what would be computed for files with its tags. The downscalers follow from the loop rules of P_CCal and, for C170, from sortedness of the differences. False for output points without coordinates: the elevations are read at index -999. Proved when all output points have coordinates. A point of missing elevation counts as differing by 1e10.
  `C170_smart_refuted` []
  `C170_smart_partial` []
* **C171** Client: pressure downscaler follows the barometric formula. *proved*. M_CDown models coordinates of files with their tags, the cache, and the downscalers. C166 is an invariant of all states that operations reach: two files with the same tag have the same coordinates, tags are below the next one, and every cache entry is what would be computed for files with its tags. The downscalers follow from the loop rules of P_CCal and, for C170, from sortedness of the differences. 
  `C171_pressure` []
* **C172** Client: neighbourhood calibrator. *partial*. M_CNeigh models calibrateField with its three branches (summed area table, slivers, brute force). P_CNeigh shows that the table holds the sums over corners, by induction over the rows, so that four corners give the sum over the square; the minimum of minima of slivers is the minimum; a quantile lies between minimum and maximum, hence so does a quantile of quantiles. False for a negative radius in a parameter file, which is not checked: the fast mean then reads outside its arrays. Proved for all radii that are not negative.
  `C172_neighbourhood_refuted` []
  `C172_neighbourhood_partial` []
  `C172_refused` []
* **C173** Client: qq calibrator maps along the curve. *partial*. M_CQq models separate, calibrateCore and train. The value of a forecast is compared with a rule stated through brackets of the sorted forecasts (C145 gives the interpolation); C174 reduces to the monotonicity of curves proved for C28; C176 shows that interpolation on the levels i/(N-1) is the quantile of the statistics. False for 'zero' with a single pair, which extrapolates with slope 1, and where the slope is taken between tied forecasts (division by zero). Proved otherwise, for all sorted forecasts.
  `C173_curve_refuted` []
  `C173_curve_partial` []
  `C173_checks` []
* **C174** Client: qq calibrator keeps the order of members. *proved*. M_CQq models separate, calibrateCore and train. The value of a forecast is compared with a rule stated through brackets of the sorted forecasts (C145 gives the interpolation); C174 reduces to the monotonicity of curves proved for C28; C176 shows that interpolation on the levels i/(N-1) is the quantile of the statistics. 
  `C174_order_kept` []
* **C175** Client: qq calibrator with equal observations and forecasts changes nothing. *proved*. M_CQq models separate, calibrateCore and train. The value of a forecast is compared with a rule stated through brackets of the sorted forecasts (C145 gives the interpolation); C174 reduces to the monotonicity of curves proved for C28; C176 shows that interpolation on the levels i/(N-1) is the quantile of the statistics. 
  `C175_identity` []
* **C176** Client: training of the qq calibrator. *partial*. M_CQq models separate, calibrateCore and train. The value of a forecast is compared with a rule stated through brackets of the sorted forecasts (C145 gives the interpolation); C174 reduces to the monotonicity of curves proved for C28; C176 shows that interpolation on the levels i/(N-1) is the quantile of the statistics. False for quantiles of a single case: the level 0/0 stops the program. Proved otherwise.
  `C176_training_refuted` []
  `C176_training_partial` []
* **C177** Client: qq calibration of the training data gives the observation of the same rank. *proved*. M_CQq models separate, calibrateCore and train. The value of a forecast is compared with a rule stated through brackets of the sorted forecasts (C145 gives the interpolation); C174 reduces to the monotonicity of curves proved for C28; C176 shows that interpolation on the levels i/(N-1) is the quantile of the statistics. 
  `C177_ranks` []
* **C178** Client: elevation gradient of the gradient downscaler. *partial*. M_CGradient models calcElevGradient, calcLafGradient and downscaleCore with downscaler=nearestNeighbour; exp and log are arguments. The rules are stated over any list of the points of a neighbourhood. The sums of the loop are the sums of the least-squares problem of C159, whose normal equations are solved by the slope; extremes and counts are invariants of the loops; for C181 an invariant tells which value is seen as maximum, and the points are visited in order. False where the sum of the squared elevations equals the square of their sum (sums are compared before they are divided by the number of points): one hill among points at sea level gives the default gradient. Proved otherwise.
  `C178_elevation_gradient_refuted` []
  `C178_elevation_gradient_partial` []
* **C179** Client: land-fraction gradient of the gradient downscaler. *partial*. M_CGradient models calcElevGradient, calcLafGradient and downscaleCore with downscaler=nearestNeighbour; exp and log are arguments. The rules are stated over any list of the points of a neighbourhood. The sums of the loop are the sums of the least-squares problem of C159, whose normal equations are solved by the slope; extremes and counts are invariants of the loops; for C181 an invariant tells which value is seen as maximum, and the points are visited in order. False for the documented options minLafGradient and maxLafGradient, which are never used, and for radii that are not increasing, as the extremes of one neighbourhood are kept for the next. Proved for increasing radii, positive weights and a positive minimum range, without the limits. A missing land fraction of -999 counts as sea.
  `C179_land_gradient_limits_refuted` []
  `C179_land_gradient_order_refuted` []
  `C179_land_gradient_partial` []
* **C180** Client: values of the gradient downscaler. *proved*. M_CGradient models calcElevGradient, calcLafGradient and downscaleCore with downscaler=nearestNeighbour; exp and log are arguments. The rules are stated over any list of the points of a neighbourhood. The sums of the loop are the sums of the least-squares problem of C159, whose normal equations are solved by the slope; extremes and counts are invariants of the loops; for C181 an invariant tells which value is seen as maximum, and the points are visited in order. With the gradients as in C178 and C179 (same conditions).
  `C180_moved_value` []
  `C180_coordinates_needed` []
* **C181** Client: limit of the gradient downscaler. *partial*. M_CGradient models calcElevGradient, calcLafGradient and downscaleCore with downscaler=nearestNeighbour; exp and log are arguments. The rules are stated over any list of the points of a neighbourhood. The sums of the loop are the sums of the least-squares problem of C159, whose normal equations are solved by the slope; extremes and counts are invariants of the loops; for C181 an invariant tells which value is seen as maximum, and the points are visited in order. False if the greatest value of the neighbourhood comes first: it is taken for the minimum only, and the maximum is then too small or unset. Proved: the result is within the range if all values are above -999, and it is the nearest value in the range if some present value comes before a greatest one.
  `C181_limit_refuted` []
  `C181_limit_partial` []
* **C182** Client: parameters of a place and time. *proved*. M_CPar models ParameterFile with its map as a sorted list, its time flags and its tree (of C163). A history of calls is related to the state by an invariant: the map has the places of the history in order, each with the sets of the last calls per time. The order of the map is the strict weak order of C145; the nearest place is that of C163 and the scan that follows it. For setParameters with times that are not negative: a negative time has undefined behaviour (the second theorem). A coordinate that is NaN breaks the order of the map and is excluded.
  `C182_last_parameters` []
  `C182_negative_time` []
* **C183** Client: parameter files with a single place. *partial*. M_CPar models ParameterFile with its map as a sorted list, its time flags and its tree (of C163). A history of calls is related to the state by an invariant: the map has the places of the history in order, each with the sets of the last calls per time. The order of the map is the strict weak order of C145; the nearest place is that of C163 and the scan that follows it. False for a file that cannot be opened: it has no places, and asking for its global parameters or computing its tree reads the first element of an empty map. Proved for files with some parameters.
  `C183_unreadable_file_refuted` []
  `C183_single_place_partial` []
  `C183_places_not_global` []
* **C184** Client: nearest place of a parameter file. *partial*. M_CPar models ParameterFile with its map as a sorted list, its time flags and its tree (of C163). A history of calls is related to the state by an invariant: the map has the places of the history in order, each with the sets of the last calls per time. The order of the map is the strict weak order of C145; the nearest place is that of C163 and the scan that follows it. False if the tree is computed, parameters for a new place are set and the tree is computed again: the list of places is extended with all of them, while the tree counts from the start. Proved for one computation after the calls; for distances as in C163.
  `C184_recomputed_tree_refuted` []
  `C184_nearest_place_partial` []
* **C185** Client: number of parameters and times of a parameter file. *proved*. M_CPar models ParameterFile with its map as a sorted list, its time flags and its tree (of C163). A history of calls is related to the state by an invariant: the map has the places of the history in order, each with the sets of the last calls per time. The order of the map is the strict weak order of C145; the nearest place is that of C163 and the scan that follows it. An empty set (such as the hole at a time before the last one) gives 0.
  `C185_number_of_parameters` []
  `C185_same_number` []
  `C185_times` []
* **C186** Client: reading a text parameter file. *partial*. M_CPar models the reader and the writer over characters, with operator>> and operator<< for numbers as arguments. Text and Words describe well-formed files independently of the reader. The proofs go from lines to words to cells; the columns are found by their unique positions; a row of the table is the fold of its cells. C188 needs only the first line that is read after the header. False for a last row without newline, which is silently ignored. Proved for files that end with a newline, without blanks at the ends of lines and with lines shorter than 10000 characters. A missing coordinate makes the row one about no place.
  `C186_last_row_refuted` []
  `C186_table_partial` []
* **C187** Client: rejected text parameter files. *partial*. M_CPar models the reader and the writer over characters, with operator>> and operator<< for numbers as arguments. Text and Words describe well-formed files independently of the reader. The proofs go from lines to words to cells; the columns are found by their unique positions; a row of the table is the fold of its cells. C188 needs only the first line that is read after the header. False for rows of another length: only the number of values outside the columns time, lat, lon and elev is compared, from row to row and not with the header, so a row that lacks its elevation is taken as one about no place, and rows may all be longer than the header. Proved for a row of another length that follows a complete one and has the columns time, lat, lon and elev.
  `C187_short_row_refuted` []
  `C187_incomplete_place` []
  `C187_no_header` []
  `C187_no_rows` []
  `C187_ambiguous_rows` []
  `C187_other_columns_partial` []
* **C188** Client: writing and reading text parameter files. *partial*. M_CPar models the reader and the writer over characters, with operator>> and operator<< for numbers as arguments. Text and Words describe well-formed files independently of the reader. The proofs go from lines to words to cells; the columns are found by their unique positions; a row of the table is the fold of its cells. C188 needs only the first line that is read after the header. False: the names of the parameters are written after the end of the header line, so the first row starts with them. Proved: every file written with at least one parameter is rejected when it is read.
  `C188_write_read_refuted` []
  `C188_written_files_rejected` []
* **C189** Client: file names on the command line. *proved*. M_CSetup: the loop over file names by recursion on the arguments that are left; files as handles with their name, options and mode. C190 by an invariant on the map of handles. 
  `C189_file_names` []
  `C189_all_command_lines` []
* **C190** Client: opening input and output files. *partial*. M_CSetup: the loop over file names by recursion on the arguments that are left; files as handles with their name, options and mode. C190 by an invariant on the map of handles. False for an output that is the input of an earlier pair: it is not opened again and stays read-only. Proved: everything else, and that an output is writable if it is not an earlier input. The expansion of names (glob) is an argument. Equality of options is that of C134.
  `C190_output_writable_refuted` []
  `C190_files_partial` []
  `C190_rejected_files` []
* **C191** Client: reading the command line always ends. *proved*. M_CSetup has the state machine with all its local variables, one pass as a function. C191: a potential of 8 per argument and a rank of the state decreases with every pass (the rank of PARCAL depends on the next argument). C192: an invariant that relates names, options and states to the arguments read so far. At most 8 passes per argument and 2 more.
  `C191_always_ends` []
* **C192** Client: nothing on the command line is invented. *proved*. M_CSetup has the state machine with all its local variables, one pass as a function. C191: a potential of 8 per argument and a rank of the state decreases with every pass (the rank of PARCAL depends on the next argument). C192: an invariant that relates names, options and states to the arguments read so far. 
  `C192_nothing_invented` []
* **C193** Client: what is asked for on the command line is set up. *partial*. Requests and their command lines are defined independently of the machine. For each kind of part, the machine is shown to get from its start to the next flag, with the options added; parts are composed to variables and variables to command lines by induction. Broken command lines reach the error state after the complete variables. False for a variable with an input variable that has options, followed by another variable: the first one is lost and its options go to the second. Proved if a downscaler or a calibrator comes between (or it is the last one), for downscalers without parameter file; parameter files may have further options (C195). Downscalers, calibrators and parameter files that stop the program are left out here. At most one alias, at the start: the program has no place for others.
  `C193_variable_lost_refuted` []
  `C193_requests_partial` []
* **C194** Client: command lines that are errors. *proved*. Requests and their command lines are defined independently of the machine. For each kind of part, the machine is shown to get from its start to the next flag, with the options added; parts are composed to variables and variables to command lines by induction. Broken command lines reach the error state after the complete variables. 
  `C194_broken` []
  `C194_no_variable` []
  `C194_input_only` []
* **C195** Client: parameter files on the command line. *partial*. Requests and their command lines are defined independently of the machine. For each kind of part, the machine is shown to get from its start to the next flag, with the options added; parts are composed to variables and variables to command lines by induction. Broken command lines reach the error state after the complete variables. False: options are kept from one parameter file to the next, so a later one without type is accepted with the type of an earlier one; the file after '-d' is ignored, and a calibrator after it gets a parameter file called '-p'. Proved: the first parameter file needs a type. That a parameter file has all options given to it is part of C193.
  `C195_options_leak_refuted` []
  `C195_downscaler_file_refuted` []
  `C195_missing_type_partial` []
* **C196** Client: distribution calibrators give the quantiles of the fitted distribution in the order of the members. *proved*. M_CDist has the loops over points with the field as state. A lemma for any step that changes one point only gives the whole calibrator; the quantiles written are shuffled as in C162. Sums that turn missing are related to means and variances of lists. For the gaussian calibrator, an ensemble with missing members gets the quantiles unsorted (C198). exp, pow and the distributions of Boost are arguments; they are assumed to give numbers for numbers, exp to be positive, Student's t and gamma to be distributions (C196_example has such functions).
  `C196_gaussian` []
  `C196_bct` []
  `C196_zaga` []
* **C197** Client: bct quantiles belong to the truncated Box-Cox t-distribution. *proved*. The laws are defined apart from the code as cut t-distribution and mixture with gamma; the code is shown equal to them, and the laws to have the stated properties from those of t and gamma. exp and log, and powers with inverse exponents, are assumed to be inverse to each other; Student's t to be symmetric, increasing, and inverse to its quantiles.
  `C197_bct_quantile` []
* **C198** Client: distribution calibrators do not invent values and use raw values only. *partial*. Witnesses with rational functions in place of exp and the distributions; C201 for all fields. False for gaussian: missing members get values, and with a neighbourhood the points before it are already calibrated (one thread; with more it is a race). Proved, without neighbourhood, for bct and zaga as part of C196.
  `C198_gaussian_missing_refuted` []
  `C198_gaussian_neighbourhood_refuted` []
  `C196_bct` []
  `C196_zaga` []
* **C199** Client: distribution functions and quantiles of the calibrators belong together. *proved*. The laws are defined apart from the code as cut t-distribution and mixture with gamma; the code is shown equal to them, and the laws to have the stated properties from those of t and gamma. Levels strictly between 0 and 1 for zaga.
  `C199_zaga` []
  `C199_zaga_incomplete` []
  `C199_gaussian` []
* **C200** Client: zaga probability of precipitation and quantile fields. *proved*. Sums over window, then neighbourhood, by induction; missing values make the sum missing for good. A probability field is not the precipitation field itself.
  `C200_probability` []
  `C200_quantile` []
* **C201** Client: zaga skips times without full window. *partial*. Witnesses with rational functions in place of exp and the distributions; C201 for all fields. False: without a variable for the probability, fields before the first one are read, always. With it, see C200.
  `C201_window_refuted` []
* **C202** Client: zaga is trained with the predictors used in calibration. *partial*. Witnesses with rational functions in place of exp and the distributions; C201 for all fields. False for the fraction: a quotient of integers, 0 unless all members are at most the threshold. Proved: the mean, the rounded fraction, and the stop.
  `C202_fraction_refuted` []
  `C202_predictors_partial` []
  `C202_no_members` []
* **C203** Client: wind, humidity and pressure diagnostics are computed point by point. *proved*. M_CDiag has the loops over all points, with functions of values as arguments; elementwise loops as in C156. Names are compared as in the code; witnesses for unknown names. The functions of values are arguments here; see C205-C207 for them. Inputs have the sizes of the output.
  `C203_wind` []
  `C203_humidity` []
  `C203_wetbulb` []
  `C203_qnh` []
* **C204** Client: diagnostics that cannot be computed are rejected. *partial*. M_CDiag has the loops over all points, with functions of values as arguments; elementwise loops as in C156. Names are compared as in the code; witnesses for unknown names. False for unknown names: the field is left as it was and the program goes on. Proved: names of inputs that are not given or not in the file, and missing elevations, stop the program.
  `C204_wind_name_refuted` []
  `C204_humidity_name_refuted` []
  `C204_wind_partial` []
  `C204_humidity_partial` []
  `C204_wetbulb_partial` []
* **C205** Client: wind components and speed and direction are inverse to each other. *proved*. The functions over the reals and rationals, from the sources of the client; compared with the models of the library. Polar coordinates with atan2 and the code's pi; the error by sin x <= x. Over the reals; the tolerances come from the code's value of pi only.
  `C205_components_and_back` [FNCE]
  `C205_direction_and_back` [FNCE]
* **C206** Client: relative humidity. *proved*. The functions over the reals and rationals, from the sources of the client; compared with the models of the library. Polar coordinates with atan2 and the code's pi; the error by sin x <= x. Exact arithmetic as in C48.
  `C206_relative_humidity` []
  `C206_as_library` []
* **C207** Client: dew point, wet bulb temperature and qnh agree with the library. *proved*. The functions over the reals and rationals, from the sources of the client; compared with the models of the library. Polar coordinates with atan2 and the code's pi; the error by sin x <= x. Over the reals; powers and exponentials as in the library model. A pressure of exactly zero gives a qnh of zero in both.
  `C207_dewpoint` [FNCE]
  `C207_wetbulb` [FNCE]
  `C207_qnh` [FNCE]
* **C208** Client: the coastal calibrator uses raw neighbours and the parameters of the place. *partial*. M_CCoast has the loop over points with the field as state; a lemma for loops that rewrite the field in place says what a point finds: new values before it and raw ones after. False that raw values only are used: the neighbours before the point are calibrated already (one thread; with more it is a race). Proved: the rule, with the neighbours found that way, and the stops.
  `C208_raw_values_refuted` []
  `C208_coastal_partial` []
  `C208_stops` []
* **C209** Client: the altitude calibrator writes the elevations of the nearest places. *proved*. From the theorem on nearest places, C184, made stronger to name the place found. Files as in C184: made by setting parameters, at two or more places, of places with present coordinates, with a sort that sorts. Distances of the tree as in C184.
  `C209_altitude` []
  `C209_altitude_needs_places` []
* **C210** Client: the bilinear downscaler interpolates within the grid. *partial*. M_CBilin has the search for the cell with its eight tests and the flip, both formulas for the position, and the loops. For axes in order the tests and flips are reduced to one axis at a time; position of a parallelogram by algebra. False where the code fails to find the cell: falling latitudes and nearest point in the first row; falling longitudes and nearest point in the first column or in the row whose number is that of the last column; locations exactly on the edge of least latitude or longitude. Proved for all other locations, if getI and getJ return although they have no return statement. Infinite values at corners are not covered.
  `C210_first_row_refuted` []
  `C210_first_column_refuted` []
  `C210_row_number_refuted` []
  `C210_edge_refuted` []
  `C210_fields_partial` []
  `C210_grid_partial` []
* **C211** Client: bilinear values stay within the values of a cell at the nearest point. *proved*. Inversion of the search: what it accepts is adjacent to the nearest point with position nearly in the unit square, and the interpolation snaps it into the square. Reads by the outcome UB of the model; flowing off the end of getI and getJ is a parameter of the model. For grids of any shape, if the program ends and getI and getJ return.
  `C211_average` []
* **C212** Client: the bilinear downscaler reads only within its grids. *partial*. Inversion of the search: what it accepts is adjacent to the nearest point with position nearly in the unit square, and the interpolation snaps it into the square. Reads by the outcome UB of the model; flowing off the end of getI and getJ is a parameter of the model. False: getI and getJ have no return statement (undefined for any location in a cell); grids of one row; falling longitudes; locations without coordinates. Proved for grids of two or more rows and columns with longitudes rising along rows and latitudes that differ along columns, and nearest points within the grid, if getI and getJ return.
  `C212_no_return_refuted` []
  `C212_one_row_refuted` []
  `C212_falling_refuted` []
  `C212_no_place_refuted` []
  `C212_reads_partial` []
* **C213** Client: bilinear downscaling onto the same grid changes nothing. *partial*. M_CBilin has the search for the cell with its eight tests and the flip, both formulas for the position, and the loops. For axes in order the tests and flips are reduced to one axis at a time; position of a parallelogram by algebra. False if a value is missing: the points whose cell has it become missing. Proved for present values and rising coordinates.
  `C213_missing_refuted` []
  `C213_same_grid_partial` []
* **C214** Client: the covariance of two locations in kriging. *proved*. M_CKrig has calcCovar with both weighting functions; ranges and monotonicity by algebra over the rationals. exp as a positive monotone function with value 1 at 0, distance as a symmetric function; numbers exact.
  `C214_covariance` []
  `C214_missing` []
* **C215** Client: kriging applies the solution of the kriging equations. *partial*. The matrix and the list of near stations are computed entry by entry from the covariances, by induction on the loops; from A B = 1 of the inverse follows that the weights solve the equations; one lemma on the whole calibrator, of which the theorems are cases. False for divide (the code subtracts 1 where it should add it) and for missing values (-999 gets the correction). Proved for the other operators and present values, without auxiliary variable and cross validation, if all stations have coordinates and biases and the inverse of the matrix is found. A correction of exactly -999 counts as missing.
  `C215_divide_refuted` []
  `C215_missing_refuted` []
  `C215_kriging_partial` []
* **C216** Client: biases that mean no correction leave the fields as they are. *partial*. The matrix and the list of near stations are computed entry by entry from the covariances, by induction on the loops; from A B = 1 of the inverse follows that the weights solve the equations; one lemma on the whole calibrator, of which the theorems are cases. False for divide: values change their sign. Proved for the other operators, missing values included.
  `C216_divide_refuted` []
  `C216_no_bias_partial` []
* **C217** Client: kriging gives the full bias at the place of a station. *partial*. The matrix and the list of near stations are computed entry by entry from the covariances, by induction on the loops; from A B = 1 of the inverse follows that the weights solve the equations; one lemma on the whole calibrator, of which the theorems are cases. False for stations that influence each other: their covariances are reduced by 0.828. Proved for stations that do not, with the value everywhere.
  `C217_two_refuted` []
  `C217_station_partial` []
* **C218** Client: the auxiliary variable weights the kriging of each member. *partial*. Fold over the time window gives the share; the loop over members by an invariant. False for all members but the first: the scaled correction is scaled again for each further member. Proved: the weight itself, and that a member gets the product of the weights up to it.
  `C218_weight` []
  `C218_members_refuted` []
  `C218_members_partial` []
* **C219** Client: cross validation leaves out the nearest station. *partial*. The search for the greatest covariance, the row and column set to 0, and the solution of the remaining equations; counterexamples with explicit inverses. False if a station before the nearest has no influence at the point: its number in the list of near stations is taken as its number in the matrix. Proved if all stations have influence at the point.
  `C219_far_refuted` []
  `C219_all_near_partial` []
* **C220** Client: stations without coordinates have no influence on kriging. *partial*. The search for the greatest covariance, the row and column set to 0, and the solution of the remaining equations; counterexamples with explicit inverses. False: the missing covariance -999 enters the matrix as a number. Proved if no station has coordinates.
  `C220_influence_refuted` []
  `C220_none_partial` []
* **C221** Client: the trained bias removes the mean error. *partial*. Sums over the valid training pairs, as in C159. False without data for multiply and divide: the bias is 0. Proved with data, and for all operators that the bias is 0 without.
  `C221_no_data_refuted` []
  `C221_training_partial` []
  `C221_no_data_partial` []
* **C222** Client: the correlation of a station and a place in optimal interpolation. *partial*. M_COi has calcRho and the two places where it is called; ranges and monotonicity by algebra over the rationals. False for a station without elevation (isValid is called with a truth value, so -999 is used as an elevation), and the correlation is not symmetric if the difference of elevations is -999, which counts as missing. Proved for places with coordinates, elevation and land fraction and other differences; exp as a positive monotone function with value 1 at 0, for the second function also that (1+x)exp(-x) does not increase.
  `C222_elevation_refuted` []
  `C222_symmetry_refuted` []
  `C222_correlation_partial` []
* **C223** Client: which stations optimal interpolation considers at a point. *partial*. The list of stations as the result of a fold, characterised by membership; the choice by sortedness and permutation. False on grids with more than one row and column: a station reaches r cells to one side, r-1 to the other, and none from a border cell. Proved exactly which stations are considered on both kinds of grids.
  `C223_same_distance_refuted` []
  `C223_stations_partial` []
* **C224** Client: optimal interpolation uses the best stations. *proved*. The list of stations as the result of a fold, characterised by membership; the choice by sortedness and permutation. std::sort sorts.
  `C224_best` []
  `C224_cross_validation` []
* **C225** Client: the analysis of optimal interpolation. *partial*. Background, correlations and matrix are computed entry by entry; from B A = 1 of the inverse follows that the weights solve the equations; loops over points, members and times by invariants. C226 and C231 follow from C225. False for members with a missing value at any point: all their values near stations become missing. Proved for the others, single-member mode without transform, bias and cross validation, if the inverse of the matrix is found and places are complete; what happens to the members with missing values is proved, too.
  `C225_missing_refuted` []
  `C225_analysis_partial` []
* **C226** Client: optimal interpolation with one station. *proved*. Background, correlations and matrix are computed entry by entry; from B A = 1 of the inverse follows that the weights solve the equations; loops over points, members and times by invariants. C226 and C231 follow from C225. Hypotheses of C225_analysis_partial, one station.
  `C226_one_station` []
* **C227** Client: optimal interpolation does not change points it cannot place. *partial*. Invariants of the loops; sums over the present members; counterexamples by computation. False for points without coordinates: their distance -999 is smaller than any radius. Proved if no observation is present, on grids with one row or column, with any coordinates.
  `C227_coordinates_refuted` []
  `C227_no_observations_partial` []
* **C228** Client: the new delta parameter of optimal interpolation. *partial*. Invariants of the loops; sums over the present members; counterexamples by computation. False without stations (the first row of an empty list is read) and for missing members: they count as minus the mean. Proved: the weighted mean.
  `C228_no_stations_refuted` []
  `C228_missing_member_refuted` []
  `C228_weighted_mean_partial` []
* **C229** Client: the transform of optimal interpolation. *partial*. M_COiTr over the real numbers; the functions agree with BoxCox of the library (C63) on numbers. False for missing observations: they count as observations of zero. Proved for numbers.
  `C229_missing_refuted` [FNCE]
  `C229_round_trip_partial` [FNCE]
* **C230** Client: optimal interpolation uses the observations of the time. *partial*. Invariants of the loops; sums over the present members; counterexamples by computation. False: the parameters of the first time are used for all times. Proved: the result depends only on those.
  `C230_time_refuted` []
  `C230_first_time_partial` []
* **C231** Client: observations that agree with the background change nothing. *proved*. Background, correlations and matrix are computed entry by entry; from B A = 1 of the inverse follows that the weights solve the equations; loops over points, members and times by invariants. C226 and C231 follow from C225. Hypotheses of C225_analysis_partial, differences not stored.
  `C231_agreement` []
* **C232** Client: a field added to a file is the one returned. *proved*. M_CFile has the cache of File as a state with a list of created fields. S_CFile has the calls as operations; invariants over all sequences of operations; a field is held if it is returned whatever the format is. Fields are handles into a list of created fields; times out of range are undefined (addField does not check).
  `C232_registered` []
* **C233** Client: the field of a variable and time stays the same object. *partial*. M_CFile has the cache of File as a state with a list of created fields. S_CFile has the calls as operations; invariants over all sequences of operations; a field is held if it is returned whatever the format is. False: reading a later time with skipRead replaces the fields of all times by missing ones. Proved if the file has the variable and it is not read with skipRead, or if it has fields for all times.
  `C233_stays_refuted` []
  `C233_stays_partial` []
* **C234** Client: times outside the file are rejected. *partial*. M_CFile has the cache of File as a state with a list of created fields. S_CFile has the calls as operations; invariants over all sequences of operations; a field is held if it is returned whatever the format is. False for a negative time of a variable that was not read before: the comparison is with signed numbers and the vector is written outside. Proved: never a result; an error for times too large, and for negative ones once the variable was read.
  `C234_outside_refuted` []
  `C234_outside_partial` []
* **C235** Client: what getField reads. *proved*. M_CFile has the cache of File as a state with a list of created fields. S_CFile has the calls as operations; invariants over all sequences of operations; a field is held if it is returned whatever the format is. The content is a parameter; formats that create a field for each read.
  `C235_content` []
  `C235_missing` []
* **C236** Client: fields of different variables and times are separate. *partial*. M_CFile has the cache of File as a state with a list of created fields. S_CFile has the calls as operations; invariants over all sequences of operations; a field is held if it is returned whatever the format is. False for text files: all variables share the fields made when the file was opened. Proved for formats that create a field for each read.
  `C236_separate_refuted` []
  `C236_separate_partial` []
* **C237** Client: initialised variables and the bypass downscaler. *proved*. M_CFile has the cache of File as a state with a list of created fields. S_CFile has the calls as operations; invariants over all sequences of operations; a field is held if it is returned whatever the format is. Files with at least one time.
  `C237_initialised` []
* **C238** Client: after clear() a file is read again. *partial*. M_CFile has the cache of File as a state with a list of created fields. S_CFile has the calls as operations; invariants over all sequences of operations; a field is held if it is returned whatever the format is. False for text files: changed values remain. Proved for formats that create a field for each read.
  `C238_cleared_refuted` []
  `C238_cleared_partial` []
* **C239** Client: aliases stand for their variables. *partial*. M_CFile has the cache of File as a state with a list of created fields. S_CFile has the calls as operations; invariants over all sequences of operations; a field is held if it is returned whatever the format is. False for two aliases of variables with the same name and different levels: the cache compares names only, so the second returns the field of the first. Proved if no variable has the name of the alias and its variable was not read, or for the field it has.
  `C239_levels_refuted` []
  `C239_alias_partial` []
* **C240** Client: reading text files. *proved*. Folds over the lines with an invariant on the sets of times and places; the order of places from C146. Loops over times by an invariant. Lines are given as numbers; longitudes are normalised as in C167; opening proved for nonzero longitudes (zero is undefined, see C167).
  `C240_text_file` []
  `C240_text_file_opens` []
* **C241** Client: a text file that is written can be read again. *partial*. Folds over the lines with an invariant on the sets of times and places; the order of places from C146. Loops over times by an invariant. False: only the first place is written, without coordinates. Proved: if the file can be read at all, it has three members fewer.
  `C241_text_round_trip_refuted` []
  `C241_text_members_partial` []
* **C242** Client: a point file that is written can be read again. *partial*. Folds over the lines with an invariant on the sets of times and places; the order of places from C146. Loops over times by an invariant. False: the time column is compared with the number of the time, so files with UNIX times (as documented) give missing values. Proved: reading number t gives the values written for time t, so the round trip holds if times are their numbers.
  `C242_point_round_trip_refuted` []
  `C242_point_round_trip_partial` []
* **C243** Client: the pressure in a NorcomQnh file. *proved*. Folds over the lines with an invariant on the sets of times and places; the order of places from C146. Loops over times by an invariant. Pressures are converted to integers first.
  `C243_lowest_pressure` []
* **C244** Client: optimal interpolation in ensemble mode, mean. *partial*. M_COiEns has the computation at a point with inverse and decomposition as functions; the specification is the Kalman filter with inflated covariances, in numbers, and the real symmetric square root. The algebra of C110-C113 is reused with the inflation factor. Witnesses have two members and matrices with rational square roots. False if a member with a missing value elsewhere has a value at a station: it counts in the mean there but not in the departures. Proved if such members are missing at the stations used. At least two complete members; in the case that the decomposition fails see C246. Stations and correlations are given (C222-C224).
  `C244_mean_refuted` [FNE]
  `C244_mean_partial` [FNE]
* **C245** Client: optimal interpolation in ensemble mode, spread. *partial*. M_COiEns has the computation at a point with inverse and decomposition as functions; the specification is the Kalman filter with inflated covariances, in numbers, and the real symmetric square root. The algebra of C110-C113 is reused with the inflation factor. Witnesses have two members and matrices with rational square roots. Under the hypotheses of C244_mean_partial.
  `C245_spread_partial` [FNE]
* **C246** Client: optimal interpolation in ensemble mode, members. *partial*. M_COiEns has the computation at a point with inverse and decomposition as functions; the specification is the Kalman filter with inflated covariances, in numbers, and the real symmetric square root. The algebra of C110-C113 is reused with the inflation factor. Witnesses have two members and matrices with rational square roots. Under the hypotheses of C244_mean_partial.
  `C246_members_partial` [FNE]
* **C247** Client: optimal interpolation in ensemble mode, differences. *partial*. M_COiEns has the computation at a point with inverse and decomposition as functions; the specification is the Kalman filter with inflated covariances, in numbers, and the real symmetric square root. The algebra of C110-C113 is reused with the inflation factor. Witnesses have two members and matrices with rational square roots. False: what is stored is the analysis minus the mean of the background, so differences of members in the background appear as changes. Proved: exactly that is stored.
  `C247_difference_refuted` [FNE]
  `C247_difference_partial` [FNE]
* **C248** Client: optimal interpolation in ensemble mode, no extrapolation. *partial*. M_COiEns has the computation at a point with inverse and decomposition as functions; the specification is the Kalman filter with inflated covariances, in numbers, and the real symmetric square root. The algebra of C110-C113 is reused with the inflation factor. Witnesses have two members and matrices with rational square roots. False with two stations: the departure of element number e of a matrix is used for member e. Proved with one station.
  `C248_limit_refuted` [FNE]
  `C248_limit_partial` [FNE]
* **C249** Client: optimal interpolation in ensemble mode, number of parameters. *proved*. M_COiEns has the computation at a point with inverse and decomposition as functions; the specification is the Kalman filter with inflated covariances, in numbers, and the real symmetric square root. The algebra of C110-C113 is reused with the inflation factor. Witnesses have two members and matrices with rational square roots. Parameter files with only observations have one parameter, so ensemble mode always needs variances.
  `C249_parameters` [FNE]
* **C250** Client: linear regression. *proved*. M_CTrain has the regression with the normal equations, with the inverse as a function that inverts or tells that the matrix is singular (lu0, elimination, is an instance), and the training of the coastal calibrator. The specification is the sum of squared errors in numbers; the normal equations are shown to give its only minimum (C250), the cases used are characterised separately (samples), and the calibration rule of C208 is applied to the training data (C253). Missing values are not recognised by the regression: the theorem is about numbers.
  `C250_least_squares` []
  `C250_checks` []
* **C251** Client: training of the coastal calibrator. *partial*. M_CTrain has the regression with the normal equations, with the inverse as a function that inverts or tells that the matrix is singular (lu0, elimination, is an instance), and the training of the coastal calibrator. The specification is the sum of squared errors in numbers; the normal equations are shown to give its only minimum (C250), the cases used are characterised separately (samples), and the calibration rule of C208 is applied to the training data (C253). False, with the default options, if the forecast at the point with the least land is missing in a case: the number for missing values is taken as forecast. Proved if the forecast to be corrected is known in all cases with an observation and a forecast at the point; in the case of similar land fractions errors must be above the number for missing values.
  `C251_training_refuted` []
  `C251_training_partial` []
* **C252** Client: training of the coastal calibrator, existence. *partial*. M_CTrain has the regression with the normal equations, with the inverse as a function that inverts or tells that the matrix is singular (lu0, elimination, is an instance), and the training of the coastal calibrator. The specification is the sum of squared errors in numbers; the normal equations are shown to give its only minimum (C250), the cases used are characterised separately (samples), and the calibration rule of C208 is applied to the training data (C253). False: with one case, or if the gradient is the same in all, the program stops. Proved: it stops in these cases and without cases; in the others C251_training_partial gives the parameters.
  `C252_cases_refuted` []
  `C252_cases_partial` []
* **C253** Client: training and calibration agree. *proved*. M_CTrain has the regression with the normal equations, with the inverse as a function that inverts or tells that the matrix is singular (lu0, elimination, is an instance), and the training of the coastal calibrator. The specification is the sum of squared errors in numbers; the normal equations are shown to give its only minimum (C250), the cases used are characterised separately (samples), and the calibration rule of C208 is applied to the training data (C253). The calibration of a point is the rule of C208 with the values of the raw field; all members present. Follows from the least squares property and is about both functions.
  `C253_no_bias` []
* **C254** Client: version and help. *proved*. M_CMain has the main program with the setup of C189-C193 inside; its result is the list of calls made. The specification is relations on command lines (without_debug, command) and on lists of calls (pair_called, vars_called). Proved by induction over the command line, over the variables configured and over the pairs of files. 
  `C254_information` []
* **C255** Client: --debug. *partial*. M_CMain has the main program with the setup of C189-C193 inside; its result is the list of calls made. The specification is relations on command lines (without_debug, command) and on lists of calls (pair_called, vars_called). Proved by induction over the command line, over the variables configured and over the pairs of files. False if fewer than two other arguments are given: --debug and its level count when the number of arguments is checked, so `gridpp in --debug info` is an error where `gridpp in` shows the help. Proved with two other arguments or more; the levels shown and the missing level without restriction (C255_debug_partial, C255_no_level).
  `C255_debug_refuted` []
  `C255_debug_partial` []
  `C255_no_level` []
* **C256** Client: what is done to the files. *proved*. M_CMain has the main program with the setup of C189-C193 inside; its result is the list of calls made. The specification is relations on command lines (without_debug, command) and on lists of calls (pair_called, vars_called). Proved by induction over the command line, over the variables configured and over the pairs of files. The calls are recorded, not carried out: they are modelled elsewhere (M_CFile and the downscalers and calibrators). Names of variables, downscalers and calibrators are assumed to be known.
  `C256_calls` []
  `C256_finishes` []
* **C257** Client: the variables written. *partial*. M_CMain has the main program with the setup of C189-C193 inside; its result is the list of calls made. The specification is relations on command lines (without_debug, command) and on lists of calls (pair_called, vars_called). Proved by induction over the command line, over the variables configured and over the pairs of files. False: the option is read as a number, so that write=true keeps the variable back as well. Proved: a variable is written exactly if the number read is not 0; text without a number is read as 0.
  `C257_written_refuted` []
  `C257_written_partial` []
* **C258** Client: the command line in the output. *proved*. M_CMain has the main program with the setup of C189-C193 inside; its result is the list of calls made. The specification is relations on command lines (without_debug, command) and on lists of calls (pair_called, vars_called). Proved by induction over the command line, over the variables configured and over the pairs of files. The name of the program is not part of the message.
  `C258_message` []
* **C259** Client: reading a field of a NetCDF file. *partial*. M_CNc models the file as sizes of dimensions and variables, a variable as a function from indices, and the two calls of the library with their arrays; the code's search for positions of dimensions, its slices, its index computation and its loops are kept. The specification finds elements by dimension (at_dims), without arrays. Proved by induction over the dimensions (row-major places of indices, surjectivity of the elements on the array), an invariant over the times, and induction over the variables written. False: a variable without the ensemble dimension fills only the first member, the others are missing (likewise without y or x dimension); a negative level makes the library refuse, which is not noticed, and the values used are not initialised. Proved: every element that the variable has, for any order of dimensions and any valid level, and that the others are missing.
  `C259_ensemble_refuted` []
  `C259_level_refuted` []
  `C259_read_partial` []
* **C260** Client: missing values, scale and offset of NetCDF files. *partial*. M_CNc models the file as sizes of dimensions and variables, a variable as a function from indices, and the two calls of the library with their arrays; the code's search for positions of dimensions, its slices, its index computation and its loops are kept. The specification finds elements by dimension (at_dims), without arrays. Proved by induction over the dimensions (row-major places of indices, surjectivity of the elements on the array), an invariant over the times, and induction over the variables written. False if the missing value of the variable is -999: it is then scaled like a number. Proved for every other missing value.
  `C260_fill_refuted` []
  `C260_packed_partial` []
* **C261** Client: what is written to a NetCDF file is read again. *partial*. M_CNc models the file as sizes of dimensions and variables, a variable as a function from indices, and the two calls of the library with their arrays; the code's search for positions of dimensions, its slices, its index computation and its loops are kept. The specification finds elements by dimension (at_dims), without arrays. Proved by induction over the dimensions (row-major places of indices, surjectivity of the elements on the array), an invariant over the times, and induction over the variables written. False for a variable with a level dimension when a level other than the first was read: it is written to the first level; false for a variable of the file without time dimension: the last time is left. Proved for reading without level, variables of the file with all its dimensions, room for the times or an unlimited time dimension, numbers that do not coincide with the missing value, and storage without rounding; new variables and new dimensions included.
  `C261_level_refuted` []
  `C261_time_refuted` []
  `C261_round_trip_partial` []
* **C262** Client: packed integers. *partial*. M_CNc models the file as sizes of dimensions and variables, a variable as a function from indices, and the two calls of the library with their arrays; the code's search for positions of dimensions, its slices, its index computation and its loops are kept. The specification finds elements by dimension (at_dims), without arrays. Proved by induction over the dimensions (row-major places of indices, surjectivity of the elements on the array), an invariant over the times, and induction over the variables written. False: the number is cut off, not rounded, so the error can be almost the scale. Proved: the error is less than the scale, and missing values come back.
  `C262_nearest_refuted` []
  `C262_integers_partial` []
* **C263** Client: writing leaves the rest of a NetCDF file alone. *proved*. M_CNc models the file as sizes of dimensions and variables, a variable as a function from indices, and the two calls of the library with their arrays; the code's search for positions of dimensions, its slices, its index computation and its loops are kept. The specification finds elements by dimension (at_dims), without arrays. Proved by induction over the dimensions (row-major places of indices, surjectivity of the elements on the array), an invariant over the times, and induction over the variables written. Stated for variables that are stored without rounding (their type does not matter for what is left alone).
  `C263_untouched` []
* **C264** Client: all members are written. *partial*. M_CNc models the file as sizes of dimensions and variables, a variable as a function from indices, and the two calls of the library with their arrays; the code's search for positions of dimensions, its slices, its index computation and its loops are kept. The specification finds elements by dimension (at_dims), without arrays. Proved by induction over the dimensions (row-major places of indices, surjectivity of the elements on the array), an invariant over the times, and induction over the variables written. False: if the ensemble dimension of the file is smaller than the number of members, the others are dropped silently; also if the variable has no ensemble dimension. Proved: with a larger ensemble dimension writing never succeeds; with the same size C261 holds.
  `C264_fewer_refuted` []
  `C264_no_dimension_refuted` []
  `C264_larger_partial` []
* **C265** Client: latitudes and longitudes of NetCDF files. *partial*. M_CNc models the file as sizes of dimensions and variables, a variable as a function from indices, and the two calls of the library with their arrays; the code's search for positions of dimensions, its slices, its index computation and its loops are kept. The specification finds elements by dimension (at_dims), without arrays. Proved by induction over the dimensions (row-major places of indices, surjectivity of the elements on the array), an invariant over the times, and induction over the variables written. False for variables with one dimension: their missing values are not recognised. Proved for those with more dimensions, and for one dimension up to missing values.
  `C265_one_dimension_refuted` []
  `C265_points_partial` []
  `C265_one_dimension_partial` []
  `C265_no_dimension` []
* **C266** Client: interpolation in sheared and rotated cells. *proved*. Found by wrong programs that the earlier theorems did not notice. C266 by the field tactic on the formula, the snapping being the identity in the cell; C267 by inversion of the loops: each step leaves the field as it is; C268 by the first test. 
  `C266_parallelogram` []
  `C266_linear` []
* **C267** Client: kriging with a missing bias. *proved*. Found by wrong programs that the earlier theorems did not notice. C266 by the field tactic on the formula, the snapping being the identity in the cell; C267 by inversion of the loops: each step leaves the field as it is; C268 by the first test. A station far away has this effect too: the correction is given up at all points.
  `C267_no_bias` []
* **C268** Client: parameters of optimal interpolation. *proved*. Found by wrong programs that the earlier theorems did not notice. C266 by the field tactic on the formula, the snapping being the identity in the cell; C267 by inversion of the loops: each step leaves the field as it is; C268 by the first test. 
  `C268_parameters` []
* **C269** Client: reading NetCDF parameter files. *partial*. The loops over times and points are a list of calls setting parameters in row order; the state lemma of C180-C185 (P_CPar) then gives what is read. Positions in the buffer are shown to be the row-major positions of the index for any order of the dimensions. C270 uses c184 for that state. False for a dimension of times without a variable for them (only the first time is used) and undefined behaviour for more than four dimensions or for coordinates with further dimensions. Proved for the files described by shape_of and well_shaped: any order of the dimensions, coordinates along the rows, columns or both.
  `C269_time_refuted` []
  `C269_dimensions_refuted` []
  `C269_coordinates_refuted` []
  `C269_read_partial` []
* **C270** Client: nearest point of a NetCDF parameter file. *proved*. The loops over times and points are a list of calls setting parameters in row order; the state lemma of C180-C185 (P_CPar) then gives what is read. Positions in the buffer are shown to be the row-major positions of the index for any order of the dimensions. C270 uses c184 for that state. For the files of C269_read_partial with located points.
  `C270_nearest_point` []
* **C271** Client: parameters written to NetCDF are read again. *partial*. The file written is computed explicitly and shown to have the shape required by C269; the parameters at its points are those of the latest calls. False if the dimension of the parameters is given another name than coeff (it is always written as coeff) and if the first place has no parameters (an error). Proved otherwise, for sets that are empty or of one size, located places, and fewer than 2147483646 times.
  `C271_name_refuted` []
  `C271_other_names` []
  `C271_first_refuted` []
  `C271_round_trip_partial` []
* **C272** Client: grid of a NetCDF file. *partial*. latlon_one and latlon_many (of C259-C265) give the value at each point for any order of dimensions; the constructor is then followed step by step (open_ok). A longitude of exactly 0 is undefined behaviour (division of 0 by 0 converted to int). Proved for all other files described by describes, grid_ready and times_ready.
  `C272_greenwich_refuted` []
  `C272_grid_partial` []
  `C272_named` []
* **C273** Client: elevations and land fractions of a NetCDF file. *proved*. latlon_one and latlon_many (of C259-C265) give the value at each point for any order of dimensions; the constructor is then followed step by step (open_ok). For the files of C272_grid_partial.
  `C273_elevations` []
* **C274** Client: times of a NetCDF file. *partial*. latlon_one and latlon_many (of C259-C265) give the value at each point for any order of dimensions; the constructor is then followed step by step (open_ok). False for a single time that is not along a dimension (the reference time stays missing); undefined behaviour if the times are along another dimension than the one used. Proved otherwise.
  `C274_reference_refuted` []
  `C274_sizes_refuted` []
  `C274_times_partial` []
  `C274_no_times` []
* **C275** Client: files that can be opened are recognised. *proved*. latlon_one and latlon_many (of C259-C265) give the value at each point for any order of dimensions; the constructor is then followed step by step (open_ok). The checks of the file format are those of the NetCDF library and not modelled.
  `C275_recognised` []
* **C276** Client: times, grid and elevations written to a NetCDF file are read again. *partial*. Each write is shown to store its numbers at the right indices and to change no other variable (put_ok); the file written is again described by a description, so that open_ok applies. A missing reference time comes back as 9.97e36 and altitudes that change with time abort the writing. Proved for files with a dimension of times that are all known, and altitudes along the grid's dimensions.
  `C276_missing_refuted` []
  `C276_altitude_refuted` []
  `C276_round_trip_partial` []
* **C277** Client: opening a QNH file. *partial*. Inversion of the checks; the lines are followed over the list of stations, with norcom_value of C243 for the number. Opening is proved for stations whose longitude is not exactly 0 (undefined behaviour, see C272); missing latitudes and longitudes pass the checks.
  `C277_opened` []
  `C277_only` []
* **C278** Client: time stamps of a QNH file. *proved*. The calendar theorem for get_date (days_after_iff) and the digits of numbers below 10000. For the years of in_years.
  `C278_time_stamp` []
* **C279** Client: text of a QNH file. *partial*. Inversion of the checks; the lines are followed over the list of stations, with norcom_value of C243 for the number. The first and last time are not compared with the number of times, so that a file that was opened can read past the end of its times when it is written. Proved otherwise, for stations with a smallest pressure from 0 to below 1000000 Pa.
  `C279_late_refuted` []
  `C279_text_partial` []
  `C279_width` []
* **C280** Client: fake files. *partial*. The longitude of the first point is 0 for every size, so norm_lon is undefined there. The first column has longitude 0, so that the conversion of 0/0 to int is reached for all positive sizes. The error for other sizes is proved.
  `C280_fake_refuted` []
  `C280_undefined` []
  `C280_sizes` []
* **C281** Client: variables that are used are known to the file. *proved*. Each operation leaves the list of variables or appends one with a new name (step_vars); induction over the calls. 
  `C281_known` []
  `C281_first` []
  `C281_by_name` []
* **C282** Client: the type of a file is detected. *partial*. Case analysis with C275. A file with latitudes and longitudes but no times is recognised, and the program then stops. Proved otherwise; an empty type counts as a file not recognised.
  `C282_recognised_refuted` []
  `C282_detected_partial` []
  `C282_only` []
  `C282_none` []
  `C282_unknown` []
  `C282_given` []
* **C283** Client: training of the gaussian calibrator maximises the likelihood. *partial*. Induction over the data; P0 and the gamma distribution by the lemma used for C199 (zaga_p0_ok). False for ensembles with a mean that is not positive (temperatures in Celsius): whatever was observed, the density counts as 0.00001 for all parameters. Proved for positive means.
  `C283_cold_refuted` []
  `C283_gaussian_partial` []
* **C284** Client: training of the zaga calibrator maximises the likelihood. *proved*. Induction over the data; P0 and the gamma distribution by the lemma used for C199 (zaga_p0_ok). For parameters that give a distribution (zaga_parameters); the fraction used in training is that of C202.
  `C284_zaga` []
* **C285** Fields whose size is not that of the grid are rejected. *partial*. The checks come before anything else is read; the size of a grid built by its constructor is that of its coordinates (P_Grid.grid_size_ok). False for a field without rows and for a field of which only the first row has the right number of columns: the values are read out of bounds. Proved for fields whose number of rows, or of columns in the first row (of the first time), is another. Missing: full_gradient between grids for time series.
  `C285_sizes_refuted` []
  `C285_grid_fields_partial` []
  `C285_point_values_partial` []
  `C285_gradients_partial` []
  `C285_fill_and_doping_partial` []
* **C286** Curves and gradients of different sizes and unknown downscalers are rejected. *proved*. The checks come before anything else is read; the size of a grid built by its constructor is that of its coordinates (P_Grid.grid_size_ok). For arrays of curves: sizes of the arrays and of each pair of curves, and the number of rows and the first row of the forecasts.
  `C286_unknown_downscaler` []
  `C286_calc_gradient` []
  `C286_curves` []

## Where the code disagrees with its documentation or with itself

Each item marked with a property is proved as a `_refuted` theorem; the others were found while modelling and are represented in
the model (or excluded by a hypothesis) as stated.

* window with Mean/Count or keep_missing reads `counts[-1]` (C13, C14).
* interpolate reads an unset index when the first or last knot is missing (C10).
* calc_even_quantiles may return repeated values (C07).
* calc_quantile(vec3) on rows without columns drops the rows; apply_curve with 3D curves on an empty field is undefined (C11).
* neighbourhood(3D) is not the documented statistic for Mean with missing members, Count, Median, Variance (C19), and is undefined on an empty field (C20).
* An invalid quantile level terminates the program: the exception leaves an OpenMP region (C21). The same holds for gridding with
  Quantile/Unknown, mask_threshold_downscale_quantile and bilinear's runtime errors.
* `curr_quantile` is shared between threads in neighbourhood_quantile_fast (C23); `count_stat` is an unsynchronised shared counter whose value is never used.
* neighbourhood_search on empty arrays is undefined; an apply_array of size 1 is not size-checked.
* monotonize_curve is undefined when no pair is complete and may return an empty curve (C30).
* quantile_mapping_curve with levels indexes the unsorted samples and ignores the levels for a single pair (C32).
* MeanSlope/NearestSlope divide by zero for tied curve ends.
* calc_score counts a missing forecast as "no event" and does not check the sizes of ref and fcst.
* Radius search leaves out points exactly at the radius along an axis, and everything at radius 0 (C36, C44, C46, C47).
* Points copy/assign/subset/get_in_domain lose the Cartesian type, and may throw (C38). The Cartesian Point constructor exchanges x and y (C39).
* Grid::get_box throws for Cartesian grids with |y| > 90.001; inside bilinear this terminates the program (C68).
* KDTree::get_nearest_neighbour is undefined when no point qualifies.
* gridding(Points, ...) and gridding_nearest(Points, ...) use `#pragma omp parallel` without `for`: every thread does all the work (benign writes of equal values).
* nearest on an empty output grid, nearest with empty values, gridding_nearest with empty output and fill_missing on an empty field are undefined.
* fill_missing leaves leading and trailing gaps missing (C49).
* gridding with Count, no points and min_num 0 gives 0, gridding_nearest gives missing.
* bilinear: the third branch of calcGeneral tries the same root twice (bilinear.cpp:250-252) and terminates (C70); cells within 1e-4 of a
  parallelogram are treated as one; a degenerate parallelogram divides by zero.
* downscale_probability with a missing threshold gives 0, and has no size checks.
* simple_gradient with a missing elevation gives missing even for gradient 0 (C52); full_gradient_debug with the default laf_gradient is undefined (C71);
  full_gradient (3D) with gradients shorter in time is undefined (assert only).
* calc_gradient MinMax over flat terrain with the default min_range gives NaN (C72).
* Cressman, Soar and Toar use signed vertical and land differences: asymmetric, negative or above 1 (C54).
* Soar and Toar use an approximate inverse for the cut-off: with hmax below about 1.35 h everything is cut off, even a point with itself (C74).
* Spatially varying structures: a missing scale gives correlation 1 in the single form and 0 in the vector form (C75); scales are taken at the
  first point only (asymmetric); the range check `I[0] > mH.size()` is off by one (unreachable); only the first row's length is checked.
* LinearStructure has localization distance 0, so its correlation is 0 at any positive distance, and ignores hmax; scale 0 does not disable (C76).
* Barnes with h = 0 and hmax given has an undefined (NaN) localization distance, so nothing is cut off.
* optimal_interpolation without extrapolation does not limit on the side where the extreme departure is exactly 0 (C61).
* optimal_interpolation_full on a grid without observations reads an analysis variance never written (C62).
* The Points versions of optimal_interpolation do not check the size of the background at the observations; the full Grid version does not check
  the background variance (C83). An empty background reads background[0].
* A singular matrix makes arma::inv throw inside the parallel loop, which terminates the program (C84, example with two coincident error-free observations).
- BoxCox with a negative parameter: `backward` returns infinity for every number that `forward` produced (C64).
- `wind_direction` can return exactly 360 in binary32 (C87).
- `dewpoint(T, 0)` is T: the logarithm of 0 makes the comparison with the temperature false (C88).
- `wetbulb` exceeds the temperature close to saturation, e.g. 20 degrees and relative humidity 1 (C89).
- `sea_level_pressure` is NaN for relative humidity 0 below 50 m (C90); its array version ends the program where the scalar version raises an exception (C91).
- `relative_humidity`: the last interval of the table (95 to 100 degrees) is never used.
- `neighbourhood_score` with metric Bias is 1 where the window has no data (C92).
- `smart` checks neither sizes nor coordinate types; num <= 0 gives missing values (C96).
- `local_distribution_correction` says it defaults to the background without observations, but with the default min_points = 0 such cells become 0 where the background is below 0.1 (C98). The field's size is never compared with the grid's; unequal numbers of times with one of them 0 read past the end while composing the error message.
- `get_optimal_threshold` means to remove optima at the boundary, but compares the negated score found with the score at the ends: optima at an end are kept, and interior optima are removed when an end scores their negative (C100).
- `metric_optimizer_curve` returns the forecast thresholds as the "reference" curve and the given thresholds as the forecast curve (C101). `get_optimal_threshold` does not compare sizes; infinite forecasts restart the search for the range.
- `gamma_inv` admits level 1, for which boost throws inside the parallel loop (the program ends); the number of entries is taken from the shapes, so shorter levels or scales are read past their end (C102).
- `get_statistic` does not know "variance" (C103).
- `optimal_interpolation_ensi_multi_ebesc` stores innovations of member number `ei` in a matrix with one column per complete member: a member with missing values before a complete one makes the bounds check throw (C104). Only member 0 of the observations is tested for missing values.
- In the ebesc analysis without extrapolation the limit is not applied on a side where the extreme departure is exactly 0; where all departures have one sign the increment of the other sign is set to 0, whereas optimal_interpolation sets it to the extreme departure (C104, C61).
- ebesc with observations but no background points reads `background[0]` (C105 excludes it).
- The structure function constructors that take a grid check sizes only: negative and missing scales are accepted (C109).
- `optimal_interpolation_ensi` takes the members' departures at the stations about the mean of all valid background values there, also of members that take no part because they have a missing value somewhere: the analysis mean then differs from the Kalman filter's, and moves even when the observations equal the mean of the members used (C110).
- `optimal_interpolation_ensi` without extrapolation uses `lY[e]`, element number e of the matrix in column-major order, where it means column e: with several stations the increments are limited by departures of other members (C113). `utem` has the same expression.
- The anti-extrapolation filter does nothing on a side where the extreme departure is exactly 0 (C113).
- The Grid version of `optimal_interpolation_ensi` reads `pbackground[0]` before the number of its rows is checked.
- `optimal_interpolation_ensi_multi_ebe` normalises perturbations with the population standard deviation and 1/sqrt(m-1): correlations come out m/(m-1) times too large (2 for two members) (C119).
- In `ebe` the array of station perturbations has one row per background point but is indexed by station: with more stations than background points it is written out of range (C120). `utem` has the same arrays.
- `ebe` has the member number problem of ebesc (C104): a member with missing values before a complete one makes arma's bounds check throw (C119). Only member 0 of the observations is tested for missing values.
- `optimal_interpolation_ensi_multi_utem` builds the analysis perturbations from the correlation ensemble: where the two ensembles differ, even stations without information replace the perturbations of the background (C125), and where the correlation ensemble does not vary all members collapse to their mean (C126).
- `utem` has the linear-index problem of ensi (C113) in its extrapolation limit (C127), and the array sizes of ebe (C120): more stations than background points are out of range (C129).
- `utem` and `ensi` go on after a failed eig_sym; Armadillo resets eigval and eigvec to empty matrices, so the test for `W.n_rows == 0` leaves the point alone. The model gives the background directly.
- `Variable::add` (client) reads "min" for the maximum: "max" is ignored and "min" sets both (C136).
- `Options::clear` keeps the keys that were read, so options added later may be taken for read (C135); `operator==` marks the keys it compares as read, and is not reflexive with white space in a value (C134); `toString` does not quote (C133).
- `Util::getDate` rounds times before 1970 towards 1970 and `getTime` is negative there (C138).
- `Util::formatDescription` does not count the space between words (C141) and puts none after a title that fills its column (C140).
- The client's missing value -999 can be the result of a computation with present values (C143); `Util::calculateStat` with its default quantile level -999 reads outside its array (C144); `Util::interpolate` aborts with a knot at -999 (C145).
- `Field::operator==` ignores the dimensions (C148). The comments of getLowerIndex and getUpperIndex in Util.h promise both the first and the last of tied elements.
- Client: the accumulate calibrator loses sums that pass -999 (C149); sort is undefined for NaN (C151); phase never reads its option minPrecip and its documentation disagrees with the code at the limits (C155).
- Client: windDirection multiplies missing winds and uses the factor -999 for missing parameters (C157); regression uses missing predictors as -999 (C158) and its training divides by 0 when all forecasts are equal (C159).
- Client: the mask of a time-dependent parameter file only grows, as its flags are not reset between times (C160).
- Client: the tree search can miss the nearest point for distances on the sphere (C163).
- Client: File::setLons computes lon/fabs(lon) also for longitude 0 and converts the NaN to int (C167); -999 stops the program while NaN is accepted as a missing coordinate.
- Client: the smart downscaler reads outside the elevations for output points without coordinates (C170).
- Client: the neighbourhood calibrator does not check a radius from a parameter file (C172).
- Client: the qq calibrator extrapolates with slope 1 for 'zero' with a single pair, divides by zero for tied forecasts, and training with quantiles stops for a single case (C173, C176).
- Client: the gradient downscaler compares sums instead of means in its stability check, ignores minLafGradient, maxLafGradient and averageNeighbourhood, keeps the extremes of land fraction from radius to radius, counts a missing land fraction as sea, and may miss the maximum when limiting (C178, C179, C181).
- Client: parameter files: a negative time is written outside its vector (C182); global parameters of an unreadable file dereference the end of a map (C183); computing the tree again after adding a place gives the parameters of other places (C184); a last line without newline is lost (C186); a row that lacks its elevation is applied everywhere (C187); files written by the program cannot be read (C188).
- Client: command line: an output file that is an earlier input is opened read-only (C190); a variable after an input variable with options replaces the one before it (C193); '-p' after '-d' takes '-p' as the name of the file, ignores it for the downscaler and gives it to the next calibrator; options of parameter files, and the names of the files themselves, are kept as options of all later ones (C195). A second '-va', and '-d' after options of a downscaler, are read as options.
- Client: the gaussian calibrator gives values to missing members and uses points that are already calibrated in neighbourhoods; so does zaga for neighbourhoods (C198). zaga with 6h and without popVariable reads fields before the first time (C201). The fraction in zaga's training is an integer quotient (C202). Sums of values below zero can hit -999 and then count as missing; a logit of exactly -999 too.
- Client: diagnoseWind and diagnoseHumidity with an unknown `compute` do nothing and report nothing (C204). The coastal calibrator reads neighbours it has already calibrated, and with several threads neighbours others are calibrating (C208).
- Client: DownscalerBilinear::getI and getJ are declared bool and have no return statement: undefined when called (C212). The last of the eight tests for the edge of the grid compares the row with the number of columns, `I == nJ-1` (C210, C212). Falling latitudes are taken as rising in the first row (C210). Grids of one row or column read outside (C212). downscaleVec keeps the nearest value where downscaleField gives missing (C210).
- Client: CalibratorKriging with operator divide divides by bias-1 instead of bias+1: bias 1 flips the sign, bias 2 divides by zero (C215, C216). Missing values are corrected like numbers (C215). The correction is scaled by the auxiliary weights of all members before, too (C218). crossValidate mixes up station numbers and numbers in the list of near stations, and all threads write the same `inverse` (C219). Covariances of stations without coordinates enter the matrix as -999 (C220). train gives bias 0 without data, for multiply and divide too, although the message says that no correction will be made (C221).
- Client: CalibratorOi. Misplaced parentheses make isValid(elev1 && isValid(elev2)) always true: missing elevations enter as -999 (C222). On regular grids the area of a station is not symmetric, and stations in border cells are never used (C223). Members with any missing value become missing at all points near stations (C225). Points without coordinates are at distance -999 and get corrected (C227). calcDelta reads iY[0] without stations; missing members count as minus the mean (C228). With transform=boxcox missing observations count as observations of zero (C229). Observations are read for the first time only (C230). Also: between stations the land fraction of the grid point is tested for validity instead of that of the second station; three parameters per station are accepted, then the second and third are ignored; saveDiff is not respected in single-member mode near stations.
- Client: files. getField with skipRead of one time replaces the fields of the other times by missing values (C233). A negative time of a variable not read before writes outside a vector (C234). Text files: all variables share the same fields (C236), and clear() does not restore them (C238). Variables are compared by name only, so levels are mixed up in the cache (C239). Text files are written without places and for the first place only (C241). Point files: the time column is documented as UNIX time, but compared with the number of the time (C242); without the option time an uninitialised number is tested.
- Client: optimal interpolation in ensemble mode. A member that is missing somewhere takes part in the mean at the stations but not in the analysis (C244). saveDiff stores the distance from the mean of the background, not the change of the member (C247). The limit on the change of a member uses the departure of another member or station if there is more than one station (C248).
- Client: training of the coastal calibrator. With useNN=0 a missing forecast at the point with the least land is used as the number -999 (C251). One case, or the same gradient in all cases, stops the program in the regression (C252). A difference of exactly -999 is taken as missing, and training without data reads the first element of an empty list.
- Client: main program. `gridpp in --debug info` is not recognised as too short (C255). `write=true` and `write=yes` keep a variable from being written (C257). An unknown debug level shows all messages.
- Client: NetCDF files. A variable without ensemble dimension is missing in all members but the first (C259); a negative level gives uninitialised values (C259); _FillValue=-999 with a scale turns missing values into numbers (C260); fields of other levels are written to the first level (C261); integers are truncated, not rounded (C262); members that do not fit are dropped without a message (C264); missing latitudes in one-dimensional variables are taken as numbers (C265).
- Client: a single missing bias, of any station however far away, switches off kriging for the whole grid at that time (C267).
- Client: NetCDF parameter files whose parameters have more than four dimensions, or whose coordinates have a dimension besides the grid's, lead to writes past the end of arrays (C269).
- Client: in a NetCDF parameter file a dimension of times without a variable named time is ignored silently: only the first time is used (C269).
- Client: the option for the name of the dimension of parameters is used when reading a NetCDF parameter file but not when writing it (C271).
- Client: a NetCDF parameter file is not written if its first place has no parameters at any time, although others have (C271).
- Client: when a NetCDF file is opened, all its times are read into an array of the size of the time dimension; if they are along another dimension (option timeDim) this is undefined behaviour (C274).
- Client: the first time becomes the reference time if that is missing, but not if the only time is a scalar (C274).
- Client: missing times and reference times are written to NetCDF files as the fill value 9.97e36, which is not recognised as missing when the file is read (C276).
- Client: a NetCDF file whose altitude depends on time can be read, but writing to it is an error (C276).
- Client: NetCDF data files prefer the dimension names y, latitude, lat (in this order), NetCDF parameter files lat, latitude, y; a file with several of them is read with different grids.
- Client: startTime and endTime of a QNH file are not compared with numTimes; writing then reads past the end of the times (C279).
- Client: the fake file gives its first column the longitude 0, for which setLons converts 0/0 to int; opening one is undefined behaviour for all sizes. Its check of nLon tests whether nLat is missing (C280).
- Client: a file that is recognised as NetCDF without times stops the program, although files that are not recognised are reported to the caller (C282).
- Client: the density of the gaussian calibrator is missing for a mean that is not positive, so that training on such data (temperatures in Celsius) does not depend on the observations (C283).
- Client: logLikelihood of the zaga calibrator takes the logarithm of the distribution function instead of the density; it is not used.
- compatible_size looks only at the first row (and at the first time) and accepts a field without rows; nearest then reads out of bounds (C285).
