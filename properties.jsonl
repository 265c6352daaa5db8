{"id": "C01", "title": "Statistics ignore missing values and order", "statement": "calc_statistic for Mean, Sum, Count, Min, Max, Median, Variance and Std depends only on the collection of finite values in the array: permuting the array, or inserting/removing NaN and infinite entries anywhere, does not change the result; with no finite value the result is missing (Count: 0); these statistics never throw.", "quantifier": "every array of any length over {finite, NaN, +inf, -inf}, every permutation and every placement of missing entries, every listed statistic", "why_tests_cant": "Unbounded arrays and all placements of missing values; a test fixes a handful of arrays.", "anchors": ["src/api/util.cpp: calc_statistic, is_valid"]}
{"id": "C02", "title": "Statistics have their mathematical value", "statement": "Sum is the sum, Count the number, Mean the sum divided by the number, Variance the mean squared deviation from the mean (hence never negative and independent of which element the implementation uses as shift), and Std its square root, of the finite values.", "quantifier": "every array with at least one finite value", "why_tests_cant": "The shifted single-pass variance formula is algebraically equivalent to the definition only by a proof over all arrays.", "anchors": ["src/api/util.cpp: calc_statistic (Mean/Sum/Count/Std/Variance branches)"]}
{"id": "C03", "title": "Min, Max and Median are order statistics of the finite values", "statement": "calc_statistic(Min) (Max) returns an element of the array that is finite and below (above) every finite element; Median lies between them and has at least half of the finite values on each side (weakly).", "quantifier": "every array with at least one finite value", "why_tests_cant": "All arrays, all orders, all ties.", "anchors": ["src/api/util.cpp: calc_statistic, calc_quantile"]}
{"id": "C04", "title": "calc_quantile is the linear-interpolation quantile", "statement": "For a level q in [0,1] calc_quantile returns the value at position q*(N-1) of the sorted finite values, linearly interpolated between neighbouring order statistics; levels 0 and 1 give minimum and maximum; it always lies between minimum and maximum, is nondecreasing in q and invariant under permutation; a level below 0 or above 1 throws (even for an empty array) and a missing level or no finite value gives a missing result.", "quantifier": "every array, every pair of levels, every permutation", "why_tests_cant": "The level is a continuum and the array unbounded; monotonicity relates two arbitrary levels; the implementation has three different code paths (0, 1, interior) that must agree.", "anchors": ["src/api/util.cpp: calc_quantile(vec,float)"]}
{"id": "C05", "title": "calc_quantile commutes with increasing affine rescaling and is monotone in the data", "statement": "Rescaling all values by x -> a*x+b with a>0 rescales the quantile in the same way (unit conversions commute with quantiles), and increasing individual values never decreases any quantile.", "quantifier": "every array, level, a>0, b; every pair of pointwise ordered arrays", "why_tests_cant": "Relational property over pairs of unbounded arrays.", "anchors": ["src/api/util.cpp: calc_quantile(vec,float)"]}
{"id": "C06", "title": "calc_even_quantiles returns sorted levels taken from the data, from lowest to highest", "statement": "For any non-empty list of finite values and num>=1 (num=1: only the lowest) the call succeeds, never reaches its internal-error exception, never indexes out of range, returns at most num levels, each an element of the input, in nondecreasing order, the first equal to the minimum, and (for num>=2) the last equal to the maximum.", "quantifier": "every list of finite values, every num >= 1, every sort outcome", "why_tests_cant": "Truncation of size*i/num_left - 1 to int and the special handling of repeated lowest values interact for arbitrary sizes.", "anchors": ["src/api/util.cpp: calc_even_quantiles"]}
{"id": "C07", "title": "calc_even_quantiles ignores duplicate values", "statement": "The documentation says duplicates are ignored: the returned levels are pairwise distinct.", "quantifier": "every list of finite values, every num", "why_tests_cant": "Duplicates only appear for particular combinations of ties, size and num.", "anchors": ["src/api/util.cpp: calc_even_quantiles", "include/gridpp.h: calc_even_quantiles doc"]}
{"id": "C08", "title": "Index lookup brackets the lookup value", "statement": "On a sorted list with finite values that contains a value <= x (resp. >= x), get_lower_index (get_upper_index) returns an in-range index whose value is <= x (>= x) with no other list value strictly between; if no such value exists no index is returned safely: the function converts NaN to int, which is undefined behaviour.", "quantifier": "every sorted list and every finite x", "why_tests_cant": "All list lengths and tie patterns; the failing case depends on the relation of x to the whole list.", "anchors": ["src/api/util.cpp: get_lower_index, get_upper_index"]}
{"id": "C09", "title": "interpolate is bounded, exact at knots and monotone", "statement": "For equally long lists with sorted finite x-values, interpolate succeeds for every x, returns the first/last y outside the x-range, returns y_i at a knot whose x-value is unique, always lies between the smallest and largest y, follows the documented rule for repeated x-values, and is nondecreasing in x whenever y is nondecreasing.", "quantifier": "every sorted curve (with or without repeated x), every pair of lookup values", "why_tests_cant": "Continuum of lookup values, unbounded curves, ties at both ends.", "anchors": ["src/api/util.cpp: interpolate(float,vec,vec)"]}
{"id": "C10", "title": "interpolate is memory safe for every curve", "statement": "interpolate never indexes outside the curve for any x and any equally long curve, including curves with missing or unsorted x-values.", "quantifier": "every curve over finite and missing values and every x", "why_tests_cant": "Depends on which positions are missing; a test shows only particular layouts.", "anchors": ["src/api/util.cpp: interpolate, get_lower_index, get_upper_index"]}
{"id": "C11", "title": "Vector overloads equal pointwise application", "statement": "interpolate(vec), apply_curve on vectors/2D/3D curves, calc_statistic(vec2), calc_quantile(vec2 and vec3), and Transform::forward/backward on 1D/2D/3D arrays return arrays of the same shape whose entries are exactly the scalar function applied to the corresponding entry.", "quantifier": "every input array shape and content", "why_tests_cant": "Shape and content are unbounded.", "anchors": ["src/api/util.cpp", "src/api/curve.cpp", "src/api/transform.cpp"]}
{"id": "C12", "title": "window equals the statistic over the clipped time window (non-accumulating statistics)", "statement": "For Min, Max, Median, Variance and Std, window returns at each (case,time) the statistic over the values in the centred (or backward) window clipped to the series; missing if keep_missing and the window holds a missing value, or if missing_edges and the window sticks out of the series; output has the input's shape.", "quantifier": "every rectangular array, odd length (any length>0 if before), every flag combination", "why_tests_cant": "All lengths, positions, flags and missing patterns.", "anchors": ["src/api/window.cpp: window"]}
{"id": "C13", "title": "window with Sum/Mean/Count equals the statistic over the clipped time window", "statement": "The cumulative-sum implementation for Sum, Mean and Count gives the same answer as evaluating the statistic on every clipped window, for the same flags.", "quantifier": "every rectangular array, window length, position and flag combination", "why_tests_cant": "Equivalence of prefix differences with direct evaluation for all arrays and windows.", "anchors": ["src/api/window.cpp: window (lines 33-111)"]}
{"id": "C14", "title": "window never reads outside its buffers", "statement": "window performs no out-of-bounds access for any rectangular input, statistic, positive (odd or backward) length and flags.", "quantifier": "every rectangular array, statistic, length and flag combination", "why_tests_cant": "A memory error on particular windows may be silent in a run; the set of failing inputs is what matters.", "anchors": ["src/api/window.cpp: window (lines 83, 88, 92)"]}
{"id": "C15", "title": "Fast neighbourhood mean, sum and count equal the brute-force definition", "statement": "neighbourhood(input, h, Mean|Sum|Count) returns for every cell the statistic of the finite values within h rows and h columns, clipped at the edges: it equals neighbourhood_brute_force.", "quantifier": "every rectangular field, every halfwidth >= 0 (including larger than the field), every missing pattern", "why_tests_cant": "Correctness of the summed-area table inclusion-exclusion for all sizes and halfwidths, including all edge cases.", "anchors": ["src/api/neighbourhood.cpp: neighbourhood (lines 45-145), neighbourhood_brute_force"]}
{"id": "C16", "title": "Fast neighbourhood min and max equal the brute-force definition", "statement": "neighbourhood(input, h, Min|Max), which uses per-column slivers away from the top/bottom edges, equals neighbourhood_brute_force everywhere.", "quantifier": "every rectangular field, halfwidth, missing pattern", "why_tests_cant": "Two code paths meet at a size-dependent boundary.", "anchors": ["src/api/neighbourhood.cpp: neighbourhood (lines 146-210)"]}
{"id": "C17", "title": "Fast neighbourhood variance equals the brute-force definition and is never negative", "statement": "neighbourhood(input, h, Variance|Std), computed as E[x^2]-E[x]^2 without clamping, equals neighbourhood_brute_force in exact arithmetic and is never negative.", "quantifier": "every rectangular field, halfwidth, missing pattern", "why_tests_cant": "Algebraic identity between two different variance formulas over all fields.", "anchors": ["src/api/neighbourhood.cpp: neighbourhood (lines 211-235)"]}
{"id": "C18", "title": "Neighbourhood filters preserve shape, constants and bounds", "statement": "For every statistic (Mean, Min, Max, Median, Sum, Count, Variance, Std) and neighbourhood_quantile the output has the input's shape; Mean/Min/Max/Median/quantile values lie between the smallest and largest finite value of the window and are missing iff the window has no finite value; halfwidth 0 returns the field itself (missing stays missing) for Mean/Min/Max/Median/Sum; halfwidths at least as large as the field give the same global value everywhere.", "quantifier": "every rectangular field and halfwidth", "why_tests_cant": "All sizes and halfwidths.", "anchors": ["src/api/neighbourhood.cpp: neighbourhood, neighbourhood_brute_force, neighbourhood_quantile"]}
{"id": "C19", "title": "Ensemble neighbourhood computes the statistic across neighbourhood and all members", "statement": "neighbourhood(3D, h, statistic) equals the statistic over all members of all cells in the window (as documented, and as neighbourhood_brute_force(3D) does) for Min, Max and Sum with arbitrary missing values, and for Mean, Count, Median, Variance.", "quantifier": "every rectangular ensemble, halfwidth and statistic", "why_tests_cant": "The two-stage evaluation (per cell, then per window) agrees only for some statistics; agreement must hold for all missing patterns.", "anchors": ["src/api/neighbourhood.cpp: neighbourhood(vec3) lines 12-27", "include/gridpp.h doc of neighbourhood(vec3)"]}
{"id": "C20", "title": "Neighbourhood functions are safe on empty and ragged-free inputs", "statement": "Every neighbourhood overload given a rectangular (possibly empty) field returns without undefined behaviour; an empty field yields an empty result.", "quantifier": "every rectangular 2D/3D field including empty ones", "why_tests_cant": "Emptiness in any of the dimensions.", "anchors": ["src/api/neighbourhood.cpp"]}
{"id": "C21", "title": "Invalid neighbourhood arguments are reported as exceptions", "statement": "A negative halfwidth, or a quantile level outside [0,1] given to neighbourhood_quantile, produces an invalid_argument exception the caller can catch.", "quantifier": "every field, halfwidth and level", "why_tests_cant": "The second check happens inside an OpenMP region, from which an exception cannot escape.", "anchors": ["src/api/neighbourhood.cpp: neighbourhood_quantile, neighbourhood_brute_force; src/api/util.cpp: calc_quantile"]}
{"id": "C22", "title": "neighbourhood_quantile_fast stays within the thresholds and follows the neighbourhood cdf", "statement": "For nondecreasing thresholds and a level in [0,1], every non-missing output of neighbourhood_quantile_fast lies between the first and last threshold; it is missing iff no finite value is in the window; and if the exact fraction of window values <= thresholds[k] equals the level at exactly one k, the result is thresholds[k]. A negative halfwidth, a level outside [0,1] and a level field whose size is neither 1x1 nor that of the input are rejected as invalid arguments, for fields and for ensembles.", "quantifier": "every field, halfwidth, sorted threshold list, level", "why_tests_cant": "Unbounded fields and thresholds; the interpolation uses ties in the empirical cdf.", "anchors": ["src/api/neighbourhood.cpp: neighbourhood_quantile_fast"]}
{"id": "C23", "title": "neighbourhood_quantile_fast does not depend on the thread schedule", "statement": "The result is the same for every interleaving of the OpenMP threads, both for a scalar level and for a level field.", "quantifier": "every schedule of the parallel loop, every input", "why_tests_cant": "Schedules cannot be enumerated by tests; a race shows only under particular timing.", "anchors": ["src/api/neighbourhood.cpp: neighbourhood_quantile_fast (curr_quantile, lines 364-407 and 480-524)"]}
{"id": "C24", "title": "OpenMP loops with per-iteration output cells are schedule independent", "statement": "A parallel loop in which each iteration computes from read-only inputs and writes only its own output cell gives the same array as the sequential loop for every order and interleaving of iterations, also when every thread repeats the whole loop ('#pragma omp parallel' without 'for', as in gridding on points).", "quantifier": "every number of iterations, threads, distribution and interleaving", "why_tests_cant": "Schedules are not enumerable.", "anchors": ["src/api/gridding.cpp", "src/api/nearest.cpp", "src/api/count.cpp", "src/api/curve.cpp", "src/api/neighbourhood.cpp"]}
{"id": "C25", "title": "get_neighbourhood_thresholds returns sorted values of the field", "statement": "The thresholds are nondecreasing, at most num_thresholds many, all finite values occurring in the field, starting at its minimum and ending at its maximum (num>=2); a field without finite values gives an empty list.", "quantifier": "every 2D/3D rectangular field with missing values, every num>0", "why_tests_cant": "All fields, sizes and tie patterns.", "anchors": ["src/api/neighbourhood.cpp: get_neighbourhood_thresholds; src/api/util.cpp: calc_even_quantiles"]}
{"id": "C26", "title": "neighbourhood_search averages in-target neighbours and leaves other cells alone", "statement": "Each output is: the original value where the search value is missing or the apply mask is 0; else the mean of the finite window values whose search value is in [target_min,target_max] if there is one; else the value at the first window cell closest to the target range among those whose search value differs from the cell's own by at least search_delta; else the original value.", "quantifier": "every field, search field, mask, halfwidth and target range", "why_tests_cant": "Unbounded windows with running nearest-candidate state.", "anchors": ["src/api/neighbourhood_search.cpp"]}
{"id": "C27", "title": "apply_curve interpolates inside and extrapolates continuously outside the curve", "statement": "For a curve with sorted finite forecast values, apply_curve returns the interpolated reference inside the range; outside it follows the selected policy (slope 1, mean slope, nearest slope, slope 0, unchanged) from the nearest end point; missing input gives missing output; unequal or empty curves throw.", "quantifier": "every curve, input and policy pair", "why_tests_cant": "Continuum of inputs, all curves and policies.", "anchors": ["src/api/curve.cpp: apply_curve(float,...)"]}
{"id": "C28", "title": "apply_curve preserves order", "statement": "With strictly increasing forecast values, nondecreasing reference values and any of the policies OneToOne, MeanSlope, NearestSlope or Zero on both sides, x<=x' implies apply_curve(x) <= apply_curve(x').", "quantifier": "every such curve, every pair of inputs and policies", "why_tests_cant": "Two arbitrary inputs that may fall in different pieces (below, inside, above).", "anchors": ["src/api/curve.cpp: apply_curve"]}
{"id": "C29", "title": "monotonize_curve returns a subsequence with increasing forecast values", "statement": "For curves with at least one complete pair, the returned pairs are a subsequence (same order, same pairing) of the complete input pairs and the returned forecast values are strictly increasing; a curve whose forecast values already increase by more than the tolerance is returned unchanged.", "quantifier": "every curve of any length with any missing pattern", "why_tests_cant": "State machine over an unbounded sequence with back-tracking removal.", "anchors": ["src/api/curve.cpp: monotonize_curve"]}
{"id": "C30", "title": "monotonize_curve handles every non-empty curve", "statement": "monotonize_curve does not exhibit undefined behaviour for any non-empty pair of equally long lists.", "quantifier": "every pair of equally long non-empty lists", "why_tests_cant": "Failure needs every pair to contain a missing value.", "anchors": ["src/api/curve.cpp: monotonize_curve lines 167-168"]}
{"id": "C31", "title": "quantile_mapping_curve pairs sorted samples", "statement": "Without levels the call returns both samples sorted (a permutation of each input, nondecreasing), so it does not depend on the order of the samples; invalid levels throw.", "quantifier": "every pair of equally long finite samples", "why_tests_cant": "All permutations.", "anchors": ["src/api/quantile_mapping.cpp"]}
{"id": "C32", "title": "quantile_mapping_curve with levels returns sample quantiles", "statement": "With levels given, each returned pair consists of the forecast and reference sample quantile at that level, so the result does not depend on the order of the samples and is nondecreasing in the level.", "quantifier": "every sample and level list", "why_tests_cant": "Order independence over all permutations.", "anchors": ["src/api/quantile_mapping.cpp lines 34-45"]}
{"id": "C33", "title": "Contingency scores stay in their documented ranges", "statement": "For nonnegative counts not all zero: Ts and Pc are in [0,1]; Ets in [-1/3,1]; Kss and Hss in [-1,1]; Bias score in [0,1]; a perfect forecast (b=c=0, with both hits and correct rejections) scores 1 for every metric; swapping events and non-events leaves Kss, Hss and Pc unchanged.", "quantifier": "all nonnegative rational counts (also the fractions used by neighbourhood_score)", "why_tests_cant": "Nonlinear inequalities over a 4-dimensional continuum.", "anchors": ["src/api/metric_optimizer.cpp: calc_score(a,b,c,d,metric)"]}
{"id": "C34", "title": "calc_score on vectors classifies every pair exactly once", "statement": "For vectors without missing values, hits+false alarms+misses+correct rejections equals the number of pairs, each pair being classified by the two thresholds; the score is invariant under permuting the pairs; raising the forecast threshold never increases hits or false alarms.", "quantifier": "every pair of equally long finite vectors and thresholds", "why_tests_cant": "Unbounded vectors.", "anchors": ["src/api/metric_optimizer.cpp: calc_score(vec,vec,...)"]}
{"id": "C35", "title": "Grid linear index round-trips", "statement": "For a rectangular grid with Y rows and X columns: size() is (Y,X); the index pair of linear index k is (k/X, k mod X), always in range, distinct indices give distinct pairs, and the k-th point of to_points is the grid point at that pair.", "quantifier": "every rectangular grid (non-empty) and index", "why_tests_cant": "All sizes.", "anchors": ["src/api/grid.cpp: Grid ctor, get_indices, size, to_points, get_point"]}
{"id": "C36", "title": "Radius search returns exactly the points within the radius", "statement": "get_neighbours(lat,lon,radius) returns (each once) exactly the indices of points whose straight-line distance is <= radius, excluding coincident points when include_match is false; in particular radius 0 returns the coincident points.", "quantifier": "every set of points, lookup location and radius", "why_tests_cant": "The box pre-filter is an open box: the failing points are a measure-zero set a random test never hits.", "anchors": ["src/api/kdtree.cpp: get_neighbours, within_radius"]}
{"id": "C37", "title": "Nearest neighbour search returns a closest point", "statement": "get_closest_neighbours(lat,lon,num) returns min(num, available) distinct indices, none of the remaining points being strictly closer than a returned one; get_nearest_neighbour returns -1 (Points) / empty (Grid) exactly when no point qualifies.", "quantifier": "every point set, lookup location, num, include_match", "why_tests_cant": "Unbounded point sets with ties.", "anchors": ["src/api/kdtree.cpp: get_closest_neighbours", "src/api/points.cpp: get_nearest_neighbour", "src/api/grid.cpp: get_nearest_neighbour"]}
{"id": "C38", "title": "Copying or subsetting Points keeps the coordinate type", "statement": "A copy, an assignment target, subset(...) or get_in_domain(...) of a Points object has the same coordinate type and the same neighbour-search results as the original.", "quantifier": "every Points object", "why_tests_cant": "Holds for the default type; depends on state of the object copied.", "anchors": ["src/api/points.cpp: copy constructor, operator=, subset, get_in_domain"]}
{"id": "C39", "title": "A Point has the same 3D position however it is obtained", "statement": "Constructing Point(lat,lon,...,type) directly and obtaining it through Points::get_point/Grid::get_point for the same coordinates gives the same x,y,z, so distances computed from them agree.", "quantifier": "every coordinate pair and type", "why_tests_cant": "Wrong only for asymmetric Cartesian coordinates.", "anchors": ["src/api/point.cpp", "src/api/util.cpp: convert_coordinates"]}
{"id": "C40", "title": "Grid::get_box returns an in-range cell that contains the point", "statement": "If get_box reports success, the returned indices are two adjacent rows and two adjacent columns inside the grid, one corner being the nearest grid point, and the point passes the point-in-rectangle test for that cell; on grids with one row or column it fails without an out-of-range access.", "quantifier": "every rectangular grid, location and nearest-neighbour answer", "why_tests_cant": "All grid sizes and edge/corner positions of the nearest neighbour.", "anchors": ["src/api/grid.cpp: get_box", "src/api/util.cpp: point_in_rectangle"]}
{"id": "C41", "title": "point_in_rectangle is exact for axis-aligned rectangles", "statement": "For an axis-aligned rectangle given in drawing order (either orientation, any starting corner) with positive side lengths, point_in_rectangle is true exactly for points with both coordinates within the sides (boundary included).", "quantifier": "every rectangle, orientation, starting corner and point", "why_tests_cant": "Four-dimensional continuum and 8 vertex orders.", "anchors": ["src/api/util.cpp: point_in_rectangle"]}
{"id": "C42", "title": "Nearest-neighbour downscaling copies values", "statement": "nearest(...) fills every output cell with the value of an input cell that is closest to it, so no new values appear; the output has the output grid's shape; all overloads (2D/3D, grid/points) select the same input cell; if every output location coincides with exactly one input location the values are reproduced.", "quantifier": "every input/output geometry and field", "why_tests_cant": "All geometries.", "anchors": ["src/api/nearest.cpp"]}
{"id": "C43", "title": "Bilinear interpolation is a convex combination that reproduces its corners and affine fields", "statement": "Inside a grid cell the bilinear value lies between the minimum and maximum of its four corner values, equals the corner value at a corner, and reproduces fields affine in the two cell coordinates; if a corner value is missing, or the point is outside the grid, the nearest value is used.", "quantifier": "every cell geometry (parallelogram case), corner values and location", "why_tests_cant": "Continuum of locations and values.", "anchors": ["src/api/bilinear.cpp"]}
{"id": "C44", "title": "gridding aggregates exactly the points in range", "statement": "gridding returns at each output the statistic of the values of the points within radius, or missing if there are fewer than min_num of them (min_num>0); invalid radius or min_num throws; output shape is the output grid's.", "quantifier": "every geometry, value vector, radius, min_num, statistic", "why_tests_cant": "All geometries; the neighbour set is data dependent.", "anchors": ["src/api/gridding.cpp: gridding"]}
{"id": "C45", "title": "gridding_nearest assigns every point to exactly one cell", "statement": "gridding_nearest computes at each output cell the statistic over the values whose nearest output cell it is; with Count summed over cells it equals the number of finite input values, with Sum it conserves the total.", "quantifier": "every geometry and value vector", "why_tests_cant": "Conservation over all inputs.", "anchors": ["src/api/gridding.cpp: gridding_nearest"]}
{"id": "C46", "title": "fill changes exactly the cells inside (outside) the circles", "statement": "fill with outside=false sets exactly the cells within some circle to the value and keeps all others; with outside=true the reverse; the two results are complementary; negative radius throws.", "quantifier": "every grid, field, circle list and value", "why_tests_cant": "Overlapping circles in any order.", "anchors": ["src/api/fill.cpp: fill"]}
{"id": "C47", "title": "Doping overwrites only targeted cells and the last observation wins", "statement": "doping_square / doping_circle leave every cell not reached by any point unchanged; a reached cell holds the value of the last point (in input order) that reaches it; reached means within the halfwidth square around the nearest grid point (radius circle) and not excluded by the elevation limit.", "quantifier": "every grid, field, point list, halfwidths/radii, elevation limit", "why_tests_cant": "Overlaps in any order.", "anchors": ["src/api/doping.cpp"]}
{"id": "C48", "title": "fill_missing never alters valid values and interpolates gaps", "statement": "Cells that are finite in the input keep their value; a missing cell between two finite cells in its row only (column only) gets the linear interpolation of them, in both the average of the two; a complete field is returned unchanged.", "quantifier": "every rectangular non-empty field", "why_tests_cant": "All missing patterns.", "anchors": ["src/api/fill.cpp: fill_missing"]}
{"id": "C49", "title": "fill_missing returns a field without missing values", "statement": "As documented, the returned field has no missing values.", "quantifier": "every field with at least one finite value", "why_tests_cant": "Depends on missing pattern (leading/trailing gaps).", "anchors": ["src/api/fill.cpp: fill_missing", "include/gridpp.h doc of fill_missing"]}
{"id": "C50", "title": "downscale_probability is a probability and complements add up", "statement": "Each output is missing iff the selected cell has no finite member, else in [0,1]; P(<t)+P(>=t)=1 and P(<=t)+P(>t)=1 for a finite threshold; raising the threshold never lowers P(<=t).", "quantifier": "every ensemble, threshold field, geometry", "why_tests_cant": "All ensembles and thresholds.", "anchors": ["src/api/downscale_probability.cpp"]}
{"id": "C51", "title": "Masked threshold consensus uses each member once", "statement": "mask_threshold_downscale_consensus (quantile) gives the statistic (quantile) over the ensemble in which each member contributes its 'true' value when its threshold value satisfies the comparison with the threshold at the output cell and its 'false' value otherwise.", "quantifier": "every ensemble pair, threshold field, operator, statistic", "why_tests_cant": "All ensembles and geometries.", "anchors": ["src/api/mask_threshold_downscale_consensus.cpp"]}
{"id": "C52", "title": "Gradient downscaling reduces to plain downscaling at zero gradient or equal elevation", "statement": "simple_gradient/full_gradient return plain downscaled value plus gradient times elevation (land fraction) difference; where elevations agree or the gradient is 0 the plain value is returned; where elevation is missing no correction is applied.", "quantifier": "every geometry, field, gradient", "why_tests_cant": "All geometries and fields.", "anchors": ["src/api/simple_gradient.cpp", "src/api/gradient.cpp"]}
{"id": "C53", "title": "Barnes and power-law correlations are proper correlation functions", "statement": "For positive length scales corr(p,p)=1, corr is symmetric, in [0,1], and nonincreasing in horizontal distance, absolute elevation difference and absolute land-fraction difference; missing elevation/land fraction removes that factor.", "quantifier": "every pair of points and positive length scales", "why_tests_cant": "Transcendental inequalities over a continuum.", "anchors": ["src/api/structure.cpp: BarnesStructure, PowerlawStructure"]}
{"id": "C54", "title": "All structure functions are symmetric and within [0,1]", "statement": "corr(p1,p2)=corr(p2,p1) and 0<=corr<=1 for Cressman, Soar and Toar structures with vertical or land-fraction length scales.", "quantifier": "every pair of points", "why_tests_cant": "Sign-dependent failure.", "anchors": ["src/api/structure.cpp: CressmanStructure, SoarStructure, ToarStructure"]}
{"id": "C55", "title": "Localization distance covers every correlated point", "statement": "For Barnes with a horizontal cut-off hmax the localization distance is hmax and corr is 0 at any larger distance; with the default cut-off every point beyond the localization distance has correlation below the stated minimum.", "quantifier": "every pair of points, every h>0, hmax>=0", "why_tests_cant": "Continuum; inverse of an exponential.", "anchors": ["src/api/structure.cpp: BarnesStructure ctor, localization_distance, corr"]}
{"id": "C56", "title": "CrossValidation removes observations near the background point", "statement": "corr_background is 0 when the points are within the given distance and equals the wrapped structure's corr_background otherwise; corr is unaffected.", "quantifier": "every pair of points and wrapped structure", "why_tests_cant": "Parametric in the wrapped function.", "anchors": ["src/api/structure.cpp: CrossValidation"]}
{"id": "C57", "title": "Optimal interpolation leaves unobserved and missing cells unchanged", "statement": "A cell with missing background stays missing; a cell with no usable observation (finite obs, finite background at the point, positive correlation, inside the localization radius) keeps its background exactly; no observations at all returns the background.", "quantifier": "every geometry, background, observation set and structure function", "why_tests_cant": "All geometries and missing patterns.", "anchors": ["src/api/oi.cpp: optimal_interpolation*"]}
{"id": "C58", "title": "Optimal interpolation with zero innovation returns the background", "statement": "If every observation equals the background at its point, the analysis equals the background everywhere, whatever the (finite) correlations and variances, the number of points and the extrapolation setting.", "quantifier": "every geometry, structure function with finite values, finite variances (nonzero background variance at the observations)", "why_tests_cant": "Holds for all gain matrices.", "anchors": ["src/api/oi.cpp"]}
{"id": "C59", "title": "Optimal interpolation uses the most correlated observations, at most max_points", "statement": "For max_points>0 the observations used at a cell are at most max_points many, all usable, and no unused usable observation has a strictly larger correlation than a used one; with max_points=0 or enough room all usable observations are used.", "quantifier": "every candidate set, correlation values and max_points", "why_tests_cant": "Sorting with ties over unbounded sets.", "anchors": ["src/api/oi.cpp (observation selection)"]}
{"id": "C60", "title": "Single-observation analysis lies between background and corrected background", "statement": "With one usable observation the analysis is background + rho/(1+ratio) * innovation; with rho in [0,1] and ratio>=0 the increment has the sign of the innovation and is not larger; the analysis variance lies between 0 and the background variance.", "quantifier": "every rho in [0,1], ratio >= 0, values", "why_tests_cant": "Continuum.", "anchors": ["src/api/oi.cpp"]}
{"id": "C61", "title": "Without extrapolation the analysis increment never exceeds the observed increments", "statement": "With allow_extrapolation=false the increment at a cell is at most the largest and at least the smallest observation increment used there (or zero).", "quantifier": "every set of used innovations and raw increment", "why_tests_cant": "Depends on sign pattern and zeros of the innovations.", "anchors": ["src/api/oi.cpp lines 318-334"]}
{"id": "C62", "title": "optimal_interpolation_full is memory safe for every observation set", "statement": "optimal_interpolation_full on a grid returns analysis and analysis variance for any number of observations, including none.", "quantifier": "every grid and observation set", "why_tests_cant": "Fails only for the empty set.", "anchors": ["src/api/oi.cpp lines 342-412"]}
{"id": "C63", "title": "Transforms are inverse to each other", "statement": "backward(forward(x)) = x on the documented domain: Log for x>0, BoxCox (threshold >= 0) for x>=0 (x>0 at threshold 0), StartedBoxCox for x>=0, Identity for all; forward is strictly increasing there; missing maps to missing.", "quantifier": "every x in the domain and every parameter", "why_tests_cant": "Continuum of values and parameters.", "anchors": ["src/api/transform.cpp"]}
{"id": "C64", "title": "BoxCox with a negative parameter is invertible", "statement": "backward(forward(x)) = x for x>0 and negative BoxCox parameter.", "quantifier": "every x>0 and negative parameter", "why_tests_cant": "Clamp condition has the wrong sense only for negative parameters.", "anchors": ["src/api/transform.cpp: BoxCox::backward"]}
{"id": "C65", "title": "Wind speed and direction are polar coordinates of the wind vector", "statement": "wind_speed is nonnegative, zero iff both components are zero, and scales with the vector; wind_direction is in [0,360) and (speed,direction) determine the components.", "quantifier": "every pair of components", "why_tests_cant": "Continuum incl. axes and signs.", "anchors": ["src/api/wind.cpp"]}
{"id": "C66", "title": "pressure adjusts consistently with elevation", "statement": "pressure at the same elevation is unchanged, decreases strictly with output elevation for positive pressure and temperature, and going from a to b to c equals going from a to c (same temperature); qnh at altitude 0 equals the pressure and increases with altitude.", "quantifier": "all elevations, positive pressures and temperatures", "why_tests_cant": "Continuum, transcendental.", "anchors": ["src/api/pressure.cpp", "src/api/qnh.cpp"]}
{"id": "C67", "title": "Humidity conversions stay in range", "statement": "relative_humidity is in [0,1] for all finite inputs, 1 when temperature<=dewpoint, nondecreasing in dewpoint and nonincreasing in temperature, with table accesses in range; dewpoint never exceeds temperature; missing input gives missing output.", "quantifier": "all temperatures and dewpoints", "why_tests_cant": "Piecewise table over a continuum.", "anchors": ["src/api/humidity.cpp"]}
{"id": "C68", "title": "Cell search works on every valid grid", "statement": "Searching the grid cell that contains a location (used by bilinear interpolation and by restricting points to a domain) never raises an error for a location that the grid accepts, whatever the coordinate type of the grid and the size of its coordinates.", "quantifier": "all grids (Geodetic and Cartesian), all accepted locations", "why_tests_cant": "Tests use Cartesian grids with coordinates below 90 only; the failing coordinate ranges are unbounded.", "anchors": ["src/api/grid.cpp", "src/api/bilinear.cpp", "src/api/points.cpp"]}
{"id": "C69", "title": "count returns the number of locations found in the radius", "statement": "count(...) returns at each output location the number of distinct input locations (grid cells or points) that the radius search finds around it, in the output's shape, for all four grid/points combinations.", "quantifier": "every input and output geometry and radius (also infinite or missing)", "why_tests_cant": "All geometries.", "anchors": ["src/api/count.cpp"]}
{"id": "C70", "title": "Bilinear interpolation handles every convex cell", "statement": "For a location inside a convex grid cell that is not a parallelogram, with finite corner values, bilinear returns the blend of the corner values with the weights of the location in the cell, without terminating the program.", "quantifier": "every convex quadrilateral cell, corner values and location inside the cell", "why_tests_cant": "The branch taken depends on the signs and zeros of several determinants; orientations of a grid are rarely enumerated in tests.", "anchors": ["src/api/bilinear.cpp"]}
{"id": "C71", "title": "full_gradient_debug agrees with full_gradient and explains it", "statement": "full_gradient_debug returns for every output cell nine numbers of which the first equals full_gradient's value and the others are the land-fraction and elevation differences, the two corrections, the output and input land fractions, and the values with only one correction; the gradients may be empty (as the default of laf_gradient is).", "quantifier": "every pair of grids, field, gradients (given or empty) and downscaler", "why_tests_cant": "All geometries; the default argument path indexes empty arrays.", "anchors": ["src/api/gradient.cpp:276-366", "include/gridpp.h"]}
{"id": "C72", "title": "MinMax gradients are the slope between the extremes of the base", "statement": "calc_gradient with MinMax gives at each cell the difference of the values divided by the difference of the bases between the first largest and the first smallest base among the complete pairs in the neighbourhood; the default gradient where there are fewer than min_num complete pairs or the base range does not exceed min_range, in particular where the base is constant; invalid arguments are rejected.", "quantifier": "every field, missing pattern, halfwidth, minimum number and range", "why_tests_cant": "All fields and missing patterns.", "anchors": ["src/api/calc_gradient.cpp:6-76"]}
{"id": "C73", "title": "Regression gradients minimise the squared error", "statement": "calc_gradient with LinearRegression gives at each cell the slope of a line with the least sum of squared errors over the complete pairs in the neighbourhood; the default gradient where there are fewer than min_num complete pairs, the base is constant or its standard deviation is below min_range. Values that depend linearly on the base give back that slope.", "quantifier": "every field, missing pattern, halfwidth, minimum number and range", "why_tests_cant": "Optimality is a statement over all lines, for all fields.", "anchors": ["src/api/calc_gradient.cpp:78-126"]}
{"id": "C74", "title": "Soar and Toar honour their horizontal cut-off", "statement": "For SoarStructure and ToarStructure with a horizontal cut-off hmax, points closer than hmax keep their correlation (in particular a point has correlation 1 with itself) and points beyond it have correlation 0; with the default cut-off the correlation is truncated only where it is below the stated minimum 0.0013.", "quantifier": "every pair of points, every h>0, hmax>=0", "why_tests_cant": "Continuum; the code uses an approximate inverse whose error depends on hmax/h.", "anchors": ["src/api/structure.cpp:317-341,454-460,467-491,604-610"]}
{"id": "C75", "title": "The vector form of a correlation agrees with the single form", "statement": "corr and corr_background of a point and a list of points give, element by element, what the single forms give, for every structure function including spatially varying, multiple and cross-validation structures.", "quantifier": "every structure function that can be constructed, every point and non-empty list of points", "why_tests_cant": "Two separately written code paths over all structures, nested arbitrarily.", "anchors": ["src/api/structure.cpp:13-25,113-136,231-267,405-441,555-591,706-742,853-889,928-938"]}
{"id": "C76", "title": "LinearStructure decreases linearly from 1 to the given minimum", "statement": "The correlation of a LinearStructure with parameters in [0,1] lies between the product of the minimum correlations and 1 for all points, and a scale of 0 disables the corresponding decorrelation.", "quantifier": "every pair of points and parameters", "why_tests_cant": "All distances; the cut-off distance is constantly 0.", "anchors": ["src/api/structure.cpp:76-86,765-904", "include/gridpp.h:2283-2314"]}
{"id": "C77", "title": "Copies of a structure function behave the same", "statement": "clone() of any structure function that can be constructed succeeds, and the copy gives the same correlations, background correlations and localization distances.", "quantifier": "every constructible structure function, nested arbitrarily, every point", "why_tests_cant": "Induction over nesting; clone reconstructs through a different constructor.", "anchors": ["src/api/structure.cpp: clone"]}
{"id": "C78", "title": "MultipleStructure takes each factor from its own structure", "statement": "The correlation of MultipleStructure(A,B,C) of Barnes or power-law structures is A's horizontal factor times B's vertical factor times C's land-fraction factor, with A's cut-off and localization distance; with three copies of one structure it equals that structure.", "quantifier": "every triple of Barnes or power-law structures, every pair of points", "why_tests_cant": "Continuum of scales and points, missing elevations.", "anchors": ["src/api/structure.cpp:90-139"]}
{"id": "C79", "title": "Observations never increase the analysis variance", "statement": "For correlations that are those of some random field (positive semi-definite) and non-negative error variances, the analysis variance at every cell is at least 0 and at most the background variance.", "quantifier": "every number of observations, every positive semi-definite correlation, variances and max_points", "why_tests_cant": "Needs a property of the inverse of a matrix of any size.", "anchors": ["src/api/oi.cpp:206-340"]}
{"id": "C80", "title": "The analysis fits an error-free observation at the cell exactly", "statement": "At a cell that coincides with an observation of zero error variance (same correlations with all observations), the analysis equals background plus that observation's departure and the analysis variance is 0 when the correlation with itself is 1, whatever the other observations.", "quantifier": "every set of further observations, correlations, errors and departures; max_points 0", "why_tests_cant": "Linear algebra over all matrix sizes.", "anchors": ["src/api/oi.cpp:206-340"]}
{"id": "C81", "title": "The order of the observations does not matter", "statement": "Reordering the observations (with their values, variances and backgrounds) does not change the analysis or the analysis variance when all usable observations are used.", "quantifier": "every permutation of every observation set, max_points 0", "why_tests_cant": "All permutations of unbounded sets.", "anchors": ["src/api/oi.cpp"]}
{"id": "C82", "title": "All versions of optimal interpolation compute the same documented analysis", "statement": "The Points, Grid and full versions give, cell by cell, background plus the weights (P+R)^-1 g applied to the departures (limited when extrapolation is off), where P holds correlations among the used observations, R the error ratios and g the correlations with the cell; the Grid version equals the Points version on the flattened grid.", "quantifier": "every grid, points, structure function with finite values, observation set", "why_tests_cant": "Unbounded matrices and grids.", "anchors": ["src/api/oi.cpp"]}
{"id": "C83", "title": "optimal_interpolation rejects arguments whose sizes do not fit", "statement": "Every version raises invalid_argument for a negative max_points, for mixed coordinate types and for any array whose size does not fit its grid or points.", "quantifier": "every combination of sizes", "why_tests_cant": "All combinations of mismatching arguments.", "anchors": ["src/api/oi.cpp:27-205, 342-412"]}
{"id": "C84", "title": "Optimal interpolation always returns for valid correlations and positive observation errors", "statement": "With positive semi-definite correlations and positive observation to background variance ratios the matrix is never singular, so the parallel loop never throws (which would terminate the program) and the results have the right sizes.", "quantifier": "every number of observations, every positive semi-definite correlation and positive ratio", "why_tests_cant": "Singularity for any matrix size; coincident observations included.", "anchors": ["src/api/oi.cpp:206-340"]}
{"id": "C85", "title": "Transforms are onto and treat negative amounts as zero", "statement": "On the range of forward, forward(backward(y)) = y for Identity, Log, BoxCox (threshold >= 0) and StartedBoxCox; BoxCox and StartedBoxCox map every negative input like 0.", "quantifier": "every y in the range and every parameter", "why_tests_cant": "Continuum of values and parameters.", "anchors": ["src/api/transform.cpp"]}
{"id": "C86", "title": "The Gamma transform is invertible", "statement": "With correct gamma and normal distribution functions, Gamma.backward(Gamma.forward(x)) = x for x>0 and forward is increasing; shape, scale and tolerance that are out of range are rejected with invalid_argument.", "quantifier": "every shape, scale, tolerance and x", "why_tests_cant": "Continuum of values and parameters.", "anchors": ["src/api/transform.cpp: Gamma"]}
{"id": "C87", "title": "wind_direction is below 360 in floating point arithmetic", "statement": "In binary32 arithmetic wind_direction returns a value in [0,360).", "quantifier": "every pair of binary32 wind components", "why_tests_cant": "Happens only for a tiny negative angle.", "anchors": ["src/api/wind.cpp:20-26"]}
{"id": "C88", "title": "Drier air has a lower dew point", "statement": "dewpoint is nondecreasing in relative humidity on [0,1] for a fixed temperature.", "quantifier": "all temperatures and humidities", "why_tests_cant": "Continuum; the exception is a single point.", "anchors": ["src/api/humidity.cpp:5-21"]}
{"id": "C89", "title": "Wet-bulb temperature lies between dew point and temperature", "statement": "For positive pressure and humidity in (0,1] wetbulb is a number, at most the temperature and at least the dew point; missing or unphysical input gives missing.", "quantifier": "all temperatures, pressures and humidities", "why_tests_cant": "Continuum; fails only close to saturation.", "anchors": ["src/api/humidity.cpp:91-109"]}
{"id": "C90", "title": "sea_level_pressure of physical input is a number", "statement": "For arguments that are accepted (nonnegative pressure and temperature, humidity in [0,1] or missing, dew point nonnegative or missing) the result is a number; at altitude 0 it is the station pressure, at 50 m and above at least the station pressure; missing altitude or temperature and unphysical values raise runtime_error.", "quantifier": "all arguments", "why_tests_cant": "Continuum with missing values; two formulas.", "anchors": ["src/api/pressure.cpp:28-80"]}
{"id": "C91", "title": "Array versions of the diagnostics apply the scalar version to each element", "statement": "wind_speed, wind_direction, pressure, sea_level_pressure, qnh, dewpoint, relative_humidity and wetbulb on arrays return the scalar results in order, raise invalid_argument when sizes differ, and raise what the scalar version raises.", "quantifier": "all arrays", "why_tests_cant": "Unbounded sizes; exceptions inside parallel loops end the program.", "anchors": ["src/api/wind.cpp", "src/api/pressure.cpp", "src/api/qnh.cpp", "src/api/humidity.cpp"]}
{"id": "C92", "title": "neighbourhood_score scores the cells of the window", "statement": "For each grid cell, neighbourhood_score(grid, points, forecast, observations, half_width, metric, threshold) pairs the mean of the valid observations whose nearest cell it is with the forecast there (no pair when either is missing) and returns the metric of the contingency table of all pairs within half_width rows and columns: score times denominator equals numerator and lies in the metric's range; without denominator the score is missing (1 for Bias, also when the window has no pairs). Wrong sizes and half_width <= 0 raise invalid_argument.", "quantifier": "all grids, point sets, fields with missing values, half widths, metrics and thresholds", "why_tests_cant": "The window averages go through summed-area tables and a per-cell assignment; the scores are rational functions of them with zero denominators.", "anchors": ["src/api/neighbourhood_score.cpp:6-61", "src/api/metric_optimizer.cpp", "src/api/gridding.cpp"]}
{"id": "C93", "title": "calc_distance is a metric", "statement": "KDTree::calc_distance is the planar distance for Cartesian coordinates and the great-circle arc for latitude and longitude: symmetric, nonnegative, zero exactly for the same place, satisfies the triangle inequality, at most half the circumference, and larger exactly when the straight line is longer. calc_distance_fast is the documented approximation, symmetric, unaffected by full turns of longitude, and equal to calc_distance along a meridian, along the equator and for Cartesian coordinates. Points of different coordinate type raise runtime_error.", "quantifier": "all real coordinates (|latitude| <= 90 for the approximation)", "why_tests_cant": "Continuum of pairs and triples; arccosine with clamped argument, fmod of longitudes.", "anchors": ["src/api/kdtree.cpp:107-205"]}
{"id": "C94", "title": "distance gives the largest distance to the num closest locations", "statement": "distance(grid or points, output grid or points, num), num >= 1, returns for each output location the largest of the distances to the num closest input locations (all of them when there are fewer). In the plane the result does not decrease when num grows and is the distance to the nearest location for num = 1. Different coordinate types raise invalid_argument.", "quantifier": "all grids, point sets and num >= 1", "why_tests_cant": "Unbounded sets with ties; nearness is decided on straight lines while distances are along the sphere.", "anchors": ["src/api/distance.cpp:4-120"]}
{"id": "C95", "title": "Static correlations to knots keep the strongest links", "statement": "staticcorr_points returns one row per point and one column per knot. An entry is the background correlation of the structure function when the knot lies within the localization distance of the point and the correlation is positive, otherwise 0. With max_points > 0 at most that many entries per row are kept and no dropped knot is more correlated than a kept one; 0 keeps all. Negative max_points or different coordinate types raise invalid_argument.", "quantifier": "all point and knot sets, structure functions and max_points >= 0", "why_tests_cant": "Unbounded sets, ties among correlations, arbitrary structure functions.", "anchors": ["src/api/corr_points.cpp:1-131"]}
{"id": "C96", "title": "smart returns the mean of the num most correlated neighbours", "statement": "smart gives each output cell the mean of the values of num input cells within the localization distance (all, if there are fewer), and no other cell within that distance is more correlated with it. Without any such cell the result is missing; a missing value among those chosen makes the result missing.", "quantifier": "all grids, fields, structure functions and num", "why_tests_cant": "Unbounded grids and ties; arbitrary structure functions.", "anchors": ["src/api/smart.cpp:1-159"]}
{"id": "C97", "title": "local_distribution_correction maps quantiles of nearby pairs", "statement": "Where at least min_points pairs of known, nonnegative observation and background lie within the localization distance (over all times), the result is: 0 for backgrounds below 0.01; with no observed amount, 0 below 0.1 or three times the largest background and otherwise the background; above the largest paired background, the background plus the difference of the largest observation and the largest background; otherwise a mix of the background and the observation of the same weighted quantile, the latter's weight being 1 - exp(-sum of weights / 100). Results are never negative, missing backgrounds stay missing, and with fewer pairs the background is kept. Backgrounds of at least 0.1 are unchanged if observations and paired backgrounds agree. Different numbers of times raise invalid_argument.", "quantifier": "all grids, stations, times, values and positive weights, 0 <= min_quantile <= max_quantile <= 1", "why_tests_cant": "Unbounded sets with ties, arbitrary structure functions; two chained interpolations on curves with flat parts.", "anchors": ["src/api/local_distribution_correction.cpp:18-205", "include/gridpp.h:467-512"]}
{"id": "C98", "title": "local_distribution_correction keeps the background without observations", "statement": "A cell without any observation within the localization distance keeps its background value.", "quantifier": "all grids, stations, values and min_points", "why_tests_cant": "Requires reasoning about every cell and every structure function.", "anchors": ["src/api/local_distribution_correction.cpp:66-70", "include/gridpp.h:488"]}
{"id": "C99", "title": "get_optimal_threshold returns a useful forecast threshold or missing", "statement": "For every observation threshold and metric, get_optimal_threshold either returns missing, or a forecast threshold between the smallest and largest forecast for which the metric's score over the pairs is above 0.0001. An unknown metric raises invalid_argument.", "quantifier": "all equally long nonempty vectors, thresholds, metrics and minimisers whose result lies in the search interval", "why_tests_cant": "The minimiser works on a piecewise constant, possibly undefined function; no finite set of runs covers its choices.", "anchors": ["src/api/metric_optimizer.cpp:129-214"]}
{"id": "C100", "title": "get_optimal_threshold removes optima at the boundary", "statement": "If the score at the found threshold equals (within 0.001) the score at the smallest or largest forecast, the result is missing; and an optimum whose score clearly exceeds those at both ends is not removed for that reason.", "quantifier": "all equally long nonempty vectors, thresholds and metrics", "why_tests_cant": "A sign error only shows for scores whose negative equals the score at an end.", "anchors": ["src/api/metric_optimizer.cpp:167-185"]}
{"id": "C101", "title": "metric_optimizer_curve keeps exactly the thresholds with an optimum", "statement": "The two vectors returned have equal lengths. The thresholds kept are, in order, those for which get_optimal_threshold gives a value, each paired with that value, which is useful in the sense of C99; the others gave missing. Vectors of different sizes raise invalid_argument.", "quantifier": "all vectors, thresholds and metrics", "why_tests_cant": "Unbounded numbers of thresholds, arbitrary patterns of missing optima.", "anchors": ["src/api/metric_optimizer.cpp:104-127", "include/gridpp.h:524-545"]}
{"id": "C102", "title": "gamma_inv returns gamma quantiles", "statement": "For equally long vectors of levels in [0, 1], positive shapes and scales, gamma_inv returns one nonnegative quantile per entry, 0 at level 0 and strictly increasing in the level. Levels outside [0, 1], shapes or scales that are not positive, and missing or infinite entries raise invalid_argument.", "quantifier": "all vectors of levels, shapes and scales", "why_tests_cant": "The last admitted level makes the quantile function throw inside the parallel loop, which ends the program.", "anchors": ["src/api/distribution.cpp:5-32", "include/gridpp.h:567-573"]}
{"id": "C103", "title": "get_statistic knows every statistic by name", "statement": "get_statistic maps the name of each statistic (mean, min, median, max, quantile, std, variance, sum, count, randomchoice) to that statistic and every other string to Unknown.", "quantifier": "all strings", "why_tests_cant": "All strings are covered.", "anchors": ["src/api/gridpp.cpp:11-44", "include/gridpp.h:88-100", "include/gridpp.h:1406-1410"]}
{"id": "C104", "title": "The scaled ensemble analysis is the member-by-member linear analysis", "statement": "optimal_interpolation_ensi_multi_ebesc returns, for every member that has values at all background and observation points, the background plus the background ratio times the weighted sum of that member's departures, with the weights of the static-structure analysis of the observations used there (unique); the increment is limited to the range of the departures and zero when extrapolation is not allowed. Cells without usable observations keep the background, and members with missing values are returned unchanged.", "quantifier": "all sizes, numbers of members, locations, correlations, ratios, observations and backgrounds", "why_tests_cant": "Arbitrary ensembles and systems of equations; missing members in arbitrary positions.", "anchors": ["src/api/oi_ensi_multi.cpp:137-224", "src/api/oi_ensi_multi.cpp:630-860", "include/gridpp.h:328-340", "include/gridpp.h:408-428"]}
{"id": "C105", "title": "The scaled ensemble analysis is defined whenever the statistics are consistent", "statement": "With matching sizes and the incomplete members last, optimal_interpolation_ensi_multi_ebesc either returns an analysis or raises a runtime error (singular matrix); with positive semidefinite correlations and positive error ratios it always returns an analysis.", "quantifier": "all inputs of matching sizes, at least one background point or no observations", "why_tests_cant": "Absence of out-of-range accesses for all sizes and missing-value patterns.", "anchors": ["src/api/oi_ensi_multi.cpp:630-860"]}
{"id": "C106", "title": "The scaled ensemble analysis agrees with optimal_interpolation member by member", "statement": "With background ratios 1, extrapolation allowed, valid error ratios and the same observations missing in each member, member e of optimal_interpolation_ensi_multi_ebesc is exactly optimal_interpolation applied to member e of the background, observations and background at the observations.", "quantifier": "all ensembles, members and locations", "why_tests_cant": "Equality of two implementations on all inputs.", "anchors": ["src/api/oi_ensi_multi.cpp:630-860", "src/api/oi.cpp:60-330"]}
{"id": "C107", "title": "The scaled ensemble analysis rejects arguments that do not fit", "statement": "optimal_interpolation_ensi_multi_ebesc raises invalid_argument for a negative max_points, different coordinate types, or a number of rows in any argument that differs from the number of points it belongs to. The Grid version, with at least one station and no empty argument, does so for any argument whose first sizes differ from those of the grid, the stations or the ensemble, and for an empty grid.", "quantifier": "all arguments", "why_tests_cant": "All combinations of sizes.", "anchors": ["src/api/oi_ensi_multi.cpp:630-700"]}
{"id": "C108", "title": "Grid version of the scaled ensemble analysis", "statement": "The Grid version of optimal_interpolation_ensi_multi_ebesc gives at row y, column x exactly what the Points version gives at point y*X+x of the flattened grid, for each member, and raises the same errors.", "quantifier": "all grids with at least one observation", "why_tests_cant": "All grid shapes and ensemble sizes.", "anchors": ["src/api/oi_ensi_multi.cpp:137-224"]}
{"id": "C109", "title": "Structure function constructors reject unusable scales", "statement": "The Barnes, Soar, Toar, Powerlaw and Linear constructors accept exactly finite nonnegative h, v and w with hmax missing or nonnegative, and raise invalid_argument otherwise; Cressman likewise. The constructors taking a grid accept fields of the grid's size or three 1x1 fields, raise invalid_argument otherwise, and reject negative or missing scales.", "quantifier": "all scales and fields", "why_tests_cant": "All values including missing and infinite ones.", "anchors": ["src/api/structure.cpp:143-200", "src/api/structure.cpp:287-300", "src/api/structure.cpp:317-372", "src/api/structure.cpp:467-520", "src/api/structure.cpp:618-670", "src/api/structure.cpp:765-820"]}
{"id": "C110", "title": "The ensemble analysis has the Kalman filter's mean", "statement": "At every background point, the mean of the analysed members of optimal_interpolation_ensi (extrapolation allowed) is the background mean plus the sum over the chosen stations of weight times covariance, where the covariances are the ensemble's sample covariances between point and stations, and the weights solve (S + R) v = departures with S the sample covariances between stations and R the error variances divided by the localization. A point without a usable observation, or with fewer than two members, keeps its background.", "quantifier": "all backgrounds, observations, error standard deviations, structure functions and ensembles; members with a missing value at some point take no part", "why_tests_cant": "The equality of the transform's mean with the Kalman formula is a matrix identity over all sizes.", "anchors": ["src/api/oi_ensi.cpp:203-547"]}
{"id": "C111", "title": "The ensemble analysis has the Kalman filter's variance", "statement": "At every background point, the sample variance of the analysed members of optimal_interpolation_ensi (extrapolation allowed) is the background's sample variance minus the part explained by the chosen stations, c' (S + R)^-1 c; it is at least 0 and at most the background's, and does not depend on the observed values.", "quantifier": "as C110", "why_tests_cant": "As C110.", "anchors": ["src/api/oi_ensi.cpp:203-547"]}
{"id": "C112", "title": "The ensemble analysis uses the symmetric square root", "statement": "The departures of the analysed members from their mean are those of the background multiplied by the matrix T, the only symmetric positive semidefinite matrix with T T (I + Y' R^-1 Y / (n - 1)) = I, where Y are the members' departures at the chosen stations.", "quantifier": "as C110", "why_tests_cant": "A statement about a square root of a matrix of any size.", "anchors": ["src/api/oi_ensi.cpp:376-546"]}
{"id": "C113", "title": "The ensemble analysis does not extrapolate", "statement": "With extrapolation disabled the increment of each member at a point is limited by the member's own departures from the chosen observations: it lies between 0 (or the smallest departure, if negative) and the largest (or 0, if negative).", "quantifier": "as C110", "why_tests_cant": "Any number of members and observations.", "anchors": ["src/api/oi_ensi.cpp:505-546"]}
{"id": "C114", "title": "The ensemble analysis leaves the rest alone", "statement": "The result has the size of the background. Members with a missing value at some point keep all their values, and points without a usable observation keep theirs.", "quantifier": "all arguments of matching sizes, including missing and infinite values", "why_tests_cant": "Any ensemble and any pattern of missing values.", "anchors": ["src/api/oi_ensi.cpp:203-240", "src/api/oi_ensi.cpp:250-290"]}
{"id": "C115", "title": "The ensemble analysis is defined", "statement": "For arguments of matching sizes optimal_interpolation_ensi returns a result or raises the linear algebra library's runtime_error from a failed inversion; with finite values and non-zero error standard deviations it always returns a result.", "quantifier": "all arguments of matching sizes, at least one background point", "why_tests_cant": "No out-of-range access for any sizes; invertibility for all data.", "anchors": ["src/api/oi_ensi.cpp:113-562"]}
{"id": "C116", "title": "The ensemble analysis rejects arguments that do not fit", "statement": "optimal_interpolation_ensi raises invalid_argument for a negative max_points, different coordinate types, or a number of rows in any argument that differs from the number of points it belongs to. The Grid version, with at least one station and no empty argument, does so for a background whose first sizes differ from those of the grid, for numbers of observations, errors or members at the stations that differ from those of the stations or the ensemble, and for an empty grid.", "quantifier": "all arguments", "why_tests_cant": "All combinations of sizes.", "anchors": ["src/api/oi_ensi.cpp:123-150"]}
{"id": "C117", "title": "Grid version of the ensemble analysis", "statement": "The Grid version of optimal_interpolation_ensi gives at row y, column x exactly what the Points version gives at point y*X+x of the flattened grid, for each member, and raises the same errors.", "quantifier": "all grids with at least one observation", "why_tests_cant": "All grid shapes and ensemble sizes.", "anchors": ["src/api/oi_ensi.cpp:33-111"]}
{"id": "C118", "title": "The ensemble analysis never increases the spread and keeps a mean that agrees with the observations", "statement": "With extrapolation allowed, at every point the sample variance of the members after optimal_interpolation_ensi is at most that before it, and if every observed value equals the members' mean at its station then the mean of the members is unchanged.", "quantifier": "as C110, including points where nothing is done", "why_tests_cant": "As C110.", "anchors": ["src/api/oi_ensi.cpp:113-562"]}
{"id": "C119", "title": "Ensemble-based correlations: the analysis is the member-by-member linear analysis with the ensemble's correlations", "statement": "optimal_interpolation_ensi_multi_ebe returns, for every member that has values at all background and observation points, the background plus the background ratio times the weighted sum of that member's departures, where the weights solve the analysis equations with the correlations of the given ensembles (zero with a quantity that does not vary) multiplied by the localization, uniquely; without extrapolation the increment is limited to the range of the departures and zero. Members with missing values are returned unchanged.", "quantifier": "all sizes, ensembles, localizations, ratios, observations and backgrounds", "why_tests_cant": "Arbitrary ensembles, correlations and systems of equations.", "anchors": ["src/api/oi_ensi_multi.cpp:329-627"]}
{"id": "C120", "title": "Ensemble-based correlations: the analysis is defined", "statement": "With matching sizes and the incomplete members last, optimal_interpolation_ensi_multi_ebe returns an analysis or raises a runtime error (singular matrix); with a positive semidefinite localization and positive error ratios it always returns an analysis.", "quantifier": "all inputs of matching sizes, at least one background point or no observations", "why_tests_cant": "Absence of out-of-range accesses for all numbers of points and stations; positive definiteness of products of arbitrary correlations.", "anchors": ["src/api/oi_ensi_multi.cpp:421-445", "src/api/oi_ensi_multi.cpp:537-585"]}
{"id": "C121", "title": "Ensemble-based correlations: arguments that do not fit are rejected", "statement": "optimal_interpolation_ensi_multi_ebe raises invalid_argument for a negative max_points, different coordinate types, or a number of rows in any argument that differs from the number of points it belongs to. The Grid version, with at least one station and no empty argument, does so for any argument whose first sizes differ from those of the grid, the stations or the ensemble, and for an empty grid.", "quantifier": "all arguments", "why_tests_cant": "All combinations of sizes.", "anchors": ["src/api/oi_ensi_multi.cpp:341-360"]}
{"id": "C122", "title": "Ensemble-based correlations: Grid version", "statement": "The Grid version of optimal_interpolation_ensi_multi_ebe gives at row y, column x exactly what the Points version gives at point y*X+x of the flattened grid, for each member, and raises the same errors.", "quantifier": "all grids with at least one observation", "why_tests_cant": "All grid shapes and ensemble sizes.", "anchors": ["src/api/oi_ensi_multi.cpp:34-134"]}
{"id": "C123", "title": "Ensemble-based correlations: no spread or no departures, no change", "statement": "optimal_interpolation_ensi_multi_ebe returns the background unchanged at every point where the standard deviation of the correlation ensemble is at most 0.0013, and for every member whose background equals the observations at all stations.", "quantifier": "all ensembles and settings", "why_tests_cant": "Follows from uniqueness of the solution of arbitrary systems.", "anchors": ["src/api/oi_ensi_multi.cpp:525-536", "src/api/oi_ensi_multi.cpp:576-613"]}
{"id": "C124", "title": "Ensemble transform with ensemble correlations: mean, spread and members", "statement": "optimal_interpolation_ensi_multi_utem, with extrapolation allowed, returns at a point with chosen observations the background mean plus the point's ratio times the optimal interpolation of the departures of the observations from the station means, with correlations and covariances taken from the correlation ensemble (their standard deviations have divisor n, their covariances divisor n-1) and error ratios divided by the localization; the variance of the returned members is the background variance times the analysis error variance of the same interpolation, between 0 and the background value; and the members are the mean plus the background standard deviation times the standardized perturbations multiplied by the symmetric inverse square root of I + Z'R^-1 Z/(n-1). A point without chosen observations, a single valid member, or a failed eigenvalue decomposition leaves the background.", "quantifier": "all ensembles with finite values in the valid members, positive error ratios, any number of stations, points and members", "why_tests_cant": "Identity between the code's inverse/eigenvector computation and the interpolation equations for systems of every size.", "anchors": ["src/api/oi_ensi_multi.cpp:955-992", "src/api/oi_ensi_multi.cpp:1083-1291"]}
{"id": "C125", "title": "Ensemble transform with ensemble correlations: stations without spread change nothing", "statement": "Where the correlation ensemble does not vary at any chosen station (so that the stations carry no information), optimal_interpolation_ensi_multi_utem with extrapolation allowed returns the background members unchanged.", "quantifier": "all ensembles and settings", "why_tests_cant": "Depends on uniqueness of matrix square roots for every size.", "anchors": ["src/api/oi_ensi_multi.cpp:1083-1140", "src/api/oi_ensi_multi.cpp:1160-1291"]}
{"id": "C126", "title": "Ensemble transform with ensemble correlations: points without spread keep their background", "statement": "At a point where the correlation ensemble does not vary, optimal_interpolation_ensi_multi_utem keeps the background members (as optimal_interpolation_ensi_multi_ebe does).", "quantifier": "all ensembles and settings", "why_tests_cant": "All ensembles, any number of stations.", "anchors": ["src/api/oi_ensi_multi.cpp:1160-1291"]}
{"id": "C127", "title": "Ensemble transform with ensemble correlations: no extrapolation", "statement": "Without extrapolation, each member's increment in optimal_interpolation_ensi_multi_utem lies between zero and the departures of the observations from that member's background at the stations.", "quantifier": "all ensembles and settings", "why_tests_cant": "Holds or fails depending on the order of stations and members in linear indexing, for all sizes.", "anchors": ["src/api/oi_ensi_multi.cpp:1248-1285"]}
{"id": "C128", "title": "Ensemble transform with ensemble correlations: what is left alone", "statement": "optimal_interpolation_ensi_multi_utem returns as many rows and members as the background; members with a missing value anywhere in the four fields, and points without chosen observations, keep their background values.", "quantifier": "all inputs of matching sizes, including missing values", "why_tests_cant": "All patterns of missing values.", "anchors": ["src/api/oi_ensi_multi.cpp:905-953", "src/api/oi_ensi_multi.cpp:998-1080"]}
{"id": "C129", "title": "Ensemble transform with ensemble correlations: the analysis is defined", "statement": "With matching sizes optimal_interpolation_ensi_multi_utem returns an analysis or raises a runtime error when the inverse of a matrix fails; with finite values in the valid members, positive error ratios and known localization it always returns an analysis.", "quantifier": "all inputs of matching sizes, at least one background point or no observations", "why_tests_cant": "Absence of out-of-range accesses for all numbers of points and stations; positive definiteness for all data.", "anchors": ["src/api/oi_ensi_multi.cpp:955-992", "src/api/oi_ensi_multi.cpp:1091-1140"]}
{"id": "C130", "title": "Ensemble transform with ensemble correlations: arguments that do not fit are rejected", "statement": "optimal_interpolation_ensi_multi_utem raises invalid_argument for a negative max_points, different coordinate types, or a number of rows or values in any argument that differs from the number of points it belongs to. The Grid version, with at least one station and no empty argument, does so for any argument whose first sizes differ from those of the grid, the stations or the ensemble, and for an empty grid.", "quantifier": "all arguments", "why_tests_cant": "All combinations of sizes.", "anchors": ["src/api/oi_ensi_multi.cpp:862-905"]}
{"id": "C131", "title": "Ensemble transform with ensemble correlations: Grid version", "statement": "The Grid version of optimal_interpolation_ensi_multi_utem gives at row y, column x exactly what the Points version gives at point y*X+x of the flattened grid, for each member, and raises the same errors.", "quantifier": "all grids with at least one observation", "why_tests_cant": "All grid shapes and ensemble sizes.", "anchors": ["src/api/oi_ensi_multi.cpp:226-326"]}
{"id": "C132", "title": "Option strings: the last value wins", "statement": "An option string is split at spaces into words, the maximal runs of other characters; \"k=v\" gives key k the value v (everything after the first '='), \"k\" alone the value 1, and words with an empty key or value are ignored. After adding a string to a container of the client, each key has the value of the last word that gives it one, other keys keep their values, and every key has one value.", "quantifier": "all strings and all containers reachable by calls", "why_tests_cant": "All strings of any length and all previous contents.", "anchors": ["src/client/Util.cpp:234-255", "src/client/Options.cpp:7-27", "src/client/Options.cpp:46-58"]}
{"id": "C133", "title": "Option strings: text and container correspond", "statement": "Building a container of options from the text returned by toString gives a container with the same keys and values.", "quantifier": "all containers reachable by calls", "why_tests_cant": "All containers.", "anchors": ["src/client/Options.cpp:32-44"]}
{"id": "C134", "title": "Options: equality", "statement": "Two option containers compare equal exactly when they hold the same values for the same keys.", "quantifier": "all pairs of containers reachable by calls", "why_tests_cant": "All containers in all orders of insertion.", "anchors": ["src/client/Options.cpp:93-115", "src/client/Options.h:53-66"]}
{"id": "C135", "title": "Options: unread options are reported", "statement": "check() returns true exactly when every key in the container has been read since the container was last emptied.", "quantifier": "all histories of calls", "why_tests_cant": "All histories of calls.", "anchors": ["src/client/Options.cpp:28-30", "src/client/Options.cpp:67-92", "src/client/Options.h:53-66"]}
{"id": "C136", "title": "Variables: added options take effect", "statement": "Variable::add sets the units, standard name, minimum and maximum given in the options and leaves the others as they were.", "quantifier": "all variables and options", "why_tests_cant": "All combinations of options.", "anchors": ["src/client/Variable.cpp:81-97"]}
{"id": "C137", "title": "Client dates: conversions are inverse", "statement": "For every unix time with a date in the years 1400 to 9999, converting it to a date and a time of day and back gives the same unix time; and the unix time of a calendar date and time is 86400 times the number of days since 1 January 1970 plus the seconds of the day (also for negative times of day, which count backwards).", "quantifier": "all unix times; all dates in the years 1400-9999 and all times", "why_tests_cant": "All dates over 8600 years.", "anchors": ["src/client/Util.cpp:165-196"]}
{"id": "C138", "title": "Client dates: calendar date and time", "statement": "getDate and getTime give the Gregorian calendar date and the time of day of a unix time.", "quantifier": "all unix times", "why_tests_cant": "All unix times.", "anchors": ["src/client/Util.cpp:165-179"]}
{"id": "C139", "title": "Client dates: adding hours", "statement": "calcDate gives the date that is the whole number of days (rounded down) in the given hours after the given date.", "quantifier": "all dates in the years 1400-9999 and all finite numbers of hours", "why_tests_cant": "All dates and all numbers of hours, including negative and fractional ones.", "anchors": ["src/client/Util.cpp:219-237"]}
{"id": "C140", "title": "Help texts keep their words", "statement": "The words of a formatted description are the words of the title followed by the words of the message.", "quantifier": "all titles, messages and widths", "why_tests_cant": "All texts and widths.", "anchors": ["src/client/Util.cpp:286-327"]}
{"id": "C141", "title": "Help texts keep within the line length", "statement": "If every word fits, no line of a formatted description is longer than the given length, and all lines but the first are indented by the title length.", "quantifier": "all titles, messages and widths", "why_tests_cant": "All texts and widths.", "anchors": ["src/client/Util.cpp:286-327"]}
{"id": "C142", "title": "Client statistics agree with the library", "statement": "For every array and each of mean, min, median, max, std and sum, the client's calculateStat gives the library's calc_statistic of the array with -999 read as missing, with -999 for a missing result; likewise for quantiles with a level in [0,1].", "quantifier": "all arrays and statistics", "why_tests_cant": "All arrays.", "anchors": ["src/client/Util.cpp:328-412", "src/api/util.cpp:19-178"]}
{"id": "C143", "title": "Client statistics: missing results", "statement": "A statistic of the client is the missing value exactly when no value of the array is present.", "quantifier": "all arrays and statistics", "why_tests_cant": "All arrays.", "anchors": ["src/client/Util.cpp:328-412"]}
{"id": "C144", "title": "Client quantiles: levels", "statement": "With a finite quantile level, calculateStat reads outside its sorted array exactly when at least two values are present and the level is not in [0,1] (such as the default level -999); otherwise it returns a value.", "quantifier": "all arrays and finite levels", "why_tests_cant": "All arrays and levels; out-of-range reads do not show.", "anchors": ["src/client/Util.cpp:375-409"]}
{"id": "C145", "title": "Client interpolation agrees with the library", "statement": "The client's interpolate gives the same value as the library's for sorted knots.", "quantifier": "all sorted knots and values, all x", "why_tests_cant": "All curves.", "anchors": ["src/client/Util.cpp:523-553", "src/client/Util.cpp:640-679", "src/api/util.cpp:339-414"]}
{"id": "C146", "title": "Client locations are ordered", "statement": "Location::operator< and CmpIgnoreElevation are strict weak orders, as std::map requires; two locations are equivalent exactly when they are equal (operator==), respectively have the same latitude and longitude.", "quantifier": "all locations", "why_tests_cant": "All triples of locations.", "anchors": ["src/client/Location.cpp:3-25", "src/client/Location.cpp:47-54"]}
{"id": "C147", "title": "Client fields are arrays", "statement": "A new field holds the fill value everywhere; after setting an element that element has the new value and all others their old ones; the members of a grid point are its elements in order; and accessing an element outside the field stops the program instead of touching memory outside.", "quantifier": "all sizes, indices and values", "why_tests_cant": "All sizes and indices.", "anchors": ["src/client/Field.h:10-68", "src/client/Field.cpp:3-34"]}
{"id": "C148", "title": "Client fields: equality", "statement": "Two fields without NaN compare equal exactly when they have equal values at all positions.", "quantifier": "all pairs of fields", "why_tests_cant": "All pairs of fields of all sizes.", "anchors": ["src/client/Field.cpp:24-34"]}
{"id": "C149", "title": "Accumulate: running sums", "statement": "The accumulate calibrator gives, at each point and member and for each time t, the sum of the values at times 1 to t (0 at the first time), missing as soon as one of them is missing.", "quantifier": "all files (numbers of times, points and members) and values", "why_tests_cant": "All sizes of fields, all values and all ensembles.", "anchors": ["src/client/Calibrator/Accumulate.cpp:8-47"]}
{"id": "C150", "title": "Deaccumulate: differences, inverse of accumulate", "statement": "The deaccumulate calibrator gives the value at time t minus the value `window` times earlier, missing for the first `window` times and where either is missing. With window 1 it recovers from accumulated values the original ones (after the first time), provided no sum is -999.", "quantifier": "all files, values and windows", "why_tests_cant": "All sizes of fields, all values and all ensembles.", "anchors": ["src/client/Calibrator/Deaccumulate.cpp:10-49", "src/client/Calibrator/Accumulate.cpp:8-47"]}
{"id": "C151", "title": "Sort: members in increasing order, missing last", "statement": "The sort calibrator replaces the members of each point by the present ones in increasing order followed by missing values.", "quantifier": "all files and values", "why_tests_cant": "All sizes of fields, all values and all ensembles.", "anchors": ["src/client/Calibrator/Sort.cpp:11-47"]}
{"id": "C152", "title": "Threshold: value of the interval", "statement": "The threshold calibrator replaces each present value by the one for the number of thresholds it has passed; a value equal to a threshold passes it unless that threshold's `equals` is 1. Missing values stay. Lists of the wrong length stop the program.", "quantifier": "all increasing thresholds, values, equals and files", "why_tests_cant": "All sizes of fields, all values and all ensembles.", "anchors": ["src/client/Calibrator/Threshold.cpp:7-58"]}
{"id": "C153", "title": "Quality control clamps", "statement": "The qc calibrator moves present values below the minimum to the minimum and above the maximum to the maximum, and leaves all other values unchanged; a bound that is not given has no effect.", "quantifier": "all bounds and files", "why_tests_cant": "All sizes of fields, all values and all ensembles.", "anchors": ["src/client/Calibrator/Qc.cpp:18-46"]}
{"id": "C154", "title": "Cloud: precipitation implies clouds", "statement": "The cloud calibrator raises the cloud cover to the given value where precipitation is positive and the cover is lower, and changes nothing else, in particular nothing where either is missing.", "quantifier": "all files and values", "why_tests_cant": "All sizes of fields, all values and all ensembles.", "anchors": ["src/client/Calibrator/Cloud.cpp:12-46"]}
{"id": "C155", "title": "Phase: precipitation phase from temperature", "statement": "As documented: the phase is none when precipitation is below the limit, else rain above the rain threshold, sleet between the thresholds and snow below the snow threshold; missing when temperature or precipitation is.", "quantifier": "all files, thresholds and values", "why_tests_cant": "All sizes of fields, all values and all ensembles.", "anchors": ["src/client/Calibrator/Phase.cpp:18-62", "src/client/Calibrator/Phase.cpp:64-82"]}
{"id": "C156", "title": "Window: statistics over time", "statement": "The window calibrator gives at each time the statistic of the present values in the window of the given length (ending at that time if `before`, else centred with the extra time after it) cut off at the ends of the file; missing near the ends with edgeMissing, and when any value is missing with keepMissing. A length below 1 or a quantile outside [0,1] stops the program.", "quantifier": "all lengths, files, statistics and values", "why_tests_cant": "All sizes of fields, all values and all ensembles.", "anchors": ["src/client/Calibrator/Window.cpp:4-105"]}
{"id": "C157", "title": "Wind direction: factor from a Fourier series", "statement": "The windDirection calibrator multiplies wind speeds by the value of the Fourier series with the nine parameters at the wind direction, by 0 if that is negative; a missing direction, wind or parameter leaves the wind unchanged.", "quantifier": "all files, parameters and values, for any sine and cosine", "why_tests_cant": "All sizes of fields, all values and all ensembles.", "anchors": ["src/client/Calibrator/WindDirection.cpp:15-89"]}
{"id": "C158", "title": "Regression: polynomial or linear combination", "statement": "The regression calibrator gives the polynomial of the value with the parameters as coefficients, or the sum of the parameters times the predictors, and the missing value when the value, a parameter or a predictor is missing.", "quantifier": "all files, orders, predictors and values", "why_tests_cant": "All sizes of fields, all values and all ensembles.", "anchors": ["src/client/Calibrator/Regression.cpp:16-102"]}
{"id": "C159", "title": "Regression: training minimises the squared error", "statement": "Training gives the mean observation (order 0), the line (order 1) or the line through the origin (no intercept) with the least sum of squared errors over the observations that are present with an ensemble mean. Unsupported orders, predictors and data without pairs stop the program.", "quantifier": "all training data and all competing coefficients", "why_tests_cant": "All data sets and all lines.", "anchors": ["src/client/Calibrator/Regression.cpp:104-170"]}
{"id": "C160", "title": "Mask: points near locations", "statement": "The mask calibrator keeps the values of points that are closer to some location than its radius at that time and makes the others missing (or conversely with keep=0).", "quantifier": "all files, locations, distances and radii", "why_tests_cant": "All sizes of fields, all values and all ensembles.", "anchors": ["src/client/Calibrator/Mask.cpp:13-75"]}
{"id": "C161", "title": "Override: points near locations take their values", "statement": "The override calibrator gives each point the value of the last location whose nearest point is inside the grid and within the radius in both directions (and, with maxElevDiff, whose elevation differs by less), if its value is present; other points are unchanged. Parameter files without locations or with another number of parameters stop the program.", "quantifier": "all files, locations, radii and values", "why_tests_cant": "All sizes of fields, all values and all ensembles.", "anchors": ["src/client/Calibrator/Override.cpp:15-76"]}
{"id": "C162", "title": "Shuffle: the order of the members is kept", "statement": "Calibrator::shuffle returns the new values in an order in which a member that was smaller than another is not larger than it now, whatever order std::sort gives to ties; with missing values or different lengths the new values are unchanged.", "quantifier": "all ensembles", "why_tests_cant": "All ensembles and all tie-breaking orders.", "anchors": ["src/client/Calibrator/Calibrator.cpp:105-130"]}
{"id": "C163", "title": "Client: tree search finds a nearest grid point", "statement": "KDTree::getNearestNeighbour returns the indices of a point of the grid with present coordinates than which no other is closer (by Util::getDistance); a grid without such points stops the program.", "quantifier": "all grids, coordinates, search points and orders that std::sort gives to ties", "why_tests_cant": "All grids, with points anywhere on the earth.", "anchors": ["src/client/KDTree.cpp:29-183", "src/client/Util.cpp:107-138"]}
{"id": "C164", "title": "Client: brute force search finds a nearest grid point", "statement": "The search that compares with all grid points returns a nearest one, and -999 if no point has coordinates.", "quantifier": "all grids, coordinates and non-negative distances", "why_tests_cant": "All grids, coordinates and values.", "anchors": ["src/client/Downscaler/Downscaler.cpp:19-56"]}
{"id": "C165", "title": "Client: nearest points of a whole grid", "statement": "Downscaler::getNearestNeighbour gives for each output point with coordinates a nearest input point, and -999 for the others; when the two grids are the same it gives each point itself.", "quantifier": "all pairs of grids", "why_tests_cant": "All grids, coordinates and values.", "anchors": ["src/client/Downscaler/Downscaler.cpp:99-201"]}
{"id": "C166", "title": "Client: the cache of nearest points is transparent", "statement": "Whatever files were created, copied and given other coordinates, and whatever nearest points were found before, the nearest points are those that would be found without the cache.", "quantifier": "all sequences of operations on any number of files", "why_tests_cant": "All histories of a global cache.", "anchors": ["src/client/Downscaler/Downscaler.cpp:99-121", "src/client/Downscaler/Downscaler.cpp:203-226", "src/client/File/File.cpp:222-284"]}
{"id": "C167", "title": "Client: coordinates of a file", "statement": "setLats and setLons give a file the coordinates, with longitudes moved by a multiple of 360 to [-180, 180]; coordinates of another size than those the file has are refused with `false`, and coordinates out of range (and -999) stop the program.", "quantifier": "all coordinates and sizes", "why_tests_cant": "All grids, coordinates and values.", "anchors": ["src/client/File/File.cpp:222-284"]}
{"id": "C168", "title": "Client: nearest neighbour downscaler", "statement": "The nearestNeighbour downscaler gives every output point the value of its nearest input point at the same time and member, and missing if it has no coordinates; with fewer input members the program stops; with another number of times it returns false and changes nothing.", "quantifier": "all fields and grids", "why_tests_cant": "All grids, coordinates and values.", "anchors": ["src/client/Downscaler/NearestNeighbour.cpp:11-60", "src/client/Downscaler/Downscaler.cpp:58-75"]}
{"id": "C169", "title": "Client: upscaling aggregates the points that are closest", "statement": "The upscale downscaler gives each output point the statistic of the present values of exactly those input points for which it is the nearest output point, and missing when there are none.", "quantifier": "all fields, grids and statistics", "why_tests_cant": "All grids, coordinates and values.", "anchors": ["src/client/Downscaler/Upscale.cpp:26-69"]}
{"id": "C170", "title": "Client: smart downscaler averages points of similar elevation", "statement": "The smart downscaler gives each output point the mean of the present values of the `num` points within `radius` of its nearest neighbour whose elevations differ least from its own; of the nearest neighbour alone if the output elevation is missing or that neighbour's elevation is within minElevDiff.", "quantifier": "all fields, grids, elevations and orders that std::sort gives to ties", "why_tests_cant": "All grids, coordinates and values.", "anchors": ["src/client/Downscaler/Smart.cpp:18-148"]}
{"id": "C171", "title": "Client: pressure downscaler follows the barometric formula", "statement": "The pressure downscaler multiplies the pressure of the nearest point by exp(-1.21e-4 times the elevation difference), copies it if an elevation is missing, gives missing for a missing pressure, and stops the program for a point without coordinates.", "quantifier": "all fields, grids and elevations, for any exponential function", "why_tests_cant": "All grids, coordinates and values.", "anchors": ["src/client/Downscaler/Pressure.cpp:11-71"]}
{"id": "C172", "title": "Client: neighbourhood calibrator", "statement": "The neighbourhood calibrator gives every point of every member the statistic of the present values in the square of the given radius around it, whether or not the fast algorithms are used; medians and quantiles with approx=1 lie between the smallest and the largest of these values; a point without present values around it is missing.  Bad options and location-dependent parameter files stop the program.", "quantifier": "all fields, radii (option or parameter file), statistics and quantiles", "why_tests_cant": "All fields, parameters and options.", "anchors": ["src/client/Calibrator/Neighbourhood.cpp:7-288"]}
{"id": "C173", "title": "Client: qq calibrator maps along the curve", "statement": "The qq calibrator interpolates forecasts inside the curve of a point linearly, and continues outside the curve from the nearest end with the slope of the extrapolation policy; missing forecasts become -999; points with a missing parameter are left alone; extra points are merged into the sorted observations and forecasts.", "quantifier": "all fields, parameter sets, extra points and policies", "why_tests_cant": "All fields, parameters and options.", "anchors": ["src/client/Calibrator/Qq.cpp:15-157", "src/client/Calibrator/Qq.cpp:251-269"]}
{"id": "C174", "title": "Client: qq calibrator keeps the order of members", "statement": "With increasing forecasts and sorted observations in the parameters, a member that is not greater than another at the same point is not greater after calibration.", "quantifier": "all fields, parameter sets with at least two pairs, extra points and policies", "why_tests_cant": "All fields, parameters and options.", "anchors": ["src/client/Calibrator/Qq.cpp:66-152"]}
{"id": "C175", "title": "Client: qq calibrator with equal observations and forecasts changes nothing", "statement": "When observations and forecasts of a parameter set are the same sorted numbers, the calibrator leaves every value as it is, for every policy but 'zero'.", "quantifier": "all fields and parameter sets", "why_tests_cant": "All fields, parameters and options.", "anchors": ["src/client/Calibrator/Qq.cpp:66-152"]}
{"id": "C176", "title": "Client: training of the qq calibrator", "statement": "Training keeps the sorted observations and the sorted ensemble means of the cases that have both, or the wanted quantiles of them, and merges the extra points.", "quantifier": "all training data, quantiles and extra points", "why_tests_cant": "All fields, parameters and options.", "anchors": ["src/client/Calibrator/Qq.cpp:159-231"]}
{"id": "C177", "title": "Client: qq calibration of the training data gives the observation of the same rank", "statement": "A forecast that equals the k-th smallest ensemble mean of the training data is calibrated to the k-th smallest observation.", "quantifier": "all training data with distinct ensemble means, all policies", "why_tests_cant": "All fields, parameters and options.", "anchors": ["src/client/Calibrator/Qq.cpp:66-231"]}
{"id": "C178", "title": "Client: elevation gradient of the gradient downscaler", "statement": "With saveGradient=elev every output element holds the constant gradient if one is given; otherwise the slope of the least-squares line of value (or its logarithm) against elevation over the points of the neighbourhood that have both and enough land, provided there are enough points with a sufficient range of elevations; otherwise the default gradient; kept within the given limits.", "quantifier": "all grids, fields (with missing values), elevations, land fractions and options", "why_tests_cant": "All grids, fields and options.", "anchors": ["src/client/Downscaler/Gradient.cpp:386-458"]}
{"id": "C179", "title": "Client: land-fraction gradient of the gradient downscaler", "statement": "With saveGradient=laf every output element holds the weighted mean over the search radii of the difference between the values at the points of greatest and smallest land fraction, moved to the same elevation, per land fraction, over the neighbourhoods with a sufficient range of land fractions and enough sea; within the given limits and whatever the order of the radii.", "quantifier": "all grids, fields (with missing values), elevations, land fractions and options", "why_tests_cant": "All grids, fields and options.", "anchors": ["src/client/Downscaler/Gradient.cpp:276-385"]}
{"id": "C180", "title": "Client: values of the gradient downscaler", "statement": "Every output element is the value of the nearest neighbour plus the elevation gradient times the difference in elevation (or times the exponential of this, with logTransform) plus the land-fraction gradient times the difference in land fraction, each where the data are present; it is the value of the nearest neighbour if the result is not possible for the variable; a missing value stays missing; a point without coordinates stops the program.", "quantifier": "all grids, fields (with missing values), elevations, land fractions, bounds and options", "why_tests_cant": "All grids, fields and options.", "anchors": ["src/client/Downscaler/Gradient.cpp:66-220", "src/client/Downscaler/NearestNeighbour.cpp:45-108"]}
{"id": "C181", "title": "Client: limit of the gradient downscaler", "statement": "With limit=1 the value is moved to the nearest value in the range of the neighbourhood: it is never outside this range, and a value inside it is not changed.", "quantifier": "all grids, fields (with missing values) and options", "why_tests_cant": "All grids, fields and options.", "anchors": ["src/client/Downscaler/Gradient.cpp:192-212"]}
{"id": "C182", "title": "Client: parameters of a place and time", "statement": "After any calls of setParameters, getParameters for a place and time returns the parameter set of the last call about this place (whatever the elevation) and time, or the empty set if there was none; if all calls were about time 0 its sets are used for all times; with cycling the times are repeated with the period of the file, and otherwise a time after the last one stops the program, as does a negative time.", "quantifier": "all sequences of calls with times that are not negative, all times asked for, and places with coordinates that are numbers", "why_tests_cant": "All sequences of calls and files.", "anchors": ["src/client/ParameterFile/ParameterFile.cpp:94-140", "src/client/ParameterFile/ParameterFile.cpp:186-197"]}
{"id": "C183", "title": "Client: parameter files with a single place", "statement": "If all parameters are about the same place, asking for those of the nearest place gives them wherever one asks; without coordinates they are also the global parameters of the file. Asking for global parameters of a file with several places, or one with coordinates, stops the program. No call has undefined behaviour.", "quantifier": "all sequences of calls, times and places", "why_tests_cant": "All sequences of calls and files.", "anchors": ["src/client/ParameterFile/ParameterFile.cpp:51-140", "src/client/ParameterFile/ParameterFile.cpp:223-231"]}
{"id": "C184", "title": "Client: nearest place of a parameter file", "statement": "Among several places, the parameters returned for a place and time are those of a nearest place that has parameters for this time; the empty set only if no place has any.", "quantifier": "all sequences of calls (also after the tree was computed), times and places", "why_tests_cant": "All sequences of calls and files.", "anchors": ["src/client/ParameterFile/ParameterFile.cpp:21-35", "src/client/ParameterFile/ParameterFile.cpp:142-184"]}
{"id": "C185", "title": "Client: number of parameters and times of a parameter file", "statement": "If all parameter sets have the same size, getNumParameters is this size; if it is positive, all parameter sets that are not empty have this size; it is missing only if there are two sizes. getTimes gives all times from 0 to the last.", "quantifier": "all sequences of calls", "why_tests_cant": "All sequences of calls and files.", "anchors": ["src/client/ParameterFile/ParameterFile.cpp:207-216", "src/client/ParameterFile/ParameterFile.cpp:237-257"]}
{"id": "C186", "title": "Client: reading a text parameter file", "statement": "A text file with a header of column names and rows of numbers is read as the parameter sets of its rows, in order: the columns time, lat, lon and elev, wherever they are, give time and place, the other columns the parameters; comments are skipped; without a time the row is about time 0, without a place about no place. The times of the file are the times of its rows, increasing. This holds whether or not the file ends with a newline.", "quantifier": "all tables, separated by any white space, and all readers of numbers", "why_tests_cant": "All sequences of calls and files.", "anchors": ["src/client/ParameterFile/Text.cpp:10-145"]}
{"id": "C187", "title": "Client: rejected text parameter files", "statement": "A text file is rejected if it has some but not all of the columns lat, lon and elev, if it has no header or no row, if it has several rows but neither times nor places, and if a row has another number of columns than the header.", "quantifier": "all tables, separated by any white space, and all readers of numbers", "why_tests_cant": "All sequences of calls and files.", "anchors": ["src/client/ParameterFile/Text.cpp:52-57", "src/client/ParameterFile/Text.cpp:105-132"]}
{"id": "C188", "title": "Client: writing and reading text parameter files", "statement": "A parameter file that was written can be read, with the same result.", "quantifier": "all parameter files", "why_tests_cant": "All sequences of calls and files.", "anchors": ["src/client/ParameterFile/Text.cpp:172-210"]}
{"id": "C189", "title": "Client: file names on the command line", "statement": "On a command line without empty arguments, the first argument is the input; the arguments with '=' that follow are its options; the next argument is the output with its options, unless it starts with '-': then the output is the input, with the same options. The rest of the command line starts at the first argument that is not read in this way.", "quantifier": "all command lines without empty arguments", "why_tests_cant": "All command lines.", "anchors": ["src/client/Setup.cpp:8-40"]}
{"id": "C190", "title": "Client: opening input and output files", "statement": "There are as many inputs as outputs and at least one of each, in the order of their names; a name is opened once, so that equal names share the file; inputs are opened with the input options and outputs with the output options; every output is writable. The program stops if the numbers differ, if there are none, if a file is not recognized, or if an input is its own output and the options differ.", "quantifier": "all names, options, expansions of names, and files", "why_tests_cant": "All command lines.", "anchors": ["src/client/Setup.cpp:41-88"]}
{"id": "C191", "title": "Client: reading the command line always ends", "statement": "Reading the rest of the command line ends after a number of passes of the loop that is linear in the number of arguments, with configurations or with an error.", "quantifier": "all command lines; downscalers, calibrators and parameter files that are set up or stop the program", "why_tests_cant": "All command lines.", "anchors": ["src/client/Setup.cpp:90-726"]}
{"id": "C192", "title": "Client: nothing on the command line is invented", "statement": "If reading ends without error, all arguments were read, the output variables have different names, and each is a proper name that follows '-v'. The input variable has the same name or one that follows '-vi'; the downscaler is the default one or follows '-d'; calibrators follow '-c'; every option was given by some argument.", "quantifier": "all command lines", "why_tests_cant": "All command lines.", "anchors": ["src/client/Setup.cpp:90-726"]}
{"id": "C193", "title": "Client: what is asked for on the command line is set up", "statement": "For a command line with variables, each with options, perhaps an input variable with options, perhaps a downscaler with options, and any number of calibrators with options and perhaps a parameter file with options, the configurations are exactly these, in this order, where a variable that comes again is ignored. The input is found in the input file, else under an alias, else, if input and output are the same file, among the variables before it; if it is nowhere the program stops, unless the downscaler is 'bypass'.", "quantifier": "all such command lines and input files", "why_tests_cant": "All command lines.", "anchors": ["src/client/Setup.cpp:115-726"]}
{"id": "C194", "title": "Client: command lines that are errors", "statement": "The program stops if there is no variable, if '-v', '-vi', '-d', '-c' or '-p' is the last argument, if a name of a variable starts with '-', if '-p' follows a variable, and if there is an input variable only; whatever variables come before.", "quantifier": "all command lines with any number of complete variables before the error", "why_tests_cant": "All command lines.", "anchors": ["src/client/Setup.cpp:115-260", "src/client/Setup.cpp:700-726"]}
{"id": "C195", "title": "Client: parameter files on the command line", "statement": "A parameter file has the options that follow it. It must have a type, or else the program stops. A parameter file after '-d' is used for the downscaler.", "quantifier": "all command lines", "why_tests_cant": "All command lines.", "anchors": ["src/client/Setup.cpp:504-570", "src/client/Setup.cpp:612-700"]}
{"id": "C196", "title": "Client: distribution calibrators give the quantiles of the fitted distribution in the order of the members", "statement": "For each point and time, if all parameters are present and the distribution has all its quantiles, the members become the quantiles of the fitted distribution at the levels (e + 1/2) / n, rearranged so that a larger raw member does not get a smaller value. If a quantile is missing the members are unchanged. The distribution is: for gaussian, normal with the mean of the ensemble and a standard deviation exp(a + b spread); for bct, Box-Cox t with parameters from the mean (at most 100) and the standard deviation; for zaga, zero-adjusted gamma with parameters from the mean (at most the limit) and the fraction of members at most the threshold. Other points and the sizes are unchanged.", "quantifier": "all fields, parameters and distributions; no neighbourhood and no time window; values that are not negative (bct, zaga)", "why_tests_cant": "All fields, parameters and distributions.", "anchors": ["src/client/Calibrator/Gaussian.cpp:23-147", "src/client/Calibrator/Bct.cpp:18-193", "src/client/Calibrator/Zaga.cpp:48-294"]}
{"id": "C197", "title": "Client: bct quantiles belong to the truncated Box-Cox t-distribution", "statement": "With mu > 0, the value of level p is positive, and its z-score has probability p under Student's t-distribution cut where values would be negative, for nu positive, zero and negative.", "quantifier": "all parameters, means, standard deviations and levels between 0 and 1", "why_tests_cant": "All fields, parameters and distributions.", "anchors": ["src/client/Calibrator/Bct.cpp:124-193"]}
{"id": "C198", "title": "Client: distribution calibrators do not invent values and use raw values only", "statement": "An ensemble with missing members is left as it is. The values at a point depend only on the raw values in its neighbourhood.", "quantifier": "all fields, parameters and distributions", "why_tests_cant": "All fields, parameters and distributions.", "anchors": ["src/client/Calibrator/Gaussian.cpp:47-109", "src/client/Calibrator/Bct.cpp:40-118", "src/client/Calibrator/Zaga.cpp:108-205"]}
{"id": "C199", "title": "Client: distribution functions and quantiles of the calibrators belong together", "statement": "zaga: the distribution function is between 0 and 1, does not decrease, is P0 at 0 and P0 + (1 - P0) G(x) above; the quantile of level p is at most x exactly if p is at most the probability of x; both are missing if parameters are missing. gaussian: distribution function and quantiles are those of the normal distribution with the same mean and standard deviation.", "quantifier": "all parameters, means, fractions, values and levels", "why_tests_cant": "All fields, parameters and distributions.", "anchors": ["src/client/Calibrator/Gaussian.cpp:113-187", "src/client/Calibrator/Zaga.cpp:236-397"]}
{"id": "C200", "title": "Client: zaga probability of precipitation and quantile fields", "statement": "With a variable for the probability, each member of it becomes the probability of more than the threshold, from the amounts of all members in the neighbourhood summed over the time window; times without full window become missing; points with a missing value in neighbourhood and window are unchanged. The low, middle and high fields become the quantiles of the same distribution, and are unchanged for times without full window.", "quantifier": "all fields with values that are not negative, neighbourhoods, windows, parameters", "why_tests_cant": "All fields, parameters and distributions.", "anchors": ["src/client/Calibrator/Zaga.cpp:48-234"]}
{"id": "C201", "title": "Client: zaga skips times without full window", "statement": "With a window of six hours, the calibrated precipitation is unchanged or missing for times without full window.", "quantifier": "all fields", "why_tests_cant": "All fields, parameters and distributions.", "anchors": ["src/client/Calibrator/Zaga.cpp:55-62", "src/client/Calibrator/Zaga.cpp:100-131"]}
{"id": "C202", "title": "Client: zaga is trained with the predictors used in calibration", "statement": "The predictors of an ensemble in training are its mean and the fraction of its members at most the threshold, without missing members; without members the program stops.", "quantifier": "all ensembles", "why_tests_cant": "All fields, parameters and distributions.", "anchors": ["src/client/Calibrator/Zaga.cpp:399-428"]}
{"id": "C203", "title": "Client: wind, humidity and pressure diagnostics are computed point by point", "statement": "The diagnosed field has, at each time, place and member, the function of the inputs at the same time, place and member if they are present, and is unchanged where one is missing. For the wet bulb temperature the pressure is that of the pressure variable, or the one at the elevation of the place if there is none.", "quantifier": "all functions, fields and sizes", "why_tests_cant": "All fields and values.", "anchors": ["src/client/Calibrator/DiagnoseWind.cpp", "src/client/Calibrator/DiagnoseHumidity.cpp", "src/client/Calibrator/Qnh.cpp"]}
{"id": "C204", "title": "Client: diagnostics that cannot be computed are rejected", "statement": "A diagnostic with an unknown name, without the names of its inputs, with inputs that are not in the file, or that needs elevations the file does not have, stops the program.", "quantifier": "all names and files", "why_tests_cant": "All fields and values.", "anchors": ["src/client/Calibrator/DiagnoseWind.cpp", "src/client/Calibrator/DiagnoseHumidity.cpp"]}
{"id": "C205", "title": "Client: wind components and speed and direction are inverse to each other", "statement": "Speed and direction of the components of a speed s and direction d are s and, if s is positive, an angle within 2/100000 degrees of d. The components of the speed and direction of x and y differ from x and y by at most s 6/10^7.", "quantifier": "all real speeds, directions and components", "why_tests_cant": "All fields and values.", "anchors": ["src/client/Calibrator/DiagnoseWind.cpp"]}
{"id": "C206", "title": "Client: relative humidity", "statement": "Relative humidity is between 0 and 1, is 1 if the dew point is at least the temperature, does not decrease with the dew point, is the library's function for present values and missing for missing ones.", "quantifier": "all temperatures and dew points", "why_tests_cant": "All fields and values.", "anchors": ["src/client/Calibrator/DiagnoseHumidity.cpp"]}
{"id": "C207", "title": "Client: dew point, wet bulb temperature and qnh agree with the library", "statement": "For present numbers the client's functions give what the library's functions give; for missing input they give missing.", "quantifier": "all real values", "why_tests_cant": "All fields and values.", "anchors": ["src/client/Calibrator/DiagnoseHumidity.cpp", "src/client/Calibrator/Qnh.cpp", "src/api/diagnostics.cpp"]}
{"id": "C208", "title": "Client: the coastal calibrator uses raw neighbours and the parameters of the place", "statement": "The value at a point becomes a + b v + c g with the parameters a, b, c of the place. v is the raw value at the neighbour with the least land, or at the point itself if so asked. g is the change of the raw values per land fraction between the neighbours with least and most land if their fractions differ by more than the limit, else 0. The program stops without parameters, with a file independent of places, or with missing values.", "quantifier": "all fields, fractions, radii and parameters", "why_tests_cant": "All fields and values.", "anchors": ["src/client/Calibrator/Coastal.cpp"]}
{"id": "C209", "title": "Client: the altitude calibrator writes the elevations of the nearest places", "statement": "Each point of the elevation field becomes the elevation of the place nearest to it among those with parameters at the first time, or missing if there is none. With a file independent of places the program stops.", "quantifier": "all parameter files with places, and grids", "why_tests_cant": "All fields and values.", "anchors": ["src/client/Calibrator/Altitude.cpp"]}
{"id":"C210","title":"Client: the bilinear downscaler interpolates within the grid","statement":"On a grid of latitudes and longitudes in order, a location within a cell gets the bilinear interpolation of the four corners at its relative position, and a location beyond the grid gets the value of the nearest grid point. If a corner is missing the fields get a missing value, the single grid keeps the nearest value.","quantifier":"all rising or falling latitudes and longitudes, locations and fields","why_tests_cant":"All grids and values.","anchors":["src/client/Downscaler/Bilinear.cpp"]}
{"id":"C211","title":"Client: bilinear values stay within the values of a cell at the nearest point","statement":"On any grid, skewed ones included, each value written is that of the nearest grid point, or an average with weights from the unit square of the corners of a cell that has the nearest grid point as a corner, or missing if one of these is missing.","quantifier":"all grids, locations and fields for which the program ends","why_tests_cant":"All grids and values.","anchors":["src/client/Downscaler/Bilinear.cpp"]}
{"id":"C212","title":"Client: the bilinear downscaler reads only within its grids","statement":"The program ends with output fields or stops with an error; it does not read outside of the input fields, the grids or the map of nearest points.","quantifier":"all grids, locations and fields","why_tests_cant":"All grids and values.","anchors":["src/client/Downscaler/Bilinear.cpp"]}
{"id":"C213","title":"Client: bilinear downscaling onto the same grid changes nothing","statement":"If the output grid is the input grid, the output field is the input field.","quantifier":"all grids with rising coordinates, and fields","why_tests_cant":"All grids and values.","anchors":["src/client/Downscaler/Bilinear.cpp"]}
{"id":"C214","title":"Client: the covariance of two locations in kriging","statement":"The covariance is symmetric, between 0 and 1, is 1 for the same place and 0 from the radius or the largest elevation difference on, and does not grow with distance or elevation difference; if coordinates or elevation of one location are missing it is missing.","quantifier":"all pairs of locations and options, both weighting functions","why_tests_cant":"All stations, grids and values.","anchors":["src/client/Calibrator/Kriging.cpp"]}
{"id":"C215","title":"Client: kriging applies the solution of the kriging equations","statement":"Each present value is corrected by the sum of the stations' biases times weights that solve the linear equations with the covariances of the stations (reduced by a factor off the diagonal) and with the place; values that no station influences, and missing values, do not change. The mean of the bias is taken as 0 for add and subtract, 1 for multiply and divide.","quantifier":"all stations, grids, operators and fields","why_tests_cant":"All stations, grids and values.","anchors":["src/client/Calibrator/Kriging.cpp"]}
{"id":"C216","title":"Client: biases that mean no correction leave the fields as they are","statement":"If all stations have the bias 0 (add, subtract) or 1 (multiply, divide), or no parameters, kriging changes nothing.","quantifier":"all stations, grids, operators and fields","why_tests_cant":"All stations, grids and values.","anchors":["src/client/Calibrator/Kriging.cpp"]}
{"id":"C217","title":"Client: kriging gives the full bias at the place of a station","statement":"A grid point at the place of a station is corrected by exactly the bias of that station.","quantifier":"all stations, grids and fields","why_tests_cant":"All stations, grids and values.","anchors":["src/client/Calibrator/Kriging.cpp"]}
{"id":"C218","title":"Client: the auxiliary variable weights the kriging of each member","statement":"The weight of a member at a time is the share of the present values of the auxiliary variable of that member, within the time window and the file, that lie in the range; 1 if none is present. It is between 0 and 1, and the correction of the member is scaled by it.","quantifier":"all fields, ranges, windows and members","why_tests_cant":"All stations, grids and values.","anchors":["src/client/Calibrator/Kriging.cpp"]}
{"id":"C219","title":"Client: cross validation leaves out the nearest station","statement":"With cross validation the correction at a point is that of kriging without the station with the greatest covariance; its bias has no influence.","quantifier":"all stations, grids and fields","why_tests_cant":"All stations, grids and values.","anchors":["src/client/Calibrator/Kriging.cpp"]}
{"id":"C220","title":"Client: stations without coordinates have no influence on kriging","statement":"A station whose coordinates or elevation are missing does not change the result.","quantifier":"all stations, grids and fields","why_tests_cant":"All stations, grids and values.","anchors":["src/client/Calibrator/Kriging.cpp"]}
{"id":"C221","title":"Client: the trained bias removes the mean error","statement":"The trained bias, applied to the ensemble means of the training data, makes their sum that of the observations. Without valid data the bias is one that corrects nothing.","quantifier":"all training data and operators","why_tests_cant":"All stations, grids and values.","anchors":["src/client/Calibrator/Kriging.cpp"]}
{"id":"C222","title":"Client: the correlation of a station and a place in optimal interpolation","statement":"The correlation is between 0 and 1, is 1 at the same place with the same elevation and land fraction, is the same in both directions, and does not grow with distance, elevation difference or land fraction difference. A station without elevation has correlation 0 if a vertical length is given.","quantifier":"all places, options and both correlation functions","why_tests_cant":"All stations, grids and values.","anchors":["src/client/Calibrator/Oi.cpp"]}
{"id":"C223","title":"Client: which stations optimal interpolation considers at a point","statement":"A station is considered at a point if its observation is present, it is not ruled out by elevation or land fraction, it is within the localization radius and its correlation exceeds minRho. Points at the same distance, with the same correlation, are treated alike.","quantifier":"all stations, grids and points","why_tests_cant":"All stations, grids and values.","anchors":["src/client/Calibrator/Oi.cpp"]}
{"id":"C224","title":"Client: optimal interpolation uses the best stations","statement":"At most maxLocations stations are used at a point, all if there are no more, and none left out has a greater correlation than one used; with cross validation the station with the greatest correlation is left out first.","quantifier":"all lists of stations and limits","why_tests_cant":"All stations, grids and values.","anchors":["src/client/Calibrator/Oi.cpp"]}
{"id":"C225","title":"Client: the analysis of optimal interpolation","statement":"In single-member mode each present value becomes the background plus the sum of the departures of the used stations' observations from the background at the stations, times weights that solve the equations with the correlations of the stations, the error variances on the diagonal, and the correlations with the place. Without stations the value does not change (or is missing if differences are stored).","quantifier":"all stations, grids, times, members and fields","why_tests_cant":"All stations, grids and values.","anchors":["src/client/Calibrator/Oi.cpp"]}
{"id":"C226","title":"Client: optimal interpolation with one station","statement":"With one station a value of a member without missing values, at a point that the station reaches, becomes the background plus k times the departure of the observation from the background at the station, where k is the correlation divided by 1 plus the error variance, so between 0 and 1.","quantifier":"all stations, grids, times, members and fields","why_tests_cant":"All stations, grids and values.","anchors":["src/client/Calibrator/Oi.cpp"]}
{"id":"C227","title":"Client: optimal interpolation does not change points it cannot place","statement":"A grid point without coordinates keeps its value. If no observation is present, all points keep their values.","quantifier":"all stations, grids and fields","why_tests_cant":"All stations, grids and values.","anchors":["src/client/Calibrator/Oi.cpp"]}
{"id":"C228","title":"Client: the new delta parameter of optimal interpolation","statement":"The new delta is the mean of the old one and of the ratio of the expected to the actual spread of the members at the stations, weighted by newDeltaVar and c-1, so between the two. Missing members do not count. Without stations the call is defined.","quantifier":"all backgrounds at stations and options","why_tests_cant":"All stations, grids and values.","anchors":["src/client/Calibrator/Oi.cpp"]}
{"id":"C229","title":"Client: the transform of optimal interpolation","statement":"The inverse transform undoes the transform of non-negative numbers, which is strictly increasing; without transform both are the identity. A missing observation stays missing.","quantifier":"all values and all lambda >= 0","why_tests_cant":"All real numbers.","anchors":["src/client/Calibrator/Oi.cpp"]}
{"id":"C230","title":"Client: optimal interpolation uses the observations of the time","statement":"The analysis of a time uses the observations of that time; without observations at that time its field does not change.","quantifier":"all parameter files, times and fields","why_tests_cant":"All stations, grids and values.","anchors":["src/client/Calibrator/Oi.cpp"]}
{"id":"C231","title":"Client: observations that agree with the background change nothing","statement":"If all present observations equal the background of a member at their stations, optimal interpolation does not change that member (if it has no missing values).","quantifier":"all stations, grids, times, members and fields","why_tests_cant":"All stations, grids and values.","anchors":["src/client/Calibrator/Oi.cpp"]}
{"id":"C232","title":"Client: a field added to a file is the one returned","statement":"After a field was added for a variable and time, getField returns that field for all variables of that name; other variables and times keep their fields, and no field changes its values. Adding succeeds for all times of the file.","quantifier":"all files after any calls, all fields, variables and times","why_tests_cant":"All sequences of calls on all files.","anchors":["src/client/File/File.cpp"]}
{"id":"C233","title":"Client: the field of a variable and time stays the same object","statement":"Once getField has returned a field for a variable and time, it returns the same one after any calls of getField, initNewVariable and addField for others, until the cache is cleared.","quantifier":"all files and sequences of calls","why_tests_cant":"All sequences of calls on all files.","anchors":["src/client/File/File.cpp"]}
{"id":"C234","title":"Client: times outside the file are rejected","statement":"getField stops with an error if the time is negative or not smaller than the number of times.","quantifier":"all files after any calls, all variables and times","why_tests_cant":"All sequences of calls on all files.","anchors":["src/client/File/File.cpp"]}
{"id":"C235","title":"Client: what getField reads","statement":"The first getField of a variable that the file has returns its content at that time in a new field; of a variable the file does not have (or with skipRead) a field of missing values, and all other times of the variable have such fields then. Other fields stay.","quantifier":"all files after any calls, all variables and times","why_tests_cant":"All sequences of calls on all files.","anchors":["src/client/File/File.cpp"]}
{"id":"C236","title":"Client: fields of different variables and times are separate","statement":"The fields of different variables or times are different objects: writing to one does not change another.","quantifier":"all files after any calls, all variables and times","why_tests_cant":"All sequences of calls on all files.","anchors":["src/client/File/File.cpp","src/client/File/Text.cpp"]}
{"id":"C237","title":"Client: initialised variables and the bypass downscaler","statement":"After initNewVariable, or downscaling with the bypass downscaler, the file has the variable. If it had it before nothing changes; otherwise all times are missing values. Other fields stay.","quantifier":"all files after any calls, all variables","why_tests_cant":"All sequences of calls on all files.","anchors":["src/client/File/File.cpp","src/client/Downscaler/Bypass.cpp"]}
{"id":"C238","title":"Client: after clear() a file is read again","statement":"After clear(), getField returns the content of the file, whatever was written to its fields before.","quantifier":"all files after any calls, all variables and times","why_tests_cant":"All sequences of calls on all files.","anchors":["src/client/File/File.cpp","src/client/File/Text.cpp"]}
{"id":"C239","title":"Client: aliases stand for their variables","statement":"getField with the name of an alias returns the field of the variable (name and level) it stands for.","quantifier":"all files after any calls, all aliases and times","why_tests_cant":"All sequences of calls on all files.","anchors":["src/client/File/File.cpp"]}
{"id":"C240","title":"Client: reading text files","statement":"A text file has the times and places that occur in its lines, once each, times ascending. Each value is that of the last line with its time and place, and missing if there is none. Files whose lines all have the same number of members and coordinates in range can be opened.","quantifier":"all lines","why_tests_cant":"All files.","anchors":["src/client/File/Text.cpp"]}
{"id":"C241","title":"Client: a text file that is written can be read again","statement":"Reading a text file that was written gives the same places, times, members and values.","quantifier":"all text files","why_tests_cant":"All files.","anchors":["src/client/File/Text.cpp"]}
{"id":"C242","title":"Client: a point file that is written can be read again","statement":"Reading a point file that was written gives the same values (rounded) at all times.","quantifier":"all point files","why_tests_cant":"All files.","anchors":["src/client/File/Point.cpp"]}
{"id":"C243","title":"Client: the pressure in a NorcomQnh file","statement":"The number written for a station is the lowest present pressure of the times from startTime to endTime in hPa, rounded towards zero; if all are missing it is an error.","quantifier":"all fields and times","why_tests_cant":"All files.","anchors":["src/client/File/NorcomQnh.cpp"]}
{"id":"C244","title":"Client: optimal interpolation in ensemble mode, mean","statement":"Where stations are used, the mean of the analysed members is the mean of the Kalman filter whose background covariances are the inflated covariances of the members.","quantifier":"all fields, observations, stations chosen at a point, correlations, variances and inflation factors; all solvers that invert and decompose exactly","why_tests_cant":"All ensembles, stations and values; the result depends on a matrix square root.","anchors":["src/client/Calibrator/Oi.cpp"]}
{"id":"C245","title":"Client: optimal interpolation in ensemble mode, spread","statement":"The variance of the analysed members is the analysis variance of that filter; it is not negative and not more than the inflated variance of the background.","quantifier":"all fields, observations, stations chosen at a point, correlations, variances and inflation factors; all solvers that invert and decompose exactly","why_tests_cant":"All ensembles, stations and values; the result depends on a matrix square root.","anchors":["src/client/Calibrator/Oi.cpp"]}
{"id":"C246","title":"Client: optimal interpolation in ensemble mode, members","statement":"Each analysed member is the mean plus the background departures transformed by the symmetric square root of the analysis covariance. Members with a missing value anywhere become missing. If the decomposition fails, the point keeps its values.","quantifier":"all fields, observations, stations chosen at a point, correlations, variances and inflation factors; all solvers that invert and decompose exactly","why_tests_cant":"All ensembles, stations and values; the result depends on a matrix square root.","anchors":["src/client/Calibrator/Oi.cpp"]}
{"id":"C247","title":"Client: optimal interpolation in ensemble mode, differences","statement":"With saveDiff the value stored for a member is the analysis of the member minus its background.","quantifier":"all fields, observations, stations chosen at a point, correlations, variances and inflation factors; all solvers that invert and decompose exactly","why_tests_cant":"All ensembles, stations and values; the result depends on a matrix square root.","anchors":["src/client/Calibrator/Oi.cpp"]}
{"id":"C248","title":"Client: optimal interpolation in ensemble mode, no extrapolation","statement":"Without extrapolation no member is changed by more than the largest departure of an observation from the member, and not away from the observations if they agree on the direction.","quantifier":"all fields, observations, stations chosen at a point, correlations, variances and inflation factors; all solvers that invert and decompose exactly","why_tests_cant":"All ensembles, stations and values; the result depends on a matrix square root.","anchors":["src/client/Calibrator/Oi.cpp"]}
{"id":"C249","title":"Client: optimal interpolation in ensemble mode, number of parameters","statement":"In ensemble mode, parameter files with other than 2 or 3 parameters are an error as soon as a point has stations.","quantifier":"all fields, stations and numbers of parameters","why_tests_cant":"All ensembles, stations and values; the result depends on a matrix square root.","anchors":["src/client/Calibrator/Oi.cpp"]}
{"id":"C250","title":"Client: linear regression","statement":"The coefficients returned minimise the sum of squared errors and no others do. If the predictors are linearly dependent, if there are fewer than two cases, or if a predictor has another number of cases, the program stops.","quantifier":"all targets and predictors, with and without constant","why_tests_cant":"All training data and grids; a few cases cannot tell least squares from another fit, nor that the fit is unique.","anchors":["src/client/Util.cpp"]}
{"id":"C251","title":"Client: training of the coastal calibrator","statement":"The parameters trained minimise the squared error of the calibrated ensemble mean over the cases with an observation and the forecasts needed; if the land fractions near the point are too similar, the offset is the mean error and the gradient is not used.","quantifier":"all training data, land fractions, radii and options; all solvers that invert exactly or tell that the matrix is singular","why_tests_cant":"All training data and grids; a few cases cannot tell least squares from another fit, nor that the fit is unique.","anchors":["src/client/Calibrator/Coastal.cpp","src/client/Util.cpp"]}
{"id":"C252","title":"Client: training of the coastal calibrator, existence","statement":"If there is a case with an observation and the forecasts needed, the training gives parameters.","quantifier":"all training data, land fractions, radii and options; all solvers that invert exactly or tell that the matrix is singular","why_tests_cant":"All training data and grids; a few cases cannot tell least squares from another fit, nor that the fit is unique.","anchors":["src/client/Calibrator/Coastal.cpp","src/client/Util.cpp"]}
{"id":"C253","title":"Client: training and calibration agree","statement":"Calibrating the training data with the trained parameters leaves no mean error: the sum of the calibrated ensemble means is the sum of the observations.","quantifier":"all training data, land fractions, radii and options; all solvers that invert exactly or tell that the matrix is singular","why_tests_cant":"The training and the calibration are separate code that must use the same points, the same gradient and the same order of parameters, for all data.","anchors":["src/client/Calibrator/Coastal.cpp","src/client/Util.cpp"]}
{"id":"C254","title":"Client: version and help","statement":"The version or the full help is shown exactly if --version or --help occurs, the first of them deciding; otherwise the short help is shown exactly if there are fewer than two arguments.","quantifier":"all command lines, all globs, all files that open or not, and all schemes known","why_tests_cant":"Command lines are unbounded lists of free text; tests use a few.","anchors":["src/client/Driver/Gridpp.cpp"]}
{"id":"C255","title":"Client: --debug","statement":"--debug with a level, anywhere on the command line, changes only which messages are shown: what is done is what is done without it. The last level counts. Without level the program stops.","quantifier":"all command lines, all globs, all files that open or not, and all schemes known","why_tests_cant":"Command lines are unbounded lists of free text; tests use a few.","anchors":["src/client/Driver/Gridpp.cpp"]}
{"id":"C256","title":"Client: what is done to the files","statement":"For a well-formed command line, for each pair of files in order: the output gets the times, members and reference time of the input; each variable, in the order of first mention, is initialised, downscaled and calibrated by its calibrators in order; the output is written once, and both files are cleared. The program finishes if the files open, are as many, no input is named twice or is an output, and the input variables exist.","quantifier":"all command lines, all globs, all files that open or not, and all schemes known","why_tests_cant":"The property is about all sequences of requests and files; tests run the program on single lines.","anchors":["src/client/Driver/Gridpp.cpp","src/client/Setup.cpp"]}
{"id":"C257","title":"Client: the variables written","statement":"A variable asked for is written to each output, once, and left out only if its option write is 0.","quantifier":"all command lines, all globs, all files that open or not, and all schemes known","why_tests_cant":"Command lines are unbounded lists of free text; tests use a few.","anchors":["src/client/Driver/Gridpp.cpp","src/client/Setup.cpp"]}
{"id":"C258","title":"Client: the command line in the output","statement":"The message written to the output gives back the arguments of the command line when split at spaces, if no argument is empty or has a space.","quantifier":"all command lines, all globs, all files that open or not, and all schemes known","why_tests_cant":"Command lines are unbounded lists of free text; tests use a few.","anchors":["src/client/Driver/Gridpp.cpp"]}
{"id":"C259","title":"Client: reading a field of a NetCDF file","statement":"The field read for a variable and time has, at each row, column and member, the value stored at that time, member, row and column, in whatever order the variable has its dimensions; in other dimensions it is the level asked for, or the first. A variable without one of the dimensions has the same value along it. A level that does not exist is an error.","quantifier":"all NetCDF files with any dimensions in any order, all variables, sizes and contents, all times and levels","why_tests_cant":"Files differ in the order and number of dimensions, attributes and types of each variable; tests use a few files.","anchors":["src/client/File/Netcdf.cpp"]}
{"id":"C260","title":"Client: missing values, scale and offset of NetCDF files","statement":"A number stored in a variable stands for a missing value if it is the missing value of the variable, and for scale times the number plus offset otherwise.","quantifier":"all NetCDF files with any dimensions in any order, all variables, sizes and contents, all scales, offsets and missing values","why_tests_cant":"Files differ in the order and number of dimensions, attributes and types of each variable; tests use a few files.","anchors":["src/client/File/Netcdf.cpp"]}
{"id":"C261","title":"Client: what is written to a NetCDF file is read again","statement":"After fields have been written to a file, reading each variable at each time gives the fields: present values are the same, missing values are missing; also for variables and dimensions that the file did not have.","quantifier":"all NetCDF files with any dimensions in any order, all variables, sizes and contents, all lists of fields","why_tests_cant":"A round trip over all shapes of file and contents; tests write one file.","anchors":["src/client/File/Netcdf.cpp"]}
{"id":"C262","title":"Client: packed integers","statement":"A value written to a variable of an integer type with a scale comes back with an error of at most half the scale.","quantifier":"all NetCDF files with any dimensions in any order, all variables, sizes and contents, all scales, offsets and values","why_tests_cant":"Depends on values between the numbers that can be stored; tests use floating point variables.","anchors":["src/client/File/Netcdf.cpp"]}
{"id":"C263","title":"Client: writing leaves the rest of a NetCDF file alone","statement":"Writing changes no other variable, no size of a dimension except that of time, and in the variables written no element outside the times, members, rows and columns of the fields. Exempt are the times, the reference time and the altitude.","quantifier":"all NetCDF files with any dimensions in any order, all variables, sizes and contents, all lists of fields","why_tests_cant":"A frame property over all elements of all variables.","anchors":["src/client/File/Netcdf.cpp"]}
{"id":"C264","title":"Client: all members are written","statement":"If writing succeeds, all members of the fields are in the file.","quantifier":"all NetCDF files with any dimensions in any order, all variables, sizes and contents, all numbers of members","why_tests_cant":"Tests write files whose ensemble dimension fits.","anchors":["src/client/File/Netcdf.cpp"]}
{"id":"C265","title":"Client: latitudes and longitudes of NetCDF files","statement":"The grid of latitudes, longitudes or altitudes has at each row and column the value stored there, in whatever order the variable has its dimensions, the first element of other dimensions being used and a variable with one dimension being repeated along the other; numbers equal to the missing value of the variable are missing. A variable without these dimensions is an error.","quantifier":"all NetCDF files with any dimensions in any order, all variables, sizes and contents","why_tests_cant":"Files differ in the order and number of dimensions, attributes and types of each variable; tests use a few files.","anchors":["src/client/File/Netcdf.cpp"]}
{"id":"C266","title":"Client: interpolation in sheared and rotated cells","statement":"In a cell that is a parallelogram in any orientation, the bilinear downscaler interpolates at the relative position of the point along the two sides: the corners have the weights (1-s)(1-r), (1-s)r, s(1-r) and sr at the point that is the fraction s along one side and r along the other. A field that is linear in the coordinates is reproduced.","quantifier":"all parallelograms that are not degenerate, all points in them and all values","why_tests_cant":"Tests use grids of latitudes and longitudes; the formula has terms that vanish on them.","anchors":["src/client/Downscaler/Bilinear.cpp"]}
{"id":"C267","title":"Client: kriging with a missing bias","statement":"At a time at which any station has a missing bias, kriging leaves the whole field of that time as it is, whatever the distance of the station, with or without cross validation and auxiliary variable.","quantifier":"all stations, grids, fields, options, and all runs that end normally","why_tests_cant":"Depends on which station is missing at which time; tests use complete parameters.","anchors":["src/client/Calibrator/Kriging.cpp"]}
{"id":"C268","title":"Client: parameters of optimal interpolation","statement":"Optimal interpolation with more than three parameters per station ends with an error, except on a grid without any point that has coordinates and elevation, where the fields are left as they are.","quantifier":"all grids, stations, options and numbers of parameters","why_tests_cant":"An error for all inputs.","anchors":["src/client/Calibrator/Oi.cpp"]}
{"id":"C269","title":"Client: reading NetCDF parameter files","statement":"A NetCDF parameter file gives each point of its grid the parameters stored for it, whatever the order of the dimensions and whether the coordinates depend on one or both of the grid's dimensions; a fill value becomes the missing value; of several points at one place the last counts; a place not in the file has no parameters. With several times each time has its own parameters, a file with one time serves all times, and with cycling the times start again; a time after the last is an error.","quantifier":"all files with the needed dimensions and variables, all options, times and places","why_tests_cant":"Any order of up to four dimensions and any sizes; tests have one file.","anchors":["src/client/ParameterFile/Netcdf.cpp","src/client/ParameterFile/ParameterFile.cpp"]}
{"id":"C270","title":"Client: nearest point of a NetCDF parameter file","statement":"The parameters used for a location away from the points of the file are those of a point of the file with the smallest distance.","quantifier":"all files, times and locations, every distance that is zero at the point itself and agrees in order with the straight line","why_tests_cant":"Quantifies over all points and files.","anchors":["src/client/ParameterFile/Netcdf.cpp","src/client/ParameterFile/ParameterFile.cpp","src/client/KDTree.cpp"]}
{"id":"C271","title":"Client: parameters written to NetCDF are read again","statement":"Parameters that are written to a NetCDF parameter file and read with the same options are the same for each time and place; where a place has no parameters at a time, missing values are read.","quantifier":"all calls that set parameters, all options","why_tests_cant":"A round trip through two functions for all histories; tests read files made elsewhere.","anchors":["src/client/ParameterFile/Netcdf.cpp","src/client/ParameterFile/ParameterFile.cpp"]}
{"id":"C272","title":"Client: grid of a NetCDF file","statement":"Opening a NetCDF file finds the variables and dimensions named in the options, or else the first of the usual names that the file has; the number of members is the size of the ensemble dimension, or 1; the latitudes are those stored in the file at each row and column, whatever the order of the dimensions, and the longitudes are equal to those stored up to full turns and lie between -180 and 180 degrees.","quantifier":"all files and options with latitudes and longitudes within limits","why_tests_cant":"Any order and number of dimensions and any combination of nine options.","anchors":["src/client/File/Netcdf.cpp","src/client/File/File.cpp"]}
{"id":"C273","title":"Client: elevations and land fractions of a NetCDF file","statement":"The elevation of a point is that of the variable named in the options, otherwise the altitude, otherwise the surface geopotential divided by 9.81, and missing if there are none; fill values become missing. Land fractions are read likewise and are missing if the file has none.","quantifier":"all files and options that can be opened","why_tests_cant":"Depends on which of several variables exist and on the order of their dimensions.","anchors":["src/client/File/Netcdf.cpp","src/client/File/File.cpp"]}
{"id":"C274","title":"Client: times of a NetCDF file","statement":"The times are those stored in the file; without a variable for them the only time is the reference time. The reference time is the one stored, or the first time if it is missing. A file with neither is an error.","quantifier":"all files and options","why_tests_cant":"All combinations of present and missing variables, dimensions and options.","anchors":["src/client/File/Netcdf.cpp"]}
{"id":"C275","title":"Client: files that can be opened are recognised","statement":"A file that can be opened as a NetCDF file of the client is recognised as one with the same options.","quantifier":"all files and options","why_tests_cant":"Quantifies over all files.","anchors":["src/client/File/Netcdf.cpp"]}
{"id":"C276","title":"Client: times, grid and elevations written to a NetCDF file are read again","statement":"After writing to a NetCDF file that was opened, opening it again with the same options gives the same times, reference time, latitudes, longitudes and land fractions, and the same elevations, or missing ones where they were missing.","quantifier":"all files and options","why_tests_cant":"A round trip for all files; tests compare the fields of a few files.","anchors":["src/client/File/Netcdf.cpp"]}
{"id":"C277","title":"Client: opening a QNH file","statement":"A QNH file can be opened exactly when the latitudes, longitudes, elevations and names have the same number, all latitudes and longitudes are within limits and the first time is not after the last; it then has the stations given, longitudes between -180 and 180 degrees, and the times 0, 1, 2 and so on.","quantifier":"all options","why_tests_cant":"Any number of stations and any combination of seven options.","anchors":["src/client/File/NorcomQnh.cpp","src/client/File/File.cpp"]}
{"id":"C278","title":"Client: time stamps of a QNH file","statement":"The time stamp of a time has two digits for each of the day of the month, the hour and the minute in UTC.","quantifier":"all times from 1970 on","why_tests_cant":"Quantifies over all times; the day follows the calendar with leap years.","anchors":["src/client/File/NorcomQnh.cpp","src/client/Util.cpp"]}
{"id":"C279","title":"Client: text of a QNH file","statement":"Writing a QNH file that was opened gives a heading with the time stamp of the present time, a line with the time stamps of the first and last time, and a line for each station with its name filled up to the longest name and the smallest pressure from the first to the last time in whole hPa with four digits; all lines of stations have the same length.","quantifier":"all files, times and fields","why_tests_cant":"Any number of stations, names of any length and any values.","anchors":["src/client/File/NorcomQnh.cpp"]}
{"id":"C280","title":"Client: fake files","statement":"A fake file can be opened for all positive sizes and has a grid, members and times of these sizes; other sizes are an error.","quantifier":"all sizes","why_tests_cant":"Quantifies over all sizes; the result of the undefined conversion depends on the machine.","anchors":["src/client/File/Fake.cpp","src/client/File/File.cpp"]}
{"id":"C281","title":"Client: variables that are used are known to the file","statement":"After a field of a variable was read or added, getVariable finds a variable of that name, namely the one used if none was known before; a variable that is known stays the same whatever is called, also after clear(). Only variables used become known. After getField of a variable, getField with its name returns the same field.","quantifier":"all files and sequences of calls","why_tests_cant":"All sequences of calls on all files.","anchors":["src/client/File/File.cpp"]}
{"id":"C282","title":"Client: the type of a file is detected","statement":"A file that can be opened as NetCDF need not have its type given. Without a type, a file is opened or reported as not recognised; it is not recognised exactly when it is no NetCDF file with latitudes and longitudes, found by their usual names or named in the options. A type that is given is the one used, and an unknown type is an error.","quantifier":"all files, types and options","why_tests_cant":"Quantifies over all files and options.","anchors":["src/client/File/File.cpp","src/client/File/Netcdf.cpp"]}
{"id":"C283","title":"Client: training of the gaussian calibrator maximises the likelihood","statement":"The function minimised in training is minus the sum of the logarithms of the normal densities of the observations, with the mean of the ensemble and the standard deviation exp(a + b spread); a density of 0 counts as 0.00001.","quantifier":"all observations, ensembles, parameters and densities","why_tests_cant":"Quantifies over all data and parameters; tests only see the parameters found by the minimiser.","anchors":["src/client/Calibrator/Gaussian.cpp"]}
{"id":"C284","title":"Client: training of the zaga calibrator maximises the likelihood","statement":"The function minimised in training is minus the sum over the observations of the logarithm of P0 where nothing was observed and of (1 - P0) times the gamma density otherwise, with the same P0, shape and scale as in calibration; a density of 0 counts as 0.00001. No observation stops the program.","quantifier":"all observations, predictors, parameters and densities","why_tests_cant":"Quantifies over all data and parameters; tests only see the parameters found by the minimiser.","anchors":["src/client/Calibrator/Zaga.cpp"]}
{"id":"C285","title":"Fields whose size is not that of the grid are rejected","statement":"nearest, bilinear, downscaling, simple_gradient, full_gradient, fill, doping_square and doping_circle throw an invalid_argument exception for a field, a time series of fields, or values at points whose size is not that of the input grid or points, and for gradients, observations or radii of another size.","quantifier":"every grid, points, field and option","why_tests_cant":"Quantifies over all sizes; tests try few mismatches, and a check that is missing in one of the many overloads is undefined behaviour rather than a failure.","anchors":["src/api/nearest.cpp","src/api/bilinear.cpp","src/api/downscaling.cpp","src/api/simple_gradient.cpp","src/api/gradient.cpp","src/api/fill.cpp","src/api/doping.cpp","src/api/util.cpp: compatible_size"]}
{"id":"C286","title":"Curves and gradients of different sizes and unknown downscalers are rejected","statement":"downscaling throws an invalid_argument exception for a value that is not a Downscaler; calc_gradient for base and values that differ in size in any row; apply_curve for curves of different lengths, for empty curves, and for arrays of curves that do not have the size of the forecasts.","quantifier":"every grid, field, curve and option","why_tests_cant":"Quantifies over all sizes and over the row in which they differ.","anchors":["src/api/downscaling.cpp","src/api/calc_gradient.cpp","src/api/curve.cpp","src/api/util.cpp: compatible_size"]}
