{
 "claims": [
  {
   "property": "C01",
   "status": "proved",
   "theorems": [
    "C01_statistics_ignore_missing_and_order"
   ],
   "note": "Exact arithmetic; invariance under permutation and missing entries, no throw."
  },
  {
   "property": "C02",
   "status": "proved",
   "theorems": [
    "C02_statistics_have_their_value"
   ],
   "note": "Std is the external sqrt applied to the variance."
  },
  {
   "property": "C03",
   "status": "proved",
   "theorems": [
    "C03_min_max_median_order_statistics"
   ],
   "note": ""
  },
  {
   "property": "C04",
   "status": "proved",
   "theorems": [
    "C04_calc_quantile_spec"
   ],
   "note": "Exact arithmetic."
  },
  {
   "property": "C05",
   "status": "proved",
   "theorems": [
    "C05_quantile_affine_and_monotone"
   ],
   "note": "Exact arithmetic."
  },
  {
   "property": "C06",
   "status": "proved",
   "theorems": [
    "C06_even_quantiles"
   ],
   "note": ""
  },
  {
   "property": "C07",
   "status": "partial",
   "theorems": [
    "C07_even_quantiles_distinct_refuted",
    "C07_even_quantiles_distinct_partial"
   ],
   "note": "False in general: [1,1,1,1,2,3] with num=4 gives 1,2,3,3. Holds (with exactly num levels) when the data has at least num distinct values."
  },
  {
   "property": "C08",
   "status": "proved",
   "theorems": [
    "C08_index_lookup_brackets"
   ],
   "note": ""
  },
  {
   "property": "C09",
   "status": "proved",
   "theorems": [
    "C09_interpolate_spec"
   ],
   "note": ""
  },
  {
   "property": "C10",
   "status": "partial",
   "theorems": [
    "C10_interpolate_memory_safe_refuted",
    "C10_interpolate_memory_safe_partial"
   ],
   "note": "False when the first or last knot of the x-list is missing (index read from an unset int). Proved safe for every x when the two end knots are finite, inner knots arbitrary."
  },
  {
   "property": "C100",
   "status": "partial",
   "theorems": [
    "C100_boundary_kept_refuted",
    "C100_interior_removed_refuted",
    "C100_boundary_partial"
   ],
   "note": "false of the code both ways (the negated score is compared); proved: a returned threshold's negated score differs from the scores at the ends"
  },
  {
   "property": "C101",
   "status": "proved",
   "theorems": [
    "C101_optimizer_curve",
    "C101_size_error"
   ],
   "note": ""
  },
  {
   "property": "C102",
   "status": "partial",
   "theorems": [
    "C102_gamma_quantiles_partial",
    "C102_gamma_monotone",
    "C102_gamma_errors",
    "C102_level_one_refuted",
    "C102_sizes_refuted"
   ],
   "note": "level 1 ends the program instead of giving a quantile; vectors shorter than the shapes are read past their end; proved for levels below 1"
  },
  {
   "property": "C103",
   "status": "partial",
   "theorems": [
    "C103_names_refuted",
    "C103_names_partial"
   ],
   "note": "\"variance\" is not known; proved for all other strings"
  },
  {
   "property": "C104",
   "status": "partial",
   "theorems": [
    "C104_member_analysis_refuted",
    "C104_member_analysis_partial"
   ],
   "note": "Refuted: a member with missing values before a complete one makes the analysis throw. Proved when the incomplete members come last."
  },
  {
   "property": "C105",
   "status": "proved",
   "theorems": [
    "C105_analysis_defined"
   ],
   "note": "Incomplete members last (see C104)."
  },
  {
   "property": "C106",
   "status": "proved",
   "theorems": [
    "C106_same_as_optimal_interpolation"
   ],
   "note": "Incomplete members last (see C104)."
  },
  {
   "property": "C107",
   "status": "proved",
   "theorems": [
    "C107_argument_checks",
    "C107_grid_argument_checks"
   ],
   "note": ""
  },
  {
   "property": "C108",
   "status": "proved",
   "theorems": [
    "C108_grid_version"
   ],
   "note": ""
  },
  {
   "property": "C109",
   "status": "partial",
   "theorems": [
    "C109_scales_checked_refuted",
    "C109_scales_checked_partial",
    "C109_cressman_scales_checked",
    "C109_gridded_scales_sized"
   ],
   "note": "Refuted for the gridded constructors, which accept negative and missing scales; exact characterisation proved for the others, and of sizes for the gridded ones."
  },
  {
   "property": "C11",
   "status": "partial",
   "theorems": [
    "C11_vector_overloads_pointwise_partial",
    "C11_vector_overloads_pointwise_refuted"
   ],
   "note": "Exact pointwise characterisation for every overload; the two corner cases that break it (calc_quantile on rows without columns drops the rows; apply_curve with 3D curves on an empty field is undefined) are refuted."
  },
  {
   "property": "C110",
   "status": "partial",
   "theorems": [
    "C110_ensemble_mean_partial",
    "C110_ensemble_mean_refuted"
   ],
   "note": "False of the code when a member that takes no part has a background value at a station (refuted with a witness). Proved when such members have none; points where the eigenvalue solver gives up keep the background."
  },
  {
   "property": "C111",
   "status": "partial",
   "theorems": [
    "C111_ensemble_spread_partial"
   ],
   "note": "Proved under the restriction of C110; the variance formula contains no observed value."
  },
  {
   "property": "C112",
   "status": "partial",
   "theorems": [
    "C112_ensemble_transform_partial"
   ],
   "note": "Proved under the restriction of C110, with uniqueness of the root."
  },
  {
   "property": "C113",
   "status": "partial",
   "theorems": [
    "C113_no_extrapolation_partial",
    "C113_no_extrapolation_refuted"
   ],
   "note": "False of the code with several stations (wrong element of the matrix is used; refuted with a witness). Proved for points with one chosen observation whose departure is not 0; with departure 0 the code does not limit."
  },
  {
   "property": "C114",
   "status": "proved",
   "theorems": [
    "C114_left_alone"
   ],
   "note": ""
  },
  {
   "property": "C115",
   "status": "proved",
   "theorems": [
    "C115_analysis_defined"
   ],
   "note": "Both sentences."
  },
  {
   "property": "C116",
   "status": "proved",
   "theorems": [
    "C116_argument_checks",
    "C116_grid_argument_checks"
   ],
   "note": ""
  },
  {
   "property": "C117",
   "status": "proved",
   "theorems": [
    "C117_grid_version"
   ],
   "note": ""
  },
  {
   "property": "C118",
   "status": "partial",
   "theorems": [
    "C118_mean_kept_and_spread_reduced_partial",
    "C110_ensemble_mean_refuted"
   ],
   "note": "Proved under the restriction of C110; the witness there also refutes the second sentence."
  },
  {
   "property": "C119",
   "status": "partial",
   "theorems": [
    "C119_dynamic_analysis_refuted",
    "C119_missing_members_refuted",
    "C119_dynamic_analysis_partial"
   ],
   "note": "Refuted: the perturbations are divided by the population standard deviation and by sqrt(m-1), so every correlation, also of a quantity with itself, is multiplied by m/(m-1); and a member with missing values before a complete one makes the analysis throw. Proved with the correlations multiplied by m/(m-1) and the incomplete members last."
  },
  {
   "property": "C12",
   "status": "proved",
   "theorems": [
    "C12_window_order_statistics",
    "C12_window_rejects"
   ],
   "note": ""
  },
  {
   "property": "C120",
   "status": "partial",
   "theorems": [
    "C120_analysis_defined_refuted",
    "C120_more_stations_than_points",
    "C120_analysis_defined_partial"
   ],
   "note": "Refuted: with more stations than background points an array is written past its end, whatever the data. Proved for at most as many stations as background points."
  },
  {
   "property": "C121",
   "status": "proved",
   "theorems": [
    "C121_argument_checks",
    "C121_grid_argument_checks"
   ],
   "note": ""
  },
  {
   "property": "C122",
   "status": "proved",
   "theorems": [
    "C122_grid_version"
   ],
   "note": ""
  },
  {
   "property": "C123",
   "status": "proved",
   "theorems": [
    "C123_no_spread_or_departures"
   ],
   "note": "Incomplete members last (see C119)."
  },
  {
   "property": "C124",
   "status": "proved",
   "theorems": [
    "C124_transform",
    "C124_determined"
   ],
   "note": "Finite values in the valid members and positive error ratios. The scaling n/(n-1) of all correlations is part of the statement; C124_determined shows that the statement fixes every member."
  },
  {
   "property": "C125",
   "status": "partial",
   "theorems": [
    "C125_uninformative_refuted",
    "C125_uninformative_partial"
   ],
   "note": "Refuted: when the correlation ensemble differs from the background its standardized perturbations replace those of the background (0 and 2 become 2 and 0). Proved: the result is the mean plus the background standard deviation times the standardized correlation ensemble, which is the background when the two ensembles agree and vary."
  },
  {
   "property": "C126",
   "status": "partial",
   "theorems": [
    "C126_no_spread_refuted",
    "C126_no_spread_partial"
   ],
   "note": "Refuted: every member becomes the ensemble mean. Proved: exactly that, for all inputs."
  },
  {
   "property": "C127",
   "status": "partial",
   "theorems": [
    "C127_no_extrapolation_refuted",
    "C127_no_extrapolation_partial"
   ],
   "note": "Refuted for two stations (linear index into the matrix of station perturbations, as C113). Proved for one chosen station."
  },
  {
   "property": "C128",
   "status": "proved",
   "theorems": [
    "C128_left_alone"
   ],
   "note": ""
  },
  {
   "property": "C129",
   "status": "partial",
   "theorems": [
    "C129_analysis_defined_refuted",
    "C129_more_stations_than_points",
    "C129_analysis_defined_partial"
   ],
   "note": "Refuted: with more stations than background points arrays are written out of range (always, when there is a valid member). Proved for at most as many stations as background points."
  },
  {
   "property": "C13",
   "status": "partial",
   "theorems": [
    "C13_window_accumulation_refuted",
    "C13_window_accumulation_partial"
   ],
   "note": "Mean, Count and keep_missing read counts[-1] (undefined). Proved: every Sum/Mean call not needing that read is correct; correct for all flags if the read returned 0; Count then ignores keep_missing/missing_edges."
  },
  {
   "property": "C130",
   "status": "proved",
   "theorems": [
    "C130_argument_checks",
    "C130_grid_argument_checks"
   ],
   "note": ""
  },
  {
   "property": "C131",
   "status": "proved",
   "theorems": [
    "C131_grid_version"
   ],
   "note": ""
  },
  {
   "property": "C132",
   "status": "proved",
   "theorems": [
    "C132_last_value_wins",
    "C132_words"
   ],
   "note": ""
  },
  {
   "property": "C133",
   "status": "partial",
   "theorems": [
    "C133_text_rebuilds_refuted",
    "C133_text_rebuilds_partial"
   ],
   "note": "False when addOption(key, value) was given a value (or key) with a space or a key with '='. Proved for containers filled from option strings or with keys and values such strings can express."
  },
  {
   "property": "C134",
   "status": "partial",
   "theorems": [
    "C134_equality_refuted",
    "C134_equality_partial"
   ],
   "note": "False with white space in a value: getValue extracts the first word only, so a container does not even equal itself. Proved for values without white space."
  },
  {
   "property": "C135",
   "status": "partial",
   "theorems": [
    "C135_unread_options_refuted",
    "C135_unread_options_partial",
    "C135_unread_options_ever"
   ],
   "note": "False after clear(), which keeps the record of keys read. Proved for histories without clear(); with clear() the result tells whether every key has ever been read."
  },
  {
   "property": "C136",
   "status": "partial",
   "theorems": [
    "C136_variable_options_refuted",
    "C136_variable_options_partial",
    "C136_min_sets_both",
    "C136_made_from_options"
   ],
   "note": "False: \"max\" has no effect, because Variable.cpp:94 reads \"min\" again; \"min\" sets both. Proved for options without \"min\" and \"max\". Proved for the constructor: all options take effect, max too, and without a name the program stops."
  },
  {
   "property": "C137",
   "status": "proved",
   "theorems": [
    "C137_round_trip",
    "C137_unix_time"
   ],
   "note": ""
  },
  {
   "property": "C138",
   "status": "partial",
   "theorems": [
    "C138_date_and_time_refuted",
    "C138_date_and_time_partial",
    "C138_any_time"
   ],
   "note": "False before 1970: -1 gives 19700101 and a negative time. Proved from 1970 on; for every time the date is that of the day counted towards 1970, and an exception is thrown exactly outside the years 1400-9999."
  },
  {
   "property": "C139",
   "status": "proved",
   "theorems": [
    "C139_add_hours"
   ],
   "note": ""
  },
  {
   "property": "C14",
   "status": "partial",
   "theorems": [
    "C14_window_in_bounds_refuted",
    "C14_window_in_bounds_partial"
   ],
   "note": "False; the partial theorem gives the exact set of calls that read out of bounds (iff) and success otherwise."
  },
  {
   "property": "C140",
   "status": "partial",
   "theorems": [
    "C140_words_kept_refuted",
    "C140_words_kept_partial"
   ],
   "note": "False when the indented title fills its column: the first word of the message is appended to it. Proved when the title is shorter than the column, or when the fallback to one line applies."
  },
  {
   "property": "C141",
   "status": "partial",
   "theorems": [
    "C141_line_length_refuted",
    "C141_line_length_partial"
   ],
   "note": "False: the space before a word is not counted, so lines can have one character more. Proved with a limit one higher."
  },
  {
   "property": "C142",
   "status": "proved",
   "theorems": [
    "C142_statistics_agree",
    "C142_quantiles_agree"
   ],
   "note": ""
  },
  {
   "property": "C143",
   "status": "partial",
   "theorems": [
    "C143_missing_result_refuted",
    "C143_missing_result_partial",
    "C143_nothing_present"
   ],
   "note": "False: the mean and the median of -998 and -1000 are -999. Proved for min, max and std, for sums of non-negative values and otherwise for values above -999."
  },
  {
   "property": "C144",
   "status": "proved",
   "theorems": [
    "C144_quantile_levels"
   ],
   "note": ""
  },
  {
   "property": "C145",
   "status": "partial",
   "theorems": [
    "C145_interpolation_refuted",
    "C145_knot_missing_refuted",
    "C145_interpolation_partial",
    "C145_curve"
   ],
   "note": "False where knots coincide at an end of the curve (the client takes the mean), and with a knot at -999 (an assertion fails). Proved for strictly increasing knots other than -999; the client's value is given for all sorted knots other than -999."
  },
  {
   "property": "C146",
   "status": "partial",
   "theorems": [
    "C146_location_order_refuted",
    "C146_location_order_partial",
    "C146_place_order_partial"
   ],
   "note": "False with an elevation that is NaN. Proved for locations without NaN."
  },
  {
   "property": "C147",
   "status": "proved",
   "theorems": [
    "C147_new_field",
    "C147_set_get",
    "C147_outside",
    "C147_members"
   ],
   "note": ""
  },
  {
   "property": "C148",
   "status": "partial",
   "theorems": [
    "C148_equal_fields_refuted",
    "C148_equal_fields_partial"
   ],
   "note": "False for fields of different sizes: only the underlying arrays are compared. Proved for fields of the same size."
  },
  {
   "property": "C149",
   "status": "partial",
   "theorems": [
    "C149_accumulate_refuted",
    "C149_accumulate_partial",
    "C149_accumulate_amounts"
   ],
   "note": "False when a partial sum is -999, which is then taken for missing. Proved when no partial sum is; in particular for non-negative amounts, where the sums also do not decrease."
  },
  {
   "property": "C15",
   "status": "proved",
   "theorems": [
    "C15_fast_sums_equal_brute_force"
   ],
   "note": ""
  },
  {
   "property": "C150",
   "status": "proved",
   "theorems": [
    "C150_deaccumulate",
    "C150_inverse_of_accumulate"
   ],
   "note": ""
  },
  {
   "property": "C151",
   "status": "partial",
   "theorems": [
    "C151_sort_refuted",
    "C151_sort_partial"
   ],
   "note": "False with NaN members: std::sort then has undefined behaviour. Proved without NaN."
  },
  {
   "property": "C152",
   "status": "proved",
   "theorems": [
    "C152_threshold",
    "C152_sizes_checked"
   ],
   "note": ""
  },
  {
   "property": "C153",
   "status": "proved",
   "theorems": [
    "C153_clamp"
   ],
   "note": "For a minimum not above the maximum."
  },
  {
   "property": "C154",
   "status": "proved",
   "theorems": [
    "C154_cloud"
   ],
   "note": ""
  },
  {
   "property": "C155",
   "status": "partial",
   "theorems": [
    "C155_phase_refuted",
    "C155_phase_partial"
   ],
   "note": "False for precipitation equal to the limit, which counts as none. Proved otherwise; at the snow threshold the phase is snow."
  },
  {
   "property": "C156",
   "status": "proved",
   "theorems": [
    "C156_window",
    "C156_arguments_checked"
   ],
   "note": ""
  },
  {
   "property": "C157",
   "status": "partial",
   "theorems": [
    "C157_wind_direction_refuted",
    "C157_wind_direction_partial"
   ],
   "note": "False: missing winds are multiplied, and missing parameters give the factor -999. Proved for missing directions, and when all is present."
  },
  {
   "property": "C158",
   "status": "partial",
   "theorems": [
    "C158_regression_refuted",
    "C158_polynomial",
    "C158_regression_partial"
   ],
   "note": "Polynomials in full. With predictors false: a missing predictor is used as -999. Proved when the predictors are present."
  },
  {
   "property": "C159",
   "status": "partial",
   "theorems": [
    "C159_training_refuted",
    "C159_training_mean",
    "C159_training_partial",
    "C159_training_slope",
    "C159_arguments_checked"
   ],
   "note": "False for a line when all forecasts are equal: the parameters are NaN. Proved when two forecasts differ (without intercept: one is not 0), and for order 0 always."
  },
  {
   "property": "C16",
   "status": "proved",
   "theorems": [
    "C16_fast_min_max_equal_brute_force"
   ],
   "note": ""
  },
  {
   "property": "C160",
   "status": "partial",
   "theorems": [
    "C160_mask_refuted",
    "C160_mask_partial",
    "C160_mask_any_file"
   ],
   "note": "False for parameters that depend on time: a point that was within a radius at one time stays so. Proved when they do not; for all files the result is described with the earlier times."
  },
  {
   "property": "C161",
   "status": "proved",
   "theorems": [
    "C161_override",
    "C161_arguments_checked"
   ],
   "note": ""
  },
  {
   "property": "C162",
   "status": "proved",
   "theorems": [
    "C162_shuffle",
    "C162_unchanged"
   ],
   "note": ""
  },
  {
   "property": "C163",
   "status": "partial",
   "theorems": [
    "C163_nearest_point_refuted",
    "C163_great_circle_exists",
    "C163_nearest_point_partial",
    "C163_no_points"
   ],
   "note": "False for distances along the great circle: the tree takes the distance to a meridian along the point's own parallel, and points beyond the pole or the date line can be closer. Proved for all distances for which points beyond a meridian or parallel are not closer than the point of that line with the same latitude or longitude."
  },
  {
   "property": "C164",
   "status": "proved",
   "theorems": [
    "C164_brute_force"
   ],
   "note": ""
  },
  {
   "property": "C165",
   "status": "partial",
   "theorems": [
    "C165_nearest_points_partial",
    "C165_same_grid"
   ],
   "note": "For distances as in C163; identical grids in full."
  },
  {
   "property": "C166",
   "status": "proved",
   "theorems": [
    "C166_cache"
   ],
   "note": ""
  },
  {
   "property": "C167",
   "status": "partial",
   "theorems": [
    "C167_longitudes_refuted",
    "C167_longitudes_partial",
    "C167_latitudes",
    "C167_sizes"
   ],
   "note": "False for longitude 0, where 0/0 is converted to an integer, which is undefined. Proved for all other longitudes, and for latitudes and sizes."
  },
  {
   "property": "C168",
   "status": "proved",
   "theorems": [
    "C168_nearest_neighbour",
    "C168_too_few_members",
    "C168_number_of_times"
   ],
   "note": ""
  },
  {
   "property": "C169",
   "status": "partial",
   "theorems": [
    "C169_upscale_partial"
   ],
   "note": "For distances as in C163."
  },
  {
   "property": "C17",
   "status": "proved",
   "theorems": [
    "C17_fast_variance_equals_brute_force"
   ],
   "note": "exact arithmetic"
  },
  {
   "property": "C170",
   "status": "partial",
   "theorems": [
    "C170_smart_refuted",
    "C170_smart_partial"
   ],
   "note": "False for output points without coordinates: the elevations are read at index -999. Proved when all output points have coordinates. A point of missing elevation counts as differing by 1e10."
  },
  {
   "property": "C171",
   "status": "proved",
   "theorems": [
    "C171_pressure"
   ],
   "note": ""
  },
  {
   "property": "C172",
   "status": "partial",
   "theorems": [
    "C172_neighbourhood_refuted",
    "C172_neighbourhood_partial",
    "C172_refused"
   ],
   "note": "False for a negative radius in a parameter file, which is not checked: the fast mean then reads outside its arrays. Proved for all radii that are not negative."
  },
  {
   "property": "C173",
   "status": "partial",
   "theorems": [
    "C173_curve_refuted",
    "C173_curve_partial",
    "C173_checks"
   ],
   "note": "False for 'zero' with a single pair, which extrapolates with slope 1, and where the slope is taken between tied forecasts (division by zero). Proved otherwise, for all sorted forecasts."
  },
  {
   "property": "C174",
   "status": "proved",
   "theorems": [
    "C174_order_kept"
   ],
   "note": ""
  },
  {
   "property": "C175",
   "status": "proved",
   "theorems": [
    "C175_identity"
   ],
   "note": ""
  },
  {
   "property": "C176",
   "status": "partial",
   "theorems": [
    "C176_training_refuted",
    "C176_training_partial"
   ],
   "note": "False for quantiles of a single case: the level 0/0 stops the program. Proved otherwise."
  },
  {
   "property": "C177",
   "status": "proved",
   "theorems": [
    "C177_ranks"
   ],
   "note": ""
  },
  {
   "property": "C178",
   "status": "partial",
   "theorems": [
    "C178_elevation_gradient_refuted",
    "C178_elevation_gradient_partial"
   ],
   "note": "False where the sum of the squared elevations equals the square of their sum (sums are compared before they are divided by the number of points): one hill among points at sea level gives the default gradient. Proved otherwise."
  },
  {
   "property": "C179",
   "status": "partial",
   "theorems": [
    "C179_land_gradient_limits_refuted",
    "C179_land_gradient_order_refuted",
    "C179_land_gradient_partial"
   ],
   "note": "False for the documented options minLafGradient and maxLafGradient, which are never used, and for radii that are not increasing, as the extremes of one neighbourhood are kept for the next. Proved for increasing radii, positive weights and a positive minimum range, without the limits. A missing land fraction of -999 counts as sea."
  },
  {
   "property": "C18",
   "status": "proved",
   "theorems": [
    "C18_filters_preserve_shape_constants_bounds"
   ],
   "note": "missing input cells (NaN or infinite) come out as NaN at halfwidth 0"
  },
  {
   "property": "C180",
   "status": "proved",
   "theorems": [
    "C180_moved_value",
    "C180_coordinates_needed"
   ],
   "note": "With the gradients as in C178 and C179 (same conditions)."
  },
  {
   "property": "C181",
   "status": "partial",
   "theorems": [
    "C181_limit_refuted",
    "C181_limit_partial"
   ],
   "note": "False if the greatest value of the neighbourhood comes first: it is taken for the minimum only, and the maximum is then too small or unset. Proved: the result is within the range if all values are above -999, and it is the nearest value in the range if some present value comes before a greatest one."
  },
  {
   "property": "C182",
   "status": "proved",
   "theorems": [
    "C182_last_parameters",
    "C182_negative_time"
   ],
   "note": "For setParameters with times that are not negative: a negative time has undefined behaviour (the second theorem). A coordinate that is NaN breaks the order of the map and is excluded."
  },
  {
   "property": "C183",
   "status": "partial",
   "theorems": [
    "C183_unreadable_file_refuted",
    "C183_single_place_partial",
    "C183_places_not_global"
   ],
   "note": "False for a file that cannot be opened: it has no places, and asking for its global parameters or computing its tree reads the first element of an empty map. Proved for files with some parameters."
  },
  {
   "property": "C184",
   "status": "partial",
   "theorems": [
    "C184_recomputed_tree_refuted",
    "C184_nearest_place_partial"
   ],
   "note": "False if the tree is computed, parameters for a new place are set and the tree is computed again: the list of places is extended with all of them, while the tree counts from the start. Proved for one computation after the calls; for distances as in C163."
  },
  {
   "property": "C185",
   "status": "proved",
   "theorems": [
    "C185_number_of_parameters",
    "C185_same_number",
    "C185_times"
   ],
   "note": "An empty set (such as the hole at a time before the last one) gives 0."
  },
  {
   "property": "C186",
   "status": "partial",
   "theorems": [
    "C186_last_row_refuted",
    "C186_table_partial"
   ],
   "note": "False for a last row without newline, which is silently ignored. Proved for files that end with a newline, without blanks at the ends of lines and with lines shorter than 10000 characters. A missing coordinate makes the row one about no place."
  },
  {
   "property": "C187",
   "status": "partial",
   "theorems": [
    "C187_short_row_refuted",
    "C187_incomplete_place",
    "C187_no_header",
    "C187_no_rows",
    "C187_ambiguous_rows",
    "C187_other_columns_partial"
   ],
   "note": "False for rows of another length: only the number of values outside the columns time, lat, lon and elev is compared, from row to row and not with the header, so a row that lacks its elevation is taken as one about no place, and rows may all be longer than the header. Proved for a row of another length that follows a complete one and has the columns time, lat, lon and elev."
  },
  {
   "property": "C188",
   "status": "partial",
   "theorems": [
    "C188_write_read_refuted",
    "C188_written_files_rejected"
   ],
   "note": "False: the names of the parameters are written after the end of the header line, so the first row starts with them. Proved: every file written with at least one parameter is rejected when it is read."
  },
  {
   "property": "C189",
   "status": "proved",
   "theorems": [
    "C189_file_names",
    "C189_all_command_lines"
   ],
   "note": ""
  },
  {
   "property": "C19",
   "status": "partial",
   "theorems": [
    "C19_ensemble_neighbourhood_partial",
    "C19_ensemble_neighbourhood_refuted"
   ],
   "note": "proved for Min/Max/Sum and Mean with equal member counts; refuted for Mean with missing members, Count, Median, Variance"
  },
  {
   "property": "C190",
   "status": "partial",
   "theorems": [
    "C190_output_writable_refuted",
    "C190_files_partial",
    "C190_rejected_files"
   ],
   "note": "False for an output that is the input of an earlier pair: it is not opened again and stays read-only. Proved: everything else, and that an output is writable if it is not an earlier input. The expansion of names (glob) is an argument. Equality of options is that of C134."
  },
  {
   "property": "C191",
   "status": "proved",
   "theorems": [
    "C191_always_ends"
   ],
   "note": "At most 8 passes per argument and 2 more."
  },
  {
   "property": "C192",
   "status": "proved",
   "theorems": [
    "C192_nothing_invented"
   ],
   "note": ""
  },
  {
   "property": "C193",
   "status": "partial",
   "theorems": [
    "C193_variable_lost_refuted",
    "C193_requests_partial"
   ],
   "note": "False for a variable with an input variable that has options, followed by another variable: the first one is lost and its options go to the second. Proved if a downscaler or a calibrator comes between (or it is the last one), for downscalers without parameter file; parameter files may have further options (C195). Downscalers, calibrators and parameter files that stop the program are left out here. At most one alias, at the start: the program has no place for others."
  },
  {
   "property": "C194",
   "status": "proved",
   "theorems": [
    "C194_broken",
    "C194_no_variable",
    "C194_input_only"
   ],
   "note": ""
  },
  {
   "property": "C195",
   "status": "partial",
   "theorems": [
    "C195_options_leak_refuted",
    "C195_downscaler_file_refuted",
    "C195_missing_type_partial"
   ],
   "note": "False: options are kept from one parameter file to the next, so a later one without type is accepted with the type of an earlier one; the file after '-d' is ignored, and a calibrator after it gets a parameter file called '-p'. Proved: the first parameter file needs a type. That a parameter file has all options given to it is part of C193."
  },
  {
   "property": "C196",
   "status": "proved",
   "theorems": [
    "C196_gaussian",
    "C196_bct",
    "C196_zaga"
   ],
   "note": "For the gaussian calibrator, an ensemble with missing members gets the quantiles unsorted (C198). exp, pow and the distributions of Boost are arguments; they are assumed to give numbers for numbers, exp to be positive, Student's t and gamma to be distributions (C196_example has such functions)."
  },
  {
   "property": "C197",
   "status": "proved",
   "theorems": [
    "C197_bct_quantile"
   ],
   "note": "exp and log, and powers with inverse exponents, are assumed to be inverse to each other; Student's t to be symmetric, increasing, and inverse to its quantiles."
  },
  {
   "property": "C198",
   "status": "partial",
   "theorems": [
    "C198_gaussian_missing_refuted",
    "C198_gaussian_neighbourhood_refuted",
    "C196_bct",
    "C196_zaga"
   ],
   "note": "False for gaussian: missing members get values, and with a neighbourhood the points before it are already calibrated (one thread; with more it is a race). Proved, without neighbourhood, for bct and zaga as part of C196."
  },
  {
   "property": "C199",
   "status": "proved",
   "theorems": [
    "C199_zaga",
    "C199_zaga_incomplete",
    "C199_gaussian"
   ],
   "note": "Levels strictly between 0 and 1 for zaga."
  },
  {
   "property": "C20",
   "status": "partial",
   "theorems": [
    "C20_rectangular_inputs_safe_partial",
    "C20_rectangular_inputs_safe_refuted"
   ],
   "note": "refuted for neighbourhood(3D) on a field without cells; proved for every other overload (rand() >= 0 assumed)"
  },
  {
   "property": "C200",
   "status": "proved",
   "theorems": [
    "C200_probability",
    "C200_quantile"
   ],
   "note": "A probability field is not the precipitation field itself."
  },
  {
   "property": "C201",
   "status": "partial",
   "theorems": [
    "C201_window_refuted"
   ],
   "note": "False: without a variable for the probability, fields before the first one are read, always. With it, see C200."
  },
  {
   "property": "C202",
   "status": "partial",
   "theorems": [
    "C202_fraction_refuted",
    "C202_predictors_partial",
    "C202_no_members"
   ],
   "note": "False for the fraction: a quotient of integers, 0 unless all members are at most the threshold. Proved: the mean, the rounded fraction, and the stop."
  },
  {
   "property": "C203",
   "status": "proved",
   "theorems": [
    "C203_wind",
    "C203_humidity",
    "C203_wetbulb",
    "C203_qnh"
   ],
   "note": "The functions of values are arguments here; see C205-C207 for them. Inputs have the sizes of the output."
  },
  {
   "property": "C204",
   "status": "partial",
   "theorems": [
    "C204_wind_name_refuted",
    "C204_humidity_name_refuted",
    "C204_wind_partial",
    "C204_humidity_partial",
    "C204_wetbulb_partial"
   ],
   "note": "False for unknown names: the field is left as it was and the program goes on. Proved: names of inputs that are not given or not in the file, and missing elevations, stop the program."
  },
  {
   "property": "C205",
   "status": "proved",
   "theorems": [
    "C205_components_and_back",
    "C205_direction_and_back"
   ],
   "note": "Over the reals; the tolerances come from the code's value of pi only."
  },
  {
   "property": "C206",
   "status": "proved",
   "theorems": [
    "C206_relative_humidity",
    "C206_as_library"
   ],
   "note": "Exact arithmetic as in C48."
  },
  {
   "property": "C207",
   "status": "proved",
   "theorems": [
    "C207_dewpoint",
    "C207_wetbulb",
    "C207_qnh"
   ],
   "note": "Over the reals; powers and exponentials as in the library model. A pressure of exactly zero gives a qnh of zero in both."
  },
  {
   "property": "C208",
   "status": "partial",
   "theorems": [
    "C208_raw_values_refuted",
    "C208_coastal_partial",
    "C208_stops"
   ],
   "note": "False that raw values only are used: the neighbours before the point are calibrated already (one thread; with more it is a race). Proved: the rule, with the neighbours found that way, and the stops."
  },
  {
   "property": "C209",
   "status": "proved",
   "theorems": [
    "C209_altitude",
    "C209_altitude_needs_places"
   ],
   "note": "Files as in C184: made by setting parameters, at two or more places, of places with present coordinates, with a sort that sorts. Distances of the tree as in C184."
  },
  {
   "property": "C21",
   "status": "partial",
   "theorems": [
    "C21_invalid_arguments_throw_partial",
    "C21_invalid_arguments_throw_refuted",
    "C21_bad_level_terminates"
   ],
   "note": "negative halfwidth throws; level outside [0,1] terminates the program (exception leaves an OpenMP region)"
  },
  {
   "property": "C210",
   "status": "partial",
   "theorems": [
    "C210_first_row_refuted",
    "C210_first_column_refuted",
    "C210_row_number_refuted",
    "C210_edge_refuted",
    "C210_fields_partial",
    "C210_grid_partial"
   ],
   "note": "False where the code fails to find the cell: falling latitudes and nearest point in the first row; falling longitudes and nearest point in the first column or in the row whose number is that of the last column; locations exactly on the edge of least latitude or longitude. Proved for all other locations, if getI and getJ return although they have no return statement. Infinite values at corners are not covered."
  },
  {
   "property": "C211",
   "status": "proved",
   "theorems": [
    "C211_average"
   ],
   "note": "For grids of any shape, if the program ends and getI and getJ return."
  },
  {
   "property": "C212",
   "status": "partial",
   "theorems": [
    "C212_no_return_refuted",
    "C212_one_row_refuted",
    "C212_falling_refuted",
    "C212_no_place_refuted",
    "C212_reads_partial"
   ],
   "note": "False: getI and getJ have no return statement (undefined for any location in a cell); grids of one row; falling longitudes; locations without coordinates. Proved for grids of two or more rows and columns with longitudes rising along rows and latitudes that differ along columns, and nearest points within the grid, if getI and getJ return."
  },
  {
   "property": "C213",
   "status": "partial",
   "theorems": [
    "C213_missing_refuted",
    "C213_same_grid_partial"
   ],
   "note": "False if a value is missing: the points whose cell has it become missing. Proved for present values and rising coordinates."
  },
  {
   "property": "C214",
   "status": "proved",
   "theorems": [
    "C214_covariance",
    "C214_missing"
   ],
   "note": "exp as a positive monotone function with value 1 at 0, distance as a symmetric function; numbers exact."
  },
  {
   "property": "C215",
   "status": "partial",
   "theorems": [
    "C215_divide_refuted",
    "C215_missing_refuted",
    "C215_kriging_partial"
   ],
   "note": "False for divide (the code subtracts 1 where it should add it) and for missing values (-999 gets the correction). Proved for the other operators and present values, without auxiliary variable and cross validation, if all stations have coordinates and biases and the inverse of the matrix is found. A correction of exactly -999 counts as missing."
  },
  {
   "property": "C216",
   "status": "partial",
   "theorems": [
    "C216_divide_refuted",
    "C216_no_bias_partial"
   ],
   "note": "False for divide: values change their sign. Proved for the other operators, missing values included."
  },
  {
   "property": "C217",
   "status": "partial",
   "theorems": [
    "C217_two_refuted",
    "C217_station_partial"
   ],
   "note": "False for stations that influence each other: their covariances are reduced by 0.828. Proved for stations that do not, with the value everywhere."
  },
  {
   "property": "C218",
   "status": "partial",
   "theorems": [
    "C218_weight",
    "C218_members_refuted",
    "C218_members_partial"
   ],
   "note": "False for all members but the first: the scaled correction is scaled again for each further member. Proved: the weight itself, and that a member gets the product of the weights up to it."
  },
  {
   "property": "C219",
   "status": "partial",
   "theorems": [
    "C219_far_refuted",
    "C219_all_near_partial"
   ],
   "note": "False if a station before the nearest has no influence at the point: its number in the list of near stations is taken as its number in the matrix. Proved if all stations have influence at the point."
  },
  {
   "property": "C22",
   "status": "proved",
   "theorems": [
    "C22_quantile_fast_follows_neighbourhood_cdf",
    "C22_quantile_fast_checks_arguments",
    "C22_level_field_has_the_size_of_the_input",
    "C22_quantile_fast_checks_arguments_of_ensembles"
   ],
   "note": "2D scalar level, 2D level field, 3D ensemble with scalar (1x1) level or level field. For ensembles the cdf is the mean over cells of the fraction of finite members, as coded."
  },
  {
   "property": "C220",
   "status": "partial",
   "theorems": [
    "C220_influence_refuted",
    "C220_none_partial"
   ],
   "note": "False: the missing covariance -999 enters the matrix as a number. Proved if no station has coordinates."
  },
  {
   "property": "C221",
   "status": "partial",
   "theorems": [
    "C221_no_data_refuted",
    "C221_training_partial",
    "C221_no_data_partial"
   ],
   "note": "False without data for multiply and divide: the bias is 0. Proved with data, and for all operators that the bias is 0 without."
  },
  {
   "property": "C222",
   "status": "partial",
   "theorems": [
    "C222_elevation_refuted",
    "C222_symmetry_refuted",
    "C222_correlation_partial"
   ],
   "note": "False for a station without elevation (isValid is called with a truth value, so -999 is used as an elevation), and the correlation is not symmetric if the difference of elevations is -999, which counts as missing. Proved for places with coordinates, elevation and land fraction and other differences; exp as a positive monotone function with value 1 at 0, for the second function also that (1+x)exp(-x) does not increase."
  },
  {
   "property": "C223",
   "status": "partial",
   "theorems": [
    "C223_same_distance_refuted",
    "C223_stations_partial"
   ],
   "note": "False on grids with more than one row and column: a station reaches r cells to one side, r-1 to the other, and none from a border cell. Proved exactly which stations are considered on both kinds of grids."
  },
  {
   "property": "C224",
   "status": "proved",
   "theorems": [
    "C224_best",
    "C224_cross_validation"
   ],
   "note": "std::sort sorts."
  },
  {
   "property": "C225",
   "status": "partial",
   "theorems": [
    "C225_missing_refuted",
    "C225_analysis_partial"
   ],
   "note": "False for members with a missing value at any point: all their values near stations become missing. Proved for the others, single-member mode without transform, bias and cross validation, if the inverse of the matrix is found and places are complete; what happens to the members with missing values is proved, too."
  },
  {
   "property": "C226",
   "status": "proved",
   "theorems": [
    "C226_one_station"
   ],
   "note": "Hypotheses of C225_analysis_partial, one station."
  },
  {
   "property": "C227",
   "status": "partial",
   "theorems": [
    "C227_coordinates_refuted",
    "C227_no_observations_partial"
   ],
   "note": "False for points without coordinates: their distance -999 is smaller than any radius. Proved if no observation is present, on grids with one row or column, with any coordinates."
  },
  {
   "property": "C228",
   "status": "partial",
   "theorems": [
    "C228_no_stations_refuted",
    "C228_missing_member_refuted",
    "C228_weighted_mean_partial"
   ],
   "note": "False without stations (the first row of an empty list is read) and for missing members: they count as minus the mean. Proved: the weighted mean."
  },
  {
   "property": "C229",
   "status": "partial",
   "theorems": [
    "C229_missing_refuted",
    "C229_round_trip_partial"
   ],
   "note": "False for missing observations: they count as observations of zero. Proved for numbers."
  },
  {
   "property": "C23",
   "status": "partial",
   "theorems": [
    "C23_quantile_fast_schedule_partial",
    "C23_quantile_fast_schedule_refuted"
   ],
   "note": "Proved for a scalar level with any number of threads, and for level fields with one thread. Refuted for a level field with two threads: curr_quantile is shared and unprotected (neighbourhood.cpp:365)."
  },
  {
   "property": "C230",
   "status": "partial",
   "theorems": [
    "C230_time_refuted",
    "C230_first_time_partial"
   ],
   "note": "False: the parameters of the first time are used for all times. Proved: the result depends only on those."
  },
  {
   "property": "C231",
   "status": "proved",
   "theorems": [
    "C231_agreement"
   ],
   "note": "Hypotheses of C225_analysis_partial, differences not stored."
  },
  {
   "property": "C232",
   "status": "proved",
   "theorems": [
    "C232_registered"
   ],
   "note": "Fields are handles into a list of created fields; times out of range are undefined (addField does not check)."
  },
  {
   "property": "C233",
   "status": "partial",
   "theorems": [
    "C233_stays_refuted",
    "C233_stays_partial"
   ],
   "note": "False: reading a later time with skipRead replaces the fields of all times by missing ones. Proved if the file has the variable and it is not read with skipRead, or if it has fields for all times."
  },
  {
   "property": "C234",
   "status": "partial",
   "theorems": [
    "C234_outside_refuted",
    "C234_outside_partial"
   ],
   "note": "False for a negative time of a variable that was not read before: the comparison is with signed numbers and the vector is written outside. Proved: never a result; an error for times too large, and for negative ones once the variable was read."
  },
  {
   "property": "C235",
   "status": "proved",
   "theorems": [
    "C235_content",
    "C235_missing"
   ],
   "note": "The content is a parameter; formats that create a field for each read."
  },
  {
   "property": "C236",
   "status": "partial",
   "theorems": [
    "C236_separate_refuted",
    "C236_separate_partial"
   ],
   "note": "False for text files: all variables share the fields made when the file was opened. Proved for formats that create a field for each read."
  },
  {
   "property": "C237",
   "status": "proved",
   "theorems": [
    "C237_initialised"
   ],
   "note": "Files with at least one time."
  },
  {
   "property": "C238",
   "status": "partial",
   "theorems": [
    "C238_cleared_refuted",
    "C238_cleared_partial"
   ],
   "note": "False for text files: changed values remain. Proved for formats that create a field for each read."
  },
  {
   "property": "C239",
   "status": "partial",
   "theorems": [
    "C239_levels_refuted",
    "C239_alias_partial"
   ],
   "note": "False for two aliases of variables with the same name and different levels: the cache compares names only, so the second returns the field of the first. Proved if no variable has the name of the alias and its variable was not read, or for the field it has."
  },
  {
   "property": "C24",
   "status": "proved",
   "theorems": [
    "C24_parallel_rows_equal_sequential_loop",
    "C24_parallel_cells_equal_sequential_loop"
   ],
   "note": "All distributions (with repetition) and interleavings; termination, progress, and failure behaviour included. Steps are sequentially consistent."
  },
  {
   "property": "C240",
   "status": "proved",
   "theorems": [
    "C240_text_file",
    "C240_text_file_opens"
   ],
   "note": "Lines are given as numbers; longitudes are normalised as in C167; opening proved for nonzero longitudes (zero is undefined, see C167)."
  },
  {
   "property": "C241",
   "status": "partial",
   "theorems": [
    "C241_text_round_trip_refuted",
    "C241_text_members_partial"
   ],
   "note": "False: only the first place is written, without coordinates. Proved: if the file can be read at all, it has three members fewer."
  },
  {
   "property": "C242",
   "status": "partial",
   "theorems": [
    "C242_point_round_trip_refuted",
    "C242_point_round_trip_partial"
   ],
   "note": "False: the time column is compared with the number of the time, so files with UNIX times (as documented) give missing values. Proved: reading number t gives the values written for time t, so the round trip holds if times are their numbers."
  },
  {
   "property": "C243",
   "status": "proved",
   "theorems": [
    "C243_lowest_pressure"
   ],
   "note": "Pressures are converted to integers first."
  },
  {
   "property": "C244",
   "status": "partial",
   "theorems": [
    "C244_mean_refuted",
    "C244_mean_partial"
   ],
   "note": "False if a member with a missing value elsewhere has a value at a station: it counts in the mean there but not in the departures. Proved if such members are missing at the stations used. At least two complete members; in the case that the decomposition fails see C246. Stations and correlations are given (C222-C224)."
  },
  {
   "property": "C245",
   "status": "partial",
   "theorems": [
    "C245_spread_partial"
   ],
   "note": "Under the hypotheses of C244_mean_partial."
  },
  {
   "property": "C246",
   "status": "partial",
   "theorems": [
    "C246_members_partial"
   ],
   "note": "Under the hypotheses of C244_mean_partial."
  },
  {
   "property": "C247",
   "status": "partial",
   "theorems": [
    "C247_difference_refuted",
    "C247_difference_partial"
   ],
   "note": "False: what is stored is the analysis minus the mean of the background, so differences of members in the background appear as changes. Proved: exactly that is stored."
  },
  {
   "property": "C248",
   "status": "partial",
   "theorems": [
    "C248_limit_refuted",
    "C248_limit_partial"
   ],
   "note": "False with two stations: the departure of element number e of a matrix is used for member e. Proved with one station."
  },
  {
   "property": "C249",
   "status": "proved",
   "theorems": [
    "C249_parameters"
   ],
   "note": "Parameter files with only observations have one parameter, so ensemble mode always needs variances."
  },
  {
   "property": "C25",
   "status": "proved",
   "theorems": [
    "C25_thresholds_sorted_values_of_field"
   ],
   "note": ""
  },
  {
   "property": "C250",
   "status": "proved",
   "theorems": [
    "C250_least_squares",
    "C250_checks"
   ],
   "note": "Missing values are not recognised by the regression: the theorem is about numbers."
  },
  {
   "property": "C251",
   "status": "partial",
   "theorems": [
    "C251_training_refuted",
    "C251_training_partial"
   ],
   "note": "False, with the default options, if the forecast at the point with the least land is missing in a case: the number for missing values is taken as forecast. Proved if the forecast to be corrected is known in all cases with an observation and a forecast at the point; in the case of similar land fractions errors must be above the number for missing values."
  },
  {
   "property": "C252",
   "status": "partial",
   "theorems": [
    "C252_cases_refuted",
    "C252_cases_partial"
   ],
   "note": "False: with one case, or if the gradient is the same in all, the program stops. Proved: it stops in these cases and without cases; in the others C251_training_partial gives the parameters."
  },
  {
   "property": "C253",
   "status": "proved",
   "theorems": [
    "C253_no_bias"
   ],
   "note": "The calibration of a point is the rule of C208 with the values of the raw field; all members present. Follows from the least squares property and is about both functions."
  },
  {
   "property": "C254",
   "status": "proved",
   "theorems": [
    "C254_information"
   ],
   "note": ""
  },
  {
   "property": "C255",
   "status": "partial",
   "theorems": [
    "C255_debug_refuted",
    "C255_debug_partial",
    "C255_no_level"
   ],
   "note": "False if fewer than two other arguments are given: --debug and its level count when the number of arguments is checked, so `gridpp in --debug info` is an error where `gridpp in` shows the help. Proved with two other arguments or more; the levels shown and the missing level without restriction (C255_debug_partial, C255_no_level)."
  },
  {
   "property": "C256",
   "status": "proved",
   "theorems": [
    "C256_calls",
    "C256_finishes"
   ],
   "note": "The calls are recorded, not carried out: they are modelled elsewhere (M_CFile and the downscalers and calibrators). Names of variables, downscalers and calibrators are assumed to be known."
  },
  {
   "property": "C257",
   "status": "partial",
   "theorems": [
    "C257_written_refuted",
    "C257_written_partial"
   ],
   "note": "False: the option is read as a number, so that write=true keeps the variable back as well. Proved: a variable is written exactly if the number read is not 0; text without a number is read as 0."
  },
  {
   "property": "C258",
   "status": "proved",
   "theorems": [
    "C258_message"
   ],
   "note": "The name of the program is not part of the message."
  },
  {
   "property": "C259",
   "status": "partial",
   "theorems": [
    "C259_ensemble_refuted",
    "C259_level_refuted",
    "C259_read_partial"
   ],
   "note": "False: a variable without the ensemble dimension fills only the first member, the others are missing (likewise without y or x dimension); a negative level makes the library refuse, which is not noticed, and the values used are not initialised. Proved: every element that the variable has, for any order of dimensions and any valid level, and that the others are missing."
  },
  {
   "property": "C26",
   "status": "proved",
   "theorems": [
    "C26_neighbourhood_search",
    "C26_search_arguments_checked"
   ],
   "note": ""
  },
  {
   "property": "C260",
   "status": "partial",
   "theorems": [
    "C260_fill_refuted",
    "C260_packed_partial"
   ],
   "note": "False if the missing value of the variable is -999: it is then scaled like a number. Proved for every other missing value."
  },
  {
   "property": "C261",
   "status": "partial",
   "theorems": [
    "C261_level_refuted",
    "C261_time_refuted",
    "C261_round_trip_partial"
   ],
   "note": "False for a variable with a level dimension when a level other than the first was read: it is written to the first level; false for a variable of the file without time dimension: the last time is left. Proved for reading without level, variables of the file with all its dimensions, room for the times or an unlimited time dimension, numbers that do not coincide with the missing value, and storage without rounding; new variables and new dimensions included."
  },
  {
   "property": "C262",
   "status": "partial",
   "theorems": [
    "C262_nearest_refuted",
    "C262_integers_partial"
   ],
   "note": "False: the number is cut off, not rounded, so the error can be almost the scale. Proved: the error is less than the scale, and missing values come back."
  },
  {
   "property": "C263",
   "status": "proved",
   "theorems": [
    "C263_untouched"
   ],
   "note": "Stated for variables that are stored without rounding (their type does not matter for what is left alone)."
  },
  {
   "property": "C264",
   "status": "partial",
   "theorems": [
    "C264_fewer_refuted",
    "C264_no_dimension_refuted",
    "C264_larger_partial"
   ],
   "note": "False: if the ensemble dimension of the file is smaller than the number of members, the others are dropped silently; also if the variable has no ensemble dimension. Proved: with a larger ensemble dimension writing never succeeds; with the same size C261 holds."
  },
  {
   "property": "C265",
   "status": "partial",
   "theorems": [
    "C265_one_dimension_refuted",
    "C265_points_partial",
    "C265_one_dimension_partial",
    "C265_no_dimension"
   ],
   "note": "False for variables with one dimension: their missing values are not recognised. Proved for those with more dimensions, and for one dimension up to missing values."
  },
  {
   "property": "C266",
   "status": "proved",
   "theorems": [
    "C266_parallelogram",
    "C266_linear"
   ],
   "note": ""
  },
  {
   "property": "C267",
   "status": "proved",
   "theorems": [
    "C267_no_bias"
   ],
   "note": "A station far away has this effect too: the correction is given up at all points."
  },
  {
   "property": "C268",
   "status": "proved",
   "theorems": [
    "C268_parameters"
   ],
   "note": ""
  },
  {
   "property": "C269",
   "status": "partial",
   "theorems": [
    "C269_time_refuted",
    "C269_dimensions_refuted",
    "C269_coordinates_refuted",
    "C269_read_partial"
   ],
   "note": "False for a dimension of times without a variable for them (only the first time is used) and undefined behaviour for more than four dimensions or for coordinates with further dimensions. Proved for the files described by shape_of and well_shaped: any order of the dimensions, coordinates along the rows, columns or both."
  },
  {
   "property": "C27",
   "status": "proved",
   "theorems": [
    "C27_apply_curve"
   ],
   "note": "Extrapolation slopes need the two defining forecast values to differ (slope_defined), otherwise the code divides by zero."
  },
  {
   "property": "C270",
   "status": "proved",
   "theorems": [
    "C270_nearest_point"
   ],
   "note": "For the files of C269_read_partial with located points."
  },
  {
   "property": "C271",
   "status": "partial",
   "theorems": [
    "C271_name_refuted",
    "C271_other_names",
    "C271_first_refuted",
    "C271_round_trip_partial"
   ],
   "note": "False if the dimension of the parameters is given another name than coeff (it is always written as coeff) and if the first place has no parameters (an error). Proved otherwise, for sets that are empty or of one size, located places, and fewer than 2147483646 times."
  },
  {
   "property": "C272",
   "status": "partial",
   "theorems": [
    "C272_greenwich_refuted",
    "C272_grid_partial",
    "C272_named"
   ],
   "note": "A longitude of exactly 0 is undefined behaviour (division of 0 by 0 converted to int). Proved for all other files described by describes, grid_ready and times_ready."
  },
  {
   "property": "C273",
   "status": "proved",
   "theorems": [
    "C273_elevations"
   ],
   "note": "For the files of C272_grid_partial."
  },
  {
   "property": "C274",
   "status": "partial",
   "theorems": [
    "C274_reference_refuted",
    "C274_sizes_refuted",
    "C274_times_partial",
    "C274_no_times"
   ],
   "note": "False for a single time that is not along a dimension (the reference time stays missing); undefined behaviour if the times are along another dimension than the one used. Proved otherwise."
  },
  {
   "property": "C275",
   "status": "proved",
   "theorems": [
    "C275_recognised"
   ],
   "note": "The checks of the file format are those of the NetCDF library and not modelled."
  },
  {
   "property": "C276",
   "status": "partial",
   "theorems": [
    "C276_missing_refuted",
    "C276_altitude_refuted",
    "C276_round_trip_partial"
   ],
   "note": "A missing reference time comes back as 9.97e36 and altitudes that change with time abort the writing. Proved for files with a dimension of times that are all known, and altitudes along the grid's dimensions."
  },
  {
   "property": "C277",
   "status": "partial",
   "theorems": [
    "C277_opened",
    "C277_only"
   ],
   "note": "Opening is proved for stations whose longitude is not exactly 0 (undefined behaviour, see C272); missing latitudes and longitudes pass the checks."
  },
  {
   "property": "C278",
   "status": "proved",
   "theorems": [
    "C278_time_stamp"
   ],
   "note": "For the years of in_years."
  },
  {
   "property": "C279",
   "status": "partial",
   "theorems": [
    "C279_late_refuted",
    "C279_text_partial",
    "C279_width"
   ],
   "note": "The first and last time are not compared with the number of times, so that a file that was opened can read past the end of its times when it is written. Proved otherwise, for stations with a smallest pressure from 0 to below 1000000 Pa."
  },
  {
   "property": "C28",
   "status": "proved",
   "theorems": [
    "C28_apply_curve_preserves_order"
   ],
   "note": ""
  },
  {
   "property": "C280",
   "status": "partial",
   "theorems": [
    "C280_fake_refuted",
    "C280_undefined",
    "C280_sizes"
   ],
   "note": "The first column has longitude 0, so that the conversion of 0/0 to int is reached for all positive sizes. The error for other sizes is proved."
  },
  {
   "property": "C281",
   "status": "proved",
   "theorems": [
    "C281_known",
    "C281_first",
    "C281_by_name"
   ],
   "note": ""
  },
  {
   "property": "C282",
   "status": "partial",
   "theorems": [
    "C282_recognised_refuted",
    "C282_detected_partial",
    "C282_only",
    "C282_none",
    "C282_unknown",
    "C282_given"
   ],
   "note": "A file with latitudes and longitudes but no times is recognised, and the program then stops. Proved otherwise; an empty type counts as a file not recognised."
  },
  {
   "property": "C283",
   "status": "partial",
   "theorems": [
    "C283_cold_refuted",
    "C283_gaussian_partial"
   ],
   "note": "False for ensembles with a mean that is not positive (temperatures in Celsius): whatever was observed, the density counts as 0.00001 for all parameters. Proved for positive means."
  },
  {
   "property": "C284",
   "status": "proved",
   "theorems": [
    "C284_zaga"
   ],
   "note": "For parameters that give a distribution (zaga_parameters); the fraction used in training is that of C202."
  },
  {
   "property": "C285",
   "status": "partial",
   "theorems": [
    "C285_sizes_refuted",
    "C285_grid_fields_partial",
    "C285_point_values_partial",
    "C285_gradients_partial",
    "C285_fill_and_doping_partial"
   ],
   "note": "False for a field without rows and for a field of which only the first row has the right number of columns: the values are read out of bounds. Proved for fields whose number of rows, or of columns in the first row (of the first time), is another. Missing: full_gradient between grids for time series."
  },
  {
   "property": "C286",
   "status": "proved",
   "theorems": [
    "C286_unknown_downscaler",
    "C286_calc_gradient",
    "C286_curves"
   ],
   "note": "For arrays of curves: sizes of the arrays and of each pair of curves, and the number of rows and the first row of the forecasts."
  },
  {
   "property": "C29",
   "status": "proved",
   "theorems": [
    "C29_monotonize_curve"
   ],
   "note": "Also proves that every returned point lies below all later complete points."
  },
  {
   "property": "C30",
   "status": "partial",
   "theorems": [
    "C30_monotonize_defined_partial",
    "C30_monotonize_defined_refuted"
   ],
   "note": "False: undefined exactly when no pair is complete."
  },
  {
   "property": "C31",
   "status": "proved",
   "theorems": [
    "C31_quantile_mapping_curve_sorts"
   ],
   "note": ""
  },
  {
   "property": "C32",
   "status": "partial",
   "theorems": [
    "C32_quantile_mapping_levels_partial",
    "C32_quantile_mapping_levels_refuted"
   ],
   "note": "False for unsorted samples: the code indexes the unsorted arrays. Proved for sorted samples of at least two pairs."
  },
  {
   "property": "C33",
   "status": "proved",
   "theorems": [
    "C33_scores"
   ],
   "note": ""
  },
  {
   "property": "C34",
   "status": "proved",
   "theorems": [
    "C34_score_classifies_pairs"
   ],
   "note": ""
  },
  {
   "property": "C35",
   "status": "proved",
   "theorems": [
    "C35_grid_index_round_trip"
   ],
   "note": ""
  },
  {
   "property": "C36",
   "status": "partial",
   "theorems": [
    "C36_radius_search_partial",
    "C36_radius_search_refuted"
   ],
   "note": "The search additionally requires every coordinate difference to be strictly below the radius (box query is strict), so points exactly at the radius along an axis, and coinciding points at radius 0, are dropped; refuted as stated, exact set characterised in the partial theorem."
  },
  {
   "property": "C37",
   "status": "proved",
   "theorems": [
    "C37_nearest_neighbours"
   ],
   "note": ""
  },
  {
   "property": "C38",
   "status": "partial",
   "theorems": [
    "C38_copies_keep_type_partial",
    "C38_copies_keep_type_refuted"
   ],
   "note": "Cartesian Points become Geodetic when copied, assigned or subset (or the copy throws); Geodetic objects are copied exactly."
  },
  {
   "property": "C39",
   "status": "partial",
   "theorems": [
    "C39_point_position_partial",
    "C39_point_position_refuted"
   ],
   "note": "The Cartesian Point constructor exchanges x and y relative to get_point; Geodetic points agree and distances within one kind agree."
  },
  {
   "property": "C40",
   "status": "proved",
   "theorems": [
    "C40_get_box"
   ],
   "note": ""
  },
  {
   "property": "C41",
   "status": "proved",
   "theorems": [
    "C41_point_in_rectangle"
   ],
   "note": ""
  },
  {
   "property": "C42",
   "status": "proved",
   "theorems": [
    "C42_nearest_from_grid",
    "C42_nearest_from_points",
    "C42_nearest_grid_and_points_agree"
   ],
   "note": "All eight overloads. Output latitudes must be valid for the input coordinate type. The spatial index is an oracle with the contract geo_ok."
  },
  {
   "property": "C43",
   "status": "proved",
   "theorems": [
    "C43_bilinear_grid",
    "C43_bilinear_points",
    "C43_bilinear_between_corners",
    "C43_bilinear_at_grid_point",
    "C43_bilinear_reproduces_affine",
    "C43_bilinear_mean_any_cell"
   ],
   "note": "All four overloads on grids whose cells are non-degenerate parallelograms; exact arithmetic. For cells of any shape a returned value is still a weighted mean of the corners. Coordinates must be accepted by get_box (C68)."
  },
  {
   "property": "C44",
   "status": "partial",
   "theorems": [
    "C44_gridding_grid_partial",
    "C44_gridding_points_partial",
    "C44_gridding_invalid_partial",
    "C44_gridding_boundary_refuted"
   ],
   "note": "Fails as stated: a point exactly at the radius along an axis is left out (refuted). Proved with 'within radius' read as strictly inside the bounding box and not farther than the radius."
  },
  {
   "property": "C45",
   "status": "proved",
   "theorems": [
    "C45_gridding_nearest_grid",
    "C45_gridding_nearest_points"
   ],
   "note": "Conservation for min_num 0 or 1 (a larger min_num drops cells by definition)."
  },
  {
   "property": "C46",
   "status": "partial",
   "theorems": [
    "C46_fill_partial",
    "C46_fill_throws",
    "C46_fill_boundary_refuted"
   ],
   "note": "Fails as stated: a cell exactly at the radius along an axis is not filled (refuted). Proved for the circle as the radius search sees it."
  },
  {
   "property": "C47",
   "status": "partial",
   "theorems": [
    "C47_doping_square",
    "C47_doping_circle_partial",
    "C47_doping_throws",
    "C47_doping_circle_boundary_refuted"
   ],
   "note": "Square variant proved in full. Circle variant fails at the boundary like C46 (refuted), proved for the circle as the radius search sees it."
  },
  {
   "property": "C48",
   "status": "proved",
   "theorems": [
    "C48_fill_missing"
   ],
   "note": ""
  },
  {
   "property": "C49",
   "status": "partial",
   "theorems": [
    "C49_fill_missing_complete_refuted",
    "C49_fill_missing_complete_partial"
   ],
   "note": "Refuted: leading and trailing gaps stay missing. Proved when every missing cell lies between known cells in its row or column."
  },
  {
   "property": "C50",
   "status": "proved",
   "theorems": [
    "C50_downscale_probability",
    "C50_probability_laws"
   ],
   "note": "nearest cell's finite members; range, complement and monotonicity laws; inputs of the documented shape"
  },
  {
   "property": "C51",
   "status": "proved",
   "theorems": [
    "C51_mask_threshold_downscale"
   ],
   "note": "all listed statistics and every quantile level in [0,1]"
  },
  {
   "property": "C52",
   "status": "partial",
   "theorems": [
    "C52_simple_gradient",
    "C52_full_gradient",
    "C52_no_correction_partial",
    "C52_missing_elevation_refuted"
   ],
   "note": "all eight overloads proved equal to plain value plus corrections (given that plain downscaling succeeds: C42, C43); 'no correction where elevation is missing' holds for full_gradient and is refuted for simple_gradient"
  },
  {
   "property": "C53",
   "status": "proved",
   "theorems": [
    "C53_barnes_powerlaw"
   ],
   "note": "exact real arithmetic; scales v, w may also be 0 (disabled)"
  },
  {
   "property": "C54",
   "status": "partial",
   "theorems": [
    "C54_vertical_symmetry_refuted",
    "C54_symmetric_partial"
   ],
   "note": "refuted: the signed elevation or land-fraction difference is used, so Cressman and Soar can be negative, Toar exceeds 1 and none is symmetric; holds where the differences are missing, zero or disabled (Cressman: no larger than the scale)"
  },
  {
   "property": "C55",
   "status": "proved",
   "theorems": [
    "C55_localization"
   ],
   "note": "for Barnes and also for the power law"
  },
  {
   "property": "C56",
   "status": "proved",
   "theorems": [
    "C56_cross_validation"
   ],
   "note": "for every constructible wrapped structure; also the vector form and rejected distances"
  },
  {
   "property": "C57",
   "status": "proved",
   "theorems": [
    "C57_background_unchanged"
   ],
   "note": "A missing background, and any cell without usable observation, keeps its background (and variance); no observations returns the background."
  },
  {
   "property": "C58",
   "status": "proved",
   "theorems": [
    "C58_no_departure"
   ],
   "note": "For finite correlations and variances."
  },
  {
   "property": "C59",
   "status": "proved",
   "theorems": [
    "C59_analysis"
   ],
   "note": "Includes the characterisation of the chosen observations (predicate chosen) and the resulting analysis."
  },
  {
   "property": "C60",
   "status": "proved",
   "theorems": [
    "C60_single_observation"
   ],
   "note": ""
  },
  {
   "property": "C61",
   "status": "partial",
   "theorems": [
    "C61_no_extrapolation_refuted",
    "C61_no_extrapolation_partial"
   ],
   "note": "False when the largest (smallest) departure is exactly 0; proved otherwise."
  },
  {
   "property": "C62",
   "status": "partial",
   "theorems": [
    "C62_full_grid_refuted",
    "C62_full_grid_partial"
   ],
   "note": "False without observations (read of an unwritten vector); proved for at least one observation."
  },
  {
   "property": "C63",
   "status": "proved",
   "theorems": [
    "C63_transforms_inverse"
   ],
   "note": ""
  },
  {
   "property": "C64",
   "status": "partial",
   "theorems": [
    "C64_boxcox_negative_refuted",
    "C64_boxcox_negative_infinite"
   ],
   "note": "False: for a negative parameter and x > 0 backward(forward(x)) is always +infinity."
  },
  {
   "property": "C65",
   "status": "proved",
   "theorems": [
    "C65_wind_speed",
    "C65_wind_direction",
    "C65_wind_determined"
   ],
   "note": "Exact arithmetic; for binary32 see C87. Direction equals the true angle up to 1e-5 degrees because gridpp::pi is a float."
  },
  {
   "property": "C66",
   "status": "proved",
   "theorems": [
    "C66_pressure",
    "C66_qnh"
   ],
   "note": ""
  },
  {
   "property": "C67",
   "status": "proved",
   "theorems": [
    "C67_relative_humidity",
    "C67_dewpoint"
   ],
   "note": ""
  },
  {
   "property": "C68",
   "status": "partial",
   "theorems": [
    "C68_get_box_geodetic_partial",
    "C68_get_box_cartesian_refuted"
   ],
   "note": "get_box builds its corner points as Geodetic, so it throws for Cartesian grids with |y| > 90.001; never an error for Geodetic grids."
  },
  {
   "property": "C69",
   "status": "proved",
   "theorems": [
    "C69_count"
   ],
   "note": "All four overloads; 'found' is the radius search of C36."
  },
  {
   "property": "C70",
   "status": "partial",
   "theorems": [
    "C70_bilinear_convex_cell_refuted",
    "C43_bilinear_mean_any_cell"
   ],
   "note": "False: for a trapezoid cell with constant latitude along rows and decreasing with the row the third branch of calcGeneral tries the same root twice and the call aborts. Returned values are weighted means (C43_bilinear_mean_any_cell)."
  },
  {
   "property": "C71",
   "status": "partial",
   "theorems": [
    "C71_full_gradient_debug_partial",
    "C71_debug_without_land_gradient",
    "C71_full_gradient_debug_refuted"
   ],
   "note": "holds with both gradients given; with the default empty laf_gradient every call reads an empty array"
  },
  {
   "property": "C72",
   "status": "partial",
   "theorems": [
    "C72_minmax_gradient_partial",
    "C72_calc_gradient_rejects",
    "C72_flat_terrain_refuted"
   ],
   "note": "constant base with min_range missing (the default) gives 0/0 instead of the default gradient"
  },
  {
   "property": "C73",
   "status": "proved",
   "theorems": [
    "C73_regression_gradient",
    "C73_regression_recovers_line"
   ],
   "note": "square root is an oracle (any function)"
  },
  {
   "property": "C74",
   "status": "partial",
   "theorems": [
    "C74_soar_toar_cutoff_refuted",
    "C74_soar_toar_cutoff_partial"
   ],
   "note": "refuted: with hmax = h/2 the localization distance is negative and even a point's correlation with itself is 0; the default cut-off truncates where the correlation still exceeds 0.0013; partial: correlation is the untruncated product up to the localization distance and 0 beyond"
  },
  {
   "property": "C75",
   "status": "partial",
   "theorems": [
    "C75_vector_form_partial",
    "C75_vector_form_refuted"
   ],
   "note": "refuted where a spatially varying scale is missing (single form 1, vector form 0); proved when the scales are present and the smallest correlation is in (0,1)"
  },
  {
   "property": "C76",
   "status": "partial",
   "theorems": [
    "C76_linear_refuted",
    "C76_linear_partial"
   ],
   "note": "refuted: correlation is 0 at any positive distance, and scale 0 does not disable; holds for collocated points"
  },
  {
   "property": "C77",
   "status": "proved",
   "theorems": [
    "C77_clone"
   ],
   "note": ""
  },
  {
   "property": "C78",
   "status": "proved",
   "theorems": [
    "C78_multiple"
   ],
   "note": ""
  },
  {
   "property": "C79",
   "status": "proved",
   "theorems": [
    "C79_variance_reduced"
   ],
   "note": ""
  },
  {
   "property": "C80",
   "status": "proved",
   "theorems": [
    "C80_exact_at_observation"
   ],
   "note": ""
  },
  {
   "property": "C81",
   "status": "proved",
   "theorems": [
    "C81_observation_order"
   ],
   "note": ""
  },
  {
   "property": "C82",
   "status": "proved",
   "theorems": [
    "C82_points",
    "C82_grid",
    "C82_full_grid"
   ],
   "note": ""
  },
  {
   "property": "C83",
   "status": "partial",
   "theorems": [
    "C83_sizes_refuted",
    "C83_sizes_points_partial",
    "C83_sizes_grid_partial"
   ],
   "note": "The background at the observations (Points) and background variances (full Grid) are not checked; all other sizes are."
  },
  {
   "property": "C84",
   "status": "proved",
   "theorems": [
    "C84_always_returns"
   ],
   "note": ""
  },
  {
   "property": "C85",
   "status": "proved",
   "theorems": [
    "C85_transforms_onto"
   ],
   "note": ""
  },
  {
   "property": "C86",
   "status": "proved",
   "theorems": [
    "C86_gamma_inverse"
   ],
   "note": "Relative to Boost's distribution functions satisfying boost_ok."
  },
  {
   "property": "C87",
   "status": "partial",
   "theorems": [
    "C87_direction_360_refuted",
    "C87_direction_range_partial"
   ],
   "note": "False: a tiny positive xwind with negative ywind gives 360. The result is always in [0,360]."
  },
  {
   "property": "C88",
   "status": "partial",
   "theorems": [
    "C88_dewpoint_dry_refuted",
    "C88_dewpoint_monotone_partial"
   ],
   "note": "False at relative humidity 0, where the dew point is the temperature. True on (0,1] for temperatures from 30.11 to 4000 K."
  },
  {
   "property": "C89",
   "status": "partial",
   "theorems": [
    "C89_wetbulb_exceeds_refuted",
    "C89_wetbulb_between_partial",
    "C89_wetbulb_missing",
    "C89_wetbulb_unphysical"
   ],
   "note": "False near saturation. True up to 90 % relative humidity and 50 degrees."
  },
  {
   "property": "C90",
   "status": "partial",
   "theorems": [
    "C90_slp_dry_refuted",
    "C90_slp_partial"
   ],
   "note": "False for relative humidity 0 below 50 m (NaN). Partial: altitude 0, altitude >= 50 m and the exceptions."
  },
  {
   "property": "C91",
   "status": "partial",
   "theorems": [
    "C91_arrays_two",
    "C91_relative_humidity_array",
    "C91_arrays_more",
    "C91_slp_array_partial",
    "C91_slp_array_aborts_refuted"
   ],
   "note": "False only for sea_level_pressure with an element the scalar version rejects: the exception leaves a parallel loop and the program ends."
  },
  {
   "property": "C92",
   "status": "proved",
   "theorems": [
    "C92_neighbourhood_score",
    "C92_invalid_arguments"
   ],
   "note": "Metrics of the API only; an invalid metric throws inside a parallel loop."
  },
  {
   "property": "C93",
   "status": "proved",
   "theorems": [
    "C93_distance",
    "C93_approximate_distance",
    "C93_approximate_plane",
    "C93_point_objects"
   ],
   "note": "Real arithmetic."
  },
  {
   "property": "C94",
   "status": "proved",
   "theorems": [
    "C94_grid_to_points",
    "C94_grid_to_grid",
    "C94_points_to_grid",
    "C94_points_to_points",
    "C94_coordinate_types",
    "C94_more_neighbours",
    "C94_one_neighbour"
   ],
   "note": "Real arithmetic; rtree contract."
  },
  {
   "property": "C95",
   "status": "proved",
   "theorems": [
    "C95_static_correlations",
    "C95_invalid_arguments"
   ],
   "note": ""
  },
  {
   "property": "C96",
   "status": "proved",
   "theorems": [
    "C96_smart_neighbours"
   ],
   "note": "exact arithmetic; the ordering is stated when no correlation is NaN"
  },
  {
   "property": "C97",
   "status": "proved",
   "theorems": [
    "C97_distribution_correction",
    "C97_agreement_unchanged",
    "C97_size_error"
   ],
   "note": "exact arithmetic; exp and sort are oracles with a stated contract; weights in reach assumed finite and positive"
  },
  {
   "property": "C98",
   "status": "partial",
   "theorems": [
    "C98_no_observations_refuted",
    "C98_no_observations_partial"
   ],
   "note": "false with the default min_points = 0 for backgrounds below 0.1; holds for min_points > 0 or backgrounds of at least 0.1"
  },
  {
   "property": "C99",
   "status": "proved",
   "theorems": [
    "C99_optimal_threshold",
    "C99_unknown_metric"
   ],
   "note": "the minimiser is an oracle with a recorded contract"
  }
 ]
}