{
 "claims": [
  {
   "property": "C01",
   "status": "proved",
   "theorems": [
    "C01_mbb_tight"
   ],
   "note": ""
  },
  {
   "property": "C02",
   "status": "proved",
   "theorems": [
    "C02_default_window"
   ],
   "note": ""
  },
  {
   "property": "C03",
   "status": "proved",
   "theorems": [
    "C03_reads_stable",
    "C03_values"
   ],
   "note": "histories may also contain flips and add_marks calls"
  },
  {
   "property": "C04",
   "status": "proved",
   "theorems": [
    "C04_first_read",
    "C04_later_reads",
    "C04_stale_refuted"
   ],
   "note": "natural claim refuted; exact behaviour proved"
  },
  {
   "property": "C05",
   "status": "proved",
   "theorems": [
    "C05_explode",
    "C05_errors",
    "C05_nan_refuted"
   ],
   "note": "rows with NaN marks are lost and add an empty pattern"
  },
  {
   "property": "C06",
   "status": "proved",
   "theorems": [
    "C06_unique",
    "C06_first_kept"
   ],
   "note": ""
  },
  {
   "property": "C07",
   "status": "proved",
   "theorems": [
    "C07_unique_window_refuted",
    "C07_lambda_window_refuted"
   ],
   "note": "natural claim refuted for every pattern"
  },
  {
   "property": "C08",
   "status": "proved",
   "theorems": [
    "C08_superimpose",
    "C08_algebra"
   ],
   "note": ""
  },
  {
   "property": "C09",
   "status": "proved",
   "theorems": [
    "C09_default_marks_fresh",
    "C09_stored",
    "C09_named_refuted"
   ],
   "note": "default names; refuted for user-chosen names"
  },
  {
   "property": "C10",
   "status": "proved",
   "theorems": [
    "C10_coord_names",
    "C10_second_call_refuted"
   ],
   "note": "natural claim refuted; exact condition proved"
  },
  {
   "property": "C100",
   "status": "proved",
   "theorems": [
    "C100_integer",
    "C100_generator",
    "C100_bits",
    "C100_random_state",
    "C100_no_simulations"
   ],
   "note": "generators as objects with a remaining stream; finding: RandomState used for a seed only"
  },
  {
   "property": "C101",
   "status": "proved",
   "theorems": [
    "C101_error",
    "C101_center",
    "C101_grid",
    "C101_two",
    "C101_outside_refuted"
   ],
   "note": "sums from first to last (numpy's column sums of an n x 2 array); finding"
  },
  {
   "property": "C102",
   "status": "proved",
   "theorems": [
    "C102_radicand",
    "C102_result",
    "C102_defined",
    "C102_coincident_refuted",
    "C102_cancellation_refuted"
   ],
   "note": "sums from first to last; findings"
  },
  {
   "property": "C103",
   "status": "proved",
   "theorems": [
    "C103_counts",
    "C103_key_error_refuted"
   ],
   "note": "cos(pi/6) is any float between 1/2 and 1 (the witness uses libm's value); finding"
  },
  {
   "property": "C104",
   "status": "proved",
   "theorems": [
    "C104_containing"
   ],
   "note": "cos(pi/6) is any float between 1/2 and 1"
  },
  {
   "property": "C105",
   "status": "proved",
   "theorems": [
    "C105_knox_mean",
    "C105_table_mean",
    "C105_modified_knox_centred"
   ],
   "note": "exact arithmetic; Enum lists every permutation once"
  },
  {
   "property": "C106",
   "status": "proved",
   "theorems": [
    "C106_analytic_exact",
    "C106_conditional_exact",
    "C106_same_null_refuted"
   ],
   "note": "exact arithmetic; finding"
  },
  {
   "property": "C107",
   "status": "proved",
   "theorems": [
    "C107_jacquez_mean",
    "C107_jacquez_ties_refuted",
    "C107_mantel_centred",
    "C107_mantel_mean"
   ],
   "note": "k-nearest contract for KNN; correlation on real numbers, reported coefficient accurate to eps; finding"
  },
  {
   "property": "C108",
   "status": "proved",
   "theorems": [
    "C108_points",
    "C108_points_real",
    "C108_rectangle",
    "C108_weights",
    "C108_dtot_forms_refuted"
   ],
   "note": "contracts of shapely.get_coordinates, multipoints and envelope as in the model; finding"
  },
  {
   "property": "C109",
   "status": "proved",
   "theorems": [
    "C109_parts",
    "C109_holes",
    "C109_envelope",
    "C109_polygon",
    "C109_start_refuted",
    "C109_types"
   ],
   "note": "exact arithmetic; finding"
  },
  {
   "property": "C11",
   "status": "proved",
   "theorems": [
    "C11_contains",
    "C11_coord_names_refuted"
   ],
   "note": "refuted when the coordinate columns are not the first two"
  },
  {
   "property": "C110",
   "status": "proved",
   "theorems": [
    "C110_touching",
    "C110_covered",
    "C110_scaled",
    "C110_not_covered_refuted"
   ],
   "note": "contract of Point.buffer: regular polygon on the circle; real arithmetic; finding"
  },
  {
   "property": "C111",
   "status": "proved",
   "theorems": [
    "C111_hotspots",
    "C111_connected",
    "C111_attributes",
    "C111_total",
    "C111_duplicate_labels_refuted",
    "C111_crit_refuted",
    "C111_sim_refuted"
   ],
   "note": "contract of query_ball_tree and pandas merge/groupby/replace as in the model; integer labels; findings"
  },
  {
   "property": "C112",
   "status": "proved",
   "theorems": [
    "C112_lines",
    "C112_missing_line_refuted",
    "C112_columns_refuted"
   ],
   "note": "contract of pandas loc and merge as in the model; findings"
  },
  {
   "property": "C113",
   "status": "proved",
   "theorems": [
    "C113_f_first",
    "C113_g_first",
    "C113_f_last",
    "C113_g_last",
    "C113_k_first",
    "C113_k_default",
    "C113_j_first"
   ],
   "note": "one random stream, as with n_jobs=1; j before truncation; finding"
  },
  {
   "property": "C114",
   "status": "proved",
   "theorems": [
    "C114_same_pvalues"
   ],
   "note": "one random stream; square root on the reals, not binary64"
  },
  {
   "property": "C115",
   "status": "proved",
   "theorems": [
    "C115_g",
    "C115_k",
    "C115_f",
    "C115_support",
    "C115_given_distances",
    "C115_given_curve",
    "C115_precomputed",
    "C115_f_refuted",
    "C115_support_refuted",
    "C115_j",
    "C115_j_array",
    "C115_f_function",
    "C115_hull",
    "C115_pair"
   ],
   "note": "contract of the tree query; exact arithmetic; findings"
  },
  {
   "property": "C116",
   "status": "proved",
   "theorems": [
    "C116_decision",
    "C116_order",
    "C116_knox",
    "C116_folded",
    "C116_folded_decision",
    "C116_tie_refuted",
    "C116_upper",
    "C116_small_tail"
   ],
   "note": "rounding to nearest even as in Flocq; cdf values are arguments; findings"
  },
  {
   "property": "C117",
   "status": "proved",
   "theorems": [
    "C117_g",
    "C117_k",
    "C117_units",
    "C117_flat",
    "C117_rotation_refuted"
   ],
   "note": "contract of the tree query; exact arithmetic; findings"
  },
  {
   "property": "C118",
   "status": "proved",
   "theorems": [
    "C118_g_test",
    "C118_k_test",
    "C118_l_test",
    "C118_f_test",
    "C118_j_test",
    "C118_default_hull",
    "C118_f_order_refuted"
   ],
   "note": "one random stream; exact arithmetic; j before truncation; distances not given by the caller; finding"
  },
  {
   "property": "C119",
   "status": "proved",
   "theorems": [
    "C119_imports",
    "C119_failure",
    "C119_drawn",
    "C119_same",
    "C119_values",
    "C119_default_engine",
    "C119_kernel_resolution_refuted",
    "C119_columns_refuted",
    "C119_few_points_refuted"
   ],
   "note": "estimators and contour are arguments; contour wants two nodes per axis; findings"
  },
  {
   "property": "C12",
   "status": "proved",
   "theorems": [
    "C12_flip"
   ],
   "note": ""
  },
  {
   "property": "C120",
   "status": "proved",
   "theorems": [
    "C120_global",
    "C120_local",
    "C120_rearrangements",
    "C120_motions",
    "C120_seed_refuted"
   ],
   "note": "contract of the tree query; exact arithmetic; finding on seeds and order"
  },
  {
   "property": "C121",
   "status": "proved",
   "theorems": [
    "C121_rectangle",
    "C121_hexagon",
    "C121_qstatistic",
    "C121_default_window",
    "C121_swap",
    "C121_mirror",
    "C121_mirror_refuted",
    "C121_mirror_width_refuted",
    "C121_hexagon_swap_refuted"
   ],
   "note": "exact arithmetic; the hexagon half height is converted with the side; findings on mirror images and exchanged axes"
  },
  {
   "property": "C122",
   "status": "proved",
   "theorems": [
    "C122_mean_center",
    "C122_weighted",
    "C122_manhattan",
    "C122_manhattan_rotation_refuted",
    "C122_std_distance",
    "C122_ellipse",
    "C122_equal_axes",
    "C122_minimises",
    "C122_euclidean_median",
    "C122_circle",
    "C122_minimum_bounding_circle"
   ],
   "note": "exact arithmetic; ellipse under the hypotheses of C18, bounding circle under those of C86 for both hulls; findings on rotations of the Manhattan median and on equal axes"
  },
  {
   "property": "C123",
   "status": "proved",
   "theorems": [
    "C123_len",
    "C123_plot",
    "C123_plot_default_window",
    "C123_flipped_plot_refuted",
    "C123_plot_unique",
    "C123_plot_marks",
    "C123_plot_overwritten",
    "C123_summary",
    "C123_effects",
    "C123_summary_unique",
    "C123_summary_stale",
    "C123_summary_consistent_refuted"
   ],
   "note": "scipy's hull is an arbitrary total function; text and colours are not modelled; findings on flipped outlines, overwritten coordinate columns, stale intensity and unique()"
  },
  {
   "property": "C124",
   "status": "proved",
   "theorems": [
    "C124_grids",
    "C124_same_grid",
    "C124_two_grids",
    "C124_truncated",
    "C124_mixed_refuted"
   ],
   "note": "exact arithmetic; trees and hull shapes are arbitrary functions; interp1d modelled as piecewise linear interpolation with bounds error; findings on mixed metrics"
  },
  {
   "property": "C125",
   "status": "proved",
   "theorems": [
    "C125_total",
    "C125_plot",
    "C125_distinct",
    "C125_explore",
    "C125_lines",
    "C125_table",
    "C125_grey_refuted",
    "C125_duplicate_refuted"
   ],
   "note": "labels are integers; GeoPandas' treatment of empty layers, axes and map objects not modelled; two findings"
  },
  {
   "property": "C126",
   "status": "proved",
   "theorems": [
    "C126_std",
    "C126_std_refuted",
    "C126_dtot",
    "C126_area",
    "C126_area_refuted",
    "C126_knox",
    "C126_knox_refuted"
   ],
   "note": "real arithmetic after the integer operations; numpy's warnings not modelled; findings"
  },
  {
   "property": "C127",
   "status": "proved",
   "theorems": [
    "C127_distance",
    "C127_counts",
    "C127_exact",
    "C127_value",
    "C127_monotone",
    "C127_order",
    "C127_flat",
    "C127_nearest",
    "C127_counts_refuted"
   ],
   "note": "scipy's euclidean distance is the root of the sum of squared differences, each operation rounded to nearest (no fused operations); finding"
  },
  {
   "property": "C128",
   "status": "proved",
   "theorems": [
    "C128_modified_knox",
    "C128_modified_knox_exchange",
    "C128_jacquez",
    "C128_jacquez_exchange",
    "C128_jacquez_ties_refuted",
    "C128_mantel",
    "C128_mantel_exchange",
    "C128_mantel_units_refuted"
   ],
   "note": "the Mantel coefficient is the exact coefficient passed through any function (rounding); findings"
  },
  {
   "property": "C129",
   "status": "proved",
   "theorems": [
    "C129_sequences",
    "C129_shapes",
    "C129_errors",
    "C129_columns",
    "C129_two_columns",
    "C129_bbox",
    "C129_contains_refuted",
    "C129_area_refuted",
    "C129_centroid",
    "C129_sequences_real",
    "C129_shapes_real",
    "C129_two_columns_real",
    "C129_heights",
    "C129_dtot_forms_refuted"
   ],
   "note": "arrays with no columns or more than two dimensions are outside the model; findings"
  },
  {
   "property": "C13",
   "status": "proved",
   "theorems": [
    "C13_knn",
    "C13_value_error",
    "C13_coincident_refuted"
   ],
   "note": "distances represented by their squares; refuted for coincident points"
  },
  {
   "property": "C130",
   "status": "proved",
   "theorems": [
    "C130_global",
    "C130_local",
    "C130_hypergeometric",
    "C130_modified_knox",
    "C130_knox_old_refuted",
    "C130_jacquez",
    "C130_monotone",
    "C130_poisson_refuted"
   ],
   "note": "query_ball_tree and the nearest neighbour search are arguments satisfying their specification; findings"
  },
  {
   "property": "C131",
   "status": "proved",
   "theorems": [
    "C131_linspace",
    "C131_exact",
    "C131_values",
    "C131_refused",
    "C131_default",
    "C131_order_refuted",
    "C131_grid_refuted"
   ],
   "note": "linspace and histogram in numpy's order of operations; range limits keep the step normal; findings"
  },
  {
   "property": "C132",
   "status": "proved",
   "theorems": [
    "C132_hull",
    "C132_positive",
    "C132_exact",
    "C132_closed",
    "C132_box",
    "C132_lambda_box",
    "C132_negative_refuted"
   ],
   "note": "the sum is any tree of additions of the terms and zeros; finding"
  },
  {
   "property": "C133",
   "status": "proved",
   "theorems": [
    "C133_centre",
    "C133_inside",
    "C133_scale",
    "C133_distance",
    "C133_zero",
    "C133_better",
    "C133_outside_refuted"
   ],
   "note": "products rounded before they are added (no fused multiply-add); finding"
  },
  {
   "property": "C134",
   "status": "proved",
   "theorems": [
    "C134_uniform",
    "C134_box",
    "C134_hull",
    "C134_circle",
    "C134_reversed_refuted",
    "C134_ends_refuted"
   ],
   "note": "streams of 53-bit integers; findings"
  },
  {
   "property": "C135",
   "status": "proved",
   "theorems": [
    "C135_poisson",
    "C135_exchangeable",
    "C135_point",
    "C135_counts",
    "C135_time",
    "C135_numbers",
    "C135_normal"
   ],
   "note": "numbers with a finite law; alpha > 0 where the theorem says so"
  },
  {
   "property": "C136",
   "status": "proved",
   "theorems": [
    "C136_disc",
    "C136_children",
    "C136_process",
    "C136_ends"
   ],
   "note": "numbers with a finite law"
  },
  {
   "property": "C137",
   "status": "proved",
   "theorems": [
    "C137_draws",
    "C137_knox",
    "C137_local",
    "C137_jacquez",
    "C137_mantel",
    "C137_mantel_nan",
    "C137_modified_knox",
    "C137_quadrat",
    "C137_folded_refuted",
    "C137_folded_L_refuted",
    "C137_old_knox_refuted"
   ],
   "note": "finding: folded p-values reject too often"
  },
  {
   "property": "C138",
   "status": "proved",
   "theorems": [
    "C138_patterns",
    "C138_quadrat",
    "C138_quadrat_exact",
    "C138_G_refuted",
    "C138_K_refuted",
    "C138_L_refuted"
   ],
   "note": "finding: the Ripley tests reject too often; f_test and j_test, hulls taken from the data and rectangle_width/height given are not covered"
  },
  {
   "property": "C139",
   "status": "proved",
   "theorems": [
    "C139_independent",
    "C139_poisson",
    "C139_single_refuted"
   ],
   "note": "finding: an initial pattern of one point gives two equal points; only gamma = 1"
  },
  {
   "property": "C14",
   "status": "proved",
   "theorems": [
    "C14_mean_center",
    "C14_mean_center_equivariant",
    "C14_mean_center_empty"
   ],
   "note": ""
  },
  {
   "property": "C140",
   "status": "proved",
   "theorems": [
    "C140_kept",
    "C140_first",
    "C140_free",
    "C140_hard_core_refuted"
   ],
   "note": "finding: with gamma = 0 close pairs of the initial pattern are never removed; the call returns them or raises"
  },
  {
   "property": "C141",
   "status": "proved",
   "theorems": [
    "C141_balance",
    "C141_moves",
    "C141_one_way_refuted"
   ],
   "note": "finding: for hulls of area 2 or more births add several points and deaths remove one, so the chain is not reversible for any density"
  },
  {
   "property": "C142",
   "status": "proved",
   "theorems": [
    "C142_value",
    "C142_order",
    "C142_pvalue",
    "C142_exact",
    "C142_ties_refuted"
   ],
   "note": "finding: simulated patterns with the same chi-square as the data may not be counted because of the order of addition"
  },
  {
   "property": "C143",
   "status": "proved",
   "theorems": [
    "C143_value",
    "C143_linear",
    "C143_order",
    "C143_counts",
    "C143_agree",
    "C143_ties_refuted",
    "C143_pvalues_refuted",
    "C143_far_refuted"
   ],
   "note": "finding: k_test and l_test can give different p-values for the same simulations, because different values of K share a value of L"
  },
  {
   "property": "C144",
   "status": "proved",
   "theorems": [
    "C144_value",
    "C144_order",
    "C144_pvalue",
    "C144_ties_refuted",
    "C144_table"
   ],
   "note": "finding: modified_knox does not count permutations that tie with the data when n-1 is not a power of two, because obs - exp/(n-1) is rounded differently"
  },
  {
   "property": "C145",
   "status": "proved",
   "theorems": [
    "C145_total",
    "C145_object",
    "C145_default_ids",
    "C145_from_frame",
    "C145_third_column_refuted"
   ],
   "note": "contract of the ball query; finding: columns of s_coords beyond the second count for distances only"
  },
  {
   "property": "C146",
   "status": "proved",
   "theorems": [
    "C146_value",
    "C146_truncated",
    "C146_empty",
    "C146_order",
    "C146_ties_refuted"
   ],
   "note": "finding: ties at exactly equal J are broken by rounding; documented NaN is infinity"
  },
  {
   "property": "C147",
   "status": "proved",
   "theorems": [
    "C147_loop",
    "C147_exceptions",
    "C147_straight",
    "C147_circumscribed",
    "C147_choice",
    "C147_pair",
    "C147_too_large_refuted",
    "C147_crash_refuted",
    "C147_call_refuted"
   ],
   "note": "finding: wrong (too large) circles and ZeroDivisionError on ordinary three-point patterns"
  },
  {
   "property": "C148",
   "status": "proved",
   "theorems": [
    "C148_fixed",
    "C148_poisson",
    "C148_limit",
    "C148_function_refuted"
   ],
   "note": "finding: poisson(hull, intensity) has a fixed number of points"
  },
  {
   "property": "C149",
   "status": "proved",
   "theorems": [
    "C149_covers",
    "C149_mean",
    "C149_even",
    "C149_uneven_refuted"
   ],
   "note": "finding: chi2_pvalue assumes cells of equal probability; hexagons cut by the data box are not"
  },
  {
   "property": "C15",
   "status": "proved",
   "theorems": [
    "C15_weighted_mean_center",
    "C15_equal_weights",
    "C15_errors"
   ],
   "note": ""
  },
  {
   "property": "C150",
   "status": "proved",
   "theorems": [
    "C150_mean",
    "C150_limit",
    "C150_L_refuted"
   ],
   "note": "finding: without edge correction the mean of the linearized L of random patterns is bounded away from zero wherever A q < pi d^2"
  },
  {
   "property": "C151",
   "status": "proved",
   "theorems": [
    "C151_variance",
    "C151_poisson_refuted"
   ],
   "note": "finding: the Poisson p-value of the Knox test assumes variance = mean; the exact permutation variance can be any multiple of the mean"
  },
  {
   "property": "C152",
   "status": "proved",
   "theorems": [
    "C152_G",
    "C152_F",
    "C152_order",
    "C152_limit"
   ],
   "note": "finding: for random points the mean of 1-G exceeds that of 1-F of the same pattern size, so J is biased towards its reading as dispersion"
  },
  {
   "property": "C153",
   "status": "proved",
   "theorems": [
    "C153_variance"
   ],
   "note": ""
  },
  {
   "property": "C154",
   "status": "proved",
   "theorems": [
    "C154_raises",
    "C154_undefined_refuted",
    "C154_negative_refuted",
    "C154_defined",
    "C154_linear",
    "C154_squares",
    "C154_positive"
   ],
   "note": "finding: power 0, or constant 0 with a negative power and one repeated place or time, give NaN and the smallest possible p-value for every data set"
  },
  {
   "property": "C155",
   "status": "proved",
   "theorems": [
    "C155_accepted",
    "C155_points",
    "C155_rejected",
    "C155_list_refuted",
    "C155_radius_refuted",
    "C155_radii",
    "C155_covariance"
   ],
   "note": "findings: list hulls raise NotImplementedError or AttributeError; radii given as a list or numpy integer end in UnboundLocalError although the documentation allows iterables"
  },
  {
   "property": "C156",
   "status": "proved",
   "theorems": [
    "C156_known",
    "C156_numpy_int_refuted",
    "C156_f_numpy_int_refuted",
    "C156_number",
    "C156_tuple_refuted",
    "C156_no_bins"
   ],
   "note": "findings: numpy integers are bins of the data range for f and g and a distance for k and l; tuples of four or more numbers work in f and g and raise AttributeError in k and l"
  },
  {
   "property": "C157",
   "status": "proved",
   "theorems": [
    "C157_triangle",
    "C157_straight_refuted",
    "C157_others",
    "C157_which",
    "C157_hull_exists"
   ],
   "note": "scipy's ConvexHull by its contract in exact arithmetic; finding: QhullError for straight patterns, which have a smallest disc"
  },
  {
   "property": "C158",
   "status": "proved",
   "theorems": [
    "C158_corners",
    "C158_invariant"
   ],
   "note": "scipy's ConvexHull by its contract in exact arithmetic (shown consistent by C157_hull_exists)"
  },
  {
   "property": "C159",
   "status": "proved",
   "theorems": [
    "C159_area",
    "C159_lambda"
   ],
   "note": "scipy's ConvexHull by its contract in exact arithmetic"
  },
  {
   "property": "C16",
   "status": "proved",
   "theorems": [
    "C16_manhattan_median",
    "C16_warning"
   ],
   "note": ""
  },
  {
   "property": "C160",
   "status": "proved",
   "theorems": [
    "C160_minimum",
    "C160_unique"
   ],
   "note": "exact arithmetic; joins C86 with the contract of scipy's ConvexHull (consistent by C157_hull_exists)"
  },
  {
   "property": "C17",
   "status": "proved",
   "theorems": [
    "C17_std_distance",
    "C17_empty"
   ],
   "note": "real numbers"
  },
  {
   "property": "C18",
   "status": "proved",
   "theorems": [
    "C18_principal_axes"
   ],
   "note": "real numbers; weights not negative with positive sum, at least three points when the degrees-of-freedom correction is used"
  },
  {
   "property": "C19",
   "status": "proved",
   "theorems": [
    "C19_errors",
    "C19_any_case",
    "C19_equivalences",
    "C19_two_points",
    "C19_two_points_refuted"
   ],
   "note": "finding for two points"
  },
  {
   "property": "C20",
   "status": "proved",
   "theorems": [
    "C20_dtot"
   ],
   "note": "real numbers"
  },
  {
   "property": "C21",
   "status": "proved",
   "theorems": [
    "C21_angle",
    "C21_circumscribed",
    "C21_flat",
    "C21_folded"
   ],
   "note": "real numbers"
  },
  {
   "property": "C22",
   "status": "proved",
   "theorems": [
    "C22_terminates",
    "C22_too_few"
   ],
   "note": "real numbers"
  },
  {
   "property": "C23",
   "status": "proved",
   "theorems": [
    "C23_hull_area"
   ],
   "note": ""
  },
  {
   "property": "C24",
   "status": "proved",
   "theorems": [
    "C24_angle",
    "C24_all_edges",
    "C24_rotation",
    "C24_rectangle",
    "C24_collinear_refuted",
    "C24_float_range",
    "C24_float_range_refuted"
   ],
   "note": "real numbers; shapely's rectangle is an argument; findings: collinear points, binary64 result 90.0"
  },
  {
   "property": "C25",
   "status": "proved",
   "theorems": [
    "C25_k_neighbors"
   ],
   "note": ""
  },
  {
   "property": "C26",
   "status": "proved",
   "theorems": [
    "C26_exact_value",
    "C26_wrong_distance_refuted"
   ],
   "note": "natural claim refuted; exact value proved for every tree answer"
  },
  {
   "property": "C27",
   "status": "proved",
   "theorems": [
    "C27_box_geometry"
   ],
   "note": ""
  },
  {
   "property": "C28",
   "status": "proved",
   "theorems": [
    "C28_dispatch",
    "C28_point_array_refuted"
   ],
   "note": "documented (N,2) array hulls are rejected"
  },
  {
   "property": "C29",
   "status": "proved",
   "theorems": [
    "C29_build_best_tree",
    "C29_key_error"
   ],
   "note": ""
  },
  {
   "property": "C30",
   "status": "proved",
   "theorems": [
    "C30_parse_table",
    "C30_zero_area"
   ],
   "note": ""
  },
  {
   "property": "C31",
   "status": "proved",
   "theorems": [
    "C31_poisson_in_hull",
    "C31_poisson_box_terminates",
    "C31_poisson_terminates_iff",
    "C31_poisson_exact"
   ],
   "note": ""
  },
  {
   "property": "C32",
   "status": "proved",
   "theorems": [
    "C32_shape_poisson",
    "C32_shape_normal",
    "C32_shape_cluster_poisson",
    "C32_shape_cluster_normal",
    "C32_shape_strauss",
    "C32_shape_refuted"
   ],
   "note": "documented shape iff n_observations is not 1; refuted for 1"
  },
  {
   "property": "C33",
   "status": "proved",
   "theorems": [
    "C33_normal_in_hull",
    "C33_covariance_checked"
   ],
   "note": ""
  },
  {
   "property": "C34",
   "status": "proved",
   "theorems": [
    "C34_uniform_circle"
   ],
   "note": ""
  },
  {
   "property": "C35",
   "status": "proved",
   "theorems": [
    "C35_cluster_poisson",
    "C35_too_few",
    "C35_enough",
    "C35_reachable"
   ],
   "note": ""
  },
  {
   "property": "C36",
   "status": "proved",
   "theorems": [
    "C36_cluster_poisson_single_seed_refuted",
    "C36_outside_hull_refuted",
    "C36_cluster_normal_single_seed_refuted",
    "C36_cluster_normal_many_seeds",
    "C36_default_covariance"
   ],
   "note": "natural claim refuted for one seed"
  },
  {
   "property": "C37",
   "status": "proved",
   "theorems": [
    "C37_strauss",
    "C37_no_iteration_refuted",
    "C37_chain_invariant",
    "C37_exceptions"
   ],
   "note": "exact exceptions to containment and to RuntimeError given"
  },
  {
   "property": "C38",
   "status": "proved",
   "theorems": [
    "C38_feasible",
    "C38_reachable",
    "C38_infeasible",
    "C38_area",
    "C38_small_hull_refuted",
    "C38_single_point_refuted"
   ],
   "note": "natural claim refuted; exact feasibility condition proved"
  },
  {
   "property": "C39",
   "status": "proved",
   "theorems": [
    "C39_draw",
    "C39_draw_exact",
    "C39_terminates",
    "C39_realizations",
    "C39_unconditioned",
    "C39_as_pattern",
    "C39_empty_realization_refuted"
   ],
   "note": "finding for empty realizations with asPP"
  },
  {
   "property": "C40",
   "status": "proved",
   "theorems": [
    "C40_children",
    "C40_parameters",
    "C40_realize",
    "C40_drawn_parents",
    "C40_num_parents_refuted",
    "C40_index_error_refuted",
    "C40_float_children",
    "C40_float_parents"
   ],
   "note": "findings: constructor raises IndexError; num_parents not used"
  },
  {
   "property": "C41",
   "status": "proved",
   "theorems": [
    "C41_rectangle_counts_total"
   ],
   "note": ""
  },
  {
   "property": "C42",
   "status": "proved",
   "theorems": [
    "C42_rectangle_cell_counts"
   ],
   "note": ""
  },
  {
   "property": "C43",
   "status": "proved",
   "theorems": [
    "C43_count_form",
    "C43_size_form",
    "C43_subnormal_refuted"
   ],
   "note": "overflow excluded; refuted for subnormal cell sizes"
  },
  {
   "property": "C44",
   "status": "proved",
   "theorems": [
    "C44_rectangle_degenerate_refuted"
   ],
   "note": "the natural claim is false; the theorem gives the failing inputs"
  },
  {
   "property": "C45",
   "status": "proved",
   "theorems": [
    "C45_hexagon_counts_total",
    "C45_hexagon_boundary_refuted"
   ],
   "note": ""
  },
  {
   "property": "C46",
   "status": "proved",
   "theorems": [
    "C46_owner_unique",
    "C46_places",
    "C46_exact",
    "C46_hexagon_contains",
    "C46_hexagon_miscount_refuted"
   ],
   "note": "exact outcome for every extent; finding: a right corner point is credited to the first hexagon of the next row, which does not contain it; border points at the top raise KeyError"
  },
  {
   "property": "C47",
   "status": "proved",
   "theorems": [
    "C47_hexagon_num",
    "C47_hexagon_num_refuted"
   ],
   "note": "exact condition under which num is the number of cells"
  },
  {
   "property": "C48",
   "status": "proved",
   "theorems": [
    "C48_chi2",
    "C48_chi2_order"
   ],
   "note": ""
  },
  {
   "property": "C49",
   "status": "proved",
   "theorems": [
    "C49_mc_pvalue",
    "C49_mc_pvalue_antitone"
   ],
   "note": ""
  },
  {
   "property": "C50",
   "status": "proved",
   "theorems": [
    "C50_one_realization_refuted",
    "C50_rectangle",
    "C50_hexagon",
    "C50_number",
    "C50_unknown_shape"
   ],
   "note": "refuted for one realization; exact condition for two or more. Area and intensity are exact rationals here (rounding: C83)"
  },
  {
   "property": "C51",
   "status": "proved",
   "theorems": [
    "C51_cdf",
    "C51_outside",
    "C51_f_and_g"
   ],
   "note": ""
  },
  {
   "property": "C52",
   "status": "proved",
   "theorems": [
    "C52_cdf_values",
    "C52_ecdf",
    "C52_short_support_refuted"
   ],
   "note": "empirical CDF when the support covers the distances, refuted otherwise"
  },
  {
   "property": "C53",
   "status": "proved",
   "theorems": [
    "C53_g_matrix_refuted",
    "C53_g_matrix_zeros",
    "C53_f_matrix",
    "C53_g_errors",
    "C53_f_errors"
   ],
   "note": "natural claim refuted for every such matrix"
  },
  {
   "property": "C54",
   "status": "proved",
   "theorems": [
    "C54_k_value",
    "C54_shape",
    "C54_order_independent",
    "C54_zero_area"
   ],
   "note": ""
  },
  {
   "property": "C55",
   "status": "proved",
   "theorems": [
    "C55_equivalent_inputs",
    "C55_errors"
   ],
   "note": ""
  },
  {
   "property": "C56",
   "status": "proved",
   "theorems": [
    "C56_l_of_k",
    "C56_monotone",
    "C56_bounded"
   ],
   "note": ""
  },
  {
   "property": "C57",
   "status": "proved",
   "theorems": [
    "C57_hazard_values",
    "C57_j"
   ],
   "note": "F and G on one support, as in every call of j with an array, tuple or integer support and one metric; interpolation is arbitrary"
  },
  {
   "property": "C58",
   "status": "proved",
   "theorems": [
    "C58_result",
    "C58_single_value_refuted"
   ],
   "note": "refuted for supports with a single value"
  },
  {
   "property": "C59",
   "status": "proved",
   "theorems": [
    "C59_misaligned_refuted",
    "C59_rows_removed"
   ],
   "note": "natural claim refuted; exact behaviour proved"
  },
  {
   "property": "C60",
   "status": "proved",
   "theorems": [
    "C60_pvalues",
    "C60_zero_refuted",
    "C60_no_simulations"
   ],
   "note": ""
  },
  {
   "property": "C61",
   "status": "proved",
   "theorems": [
    "C61_linspace",
    "C61_support",
    "C61_prepare"
   ],
   "note": ""
  },
  {
   "property": "C62",
   "status": "proved",
   "theorems": [
    "C62_knox_counts",
    "C62_knox_total",
    "C62_order_independent"
   ],
   "note": ""
  },
  {
   "property": "C63",
   "status": "proved",
   "theorems": [
    "C63_observed",
    "C63_expected"
   ],
   "note": ""
  },
  {
   "property": "C64",
   "status": "proved",
   "theorems": [
    "C64_permuted_count",
    "C64_permuted_run",
    "C64_identity"
   ],
   "note": ""
  },
  {
   "property": "C65",
   "status": "proved",
   "theorems": [
    "C65_knox_pvalue",
    "C65_local_pvalue",
    "C65_masked_pvalue",
    "C75_pvalue",
    "C65_nan_refuted",
    "C65_mantel_equal_times_refuted",
    "C65_modified_knox_single_refuted"
   ],
   "note": "finding: undefined (NaN) statistics get the smallest p-value"
  },
  {
   "property": "C66",
   "status": "proved",
   "theorems": [
    "C66_statistic",
    "C66_folded_pvalue",
    "C66_index_error"
   ],
   "note": ""
  },
  {
   "property": "C67",
   "status": "proved",
   "theorems": [
    "C67_multiset",
    "C67_inputs_untouched_refuted"
   ],
   "note": "refuted: the caller's times are shuffled in place"
  },
  {
   "property": "C68",
   "status": "proved",
   "theorems": [
    "C68_local_counts"
   ],
   "note": ""
  },
  {
   "property": "C69",
   "status": "proved",
   "theorems": [
    "C69_conditional",
    "C69_stored_counts"
   ],
   "note": ""
  },
  {
   "property": "C70",
   "status": "proved",
   "theorems": [
    "C70_adjlist",
    "C70_dual",
    "C70_total",
    "C70_ids"
   ],
   "note": ""
  },
  {
   "property": "C71",
   "status": "proved",
   "theorems": [
    "C71_rows",
    "C71_hotspots",
    "C71_inference",
    "C71_consistent"
   ],
   "note": ""
  },
  {
   "property": "C72",
   "status": "proved",
   "theorems": [
    "C72_labels_sound",
    "C72_first_neighbour",
    "C72_cluster_labels_refuted"
   ],
   "note": "refuted: only the first neighbour of every event is kept before components are computed"
  },
  {
   "property": "C73",
   "status": "proved",
   "theorems": [
    "C73_formula",
    "C73_relabelling",
    "C73_permutations",
    "C73_zero"
   ],
   "note": ""
  },
  {
   "property": "C74",
   "status": "proved",
   "theorems": [
    "C74_relabelled_times",
    "C74_rearranges",
    "C74_mantel_permutations"
   ],
   "note": ""
  },
  {
   "property": "C75",
   "status": "proved",
   "theorems": [
    "C75_statistic",
    "C75_range",
    "C75_pvalue"
   ],
   "note": ""
  },
  {
   "property": "C76",
   "status": "proved",
   "theorems": [
    "C76_constructor",
    "C76_from_dataframe"
   ],
   "note": ""
  },
  {
   "property": "C77",
   "status": "proved",
   "theorems": [
    "C77_day_stamps"
   ],
   "note": ""
  },
  {
   "property": "C78",
   "status": "proved",
   "theorems": [
    "C78_classes"
   ],
   "note": ""
  },
  {
   "property": "C79",
   "status": "proved",
   "theorems": [
    "C79_defined",
    "C79_mesh",
    "C79_geometries",
    "C79_float_resolution_refuted",
    "C79_documented_shape_refuted"
   ],
   "note": "two or more nodes per axis for covering; findings: float resolution, documented (2,n) layout"
  },
  {
   "property": "C80",
   "status": "proved",
   "theorems": [
    "C80_to_ccf"
   ],
   "note": ""
  },
  {
   "property": "C81",
   "status": "proved",
   "theorems": [
    "C81_scaling",
    "C81_not_symmetric_refuted",
    "C81_number_is_variance",
    "C81_default"
   ],
   "note": "natural claim refuted; exact condition proved"
  },
  {
   "property": "C82",
   "status": "proved",
   "theorems": [
    "C82_own_bounding_box",
    "C82_corner_refuted"
   ],
   "note": "natural claim refuted"
  },
  {
   "property": "C83",
   "status": "proved",
   "theorems": [
    "C83_simulated_size",
    "C83_one_lost_refuted"
   ],
   "note": "equality refuted; off by at most one"
  },
  {
   "property": "C84",
   "status": "proved",
   "theorems": [
    "C84_empty_space_in_bbox",
    "C84_hull_ignored_refuted"
   ],
   "note": "natural claim refuted"
  },
  {
   "property": "C85",
   "status": "proved",
   "theorems": [
    "C85_k_uses_bounding_box",
    "C85_hull_ignored_refuted"
   ],
   "note": "natural claim refuted"
  },
  {
   "property": "C86",
   "status": "proved",
   "theorems": [
    "C86_minimum",
    "C86_unique",
    "C86_flat_vertex_refuted"
   ],
   "note": "real numbers; scipy's hull and libpysal's orientation test are modelled by their specification; refuted without the angle condition"
  },
  {
   "property": "C87",
   "status": "proved",
   "theorems": [
    "C87_birth",
    "C87_death",
    "C87_reversible",
    "C87_birth_size",
    "C87_single_birth_refuted"
   ],
   "note": "refuted: a birth proposes int(area) points"
  },
  {
   "property": "C88",
   "status": "proved",
   "theorems": [
    "C88_hypergeometric"
   ],
   "note": "scipy's hypergeometric distribution is modelled by its defining formula; two or more events"
  },
  {
   "property": "C89",
   "status": "proved",
   "theorems": [
    "C89_aligned",
    "C89_tuple_resolution_refuted"
   ],
   "note": "KDEpy's grid is an argument; finding: documented tuple resolution fails with a kernel"
  },
  {
   "property": "C90",
   "status": "proved",
   "theorems": [
    "C90_ellipse_polygon",
    "C90_two_points"
   ],
   "note": "real numbers; assumed of shapely: buffer(1) has vertices at distance 1, symmetric about the centre; scale and rotate about the centre of the bounding box"
  },
  {
   "property": "C91",
   "status": "proved",
   "theorems": [
    "C91_criterion",
    "C91_in_hull",
    "C91_unique",
    "C91_exists",
    "C91_euclidean_median"
   ],
   "note": "scipy's minimize is an argument; what it returns is characterised under a descent or an exactness contract"
  },
  {
   "property": "C92",
   "status": "proved",
   "theorems": [
    "C92_poisson_tail",
    "C92_upper_tail_refuted",
    "C92_antitone"
   ],
   "note": "scipy's poisson.cdf is modelled by its defining sum, 1 for mean 0; finding: strict tail"
  },
  {
   "property": "C93",
   "status": "proved",
   "theorems": [
    "C93_nnd",
    "C93_summaries",
    "C93_single",
    "C93_empty",
    "C93_find_pairs"
   ],
   "note": "the tree and its query_pairs are arguments with a specification"
  },
  {
   "property": "C94",
   "status": "proved",
   "theorems": [
    "C94_knn_other",
    "C94_self"
   ],
   "note": "the tree is an argument with a specification; findings: shape for k = 1, arrays rejected"
  },
  {
   "property": "C95",
   "status": "proved",
   "theorems": [
    "C95_bbox",
    "C95_contains",
    "C95_centroid_inside",
    "C95_centroid_triangle",
    "C95_centroid_refuted"
   ],
   "note": "the hull and the Delaunay lookup of scipy are arguments with a specification; finding: centroid is the mean of the vertices"
  },
  {
   "property": "C96",
   "status": "proved",
   "theorems": [
    "C96_rectangle_plot",
    "C96_hexagon_plot",
    "C96_contributions",
    "C96_errors"
   ],
   "note": "what is drawn, not its pixels; the rounding of contributions to two digits is not modelled"
  },
  {
   "property": "C97",
   "status": "proved",
   "theorems": [
    "C97_outline"
   ],
   "note": "geometries as trees of polygons with holes"
  },
  {
   "property": "C98",
   "status": "proved",
   "theorems": [
    "C98_cluster_poisson",
    "C98_cluster_normal",
    "C98_birthday"
   ],
   "note": "default_rng is any function from seeds to streams; finding"
  },
  {
   "property": "C99",
   "status": "proved",
   "theorems": [
    "C99_geometries",
    "C99_arrays",
    "C99_interchangeable"
   ],
   "note": "finding: GeometryArray rejected"
  }
 ]
}