# Design of the formal model of pysal/pointpats

## 1. Approach

The Python sources in `/repo/pointpats` were read as text; nothing was run.
Each module is transcribed function by function into total, executable Gallina
functions (`theories/*_model.v`).  Every definition carries a comment with the
file and the lines it transcribes and states the simplifications.  Properties
are stated against small separate specifications (`theories/*_spec.v`), proved
in `theories/*_proofs.v`, and collected in `theories/*_props.v`, which contain
for each theorem `Print Assumptions` and a concrete non-trivial `Example` that
meets its hypotheses.

Conventions

* **Exceptions** are values: `res A := Ok a | Raise e`.
* **Numbers**.  Coordinates, distances, counts are exact rationals `Q`
  (every binary64 value is a rational, the model is executable); equalities
  between computed rationals are `==`.  Parts that need `sqrt`/trigonometry
  (ellipse, standard distance, circles, L) use the standard library reals `R`.
  One file uses Flocq to treat binary64 rounding explicitly.  Everywhere else
  floating point rounding is *not* modelled: this is the main idealisation.
* **Randomness** is an explicit argument: the finite list of uniform numbers in
  `[0,1)` (or normal/Poisson/permutation draws) the generator returns.  All
  theorems quantify over that list.  Rejection loops recurse on the stream;
  running out of stream is the distinguished outcome `Short`, so a theorem about
  `Val r rest` speaks of every terminating run, and one about `Exc e` of every
  run that ends in an exception.
* **External libraries** (KDTree / BallTree, shapely, ConvexHull, scipy
  distributions, geopandas) are function arguments with an explicit assumed
  specification (e.g. "the query returns *a* list of k nearest points").
* **Objects with state** (`PointPattern`, `cached_property`) are records and
  transition functions; histories are lists of operations.
* **Aliasing** (in-place shuffles, list `append`) is modelled by returning the
  new value of the aliased argument next to the result.

## 2. Trusted base

* the Coq 8.16.1 kernel (and coqchk),
* the axioms printed by `Print Assumptions`: none for the files over `Q`, `Z`,
  `nat`, lists; for files over `R` the axioms of the standard library reals
  (`ClassicalDedekindReals.sig_forall_dec`, `ClassicalDedekindReals.sig_not_dec`,
  `FunctionalExtensionality.functional_extensionality_dep`) and, where Flocq or
  classical reasoning is used, `Classical_Prop.classic`,
* the hand transcription Python -> Gallina documented in the comments,
* the assumed behaviour of external libraries listed with each model.

## 3. Plan per property

| id | modelled | how proved |
|----|----------|-----------|
| C01 | `mbb` as running min/max over a non-empty list | induction on the list; tightness vs. an independent `box` spec |
| C02 | `poly_from_bbox`, polygon area by shoelace | ring arithmetic, `lra` |
| C03,C04 | object state with one memo cell per cached attribute; operations read/set_window/flip | invariant "memo = value of pure function" over all histories; C04 refuted by a 3-step history |
| C05 | data frame = column names + rows; `np.unique`, row filter | permutation/partition of filters |
| C06,C08 | `drop_duplicates` keep-first | induction, set/NoDup spec |
| C07 | constructor with a window argument of any Python kind | refuted by computation, for every pattern |
| C09 | `add_marks` on frames, decimal column names | injectivity of decimal printing + invariant over histories |
| C10 | constructor returning the caller's list after the call | refuted for every p>2; second call raises |
| C11 | `__contains__` | logical equivalence; refutation witness |
| C12 | state machine of C03 | rewriting |
| C13 | tree oracle specified by "k+1 nearest with any ties" | order argument; refutation with coincident points |
| C14,C15 | means over Q | algebraic identity sum of squares |
| C16 | `np.median` by sorting | exchange argument / pairing on sorted list |
| C17,C20 | R, sqrt | identities, triangle inequality |
| C18,C19 | R, atan/cos/sin | eigenvalue algebra of a 2x2 form |
| C21 | circle formulas of `_circle` over R | field identities |
| C22 | Skyum loop on lists with angle/radius functions | measure = length; invariants |
| C23 | shoelace fold | telescoping, cyclic invariance |
| C24 | atan2 modelled piecewise, `mod 90` | case analysis |
| C25,C26 | `k_neighbors` over an oracle query | list lemma on removing self; refutation |
| C27-C29 | bbox/contains/area/centroid; decision functions | `lra`, case analysis |
| C30 | decision table | case analysis |
| C31-C34 | rejection sampling over streams | induction on stream/fuel |
| C35,C36 | cluster processes on top | splitting arithmetic; exact list of the runs that raise; refutation |
| C37,C38 | Strauss birth/death chain over streams | invariant; exact feasibility condition; refutation for all streams |
| C39,C40 | `draw` loop | induction |
| C41-C44 | `RectangleM` over Q; float version with Flocq | floor/ceil lemmas; relative-error bounds |
| C45-C47 | `HexagonM` over Q with the half height as parameter | floor/ceil lemmas, case analysis; exact outcome for every extent; refutations |
| C48-C50 | `QStatistic` | sum identities; exact condition for the simulations to finish |
| C51-C61 | `np.histogram`, `cumsum`, `_prepare`, `f,g,k,l,j`, `_ripley_test`, `_truncate` | induction on bins/support |
| C62-C70 | `_knox`, `_knox_local`, adjacency list | counting over `seq 0 n`, permutation lemmas |
| C71,C72,C78 | `hotspots`, `plot` classification | list membership; refutation by computation |
| C73-C77 | `modified_knox`, `_shuffle_matrix`, `jacquez`, validation, time stamps | sums over permutations |
| C79,C80 | mesh construction, `to_ccf` | `lra`, induction |
| C81 | matrix scaling of `normal` over R | field identities; refutation |
| C82 | simulation managers of `QStatistic` | unfolding; refutation by computation |
| C83 | `int((n/area)*area)` with Flocq rounding | relative errors; refutation |
| C84,C85 | hull handling of `_ripley_test` | C31, C54; refutations |
| C86 | result of the Skyum loop on strictly convex hulls | minimality of the enclosing disc over R |
| C87 | one birth-or-death step of Strauss | detailed balance with the Strauss weight |
| C88 | hypergeometric p-values of local Knox | binomial identities; sums over `seq` |
| C89 | engine `kdepy` of `plot_density` | grid as product of sorted axes |
| C90 | GeoPandas ellipse: buffer, scale, rotate | support function of an ellipse over R |
| C91 | `dtot`, `euclidean_median` relative to an optimiser contract | subgradient criterion, convexity, compactness |
| C92 | Poisson tail of global Knox | series of `exp` over R |
| C93,C94 | `nnd`, summaries, `find_pairs`, `knn_other` | order argument over a specified tree |
| C95 | area, box, containment, centroid of scipy hulls | half-plane characterisation of hulls; refutation |
| C96,C97 | what the quadrat plots draw | C42 and lookup lemmas; induction on nested geometries |
| C98 | seeding of replications in the cluster processes | pigeonhole; counting vectors without repetition |
| C99,C100 | `_as_points_array`, `_coerce_rng` | case analysis; objects with a remaining stream |
| C101,C102 | `mean_center`, `std_distance` on binary64 | error analysis of sums over R from Flocq's contracts; witnesses computed |
| C103,C104 | HexagonM on binary64 | error analysis of every quotient and of the slanted edge; stability of floor; witness computed |
| C105,C106,C107 | permutation distributions of Knox, local Knox, Jacquez, Mantel | enumeration of all permutations by selection; two positions see every ordered pair equally often; k-nearest sets are unique without ties |
| C108,C109 | centrography of GeoPandas objects | induction on layers; linear arithmetic on vertex sums |
| C110 | polygon returned by minimum_bounding_circle | strict convexity of the disc; powers of 3+4i modulo 5; sectors |
| C111,C112 | Knox and KnoxLocal objects, hot spot table, plotted lines | composition of the array theorems with the frame conversion; merge with distinct keys; counterexamples computed |
| C113,C114,C115 | f_test, g_test, k_test, l_test, j_test from arguments to result | inversion of the run; composition with the theorems on the statistics and on the simulation of patterns; monotone square root |
| C116 | p-values on binary64 and their comparison with a critical value | fractions with small denominators are further apart than two rounding errors |
| C117,C118 | g, k and the Ripley tests on patterns that agree up to order, origin and unit | relations between two runs, propagated through the simulation of patterns and the counts; relabelling of pairs |
| C119 | plot_density as a sequence of actions on the figure | cases over the arguments; C79 and C89 for the arrays |
| C120 | Knox statistics under relabelling of events and motions of space and time | neighbour relation transported by the relabelling; conjugated permutations |
| C121 | quadrat counts and test under orders, units, origins, exchanged axes, mirror images | commuting dictionary updates; scaled cell numbers; Symmetry lemmas for the simulations |
| C122 | centres, spread, ellipse, Euclidean median and bounding circle in other coordinates | sums of linear maps; variance in a direction under a similarity; uniqueness of the major axis; C18, C86, C91 |
| C123 | len, summary and plot of a pattern after any calls | columns of the frame are the stored points; reads as functions of points and window; parity of flips |
| C124 | grids and interpolation in j | even grids compared end to end; allclose on even grids decided by the ends; induction for the polygon |
| C125 | layers, labels and lines of plot and explore | row-by-row description of the painted frame; left merge on distinct keys; comparison with C111 |
| C126 | results on integer arrays | numbers kept modulo 2^width; sums of wrapped squares are never larger; equality exactly when nothing wraps |
| C127 | K and nearest-neighbour distances on binary64 | error of difference, square, sum and root; no underflow in sums and roots; integers between squares for exact grids; products of (1-u) factors |
| C128 | symmetries of modified Knox, Jacquez, Mantel | sums over renumbered pairs; unique nearest neighbours without ties; scale and permutation invariance of the correlation coefficient |
| C129 | array-likes of any shape | case analysis by dimension; columns one by one; variance of a column is zero iff it is constant |
| C130 | thresholds that discriminate nothing | closeness matrix constant off the diagonal; sums over pairs invariant under relabelling; choosing all of a set |
| C131 | supports, F and G on binary64 | three roundings against one step; divisibility by a prime; gaps between rounded fractions |
| C132 | areas and intensities on binary64 | error of a tree of additions; cross products; wrap-around indexing of rings |
| C133 | weighted mean centre and dtot on binary64 | shares relative to a computed sum; equality of floats by value and sign |
| C134 | uniform sampling on binary64 | predecessor of a rounded difference; rejection loops on streams |
| C135 | joint law of simulated patterns | recursion on the first candidate; rejection with one generator per point |
| C136 | joint law of points drawn in blocks | each function replaced by its conditional expectation, block by block |
| C137 | false-positive rates of the tests | every entry of an exchangeable list as good as the first; ranks; relabellings form a group |
| C138 | tests of simulated data | law of accepted points; symmetric means; ranks of an exchangeable list of scores |
| C139 | strauss with gamma = 1 draws independent points | moves as signed sums of laws of independent points, closed under sequencing |
| C140 | strauss with gamma = 0 keeps the close pairs it starts with | invariant of the chain: total pairs, and pairs among the first n points |
| C141 | one move of strauss satisfies detailed balance for the Strauss density when births add one point | finite-law expectations; exchange of the removed point; min(1,q) = q min(1,1/q) |
| C142 | chi-square on binary64: error, order, exact cases, lost ties | relative errors of the mean, terms and summation trees; integrality gap M/N; computation for the witness |
| C143 | L on binary64: error, order, agreement and disagreement of k_test and l_test | Machin series for pi, relative errors through the root, Sterbenz; computation for the witnesses |
| C144 | modified Knox statistic and expected Knox table on binary64: error, order, exact cases, lost ties | summation trees of 0/1 are exact, integrality gap 1/(2(n-1)); computation for the witness |
| C145 | KnoxLocal from arrays: accepted shapes, labels, table of events, neighbours | inversion of the constructor; composition with C70 and C76 |
| C146 | J on binary64: error bound, cut of the truncation, order, ties | Flocq rounding of fractions, of one minus a fraction (cancellation bounded by the counts) and of the quotient |
| C147 | Minimum bounding circle loop on binary64: termination, exceptions, pairs; too large circles and crashes | loop invariant; Flocq rounding of norms and quotients; evaluation of the witnesses for every library within the contracts |
| C148 | Counts in regions: Poisson for the conditioned process, multinomial for the others | expansion of the indicator of the counts into products over label sequences, multinomial weights, C135 and C136 |
| C149 | Mean of the quadrat chi-square under random points | first two moments of the count of a cell over the law of accepted points, sums of squares |
| C150 | Mean of K and L under random points | pairs of accepted points: moments of counts over the law of accepted points, tangent of the square root |
| C151 | Permutation variance of the Knox statistic | sums over arrangements of two, three and four events, double counting over all relabellings |
| C152 | Means of G and F under random points | the law of independent accepted candidates, symmetry of the drawn points, empirical distribution on a covering support |
| C153 | Permutation variance of the Jacquez statistic | squares of directed counts split by the common events of two arrows, joint sums over all relabellings |
| C154 | mantel as a whole | equality case of the Cauchy-Schwarz inequality; no equilateral triangle with rational corners (3 is no square); powers determine their base |
| C155 | Simulators: which forms of hull, radius and covariance are accepted | case analysis of the argument forms; simulation equality with the region model; rejection loop with a raising test |
| C156 | f, g, k, l: what a numpy integer, a float or a long tuple means as support | histogram edges by linspace; reduction to the array form |
| C157 | Patterns on a line: hull, hull_area, lambda_hull, minimum_bounding_circle and convex hulls raise | farthest pair of a straight pattern; shoelace area of a strictly convex ring; termination of the circle loop (C22) |
| C158 | hull returns each corner of the pattern once, whatever the order, repetitions, units or orientation | linear functionals least at a vertex; the point cone at a vertex; counting places |
| C159 | hull_area and lambda_hull do not depend on order, repetitions, axes or the hull routine, and scale with the units | uniqueness of the convex ring up to its first vertex; affine images and mirror images of rings |
| C160 | minimum_bounding_circle of a pattern is its smallest disc, with every hull routine, and only the corners matter | fan of a convex ring: every point in one of its triangles; uniqueness of the smallest disc |

Not expressible: laws of random numbers with infinitely many values (the laws of
whole patterns in C135 to C141 and C148 to C152 are those of independent numbers
with any finite law), numerical convergence of
`scipy.optimize.minimize` (`euclidean_median` is characterised relative to what
the optimiser guarantees), floating point rounding outside the files named
`*Float*`, `*64*` and `Rectangle_*`, and the pixels of
the plots (C96, C97
speak of the shapes and texts handed to matplotlib).

## 4. Assumed behaviour of external libraries

Each item is an argument of the modelled function; the theorems that need it
have the stated property as an explicit hypothesis, or the item is transcribed
by its documented definition.

* **KDTree / BallTree**: a query returns k nearest points in order of distance,
  any order among ties; a radius query returns exactly the points within the
  radius; `query_pairs(r)` returns each pair i < j within r once.
* **ConvexHull / Delaunay**: the vertices are points of the input, every input
  point is in their convex hull; ConvexHull raises QhullError, a RuntimeError, for
  points on one line and ValueError without points (C157); `find_simplex` is non-negative exactly in the
  hull of the triangulated points.
* **shapely**: `buffer(1)` of a point is a polygon with vertices at distance 1,
  symmetric about the centre; `scale` and `rotate` are the affine maps about the
  centre of the bounding box; `minimum_rotated_rectangle` returns a closed ring.
* **libpysal**: `is_clockwise` is the sign of the shoelace sum.
* **scipy.stats**: `hypergeom.cdf` and `poisson.cdf` are the defining finite sums
  (for Poisson with mean 0: 1); `pearsonr` raises ValueError for lists of different
  lengths or fewer than two values and gives NaN for constant or non-finite lists.
* **scipy.optimize.minimize**: either "no worse than the start" or "a minimiser".
* **statsmodels / KDEpy**: any density function on points; KDEMultivariate may refuse
  the data (C119: it wants more observations than variables); KDEpy's grid is the
  product of its axes, first coordinate outermost.
* **numpy generators**: any stream of uniform numbers; normal, Poisson and
  permutation draws are arguments.

## 5. Assumptions per theorem

Output of `Print Assumptions`, by set of axioms.

### Closed under the global context (no axioms)

* `CenterR_props.v`: C19_any_case
* `CenterSymQ_props.v`: C122_mean_center, C122_weighted, C122_manhattan, C122_manhattan_rotation_refuted
* `Center_props.v`: C14_mean_center, C14_mean_center_equivariant, C14_mean_center_empty, C15_weighted_mean_center, C15_equal_weights, C15_errors, C16_manhattan_median, C16_warning
* `Chimean_props.v`: C149_covers
* `Cluster_exact.v`: C35_enough, C35_reachable
* `DistStatsHull_props.v`: C84_empty_space_in_bbox, C84_hull_ignored_refuted, C85_k_uses_bounding_box, C85_hull_ignored_refuted
* `DistStats_props.v`: C52_cdf_values, C52_ecdf, C52_short_support_refuted, C51_cdf, C51_outside, C51_f_and_g, C53_f_matrix, C53_g_matrix_zeros, C53_g_matrix_refuted, C53_g_errors, C53_f_errors, C54_k_value, C54_shape, C54_order_independent, C54_zero_area, C55_equivalent_inputs, C55_errors, C57_hazard_values, C57_j, C58_result, C58_single_value_refuted, C59_rows_removed, C59_misaligned_refuted, C60_pvalues, C60_zero_refuted, C60_no_simulations, C61_linspace, C61_support, C61_prepare, C26_exact_value, C26_wrong_distance_refuted
* `Explore_props.v`: C125_total, C125_plot, C125_distinct, C125_explore, C125_lines, C125_table, C125_grey_refuted, C125_duplicate_refuted
* `Extreme_props.v`: C130_global, C130_local, C130_hypergeometric, C130_modified_knox, C130_knox_old_refuted, C130_jacquez, C130_monotone
* `Forms_props.v`: C155_accepted, C155_points, C155_rejected, C155_list_refuted, C155_radius_refuted, C155_radii, C155_covariance, C155_case
* `GeoCenter_props.v`: C108_points, C108_rectangle, C108_weights, C109_parts, C109_polygon, C109_start_refuted, C109_types, C109_holes, C109_envelope
* `Geometry_props.v`: C25_k_neighbors, C27_box_geometry, C28_dispatch, C28_point_array_refuted, C29_build_best_tree, C29_key_error
* `HardCore_props.v`: C140_kept, C140_first, C140_free, C140_hard_core_refuted
* `Hexagon_exact.v`: C46_owner_unique, C46_places, C46_exact
* `Hotspot_props.v`: C71_rows, C71_consistent, C71_hotspots, C71_inference, C72_labels_sound, C72_first_neighbour, C72_cluster_labels_refuted, C78_classes
* `HullExists_props.v`: C157_hull_exists, C158_corners, C158_invariant
* `Hull_props.v`: C95_bbox, C95_contains, C95_centroid_inside, C95_centroid_triangle, C95_centroid_refuted
* `Inputs_props.v`: C99_geometries, C99_arrays, C99_interchangeable, C100_integer, C100_generator, C100_bits, C100_random_state, C100_no_simulations
* `Ints_props.v`: C126_area, C126_area_refuted, C126_knox, C126_knox_refuted
* `JGrid_props.v`: C124_grids, C124_same_grid, C124_two_grids, C124_truncated, C124_mixed_refuted
* `Jacqvar_props.v`: C153_variance
* `KdePlot_props.v`: C119_imports, C119_failure, C119_drawn, C119_same, C119_values, C119_default_engine, C119_kernel_resolution_refuted, C119_columns_refuted, C119_few_points_refuted
* `Kde_props.v`: C79_defined, C79_mesh, C79_geometries, C79_float_resolution_refuted, C79_documented_shape_refuted, C89_aligned, C89_tuple_resolution_refuted
* `KnoxArr_props.v`: C145_total, C145_object, C145_default_ids, C145_from_frame, C145_third_column_refuted
* `KnoxLocal_props.v`: C68_local_counts, C69_conditional, C69_stored_counts, C65_local_pvalue, C70_adjlist, C70_dual, C70_total, C70_ids, C88_hypergeometric
* `KnoxObj_props.v`: C111_hotspots, C111_connected, C111_attributes, C111_total, C111_duplicate_labels_refuted, C111_crit_refuted, C111_sim_refuted, C112_lines, C112_missing_line_refuted, C112_columns_refuted
* `KnoxSym_props.v`: C120_global, C120_local, C120_rearrangements, C120_motions, C120_seed_refuted
* `Knoxvar_props.v`: C151_variance, C151_poisson_refuted
* `PatternView_props.v`: C123_len, C123_plot, C123_plot_default_window, C123_flipped_plot_refuted, C123_plot_unique, C123_plot_marks, C123_plot_overwritten, C123_summary, C123_effects, C123_summary_unique, C123_summary_stale, C123_summary_consistent_refuted
* `Pattern_props.v`: C01_mbb_tight, C02_default_window, C03_reads_stable, C03_values, C04_first_read, C04_later_reads, C04_stale_refuted, C05_explode, C05_errors, C05_nan_refuted, C06_unique, C06_first_kept, C07_unique_window_refuted, C07_lambda_window_refuted, C08_superimpose, C08_algebra, C09_default_marks_fresh, C09_stored, C09_named_refuted, C10_coord_names, C10_second_call_refuted, C11_contains, C11_coord_names_refuted, C12_flip, C13_knn, C13_value_error, C13_coincident_refuted, C23_hull_area, C80_to_ccf
* `PermLaw_props.v`: C105_knox_mean, C105_table_mean, C105_modified_knox_centred, C106_analytic_exact, C106_conditional_exact, C106_same_null_refuted
* `PermMean_props.v`: C107_jacquez_mean, C107_jacquez_ties_refuted
* `Process_props.v`: C39_draw, C39_draw_exact, C39_terminates, C39_realizations, C39_unconditioned, C39_as_pattern, C39_empty_realization_refuted, C40_children, C40_parameters, C40_realize, C40_drawn_parents, C40_num_parents_refuted, C40_index_error_refuted
* `QPlot_props.v`: C96_rectangle_plot, C96_hexagon_plot, C96_contributions, C96_errors, C97_outline
* `QStatExact_props.v`: C50_rectangle, C50_hexagon, C50_number, C50_unknown_shape
* `QStatSim_props.v`: C82_own_bounding_box, C82_corner_refuted
* `QuadratSym_props.v`: C121_rectangle, C121_hexagon, C121_qstatistic, C121_default_window, C121_swap, C121_mirror, C121_mirror_refuted, C121_mirror_width_refuted, C121_hexagon_swap_refuted
* `Quadrat_props.v`: C41_rectangle_counts_total, C42_rectangle_cell_counts, C44_rectangle_degenerate_refuted, C45_hexagon_counts_total, C45_hexagon_boundary_refuted, C46_hexagon_contains, C46_hexagon_miscount_refuted, C47_hexagon_num, C47_hexagon_num_refuted, C48_chi2, C48_chi2_order, C49_mc_pvalue, C49_mc_pvalue_antitone, C50_one_realization_refuted
* `RandomLaw_props.v`: C31_poisson_exact, C33_covariance_checked, C36_default_covariance, C87_birth, C87_death, C87_reversible, C87_birth_size, C87_single_birth_refuted
* `Random_props.v`: C30_parse_table, C30_zero_area, C31_poisson_in_hull, C31_poisson_box_terminates, C31_poisson_terminates_iff, C32_shape_poisson, C32_shape_normal, C32_shape_cluster_poisson, C32_shape_cluster_normal, C32_shape_strauss, C32_shape_refuted, C33_normal_in_hull, C34_uniform_circle, C35_cluster_poisson, C35_too_few, C36_cluster_poisson_single_seed_refuted, C36_outside_hull_refuted, C36_cluster_normal_single_seed_refuted, C36_cluster_normal_many_seeds, C37_strauss, C37_no_iteration_refuted, C37_chain_invariant, C38_small_hull_refuted, C38_single_point_refuted
* `Reversible_props.v`: C141_moves
* `Ripley_props.v`: C113_f_first, C113_g_first, C113_f_last, C113_g_last, C113_k_first, C113_k_default, C113_j_first, C115_j, C115_f_function, C115_g, C115_k, C115_f, C115_support, C115_hull, C115_pair, C115_j_array, C115_given_distances, C115_given_curve, C115_precomputed, C115_f_refuted, C115_support_refuted
* `Seeds_props.v`: C98_cluster_poisson, C98_cluster_normal, C98_birthday
* `Shapes_props.v`: C129_sequences, C129_shapes, C129_errors, C129_columns, C129_two_columns, C129_bbox, C129_contains_refuted, C129_area_refuted, C129_centroid
* `Size_props.v`: C137_draws, C137_knox, C137_local, C137_jacquez, C137_mantel, C137_mantel_nan, C137_modified_knox, C137_quadrat, C137_folded_refuted, C137_old_knox_refuted
* `Spacetime3_props.v`: C65_masked_pvalue, C65_nan_refuted, C74_relabelled_times, C74_rearranges, C74_mantel_permutations, C65_mantel_equal_times_refuted, C66_statistic, C66_folded_pvalue, C66_index_error, C67_multiset, C67_inputs_untouched_refuted, C73_formula, C73_relabelling, C73_permutations, C73_zero, C65_modified_knox_single_refuted, C75_statistic, C75_range, C75_pvalue, C76_constructor, C76_from_dataframe, C77_day_stamps
* `Spacetime_props.v`: C62_knox_counts, C62_knox_total, C64_permuted_count, C64_permuted_run, C64_identity, C62_order_independent, C63_observed, C63_expected, C65_knox_pvalue
* `StSym_props.v`: C128_modified_knox, C128_modified_knox_exchange, C128_jacquez, C128_jacquez_exchange, C128_jacquez_ties_refuted
* `Straight_props.v`: C157_which
* `StraussExact_props.v`: C38_feasible, C38_reachable, C38_infeasible, C38_area
* `StraussExc_props.v`: C37_exceptions
* `Supports_props.v`: C156_f_numpy_int_refuted, C156_no_bins, C156_case
* `Symmetry_props.v`: C117_g, C117_k, C117_units, C117_flat, C117_rotation_refuted, C118_g_test, C118_k_test, C118_f_test, C118_j_test, C118_default_hull, C118_f_order_refuted

### `ClassicalDedekindReals.sig_forall_dec`, `FunctionalExtensionality.functional_extensionality_dep`

* `Binomial_props.v`: C139_independent, C139_poisson, C139_single_refuted
* `Blocks_props.v`: C136_disc, C136_children, C136_process, C136_ends
* `Chimean_props.v`: C149_mean, C149_even, C149_uneven_refuted
* `Csr_props.v`: C148_fixed
* `Gmean_props.v`: C152_G, C152_F, C152_order, C152_limit
* `Joint_props.v`: C135_poisson, C135_exchangeable, C135_point, C135_counts, C135_time, C135_numbers, C135_normal
* `Kmean_props.v`: C150_mean, C150_limit
* `Null_props.v`: C138_patterns, C138_quadrat, C138_quadrat_exact, C138_G_refuted, C138_K_refuted
* `Reversible_props.v`: C141_balance, C141_one_way_refuted
* `Size_props.v`: C137_folded_L_refuted

### `ClassicalDedekindReals.sig_forall_dec`, `ClassicalDedekindReals.sig_not_dec`, `FunctionalExtensionality.functional_extensionality_dep`

* `CenterR_props.v`: C17_std_distance, C17_empty, C20_dtot
* `CenterSymR_props.v`: C122_std_distance, C122_minimises, C122_circle
* `Csr_props.v`: C148_poisson, C148_limit, C148_function_refuted
* `DistStatsL_props.v`: C56_l_of_k, C56_monotone, C56_bounded
* `ExtremeR_props.v`: C130_poisson_refuted
* `GeoCenter_props.v`: C108_dtot_forms_refuted
* `GeoCircle_props.v`: C110_touching
* `Ints_props.v`: C126_std, C126_std_refuted, C126_dtot
* `Kmean_props.v`: C150_L_refuted
* `Median_props.v`: C91_criterion, C91_in_hull, C91_unique
* `Neighbors_props.v`: C93_nnd, C93_summaries, C93_single, C93_empty, C93_find_pairs, C94_knn_other, C94_self
* `Normal_props.v`: C81_scaling, C81_not_symmetric_refuted, C81_number_is_variance, C81_default
* `Null_props.v`: C138_L_refuted
* `PermMean_props.v`: C107_mantel_centred, C107_mantel_mean
* `Poisson_props.v`: C92_poisson_tail, C92_upper_tail_refuted, C92_antitone
* `Ripley_props.v`: C114_same_pvalues
* `ShapesR_props.v`: C129_heights, C129_dtot_forms_refuted
* `Supports_props.v`: C156_known, C156_numpy_int_refuted, C156_number, C156_tuple_refuted
* `Symmetry_props.v`: C118_l_test

### `ClassicalDedekindReals.sig_forall_dec`, `ClassicalDedekindReals.sig_not_dec`, `Classical_Prop.classic`, `FunctionalExtensionality.functional_extensionality_dep`

* `Area64_props.v`: C132_hull, C132_positive, C132_exact, C132_closed, C132_box, C132_lambda_box, C132_negative_refuted
* `CenterR_props.v`: C18_principal_axes, C19_errors, C19_equivalences, C19_two_points, C19_two_points_refuted
* `CenterSymR_props.v`: C122_ellipse, C122_equal_axes, C122_euclidean_median, C122_minimum_bounding_circle
* `Chi64_props.v`: C142_value, C142_order, C142_pvalue, C142_exact, C142_ties_refuted
* `Circle_props.v`: C21_angle, C21_circumscribed, C21_flat, C21_folded, C22_terminates, C22_too_few, C86_minimum, C86_unique, C86_flat_vertex_refuted
* `Circum64_props.v`: C147_circumscribed, C147_choice
* `F64_props.v`: C101_error, C101_center, C101_grid, C101_two, C101_outside_refuted, C102_radicand, C102_result, C102_defined, C102_coincident_refuted, C102_cancellation_refuted
* `Float_props.v`: C43_count_form, C43_size_form, C43_subnormal_refuted, C83_simulated_size, C83_one_lost_refuted
* `G64_props.v`: C131_linspace, C131_exact, C131_values, C131_refused, C131_default, C131_order_refuted, C131_grid_refuted
* `GeoCenter_props.v`: C108_points_real
* `GeoCircle_props.v`: C110_not_covered_refuted, C110_covered, C110_scaled
* `GeoEllipse_props.v`: C90_ellipse_polygon, C90_two_points
* `Hex64_props.v`: C103_counts, C103_key_error_refuted, C104_containing
* `HullArea_props.v`: C159_area, C159_lambda
* `HullCircle_props.v`: C160_minimum, C160_unique
* `J64_props.v`: C146_value, C146_truncated, C146_empty, C146_order, C146_ties_refuted
* `K64_props.v`: C127_distance, C127_counts, C127_exact, C127_value, C127_monotone, C127_order, C127_flat, C127_nearest, C127_counts_refuted
* `L64_props.v`: C143_value, C143_linear, C143_order, C143_counts, C143_agree, C143_ties_refuted, C143_pvalues_refuted, C143_far_refuted
* `MKnox64_props.v`: C144_value, C144_order, C144_pvalue, C144_ties_refuted, C144_table
* `Mantel_props.v`: C154_raises, C154_undefined_refuted, C154_defined, C154_linear, C154_positive, C154_negative_refuted, C154_squares
* `Mbc64_props.v`: C147_loop, C147_exceptions, C147_straight, C147_pair, C147_too_large_refuted, C147_crash_refuted, C147_call_refuted
* `Median_props.v`: C91_exists, C91_euclidean_median
* `ProcessFloat_props.v`: C40_float_children, C40_float_parents
* `Pvalue64_props.v`: C116_decision, C116_order, C116_knox, C116_folded, C116_folded_decision, C116_tie_refuted, C116_upper, C116_small_tail
* `Rectangle_props.v`: C24_angle, C24_all_edges, C24_rotation, C24_rectangle, C24_collinear_refuted, C24_float_range, C24_float_range_refuted
* `Sample64_props.v`: C134_uniform, C134_box, C134_hull, C134_reversed_refuted, C134_circle, C134_ends_refuted
* `ShapesR_props.v`: C129_sequences_real, C129_shapes_real, C129_two_columns_real
* `StSym_props.v`: C128_mantel, C128_mantel_exchange, C128_mantel_units_refuted
* `Straight_props.v`: C157_triangle, C157_straight_refuted, C157_others, C157_case
* `Wmc64_props.v`: C133_centre, C133_inside, C133_scale, C133_distance, C133_zero, C133_better, C133_outside_refuted
