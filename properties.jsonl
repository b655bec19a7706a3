{"id": "C01", "title": "Minimum bounding box of a point pattern is tight", "statement": "For every non-empty point pattern, pp.mbb = [xmin, ymin, xmax, ymax] contains every point, every side is touched by a point, and any other axis-parallel box that contains all points contains the mbb; minimum_bounding_rectangle, geometry.bbox and the quadrat module compute the same box.", "quantifier": "every non-empty list of points", "why_tests_cant": "a test fixes one point list; tightness must hold for every list, order and multiplicity", "anchors": ["pointpats/pointpattern.py::PointPattern._mbb", "pointpats/centrography.py::minimum_bounding_rectangle", "pointpats/geometry.py::bbox", "pointpats/quadrat_statistics.py::_compute_mbb"]}
{"id": "C02", "title": "Default window agrees with the bounding box", "statement": "If no window is given, the window of a point pattern is the rectangle ring of its mbb, its area equals mbb_area, and therefore lambda_window equals lambda_mbb.", "quantifier": "every non-empty point list with positive extent", "why_tests_cant": "must hold for every set of coordinates, including negative ones and duplicates", "anchors": ["pointpats/pointpattern.py::PointPattern.__init__", "pointpats/window.py::poly_from_bbox", "pointpats/window.py::as_window", "pointpats/pointpattern.py::PointPattern._lambda_window"]}
{"id": "C03", "title": "Derived attributes are stable under any sequence of reads", "statement": "Reading cached attributes (mbb, mbb_area, n, rot, lambda_mbb, lambda_window) in any order and any number of times, with no write in between, always returns the value computed from the points and window of the object; a read never changes points, marks or window.", "quantifier": "every pattern and every finite history of attribute reads", "why_tests_cant": "the interleavings of reads that fill the cache are unbounded", "anchors": ["pointpats/util.py::cached_property", "pointpats/pointpattern.py::PointPattern"]}
{"id": "C04", "title": "lambda_window follows the current window", "statement": "After pp.set_window(w), pp.lambda_window is n / area(w). (The code memoises lambda_window, so this holds exactly for histories in which lambda_window was not read before the last window change; the unconditional claim is refuted.)", "quantifier": "every history of set_window and attribute reads", "why_tests_cant": "the failure needs a particular read-write-read history", "anchors": ["pointpats/pointpattern.py::PointPattern.set_window", "pointpats/pointpattern.py::PointPattern.lambda_window", "pointpats/util.py::cached_property"]}
{"id": "C05", "title": "explode partitions a marked pattern", "statement": "pp.explode(mark) yields one pattern per distinct mark value, sorted by value; every row of pp whose mark is not NaN is in exactly one of them, in the original order, with all attributes, and no row is invented. Rows whose mark is NaN are lost, but a NaN mark still adds an empty pattern; marks that cannot be ordered raise TypeError and an unknown column KeyError.", "quantifier": "every data frame and every column", "why_tests_cant": "partition must hold for every multiset of mark values", "anchors": ["pointpats/pointpattern.py::PointPattern.explode"]}
{"id": "C06", "title": "unique removes exactly the duplicates", "statement": "pp.unique() keeps the first occurrence of every distinct row (coordinates and marks), in order, has no two equal rows, has the same set of rows as pp, and is idempotent.", "quantifier": "every data frame", "why_tests_cant": "quantifies over all multisets of rows", "anchors": ["pointpats/pointpattern.py::PointPattern.unique"]}
{"id": "C07", "title": "unique keeps the observation window", "statement": "The window of pp.unique() is the window of pp. (The code passes the bound method set_window instead of the window, so the claim is refuted for every pattern.)", "quantifier": "every pattern and window", "why_tests_cant": "the unit tests never look at the window of the result", "anchors": ["pointpats/pointpattern.py::PointPattern.unique"]}
{"id": "C08", "title": "superimpose is the de-duplicated union", "statement": "pp1.superimpose(pp2) raises TypeError iff attribute names or coordinate names differ; otherwise its rows are the distinct rows of pp1 followed by the rows of pp2 not already present; as a set it is commutative and associative, and superimposing a pattern on itself gives unique().", "quantifier": "every pair (triple) of data frames", "why_tests_cant": "algebraic laws over all inputs", "anchors": ["pointpats/pointpattern.py::PointPattern.superimpose"]}
{"id": "C09", "title": "Automatically named marks never overwrite a column", "statement": "Starting from a pattern built with default names, any sequence of add_marks calls without mark_names only adds new columns: the existing columns, their order and their values are unchanged and every new name is fresh.", "quantifier": "every number of initial marks and every history of add_marks calls", "why_tests_cant": "freshness is an invariant over unbounded histories", "anchors": ["pointpats/pointpattern.py::PointPattern.add_marks", "pointpats/pointpattern.py::PointPattern.__init__"]}
{"id": "C10", "title": "The constructor leaves its arguments alone", "statement": "PointPattern(points, coord_names=cn) does not change the caller's list cn, so building twice from the same arguments gives the same result. (Refuted: with p > 2 columns and names=None the mark names are appended to the caller's list and the second construction raises ValueError.)", "quantifier": "every number of columns and every coord_names list", "why_tests_cant": "aliasing shows only on reuse of the same list object", "anchors": ["pointpats/pointpattern.py::PointPattern.__init__"]}
{"id": "C11", "title": "Membership test looks at the coordinates", "statement": "`q in pp` is True iff some point of the pattern has exactly the coordinates q, whenever the coordinate columns are the first two columns; it is refuted for other coord_names, where the first two columns are compared instead.", "quantifier": "every pattern, coord_names choice and query", "why_tests_cant": "depends on the position of the coordinate columns", "anchors": ["pointpats/pointpattern.py::PointPattern.__contains__"]}
{"id": "C12", "title": "flip_coordinates is an involution that changes only the plotted axes", "statement": "flip_coordinates() twice restores the object; a single flip leaves points, coord_names, data frame, mbb, window and every derived attribute unchanged.", "quantifier": "every pattern and every history of flips and reads", "why_tests_cant": "interleavings with cached reads", "anchors": ["pointpats/pointpattern.py::PointPattern.flip_coordinates"]}
{"id": "C13", "title": "knn returns the k nearest other points", "statement": "For a pattern of n points without coincident points, 1 <= k < n and any correct nearest-neighbour tree, row i of knn(k) never contains i, lists k different points, in non-decreasing distance, and no other point is closer than those listed; ValueError iff k < 1. For coincident points the claim is refuted: a correct tree may make i its own neighbour.", "quantifier": "every finite pattern, k, and every tie-breaking of the tree", "why_tests_cant": "tie-breaking of the tree is not under test control", "anchors": ["pointpats/pointpattern.py::PointPattern.knn"]}
{"id": "C14", "title": "mean_center is the least-squares centre", "statement": "mean_center(points) minimises the sum of squared Euclidean distances to the points, uniquely, lies in the bounding box, and commutes with translation and scaling; it is NaN exactly for no points.", "quantifier": "every non-empty point list and every competing centre", "why_tests_cant": "an optimum over all competitors", "anchors": ["pointpats/centrography.py::mean_center"]}
{"id": "C15", "title": "weighted_mean_center is the weighted least-squares centre", "statement": "With weights of positive sum, weighted_mean_center is invariant under rescaling of the weights, equals mean_center for equal weights, lies in the bounding box for non-negative weights, and has weighted residual zero.", "quantifier": "every point list and weight vector with positive sum", "why_tests_cant": "all weight vectors", "anchors": ["pointpats/centrography.py::weighted_mean_center"]}
{"id": "C16", "title": "manhattan_median minimises the total Manhattan distance", "statement": "No location has a smaller sum of |dx|+|dy| to the points than manhattan_median(points); the result does not depend on the order of the points; a warning is issued iff the number of points is even.", "quantifier": "every non-empty point list and every competing location", "why_tests_cant": "an optimum over all competitors, for odd and even sizes", "anchors": ["pointpats/centrography.py::manhattan_median"]}
{"id": "C17", "title": "std_distance is the root mean squared distance to the mean centre", "statement": "std_distance(points)^2 is the mean squared distance of the points to mean_center(points); it is translation invariant, homogeneous, non-negative and zero iff all points coincide.", "quantifier": "every non-empty point list", "why_tests_cant": "the code uses the cancellation form E[x^2]-E[x]^2", "anchors": ["pointpats/centrography.py::std_distance"]}
{"id": "C18", "title": "ellipse returns the principal axes", "statement": "For every point set (of at least three points when the degrees-of-freedom correction is used) and non-negative weights of positive sum, the two axes returned by ellipse are (up to the documented correction factor) the standard deviations of the weighted pattern along two perpendicular directions; the major axis is the largest and the minor axis the smallest standard deviation over all directions, and the returned angle is the direction of the major axis.", "quantifier": "every point list, non-negative weights with positive sum, and every direction", "why_tests_cant": "extremality over all directions, including the degenerate uncorrelated branch", "anchors": ["pointpats/centrography.py::ellipse"]}
{"id": "C19", "title": "ellipse argument validation and corrections", "statement": "ellipse raises ValueError iff the method (case-insensitively) is not crimestat/yuill or the weights have another length, and ZeroDivisionError iff otherwise the weights sum to zero; omitted weights equal unit weights; 'yuill' with both corrections equals 'crimestat'; with at least three points major >= minor >= 0, but with two points and the degrees-of-freedom correction no axis is finite, and for two points on a horizontal line the major axis is NaN and the minor axis infinite (finding).", "quantifier": "every method string, correction flags, weights", "why_tests_cant": "all flag combinations and inputs", "anchors": ["pointpats/centrography.py::ellipse"]}
{"id": "C20", "title": "dtot is a convex, order-independent total distance", "statement": "dtot(c, points) is non-negative, invariant under permutation of the points and under joint translation, convex in c, and changes by at most n*|c-c'| when c moves to c'.", "quantifier": "every point list and all locations", "why_tests_cant": "inequalities over all locations", "anchors": ["pointpats/centrography.py::dtot"]}
{"id": "C21", "title": "Candidate circles of minimum_bounding_circle are circumscribed", "statement": "Every circle minimum_bounding_circle builds from three points is their circumscribed circle: for three points spanning a non-degenerate triangle (angle not within 1e-5 of 0 or pi) the three points are at distance radius from the returned centre; above pi-1e-5 the circle has the segment p-r as diameter and contains q; below 1e-5 it has the segment p-q as diameter and contains r exactly when the angle at r is not acute.", "quantifier": "every triple of points", "why_tests_cant": "algebraic identity over all triples", "anchors": ["pointpats/centrography.py::_circle", "pointpats/centrography.py::_angle"]}
{"id": "C22", "title": "minimum_bounding_circle terminates with a circle through hull points", "statement": "On any hull with at least two distinct vertices the minimum_bounding_circle loop ends after at most n-2 removals, never empties the point list, and returns the circle of a (predecessor, point, successor) triple of the remaining hull whose angle at the point is at most pi/2.", "quantifier": "every list of at least two distinct points", "why_tests_cant": "termination and invariants over all inputs", "anchors": ["pointpats/centrography.py::_skyum_lists", "pointpats/centrography.py::_prec", "pointpats/centrography.py::_succ", "pointpats/centrography.py::_skyum_iteration"]}
{"id": "C23", "title": "hull_area is the shoelace area", "statement": "hull_area is invariant under cyclic rotation and translation of the hull ring, changes sign with orientation, is unchanged when the ring is given in closed form, and is non-negative for counter-clockwise convex rings.", "quantifier": "every ring of vertices", "why_tests_cant": "all rings", "anchors": ["pointpats/pointpattern.py::PointPattern._hull_area"]}
{"id": "C24", "title": "The minimum rotated rectangle angle is in [0, 90) and does not depend on the edge", "statement": "The reported angle is the only number in [0,90) that gives the direction of an edge up to right angles; it is the same whichever edge comes first and in either orientation, turning the rectangle by phi adds phi modulo 90, and moving or scaling changes nothing. (Refuted in binary64: an edge just below the horizontal gets 90.0. Refuted for collinear points: one end of the segment is dropped and return_angle raises IndexError.)", "quantifier": "every non-degenerate rectangle", "why_tests_cant": "trigonometric identity modulo 90 degrees", "anchors": ["pointpats/centrography.py::_get_mrr_angle"]}
{"id": "C25", "title": "k_neighbors returns the k nearest others", "statement": "If the tree was built on the queried coordinates and answers k+1-nearest-neighbour queries correctly (with any tie-breaking), k_neighbors returns for every i exactly k distinct indices different from i, in order of distance, such that no other point is closer; also when points coincide.", "quantifier": "every finite set of points (coincident or not), every k < n, every tie-breaking", "why_tests_cant": "tie-breaking among coincident points is outside test control", "anchors": ["pointpats/geometry.py::k_neighbors"]}
{"id": "C26", "title": "Empty-space distances are nearest-neighbour distances", "statement": "The observed distances used by f_test and j_test for the empty-space points are the distances to the nearest point of the pattern. (Refuted: the helper excludes the pattern point with the same row number; the exact value computed is characterised.)", "quantifier": "every pattern and every set of query points", "why_tests_cant": "the wrong value needs query i to be closest to pattern point i", "anchors": ["pointpats/distance_statistics.py::_ripley_test", "pointpats/geometry.py::k_neighbors"]}
{"id": "C27", "title": "Bounding-box geometry is coherent", "statement": "contains(bbox(points), p) holds for every point p; contains is exactly the closed box; area(bbox) is width times height and non-negative; centroid(bbox) is the midpoint and lies in the box; bbox of a (4,) array is the identity, of another vector TypeError (ValueError if empty).", "quantifier": "every point list / box", "why_tests_cant": "all coordinates", "anchors": ["pointpats/geometry.py::bbox", "pointpats/geometry.py::contains", "pointpats/geometry.py::area", "pointpats/geometry.py::centroid"]}
{"id": "C28", "title": "prepare_hull dispatch is total and idempotent", "statement": "prepare_hull returns a box for None/'bbox', a convex hull for 'convex*', an alpha shape for 'alpha*'/'α*', passes hull objects through unchanged, raises AssertionError for arrays that are not of shape (4,) and ValueError for every other value, and preparing a prepared hull is the identity. (The documentation says an (N,2) array of points is accepted and its bounding box used; this is refuted for every such array.)", "quantifier": "every hull argument", "why_tests_cant": "all strings", "anchors": ["pointpats/geometry.py::prepare_hull"]}
{"id": "C29", "title": "build_best_tree honours the requested metric", "statement": "build_best_tree either returns a tree for exactly the requested metric or raises KeyError; without scikit-learn only 'euclidean' and 'l2' are accepted.", "quantifier": "every metric, with and without scikit-learn", "why_tests_cant": "environment-dependent branches", "anchors": ["pointpats/geometry.py::build_best_tree"]}
{"id": "C30", "title": "parse_size_and_intensity is a total decision table", "statement": "For every hull area, intensity and size the function returns the documented (n_observations, n_simulations, intensity) or ValueError exactly in the documented cases; when size determines n, intensity*area = n; when intensity determines n, n is intensity*area rounded towards zero. On a hull of area zero a given intensity asks for no points, and without one the division is a ZeroDivisionError for a Python area and gives an intensity of inf, -inf or NaN by the sign of n for a numpy area.", "quantifier": "every area, intensity, size", "why_tests_cant": "all argument combinations", "anchors": ["pointpats/random.py::parse_size_and_intensity"]}
{"id": "C31", "title": "poisson points lie in the hull and have the requested number", "statement": "Whatever the random stream and the hull predicate, every point returned by poisson is contained in the hull and inside its bounding box, and every replication has exactly n_observations points; for a bounding-box hull every draw is accepted, so the sampler always terminates.", "quantifier": "every random stream, hull, size", "why_tests_cant": "randomness: tests see one stream", "anchors": ["pointpats/random.py::poisson"]}
{"id": "C32", "title": "Simulated arrays have the documented shape", "statement": "poisson, normal, strauss, and cluster_poisson/cluster_normal with two or more seeds, return shape (n_observations,2) for one replication and (n_replications,n_observations,2) otherwise. (Because of squeeze this holds iff n_observations is not 1; refuted for n_observations = 1.)", "quantifier": "all sizes", "why_tests_cant": "only the degenerate sizes fail", "anchors": ["pointpats/random.py::poisson", "pointpats/random.py::normal"]}
{"id": "C33", "title": "normal points lie in the hull and have the requested number", "statement": "Whatever the random stream, covariance and centre, every point returned by normal is contained in the hull and every replication has exactly n_observations points.", "quantifier": "every random stream, hull, size", "why_tests_cant": "randomness", "anchors": ["pointpats/random.py::normal"]}
{"id": "C34", "title": "Uniform disc sampling fills exactly n points inside disc and hull", "statement": "Whatever the random stream, the disc sampler behind cluster_poisson and PoissonClusterPointProcess returns exactly n points, each within radius of the centre and inside the hull; the surplus of the last batch is discarded.", "quantifier": "every stream, n, radius, centre, hull, burn", "why_tests_cant": "randomness and batch boundaries", "anchors": ["pointpats/random.py::_uniform_circle", "pointpats/process.py::runif_in_circle"]}
{"id": "C35", "title": "cluster_poisson yields n points around n_seeds seeds", "statement": "For n_seeds >= 2, whatever the random streams, every replication has n_observations points all inside the hull; the points are split in n_seeds groups whose sizes differ by at most one, each starting with its seed and staying within the cluster radius of it. On a hull of non-zero area, with valid sizes and radii, it raises Exception iff n_observations < n_seeds and nothing else; and some stream makes it return as soon as one point of the hull can be drawn.", "quantifier": "every stream, size, number of seeds, radius", "why_tests_cant": "randomness, split arithmetic", "anchors": ["pointpats/random.py::cluster_poisson"]}
{"id": "C36", "title": "cluster processes with a single seed", "statement": "cluster_poisson and cluster_normal with n_seeds=1 produce one cluster. (Refuted: squeeze turns the single seed into a 1-d array; the call raises, or for a single observation returns a point outside the hull.)", "quantifier": "all sizes with n_seeds = 1", "why_tests_cant": "corner case not in the tests", "anchors": ["pointpats/random.py::cluster_poisson", "pointpats/random.py::cluster_normal"]}
{"id": "C37", "title": "strauss returns n points of the hull or raises", "statement": "Whatever the random stream, with valid sizes strauss either raises RuntimeError or returns for every replication exactly n_observations points, all contained in the hull; during the sampler the number of points never drops below min(n_observations, initial number). (Two exceptions, both for an initial pattern of exactly one point, which squeeze turns into a 1-d array: ValueError may be raised, and with n_iter = 0 and one observation the point returned may lie outside the hull.)", "quantifier": "every stream, gamma, r, n_iter, max_iter", "why_tests_cant": "randomness over thousands of steps", "anchors": ["pointpats/random.py::strauss"]}
{"id": "C38", "title": "strauss succeeds on feasible requests", "statement": "strauss can produce the requested number n >= 1 of points whenever gamma is not 0 and there is at least one iteration. (Refuted, with the exact condition: births and the initial pattern pass a count as intensity, so the initial pattern has m = int(area * int(1.5 n)) points. If m >= n and m >= 2 the call never raises and some stream makes it return, provided a point of the hull can be drawn. Otherwise it never returns, whatever the random numbers, gamma, radius and max_iter, except that for n = 2 and m = 1 it may return the same point twice. So from area 1 on every n >= 2 is feasible, below area 2/3 no n is, and n = 1 needs area >= 2.)", "quantifier": "every stream", "why_tests_cant": "needs a hull whose area is far from 1", "anchors": ["pointpats/random.py::strauss", "pointpats/random.py::poisson"]}
{"id": "C39", "title": "PointProcess.draw returns n points of the window", "statement": "Whatever the random draws, a realization contains exactly n points, all contained in the window, taken in the order drawn; realizations are numbered 0..samples-1; with asPP each becomes a pattern of the same points and window. (An empty realization, possible with conditioning, makes asPP raise ValueError.)", "quantifier": "every window predicate and every sequence of draws", "why_tests_cant": "randomness", "anchors": ["pointpats/process.py::PointProcess.draw", "pointpats/process.py::PointProcess.__init__", "pointpats/window.py::Window.filter_contained"]}
{"id": "C40", "title": "PoissonClusterPointProcess parameters", "statement": "children = ceil(n/parents), the least k with k*parents >= n, also in binary64; parameters[i] is n without conditioning, else num_parents[i]*children; realize(n) returns children points within radius of each of int(n/children) random parents (plus the parents when keep). (Refuted: the constructor raises IndexError whenever a realization is not empty, because draw indexes numpy scalars; and a realization uses fewer than the reported num_parents parents unless parents divides n.)", "quantifier": "every n, parents, window, random stream", "why_tests_cant": "integer arithmetic for all values", "anchors": ["pointpats/process.py::PoissonClusterPointProcess"]}
{"id": "C41", "title": "Rectangular quadrat counts sum to n", "statement": "For every point set of positive width and height and every grid (count or cell-size form), point_location_sta raises nothing, has exactly count_column*count_row keys, and its counts sum to the number of points.", "quantifier": "every point set and grid", "why_tests_cant": "boundary points at the upper edges", "anchors": ["pointpats/quadrat_statistics.py::RectangleM"]}
{"id": "C42", "title": "Rectangular quadrats count the points of their cell", "statement": "The count of cell (ix,iy) is the number of points with ix*w <= x-xmin < (ix+1)*w (closed on the last column) and likewise for y: i.e. of the points in the polygon plotted for this cell; cells tile the bounding box.", "quantifier": "every point set, grid and cell", "why_tests_cant": "half-open boundaries in all positions", "anchors": ["pointpats/quadrat_statistics.py::RectangleM.point_location_sta", "pointpats/quadrat_statistics.py::RectangleM._rect_cell_bounds"]}
{"id": "C43", "title": "Rectangular quadrat counting is safe under binary64 rounding", "statement": "The index-range guarantee (no KeyError), monotonicity and the indices of the two edges also hold when the differences, the cell width and the steps of floor division are rounded to IEEE double precision, provided the cell width is a normal number. (Refuted for subnormal cell widths.)", "quantifier": "every double input without overflow, fewer than 2^50 columns", "why_tests_cant": "rounding at cell boundaries", "anchors": ["pointpats/quadrat_statistics.py::RectangleM"]}
{"id": "C44", "title": "Degenerate rectangular grids", "statement": "RectangleM works for every non-empty point set. (Refuted: a point set of zero width or height makes point_location_sta raise.)", "quantifier": "all point sets", "why_tests_cant": "collinear inputs", "anchors": ["pointpats/quadrat_statistics.py::RectangleM"]}
{"id": "C45", "title": "Hexagonal quadrat counts sum to n", "statement": "For every point set whose height is not a multiple of the hexagon half-height and whose width is not of the form (3k+1) half-sides, HexagonM.point_location_sta raises nothing and its counts sum to n; at the excluded boundary values it may raise KeyError (refuted).", "quantifier": "every point set and hexagon size", "why_tests_cant": "boundary vertices", "anchors": ["pointpats/quadrat_statistics.py::HexagonM.point_location_sta"]}
{"id": "C46", "title": "A point is counted in a hexagon that contains it", "statement": "Every point belongs to exactly one half-open hexagon of the infinite pattern, and that hexagon (as drawn by _hex_vertices) contains it. If the hexagon is one of the grid's cells the point is counted there. Exceptions, exactly: a point at the top of the data on the lower edge of an undrawn hexagon raises KeyError; a point at the right end of the data in the left corner of an undrawn hexagon is counted, without an error, in the first hexagon of the next row, or raises KeyError when there is no next row. Otherwise nothing is raised and each count is exactly that number of points. (So the unconditional claim 'counted in a hexagon that contains it' is refuted.)", "quantifier": "every point and grid", "why_tests_cant": "all positions, including the slanted edges", "anchors": ["pointpats/quadrat_statistics.py::HexagonM.point_location_sta", "pointpats/quadrat_statistics.py::HexagonM._hex_vertices", "pointpats/quadrat_statistics.py::HexagonM._iter_cells"]}
{"id": "C47", "title": "HexagonM.num is the number of cells", "statement": "HexagonM.num equals the number of cells of the grid. (Exactly true iff count_column is even or both row counts agree; refuted otherwise.)", "quantifier": "every grid", "why_tests_cant": "wrong only for odd column counts", "anchors": ["pointpats/quadrat_statistics.py::HexagonM.__init__"]}
{"id": "C48", "title": "Quadrat chi-square statistic", "statement": "chi2 is sum (O-E)^2/E with E = n/k, equals the sum of chi2_contrib, is non-negative, zero iff all counts are equal, independent of cell order; df = k-1; chi2_contrib is aligned with cell_ids.", "quantifier": "every count vector", "why_tests_cant": "all count vectors", "anchors": ["pointpats/quadrat_statistics.py::QStatistic.__init__"]}
{"id": "C49", "title": "Monte Carlo p-value of the quadrat test", "statement": "chi2_r_pvalue = (#{T_sim >= T_obs}+1)/(realizations+1), lies in [1/(R+1), 1] and is antitone in the observed statistic.", "quantifier": "every observed value and simulated sample", "why_tests_cant": "all samples", "anchors": ["pointpats/quadrat_statistics.py::QStatistic.__init__"]}
{"id": "C50", "title": "QStatistic runs with any positive number of realizations", "statement": "QStatistic(realizations=R) computes R simulated statistics for every R >= 1. (Refuted for R = 1: squeeze drops the replication axis and the call never returns. For R >= 2, once the patterns are drawn: with rectangles it returns iff the observed and every simulated pattern has an extent in both directions; with hexagons, for two or more points, iff no point of the observed or a simulated pattern lies where the grid has no cell.)", "quantifier": "every R", "why_tests_cant": "R=1 is not tested", "anchors": ["pointpats/quadrat_statistics.py::QStatistic.__init__", "pointpats/random.py::poisson"]}
{"id": "C51", "title": "F and G are cumulative distribution functions on the support", "statement": "For every non-decreasing support with at least one distance in range, the values of f and g start at 0, are non-decreasing, lie in [0,1] and end at 1; the result has the length of the support.", "quantifier": "every list of distances and support", "why_tests_cant": "all distances/supports", "anchors": ["pointpats/distance_statistics.py::f", "pointpats/distance_statistics.py::g"]}
{"id": "C52", "title": "G(d) counts the nearest-neighbour distances below d", "statement": "At a support value d before the last one, g is the number of nearest-neighbour distances in [support[0], d) divided by the number in [support[0], support[-1]]; hence it is the empirical CDF when the support covers all distances. (The unconditional empirical-CDF claim is refuted for shorter supports.)", "quantifier": "every list of distances and support", "why_tests_cant": "normalisation error only for truncated supports", "anchors": ["pointpats/distance_statistics.py::f", "pointpats/distance_statistics.py::g"]}
{"id": "C53", "title": "G from a full distance matrix", "statement": "g(coordinates, distances=D) with the full (n,n) matrix equals g(coordinates). (Refuted: the zero diagonal is included in the row minimum, so all distances become 0.)", "quantifier": "every distance matrix with zero diagonal", "why_tests_cant": "the warning branch is untested", "anchors": ["pointpats/distance_statistics.py::g"]}
{"id": "C54", "title": "K counts pairs closer than d", "statement": "k(d) = area * 2 * #{unordered pairs with distance < d} / n^2; it is non-decreasing, zero for d <= 0, at most area*(n-1)/n, attained beyond the largest distance, and independent of the order of points.", "quantifier": "every point set, metric and support", "why_tests_cant": "all inputs", "anchors": ["pointpats/distance_statistics.py::k"]}
{"id": "C55", "title": "K accepts equivalent distance inputs", "statement": "k gives the same result from coordinates, from the condensed upper triangle, and from the full symmetric matrix; other lengths raise ValueError.", "quantifier": "every n and symmetric matrix", "why_tests_cant": "index arithmetic of the triangle for all n", "anchors": ["pointpats/distance_statistics.py::k"]}
{"id": "C56", "title": "L is the transformed K", "statement": "l(d) = sqrt(k(d)/pi), so pi*l(d)^2 = k(d); the linearised form subtracts d; l is non-decreasing.", "quantifier": "every input", "why_tests_cant": "all inputs", "anchors": ["pointpats/distance_statistics.py::l"]}
{"id": "C57", "title": "J is the ratio of the survival functions and is truncated before the first invalid value", "statement": "j(d) = (1-G(d))/(1-F(d)) with NaN where both are one; with truncate=True the result is the longest prefix without inf/NaN, so every returned value is finite; support and values stay aligned.", "quantifier": "every F and G vectors", "why_tests_cant": "all prefixes", "anchors": ["pointpats/distance_statistics.py::j", "pointpats/distance_statistics.py::_truncate"]}
{"id": "C58", "title": "j_test always returns a result", "statement": "j_test with truncate=True returns a result for every support of at least two values: the last hazard ratio is always invalid, so the truncation always shortens the result, and support, statistic and p-values stay aligned. (Without the lower bound refuted: with a single support value, e.g. support=1, it returns None.)", "quantifier": "every pattern and every support", "why_tests_cant": "the None branch is silent", "anchors": ["pointpats/distance_statistics.py::j_test", "pointpats/distance_statistics.py::_truncate"]}
{"id": "C59", "title": "Truncated j_test keeps the simulation envelope aligned", "statement": "After truncation, simulations has one column per remaining support value. (Refuted: the rows, i.e. the simulations, are truncated instead.)", "quantifier": "every simulation matrix", "why_tests_cant": "needs keep_simulations and truncation", "anchors": ["pointpats/distance_statistics.py::j_test", "pointpats/distance_statistics.py::_truncate"]}
{"id": "C60", "title": "Ripley test p-values", "statement": "With n_simulations = S > 0 the p-values are min(p,1-p) with p = (#{sim >= obs}+1)/(S+1), so they lie in [0, 1/2]; the usual Monte Carlo lower bound 1/(S+1) is refuted (0 is reached when every simulation is at least the observed value); for S <= 0 all are NaN.", "quantifier": "every simulation matrix", "why_tests_cant": "all samples", "anchors": ["pointpats/distance_statistics.py::_ripley_test"]}
{"id": "C61", "title": "Support construction", "statement": "An integer support m gives m evenly spaced values from 0 to the largest nearest-neighbour distance; (stop,), (start,stop), (start,stop,m) give 20/20/m evenly spaced values with the stated end points; arrays pass unchanged; any edge_correction raises NotImplementedError before anything else.", "quantifier": "every support argument", "why_tests_cant": "all tuples", "anchors": ["pointpats/distance_statistics.py::_prepare"]}
{"id": "C62", "title": "Knox counts unordered pairs close in space and time", "statement": "Knox.nst is the number of unordered pairs i<j with spatial distance <= delta and temporal distance <= tau; ns and nt likewise; st_pairs is exactly this set; nothing depends on the order in which the tree lists neighbours.", "quantifier": "every point/time list and thresholds", "why_tests_cant": "all inputs", "anchors": ["pointpats/spacetime.py::_knox"]}
{"id": "C63", "title": "Knox contingency tables", "statement": "observed and expected are 2x2 tables with the same margins (ns, pairs-ns | nt, pairs-nt) and total n(n-1)/2; observed entries are non-negative integers; expected[0,0] = ns*nt/pairs.", "quantifier": "every input with n >= 2", "why_tests_cant": "all inputs", "anchors": ["pointpats/spacetime.py::_knox"]}
{"id": "C64", "title": "Knox permutation statistic is the statistic of relabelled times", "statement": "For every permutation of the event labels the permuted statistic equals the Knox count after permuting the time stamps; the identity gives nst; it is an integer and at most min(ns, nt).", "quantifier": "every permutation", "why_tests_cant": "n! permutations", "anchors": ["pointpats/spacetime.py::_knox"]}
{"id": "C65", "title": "Pseudo p-values are valid Monte Carlo p-values", "statement": "p_sim of Knox, KnoxLocal (per observation), mantel, jacquez and modified_knox is (#{perm >= obs}+1)/(permutations+1), in [1/(P+1), 1], and equals 1 when every permuted value reaches the observed one. (Refuted for undefined statistics: when the observed or the permuted values are NaN, as in mantel with equal times or modified_knox with one event, every comparison is false and the smallest possible p-value 1/(P+1) is returned.)", "quantifier": "every permutation sample", "why_tests_cant": "all samples", "anchors": ["pointpats/spacetime.py::_knox", "pointpats/spacetime.py::_knox_local", "pointpats/spacetime.py::mantel", "pointpats/spacetime.py::jacquez", "pointpats/spacetime.py::modified_knox"]}
{"id": "C66", "title": "knox p-value is folded", "statement": "The deprecated knox function returns p = (min(larger, P-larger)+1)/(P+1), in [1/(P+1), (P/2+1)/(P+1)]; the statistic equals Knox.nst; it raises IndexError iff no pair is close in space.", "quantifier": "every permutation sample", "why_tests_cant": "all samples", "anchors": ["pointpats/spacetime.py::knox"]}
{"id": "C67", "title": "knox leaves its inputs alone", "statement": "knox does not modify t_coords. (Refuted: the caller's array is shuffled in place; the multiset of times is preserved.)", "quantifier": "every input and permutation sequence", "why_tests_cant": "aliasing", "anchors": ["pointpats/spacetime.py::knox"]}
{"id": "C68", "title": "Local Knox statistics decompose the global one", "statement": "KnoxLocal.nsti[i] is the number of events close to i in space and time; the nsti sum to 2*nst; nsti[i] <= min(nsi, nti).", "quantifier": "every input", "why_tests_cant": "all inputs", "anchors": ["pointpats/spacetime.py::_knox_local"]}
{"id": "C69", "title": "Conditional permutations fix the focal event", "statement": "For every permutation and focal i the conditional relabelling is again a permutation, maps i to i, and changes only the labels at i and at the position that held i; the stored local statistic is the local count under that relabelling.", "quantifier": "every permutation and focal event", "why_tests_cant": "n!*n cases", "anchors": ["pointpats/spacetime.py::_knox_local"]}
{"id": "C70", "title": "The space-time adjacency list is symmetric and oriented", "statement": "adjlist contains (i,j) iff (i,j) or (j,i) is a space-time pair, each once, sorted; (i,j) is 'lead' iff (j,i) is 'lag', and 'coincident' iff the times are equal; user ids are mapped consistently.", "quantifier": "every input", "why_tests_cant": "all inputs", "anchors": ["pointpats/spacetime.py::_knox_local", "pointpats/spacetime.py::KnoxLocal.__init__"]}
{"id": "C71", "title": "Hot spots are the significant events and their neighbours", "statement": "hotspots(keep_neighbors=True) lists every significant event and every space-time neighbour of one, each once; with keep_neighbors=False exactly the significant ones; unknown inference raises ValueError; without permutations analytic p-values are used.", "quantifier": "every adjacency and p-value vector", "why_tests_cant": "all graphs", "anchors": ["pointpats/spacetime.py::KnoxLocal.hotspots"]}
{"id": "C72", "title": "Hot spot cluster labels follow connectivity", "statement": "Equal cluster labels imply a chain of space-time pairs between the two events, and every event shares its label with one of its neighbours; labels are the components of the graph that keeps only the first neighbour of every event. (Refuted: two significant events that form a space-time pair may get different labels.)", "quantifier": "every graph", "why_tests_cant": "needs a path of at least four events", "anchors": ["pointpats/spacetime.py::KnoxLocal.hotspots"]}
{"id": "C73", "title": "modified_knox statistic", "statement": "modified_knox returns half of (number of ordered close pairs minus sum_i ns_i*nt_i/(n-1)); it is invariant under joint relabelling of events; the statistic is zero if every pair is close in space.", "quantifier": "every input with n >= 2", "why_tests_cant": "all inputs", "anchors": ["pointpats/spacetime.py::modified_knox"]}
{"id": "C74", "title": "Mantel permutations relabel rows and columns jointly", "statement": "Every permuted matrix used by mantel is the original with rows and columns permuted by the same permutation: symmetry, the diagonal and the multiset of entries are preserved.", "quantifier": "every square matrix and permutation", "why_tests_cant": "n! permutations", "anchors": ["pointpats/spacetime.py::_shuffle_matrix"]}
{"id": "C75", "title": "jacquez statistic", "statement": "The Jacquez statistic is the number of ordered pairs (i,j) with j among the k nearest neighbours of i both in space and in time; it lies in [0, n*k] and equals n*k if the two neighbour relations coincide.", "quantifier": "every neighbour relation", "why_tests_cant": "all relations", "anchors": ["pointpats/spacetime.py::jacquez"]}
{"id": "C76", "title": "KnoxLocal argument validation", "statement": "KnoxLocal raises ValueError iff an input is not a two-dimensional array, s_coords has fewer than two columns, the lengths differ, or ids has another length; from_dataframe raises iff the CRS is geographic, a geometry is not a Point, time is not numeric or the frame is empty.", "quantifier": "every argument", "why_tests_cant": "all argument combinations", "anchors": ["pointpats/spacetime.py::KnoxLocal.__init__", "pointpats/spacetime.py::_spacetime_points_to_arrays"]}
{"id": "C77", "title": "Inferred time stamps start at zero and keep differences", "statement": "With infer_timestamp=True and dates, t is the number of days since the earliest event: all t >= 0, some t = 0, and differences of t are differences of dates in days.", "quantifier": "every list of dates", "why_tests_cant": "all date lists", "anchors": ["pointpats/spacetime.py::SpaceTimeEvents.__init__"]}
{"id": "C78", "title": "plot classifies events by significance", "statement": "In KnoxLocal.plot/explore an event is 'focal' iff its p-value <= crit, 'neighbor' iff it is not focal and adjacent to a focal event, else 'nonsig'.", "quantifier": "every graph and p-values", "why_tests_cant": "all graphs", "anchors": ["pointpats/spacetime.py::KnoxLocal.plot", "pointpats/spacetime.py::KnoxLocal.explore"]}
{"id": "C79", "title": "The density grid covers the data", "statement": "With margin >= 0 the evaluation mesh of plot_density spans [xmin-m*w, xmax+m*w] x [ymin-m*h, ymax+m*h], has x_res columns and y_res rows and covers all points when both are at least 2; z[j][i] is the density at node (j,i). (Refuted: a float resolution passes the type check and then raises TypeError, and data in the documented (2,n) layout are read as n-column rows.)", "quantifier": "every data set, margin, resolution", "why_tests_cant": "all inputs", "anchors": ["pointpats/kde.py::plot_density"]}
{"id": "C80", "title": "to_ccf closes a ring", "statement": "to_ccf returns a ring whose last vertex equals the first, appends at most one vertex, is idempotent, and leaves closed rings unchanged.", "quantifier": "every non-empty ring", "why_tests_cant": "all rings", "anchors": ["pointpats/window.py::to_ccf"]}
{"id": "C81", "title": "The covariance argument of normal is rescaled to a correlation matrix", "statement": "The matrix normal passes to the generator has unit diagonal and is the correlation matrix of cov iff the covariance is zero or the variances are equal (refuted in general: entry (i,j) is cov_ij/var_j, not symmetric); a number given as cov acts as a variance although documented as a standard deviation.", "quantifier": "every positive-variance covariance matrix", "why_tests_cant": "needs unequal variances and a look at intermediate matrices", "anchors": ["pointpats/random.py::normal"]}
{"id": "C82", "title": "QStatistic simulations use the observed grid", "statement": "Simulated patterns are counted on the grid of the observed pattern. (Refuted: the grid is laid over the bounding box of each simulated pattern; numbers of rows and columns are kept.)", "quantifier": "every manager and simulated pattern", "why_tests_cant": "statistical bias only", "anchors": ["pointpats/quadrat_statistics.py::QStatistic.__init__"]}
{"id": "C83", "title": "QStatistic simulates patterns of the observed size under binary64 rounding", "statement": "Each simulated pattern has int((n/area)*area) points in binary64 arithmetic: this is n or n-1. (The claim that it is n is refuted: n=10 in a 7 by 11 window gives 9.)", "quantifier": "every n below 2^50 and area without underflow", "why_tests_cant": "the lost point depends on the last bit", "anchors": ["pointpats/quadrat_statistics.py::QStatistic.__init__", "pointpats/random.py::parse_size_and_intensity"]}
{"id": "C84", "title": "Empty-space points of f_test and j_test cover the hull", "statement": "The empty-space points are drawn from the hull given by the caller. (Refuted: they are 1000 points of the bounding box of the coordinates whatever the hull, while simulated patterns are drawn in the hull.)", "quantifier": "every pattern, hull and random stream", "why_tests_cant": "needs a hull larger than the bounding box", "anchors": ["pointpats/distance_statistics.py::_ripley_test"]}
{"id": "C85", "title": "k_test uses the hull for the intensity", "statement": "The K estimates compared by k_test use the area of the given hull. (Refuted: they use the bounding box of the pattern at hand; the value beyond the largest distance is area(bounding box)*(n-1)/n.)", "quantifier": "every pattern, hull and support", "why_tests_cant": "needs a hull larger than the bounding box", "anchors": ["pointpats/distance_statistics.py::_ripley_test", "pointpats/distance_statistics.py::k"]}
{"id": "C86", "title": "minimum_bounding_circle returns the smallest enclosing disc", "statement": "When the convex hull is strictly convex, in either orientation, and no three of its vertices form an angle below 1e-5 or above pi-1e-5, minimum_bounding_circle returns a disc that contains every point of the pattern; no enclosing disc is smaller and no other enclosing disc has that radius; so the result depends neither on numba being installed nor on the order of points or hull vertices. (Without the angle condition this is refuted: a hull vertex whose angle is within 1e-5 of pi makes the function return a circle that leaves out a point by more than a quarter of the radius.)", "quantifier": "every pattern, every convex hull routine, both loop implementations", "why_tests_cant": "optimality over all discs and all point sets; the failing input needs a nearly flat hull vertex", "anchors": ["pointpats/centrography.py::minimum_bounding_circle", "pointpats/centrography.py::_skyum_lists", "pointpats/centrography.py::_skyum_iteration", "pointpats/centrography.py::_circle"]}
{"id": "C87", "title": "Strauss chain accepts births and deaths with reciprocal ratios", "statement": "With t = number of other points within distance r of p, a birth of the single point p into x is accepted iff the uniform number u is below min(1, n*gamma^t/(|x|+1)); the death that removes p from x is accepted iff u < min(1, |x|/(n*gamma^t)), raising RuntimeError iff that denominator is 0; so birth and the reverse death have acceptance ratios a and 1/a. (That a birth proposes one point is refuted: poisson(hull, 1) has int(area) points, so an accepted birth adds int(area) points at once and none when the area is below 1.)", "quantifier": "every pattern, gamma, r, n and random stream", "why_tests_cant": "the acceptance probability is not observable from single runs", "anchors": ["pointpats/random.py::strauss"]}
{"id": "C88", "title": "Analytic local p-values are averaged hypergeometric tails", "statement": "For two or more events KnoxLocal.p_hypergeom[i] is the mean, over all events j, of the probability that a uniformly drawn set of nsi[i] events other than j contains at least nsti[i] events close in time to j; it lies in [0,1] and is 1 if nsti[i] = 0.", "quantifier": "every input with n >= 2", "why_tests_cant": "the claim is about a distribution over all subsets", "anchors": ["pointpats/spacetime.py::_knox_local"]}
{"id": "C89", "title": "Density values of the KDEpy engine sit at their nodes", "statement": "With a kernel and an integer resolution n, plot_density passes the two increasing axes of the evaluation grid and a matrix z with z[j][i] = density at (x_i, y_j). (Refuted: a tuple or None as resolution, both documented, raise TypeError.)", "quantifier": "every grid, density and resolution", "why_tests_cant": "transposed values look plausible in a picture", "anchors": ["pointpats/kde.py::plot_density"]}
{"id": "C90", "title": "The GeoPandas ellipse is the ellipse of k standard deviations", "statement": "For GeoPandas points, ellipse returns the polygon obtained from the unit buffer at the mean centre by scaling and rotating; every vertex lies on the ellipse of k standard deviations of the (weighted) covariance of the points around the centre, and no vertex is further than k standard deviations in any direction. (k depends on the method and corrections; with at most two points there is no finite polygon, except for yuill without the degrees-of-freedom correction.)", "quantifier": "every list of points, non-negative weights with positive sum, method and corrections with enough points for finite axes", "why_tests_cant": "rotation sense and axis order are visible only for skewed inputs; the claim is about every direction", "anchors": ["pointpats/centrography.py::ellipse"]}
{"id": "C91", "title": "Euclidean median: criterion, existence, uniqueness, location", "statement": "A point minimises the total distance dtot exactly if the sum of the unit vectors towards the other points is no longer than the number of points at it; a minimiser always exists, lies in the convex hull, and is unique unless the points are collinear. euclidean_median returns a minimiser if the optimiser is exact, and with any descent optimiser a point whose total distance is no worse than that of the mean centre and which is within 2*dtot(mean)/n of it.", "quantifier": "every non-empty list of points and every optimiser", "why_tests_cant": "a minimum over the whole plane cannot be enumerated", "anchors": ["pointpats/centrography.py::euclidean_median", "pointpats/centrography.py::dtot"]}
{"id": "C92", "title": "Poisson p-value of the global Knox test", "statement": "With a pairs close in space, b close in time and c in both among n >= 2 events, p_poisson is P(X > c) for a Poisson variable of mean a*b/(n(n-1)/2); it lies in [0,1) and falls as c grows. (Refuted: it is not the probability P(X >= c) of a count at least as large as observed; it is smaller by P(X = c), and 0 instead of 1 when no pair is close in space or in time. For n < 2 it is NaN.)", "quantifier": "every set of events and thresholds", "why_tests_cant": "strict and non-strict tails differ by one term; an infinite sum is needed to state it", "anchors": ["pointpats/spacetime.py::_knox"]}
{"id": "C93", "title": "Nearest-neighbour distances and their summaries", "statement": "For two or more points, even coincident ones, nnd is an n x 1 array whose entry i is the distance from point i to the nearest other point; min_nnd is the distance of a closest pair and 0 exactly if two points coincide, max_nnd is the largest entry, and min_nnd <= mean_nnd <= max_nnd. find_pairs(r) is empty exactly if r < min_nnd, lists the closest pairs for r = min_nnd and grows with r. For a single point all summaries are infinite; for none min_nnd and max_nnd raise ValueError and mean_nnd is NaN.", "quantifier": "every list of two or more points and every correct tree", "why_tests_cant": "ties and duplicates make the tree list another point before the point itself", "anchors": ["pointpats/pointpattern.py::PointPattern.knn", "pointpats/pointpattern.py::PointPattern._nn_sum", "pointpats/pointpattern.py::PointPattern._min_nnd", "pointpats/pointpattern.py::PointPattern._max_nnd", "pointpats/pointpattern.py::PointPattern._mean_nnd", "pointpats/pointpattern.py::PointPattern.find_pairs"]}
{"id": "C94", "title": "knn_other lists the nearest points of the pattern", "statement": "knn_other(other, k) raises ValueError exactly if k < 1; otherwise row i lists the min(k, n) nearest points of the pattern to point i of other with their distances, padded with index n and infinite distance. A point of the pattern is its own first neighbour, at distance 0. (Refuted: the documented n x k shape; for k = 1 the result is one-dimensional. A list of points is accepted, but an array, tuple or data frame raises AttributeError.)", "quantifier": "every pattern, argument and k", "why_tests_cant": "padding, ties and the dropped axis depend on k and n together", "anchors": ["pointpats/pointpattern.py::PointPattern.knn_other"]}
{"id": "C95", "title": "Convex hulls as study regions: bounding box, containment, centroid", "statement": "For a scipy ConvexHull, bbox is the tight bounding box of all points it was built from; contains(hull, p) is true exactly if p is in the convex hull of these points (boundary included), hence for the points themselves and only inside the bounding box; centroid is the mean of the hull vertices and lies in the hull. For a triangle it is the area centroid. (Refuted: in general it is not the centroid of the region; for the trapezium (0,0),(4,0),(3,3),(1,3) it has y = 3/2 instead of 4/3.)", "quantifier": "every hull and query point", "why_tests_cant": "the mean of the vertices and the centroid agree on triangles and symmetric shapes, which is what tests use", "anchors": ["pointpats/geometry.py::centroid", "pointpats/geometry.py::bbox", "pointpats/geometry.py::contains"]}
{"id": "C96", "title": "Quadrat plots show the right number in the right cell", "statement": "In the counts plot of a rectangular grid every text lies inside its drawn cell and is the number of points in that cell; in the hexagonal plot every text lies inside its drawn hexagon and is the count stored for it. In the chi2 plot of a QStatistic the cells and text positions are the same, and where the counts plot shows k the chi2 plot shows (k - e)^2 / e with e the mean count. An unknown show raises ValueError, as does chi2 on the grid itself exactly if the contributions are missing or their number is not the number of cells.", "quantifier": "every pattern, grid and contribution list", "why_tests_cant": "a text in a neighbouring cell or an order mismatch between dictionary and drawing order is only visible to the eye", "anchors": ["pointpats/quadrat_statistics.py::RectangleM.plot", "pointpats/quadrat_statistics.py::HexagonM.plot", "pointpats/quadrat_statistics.py::QStatistic.plot"]}
{"id": "C97", "title": "The drawn outline of the window is all its rings", "statement": "Plotting the window draws a ring exactly if it is the exterior or a hole of a polygon nested at any depth in the geometry; the number of paths is the number of polygons plus the number of holes. Without a window, and for geometries without polygons, nothing is drawn.", "quantifier": "every geometry of any nesting depth", "why_tests_cant": "nesting depth is unbounded", "anchors": ["pointpats/quadrat_statistics.py::_window_to_paths"]}
{"id": "C98", "title": "Replications of the cluster processes are not independent: parents repeat", "statement": "cluster_poisson and cluster_normal seed the parents of each replication with one of only 100000 integers. Hence, with two or more seeds and more than 100000 replications, any successful call returns two replications whose parents are identical and stand in the same places, whatever the generator; and already for 373 replications fewer than half of the equally likely seed vectors are free of repetitions. (Finding: replications are neither independent nor distinct draws of the process.)", "quantifier": "every hull, size, radius or covariance, generator and stream", "why_tests_cant": "a repetition among hundreds of replications is invisible in any single test run", "anchors": ["pointpats/random.py::cluster_poisson", "pointpats/random.py::cluster_normal"]}
{"id": "C99", "title": "Inputs of the quadrat classes are interchangeable", "statement": "A GeoSeries, GeoDataFrame or PointPattern gives the same QStatistic as the n x 2 array of its coordinates (missing and empty geometries dropped, multi-points expanded in order). A series with any other geometry type raises TypeError; one without coordinates raises ValueError; an array is accepted exactly if it has two columns and at least one row, otherwise ValueError. (Finding: a GeometryArray, documented as accepted, raises ValueError.)", "quantifier": "every input, grid and random stream", "why_tests_cant": "combinations of missing, empty and multi-part geometries", "anchors": ["pointpats/quadrat_statistics.py::_as_points_array", "pointpats/quadrat_statistics.py::QStatistic.__init__"]}
{"id": "C100", "title": "Random generators given to QStatistic", "statement": "With an integer seed the result depends on the seed alone and no other generator changes. A Generator or BitGenerator is shared: two calls in a row use consecutive parts of one stream, and without simulations it is left as it was. A RandomState gives the result of the first integer it returns used as a seed and is advanced by exactly that one draw, even without simulations. (Finding: it is not wrapped as documented, so its further numbers are never used.)", "quantifier": "every generator state and input", "why_tests_cant": "requires the state of generators before and after the call", "anchors": ["pointpats/quadrat_statistics.py::_coerce_rng", "pointpats/quadrat_statistics.py::QStatistic.__init__"]}
{"id": "C101", "title": "Rounding of the mean centre", "statement": "On binary64, with the coordinates added from the first to the last, the computed mean of n finite values whose absolute values sum to at most 2^1022 is finite and within n*2^-52 times the mean absolute value (+2^-1075) of the exact mean. If all coordinates are multiples of one power of two and their absolute values sum to at most 2^53 of these units it is the correctly rounded exact mean and lies between the smallest and the largest coordinate; the mean of two values with |x+y| <= 2^1023 always does. (Finding: in general it may not: the mean centre of three coincident points at 0.1 is outside their bounding box.)", "quantifier": "all lists of at most 2^52 finite binary64 values", "why_tests_cant": "rounding depends on the bits of the inputs; decimal test data hides it", "anchors": ["pointpats/centrography.py::mean_center"]}
{"id": "C102", "title": "Rounding of the standard distance", "statement": "On binary64 the radicand of std_distance (mean of squares minus squared mean) is within (n+3)*2^-50 times the mean squared distance from the origin (+2^-1070) of the exact variance; the result is NaN exactly if the computed radicand is negative and otherwise its rounded square root; it is finite whenever the exact variance is at least that slack. (Findings: three coincident points at (0.1, 0.1) give NaN; two points at distance 1 near x = 2^27 give 0 instead of 1/2.)", "quantifier": "all lists of at most 2^52 finite binary64 points with squared distances from the origin summing to at most 2^1020", "why_tests_cant": "cancellation only shows far from the origin or for coincident points", "anchors": ["pointpats/centrography.py::std_distance"]}
{"id": "C103", "title": "Hexagon counts on binary64", "statement": "For finite points and a hexagon side all bounded by W, if the width and height of the data differ from every multiple of half the side and of the (rounded) half height by more than 2^-48 W, then on binary64 HexagonM and point_location_sta raise nothing: the grid has the numbers of columns and rows of the exact grid, its cells are exactly the (column, row) pairs in range, every count is the number of points whose cell it is, and the counts sum to n, whatever the rounding in between. (Finding: margins of one unit in the last place are not enough: for three points of extents 9/4 x y with y strictly between two and three half heights the code raises KeyError.)", "quantifier": "all non-empty lists of finite binary64 points; sides from 2^-1000; W up to 2^1000", "why_tests_cant": "floor and ceil amplify one rounding error to a missing row", "anchors": ["pointpats/quadrat_statistics.py::HexagonM.__init__", "pointpats/quadrat_statistics.py::HexagonM.point_location_sta"]}
{"id": "C104", "title": "Points are counted in a containing hexagon up to rounding", "statement": "On binary64 every point is counted in a hexagon of the pattern (non-negative column and row) that contains it once the hexagon is enlarged by 2^-40 W^2/side, W bounding coordinates and side; this needs no distance from the edges.", "quantifier": "all non-empty lists of finite binary64 points; side in [2^-400, W], W <= 2^400 and W <= 2^35 side", "why_tests_cant": "the slope and intercept of the slanted edges are computed with cancellation", "anchors": ["pointpats/quadrat_statistics.py::HexagonM.point_location_sta"]}
{"id": "C105", "title": "Expected Knox counts are exact permutation means", "statement": "Over all n! relabellings of the times the simulated Knox counts have mean exactly expected[0,0]; each cell of the expected table is the mean of the observed tables; and the modified Knox statistics are all finite and sum to exactly zero.", "quantifier": "all inputs with at least two events, all thresholds, every enumeration of the relabellings", "why_tests_cant": "needs all n! relabellings; a sample has sampling error", "anchors": ["pointpats/spacetime.py::_knox", "pointpats/spacetime.py::modified_knox"]}
{"id": "C106", "title": "What the local p-values are p-values of", "statement": "The analytic p_hypergeom[i] of the local Knox test times n! is the number of relabellings of the times for which event i has at least nsti[i] close events. The simulated local share over all relabellings of the others is instead one hypergeometric tail in which event i keeps its own number of close times. (Finding: they test different null hypotheses: for three events 1/3 and 1/2.)", "quantifier": "all inputs, events and enumerations of the relabellings", "why_tests_cant": "the two p-values are close on typical data", "anchors": ["pointpats/spacetime.py::_knox_local"]}
{"id": "C107", "title": "Permutation means of Jacquez and Mantel statistics", "statement": "If no event has two others at the same time distance, the Jacquez statistic has mean n*k^2/(n-1) over all relabellings of the times. The correlations computed by mantel sum to zero over all relabellings of the times, so statistics accurate to eps have mean within eps of zero. (Finding: with ties the Jacquez mean depends on how the neighbour search breaks them: three coincident events with k=1 give 3 instead of 3/2.)", "quantifier": "all inputs; neighbour lists satisfying the k-nearest contract; symmetric time distances, any power transformations, neither distance list constant", "why_tests_cant": "needs all n! relabellings and the contract of the neighbour search", "anchors": ["pointpats/spacetime.py::jacquez", "pointpats/spacetime.py::mantel"]}
{"id": "C108", "title": "Centrography of GeoPandas point layers", "statement": "For a layer of points the GeoPandas versions of mean_center, weighted_mean_center, manhattan_median, std_distance, euclidean_median, dtot, hull, minimum_bounding_rectangle and minimum_bounding_circle work on the located points in row order; missing and empty geometries are passed over. The envelope has the corners of the array version, and is a point or a segment instead of a polygon exactly if the points agree in both or one coordinate. With one weight per row weighted_mean_center raises ValueError exactly if some row is missing or empty. (Finding: dtot dispatches on its first argument only; mixed forms raise AttributeError, IndexError or TypeError instead of NotImplementedError.)", "quantifier": "all layers, weights and thresholds", "why_tests_cant": "missing rows are rare in tests", "anchors": ["pointpats/centrography.py::mean_center", "pointpats/centrography.py::weighted_mean_center", "pointpats/centrography.py::manhattan_median", "pointpats/centrography.py::std_distance", "pointpats/centrography.py::euclidean_median", "pointpats/centrography.py::minimum_bounding_rectangle", "pointpats/centrography.py::dtot", "pointpats/centrography.py::hull"]}
{"id": "C109", "title": "Centrography of lines and polygons averages stored vertices", "statement": "For other geometries the centres are those of all stored coordinates: multi-part geometries can be split into rows, and rings into polygons, without effect, while the first vertex of a ring counts twice. (Finding: the mean centre of a polygon is the mean of its vertices only if its ring starts there, and starting the same ring elsewhere gives the same centre only at the same location.) The bounding rectangle covers all vertices outside holes and touches them on every side. hull and minimum_rotated_rectangle raise TypeError for exactly the layers containing something else than points.", "quantifier": "all layers of points, lines, polygons and collections", "why_tests_cant": "tests use points", "anchors": ["pointpats/centrography.py::mean_center", "pointpats/centrography.py::hull", "pointpats/centrography.py::minimum_rotated_rectangle"]}
{"id": "C110", "title": "The GeoPandas bounding circle does not cover the points", "statement": "minimum_bounding_circle returns for GeoPandas objects a regular polygon inscribed in the circle: it covers a point on the circle only if the point is a vertex, and covers the concentric disc of radius r*cos(pi/(4*quad_segs)); a radius larger by 1/cos(pi/(4*quad_segs)) would cover every enclosed point. (Finding: for (3,4), (3,-4), (-5,0) and every quad_segs the polygon does not cover (3,4).)", "quantifier": "all circles, numbers of segments and points", "why_tests_cant": "needs all points of the circle and every number of segments", "anchors": ["pointpats/centrography.py::minimum_bounding_circle"]}
{"id": "C111", "title": "Local Knox hot spots of a data frame, end to end", "statement": "Knox.from_dataframe and KnoxLocal.from_dataframe succeed exactly for a non-geographic CRS, point geometries, a numeric time column and at least one row, and otherwise raise ValueError. nst is the number of pairs of rows within delta and tau. p_sim, p_sims exist exactly with permutations, sim, sims also with keep. If the index labels are distinct, hotspots lists, in the order of the frame, exactly the rows that are significant or (keep_neighbors) close to a significant row, each once with its own point, p-value and time and with a close row and the correct orientation; for crit < 1 the neighbour is never missing. (Findings: with repeated index labels an isolated row with p-value 1 is listed with another row's p-value and plotting raises ValueError; the crit given to the constructor is ignored; KnoxLocal.sim holds local counts, not the global statistics documented.)", "quantifier": "all frames, index labels, thresholds, permutations, critical values", "why_tests_cant": "tests use one dataset with a range index", "anchors": ["pointpats/spacetime.py::Knox", "pointpats/spacetime.py::KnoxLocal", "pointpats/spacetime.py::KnoxLocal.hotspots"]}
{"id": "C112", "title": "Lines and tables derived from the hot spots", "statement": "For distinct index labels and crit < 1 plot and explore draw exactly one line per row of the hot spot table, from its point to the point of a row within delta and tau, one of the two significant. (Findings: two significant events close to each other need not be joined by any line; the frame made by _gdfhs has no column geometry, only geometry_x and geometry_y.)", "quantifier": "all frames, thresholds, critical values", "why_tests_cant": "tests do not inspect the drawn lines", "anchors": ["pointpats/spacetime.py::KnoxLocal.plot", "pointpats/spacetime.py::KnoxLocal.explore"]}
{"id": "C113", "title": "Ripley tests at the ends of the support", "statement": "For all patterns, hulls, metrics, given distances, supports, numbers of simulations >= 1 and random numbers: when f_test, g_test or j_test return, the p-value at the first support value is 0; for k_test it is 0 at every support value <= 0, in particular at the first value of every default or step-count support. For f_test and g_test it is also 0 at the last support value, unless the observed statistic is NaN there. (Finding: the smallest possible p-value is reported at places where observed and simulated statistics are equal by construction.)", "quantifier": "all patterns, hulls, metrics, supports, random streams", "why_tests_cant": "tests compare shapes and a few seeded values", "anchors": ["pointpats/distance_statistics.py::_ripley_test", "pointpats/distance_statistics.py::f_test", "pointpats/distance_statistics.py::g_test", "pointpats/distance_statistics.py::k_test", "pointpats/distance_statistics.py::j_test"]}
{"id": "C114", "title": "k_test and l_test give the same p-values", "statement": "With the same arguments and the same random numbers l_test, linearized or not, fails exactly when k_test fails, has the same support and the same p-values, and leaves the random stream in the same state; every K value is finite and the L value is the radius of the disc of area K, minus the distance if linearized.", "quantifier": "all patterns, hulls, metrics, supports, random streams", "why_tests_cant": "tests check one seeded run of each", "anchors": ["pointpats/distance_statistics.py::k_test", "pointpats/distance_statistics.py::l_test", "pointpats/distance_statistics.py::_ripley_test"]}
{"id": "C115", "title": "Ripley tests compare like with like", "statement": "For every tree that answers nearest-neighbour queries correctly: g_test and k_test return the statistic of the data and folded Monte Carlo p-values against that many curves, each the same statistic, on the same support, of a pattern of as many points drawn in the hull (by default the bounding box of the data); j_test does so for the quotient (1-G)/(1-F), F with 1000 empty-space points in the bounding box of the data shared by all patterns. A step-count support runs evenly from 0 to the greatest nearest-neighbour distance under the chosen metric. (Findings: f_test measures, for the data, the distance from the i-th empty-space point to the nearest data point other than the i-th, and for simulations the distance to the nearest point, so a simulation equal to the data has a different curve; the step-count support of f_test always ends at the greatest Euclidean distance, whatever the metric; distances given by the caller (one per point for g_test, one per pair for k_test) are the whole of the observed curve and leave the simulations unchanged; metric='precomputed' always raises KeyError; f itself draws its points in the hull and leaves none out, so f_test does not return the value of f.)", "quantifier": "all patterns, hulls, metrics, supports, trees, random streams", "why_tests_cant": "tests check shapes and one seeded run", "anchors": ["pointpats/distance_statistics.py::_ripley_test", "pointpats/distance_statistics.py::_run_one_ripley_simulation", "pointpats/distance_statistics.py::f_test", "pointpats/distance_statistics.py::g_test", "pointpats/distance_statistics.py::k_test"]}
{"id": "C116", "title": "Significance decisions on binary64", "statement": "With binary64 rounding, for n permutations, a count c and a critical value a/b with (n+1)*b <= 2^51: the pseudo p-value (c+1)/(n+1) is <= a/b as computed exactly when it is <= a/b on exact numbers. Larger counts give larger p-values, which lie in (0,1] and are 1 only for c = n. The same holds for knox, which folds the count. (Findings: the Ripley tests fold the p-value as min(p, 1-p); this is 0 exactly when c = n, and in the upper half a tie with the critical value can be decided wrongly: with 99 simulations a count of 94 is not significant at 0.05 while the mirrored count 4 is. The analytic p-values 1 - cdf are 0 or at least 2^-53, so a tail below 2^-54 is reported as 0 even if the cdf is correctly rounded.)", "quantifier": "all counts, numbers of permutations and critical values in the stated range", "why_tests_cant": "tests use a few seeded runs, where ties with the critical value do not occur", "anchors": ["pointpats/spacetime.py::_knox", "pointpats/spacetime.py::_knox_local", "pointpats/spacetime.py::knox", "pointpats/spacetime.py::KnoxLocal.hotspots", "pointpats/distance_statistics.py::_ripley_test", "pointpats/quadrat_statistics.py::QStatistic.__init__"]}
{"id": "C117", "title": "Symmetries of G and K", "statement": "For every tree that answers nearest-neighbour queries correctly: two patterns with the same mutual distances, up to the order of the points and a factor c > 0, have the same G values, on supports that differ by the factor c, and g fails for both in the same way or for neither. For K the areas of the bounding boxes count too: if they differ by a factor f, so do the K values. In other coordinates (unit, origin) and with the points in another order, K is multiplied by the square of the unit. (Findings: K is not the same for a rotated pattern, because the area is that of the bounding box: for two points at distance 5 it is 0 when they lie on a line parallel to an axis and 6 after a 3-4-5 rotation; K is 0 everywhere for all points on a line parallel to an axis.)", "quantifier": "all patterns, metrics, supports, trees", "why_tests_cant": "tests compute G and K for a few fixed patterns", "anchors": ["pointpats/distance_statistics.py::g", "pointpats/distance_statistics.py::k", "pointpats/distance_statistics.py::_prepare"]}
{"id": "C118", "title": "Ripley tests do not depend on units and origin", "statement": "With the same random numbers, in other coordinates (unit c > 0, any origin) and with support and hull given in these coordinates: g_test, f_test and j_test give the same curves and the same p-values, k_test gives K values multiplied by c*c and the same p-values, l_test gives the same p-values; both calls fail in the same way or neither does. The default hull and the bounding box satisfy the condition on hulls. For g_test, k_test and l_test the points may also be listed in another order. (Finding: for f_test they may not: listing two points in the other order changes the observed curve and a p-value.)", "quantifier": "all patterns, metrics, hulls, supports, random streams", "why_tests_cant": "tests run each function on one data set in one system of coordinates", "anchors": ["pointpats/distance_statistics.py::_ripley_test", "pointpats/distance_statistics.py::_run_one_ripley_simulation", "pointpats/distance_statistics.py::f_test", "pointpats/distance_statistics.py::g_test", "pointpats/distance_statistics.py::j_test", "pointpats/distance_statistics.py::k_test", "pointpats/distance_statistics.py::l_test"]}
{"id": "C119", "title": "plot_density from arguments to figure", "statement": "If statsmodels (kernel None) or KDEpy (kernel given), or matplotlib, cannot be imported, plot_density raises ImportError and touches no figure. Otherwise a figure is opened iff no axes are given, and the aspect of the axes is set. A call that returns has drawn exactly one set of contours, on the axes it returns, filled iff fill is set, with the given levels; the contour set is returned too iff asked for; the values drawn at the nodes are the densities there, with the number of nodes asked for. Fill, levels, axes, figure size, the form of the result and, when a kernel is given, the margin have no effect on the numbers drawn. Without a kernel the call returns exactly when the data are a non-empty table with two or more columns or contain only (Multi)Points, statsmodels accepts the two columns, and the resolution asks for at least two nodes per axis. (Findings: a call that raises later leaves behind an empty figure or axes with changed aspect; with a kernel every resolution other than one integer fails after the figure was opened; an array with more than two columns is accepted without kernel and rejected with ValueError with one; as statsmodels wants more observations than variables, one or two points without a kernel end in ValueError after the figure was opened.)", "quantifier": "all data, libraries present, estimators, arguments", "why_tests_cant": "tests look at one figure per engine", "anchors": ["pointpats/kde.py::plot_density"]}
{"id": "C120", "title": "Symmetries of the Knox statistics", "statement": "The Knox counts, 2x2 table, expected value, permutation values and p-value, and the local counts, reference values and p-values, do not change when the events are listed in another order, when space is shifted, rotated, reflected or measured in another unit (with delta), when time is shifted, measured in another unit (with tau) or reversed, provided the rearrangements drawn for the permutations are those of the re-listed events; the pairs and the local adjacency table correspond event by event, with Lead and Lag exchanged exactly when time is reversed. Every rearrangement has exactly one counterpart for the re-listed events, so the distribution of the p-value does not depend on the order. (Finding: for one and the same seed the p-value does depend on the order in which the events are listed.)", "quantifier": "all events, thresholds, orders, motions and sets of rearrangements", "why_tests_cant": "tests fix one listing of the events and one coordinate system", "anchors": ["pointpats/spacetime.py::_knox", "pointpats/spacetime.py::_knox_local", "pointpats/spacetime.py::Knox", "pointpats/spacetime.py::KnoxLocal"]}
{"id": "C121", "title": "Symmetries of quadrat counts and of the quadrat test", "statement": "The dictionary of quadrat counts, or the exception, does not change when the points are listed in another order or measured in other coordinates: for rectangles with its own origin and unit on each axis (width and height converted), for hexagons with one unit (side converted). The whole quadrat test (cells, counts, chi-square, degrees of freedom, contributions, and with the same random numbers all simulated statistics and the Monte Carlo p-value) is identical in other coordinates and orders when the window is converted too; the default window is. Exchanging the axes (and columns with rows) transposes the rectangle counts and keeps chi-square; a mirror image reverses the columns and keeps chi-square if the numbers of columns and rows are given and no point is on a line between two columns. (Findings: with a point on such a line, or with given width and height, chi-square of the mirror image can differ; with hexagons exchanging the axes can change the number of cells.)", "quantifier": "all patterns, grids, windows, coordinates, orders, streams", "why_tests_cant": "tests fix one coordinate system and one order", "anchors": ["pointpats/quadrat_statistics.py::RectangleM", "pointpats/quadrat_statistics.py::HexagonM", "pointpats/quadrat_statistics.py::QStatistic.__init__"]}
{"id": "C122", "title": "Centres, spread and ellipses in other coordinates", "statement": "The mean centre and the weighted mean centre (weights in any unit) follow every linear change of coordinates; the Manhattan median follows a change of unit, origin or direction of each axis and the exchange of the axes. Under a similarity (scale, turn, reflection, shift) the standard distance and both ellipse axes are multiplied by the absolute scale, and, when the axes differ, the angle turns with the coordinates (reversed by a reflection) up to half turns; a point is a Euclidean median of the points exactly when its image is one of the images, so with an optimiser that returns minimisers the median of points not on a line follows; the minimum bounding circle of the images is the image of the circle. The order of the points never matters. (Findings: the Manhattan median does not follow rotations; when both ellipse axes are equal the angle returned is always pi/2, whatever the coordinates.)", "quantifier": "all patterns, weights, coordinates and orders", "why_tests_cant": "tests fix one coordinate system and one order", "anchors": ["pointpats/centrography.py::mean_center", "pointpats/centrography.py::weighted_mean_center", "pointpats/centrography.py::manhattan_median", "pointpats/centrography.py::std_distance", "pointpats/centrography.py::ellipse", "pointpats/centrography.py::euclidean_median", "pointpats/centrography.py::minimum_bounding_circle"]}
{"id": "C123", "title": "What len, summary and plot show of a point pattern", "statement": "len(pp) and pp.n are the number of rows given, whatever is called in between. plot draws one dot per point in row order, with exchanged axes after an odd number of flip_coordinates calls, and as outlines exactly the parts of the window in force (window=True) and the hull (hull=True); it returns the axes on request. With the default window the outline is the tight bounding box and encloses the dots of an unflipped pattern. The first summary prints the number of points, the tight box, the area of the window in force, n over that area and the first five rows. Neither call changes what any attribute reads, and repeating it shows the same. Marks under other names leave the picture alone. (Findings: after flip_coordinates the outline is not exchanged and need not enclose the dots; a mark stored under the name of a coordinate replaces the dots while every attribute keeps the old points; summary fixes the intensity, so after a later set_window it shows the new area beside the old intensity; on a pattern returned by unique(), summary fails with AttributeError after three lines and plot(window=True) after drawing the dots.)", "quantifier": "all point patterns, call histories and plot arguments", "why_tests_cant": "tests do not look at figures or printed text, and use one call per object", "anchors": ["pointpats/pointpattern.py::PointPattern.plot", "pointpats/pointpattern.py::PointPattern.summary", "pointpats/pointpattern.py::PointPattern.__len__", "pointpats/pointpattern.py::PointPattern._facade", "pointpats/pointpattern.py::PointPattern.flip_coordinates", "pointpats/pointpattern.py::PointPattern.add_marks"]}
{"id": "C124", "title": "On which distances J combines G and F", "statement": "A step-count support n >= 2 gives F and G the grid of n equal steps from 0 to the greatest nearest-neighbour distance, each under the metric asked for when its own distances are not given and under the Euclidean metric when they are. When distances are given for both or for neither, or the metric is Euclidean, or the support is not a step count, both grids agree, J is (1-G)/(1-F) value by value and j fails exactly when f or g fails. Otherwise, with grid ends a (F) and b (G): j raises ValueError exactly when b exceeds a by more than 1e-8 + 1e-5 a; if b is smaller by more than that, F is interpolated linearly on the grid of G; in between, values of F and G at different distances are combined. truncate=True cuts the same result before the first value that is not finite. (Findings: distances for one of the two functions together with another metric silently mix two metrics; whether j then fails depends on the unit of length; interp1d's fill_value is never used.)", "quantifier": "all patterns, supports, distances, metrics, hulls and random streams", "why_tests_cant": "tests never give distances for one function only", "anchors": ["pointpats/distance_statistics.py::j", "pointpats/distance_statistics.py::_prepare", "pointpats/distance_statistics.py::f", "pointpats/distance_statistics.py::g", "pointpats/distance_statistics.py::_truncate"]}
{"id": "C125", "title": "What KnoxLocal.plot and explore draw", "statement": "For a frame with distinct labels plot and explore succeed exactly when colors has the keys focal, neighbor, nonsig and inference is permutation or analytic (a missing nonsig is a KeyError before the ValueError for inference, another missing key after it). Then every row of the frame is drawn at its own point in the layer (or layers) whose colour is that of its class: focal if its p-value <= crit, neighbor if not but a row within delta and tau is focal, else nonsig. With three different colours each row is in exactly one layer; the focal layer is the table hotspots(keep_neighbors=False) row by row, focal and neighbor layers together have the rows of hotspots(). In explore each mark carries the labels of exactly the rows within delta and tau of it, in frame order, missing if there are none; the neighbour layer is left out, with a warning, exactly when it is empty. Both draw the same lines. (Findings: explore ignores colors['nonsig'] and draws grey; with a repeated label a row close to no other row is drawn as a neighbour.)", "quantifier": "all frames with distinct labels, thresholds, permutations, colour dictionaries and critical values", "why_tests_cant": "tests only check that the calls return", "anchors": ["pointpats/spacetime.py::KnoxLocal.plot", "pointpats/spacetime.py::KnoxLocal.explore", "pointpats/spacetime.py::KnoxLocal.hotspots", "pointpats/spacetime.py::KnoxLocal.from_dataframe"]}
{"id": "C126", "title": "Integer coordinates and times: when the results are the intended ones", "statement": "numpy keeps integer arrays in their own type, so squares and products can exceed it. For an array of n points of an integer type of w bits, n 2^w <= 2^63, std_distance is the standard distance of the points exactly when every squared coordinate fits the type, and otherwise a smaller number or NaN. dtot of an integer place and points of the same type is the sum of distances exactly when every squared distance fits (differences may exceed the type), otherwise smaller, or NaN (signed types only). area of an integer bounding box is the product of its sides exactly when the product fits, otherwise less; it is negative exactly for signed types when the product is an odd multiple of 2^(w-1), zero exactly when it is a multiple of 2^w. knox counts every pair at most tau apart in time, and counts only those exactly when no other pair has a squared difference that wraps to at most tau^2. (Findings: uint8 points (0,0),(16,0) have no standard distance; int32 points (46341,0),(46343,0) neither; poisson with intensity on an int32 box of 50000 by 50000 makes 1794 points for 2500; int16 times 0 and 256 are within 3 of each other.)", "quantifier": "all integer types, numbers of points, coordinates, boxes, times and thresholds", "why_tests_cant": "tests use float arrays, or integers whose squares fit", "anchors": ["pointpats/centrography.py::std_distance", "pointpats/centrography.py::dtot", "pointpats/geometry.py::area", "pointpats/spacetime.py::knox", "pointpats/random.py::parse_size_and_intensity"]}
{"id": "C127", "title": "Distances and Ripley's K on binary64", "statement": "For finite coordinates of absolute value up to 2^500, the computed distance of two points is finite, the same both ways, and off by at most 2^-51 of it plus 2^-535; so is the distance to the nearest of a set of points. The number of pairs counted by k at a finite support value d lies between the numbers of pairs closer than d - m and d + m, m = 2^-50 |d| + 2^-534, and is exact when no pair lies in between; it is exact for coordinates and d on a grid of step 2^j (integers, halves, ...) with differences and d up to 2^26 steps. For n^2 <= 2^53 points in a box of area between 2^-900 and 2^900 the estimate is 2 c area / n^2, c the count, up to a relative error of 2^-50; it does not decrease with d and does not depend on the order of the points. Points with a common coordinate get 0 at every d. (Finding: two points less than 1 apart need not be counted at d = 1.)", "quantifier": "all finite point patterns, support values and orders", "why_tests_cant": "tests compare a few patterns with stored numbers", "anchors": ["pointpats/distance_statistics.py::k", "pointpats/geometry.py::k_neighbors", "pointpats/geometry.py::area", "pointpats/geometry.py::bbox"]}
{"id": "C128", "title": "Symmetries of the modified Knox, Jacquez and Mantel tests", "statement": "modified_knox gives exactly the same statistic and p-value when the events are listed in another order, moved, rotated, mirrored or measured in other units of length and time (with thresholds converted and the rearrangements renumbered), and when space and time change places (with the inverse rearrangements). The same holds for jacquez when no event has two others at the same distance, whichever nearest-neighbour search is used; and for mantel with any powers when the constants are converted along with the coordinates and all transformed distances are positive. (Findings: with ties the Jacquez statistic depends on the order of the events; with the default constants 1 and powers -1 the sign of the Mantel coefficient can change when metres replace kilometres.)", "quantifier": "all event sets, thresholds, constants, powers, similarity transformations, renumberings and rearrangements", "why_tests_cant": "tests run one data set in one unit and order", "anchors": ["pointpats/spacetime.py::modified_knox", "pointpats/spacetime.py::jacquez", "pointpats/spacetime.py::mantel", "pointpats/spacetime.py::_shuffle_matrix"]}
{"id": "C129", "title": "Centrography and geometry on array-likes of any shape", "statement": "mean_center, weighted_mean_center, manhattan_median, std_distance, minimum_bounding_rectangle, dtot, ellipse, bbox and area take a (nested) list exactly as the array of the same numbers, rows of different lengths raising ValueError in all of them (contains and centroid refuse lists with NotImplementedError and AttributeError). For each function it is stated exactly which numbers of dimensions, rows and columns are accepted and which exception the others raise. Each coordinate of a centre is the centre of that column alone, for any number of columns; dtot and ellipse read the first two columns only; bbox gives the minimum and maximum of each column, and its area and centroid exist for two columns only; on two columns all agree with the functions of the other properties. (Findings: std_distance adds the variances of all columns, so an array with heights gives more than the GeoPandas layer of the same points unless the heights are equal; contains reads the six entries of a box of points with heights as a wrong rectangle; area accepts four points and returns a vector; dtot with an array as the place does not take a list of points; an ellipse without a method raises different exceptions for lists and arrays; the weighted mean centre of no points is (0, 0).)", "quantifier": "all arrays of 0, 1 or 2 dimensions with any number (at least one) of columns, all numbers, lists and nested lists, all weights", "why_tests_cant": "tests pass arrays with two columns", "anchors": ["pointpats/centrography.py::mean_center", "pointpats/centrography.py::weighted_mean_center", "pointpats/centrography.py::manhattan_median", "pointpats/centrography.py::std_distance", "pointpats/centrography.py::minimum_bounding_rectangle", "pointpats/centrography.py::dtot", "pointpats/centrography.py::ellipse", "pointpats/geometry.py::bbox", "pointpats/geometry.py::area", "pointpats/geometry.py::contains", "pointpats/geometry.py::centroid"]}
{"id": "C130", "title": "Space-time tests at thresholds that discriminate nothing", "statement": "If any two events are close, or no two are, in space (delta) or in time (tau), then every permutation leaves the global Knox count and every conditional permutation each local count unchanged: all pseudo p-values are 1 and the expected count is the observed one; the modified Knox statistic is 0 with p-value 1; Jacquez with k = n-1 neighbours gives n(n-1) with p-value 1. All pairs close in space makes nst the number of pairs close in time and conversely; nothing close makes it 0. Counts never decrease when a threshold grows. (Findings: with all events close in space the hypergeometric p-value of event i is the fraction of events with at least as many close times as i, down to 1/n although space says nothing; the Poisson p-value is 0 when nothing is close; the deprecated knox reports its smallest possible p-value 1/(permutations+1) in all these cases, or IndexError if no pair is close in space.)", "quantifier": "all event sets of one or more coordinates, all thresholds, all lists of permutations", "why_tests_cant": "tests use one data set at informative thresholds", "anchors": ["pointpats/spacetime.py::_knox", "pointpats/spacetime.py::_knox_local", "pointpats/spacetime.py::Knox", "pointpats/spacetime.py::KnoxLocal", "pointpats/spacetime.py::knox", "pointpats/spacetime.py::modified_knox", "pointpats/spacetime.py::jacquez"]}
{"id": "C131", "title": "Supports, F and G on binary64", "statement": "On binary64, a generated support (linspace) of 2 to 2^50 values over an empty range or one of width at least 2^-960 starts at start, ends exactly at stop, stays between, never decreases (so the histogram accepts it), and each value differs from the exact grid by at most 2^-49 times the larger end in absolute value, or 2^-51 times the exact value if start is 0. If the number of steps is prime, as for the default 20 values, grid values that are floats are exact. F and G are 0, then the rounded fraction of the distances in range that are below each support value (up to it at the last): within [0,1], non-decreasing, exactly 1 at the end, and for up to 2^51 distances ordered exactly as the counts; NaN if no distance is in range. On the default support of nearest distances every distance is counted. A finite support is refused (ValueError) exactly if a value exceeds the next. (Findings: a stop of 30*2^-1074 gives a decreasing support and ValueError; with 99 values from 0 to 1 the 50th, exactly 1/2, is computed as 0.49999999999999994, so G there misses a distance just below 1/2.)", "quantifier": "all finite binary64 ranges up to 2^1021, all supports and all lists of distances", "why_tests_cant": "rounding effects need particular values and sizes", "anchors": ["pointpats/distance_statistics.py::_prepare", "pointpats/distance_statistics.py::f", "pointpats/distance_statistics.py::g"]}
{"id": "C132", "title": "Areas and intensities of a pattern on binary64", "statement": "On binary64, whatever the order in which numpy adds the m terms, hull_area is within (2m+3)*2^-53 times the sum of the absolute coordinate products (+(2m+2)*2^-1075) of the exact signed area of the hull ring, so it is positive, and lambda_hull the rounded quotient, if the area exceeds that slack; it is exact if the coordinates are multiples of one 2^e and the products sum to at most 2^53 units of 2^(2e); a ring given closed has the same terms. mbb_area and rot are never negative and within relative 2^-51 (+2^-1075) of the exact product and quarter of the smaller side, wherever the pattern lies; lambda_mbb times mbb_area is within relative 2^-52 (+2^-50) of the number of points if the area is at least 2^-900. (Finding: the slack is relative to the distance from the origin, not to the area: the four corners of a unit square at (134822538, 134237309) have hull_area -4 and lambda_hull -1, while mbb_area is 1.)", "quantifier": "all finite rings with products up to 2^1000, all orders of addition; all patterns with coordinates up to 2^500", "why_tests_cant": "cancellation only shows far from the origin", "anchors": ["pointpats/pointpattern.py::PointPattern._hull_area", "pointpats/pointpattern.py::PointPattern._lambda_hull", "pointpats/pointpattern.py::PointPattern._mbb_area", "pointpats/pointpattern.py::PointPattern._rot"]}
{"id": "C133", "title": "Weighted mean centre and total distance on binary64", "statement": "On binary64, whatever the order in which the weights and the products are added, each coordinate of weighted_mean_center is within (6m+4)*2^-53 times the weighted average of the absolute coordinates (+2^-1074 * sum(2|x|+1)) of the exact weighted average for m additions, hence inside the bounding box up to that slack. Multiplying positive weights with few digits (for example counts with a sum up to 2^53) by a common factor changes nothing. dtot is never negative, within (3m+4)*2^-53 relative (+n*2^-534) of the exact sum of distances, zero if all points are at the centre, and ranks two centres rightly if their exact totals differ by more than the slack. (Finding: six coincident points at 1 of equal weight have the weighted mean centre 1-2^-53, nine have 1+2^-52, outside their bounding box and unlike mean_center, which is exactly 1.)", "quantifier": "all nonnegative weights with a sum in 2^-900..2^900, all coordinates up to 2^1000 (2^500 for dtot), all orders of addition", "why_tests_cant": "rounding depends on the number of points and the order of additions", "anchors": ["pointpats/centrography.py::weighted_mean_center", "pointpats/centrography.py::dtot"]}
{"id": "C134", "title": "Uniform sampling on binary64", "statement": "On binary64, low + (high-low)*u with u a multiple of 2^-53 below 1 never leaves [low, high], grows with u and is within 2^-53*max(|low|,|high|) + 2^-51*(high-low) + 2^-1075 of the exact number. Hence poisson with a bounding box accepts every candidate: 2*n*s random numbers give s patterns of n points, the candidates in order, all inside the box; for any hull the points returned are the ones tested, all inside the hull and its box. _uniform_circle returns n points, each in the hull, and within r*(1+2^-51) + 2^-53*(|cx|+|cy|) + 2^-536 of the centre. (Findings: the upper end can be drawn, for example from [1, 1+2^-52); a point of the disc of radius 3/4 about (2^52, 0) is at distance 1; a box with xmax < xmin makes poisson loop for ever.)", "quantifier": "all boxes with ends up to 2^1022, all hulls, all streams of 53-bit random integers, all radii up to 2^500", "why_tests_cant": "the ends of the interval have probability about 2^-53", "anchors": ["pointpats/random.py::poisson", "pointpats/random.py::_uniform_circle", "pointpats/geometry.py::contains", "pointpats/process.py::PoissonPointProcess.realize"]}
{"id": "C135", "title": "Joint law of simulated patterns", "statement": "Let the random numbers be independent with any law on finitely many values, let alpha be the chance that one candidate is acceptable (in the hull), and let poisson be asked for s patterns of n points. Given that the call ends within 2L numbers, the N = s*n points are independent, each with the law of a candidate given that it is acceptable, and independent of how many numbers were used: E[f1(p1)...fN(pN); ends] * alpha^N = E1[f1]...E1[fN] * P(ends). So permuting the points or the patterns changes nothing, and the number of points in a region is binomial. P(ends within 2*N*m numbers) >= (1-(1-alpha)^m)^N, which tends to 1 if alpha > 0; if alpha = 0 and N > 0 the call never ends. The expected quantity of random numbers used is at most 2N/alpha and tends to it. For normal the same independence holds with the law of the candidates of each pattern.", "quantifier": "all finite laws of the random numbers, all hulls, all sizes and intensities, all lengths of the stream", "why_tests_cant": "a law is not visible in any finite number of runs", "anchors": ["pointpats/random.py::poisson", "pointpats/random.py::normal"]}
{"id": "C136", "title": "Joint law of points drawn in blocks", "statement": "Let the random numbers be independent with any law on finitely many values, and let a be the chance that one candidate is acceptable, a > 0. _uniform_circle and runif_in_circle draw blocks of burn*n abscissas and as many ordinates, PointProcess.draw blocks of n, keep the acceptable candidates and discard the surplus of the last block. Given that the call ends within L numbers, for any L, the n points are independent, each with the law of a candidate of the square (the box) given that it is in the disc and the hull (the window): E[f1(p1)...fn(pn); ends] = (E1[f1]/a)...(E1[fn]/a) * P(ends). The children of the deprecated cluster process are independent within and across clusters, and all points of all realizations of PoissonPointProcess are independent. P(ends within b blocks) >= 1-(1-a^k)^b for blocks of k candidates, which tends to 1.", "quantifier": "all finite laws of the random numbers, all radii, centres, hulls, windows, sizes, all lengths of the stream, all burn > 0", "why_tests_cant": "a law is not visible in any finite number of runs; a sampler that kept the surplus or filled positions in another order would still return points of the disc", "anchors": ["pointpats/random.py::_uniform_circle", "pointpats/process.py::runif_in_circle", "pointpats/process.py::PointProcess.draw", "pointpats/process.py::PoissonPointProcess.realize", "pointpats/process.py::PoissonClusterPointProcess.realize"]}
{"id": "C137", "title": "False-positive rates of the permutation and Monte Carlo tests", "statement": "Let the data be one of the n! relabellings of the times, all equally likely, and let each of the P simulated relabellings be drawn in the same way. For every alpha >= 0 the share of these (n!)^(P+1) draws in which the reported p-value is at most alpha is at most alpha: for Knox, for every event of KnoxLocal (whose simulations keep the time of the focal event), for jacquez with any choice of neighbours, for modified_knox with n != 1 and for mantel when no correlation is NaN. When every correlation is NaN mantel always reports 1/(P+1). The same bound holds for the quadrat test when the observed and the simulated statistics are drawn from the same finite list without NaN, with equality at the multiples of 1/(m+1) given no ties. It is false for the folded p-values of the Ripley tests and of the deprecated knox: with m simulations the Ripley p-value is at most k/(m+1) in at least (k+1)/(m+1) of the draws (so it is 0 in at least 1/(m+1) of them), and given no ties in exactly min(1,(2k+1)/(m+1)); the deprecated knox reaches k/(P+1) in at least k/(P+1) of the draws and given no ties in exactly min(1,2k/(P+1)).", "quantifier": "all space and time coordinates, thresholds, numbers of events and permutations, levels alpha, all lists of simulated values", "why_tests_cant": "a rate over all relabellings and all tuples of simulations is out of reach of tests; the folding error changes no single p-value that a test would recognise as wrong", "anchors": ["pointpats/spacetime.py::Knox", "pointpats/spacetime.py::_knox", "pointpats/spacetime.py::_knox_local", "pointpats/spacetime.py::jacquez", "pointpats/spacetime.py::mantel", "pointpats/spacetime.py::modified_knox", "pointpats/spacetime.py::knox", "pointpats/quadrat_statistics.py::QStatistic", "pointpats/distance_statistics.py::_ripley_test"]}
{"id": "C138", "title": "Tests of simulated data: patterns are independent and the quadrat test keeps its level, the Ripley tests do not", "statement": "Let the random numbers be independent draws from any finite law. Any function of the s patterns of n points that poisson returns has, given that the call ends within the available numbers, the mean it has for s independent lists of n independent accepted points. Let the data themselves be n points drawn by poisson in a window and let the test go on with the following numbers. QStatistic with hexagons or with a fixed number of rows and columns, with that window: for every alpha >= 0 the probability of a simulation p-value of at most alpha is at most alpha times the probability that the run ends; at alpha = k/(realizations+1) it is exactly that share of the runs without ties. g_test, k_test and l_test with support and hull given by the user and M simulations: at every support value the probability of a p-value of at most k/(M+1) is at least (k+1)/(M+1) times the probability that all values there are numbers, and exactly min(1,(2k+1)/(M+1)) times it for the runs without ties, so the tests reject too often.", "quantifier": "all finite laws of the random numbers, windows, numbers of points, realizations, levels, supports, metrics and distance functions, and any bound on the numbers drawn", "why_tests_cant": "a probability over all streams of random numbers, including the length of the rejection loops, cannot be tested; an error in the reuse of numbers between patterns only shifts rates", "anchors": ["pointpats/random.py::poisson", "pointpats/quadrat_statistics.py::QStatistic", "pointpats/distance_statistics.py::_ripley_test", "pointpats/distance_statistics.py::g_test", "pointpats/distance_statistics.py::k_test", "pointpats/distance_statistics.py::l_test"]}
{"id": "C139", "title": "strauss without interaction draws independent points", "statement": "Let the random numbers be independent draws from any finite law, gamma = 1, and let the initial pattern not consist of exactly one point (int(area * int(1.5 n)) is not 1). Then any function of the n points of the s replications that strauss returns has, given that the call ends within the available numbers, the mean it has for s*n independent accepted points, whatever the interaction radius, n_iter and max_iter: births, deaths, restarted attempts and the final truncation leave no trace, and the law is the one of poisson with the same arguments. (Refuted for an initial pattern of one point: in a window of area 1/2 the two points asked for are always equal.)", "quantifier": "all finite laws of the random numbers, hulls, sizes and intensities, radii, numbers of iterations and of attempts, functions of the points, and any bound on the numbers drawn", "why_tests_cant": "a law over all streams of random numbers and all paths of the birth-death chain cannot be tested; a move that looked at positions would only shift frequencies", "anchors": ["pointpats/random.py::strauss", "pointpats/random.py::poisson"]}
{"id": "C140", "title": "strauss with gamma = 0 does not enforce the hard core", "statement": "With gamma = 0 (no two points within the radius) strauss should return a pattern without close pairs or raise RuntimeError. (Refuted, with what holds instead.) For every stream of numbers in [0,1): the number of close pairs never changes during the moves, since births that would add one are refused and deaths that would remove one raise. Every pattern returned has at least as many close pairs as the first n points drawn at the start of its attempt and at most as many as all the points drawn there; so for every n_iter some stream makes the call return two points at the same place. If the initial points have no close pair and are at least n, the call cannot raise and the result has none. (Initial patterns of exactly one point are excluded.)", "quantifier": "all hulls, sizes, radii, numbers of iterations and attempts and streams of numbers in [0,1)", "why_tests_cant": "a test sees one stream; that no path of the chain ever removes a close pair is a statement about all of them", "anchors": ["pointpats/random.py::strauss", "pointpats/random.py::_pairwise_count_kdtree", "pointpats/random.py::poisson"]}
{"id": "C141", "title": "The moves of strauss are reversible for the Strauss density, only in windows of area 1 to 2", "statement": "A Metropolis move of strauss should be reversible for the Strauss process, whose density over patterns of k independent points of the hull is n^k/k! times gamma to the number of close pairs. (True for areas in [1,2); refuted otherwise.) For a hull of area in [1,2), n <= m points, gamma > 0 and any law of the random numbers that gives the decisions between m and m+1 points their nominal probabilities: for all functions f, g of patterns that ignore the order of the points, the mean of density * f before * g after over the moves from m to m+1 points equals that of density * g before * f after over the moves from m+1 to m points (up to the probability that a point can be proposed at all). A move otherwise leaves the pattern unchanged; it adds one point at the end or removes one of more than n. If the area is at least 2 a birth adds int(area) >= 2 points and no single move leads back, so no density is balanced.", "quantifier": "all hulls, sizes, gamma > 0, radii, laws of the random numbers, symmetric functions and stream lengths", "why_tests_cant": "stationarity of a chain is a statement about all pairs of patterns and their probabilities; tests see single runs", "anchors": ["pointpats/random.py::strauss", "pointpats/random.py::_pairwise_count_kdtree", "pointpats/random.py::poisson"]}
{"id": "C142", "title": "Quadrat chi-square on binary64: values and order are right, ties are not", "statement": "The chi-square statistic of QStatistic computed on binary64 should rank patterns as the exact statistic does. (True for different values, refuted for ties.) For counts of at least one point in M cells, however the numbers are added: the computed statistic is finite and within 3(M+3)2^-53 chi2 + 13*2^-106 N of the exact one. If (M+3)N^2 <= 2^50 and two patterns have the same numbers of cells and points, a smaller exact statistic gives a smaller computed one; so the number of simulations counted as at least as extreme as the data lies between the number with a larger statistic and the number with one at least as large. If the mean count is a power of two (N, M <= 2^25) the computed statistic is exact. Otherwise ties may be lost: a single point in the first of six cells and one in the third have the statistic 5, but the first is computed as larger, so against any number K of simulations of the second kind the p-value is 1/(K+1) instead of 1.", "quantifier": "all lists of counts within the stated sizes, all orders of addition, all lists of simulations", "why_tests_cant": "a rounding error bound over all counts and orders of addition cannot be sampled; a lost tie shows up as an unexplained p-value only", "anchors": ["pointpats/quadrat_statistics.py::QStatistic"]}
{"id": "C143", "title": "Ripley's L on binary64: accurate, but tests with K and L may disagree", "statement": "L is the root of K over pi, so l_test and k_test should give the same p-values. (True up to near ties, refuted in general on binary64.) For patterns with an ordinary bounding box: the computed L is finite and within a relative 2^-50 of sqrt(K/pi), and the linearized one within 2^-49 (L+d) of L-d, without any error of its own if d/2 <= L <= 2d. A pattern with a larger computed K has no smaller computed L, linearized or not, so every simulation counted by a test with K is counted with L, and every one counted with L is counted with the linearized L. The counts with K and L agree if no simulation's K is below that of the data by less than a relative 2^-49. Otherwise they can be opposite: for two points in a box of 1 x 5/4 and in one of the next larger height, the computed K differ and the computed L do not, so with any number n of such simulations no simulation is counted with K and all with L, and the p-values are 1/(n+1) (or its complement) and 0. With a distance of 2^60 the linearized L of two boxes of heights 1 and 7/4 are equal.", "quantifier": "all patterns with an ordinary bounding box and at most 2^26 points, all distances, all lists of simulations", "why_tests_cant": "near ties of floats are not hit by sampled patterns, and a bound on the rounding of a root over all patterns cannot be sampled", "anchors": ["pointpats/distance_statistics.py::l", "pointpats/distance_statistics.py::_ripley_test"]}
{"id": "C144", "title": "Modified Knox statistic and Knox tables on binary64: order is right, ties are lost", "statement": "modified_knox should count every permutation with the same statistic as the data. (True if n-1 is a power of two, refuted in general on binary64.) For n <= 2^16 events and any boolean matrices of close pairs, however numpy adds the entries: the computed statistic is within 2^-51 n^2 of the exact one, and different exact statistics are computed as different numbers in the right order. So the permutations counted include all with a larger statistic and none with a smaller one; if n-1 is a power of two they are exactly those with a statistic at least as large. Otherwise ties are lost: seven events at 0, 10, 20, 20, 20, 30, 30 with times 20, 0, 10, 10, 10, 10, 0 (thresholds 1) have the statistic 7/6, and exchanging times by [2,3,1,6,0,4,5] gives 7/6 again but is computed as the next smaller float; with any number of such permutations the exact p-value is 1 and none is counted. The expected table of _knox (up to 2^23 pairs of events) has each cell within 2^-48 of the number of pairs, zero exactly where the exact cell is zero and positive elsewhere.", "quantifier": "all boolean matrices, all numbers of events up to 2^16, all orders of addition, all lists of permutations; all margins of the table", "why_tests_cant": "a lost tie depends on the last bit of two quotients and shows up only as an unexplained p-value; an error bound over all inputs and orders cannot be sampled", "anchors": ["pointpats/spacetime.py::modified_knox", "pointpats/spacetime.py::_knox"]}
{"id": "C145", "title": "KnoxLocal objects built from arrays", "statement": "KnoxLocal(s_coords, t_coords, ...) with at least one row succeeds exactly if both arrays have the same number of rows, s_coords has at least two columns, t_coords has exactly one, and ids, if given, has one label per row; everything else raises ValueError. Without ids the rows are numbered from 0, exactly as if these numbers had been given. The table of events has, row by row, the label, the first two coordinates and the time. For distinct labels two labels are neighbours in adjlist exactly if the two rows are different and within delta in all columns of s_coords and within tau in time, with lead, lag or coincident as the times are ordered; crit is stored as given. from_dataframe is the constructor applied to the coordinates and times with the index as labels. (Finding: a third column of coordinates counts for distances and is absent from the table, so that two events with the same point and time need not be neighbours.)", "quantifier": "all arrays of all shapes, labels, thresholds, lists of permutations, and every correct ball query", "why_tests_cant": "the accepted shapes are an exact characterization over all shapes; the adjacency statement quantifies over all events", "anchors": ["pointpats/spacetime.py::KnoxLocal"]}
{"id": "C146", "title": "Ripley's J on binary64", "statement": "j(...) on binary64, for F and G from finite distances on the same increasing support of at least two values: with n distances to neighbours and p distances to empty-space points in the range of the support, both from 1 to 2^26, J is 1 at the first support value. At a support value that still has some empty-space distance above it, J is a number within (n + p + 6) 2^-53 relative of the exact (1 - G)/(1 - F); everywhere else it is NaN if G is 1 and infinite otherwise. So truncation keeps exactly the support values before the first one with F = 1 in exact arithmetic: rounding never moves the cut. If there is no distance in the range, all values after the first are NaN. Of two patterns with the same n and p (n p (n + p + 6) at most 2^51) with different exact values, the larger one is computed as larger. (Findings: equal exact values, 2 from counts 3/5, 4/5 and from 1/5, 3/5, are computed differently, so that a simulation that ties with the observation is not counted in the p-value; and where F is 1 and G is not, J is infinite and not NaN as documented.)", "quantifier": "all lists of finite binary64 distances, all increasing supports, all counts up to the bound", "why_tests_cant": "error bounds and the place of the cut for all inputs; a tie is decided by the last bit", "anchors": ["pointpats/distance_statistics.py::j", "pointpats/distance_statistics.py::_truncate"]}
{"id": "C147", "title": "The minimum bounding circle's loop on binary64", "statement": "_skyum_lists on binary64: whatever NumPy's dot and arccos return, the loop ends, and if it returns, it returns the circle of a point of the remaining list and its two neighbours with a computed angle of at most pi/2, where remaining and removed points make up the input. Without a point it raises IndexError; with accurate library functions and coordinates up to 2^399 the only other exception is ZeroDivisionError. The circle of the middle one of three points in a row or column of integers up to 1000 is exactly the circle between the outer two. For three points with integer coordinates up to 2^16 the circumscribed-circle formula raises ZeroDivisionError exactly if they are on a line, and otherwise gives the circumcentre with each coordinate correctly rounded and the radius up to rounding. The point of a round is the last one with the greatest radius and, among equal radii, angle, NaN being greatest. For two points at least 2^-440 apart in some coordinate this exception is raised exactly if the square of the rounded root of the rounded squared distance is below it; otherwise the result is the midpoint circle up to rounding. (Findings: minimum_bounding_circle of (0,0), (0,1), (3,2) in any order, without numba, returns a radius above 1.89 although a disc of radius 1.81 covers the points; of (0,0), (2,3), (1,0) it raises ZeroDivisionError. The causes: the radii of the three rotations of a triangle, equal in exact arithmetic, are compared on binary64 before the angles; and the angle of a point between two copies of its neighbour is the arccos of a quotient that may round above 1 and so is NaN, not 0.)", "quantifier": "all lists of binary64 points, all library functions (termination) or all accurate ones (exceptions, pairs, findings)", "why_tests_cant": "the failures need the rounding of one quotient; the tests use patterns where it is favourable", "anchors": ["pointpats/centrography.py::minimum_bounding_circle", "pointpats/centrography.py::_skyum_lists", "pointpats/centrography.py::_circle", "pointpats/centrography.py::_angle"]}
{"id": "C148", "title": "Counts of simulated patterns: PoissonPointProcess is a Poisson process, poisson is not", "statement": "Let the random numbers be independent draws from any finite law, some of whose candidates fall into the window, let the plane be divided into regions in any way, and let p_j be the chance that a point of the window is in region j. PoissonPointProcess(window, n, samples): the counts in the regions are multinomial(n; p_1, p_2, ...), independently for the realizations, given that the run ends. With conditioning, when the sizes are independent Poisson numbers with mean n, the counts in all regions of all realizations are independent Poisson numbers with means n p_j; for one realization their joint probability, including that the run ends within L numbers, tends to the product of the Poisson probabilities as L grows. (Finding: the function poisson with a given intensity, documented as a Poisson process of this intensity, always returns int(intensity * area) points; its counts are multinomial, so that no points at all has probability 0 and not exp(-n).)", "quantifier": "every finite law of the random numbers, window, division into finitely many regions, vector of counts, number of realizations", "why_tests_cant": "a law is a statement about all draws with their probabilities", "anchors": ["pointpats/process.py::PoissonPointProcess.setup", "pointpats/process.py::PoissonPointProcess.realize", "pointpats/process.py::PointProcess.draw", "pointpats/random.py::poisson"]}
{"id": "C149", "title": "QStatistic: the mean of chi2 under random points is that of its chi-square law only for cells of equal probability", "statement": "Let fixed points (for example the corners of the data box) determine the tessellation, and let n further points be drawn by poisson in a window inside the data box, with independent random numbers from any finite law. Every location of the data box is in one cell, for rectangles always and for hexagons when the data box is no multiple of the hexagon; QStatistic then ends whenever the points can be drawn, and given that it ends the mean of chi2 is M/N times the sum over the M cells of n p_k (1 - p_k) + (n p_k + f_k - N/M)^2, where p_k is the probability of cell k, f_k its number of fixed points and N the number of all points. For cells of equal probability (and f_k equal) this is (M - 1) n / N, with M - 1 = df. (Finding: for cells of unequal probability, as hexagons cut by the data box or rectangles of given width and height that stick out of it, the mean of chi2 grows beyond every bound with n although the points are completely random, while chi2_pvalue is read off the chi-square law with M - 1 degrees of freedom: chi2_pvalue rejects complete spatial randomness of large patterns.)", "quantifier": "every finite law of the random numbers, window, fixed points, tessellation, number of points and of random numbers", "why_tests_cant": "a mean is a statement about all draws with their probabilities, and its growth one about all numbers of points", "anchors": ["pointpats/quadrat_statistics.py::QStatistic.__init__", "pointpats/quadrat_statistics.py::RectangleM.point_location_sta", "pointpats/quadrat_statistics.py::HexagonM.point_location_sta", "pointpats/random.py::poisson"]}
{"id": "C150", "title": "k, l: the mean of K(d) under random points is governed by the probability of a near pair in the window, not by pi d^2", "statement": "Let fixed points (for example the corners of the data box) determine the data box, and let n further points be drawn by poisson in a window inside the data box, with independent random numbers from any finite law. k (and l) then end whenever the points can be drawn, and given that they end the mean of K(d) is 2 A / N^2 times (c + n h + n (n - 1) / 2 q), where A is the area of the data box, N the number of all points, c the number of pairs of fixed points nearer than d, h the sum over the fixed points of the probability that a random point is nearer than d, and q the probability that two random points are nearer than d. The mean differs from A q by at most a constant over n. (Finding: the documentation of l says that the linearized L of a completely random pattern should be close to zero at all distances. There is no edge correction: where A q < pi d^2, as wherever circles of radius d leave the window, the mean of the linearized L(d) of all large random patterns is below one fixed negative bound, which the documentation of l_test reads as dispersion.)", "quantifier": "every finite law of the random numbers, window, fixed points, distance function, support, index in it, number of points and of random numbers", "why_tests_cant": "a mean is a statement about all draws with their probabilities, and its limit one about all numbers of points", "anchors": ["pointpats/distance_statistics.py::k", "pointpats/distance_statistics.py::l", "pointpats/random.py::poisson"]}
{"id": "C151", "title": "Knox: the exact permutation variance of the statistic; it is not the Poisson variance", "statement": "Let A be the sum over the n >= 4 events of the number of other events within delta in space, Q the sum of the squares of these numbers, and B, R the same for time and tau. If every relabelling of the times is used once, st_perm has mean expected[0,0] = A B / (2 n (n - 1)) and its variance about it is (1/4) [ (A^2 + 2 A - 4 Q)(B^2 + 2 B - 4 R) / (n (n-1)(n-2)(n-3)) + 4 (Q - A)(R - B) / (n (n-1)(n-2)) + 2 A B / (n (n-1)) ] - expected[0,0]^2. (Finding: p_value_poisson takes the statistic to be Poisson, with variance expected[0,0]. With m of 2 m events at one place and m at one time the variance over all relabellings is m/4 + m^2 / (4 (2m-3)(2m-1)) times expected[0,0], so beyond every multiple of it for large m: on such data p_value_poisson calls ordinary relabellings significant.)", "quantifier": "all coordinates, times, thresholds, numbers of events from 4 on and complete lists of relabellings", "why_tests_cant": "the variance over all n! relabellings cannot be enumerated beyond a few events; simulated variances only approximate it", "anchors": ["pointpats/spacetime.py::_knox"]}
{"id": "C152", "title": "G and F under random points: exact means; G of n + 1 points and F of n points agree", "statement": "Points drawn by poisson in a window, a support array covering all distances in the window, and an inner support value s. Let e(n) be the probability that none of n random points is nearer than s to a further random point, the mean over the window of (1 - q(x))^n with q(x) the probability of a random point nearer than s to x. Given that the simulation ends, the mean of G(s) of n + 2 points is 1 - e(n + 1), and the mean of F(s) of n + 1 points with the window as hull is 1 - e(n + 1): G of one point more has the mean of F. e is non-negative and does not grow with n, and e(n) >= (1 - p)^n for the probability p that two random points are nearer than s. Where q >= c on the window, e(n + 1) <= (1 - c) e(n) and e(n) <= (1 - c)^n. (Finding: the docstring of j_test reads values of J = (1 - G) / (1 - F) above 1 as dispersion; for random points the mean of 1 - G is e(n - 1) and that of 1 - F is e(n) <= (1 - c) e(n - 1), so the ratio of the means is at least 1 / (1 - c) > 1.)", "quantifier": "all windows, laws of the random numbers with finitely many values, metrics with a correct tree, supports covering the window, numbers of points", "why_tests_cant": "the mean over all simulated patterns is a sum over all streams of random numbers; simulated means only approximate it and tests compare with single patterns", "anchors": ["pointpats/distance_statistics.py::g", "pointpats/distance_statistics.py::f", "pointpats/distance_statistics.py::j_test", "pointpats/random.py::poisson"]}
{"id": "C153", "title": "Jacquez statistic: exact permutation variance", "statement": "For n >= 4 events without ties in time, k neighbours, and every relabelling of the times taken once, the jacquez statistic has mean m = n k^2 / (n - 1) and variance (n^2 k^2 + R_s R_t) / (n (n-1)) + (n^2 k^2 (k-1)^2 + (D_s - n k)(D_t - n k) + 2 (n k^2 - R_s)(n k^2 - R_t)) / (n (n-1)(n-2)) + H_s H_t / (n (n-1)(n-2)(n-3)) - m^2 with H = n^2 k^2 - 3 n k^2 + n k + R - D, where R is the number of ordered pairs of events that are k-nearest neighbours of each other and D the sum over the events of the square of how many events have it among their k nearest, in space (s) and in time (t). So beyond n and k only R and D of places and times matter for the spread of the simulated values.", "quantifier": "all event sets of four or more events, all k, all neighbour searches returning k nearest others, all complete lists of relabellings", "why_tests_cant": "the variance is over all n! relabellings; tests draw 99 of them and compare a p-value", "anchors": ["pointpats/spacetime.py::jacquez"]}
{"id": "C154", "title": "mantel as a whole: errors, undefined values, range and ends of the statistic", "statement": "mantel raises exactly when the two lists of events have different lengths or there are fewer than three events, and then ValueError. For three or more events with rational coordinates in the plane, numeric times and constants >= 0, call space (or time) degenerate when its power is 0, all events share one place (time), or its constant is 0, its power negative and two events share a place (time). If neither is degenerate the statistic is a correlation in [-1, 1] passed through rounding; it is 1 (-1) exactly when the transformed distances of space are an increasing (decreasing) affine function of those of time over all pairs. With power 1 the constant changes neither statistic nor p-value. (Finding: in the degenerate cases, all accepted without an error, the statistic is NaN and the reported p-value is the smallest possible, 1/(permutations + 1), for all data: power 0 always, and a single repeated place with scon=0 and spow=-1. The same happens with a constant below minus some distance and a power that is no integer; with power 2 negative constants are fine: the statistic correlates the squares of distance plus constant.)", "quantifier": "all event sets, constants, powers and permutations", "why_tests_cant": "a coefficient close to 1 on samples does not show when it is 1, and NaN cases depend on exact ties and zero distances", "anchors": ["pointpats/spacetime.py::mantel", "pointpats/spacetime.py::_shuffle_matrix"]}
{"id": "C155", "title": "Simulators: which forms of hull, radius and covariance are accepted", "statement": "poisson and normal (random.py) accept as hull a numpy array of four numbers (that box), a numpy array of points (their tight bounding box, so every simulated point lies between points of the array in each coordinate) and a geometry; the three run exactly like the simulation in that region. Any other hull never yields a point. A covariance array must have two or three dimensions: with fewer, normal raises ValueError in its first replication. A numpy array of radii must have one entry for each seed (AssertionError otherwise), and a single radius is the same as that many equal radii. (Findings: a Python list or tuple of four numbers, which area() and bbox() accept, makes poisson raise NotImplementedError as soon as a point is wanted, and normal AttributeError without a centre and NotImplementedError with one; a cluster_radius that is neither a number nor a numpy array - a list, although the documentation allows any iterable, or a numpy integer - makes cluster_poisson end in UnboundLocalError after drawing the first seeds, and it never returns a point.)", "quantifier": "all hull arguments, sizes, intensities, radii, covariance shapes and random streams", "why_tests_cant": "a test tries a few argument types; that no other form ever returns a point is a statement about every size and stream", "anchors": ["pointpats/random.py::poisson", "pointpats/random.py::normal", "pointpats/random.py::cluster_poisson", "pointpats/geometry.py::contains", "pointpats/geometry.py::prepare_hull"]}
{"id": "C156", "title": "f, g, k, l: what a numpy integer, a float or a long tuple means as support", "statement": "The support argument of f, g, k and l (distance_statistics.py) has a documented meaning only for None, a Python int, a tuple of up to three entries and an array. For the other forms: g and f called with a numpy integer n return n + 1 support values, equally spaced from the least to the greatest of the distances used (from half below to half above when all are equal), the value at each being the share of distances below it and the last one 1, and with n < 1 they raise ValueError; with a float they never return a value (TypeError whenever an array of edges would have been accepted); with a tuple of four or more numbers they do the same as with an array of those numbers. k and l with a single number q, integer or float, give the value at that one distance, exactly as with the array [q]; with a tuple of four or more numbers they raise AttributeError whenever the array would have been accepted. (Finding: numpy.int64(n) and n never give the same support in g - n + 1 values on the range of the distances against n values from 0 - and numpy.int64(n) means n bins to f and g but the distance n to k and l.)", "quantifier": "all patterns, supports, distances, metrics and edge options", "why_tests_cant": "a test calls with a Python int or an array; that a number of another type silently changes the meaning shows only by comparing the results of every form", "anchors": ["pointpats/distance_statistics.py::_prepare", "pointpats/distance_statistics.py::f", "pointpats/distance_statistics.py::g", "pointpats/distance_statistics.py::k", "pointpats/distance_statistics.py::l"]}
{"id": "C157", "title": "Patterns on a line: hull, hull_area, lambda_hull, minimum_bounding_circle and convex hulls raise", "statement": "With scipy's ConvexHull (a strictly convex counter-clockwise ring of pattern points around the pattern if three points form a triangle, QhullError otherwise, ValueError without points): for a pattern with a triangle hull returns that ring, hull_area is positive, lambda_hull is the number of points over it, minimum_bounding_circle of an array always returns a circle, with and without numba, and prepare_hull('convex...') returns a hull. (Refuted for the others: if all points lie on one line - in particular with one or two points, however often repeated - all five raise RuntimeError (QhullError), although the pattern has a unique smallest disc, the one between its two farthest points, and prepare_hull gives its bounding box.) Which patterns these are depends neither on the order of the points nor on repetitions, and a pattern is one of them exactly if its points satisfy the equation of one line. Without points ValueError is raised. All other hull arguments are unaffected. A routine with these properties exists.", "quantifier": "all patterns, all convex hull routines within scipy's contract, both loop implementations", "why_tests_cant": "tests use patterns in general position; that every straight pattern fails, and no other, is a statement about all patterns", "anchors": ["pointpats/centrography.py::hull", "pointpats/centrography.py::minimum_bounding_circle", "pointpats/pointpattern.py::PointPattern._hull", "pointpats/pointpattern.py::PointPattern._hull_area", "pointpats/pointpattern.py::PointPattern._lambda_hull", "pointpats/geometry.py::prepare_hull"]}
{"id": "C158", "title": "hull returns each corner of the pattern once, whatever the order, repetitions, units or orientation", "statement": "Whenever hull of an array returns (with any convex hull routine within scipy's contract), the places it returns are exactly the corners of the pattern: those places at which the pattern begins in some direction while no other place of the pattern is as far in that direction. Every corner is returned once, as one of the points of the pattern; a point inside or on a side is not returned. Consequently: for a pattern transformed by any invertible affine map (units, origin, rotation, shear, reflection), with the points in another order and repeated differently, and even with another routine, hull returns as many vertices, and they are the transformed corners; and hull of the vertices returns the same places again.", "quantifier": "all patterns with three points not on a line, all invertible affine maps, all orders and repetitions, all routines within the contract", "why_tests_cant": "tests compare the hull of one pattern with stored vertices", "anchors": ["pointpats/centrography.py::hull", "pointpats/pointpattern.py::PointPattern._hull"]}
{"id": "C159", "title": "hull_area and lambda_hull do not depend on order, repetitions, axes or the hull routine, and scale with the units", "statement": "If hull_area of a pattern returns A, then for the pattern in any other order, with points repeated differently, transformed by any invertible affine map with matrix M (other units, origin, rotation, shear, reflection) and with any other convex hull routine within scipy's contract, hull_area returns |det M| A, a positive number. If the number of points is the same, lambda_hull returns the former value divided by |det M|.", "quantifier": "all patterns with three points not on a line, all invertible affine maps, all orders and repetitions, all routines within the contract", "why_tests_cant": "tests compare the area of one pattern with a stored number; that the signed shoelace sum never changes sign or depends on the first vertex needs all rings", "anchors": ["pointpats/pointpattern.py::PointPattern._hull_area", "pointpats/pointpattern.py::PointPattern._lambda_hull", "pointpats/centrography.py::hull"]}
{"id": "C160", "title": "minimum_bounding_circle of a pattern is its smallest disc, with every hull routine, and only the corners matter", "statement": "In exact arithmetic, with any convex hull routine within scipy's contract, with and without numba: if the points are not on one line and no three corners form an angle below 1e-5 or above pi - 1e-5, minimum_bounding_circle returns the smallest disc that contains all points of the pattern, interior and repeated ones included. The result stays the same for another routine, another loop, another order, other repetitions, and if points that are no corners are left out. (For binary64 this fails: C147.)", "quantifier": "all patterns not on one line with wide corner angles, all routines within the contract, both loops, all sub-patterns with the same corners", "why_tests_cant": "tests compare one circle with stored numbers and give the loop a ready hull", "anchors": ["pointpats/centrography.py::minimum_bounding_circle", "pointpats/centrography.py::_skyum_lists", "pointpats/centrography.py::_skyum_numba", "pointpats/centrography.py::hull"]}
