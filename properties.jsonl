{"id": "C01", "title": "Sample bound is exactly the least certified sample count", "statement": "compute_numerical_bound raises ArithmeticError exactly when success_prob is outside (0,1). Otherwise, if it returns a sample count m, then m is the least integer >= 2 whose Sauer-Shelah failure bound 2*S(m)*2^(-rho*m/2) is at most 1-success_prob (S(m) = sum of binomials C(2m,i), i <= dim+1).", "quantifier": "all real clearances, volumes, stretch tolerances (or None), success probabilities and all dimensions", "why_tests_cant": "the returned count ranges over unboundedly many inputs and minimality quantifies over every smaller count; the search only probes O(log m) counts", "anchors": ["nonasymptotic/bound.py:compute_numerical_bound", "nonasymptotic/bound.py:doubling_sample_search_over_log2_prob_bound", "nonasymptotic/bound.py:compute_sauer_shelah_bound_log2", "nonasymptotic/bound.py:compute_ss_comb_sum"]}
{"id": "C02", "title": "Taking more samples than the bound never loses the guarantee", "statement": "If m is the sample count returned by compute_numerical_bound, then for every m' >= m the Sauer-Shelah failure bound at m' is still at most 1-success_prob, and it never increases with m'.", "quantifier": "all inputs of compute_numerical_bound and all sample counts m' >= m", "why_tests_cant": "infinitely many m'; relies on log-concavity of partial binomial sums, which no finite set of evaluations shows", "anchors": ["nonasymptotic/bound.py:compute_numerical_bound", "nonasymptotic/bound.py:compute_sauer_shelah_bound_log2"]}
{"id": "C03", "title": "Easier problems never need more samples", "statement": "Increasing clearance, decreasing the free volume, increasing the stretch tolerance, dropping the stretch requirement altogether (tol=None) or lowering the success probability never increases the sample count returned by compute_numerical_bound.", "quantifier": "all pairs of inputs ordered componentwise, all dimensions", "why_tests_cant": "a relation between two runs over a continuum of inputs", "anchors": ["nonasymptotic/bound.py:compute_numerical_bound", "nonasymptotic/bound.py:compute_rho", "nonasymptotic/bound.py:compute_epsilon_net_radius"]}
{"id": "C04", "title": "Doubling search returns a certified, locally minimal count for any bound function", "statement": "For any function f from sample counts to (finite or infinite) log-probabilities that never yields NaN, if the doubling search returns m then f(m) <= log2(1-success_prob), f(m+1) <= f(m), 2 <= m <= 2^53, and either m = 2 or the count m-1 fails that same test. (With NaN values this is false: a NaN makes the binary phase accept a count; a witness is proved.)", "quantifier": "all NaN-free functions f on counts (including infinite values) and all thresholds", "why_tests_cant": "the claim ranges over arbitrary caller supplied functions", "anchors": ["nonasymptotic/bound.py:doubling_sample_search_over_log2_prob_bound"]}
{"id": "C05", "title": "Doubling search always finishes", "statement": "The doubling search returns or raises OverflowError for every bound function; it never loops forever. (False of the code: the midpoint is computed with float division and stalls above 2^53; proved up to 2^53, and the exact set of stalling states is characterised.)", "quantifier": "all functions f and all thresholds", "why_tests_cant": "nontermination is never observable by a finite test, and the stall only appears beyond 2^53 samples", "anchors": ["nonasymptotic/bound.py:doubling_sample_search_over_log2_prob_bound"]}
{"id": "C06", "title": "The two connection-radius formulas agree", "statement": "The connection radius returned by compute_numerical_bound equals compute_connection_radius(clearance, tol) for every tol, equals 2*clearance when tol is None, lies between 2*clearance and 2*sqrt(2)*clearance for tol >= 0, and the net radius never exceeds the clearance.", "quantifier": "all real clearances >= 0 and all tolerances", "why_tests_cant": "identity of two real functions on a continuum", "anchors": ["nonasymptotic/bound.py:compute_numerical_bound", "nonasymptotic/bound.py:compute_connection_radius", "nonasymptotic/bound.py:compute_epsilon_net_radius"]}
{"id": "C07", "title": "Net radius from a failure probability is sound", "statement": "Plugging the radius returned by compute_net_radius_from_prob back into the Sauer-Shelah bound at the same sample count gives at most the requested failure probability. (False of the code: it gives exactly twice the requested probability; the exact value is proved.)", "quantifier": "all dimensions, sample counts, failure probabilities and volumes", "why_tests_cant": "an identity over a continuum of inputs", "anchors": ["nonasymptotic/bound.py:compute_net_radius_from_prob", "nonasymptotic/bound.py:compute_sauer_shelah_bound_log2"]}
{"id": "C08", "title": "Radius search returns a certified radius within tolerance", "statement": "For every log-probability function and tol > 0, halving_radius_search terminates with a radius r in [rad_lb, rad_ub) that is either the untested rad_lb or passed the probability test, and some radius in (r, r+tol] is either rad_ub or failed the test; the 'Something wrong happened' error is unreachable.", "quantifier": "all functions, all rational intervals, all tol > 0", "why_tests_cant": "ranges over arbitrary caller supplied functions and intervals; termination is not testable", "anchors": ["nonasymptotic/bound.py:halving_radius_search_over_log_prob_bound"]}
{"id": "C09", "title": "KNN tail bounds grow with the radius", "statement": "The Hoeffding and KL-Chernoff log failure bounds are nondecreasing in the connection radius for all radii >= 0, and the generic Chernoff bound is nondecreasing as long as the expected ball count is at most k; so the halving search direction is justified.", "quantifier": "all radii, dimensions, sample counts, k and volumes", "why_tests_cant": "monotonicity over a continuum", "anchors": ["nonasymptotic/bound.py:compute_tail_knn_radius_log_prob_hoeffding", "nonasymptotic/bound.py:compute_tail_knn_radius_log_prob_chernoff_generic", "nonasymptotic/bound.py:compute_tail_knn_radius_log_prob_chernoff_kl"]}
{"id": "C10", "title": "Closed-form effective radius is certified by the Chernoff bound", "statement": "The radius returned by compute_eff_conn_rad_bound makes the generic Chernoff log failure bound at most log(failure_prob). (True when the unit ball is no larger than the environment; refuted otherwise because of the clamp at 1.)", "quantifier": "all sample counts, k, dimensions, volumes and failure probabilities", "why_tests_cant": "inequality between transcendental expressions over a continuum", "anchors": ["nonasymptotic/bound.py:compute_eff_conn_rad_bound", "nonasymptotic/bound.py:compute_tail_knn_radius_log_prob_chernoff_generic"]}
{"id": "C11", "title": "Linear radius search terminates", "statement": "linear_radius_search_over_prob_bound terminates whenever some radius in the interval exceeds the failure probability. (False of the code: the radius is never advanced; proved to terminate exactly when its very first test decides.)", "quantifier": "all functions, intervals and tolerances", "why_tests_cant": "nontermination is not testable", "anchors": ["nonasymptotic/bound.py:linear_radius_search_over_prob_bound"]}
{"id": "C12", "title": "Full-connection roadmap contains exactly the in-radius valid pairs", "statement": "After any history of grow_to_n_samples and set_connection_radius calls on SimpleFullConnRadiusPRM, {i,j} is an edge iff their distance is at most the current radius and the motion check accepts i->j or j->i; each edge is stored once with weight equal to the distance.", "quantifier": "all sample streams, distance functions, motion checkers, and all call histories", "why_tests_cant": "call histories and sample sets are unbounded", "anchors": ["nonasymptotic/prm.py:SimpleFullConnRadiusPRM.grow_to_n_samples", "nonasymptotic/prm.py:SimpleFullConnRadiusPRM.set_connection_radius"]}
{"id": "C13", "title": "Growing a roadmap keeps its samples", "statement": "Every successful grow_to_n_samples(n) leaves exactly n samples, keeps the previously returned samples as an unchanged prefix, and draws exactly the missing number of states from the sampler; requests smaller than the current size are rejected.", "quantifier": "all three roadmap classes, all call histories", "why_tests_cant": "history quantification", "anchors": ["nonasymptotic/prm.py:SimpleFullConnRadiusPRM.grow_to_n_samples", "nonasymptotic/prm.py:SimpleNearestNeighborRadiusPRM.grow_to_n_samples", "nonasymptotic/prm.py:SimpleRadiusPRM.grow_to_n_samples"]}
{"id": "C14", "title": "A rejected grow has no effect", "statement": "If grow_to_n_samples raises because the requested size is too small, the roadmap behaves afterwards as if the call had not been made. (Holds for the full-connection roadmap; refuted for the nearest-neighbour roadmap, which forgets its radius first.)", "quantifier": "all states reachable by any history and all rejected sizes", "why_tests_cant": "all reachable states", "anchors": ["nonasymptotic/prm.py:SimpleFullConnRadiusPRM.grow_to_n_samples", "nonasymptotic/prm.py:SimpleNearestNeighborRadiusPRM.grow_to_n_samples"]}
{"id": "C15", "title": "More samples or a larger radius never destroy a solution", "statement": "For the full-connection roadmap over the same sample stream, if a start/goal query succeeds with n samples and radius r with cost c, then with any n' >= n and r' >= r it succeeds with cost at most c.", "quantifier": "all sample streams, checkers, queries, sizes and radii", "why_tests_cant": "the test suite checks this only for a handful of random seeds", "anchors": ["nonasymptotic/prm.py:SimpleFullConnRadiusPRM", "nonasymptotic/prm.py:SimplePRM.query_best_solution", "tests/test_envs.py"]}
{"id": "C16", "title": "Queries do not disturb the roadmap", "statement": "query_best_solution leaves every vertex, edge, weight and adjacency order of the roadmap as it was, so any sequence of queries can be repeated or reordered with the same answers.", "quantifier": "all roadmaps, queries and finite sequences of queries", "why_tests_cant": "sequence quantification", "anchors": ["nonasymptotic/prm.py:SimplePRM.query_best_solution"]}
{"id": "C17", "title": "Returned path is an optimal valid roadmap path", "statement": "If query_best_solution reports a finite distance, then the returned points are roadmap samples, start -> first, each consecutive pair, and last -> goal are admissible connections (start/goal connections accepted by the motion check and within the radius; interior ones roadmap edges), the distance is their total weight, and no other such path is shorter; if it reports infinity no such path exists.", "quantifier": "all roadmaps, queries, and every correct shortest-path routine", "why_tests_cant": "graph sizes and path lengths are unbounded", "anchors": ["nonasymptotic/prm.py:SimplePRM.query_best_solution", "nonasymptotic/prm.py:SimpleFullConnRadiusPRM._query_samples"]}
{"id": "C18", "title": "Empty path means failure, and only failure", "statement": "The returned path is empty iff the reported distance is infinite; in particular the direct start-goal motion is never used, even when it is valid.", "quantifier": "all roadmaps and queries", "why_tests_cant": "callers use len(path) > 0 as the success flag on every input", "anchors": ["nonasymptotic/prm.py:SimplePRM.query_best_solution", "exps/tamp_environment/turtlebot_move/streams.py:get_anytime_motion_fn"]}
{"id": "C19", "title": "All entry/exit pairs are enumerated once", "statement": "query_all_graph_connections lists every (entry sample, exit sample) pair exactly once, and the entry, exit and id arrays are aligned row by row.", "quantifier": "all sets of entry and exit samples of any size", "why_tests_cant": "sizes are unbounded", "anchors": ["nonasymptotic/prm.py:SimplePRM.query_all_graph_connections"]}
{"id": "C20", "title": "Shortest-path lookup table is faithful", "statement": "Looking up a pair of tabulated vertices returns their own pairwise distance, and looking up any vertex that was not tabulated raises IndexError instead of returning a wrong number.", "quantifier": "all vertex subsets, tables and vertex pairs", "why_tests_cant": "all subsets", "anchors": ["nonasymptotic/prm.py:SimplePRM._compute_spsp", "nonasymptotic/prm.py:SimpleNearestNeighborRadiusPRM._distance_in_graph"]}
{"id": "C21", "title": "KNN roadmap is exactly the thresholded valid neighbour lists", "statement": "The graph built from neighbour arrays has an edge {u,v} iff v is listed for u (u at or after include_starting, listed distance <= threshold_rad) with an accepted motion u->v, or the same with u and v exchanged; no edge is stored twice.", "quantifier": "all neighbour arrays, thresholds, starting rows and checkers", "why_tests_cant": "array shapes are unbounded", "anchors": ["nonasymptotic/prm.py:SimplePRM._nn_edge_list_and_dist_list_to_nk_prm_graph"]}
{"id": "C22", "title": "Certified radius is honest", "statement": "With exact k-nearest-neighbour lists, every pair of samples closer than the certified maximal radius whose motion is valid is an edge after grow_to_n_samples, and stays an edge after set_connection_radius(r) for every r larger than its length.", "quantifier": "all sample sets, k, checkers, and radii", "why_tests_cant": "all sample sets", "anchors": ["nonasymptotic/prm.py:SimpleNearestNeighborRadiusPRM.grow_to_n_samples", "nonasymptotic/prm.py:SimpleNearestNeighborRadiusPRM.set_connection_radius"]}
{"id": "C23", "title": "Setting the radius leaves no edge at or above it", "statement": "After set_connection_radius(r) the nearest-neighbour roadmap has no edge of weight >= r and all its edges of weight < r. (Second half proved; first half refuted: edges are removed from the graph while it is being iterated, and the swap-with-last removal makes the iterator skip edges. Proved when the iteration is over a snapshot.)", "quantifier": "all roadmaps and radii", "why_tests_cant": "depends on adjacency order; all graphs", "anchors": ["nonasymptotic/prm.py:SimpleNearestNeighborRadiusPRM.set_connection_radius"]}
{"id": "C24", "title": "Short edges survive every radius history", "statement": "After any sequence of set_connection_radius calls, every master-graph edge shorter than the current radius is present, and every present edge is a master-graph edge with its original weight.", "quantifier": "all finite sequences of radii", "why_tests_cant": "sequence quantification", "anchors": ["nonasymptotic/prm.py:SimpleNearestNeighborRadiusPRM.set_connection_radius"]}
{"id": "C25", "title": "Reducing k keeps exactly the mutual near neighbours", "statement": "set_nearest_neighbors(k) from the master graph keeps an edge {u,v} iff neither endpoint lists the other beyond position k; raises ArithmeticError iff k exceeds the construction k.", "quantifier": "all neighbour arrays and k", "why_tests_cant": "all arrays", "anchors": ["nonasymptotic/prm.py:SimpleNearestNeighborRadiusPRM.set_nearest_neighbors"]}
{"id": "C26", "title": "Reducing k is the same as building with the smaller k", "statement": "After set_nearest_neighbors(k) the roadmap equals the one grow_to_n_samples would build with k neighbours. (Refuted: the code drops an edge when either endpoint discards it, the builder keeps it when either endpoint lists it; proved: the result is a subgraph of the fresh build.)", "quantifier": "all sample sets and k", "why_tests_cant": "all sample sets", "anchors": ["nonasymptotic/prm.py:SimpleNearestNeighborRadiusPRM.set_nearest_neighbors", "nonasymptotic/prm.py:SimpleNearestNeighborRadiusPRM.grow_to_n_samples"]}
{"id": "C27", "title": "Roadmap edges are always valid, whatever the history", "statement": "After any sequence of grow, set_connection_radius, set_nearest_neighbors, query and reset calls (including failing ones) on the nearest-neighbour roadmap, every edge connects two current samples, was accepted by the motion check in at least one direction, carries the neighbour-list distance, is also in the cached master graph, and vertices are exactly the sample indices.", "quantifier": "all call histories, including those with failing calls", "why_tests_cant": "history quantification", "anchors": ["nonasymptotic/prm.py:SimpleNearestNeighborRadiusPRM"]}
{"id": "C28", "title": "Radius and k settings are independent of the order of calls", "statement": "The current graph is determined by the samples, the current radius and the current k. (Refuted: raising k reloads edges above the current radius, and raising the radius reloads edges dropped by k.)", "quantifier": "all call histories", "why_tests_cant": "history quantification", "anchors": ["nonasymptotic/prm.py:SimpleNearestNeighborRadiusPRM.set_connection_radius", "nonasymptotic/prm.py:SimpleNearestNeighborRadiusPRM.set_nearest_neighbors"]}
{"id": "C29", "title": "Radius roadmap's neighbour doubling finishes and is complete", "statement": "SimpleRadiusPRM's construction always finishes, uses fewer than twice max(16, max_k) neighbours, and, with exact neighbour lists and an early exit, links every valid pair closer than the connection radius.", "quantifier": "all sample sets, radii and neighbour caps", "why_tests_cant": "termination and all sample sets", "anchors": ["nonasymptotic/prm.py:SimpleRadiusPRM.grow_to_n_samples"]}
{"id": "C30", "title": "Radius roadmap has no edge longer than its radius", "statement": "Every edge of SimpleRadiusPRM has length at most the connection radius. (Refuted for the first build, which passes no threshold; proved for graphs built by the rebuild branch.)", "quantifier": "all sample sets and radii", "why_tests_cant": "all sample sets", "anchors": ["nonasymptotic/prm.py:SimpleRadiusPRM.grow_to_n_samples"]}
{"id": "C31", "title": "Growing a radius roadmap after queries keeps vertex ids equal to sample indices", "statement": "The vertex ids added by growing are the indices of the new samples. (Holds if no query was made; refuted after any query because query vertices consume ids.)", "quantifier": "all histories of queries and grows", "why_tests_cant": "history quantification", "anchors": ["nonasymptotic/prm.py:SimpleRadiusPRM.grow_to_n_samples", "nonasymptotic/prm.py:SimplePRM.query_best_solution"]}
{"id": "C32", "title": "Reset forgets the roadmap", "statement": "After reset, growing the full-connection roadmap gives the same graph a newly constructed roadmap with the current radius would give on the same upcoming samples; queries and radius changes before regrowing fail rather than use stale data.", "quantifier": "all histories before the reset", "why_tests_cant": "history quantification", "anchors": ["nonasymptotic/prm.py:SimpleFullConnRadiusPRM.reset", "nonasymptotic/prm.py:SimpleNearestNeighborRadiusPRM.reset"]}
{"id": "C33", "title": "Neighbour file parsing is aligned", "statement": "For every neighbour file line 'n id1 d1 id2 d2 ...' the parser returns the first k ids and the first k distances in the same order, converting half squared distances to distances; padding to a multiple of four coordinates (at most three zeros) changes no distance; updating with fresh rows equals rebuilding on all rows.", "quantifier": "all dimensions, rows, k and data", "why_tests_cant": "all shapes", "anchors": ["nonasymptotic/ann.py:KGraphANN.new_graph_from_data", "nonasymptotic/ann.py:KGraphANN.update_graph_with_data"]}
{"id": "C34", "title": "Segment test never misses an intersection", "statement": "If two closed segments share a point then detect_intersect returns True.", "quantifier": "all pairs of planar segments, including degenerate ones", "why_tests_cant": "continuum of inputs; degenerate positions have measure zero in random tests", "anchors": ["nonasymptotic/util.py:detect_intersect"]}
{"id": "C35", "title": "Segment test reports only real intersections", "statement": "If detect_intersect returns True then the closed segments share a point. (Proved for non-parallel lines; refuted for disjoint collinear segments and for zero-length segments.)", "quantifier": "all pairs of planar segments", "why_tests_cant": "degenerate positions have measure zero in random tests", "anchors": ["nonasymptotic/util.py:detect_intersect"]}
{"id": "C36", "title": "Narrow passage: accepted motions stay in free space", "statement": "If start and goal are in the narrow-passage free space and is_motion_valid accepts, then every point of the straight motion is in free space.", "quantifier": "all dimensions >= 2, clearances in (0, 0.5), and all endpoint pairs", "why_tests_cant": "continuum of motions and of points on each", "anchors": ["nonasymptotic/envs.py:NarrowPassage.is_motion_valid", "nonasymptotic/envs.py:NarrowPassage.__init__"]}
{"id": "C37", "title": "Narrow passage: motions clear of the walls are accepted", "statement": "A motion whose planar projections touch no wall segment is accepted. (Refuted when a projection is degenerate or collinear with a wall, e.g. any zero-length motion; proved otherwise.)", "quantifier": "all dimensions and endpoint pairs", "why_tests_cant": "continuum of motions", "anchors": ["nonasymptotic/envs.py:NarrowPassage.is_motion_valid"]}
{"id": "C38", "title": "Narrow passage samples are free and region probabilities are a distribution", "statement": "Every sample returned by sample_from_env is in the free space, the three region probabilities are nonnegative and sum to one, and volume equals 2 + (2*clearance)^(dim-1).", "quantifier": "all dimensions, clearances and random draws", "why_tests_cant": "all random draws", "anchors": ["nonasymptotic/envs.py:NarrowPassage.sample_from_env", "nonasymptotic/envs.py:NarrowPassage.volume"]}
{"id": "C39", "title": "Motion validity is symmetric", "statement": "is_motion_valid(a,b) equals is_motion_valid(b,a) for the straight-line and narrow-passage environments, which undirected roadmap edges rely on.", "quantifier": "all endpoint pairs and dimensions", "why_tests_cant": "continuum", "anchors": ["nonasymptotic/envs.py:StraightLine.is_motion_valid", "nonasymptotic/envs.py:NarrowPassage.is_motion_valid", "nonasymptotic/util.py:detect_intersect"]}
{"id": "C40", "title": "Straight line: motion check is exact and samples are valid", "statement": "StraightLine.is_motion_valid accepts iff every point of the motion lies in the box; all samples are valid; any two samples can be connected.", "quantifier": "all dimensions, clearances, lengths, motions and draws", "why_tests_cant": "continuum", "anchors": ["nonasymptotic/envs.py:StraightLine.is_motion_valid", "nonasymptotic/envs.py:StraightLine.sample_from_env"]}
{"id": "C41", "title": "Straight line: path distance is the true distance and the path has the stated clearance", "statement": "distance_to_path(p) is the minimum Euclidean distance from p to the reference path; every point within delta of any curve point is in the box; arclength_to_curve_point stays on the path and covers it; volume is (length+2*delta)*(2*delta)^(dim-1).", "quantifier": "all points, dimensions, lengths, clearances", "why_tests_cant": "continuum", "anchors": ["nonasymptotic/envs.py:StraightLine.distance_to_path", "nonasymptotic/envs.py:StraightLine.arclength_to_curve_point", "nonasymptotic/envs.py:StraightLine.volume"]}
{"id": "C42", "title": "Curve points have the environment's dimension", "statement": "arclength_to_curve_point returns a point with dim coordinates and distance_to_path accepts points with dim coordinates. (Holds for StraightLine; refuted for NarrowPassage, whose vectors have dim+1 entries.)", "quantifier": "all dimensions", "why_tests_cant": "all dimensions", "anchors": ["nonasymptotic/envs.py:NarrowPassage.arclength_to_curve_point", "nonasymptotic/envs.py:NarrowPassage.distance_to_path"]}
{"id": "C43", "title": "Gray-code corridor visits every cube once through shared faces", "statement": "The corridor of GrayCodeWalls lists length*2^(dim-1) pairwise distinct cubes, covers the whole grid, starts at the origin cube, and consecutive cubes differ by exactly one in exactly one coordinate.", "quantifier": "all dimensions >= 2 and lengths >= 1", "why_tests_cant": "all dimensions and lengths", "anchors": ["nonasymptotic/envs.py:GrayCodeWalls.__init__"]}
{"id": "C44", "title": "Gray-code samples keep the wall distance", "statement": "Every point returned by sample_from_env has distance_to_wall >= 0 and lies in the chosen cube; the cube and region probabilities are distributions.", "quantifier": "all dimensions, lengths, thicknesses in [0, 1/2) and random draws", "why_tests_cant": "test uses a few seeds", "anchors": ["nonasymptotic/envs.py:GrayCodeWalls.sample_from_env", "nonasymptotic/envs.py:GrayCodeWalls._transform_sample_to_global_frame", "nonasymptotic/envs.py:GrayCodeWalls.distance_to_wall"]}
{"id": "C45", "title": "Gray-code curve stays half a unit from walls", "statement": "arclength_to_curve_point(t) has wall distance at least 1/2 - thickness and lies on the corridor for all t in [0,1], beginning at start_point and ending at end_point. (Refuted for dim = 2 with odd length, where the last leg runs the wrong way; proved otherwise.)", "quantifier": "all dimensions, lengths and curve parameters", "why_tests_cant": "continuum of parameters and all sizes", "anchors": ["nonasymptotic/envs.py:GrayCodeWalls.arclength_to_curve_point", "nonasymptotic/envs.py:GrayCodeWalls.end_point"]}
{"id": "C46", "title": "Gray-code motion check never accepts a motion through a wall", "statement": "If is_motion_valid accepts, every point of the motion has nonnegative wall distance. (Refuted: the part after a face crossed in a negative direction is not checked, and over several cubes the opening is computed from the goal's cube. Proved within one cube and into a neighbouring cube in a positive axis direction, where acceptance is exact.)", "quantifier": "all motions, dimensions, lengths", "why_tests_cant": "continuum of motions", "anchors": ["nonasymptotic/envs.py:GrayCodeWalls.is_motion_valid"]}
{"id": "C47", "title": "Polygon rings become closed vertex cycles", "statement": "For every list of ring sizes, random_point_in_mpolygon deletes exactly the repeated closing vertex of each ring and the segment list joins each remaining vertex to its cyclic predecessor in the same ring; the rings used are every polygon's exterior and each of its holes exactly once.", "quantifier": "all numbers of rings and ring sizes", "why_tests_cant": "all shapes", "anchors": ["nonasymptotic/sampler.py:random_point_in_mpolygon"]}
{"id": "C48", "title": "Triangle sampling stays in the triangle", "statement": "The returned point lies in the chosen triangle for all random draws, every point of a non-degenerate triangle is produced by exactly the pair of draws that are mirror images (so uniform draws give uniform points); triangle weights are nonnegative, proportional to the areas and sum to one exactly when the total area is positive.", "quantifier": "all triangles and draws", "why_tests_cant": "continuum", "anchors": ["nonasymptotic/sampler.py:random_point_in_mpolygon"]}
{"id": "C49", "title": "Planar separating-axis test never misses a collision", "statement": "If the convex hulls of two polygons (any shape, no two successive vertices equal) share a point then separating_axis_theorem returns True, and so does the batched version for the entry of the batch, also when the second polygons have more vertices.", "quantifier": "all polygons with any number of vertices, all batches", "why_tests_cant": "continuum, any vertex count", "anchors": ["exps/tamp_environment/turtlebot_move/separating_axis.py:separating_axis_theorem", "exps/tamp_environment/turtlebot_move/separating_axis.py:vec_separating_axis_theorem"]}
{"id": "C50", "title": "Planar separating-axis test is exact on convex polygons", "statement": "For counterclockwise strictly convex polygons with any number of vertices the test returns True iff the polygons share a point; the batched version answers each pair of polygons with equally many vertices as the one-pair version does, whatever else is in the batch.", "quantifier": "all pairs of strictly convex polygons with any number of vertices; all batches", "why_tests_cant": "continuum, any number of vertices and batch entries", "anchors": ["exps/tamp_environment/turtlebot_move/separating_axis.py:separating_axis_theorem", "exps/tamp_environment/turtlebot_move/separating_axis.py:vec_separating_axis_theorem"]}
{"id": "C51", "title": "Box-box test in space is exact when the orientation respects the extents", "statement": "For boxes with orthonormal orientation and non-negative half extents whose orientation mixes only coordinates with equal half extents (unrotated boxes, cubes in any orientation, boxes with square section turned about their axis), the test returns True iff the boxes share a point.", "quantifier": "all pairs of such boxes", "why_tests_cant": "continuum", "anchors": ["exps/tamp_environment/kuka_carry/separating_axis.py:separating_axis_theorem", "exps/tamp_environment/kuka_carry/separating_axis.py:compute_vertices_vectorized"]}
{"id": "C52", "title": "Discretised motion check has bounded resolution and checks both ends", "statement": "For convex robot and obstacle polygons with equally many vertices, BagOfBoundingBoxes.is_motion_valid gives one verdict per motion, True iff the robot is free of all obstacles at n equally spaced points of the motion including both ends, less than 0.08 apart in either coordinate; so every point of an accepted motion is within 0.04 per coordinate of a free point of it.", "quantifier": "all batches of motions and obstacles", "why_tests_cant": "continuum", "anchors": ["exps/tamp_environment/turtlebot_move/streams.py:BagOfBoundingBoxes.is_motion_valid"]}
{"id": "C53", "title": "Batched motion checks do not depend on the batch", "statement": "The verdict for one motion does not depend on the other motions checked in the same call, and an empty batch gives an empty answer. (Refuted: the number of steps is the maximum over the batch; the empty batch raises.)", "quantifier": "all batches", "why_tests_cant": "relational property over all batches", "anchors": ["exps/tamp_environment/turtlebot_move/streams.py:BagOfBoundingBoxes.is_motion_valid"]}
{"id": "C54", "title": "Interpolated paths keep waypoints and respect the step", "statement": "interpolate_vectors returns a path with the same first and last point that passes through all waypoints in order, with consecutive points at most threshold apart, all on the original segments.", "quantifier": "all paths of any length and dimension, all thresholds > 0", "why_tests_cant": "continuum, any length", "anchors": ["exps/tamp_environment/turtlebot_move/streams.py:interpolate_vectors"]}
{"id": "C55", "title": "Anytime planning loop finishes and respects its sample budget", "statement": "For a first size of at least one and any growth factor, the anytime loop finishes whatever the planner answers; the sizes it requests strictly increase and stay within [1, max_samples]; every attempt but the last failed; it returns the last attempt's path with the two end configurations attached, or None if that attempt failed too. It ends with an exception only if a size repeats (ArithmeticError) or the first size exceeds the budget (unbound variable); if first*(factor-1) >= 1 no size repeats, and a failed search got within one factor of the budget. (Refuted: that it uses the full budget, never raises, and always binds the path.)", "quantifier": "all planners (success patterns), minima, maxima and factors", "why_tests_cant": "termination; all success patterns", "anchors": ["exps/tamp_environment/turtlebot_move/streams.py:get_anytime_motion_fn"]}
{"id": "C56", "title": "Adaptive planning uses the theoretical sample count", "statement": "In adaptive mode the final attempt uses at least the number of samples returned by the numerical bound. (Refuted: it starts at one less and then overshoots the budget; proved exactly when it is reached.)", "quantifier": "all bounds and factors", "why_tests_cant": "all bounds", "anchors": ["exps/tamp_environment/turtlebot_move/streams.py:get_anytime_motion_fn"]}
{"id": "C57", "title": "Turtlebot planning domain keeps the world consistent", "statement": "After any executable action sequence each rover is at exactly one configuration, the gripper is free iff nothing is held, at most one object is held, and every object is either held or at exactly one pose.", "quantifier": "all plans of any length, any number of rovers and objects", "why_tests_cant": "plan length unbounded", "anchors": ["exps/tamp_environment/turtlebot_move/domain.pddl"]}
{"id": "C58", "title": "Kuka planning domain keeps the world consistent", "statement": "After any executable action sequence from the problem's initial state there is exactly one arm configuration, the hand is empty iff nothing is grasped, at most one object is grasped with one grasp, every movable object is at exactly one pose or grasped, and between any two moves there is a pick or a place.", "quantifier": "all plans of any length", "why_tests_cant": "plan length unbounded", "anchors": ["exps/tamp_environment/kuka_carry/domain.pddl"]}
{"id": "C59", "title": "Plan post-processing detaches what was attached", "statement": "For every executable single-rover plan post_process succeeds: the command sequence is each action's trajectory followed by an attach or detach of the object the action names, attaches and detaches alternate on the same object, and each motion starts where the previous one ended. (Refuted for two rovers: it raises KeyError or detaches another object.)", "quantifier": "all plans of any length", "why_tests_cant": "plan length unbounded", "anchors": ["exps/tamp_environment/turtlebot_move/run.py:post_process"]}
{"id": "C60", "title": "Reversing a command twice is the identity", "statement": "Command.reverse reverses the order of body paths and each body path, swaps attach and detach, applying it twice restores the command, and the reverse of a command that leads from one configuration to another without jumps leads back; the bodies of a command are exactly those moved or attached in it, and reversing keeps them.", "quantifier": "all commands", "why_tests_cant": "commands of any length", "anchors": ["exps/tamp_environment/kuka_carry/kuka_primitives.py:Command.reverse", "exps/tamp_environment/kuka_carry/kuka_primitives.py:BodyPath.reverse"]}
{"id": "C61", "title": "Work is partitioned over tasks", "statement": "Over all task ids the strided slices of the experiment list contain every experiment exactly once, a slice holds the entries task_id + k*num_tasks, and the experiment list holds every combination of the settings exactly once.", "quantifier": "all experiment lists and task counts >= 1", "why_tests_cant": "all sizes", "anchors": ["exps/run_narrow_passage_clearance_trial.py", "exps/run_straight_line_optimality_trial.py"]}
{"id": "C62", "title": "Resuming after a crash runs every remaining experiment", "statement": "Whatever the crash points, rerunning the straight-line or knn-radius script completes every experiment. (Refuted: finished rows, not finished experiments, are counted; with r >= 2 rows per experiment a crash after c experiments loses the next ones. Proved: no experiment is ever repeated, and with one row each all are run exactly once.)", "quantifier": "all experiment lists and crash points", "why_tests_cant": "all crash points", "anchors": ["exps/run_straight_line_optimality_trial.py", "exps/run_knn_radius_trial.py"]}
{"id": "C63", "title": "Resumed narrow-passage runs use fresh seeds and repeat nothing", "statement": "After any number of crashes every experiment is run exactly once with its own seed. (Refuted: the seed stream restarts, so a resumed experiment reuses an earlier seed, a second resume repeats experiments, and a record without a seed makes a resume skip one; if every session dies after c trials nothing beyond experiment 2c is ever run. Proved: after at most one crash every experiment runs exactly once, after any number none is left out.)", "quantifier": "all crash histories", "why_tests_cant": "all crash points and numbers of crashes", "anchors": ["exps/run_narrow_passage_clearance_trial.py"]}
{"id": "C64", "title": "Narrow-passage critical-connection search is sound", "statement": "For all query outcomes the search terminates after at most ceil(log2(size))+1 queries, the reported working connection was queried successfully (the last one through max_connections) and its distance and length are recorded, the reported failing index was queried unsuccessfully or is the first index, and they are adjacent; where more connections never hurt they are the critical pair. (The first index is reported as failing without being queried: refuted.)", "quantifier": "all outcome patterns and list sizes", "why_tests_cant": "all outcome patterns", "anchors": ["exps/run_narrow_passage_clearance_trial.py:narrow_passage_clearance"]}
{"id": "C65", "title": "Stretch factor is recovered from a radius", "statement": "The tolerance computed from a critical radius by the straight-line experiment is the inverse of compute_connection_radius on tolerances in (0,1] and radii in (2 delta, 2 sqrt 2 delta]; smaller radii give a negative tolerance, larger ones nan, and a tolerance above 1 comes back as its reciprocal.", "quantifier": "all tolerances in (0,1] and clearances > 0", "why_tests_cant": "continuum", "anchors": ["exps/run_straight_line_optimality_trial.py", "nonasymptotic/bound.py:compute_connection_radius"]}
{"id": "C66", "title": "Unit-ball volume is correct in every dimension", "statement": "compute_vol_unit_sphere(d) satisfies V(0)=1, V(1)=2, V(d+2) = 2*pi*V(d)/(d+2), i.e. it is the Lebesgue volume of the d-dimensional unit ball.", "quantifier": "all dimensions d", "why_tests_cant": "There are infinitely many dimensions; a test only checks a few values.", "anchors": ["nonasymptotic/bound.py:compute_vol_unit_sphere"]}
{"id": "C67", "title": "Blumer count is sufficient and never beaten by more than rounding", "statement": "Any count at least compute_blumer_bound(net_rad, dim, gamma, vol) makes the Sauer-Shelah failure bound at most gamma (for ball measures in (0,1]); hence the count returned by compute_numerical_bound is 2 or less than the Blumer value plus one.", "quantifier": "all dimensions, ball measures in (0,1], failure probabilities and counts", "why_tests_cant": "It compares two transcendental expressions over a continuum of inputs and unbounded counts.", "anchors": ["nonasymptotic/bound.py:compute_blumer_bound", "nonasymptotic/bound.py:compute_numerical_bound"]}
{"id": "C68", "title": "Queries are symmetric", "statement": "With a symmetric motion check, exchanging start and goal of a full-connection query gives the same distance.", "quantifier": "all histories, all start/goal pairs", "why_tests_cant": "Tests try a few pairs; the claim is for every roadmap and pair.", "anchors": ["nonasymptotic/prm.py:96-167"]}
{"id": "C69", "title": "Growing a radius roadmap keeps it complete", "statement": "After growing SimpleRadiusPRM every valid pair closer than the connection radius is linked. (Refuted: growth doubles k once and never re-checks the lists, however many samples are added; proved when the neighbour lists in use afterwards reach past the radius, for motions valid both ways.)", "quantifier": "all sample sets, all growth sequences", "why_tests_cant": "The loss shows only for particular densities and growth sizes.", "anchors": ["nonasymptotic/prm.py:566-592"]}
{"id": "C70", "title": "A reset radius roadmap behaves like a new one", "statement": "After reset, SimpleRadiusPRM regrown on the same samples has the edges of a newly constructed one. (Refuted: the doubled k_neighbors survives the reset.)", "quantifier": "all histories", "why_tests_cant": "Needs a dense history before the reset and a sparse one after it.", "anchors": ["nonasymptotic/prm.py:540-554", "nonasymptotic/prm.py:622-625"]}
{"id": "C71", "title": "Gray-code wall distance is exact", "statement": "distance_to_wall answers exactly for points in cubes of the grid, and its value is at least v exactly when the point keeps thickness + v from every face of its cube that does not lead to the previous or next cube.", "quantifier": "all dimensions, lengths, thicknesses, points and values v", "why_tests_cant": "continuum of points", "anchors": ["nonasymptotic/envs.py:GrayCodeWalls.distance_to_wall", "nonasymptotic/envs.py:GrayCodeWalls._distance_to_wall_in_cube", "nonasymptotic/envs.py:GrayCodeWalls._unblock_wall"]}
{"id": "C72", "title": "Gray-code motion check is exact where it is used correctly", "statement": "For motions within one cube, and from a cube into its neighbour on the path in a positive axis direction, is_motion_valid returns True exactly when all points of the motion are free.", "quantifier": "all such motions, dimensions, lengths, thicknesses", "why_tests_cant": "continuum of motions", "anchors": ["nonasymptotic/envs.py:GrayCodeWalls.is_motion_valid"]}
{"id": "C73", "title": "Gray-code motion check finishes and accepts free ends only", "statement": "For motions between points in grid cubes the while loop of is_motion_valid stops: it returns a verdict or the graph lookup of the last opening raises. Whenever it accepts, both ends of the motion are free.", "quantifier": "all motions, dimensions, lengths, thicknesses", "why_tests_cant": "termination over all motions and corridor lengths", "anchors": ["nonasymptotic/envs.py:GrayCodeWalls.is_motion_valid"]}
{"id": "C74", "title": "Gray-code motion check ignores direction and accepts all free motions", "statement": "is_motion_valid gives the same answer for a motion and its reverse, and accepts every motion whose points are all free. (Both refuted.)", "quantifier": "all motions", "why_tests_cant": "continuum of motions", "anchors": ["nonasymptotic/envs.py:GrayCodeWalls.is_motion_valid"]}
{"id": "C75", "title": "The planar test needs distinct vertices and equal vertex counts", "statement": "The collision test is exact for all polygons. (Refuted: a repeated vertex turns a collision into 'no collision' because the axis is NaN; the batched version skips edges of the second polygons when they have more vertices, and raises when they have fewer.)", "quantifier": "all polygons", "why_tests_cant": "witness polygons outside the tested shapes", "anchors": ["exps/tamp_environment/turtlebot_move/separating_axis.py:separating_axis_theorem", "exps/tamp_environment/turtlebot_move/separating_axis.py:vec_separating_axis_theorem"]}
{"id": "C76", "title": "Box-box test in space is exact for all oriented boxes", "statement": "The oriented-box test returns True iff the boxes intersect, for every orientation. (Refuted both ways: compute_vertices_vectorized applies the half extents after the rotation, so a quarter-turned plank is seen in its unturned position.)", "quantifier": "all pairs of oriented boxes", "why_tests_cant": "continuum; the file's own examples only rotate cubes", "anchors": ["exps/tamp_environment/kuka_carry/separating_axis.py:separating_axis_theorem", "exps/tamp_environment/kuka_carry/separating_axis.py:compute_vertices_vectorized"]}
{"id": "C77", "title": "Motion check is symmetric", "statement": "Swapping start and goal of every motion of a call leaves all verdicts unchanged, so the undirected edges of the roadmap are well defined.", "quantifier": "all robots, obstacles and batches", "why_tests_cant": "continuum; relational property", "anchors": ["exps/tamp_environment/turtlebot_move/streams.py:BagOfBoundingBoxes.is_motion_valid"]}
{"id": "C78", "title": "Accepted motions are free throughout", "statement": "If is_motion_valid accepts a motion, the robot is free at every point of it. (Refuted: an obstacle thinner than the step is crossed; C52 gives what holds.)", "quantifier": "all robots, obstacles, motions and points of the motion", "why_tests_cant": "continuum", "anchors": ["exps/tamp_environment/turtlebot_move/streams.py:BagOfBoundingBoxes.is_motion_valid"]}
{"id": "C79", "title": "Turtlebot task needs and has a plan of two actions per target", "statement": "If the rover's configurations can be connected and each initial and goal pose can be reached, the task with n targets is solved by a plan of 2n actions; every plan that solves it has at least two actions for each target whose goal differs from its initial pose.", "quantifier": "any number of targets, all facts, all plans", "why_tests_cant": "lower bound over all plans of any length", "anchors": ["exps/tamp_environment/turtlebot_move/domain.pddl", "exps/tamp_environment/turtlebot_move/run.py:pddlstream_from_problem"]}
{"id": "C80", "title": "Kuka task needs and has a plan of eight actions per object and one move home", "statement": "With the facts pddlstream_from_problem and the streams provide, the task with n objects has a plan of 8n+1 actions if every requested motion exists, and no plan with fewer actions reaches the goal (n > 0).", "quantifier": "any number of objects, all plans", "why_tests_cant": "lower bound over all plans of any length", "anchors": ["exps/tamp_environment/kuka_carry/domain.pddl", "exps/tamp_environment/kuka_carry/stream.pddl", "exps/tamp_environment/kuka_carry/run.py:pddlstream_from_problem"]}
{"id": "C81", "title": "Every insertion releases the object in front of the bin and grasps it again", "statement": "In every plan that cleans an object, the object is placed while the arm is at a pre-insertion configuration, at a pose no sink supports, and picked there again: the CanMove flag forbids a holding move followed by an insertion move. So the object is never carried from its start into the bin in one grasp.", "quantifier": "any number of objects, all plans", "why_tests_cant": "all plans", "anchors": ["exps/tamp_environment/kuka_carry/domain.pddl", "exps/tamp_environment/kuka_carry/stream.pddl"]}
{"id": "C82", "title": "Command of a kuka plan moves the arm without jumps", "statement": "If every trajectory leads from its first configuration to its last, the command that postprocess_plan assembles from any executable plan leads the arm without jumps from the start configuration to the configuration of the planner's final state.", "quantifier": "all plans, all trajectories", "why_tests_cant": "all plans", "anchors": ["exps/tamp_environment/kuka_carry/run.py:postprocess_plan"]}
{"id": "C83", "title": "Insertion trajectory reaches its goal", "statement": "The trajectory returned by the insertion stream visits a configuration for every waypoint of the roadmap path, the goal included. (Refuted: waypoints without an inverse kinematics solution are dropped silently; proved when every waypoint has one.)", "quantifier": "all inverse kinematics behaviours and paths", "why_tests_cant": "all failure patterns", "anchors": ["exps/tamp_environment/kuka_carry/run.py:get_insert_motion_gen"]}
{"id": "C84", "title": "Deployment submits every queued experiment exactly once", "statement": "The batching loop of the kuka deployment terminates, submits the queue in order in batches of 1 to 50, and whatever the shuffle each arg set is submitted exactly fifty times.", "quantifier": "all queues", "anchors": ["exps/tamp_environment/deploy_tamp_experiments_kuka.py"], "why_tests_cant": "all lists and sizes"}
{"id": "C85", "title": "Deployed sample counts are the ones tried", "statement": "A fixed-size deployment (n-1, n) with the default factor makes exactly one attempt, with n-1 samples, and a sweep never asks the roadmap for a size it already has; the deployed argument sets are the adaptive one and, for every drawn n, a sweep from one below the smallest size and the fixed size. (That the drawn n itself is tried is refuted.)", "quantifier": "all drawn sizes and planner behaviours", "anchors": ["exps/tamp_environment/deploy_tamp_experiments.py", "exps/tamp_environment/deploy_tamp_experiments_kuka.py", "exps/tamp_environment/turtlebot_move/streams.py:get_anytime_motion_fn"], "why_tests_cant": "all sizes and planner behaviours"}
{"id": "C86", "title": "Repeated deployed runs use different seeds", "statement": "Every deployed arg set is run with fifty different seeds. (Proved for the turtlebot deployment: seeds 1..50 once each, job t of an array running seed t. Refuted for the kuka deployment: every submission is a one-job array, so all repetitions run seed 1.)", "quantifier": "all arg-set lists", "anchors": ["exps/tamp_environment/deploy_experiments.sh", "exps/tamp_environment/deploy_experiments_kuka.sh", "exps/tamp_environment/deploy_tamp_experiments_kuka.py:deploy_with_args"], "why_tests_cant": "needs a cluster"}
{"id": "C87", "title": "Resume picks the latest experiment of the given name", "statement": "--resume continues the most recent experiment whose name is the given one. (Refuted: the glob matches every directory that starts with the name. Proved: the most recent one starting with the name is chosen, and failure is reported exactly when there is none.)", "quantifier": "all result directories", "anchors": ["exps/submit_and_run_experiment_job.py"], "why_tests_cant": "all directory contents"}
{"id": "C88", "title": "Narrow-passage rows hold each value in its column", "statement": "A trial returns one row per sample count, with twelve cells in their columns, the connection cells being the entries the search reported, and its seed in every row. (Refuted when a radius roadmap has no connections: its ten-field record puts the info in build_time and the seed in check_time; if no sample count gives connections the trial raises. Proved when every roadmap has connections.)", "quantifier": "all schedules, roadmaps and query outcomes", "anchors": ["exps/run_narrow_passage_clearance_trial.py:narrow_passage_clearance"], "why_tests_cant": "all outcome patterns"}
{"id": "C89", "title": "Straight-line critical-radius search is sound", "statement": "With three or more radii the search terminates and reports two neighbouring radii, the smaller checked incomplete or the second of the list, the larger checked complete or the last; with two it checks nothing, reports the second twice and says so. (That the larger one is complete is refuted: the last is never checked; with at most one radius the trial raises IndexError.)", "quantifier": "all check outcomes and list sizes", "anchors": ["exps/run_straight_line_optimality_trial.py:straight_line_trial"], "why_tests_cant": "all outcome patterns"}
{"id": "C90", "title": "knn-radius trial records every neighbour count below the sample count", "statement": "For an ascending schedule of positive counts the trial records exactly the pairs of a sample count and a smaller neighbour count, read from a graph with the largest such count, in an environment of unit length seeded with its seed. (Refuted: a neighbour count equal to the sample count raises IndexError, and the seed is passed as the length of the line. Proved when no count equals a sample count.)", "quantifier": "all schedules and distance tables", "anchors": ["exps/run_knn_radius_trial.py:knn_radius_trial", "nonasymptotic/envs.py:StraightLine.__init__"], "why_tests_cant": "all schedules"}
{"id": "C91", "title": "A full-connection roadmap over a net answers within the tolerance", "statement": "Let a curve of length L joining start to goal have clearance delta, let every ball of radius compute_epsilon_net_radius(delta, tol) around a curve point hold a roadmap sample, let the motion check accept every free motion, let computed distances be within eta of Euclidean ones and the connection radius at least the one compute_numerical_bound returns plus eta. Then query_best_solution reports a finite distance; with a tolerance it is at most (1+tol)L + (L/step+1)eta when L exceeds step = 2 delta/sqrt(1+tol^2), and at most L + 2*net radius + 2 eta otherwise. With tol=None it is finite.", "quantifier": "all dimensions, curves, free spaces, nets, rounding errors and histories of the roadmap", "why_tests_cant": "universally quantified over curves, obstacle sets and sample sets in a continuum", "anchors": ["nonasymptotic/bound.py:compute_numerical_bound", "nonasymptotic/bound.py:compute_epsilon_net_radius", "nonasymptotic/bound.py:compute_connection_radius", "nonasymptotic/prm.py:SimpleFullConnRadiusPRM.query_best_solution"]}
{"id": "C92", "title": "The neighbour-list roadmaps over a net answer within the tolerance", "statement": "With exact neighbour lists, the same guarantee holds for SimpleNearestNeighborRadiusPRM when its certified radius (and the radius set, if any) exceeds the connection radius plus eta, after any radius changes and queries; and for a freshly built SimpleRadiusPRM whose neighbour lists were not cut off by max_k.", "quantifier": "all dimensions, curves, free spaces, nets, rounding errors and histories", "why_tests_cant": "universally quantified over curves, obstacle sets and sample sets in a continuum", "anchors": ["nonasymptotic/bound.py:compute_numerical_bound", "nonasymptotic/bound.py:compute_epsilon_net_radius", "nonasymptotic/bound.py:compute_connection_radius", "nonasymptotic/prm.py:SimpleNearestNeighborRadiusPRM", "nonasymptotic/prm.py:SimpleRadiusPRM"]}
{"id": "C93", "title": "The (1+tol) guarantee holds for every query", "statement": "Over a net, every query with a solution curve of length L > 0 and clearance delta is answered at a cost of at most (1+tol)L, however close start and goal are.", "quantifier": "all queries and nets", "why_tests_cant": "continuum of query pairs", "anchors": ["nonasymptotic/bound.py:compute_numerical_bound", "nonasymptotic/bound.py:compute_epsilon_net_radius", "nonasymptotic/bound.py:compute_connection_radius", "nonasymptotic/prm.py:SimplePRM.query_best_solution"]}
{"id": "C94", "title": "In the experiment environments a net of samples solves the reference query", "statement": "In StraightLine(dim, delta, length) and NarrowPassage(dim, clearance), a full-connection roadmap over a net along the reference path with the radius of bound.py answers the query within the tolerance.", "quantifier": "all dimensions >= 2, lengths, clearances, tolerances, nets and rounding errors", "why_tests_cant": "continuum of nets", "anchors": ["nonasymptotic/envs.py:StraightLine.is_motion_valid", "nonasymptotic/envs.py:NarrowPassage.is_motion_valid", "nonasymptotic/prm.py:SimplePRM.query_best_solution"]}
{"id": "C95", "title": "Hollow shapes fill exactly the chosen sides of a block", "statement": "The walls built by create_hollow_shapes fill exactly the points of the width x length x height block that lie within the thickness of one of the selected faces; a bin leaves free exactly its cavity, and a continuous curve from the cavity to outside touches a wall or passes the open top.", "quantifier": "all dimensions, thicknesses, selections of faces and continuous curves", "why_tests_cant": "continuum of points and curves", "anchors": ["exps/tamp_environment/kuka_carry/run.py:create_hollow_shapes", "exps/tamp_environment/kuka_carry/run.py:create_hollow"]}
{"id": "C96", "title": "Bins of the grid do not overlap", "statement": "load_world builds eight bins of five walls, and no point is interior to walls of two different bins.", "quantifier": "all gaps >= -0.05, all points", "why_tests_cant": "continuum of gaps and points", "anchors": ["exps/tamp_environment/kuka_carry/run.py:load_world"]}
{"id": "C97", "title": "Clearance given to the sample bound is a clearance of the body in the bin", "statement": "The delta computed for inserting a body is a sideways clearance of the body inside its bin, so that the sample bound applies. (Refuted: it equals width - thickness - (body + buffer)/2, which is attained only if the buffer is at least the bin's width; with the defaults it is five times the true clearance, and the sample count derived from it is at most the one for the true clearance. The true clearance is determined exactly.)", "quantifier": "all bins, gaps, body sizes, buffers and positions", "why_tests_cant": "continuum of positions", "anchors": ["exps/tamp_environment/kuka_carry/run.py:get_insert_motion_gen", "exps/tamp_environment/kuka_carry/run.py:load_world"]}
{"id": "C98", "title": "Insertion planning samples exactly the bounding region", "statement": "In position the sampled region is the smallest box that contains the obstacles and the start, in angles [-theta_margin, theta_margin]; draws from the unit cube reach exactly its points; for a bin it is the bin's block stretched to the start, and cspace_volume is its volume.", "quantifier": "all obstacles, starts, margins and draws", "why_tests_cant": "continuum", "anchors": ["exps/tamp_environment/kuka_carry/run.py:BagOfBoundingBoxes.extents", "exps/tamp_environment/kuka_carry/run.py:BagOfBoundingBoxes.sample_from_env", "exps/tamp_environment/kuka_carry/run.py:get_insert_motion_gen"]}
{"id": "C99", "title": "Motion check of the insertion planner tests every interpolated pose exactly", "statement": "For bodies whose box keeps aligned extents the verdict on every motion of a batch is that no interpolated pose touches an obstacle, with two more steps than whole multiples of 0.03 in the longest motion; an accepted translation keeps any body 0.015 smaller on each side clear throughout; OBB.from_oobb covers an oriented bounding box exactly when its AABB is centred, as the bins' walls are.", "quantifier": "all batches, obstacles, bodies, interpolations and points along a motion", "why_tests_cant": "continuum of motions", "anchors": ["exps/tamp_environment/kuka_carry/run.py:BagOfBoundingBoxes.is_motion_valid", "exps/tamp_environment/kuka_carry/separating_axis.py:OBB.from_oobb"]}
{"id": "C100", "title": "Motions accepted by the insertion planner are collision free and judged independently", "statement": "An accepted translation does not touch an obstacle, and the verdict on a motion does not depend on the rest of the batch. (Refuted: a 0.001 wide body passes through a 0.01 thick wall, the verdict changes when a longer motion is added, and an empty batch raises.)", "quantifier": "all motions and batches", "why_tests_cant": "needs a motion between the sampled poses", "anchors": ["exps/tamp_environment/kuka_carry/run.py:BagOfBoundingBoxes.is_motion_valid"]}
{"id": "C101", "title": "Region sampled for an insertion contains the clearance ball around the start", "statement": "The sampled region contains a ball around the start pose, as the sample bound assumes of every point of the path. (Refuted: a start above the bin lies on the region's boundary and no sample is higher; the region is given exactly by C98.)", "quantifier": "all bins and starts", "why_tests_cant": "all draws", "anchors": ["exps/tamp_environment/kuka_carry/run.py:BagOfBoundingBoxes.__init__", "exps/tamp_environment/kuka_carry/run.py:BagOfBoundingBoxes.extents"]}
{"id": "C102", "title": "Aggregation collects every result row once", "statement": "The aggregated table holds exactly the rows of the out*.csv files of the directory, other files are unchanged, the time statistics use exactly the rows after the first of each file, and aggregating again changes nothing. (The last part is refuted for an output name that begins with out: the aggregated file is then read as a result and its rows are doubled.)", "quantifier": "all directories, tables and names", "why_tests_cant": "any number of files and rows", "anchors": ["exps/aggregate_runtimes_for_tuning.py"]}
{"id": "C103", "title": "Sets of the coverage check hold only answered queries", "statement": "In the body of is_prm_epsilon_delta_complete (disabled by its first statement), every set recorded for a pair of roadmap samples, at any point of any run, holds only queries that this pair answers: start and goal are within the connection radius of the samples and the path through them is at most (1+tol) times the curve. The bounding box is exactly the queries within the radius, and after a query is processed the set of every pair that answers it contains it.", "quantifier": "all roadmaps, tolerances, radii below 1, runs and queries; any answers of the geometry library (exact ones for the last part)", "why_tests_cant": "continuum of queries per set and unbounded runs", "anchors": ["nonasymptotic/envs.py:StraightLine.is_prm_epsilon_delta_complete"]}
{"id": "C104", "title": "Verdicts of the coverage check are honest", "statement": "Whatever the loop has covered, in particular when it stops with 'covered', is answered within the tolerance; a reported failing query is a query of the curve at least as long as the radius that no pair answers; the rows that pass the test are exactly those that answer the query; the region to cover is exactly the queries of length at least the radius.", "quantifier": "all roadmaps, tolerances, radii below 1 and runs (any heap order, samples, clock)", "why_tests_cant": "unbounded nondeterministic loop over a continuum", "anchors": ["nonasymptotic/envs.py:StraightLine.is_prm_epsilon_delta_complete"]}
{"id": "C105", "title": "Inner approximation of an admissible set is the L1 test", "statement": "The quadrilateral used as inner approximation is exactly the queries that pass the tolerance test with the L1 norm, up to a length. (Holds when the projections of the pair are not within the tolerance; in the other case it holds only such queries but is cut short, since line 202 starts the second ray at the first corner.)", "quantifier": "all pairs, tolerances and queries", "why_tests_cant": "continuum", "anchors": ["nonasymptotic/envs.py:StraightLine.is_prm_epsilon_delta_complete"]}
{"id": "C106", "title": "Coverage check works for environments of any length", "statement": "The tolerance test accepts exactly the rows that answer the query whatever the length of the environment. (Refuted: path lengths are fractions while distances are not; in an environment longer than 1+tol every query of every roadmap is rejected, in a shorter one rows outside the tolerance are accepted. For length 1 see C104.)", "quantifier": "all lengths, tolerances, roadmaps and queries", "why_tests_cant": "all roadmaps and queries", "anchors": ["nonasymptotic/envs.py:StraightLine.is_prm_epsilon_delta_complete", "nonasymptotic/envs.py:StraightLine.arclength_to_curve_point"]}
{"id": "C107", "title": "Walls of the hallway worlds enclose the rooms", "statement": "For every room length, hallway length and gap for which the boxes are proper, the twelve walls leave free, inside their bounding rectangle, exactly the two rooms with the hallway and the two pockets beside the hallway; a continuous motion of a point that starts in a room or the hallway and touches no wall stays there.", "quantifier": "all world sizes, all points, all continuous curves", "why_tests_cant": "uncountably many curves", "anchors": ["exps/tamp_environment/turtlebot_move/problems.py:hallway_manip", "exps/tamp_environment/turtlebot_move/problems.py:hallway"]}
{"id": "C108", "title": "Clearance of the hallway", "statement": "For a rectangular body of height 2b the straight motion between the rooms has clearance delta whenever delta < (gap - 2b)/2, and no continuous motion from one room to the other has clearance (gap - 2b)/2 or more.", "quantifier": "all world sizes, body sizes, clearances, curves", "why_tests_cant": "uncountably many curves", "anchors": ["exps/tamp_environment/turtlebot_move/problems.py:hallway_manip", "exps/tamp_environment/turtlebot_move/problems.py:hallway"]}
{"id": "C109", "title": "Adaptive sample count is computed for a clearance that a solution has", "statement": "The clearance from which the adaptive mode computes its sample count is one that some motion through the hallway has. (Refuted: for every body that fits, no motion has it, so the count is at most the one for the true clearance; in hallway() the clearance is computed from a gap of 0 and is negative.)", "quantifier": "all world sizes, body sizes, curves", "why_tests_cant": "uncountably many curves", "anchors": ["exps/tamp_environment/turtlebot_move/streams.py:get_anytime_motion_fn", "exps/tamp_environment/turtlebot_move/problems.py:hallway"]}
{"id": "C110", "title": "Collision check of oriented boxes decides contact", "statement": "The polygons that the constructor derives from oriented boxes are their four corners, or the assertion fails, exactly if a side is below a millimetre; on a non-empty batch the check then says for each motion whether the robot's rectangle touches no box at n equally spaced points less than 0.08 apart; the start and goal assertions hold exactly for configurations touching no box or wall.", "quantifier": "all oriented boxes, robot extents, batches of motions", "why_tests_cant": "all real-valued boxes and batches of any length", "anchors": ["exps/tamp_environment/turtlebot_move/streams.py:BagOfBoundingBoxes.__init__", "exps/tamp_environment/turtlebot_move/streams.py:BagOfBoundingBoxes.oobb_flat_vertices", "exps/tamp_environment/turtlebot_move/streams.py:BagOfBoundingBoxes.is_motion_valid"]}
{"id": "C111", "title": "Accepted motions do not pass through the walls of the hallway worlds", "statement": "An accepted motion that starts in a room or the hallway ends there, and each of its points is within 0.04 in either coordinate of a configuration that is inside and touches no wall; hence all waypoints of a path of accepted motions are inside.", "quantifier": "all world sizes, robot extents, batches, paths", "why_tests_cant": "paths of any length, all motions", "anchors": ["exps/tamp_environment/turtlebot_move/streams.py:BagOfBoundingBoxes.is_motion_valid", "exps/tamp_environment/turtlebot_move/problems.py:hallway_manip"]}
{"id": "C112", "title": "Sampling region of the hallway worlds", "statement": "Samples are drawn from exactly the bounding rectangle of the walls; in hallway_manip its area is 9.92, below the volume 16 used for the sample count, so that count is at least the one for the true area.", "quantifier": "all world sizes, draws, bound parameters", "why_tests_cant": "all real draws", "anchors": ["exps/tamp_environment/turtlebot_move/streams.py:BagOfBoundingBoxes.extents", "exps/tamp_environment/turtlebot_move/streams.py:BagOfBoundingBoxes.sample_from_env", "exps/tamp_environment/turtlebot_move/streams.py:get_anytime_motion_fn"]}
{"id": "C113", "title": "Placements are on the surface and free of contact", "statement": "A body gets no pose exactly if it is larger than the surface; otherwise its poses are exactly those on the surface. When sample_placements succeeds all bodies are on the surface, none hits an obstacle or an earlier body; it gives up only if a body is larger than the surface. A target placed free of the walls in a room is a valid start or goal for the body with its extents and lies inside the walls.", "quantifier": "all surfaces, bodies, obstacles, draws", "why_tests_cant": "any number of bodies and attempts", "anchors": ["exps/tamp_environment/turtlebot_move/problems.py:sample_placement_on_aabb", "exps/tamp_environment/turtlebot_move/problems.py:sample_placements", "exps/tamp_environment/turtlebot_move/problems.py:hallway_manip", "exps/tamp_environment/turtlebot_move/streams.py:get_ik"]}
{"id": "C114", "title": "Placing targets terminates", "statement": "sample_placements returns. (Refuted: two bodies that each fit but not side by side are tried forever whatever is drawn. What holds: one body is placed exactly if some later draw hits nothing.)", "quantifier": "all draws and numbers of attempts", "why_tests_cant": "infinitely many attempts", "anchors": ["exps/tamp_environment/turtlebot_move/problems.py:sample_placements"]}
{"id": "C115", "title": "Target sizes and the gap", "statement": "Drawn radii lie in [min, max); the radius is at most the fraction x of the range exactly if u <= 1-(1-x)^4; the gap is 2 max + dd whatever is drawn and leaves at least dd for every target.", "quantifier": "all scales, draws, numbers of targets", "why_tests_cant": "all real draws", "anchors": ["exps/tamp_environment/turtlebot_move/problems.py:hallway_manip"]}
{"id": "C116", "title": "Initial configuration respects the problem's limits", "statement": "The initial configuration lies within the base limits that are handed to the planner. (Refuted: it lies outside them. It is free of collision, as all placed targets are.)", "quantifier": "all world sizes", "why_tests_cant": "the limits are stored and never used, no run fails", "anchors": ["exps/tamp_environment/turtlebot_move/problems.py:hallway_manip", "exps/tamp_environment/turtlebot_move/problems.py:hallway"]}
{"id": "C117", "title": "Top grasps are centred, point down and fit the gripper", "statement": "Every grasp of get_top_grasps has the tool centred over the top face at the given depth and looking straight down; with a bounded gripper the body fits between the fingers, and a grasp exists exactly if one side fits; the four grasps of 'top' are quarter turns of each other. Each body gets four distinct grasps, all of that body by the given robot and link, approached from one centimetre.", "quantifier": "all box sizes, centres, depths and gripper widths", "why_tests_cant": "continuum of boxes and angles", "anchors": ["exps/tamp_environment/kuka_carry/kuka_primitives.py:get_top_grasps", "exps/tamp_environment/kuka_carry/kuka_primitives.py:get_grasp_gen"]}
{"id": "C118", "title": "Inverse kinematics with restarts", "statement": "A configuration returned by get_ik_fn has the gripper at the approach pose and touches no fixed body, and only the robot has moved; with random restarts None is returned exactly if all ten attempts fail.", "quantifier": "all worlds, poses, grasps, samples and collision tests", "why_tests_cant": "all real poses and draws", "anchors": ["exps/tamp_environment/kuka_carry/kuka_primitives.py:get_ik_fn"]}
{"id": "C119", "title": "A Kin configuration holds the object at its pose", "statement": "A configuration certified for (o, p, g) holds o at p. (Refuted: for the grasps of 'top' it holds o one centimetre above p, exactly, in the same orientation.)", "quantifier": "all arms with exact inverse kinematics, poses, grasps", "why_tests_cant": "all real poses", "anchors": ["exps/tamp_environment/kuka_carry/kuka_primitives.py:get_ik_fn", "exps/tamp_environment/kuka_carry/kuka_primitives.py:get_grasp_gen", "exps/tamp_environment/kuka_carry/run.py:pddlstream_from_problem"]}
{"id": "C120", "title": "Execution carries attached bodies; the movable test is exact", "statement": "Iterating a body path visits the configurations in order, carries the attached bodies rigidly and moves nothing else; the movable collision test is true exactly if a body the command does not involve is touched while it is executed.", "quantifier": "all commands, worlds and collision tests", "why_tests_cant": "all commands", "anchors": ["exps/tamp_environment/kuka_carry/kuka_primitives.py:BodyPath", "exps/tamp_environment/kuka_carry/kuka_primitives.py:Command", "exps/tamp_environment/kuka_carry/kuka_primitives.py:get_movable_collision_test"]}
{"id": "C121", "title": "Free and holding motions are collision free", "statement": "A planned motion joins its two configurations, and along it the robot and the held object are clear of the fixed bodies and of every object at the pose the planner gives it; it raises exactly for configurations of two bodies or a fluent that is not AtPose. (Refuted for teleport: nothing is checked.)", "quantifier": "all worlds, objects, fluents and planners that check what they are given", "why_tests_cant": "all planners and worlds", "anchors": ["exps/tamp_environment/kuka_carry/kuka_primitives.py:get_free_motion_gen", "exps/tamp_environment/kuka_carry/kuka_primitives.py:get_holding_motion_gen", "exps/tamp_environment/kuka_carry/kuka_primitives.py:assign_fluent_state"]}
{"id": "C122", "title": "An insertion leads between its two configurations", "statement": "The insertion trajectory starts in its first and ends in its second configuration, with the object on the roadmap path. (Refuted: the approach offset is applied again, so the object moves one centimetre above the path that was checked, both ends are other configurations, and the object ends two centimetres above the pose in the bin.)", "quantifier": "all arms, grasps, roadmap answers", "why_tests_cant": "all real poses and paths", "anchors": ["exps/tamp_environment/kuka_carry/run.py:get_insert_motion_gen"]}
{"id": "C123", "title": "Executing a plan puts the objects where the planner says", "statement": "After the command of a plan has been executed every object is at the pose at which the planner has it. (Refuted: an inserted object is two centimetres higher. What holds: by at most two centimetres, straight up.)", "quantifier": "all plans, numbers of objects, worlds", "why_tests_cant": "all plan lengths", "anchors": ["exps/tamp_environment/kuka_carry/run.py:postprocess_plan", "exps/tamp_environment/kuka_carry/kuka_primitives.py:Command", "exps/tamp_environment/kuka_carry/run.py:get_insert_motion_gen"]}
{"id": "C124", "title": "Placing the objects on the stove", "statement": "When the loop of load_world ends, every object is at a drawn pose, clear of the fixed bodies and of all other objects, within reach of the robot, and nothing else has moved; it ends. (Refuted: it need not end.)", "quantifier": "all numbers of objects, draws, samples and collision tests", "why_tests_cant": "all draw sequences, infinite runs", "anchors": ["exps/tamp_environment/kuka_carry/run.py:load_world", "exps/tamp_environment/kuka_carry/kuka_primitives.py:get_stable_gen"]}
{"id": "C125", "title": "The planning problem is the task it should be", "statement": "The facts of pddlstream_from_problem give every object its own bin, poses and configurations; if the motions exist the problem has a plan of 8n+1 actions and none shorter. (Refuted without a bin for every object: the zip drops objects silently, and the problem has no plan.)", "quantifier": "all numbers of objects and bins, worlds, samples", "why_tests_cant": "all sizes", "anchors": ["exps/tamp_environment/kuka_carry/run.py:pddlstream_from_problem", "exps/tamp_environment/kuka_carry/stream.pddl"]}
{"id": "C126", "title": "The values of the facts", "statement": "Every number stands for one object; every Kin fact is certified in the world that was given; AtPose facts are the poses of that world; the pose in a bin is drawn at one of four angles, clear of the fixed bodies, the pose in front is that pose moved, and both have configurations. The construction's assertion fails only when some object has no clear pose in its bin at any of the four angles.", "quantifier": "all numbers of objects, worlds, samples and placements", "why_tests_cant": "all sizes and real poses", "anchors": ["exps/tamp_environment/kuka_carry/run.py:pddlstream_from_problem", "exps/tamp_environment/kuka_carry/kuka_primitives.py:get_fixed_stable_gen"]}
{"id": "C127", "title": "The shatter sum counts what balls pick out", "statement": "For every set system of VC dimension at most vc, the number of ways it picks from 2m points is at most compute_ss_comb_sum(m, vc) (Sauer-Shelah); closed Euclidean balls in dimension dim have VC dimension at most dim+1, the value bound.py uses, and exactly that.", "quantifier": "all set systems, point sequences, sizes, dimensions", "why_tests_cant": "all finite point sets in all dimensions", "anchors": ["nonasymptotic/bound.py:compute_ss_comb_sum", "nonasymptotic/bound.py:compute_sauer_shelah_bound_log2"]}
{"id": "C128", "title": "The sample bounds give nets with the stated probability", "statement": "For m independent draws, the probability that a ball (or set of a system of VC dimension vc) holding at least a rho share of the population is missed is at most 2^compute_sauer_shelah_bound_log2(m, rho, vc). Hence at least compute_numerical_bound samples miss a ball of the net radius with probability at most 1 - success probability, compute_blumer_bound samples with probability at most gam, and the radius of compute_net_radius_from_prob with probability at most twice the one asked.", "quantifier": "all dimensions, finite populations, sample sizes, parameters", "why_tests_cant": "a probability over all sample sequences and a property of all balls", "anchors": ["nonasymptotic/bound.py:compute_numerical_bound", "nonasymptotic/bound.py:compute_blumer_bound", "nonasymptotic/bound.py:compute_net_radius_from_prob", "nonasymptotic/bound.py:compute_sauer_shelah_bound_log2"]}
{"id": "C129", "title": "The full roadmap succeeds with the stated probability", "statement": "Grow the full-connection roadmap with at least compute_numerical_bound independent samples and the returned connection radius: with probability at least the one asked, every query whose start and goal are joined by a delta-clear path is answered by a path of length at most (1+tol) times its length plus the end terms.", "quantifier": "all dimensions, environments, finite populations, sample sizes, queries, delta-clear paths", "why_tests_cant": "probability over all sample sequences, all queries at once", "anchors": ["nonasymptotic/prm.py:SimpleFullConnRadiusPRM", "nonasymptotic/bound.py:compute_numerical_bound"]}
{"id": "C130", "title": "The Hoeffding and KL bounds on the neighbour distance hold", "statement": "The probability that some of m independent samples has at least k others within rad is at most exp of compute_tail_knn_radius_log_prob_hoeffding, and of the Chernoff-KL bound (which without union bound holds for one sample); a radius found by the halving search with either bound has at most the failure probability asked, unless it is the lower end of the search.", "quantifier": "all dimensions, finite populations, m, k, radii, volumes, search inputs", "why_tests_cant": "probability over all sample sequences", "anchors": ["nonasymptotic/bound.py:compute_tail_knn_radius_log_prob_hoeffding", "nonasymptotic/bound.py:compute_tail_knn_radius_log_prob_chernoff_kl", "nonasymptotic/bound.py:compute_numerical_bound_radius_limits"]}
{"id": "C131", "title": "The other bounds on the neighbour distance", "statement": "The generic Chernoff bound holds while k is at least the expected number of samples in the ball. (Refuted beyond that; the mean-variant Hoeffding bound is refuted: with two samples and k = 1 it claims 2 exp(-8) for an event of probability 1/2.)", "quantifier": "all dimensions, finite populations, m, k, radii, volumes", "why_tests_cant": "probability over all sample sequences", "anchors": ["nonasymptotic/bound.py:compute_tail_knn_radius_log_prob_chernoff_generic", "nonasymptotic/bound.py:compute_tail_knn_radius_log_prob_hoeffding_mean_variant"]}
{"id": "C132", "title": "The closed-form effective radius has the stated probability", "statement": "When the unit ball's volume is at most the environment's, the probability that some sample has at least k others within compute_eff_conn_rad_bound is at most the failure probability. (Refuted for smaller environments, because the share is clamped at 1 before it is turned into a radius.)", "quantifier": "all dimensions, finite populations, m, k, failure probabilities", "why_tests_cant": "probability over all sample sequences", "anchors": ["nonasymptotic/bound.py:compute_eff_conn_rad_bound"]}
{"id": "C133", "title": "The neighbour roadmap succeeds with the stated probability", "statement": "Grow the k-nearest-neighbour roadmap with at least compute_numerical_bound independent samples and 1 <= k < m: for every radius at least the connection radius, the probability that some delta-clear query is not answered within the stretch bound is at most the failure probability of the net plus exp of the Chernoff-KL bound at that radius.", "quantifier": "all dimensions, environments, finite populations, m, k, radii, queries", "why_tests_cant": "probability over all sample sequences, all queries at once", "anchors": ["nonasymptotic/prm.py:SimpleNearestNeighborRadiusPRM", "nonasymptotic/bound.py:compute_tail_knn_radius_log_prob_chernoff_kl", "nonasymptotic/bound.py:compute_numerical_bound"]}
{"id": "C134", "title": "A radius trial of the narrow passage reports the critical radius", "statement": "Run on the roadmap itself (samples, roadmap and radius carried from pass to pass), a radius trial over a schedule that does not shrink ends without an error and its frame has one row per sample count. With two or more distinct connection distances among the samples drawn so far, the row names two adjacent distances such that every distance from the second one up to the lower fails, every one from the upper up to the last but one works and so does max_connections, with the length of a shortest path there; or it says NaN and max_connections fails. One distance: queried with it. A row with more samples has a solution whenever one with fewer has (the claim of tests/test_exps.py). Refuted: that the reported upper radius itself works, that it does not grow with more samples, and that NaN means max_connections fails.", "quantifier": "all worlds, samplers, seeds, schedules, radii, query points", "why_tests_cant": "the test tries 20 seeds, two sizes and one world", "anchors": ["exps/run_narrow_passage_clearance_trial.py:narrow_passage_clearance", "tests/test_exps.py:test_increasing_samples_does_not_destroy_solution", "nonasymptotic/prm.py:SimpleFullConnRadiusPRM"]}
{"id": "C135", "title": "A neighbour trial of the narrow passage reports the critical number of neighbours", "statement": "Run on the neighbour roadmap, a trial over a growing schedule from two samples on ends without an error with one row per sample count: two adjacent powers of two such that those up to the lower fail, those from the upper on (below the last) and max_connections succeed, with the length of a shortest path there, or NaN and max_connections fails. Refuted: that more samples keep the solution (the radius in which query points are connected shrinks), and that the reported number is at most max_connections.", "quantifier": "all worlds, samplers, neighbour routines, seeds, schedules, max_connections, query points", "why_tests_cant": "all worlds and sample sequences; the repository has no test of this", "anchors": ["exps/run_narrow_passage_clearance_trial.py:narrow_passage_clearance", "nonasymptotic/prm.py:SimpleNearestNeighborRadiusPRM"]}
{"id": "C136", "title": "The turtlebot motion stream ends as specified", "statement": "For every motion checker that answers nonempty arrays row by row (its verdicts may depend on the array) and raises on empty ones, every sampler, neighbour routine and budget with at least one sample, the stream ends, and: it says start (goal) in collision exactly when the checker rejects it; it returns a path after the first roadmap that has a route, all earlier ones having none, and the path is a shortest route from a sample near the start to one near the goal through accepted neighbour motions; it returns None after all sizes in the budget had no route; it raises when no sample lies within the certified radius of the start or goal, or when the next size is not larger. If the counts grow by one or more and no array is empty it does not raise. A query leaves the roadmap as it was. Refuted: that int(num_samples * factor) grows for every factor above one.", "quantifier": "all checkers, samplers, neighbour routines, shortest path routines, budgets, factors, starts and goals", "why_tests_cant": "the stream runs inside PDDLStream on random samples; no test covers it", "anchors": ["exps/tamp_environment/turtlebot_move/streams.py:get_anytime_motion_fn", "nonasymptotic/prm.py:SimpleNearestNeighborRadiusPRM", "nonasymptotic/prm.py:query_best_solution"]}
{"id": "C137", "title": "Trajectories of the turtlebot's motion stream keep near clear configurations", "statement": "Among boxes with sides of a millimetre or more, when the stream finds a path, every waypoint is clear of all obstacles, and the trajectory exists, starts and ends at the two configurations, refines the path with steps of at most 0.025, and each of its configurations is within 0.04 per coordinate of a clear one. In a hallway world a trajectory that starts in the rooms or the hallway stays within 0.04 of clear configurations in there, and its goal is in there. With teleporting every configuration is clear. Refuted: that the trajectory's configurations are clear; in hallway_manip() it can cut the corner at the hallway's mouth.", "quantifier": "all boxes, robot extents, samples, starts and goals; all hallway worlds", "why_tests_cant": "the trajectories depend on random samples and on which motions are checked together", "anchors": ["exps/tamp_environment/turtlebot_move/streams.py:get_anytime_motion_fn", "exps/tamp_environment/turtlebot_move/streams.py:BagOfBoundingBoxes", "exps/tamp_environment/turtlebot_move/streams.py:interpolate_vectors"]}
{"id": "C138", "title": "The motion stream uses its sample budget", "statement": "Refuted: in hallway_manip(), with start and goal in the open, there are draws for which the first roadmap has no sample within the certified radius of the start; the collision check then raises on the empty array and the stream ends, although the next roadmap of the same run has a path. What holds: the stream raises only for that reason, or because a size did not grow.", "quantifier": "all draws", "why_tests_cant": "needs particular draws", "anchors": ["exps/tamp_environment/turtlebot_move/streams.py:get_anytime_motion_fn", "nonasymptotic/prm.py:_query_samples"]}
{"id": "C139", "title": "Printed lines are the lines of the log", "statement": "With stdout redirected to the logger: printing one text of one line logs that line without its trailing blanks; printing blanks logs nothing; printing several one-line texts logs each on its own line; and reading the log file returns exactly the logged lines, for every sequence of prints of arbitrary texts. Any file is read as its pieces between line breaks, each of the three kinds of break counting as one. Refuted: that one print of one-line texts logs one line; run.py's print(i, name, args, new_commands) and print('Objects:', names) logs several.", "quantifier": "all texts over the 256 character codes, all sequences of prints", "why_tests_cant": "no test redirects the streams; the texts come from the planner", "anchors": ["exps/tamp_environment/turtlebot_move/run.py:StreamToLogger.write", "exps/tamp_environment/turtlebot_move/run.py:setup_logging"]}
{"id": "C140", "title": "The time and success plot counts the runs it should", "statement": "For every directory tree with distinct log names, if the script draws then its groups are distinct, and each holds, in order, exactly the timed logs whose last Namespace line gives that (min_samples, max_samples, adaptive_n), with success from the last Solved line and time from the last Time line; the plotted rate is the fraction of solved runs among these, in [0,1]. A timed log without a Namespace line stops the script; run.py prints vars(args), a dict, so every finished run that does not itself print Namespace stops it. Refuted: that a finished run can be drawn, that the rate is over all runs (runs that raised are dropped), and that logs with the same name in different directories are all counted.", "quantifier": "all directory trees and log contents", "why_tests_cant": "unbounded log contents; the script has no tests", "anchors": ["exps/tamp_environment/turtlebot_move/time_success_plot.py", "exps/tamp_environment/turtlebot_move/run.py:main"]}
{"id": "C141", "title": "The bound plot shows the runs that found a solution", "statement": "For every directory tree with distinct log names, if the script draws then its points are exactly the pairs read from logs with both a Delta and a Found-solution line (each the number on the line after the last such line), at least one exists, and every log with a solution has a delta. Integer and decimal numerals are read as their values. Refuted for what run.py writes: it prints delta on the same line, so any log of a run makes the script raise.", "quantifier": "all directory trees and log contents", "why_tests_cant": "unbounded log contents; the script has no tests", "anchors": ["exps/tamp_environment/turtlebot_move/bound_plot.py", "exps/tamp_environment/turtlebot_move/run.py:main"]}
{"id": "C142", "title": "The saved animation shows the roadmap and the path", "statement": "For every roadmap in the plane with at least one sample, every list of edges between samples, every path and all positive batch sizes, the saved images are exactly: the samples appearing a batch at a time, then the edges a batch at a time, then the path step by step (or ten images all in red if there is none), then twenty images of the result, in which every sample and every edge is drawn exactly once and every step of the path. Whatever the batches, every sample lies strictly inside the axes.", "quantifier": "all roadmaps, paths and batch sizes", "why_tests_cant": "pictures are not compared by tests; unbounded roadmaps", "anchors": ["nonasymptotic/prm.py:animate_knn_prm", "exps/tamp_environment/turtlebot_move/streams.py:get_anytime_motion_fn"]}
{"id": "C143", "title": "The animation can be repeated and keeps the path in view", "statement": "Refuted: no artist is removed when the animation repeats, so after the r-th round every line is there r times, and after a failure the second round starts in red; and the axes are fitted to the samples only, so a start or goal away from them is cut off. Proved: the picture after any number of rounds, and that an empty roadmap, a batch size of zero and a roadmap in space with an edge raise.", "quantifier": "all roadmaps, paths, batch sizes and numbers of rounds", "why_tests_cant": "pictures are not compared by tests; unbounded roadmaps and rounds", "anchors": ["nonasymptotic/prm.py:animate_knn_prm", "exps/tamp_environment/turtlebot_move/streams.py:get_anytime_motion_fn"]}
{"id": "C144", "title": "The radius roadmap succeeds with the probability the numerical bound promises", "statement": "For every obstacle set, space of points and sampler that does not avoid the clear space: a roadmap that links samples within more than the connection radius, built from at least as many draws as the numerical bound asks for, fails to answer some query with a clear connecting curve, within the promised stretch, with probability at most 1 minus the requested one, provided the limit of neighbours is at least the number of draws; with a lower limit the Chernoff bound on a crowded sample comes on top.", "quantifier": "all spaces, obstacle sets, populations of draws, numbers of draws, radii and limits of neighbours meeting the stated inequalities", "why_tests_cant": "a statement about the probability over all sequences of draws; tests see a few seeds", "anchors": ["nonasymptotic/prm.py:SimpleRadiusPRM", "nonasymptotic/bound.py:compute_numerical_bound", "nonasymptotic/bound.py:compute_tail_knn_radius_log_prob_chernoff_kl"]}
{"id": "C145", "title": "Running a turtlebot plan delivers every target", "statement": "For every single-rover problem, every plan that reaches the goal of the planning domain with facts certified by the three streams, and every world that agrees with the initial state: the commands run without exception and every target ends exactly at its goal position with nothing attached. On the way the rover moves at most 25 mm from one state to the next (unless teleporting), a target moves only with the rover, at most one is attached and it is exactly at the rover, the others stand at their initial or last placed pose, and the rover and the carried target are within 4 cm per coordinate of a position clear of the walls (exactly clear when teleporting), provided the rover is not larger than the targets.", "quantifier": "all numbers of targets, poses, obstacle boxes, samplers, neighbour indices and plans of any length", "why_tests_cant": "no test runs the planner; the claim ranges over all plans and all trajectories the streams may return", "anchors": ["exps/tamp_environment/turtlebot_move/run.py:post_process", "exps/tamp_environment/turtlebot_move/run.py:main", "exps/tamp_environment/turtlebot_move/streams.py:get_ik", "exps/tamp_environment/turtlebot_move/streams.py:get_anytime_motion_fn", "exps/tamp_environment/turtlebot_move/domain.pddl"]}
{"id": "C146", "title": "Targets do not hit each other while a plan runs", "statement": "Refuted: the motion streams check walls only, so two targets that are apart by more than their diameter at the start and at the end of a plan that reaches the goal can be at the very same place on the way. Proved: a target that is not carried does not move, so only a carried one can hit another.", "quantifier": "all plans as in C145; a witness in the hallway world", "why_tests_cant": "needs a plan, its trajectories and the positions of all targets at every moment", "anchors": ["exps/tamp_environment/turtlebot_move/run.py:post_process", "exps/tamp_environment/turtlebot_move/run.py:main", "exps/tamp_environment/turtlebot_move/streams.py:get_ik", "exps/tamp_environment/turtlebot_move/streams.py:get_anytime_motion_fn", "exps/tamp_environment/turtlebot_move/domain.pddl"]}
{"id": "C147", "title": "The corner world is a ring that can only be crossed by going round the box", "statement": "For every scale and gap for which the box is at least a millimetre wide and inside the walls: a square body is free of walls and box exactly when the largest coordinate of its centre lies strictly between the half widths of box and walls, moved by the body's half side, or the body is outside the walls. The start and goal checks pass exactly when the body's side is below 2 r + dd and below 2 r + 0.1; then both ways round are accepted in every batch, while no batch accepts the straight motion. Accepted motions that start in the ring end in it, and every path of the motion stream stays in the ring.", "quantifier": "all scales, gaps, body sizes, batches of motions, samplers and neighbour indices", "why_tests_cant": "no test builds this world; the claim is about all configurations, motions and sample sequences", "anchors": ["exps/tamp_environment/turtlebot_move/problems.py:corner", "exps/tamp_environment/turtlebot_move/streams.py:BagOfBoundingBoxes", "exps/tamp_environment/turtlebot_move/streams.py:get_anytime_motion_fn"]}
{"id": "C148", "title": "The corner problem can be solved whenever the robot fits", "statement": "Refuted: for a gap of -0.05 and a robot of twice the scaled radius the robot fits between box and walls and can drive all the way round, but the start is in collision and the motion stream stops there for every sampler. Proved: the robot fits exactly when its side is below 2 r + 0.05 + dd / 2, so dd is not the slack of the passage either.", "quantifier": "all scales, gaps and body sizes; a witness at scale 0.2", "why_tests_cant": "no test builds this world or varies the gap", "anchors": ["exps/tamp_environment/turtlebot_move/problems.py:corner", "exps/tamp_environment/turtlebot_move/streams.py:BagOfBoundingBoxes", "exps/tamp_environment/turtlebot_move/streams.py:get_anytime_motion_fn"]}
{"id": "C149", "title": "The triangulated region is exactly the polygon that is sampled", "statement": "Refuted in both directions: a square around (-100, -100) is cut away because of the fixed hole point, and when a nested polygon touches the ring of the hole it lies in at two points, the hole gets one point although what remains of it has two parts, so a region outside every polygon is triangulated. Proved for all valid polygons and multipolygons: every computed hole point lies in a hole and in no polygon; if no polygon contains (-100, -100), every point of a polygon is triangulated; and if what remains of every hole and the outside of all exteriors hang together, nothing else is.", "quantifier": "all families of polygons with holes, nested to any depth, all representative points", "why_tests_cant": "tests sample from a handful of shapes; nestings and touching rings are not enumerable", "anchors": ["nonasymptotic/sampler.py:random_point_in_mpolygon"]}
{"id": "C150", "title": "Command line options are read as given", "statement": "For every set of long options with distinct names and every sequence of options with texts their types can read, in any order and with repetitions, parsing succeeds and every option ends with its last value or its default. A text is accepted exactly if the type of the option can read it: int options take the value of a numeral with or without a minus sign and refuse fractions, float options take the value of a decimal fraction, and str options the text. Every accepted command line of the kuka script sets all options.", "quantifier": "all option sets, all sequences of options and texts", "why_tests_cant": "no test parses a command line", "anchors": ["exps/tamp_environment/kuka_carry/run.py:main"]}
{"id": "C151", "title": "Every option of the kuka script has the effect its help text states", "statement": "Refuted: --num-targets changes nothing, --seed does not make a run repeatable (the generators are never seeded), and --factor refuses its own default 1.1. Proved: exactly --seed, --teleport, --randomize-delta and --num-targets change nothing but the printed arguments, the other nine change what is done, in adaptive mode --min-samples changes nothing either; the factor of every run is 1.1 or an integer, an integer of two or more never repeats a size, one of one or less raises in the second attempt.", "quantifier": "all command lines, all worlds, generators and planners", "why_tests_cant": "no test runs the script; the claim is about pairs of runs", "anchors": ["exps/tamp_environment/kuka_carry/run.py:main"]}
{"id": "C152", "title": "A kuka run solves one problem in a world of its own and reports it", "statement": "Refuted: a run need not end (when no world has a problem), and a run whose subplan failed never disconnects. Proved: every world is built in an empty simulator; the solved problem is that of the first world that has one, and the simulator then holds only its bodies; a run ends exactly if some world in the sequence of draws has a problem; a run that returns prints one verdict, that of the solver, and then one time, and one that raises prints neither.", "quantifier": "all command lines, worlds, generator states, planners and numbers of attempts", "why_tests_cant": "no test runs the script; retries depend on random draws", "anchors": ["exps/tamp_environment/kuka_carry/run.py:main"]}
{"id": "C153", "title": "A seed fixes the start of a turtlebot run", "statement": "For every seed from 0 to 2^32 - 1 the gap, the sample counts and the generator states with which the world is built do not depend on the generators the script found; larger seeds are refused, negative ones leave the generators alone; a randomised gap lies between 0.01 and 0.2.", "quantifier": "all arguments and generator states", "why_tests_cant": "a test fixes one seed and one state", "anchors": ["exps/tamp_environment/turtlebot_move/run.py:main"]}
{"id": "C154", "title": "A clearance that no path has is refused and not turned into a sample count", "statement": "Refuted: a negative clearance in an even dimension is answered with the count of its absolute value and a negative connection radius. Proved: a count is returned only for a positive clearance, or a negative one in an even dimension; in odd dimensions every clearance that is not positive overflows; the turtlebot's call returns a count for every clearance of absolute value 10^-6 or more; in the worlds that leave the gap of their problem unset a body of width w is planned for with the count of the clearance w - 0.05, so that wider bodies get fewer samples.", "quantifier": "all clearances, probabilities, volumes, dimensions, tolerances and body widths", "why_tests_cant": "tests use a few positive clearances", "anchors": ["nonasymptotic/bound.py:compute_numerical_bound", "exps/tamp_environment/turtlebot_move/streams.py:get_anytime_motion_fn"]}
{"id": "C155", "title": "A motion query can be set up in every world of the turtlebot", "statement": "Refuted: in the world of random obstacles every query raises ValueError, since none of its walls and boxes is an obstacle of the problem. Proved: a query whose sample counts are known is set up exactly if the problem has a wall, with the least box that holds all corners of all walls, and every draw lies in it; in hallway_manip, hallway and corner every query with given counts is set up; in hallway_manip every adaptive query is, for the rover and every target, with the count of a clearance of at least dd + 0.05.", "quantifier": "all scales, gaps, targets, placements, sample counts and held bodies", "why_tests_cant": "no test builds a world; pybullet is needed", "anchors": ["exps/tamp_environment/turtlebot_move/problems.py:random_obstacles", "exps/tamp_environment/turtlebot_move/streams.py:BagOfBoundingBoxes.extents"]}
{"id": "C156", "title": "A submitted job runs the experiment that was asked for", "statement": "Refuted: a job is submitted although its configuration file does not exist, and a name with a blank makes the job read other paths. Proved: a run without --resume submits exactly one job, or none, and one exactly if ./results exists, the directory is new and the configuration is a JSON object or missing; for a name without blanks and an existing configuration the last line of the submitted script runs the trial script of the given type on the stored configuration and directory, the stored configuration is the given one but for name and triples, and no other file changes.", "quantifier": "all names, types, triples, configurations and file systems", "why_tests_cant": "no test runs the script; it needs a cluster", "anchors": ["exps/submit_and_run_experiment_job.py:__main__"]}
{"id": "C157", "title": "Resuming restarts the job that was submitted", "statement": "Refuted: resuming an experiment that was submitted without its configuration raises. Proved: resuming changes no file and submits the script of the latest directory that begins with the name, exactly if its configuration holds three numbers as triples; if the experiment's files are unchanged and no later directory begins with its name, the job of the first submission is submitted again.", "quantifier": "all file systems, names and later changes", "why_tests_cant": "needs a crash between two runs", "anchors": ["exps/submit_and_run_experiment_job.py:__main__"]}
{"id": "C158", "title": "Tuning submits every triple that fits once, and each can be resumed", "statement": "Refuted: a value that is not positive is accepted and submitted, and after a run the first experiment cannot be resumed, because its name begins that of a later one. Proved: with a type and an existing configuration the run submits exactly the triples of one node, the given value and a tested one whose product is at most 48, each once, in a directory and with a configuration of its own, whatever the time stamps; without --type it raises TypeError unless no triple fits; the text given to LLsub determines the triple.", "quantifier": "all types, values, configurations, time stamps and file systems", "why_tests_cant": "no test runs the tuner", "anchors": ["exps/tune_experiment_triples.py:__main__"]}
{"id": "C159", "title": "A job runs each experiment of its configuration once", "statement": "Refuted: for one of the configurations in exps/config no trial is run, because it lacks a key its script reads. Proved: for each of the three trial scripts and a configuration that has the script's keys with lists of numbers as dimensions, every process finishes, the k-th trial of process r of s is experiment number r + (skipped + k) * s of the product, with the configuration's values and the process's k-th draw, and the processes together run each experiment once, also when the job went through the submission script; whatever the configuration holds, trials are called with its values only; without a key the process does not finish (and runs no trial if the product needs the key); other keys do not matter; all other configurations in exps/config have the keys. Also, for any configuration: the calls of a process are, in order and without a gap, the experiments of its slice, and the script ends at the end of the slice, at a trial that raises, or at the first experiment whose dimension is no number (TypeError) or that lacks a key (KeyError); a configuration whose values cannot be iterated or counted runs nothing and raises; a zero number of tasks or a negative task number raises ValueError, a negative number of tasks ends at once. A job that ends without an exception was given two numbers and the name of a file holding a JSON object, and without the file nothing is run and an exception is raised.", "quantifier": "all configurations, processes, numbers of processes, result files and draws; all stores and names for the submission", "why_tests_cant": "The scheduling code runs at import of the scripts under a cluster's variables; tests would need every configuration, rank and size, and missing keys show only on the process that reaches them.", "anchors": ["exps/run_knn_radius_trial.py:main", "exps/run_straight_line_optimality_trial.py:main", "exps/run_narrow_passage_clearance_trial.py:__main__", "exps/submit_and_run_experiment_job.py:__main__", "exps/config"]}
{"id": "C160", "title": "A deployed job runs the planner once, with its own arguments and directory", "statement": "Refuted: two argument sets of the kuka deployment can get the same directory, because the directory's name holds the variable n, which is never set, and every task has number 1. Proved: the line submitted for an argument set starts tasks 1..50 (turtlebot) or task 1 (kuka); each task runs the planning script once, and the script reads the task's number as the seed, the argument set's sizes or the adaptive switch (for the adaptive deployment the three numbers), the directory, and the default of every other option; any other third argument, a missing task number or one beyond 200 runs nothing; directories of tasks with different numbers or times differ; a run starts exactly if its directory has no pddl directory, creates these two only, and a second run in the same directory stops or has a directory of its own; the adaptive queue passes its assertion and holds each of the 18 sets five times. The directory of a run lies inside the directory given (joined by one slash) unless its name is absolute, and its pddl directory inside it.", "quantifier": "all argument sets, task numbers, times, values of the environment variable and existing directories; all further options of pddlstream's parser", "why_tests_cant": "The way leads through Slurm and two shells on a cluster; tests would need every task of every submission, and the collision of names shows only when two tasks start in the same second.", "anchors": ["exps/tamp_environment/deploy_experiments.sh", "exps/tamp_environment/deploy_experiments_kuka.sh", "exps/tamp_environment/deploy_experiments_kuka_adaptive.sh", "exps/tamp_environment/deploy_tamp_adaptive_kuka.py:__main__", "exps/tamp_environment/deploy_tamp_experiments.py:deploy_with_args", "exps/tamp_environment/deploy_tamp_experiments_kuka.py:deploy_with_args"]}
{"id": "C161", "title": "The aggregation script reports the times of an experiment", "statement": "Refuted: for the neighbour trial's tables the script raises (they have no check_time column), and the first run is not left out (only the first row of each file is). Proved: for the newest directory of the name the script either reports mean and standard deviation of the two time columns over all rows after the first of every result file, or there is no file, no file has the column, or a file's column holds text; tables of the other two trials with numeric times are always reported; for neighbour tables it raises after writing the aggregated table; text in a time column (C88's short records) makes it raise; the order of the files does not matter; the specification of the two statistics determines them, the mean lies between the values and the deviation is zero exactly for equal values.", "quantifier": "all directories, files, tables and values", "why_tests_cant": "Any number of files, columns, rows and texts; the failing combinations depend on the outcome of other scripts.", "anchors": ["exps/aggregate_runtimes_for_tuning.py:__main__", "exps/run_knn_radius_trial.py:main", "exps/run_narrow_passage_clearance_trial.py:narrow_passage_clearance", "exps/run_straight_line_optimality_trial.py:straight_line_trial"]}
{"id": "C162", "title": "The bodies of the kuka's world and what the planner is told of them", "statement": "Refuted in two points: the floor, a body that is neither the robot nor movable, is not among the bodies planned around (a configuration that touches only the floor is accepted by get_ik_fn), and the colour given to create_hollow is ignored. Proved: a hollow body consists in the simulator of exactly the boxes handed to the planner; the k-th object is inserted into the k-th bin and its roadmap is built around exactly the boxes of that bin; the placement link of a bin is its bottom and other bodies have none; every body but the robot has a name of its own; the bodies planned around are those of get_fixed without the floor; loading never raises; create_hollow raises exactly for unknown categories and create_link_body exactly for lists of different lengths or too few colours. For each of the six categories the body fills exactly the part of its block within the thickness of the sides that the category names.", "quantifier": "all gaps, colours, dimensions, body numbers given by the simulator, bodies already present", "why_tests_cant": "Continuum of gaps and points; body numbers are chosen by the simulator; the floor is only noticed when a solution happens to touch it.", "anchors": ["exps/tamp_environment/kuka_carry/run.py:create_link_body", "exps/tamp_environment/kuka_carry/run.py:create_hollow", "exps/tamp_environment/kuka_carry/run.py:load_world", "exps/tamp_environment/kuka_carry/run.py:get_fixed", "exps/tamp_environment/kuka_carry/run.py:pddlstream_from_problem"]}
{"id": "C163", "title": "The tables of numerical and Blumer bounds", "statement": "compare_bounds builds, for dimensions d_0..d_{m-1} and n probabilities, four columns of 2mn entries: entry 2jn+i is the least certified count for dimension d_j and probability p_i, labelled Numerical, entry (2j+1)n+i is the bound of Blumer et al. for the same pair. A numerical entry exceeds the Blumer entry of its pair by less than one wherever the ball has measure at most one, and grows as the probability falls. The table is produced whenever the Blumer bounds stay below 2^53, in particular in every call of the notebooks.", "quantifier": "all lists of dimensions, radii, lists of failure probabilities in (0, 2)", "why_tests_cant": "Continuum of radii and probabilities, lists of any length; the plots only show that the curves do not cross at the plotted points.", "anchors": ["notebooks/numerical_bound_comparisons.ipynb:compare_bounds", "notebooks/numerical_bound_comparisons.ipynb:blumer_bound", "notebooks/numerical_bound_computations.ipynb:compare_bounds"]}
{"id": "C164", "title": "The recomputation with decimals and the natural logarithm", "statement": "Refuted: blumer_bound_decimal bounds the certified count (it takes natural logarithms; with math.pi and failure probability 2^-33 it is below 131 and the count at least 136). Proved: it is Blumer's bound times ln 2; the search with decimals returns every count the float search returns; whatever it returns is the least certified count, at most 2^53; it returns for every probability from 1e-15 to 1 with a count below the base two Blumer bound plus one; its limit 10 ** 3000 is out of reach: if no power of two up to 2^1024 is accepted, OverflowError is raised, whatever function is searched.", "quantifier": "all failure probabilities, all values of pi, all searched functions (for the limit)", "why_tests_cant": "Continuum of probabilities and functions; the crossing the notebook investigates only shows for small probabilities.", "anchors": ["notebooks/numerical_bound_comparisons.ipynb:blumer_bound_decimal", "notebooks/numerical_bound_comparisons.ipynb:compute_sauer_shelah_bound_d2_ln_decimal", "notebooks/numerical_bound_comparisons.ipynb:doubling_sample_search_over_ln_prob_bound_decimal"]}
{"id": "C165", "title": "The comparison with Halton points", "statement": "The Halton curve is 5 / sqrt N at every plotted N between 6 and 1e12. The sampled curve runs evenly from dispersion 1/2 (not the diagonal of the cube, as its comment says) to the last Halton dispersion; every count on it is found, is the least one, and stays below 2e13. Below a dispersion of 1/100 sampling always needs more points than the Halton bound; at its first point, with a tenth of failure allowed, it needs at most 70 where Halton needs 100.", "quantifier": "all indices of the curves, success probabilities in [0, 0.95], dispersions in (0, 1/100], failure probabilities in (0, 2)", "why_tests_cant": "Continuum of dispersions and probabilities; the plot only shows sampled points.", "anchors": ["notebooks/numerical_bound_comparisons.ipynb:halton_dispersion", "notebooks/numerical_bound_comparisons.ipynb:blumer_n_samples"]}
{"id": "C166", "title": "The tables of required samples and the chunks they are plotted in", "statement": "_batch_net_search: in every table returned, the cell of a dimension, a success probability and a volume is the least certified count for them, and empty exactly if the volume is below the threshold or none was given; no volume at or above the threshold lies outside the columns; within a dimension a larger volume or a smaller success probability never needs more samples; for dimensions up to 20, thresholds from 1e-12 and success probabilities up to 0.99 a table is returned. _partition_curves_into_equal_chunks: the chunks put together are the curve again, there are as many as asked for, the first has n/c + n mod c points and the others n/c, and all curves are cut at the same places.", "quantifier": "all lists of dimensions, probabilities in (-1, 1) and volumes (also above one); curves of any length and type, any positive number of chunks", "why_tests_cant": "Continuum of volumes and probabilities, tables and curves of any size.", "anchors": ["notebooks/designing_tractable_experiments.ipynb:_batch_net_search", "notebooks/designing_tractable_experiments.ipynb:_partition_curves_into_equal_chunks"]}
{"id": "C167", "title": "The neighbours found by sorting every coordinate", "statement": "Refuted: brute_force_ann(data, r) lists the points in the cube of half width r around each point (the data are divided by r but searched with the coordinates and the half width that are not divided: with r = 1/10 a point can be missing from its own list, a point outside the cube is listed, and the relation is not symmetric). Proved: the list of point i has no repetition, is increasing from two coordinates on, and consists of exactly the points j with x_i - conn_rad <= x_j / r < x_i + conn_rad in every coordinate; with both radii 1 it is the half open cube and every point is in its own list.", "quantifier": "all data, numbers of coordinates, radii, all sorting orders argsort may return", "why_tests_cant": "Continuum of points, any number of points and coordinates, every way of breaking ties.", "anchors": ["notebooks/test_contrived_knn_strategy.ipynb:brute_force_ann"]}
{"id": "C168", "title": "The success rates of the narrow passage experiments", "statement": "Refuted: a trial solved with at most the largest number of neighbours tried counts as solved in the last estimate of its setting (np.arange(max_knn) ends at max_knn - 1: with every trial solved with max_knn neighbours all estimates are zero). Proved: the ith estimate of a setting is the share of its trials whose upper bound is at most i neighbours, or twice the ith clearance; nan bounds count as unsolved; there are no estimates exactly when the setting was not run; the estimates lie in [0, 1] and do not fall as the radius or the number of neighbours grows.", "quantifier": "all configurations and all result rows, any number of them in any order", "why_tests_cant": "Results files of any length with any real bounds and clearances.", "anchors": ["notebooks/narrow_clearance_exps_results.ipynb:cell 4", "notebooks/narrow_clearance_exps_results.ipynb:cell 7"]}
{"id": "C169", "title": "The predicted sample counts beside the success rates", "statement": "Refuted: the prediction for a radius and clearance is the least count at which the bound for that radius and clearance reaches the estimated success rate (the lambdas all read the last rho: with the clearances of narrow_full_run.json, dimension two and every trial solved the table shows more than seventy times that count); refuted: the theoretical entries of the column p are probabilities. Proved: every prediction for a radius is the least count for the ball of radius min(last clearance, clearance)/2, and the least count for the right ball if no clearance exceeds the last, never less than it otherwise; for nearest neighbours it is the least count for half the clearance at 0.99; the theoretical p is the failure bound for the ball min(r/4, clearance/2); the estimated entries are the rates.", "quantifier": "all configurations, results, fuels; dimensions of at least one, clearances not negative", "why_tests_cant": "Continuum of clearances and rates; the counts reach many digits.", "anchors": ["notebooks/narrow_clearance_exps_results.ipynb:cell 10"]}
{"id": "C170", "title": "The tables of the narrow passage results", "statement": "Refuted: cell 15 makes the tables of the configuration narrow_full_run.json (none of its tables of nearest neighbours is ever made, for they look for 100 samples); refuted: every table is headed by the numbers of samples of its columns. Proved: in every table made there is one row for each clearance and one cell for each number of samples; the cell shows the share of trials solved with radius twice the clearance, or with 32 neighbours, and the prediction for it, until an earlier cell of the row had a share close to one, and dashes from there on; exactly when the tables of nearest neighbours are made; when the radius tables are; which headers each table gets.", "quantifier": "all configurations with clearances that are not nearly equal, all results, all dimensions of at least one", "why_tests_cant": "Tables of any size from results of any length; equality of floats up to a tolerance.", "anchors": ["notebooks/narrow_clearance_exps_results.ipynb:cell 15"]}
{"id": "C171", "title": "The radii listed beside the nearest neighbour experiments are the largest the bound certifies", "statement": "Refuted: the table of effective radii is made whenever there are fewer neighbours than samples (with success probability 0.99, as the notebook has it, a hundred samples and ten neighbours it ends in a ValueError); refuted: each radius is computed with the volume of its own dimension. Proved: the halving search with the Kullback-Leibler bound returns the lower end or a certified radius, and no radius of its interval longer by the tolerance is certified; the rows are the triples with at most as many neighbours as samples, in the order of the product, each with that radius up to a millionth and the radius of Corollary 1; exactly when the table is made; which volume is used.", "quantifier": "all schedules, volumes, probabilities strictly between 0 and 1, tolerances, interval ends, enough fuel", "why_tests_cant": "Optimality over a continuum of radii for every count, dimension and volume.", "anchors": ["nonasymptotic/bound.py:236-299", "notebooks/designing_tractable_experiments.ipynb:cell 23", "notebooks/designing_tractable_experiments.ipynb:cell 24"]}
{"id": "C172", "title": "The ratio of connection radius to net radius never reaches the threshold of the figure", "statement": "In none of the figure's five dimensions and thousand counts does the ratio reach the threshold 4 that the figure draws. Each line of the table carries the quotient of its own count and dimension; the quotient of a certified radius by the net radius to the power of the dimension stays below 128 over the bits of the Sauer-Shelah count plus log2 10, hence below 4 in two or more dimensions from 256 to 10^20 samples, and falls below every positive number as the count grows; the net radius used has failure bound 0.2, so every radius with failure bound at most 0.1 is longer and its ratio smaller.", "quantifier": "all lists of counts from 256 on and of dimensions, all interval ends, enough fuel", "why_tests_cant": "All counts and dimensions; the figure itself only samples a thousand counts of five dimensions.", "anchors": ["notebooks/designing_tractable_experiments.ipynb:cell 26", "notebooks/designing_tractable_experiments.ipynb:cell 27", "nonasymptotic/bound.py:63-76"]}
{"id": "C173", "title": "The theoretical probabilities drawn beside the success rates", "statement": "Refuted: the measure used is that of the ball of the (delta, epsilon) theorem; refuted: the number shown is at most the probability the theorem guarantees. Proved: the measure used is that of the ball times a power of sqrt(1 + epsilon^2)/sqrt(1 + delta^2), too large exactly when the tolerance exceeds the clearance; a number is shown exactly from 8 (d+1)/rho ln(13/rho) samples on, lies between 1 - 2 (rho/13)^(2(d+1)) and 1 and grows with the count; with logarithms to base 2 condition and number would be guaranteed; for all counts large enough the number shown is.", "quantifier": "all clearances, tolerances, dimensions, counts", "why_tests_cant": "Continuum of clearances and tolerances.", "anchors": ["notebooks/plot_results.ipynb:cell 4"]}
{"id": "C174", "title": "The notebooks of success rates over times read every log and group exactly the timed ones", "statement": "If the logs have different names and the notebook gets to its figure, then every log has a second line that is read as its arguments, a directory whose name gives a date and times that are numbers, and every triple of minimal count, maximal count and adaptive flag has exactly the outcomes and times of the timed logs with that triple, in order; it gets there whenever the logs can be read; it stops if one log has fewer than two lines, a path without two dashes in a row, or a time but no word about success. The arguments that vars(args) prints are read back as they were. The path of a deployed job gives its date exactly because the variable n is unset.", "quantifier": "all directory trees and contents of logs, all argument dictionaries of integers, floats, booleans and texts without quotes, all seeds and dates", "why_tests_cant": "All contents of all trees of files.", "anchors": ["exps/tamp_environment/kuka_carry/time_success_scatter.ipynb:cell 1", "exps/tamp_environment/kuka_carry/time_success_scatter.ipynb:cell 2", "exps/tamp_environment/kuka_carry/time_success_scatter_adaptive.ipynb:cell 1", "exps/tamp_environment/kuka_carry/time_success_scatter_adaptive.ipynb:cell 2", "exps/tamp_environment/turtlebot_move/time_success_scatter.ipynb:cell 1", "exps/tamp_environment/turtlebot_move/time_success_scatter.ipynb:cell 2"]}
{"id": "C175", "title": "Every setting is drawn once, under the name that its deployment meant, with its rate and standard error", "statement": "Every setting falls under exactly one of sPRM, iPRM and aPRM, and the figure has one point per setting; a job deployed as (0, 0, 1), (min_min - 1, n, 0) or (n - 1, n, 0) with n at least min_min + 1 writes down arguments that are drawn as aPRM, iPRM and sPRM; the abscissa of a point is the mean of the times of its runs, and no number exactly if one of them is infinite or nan; the height of a point is the fraction of solved runs p, its bar sqrt(p (1 - p) / n), which never leaves [0, 1] and is at most 1 / (2 sqrt n); a bar vanishes exactly if all values agree.", "quantifier": "all groups of runs, all drawn counts, all lists of values", "why_tests_cant": "All lists of outcomes and all deployments.", "anchors": ["exps/tamp_environment/kuka_carry/time_success_scatter.ipynb:cell 3", "exps/tamp_environment/kuka_carry/time_success_scatter_adaptive.ipynb:cell 3", "exps/tamp_environment/turtlebot_move/time_success_scatter.ipynb:cell 3", "exps/tamp_environment/deploy_tamp_experiments.py:46-51", "exps/tamp_environment/deploy_tamp_experiments_kuka.py:46-51"]}
{"id": "C176", "title": "A point of the scatter plot stands for the runs of one setting", "statement": "Refuted: every point stands for runs that had its setting (of two logs with the same name in different directories, one gives the setting and the other the time); refuted: the success rate is over all runs of a setting (those that did not end are left out); refuted: a point is one setting (adaptive runs with different gaps are averaged). Proved: the jobs of deploy_tamp_adaptive_kuka.py, which vary gap, collision buffer and angle, all have the triple (500, 30000, True), so the figure of their logs has at most one point.", "quantifier": "all trees of logs of that deployment", "why_tests_cant": "All logs of all jobs.", "anchors": ["exps/tamp_environment/kuka_carry/time_success_scatter.ipynb:cell 1", "exps/tamp_environment/kuka_carry/time_success_scatter.ipynb:cell 2", "exps/tamp_environment/kuka_carry/time_success_scatter_adaptive.ipynb:cell 2", "exps/tamp_environment/deploy_tamp_adaptive_kuka.py:47-58"]}
{"id": "C177", "title": "The entry and exit pairs of a roadmap can be queried with their distances", "statement": "Refuted: query_all_graph_connections answers on a roadmap that answers query_best_solution. Through the calls that they offer, the nearest neighbour and the radius roadmap never answer: once they have samples they raise NotImplementedError, because no constructor turns in_mp_exp_mode on; the full roadmap answers with exactly the pairs of entries and exits, each once, and with the exception object in place of the distances. Had the switch been on: after every growth or change of radius or neighbours that returns, and any number of queries, the rows are exactly the pairs of entries and exits, each once, with the length of a shortest roadmap path or infinity, and the distance of query_best_solution is the least sum of entry, row and exit. Refuted even then: choosing fewer neighbours returns (it raises TypeError after the edges are gone), and the table fits the roadmap after a growth that was refused (IndexError). Switched on after the calls it raises, for want of a table; switched off during a change and on again it answers from the table before the change.", "quantifier": "all metrics, motion checks, sample streams, exact neighbour searches, shortest path routines and histories of calls; reference paths no farther from a sample than start and goal are", "why_tests_cant": "All histories and all graphs; no test calls it.", "anchors": ["nonasymptotic/prm.py:94-115", "nonasymptotic/prm.py:180-194", "nonasymptotic/prm.py:310-311", "nonasymptotic/prm.py:412-416", "nonasymptotic/prm.py:444-449", "nonasymptotic/prm.py:468-473", "nonasymptotic/prm.py:503-510", "nonasymptotic/prm.py:612-620", "notebooks/vis_straight_line_env.ipynb:cell 2"]}
{"id": "C178", "title": "A saved roadmap is the roadmap", "statement": "Saving writes the graph as path.nkb and the samples as path.npy and touches no other file; without a roadmap it raises and touches none. In every history of the three classes there are samples to save exactly when there is a graph, and every edge of the saved graph joins two saved samples, weighs their distance, and was admitted by the motion check.", "quantifier": "all paths, disks, metrics, motion checks, sample streams and histories of the three classes", "why_tests_cant": "All histories, including those in which a call raised.", "anchors": ["nonasymptotic/prm.py:168-178"]}
{"id": "C179", "title": "The roadmap does not depend on the neighbour library that is installed", "statement": "Refuted: the same calls with the same number of neighbours give the same answers with and without kgraph; without it get_ann falls back to pynndescent, which counts each sample as its own first neighbour. Proved: over every history of growths to at least k + 2 samples, changes of the number of neighbours, queries and resets, pynndescent asked for k + 1 neighbours gives the same samples, the same certified radius, the same links between different samples and the same distance for every query as kgraph asked for k, and besides a loop at exactly the samples whose own motion is valid; with any number of neighbours the certified radius is honest with pynndescent too: closer pairs with a valid motion are linked, whatever radii and queries follow; asked for one neighbour, it certifies the radius 0 and answers a query only if start and goal lie on one sample; kgraph serves exactly the roadmaps that ask for it where it is installed.", "quantifier": "all metrics, motion checks, sample streams, exact neighbour searches, shortest path routines and histories of calls of the nearest neighbour roadmap", "why_tests_cant": "The tests run with whichever library is installed; all histories and sizes.", "anchors": ["nonasymptotic/ann.py:95-119", "nonasymptotic/ann.py:122-138", "nonasymptotic/prm.py:389-407", "nonasymptotic/prm.py:427-449"]}
{"id": "C180", "title": "The figures of roadmaps show the roadmap and a shortest path on it", "statement": "Cell 5 of the narrow passage pictures, whatever its sizes and radii: it returns iff the second size is not smaller; each figure draws once every pair of its samples within the new radius with a valid motion one way or the other, and in blue a shortest solution over drawn segments, or nothing when there is none; the printed numbers are those of the samples and segments; the second figure contains the first and its path is not longer. Where motions from a state to itself are valid, the printed number of edges is the number of samples plus that of connected pairs of different samples (refuted: it counts connections of different samples). Cell 6: the first figure draws the roadmap of k0 neighbours without the pairs one of which lists the other at position k1 or later, the second, over more samples, the roadmap of k1 neighbours; it raises if the second size is not larger. The straight line pictures: the second figure is the first without the pairs listed at position k1 or later (refuted: every sample is joined to its k1 nearest), and the cell drawing a path raises IndexError iff there is no solution, else adds a shortest path with the legs to both ends.", "quantifier": "all metrics, motion checks, sample streams, neighbour searches of the right shape, shortest path routines, sizes, radii, numbers of neighbours, starts and goals", "why_tests_cant": "The notebooks are run by hand with one seed and the figures are looked at.", "anchors": ["notebooks/vis_narrow_passages.ipynb:232-281", "notebooks/vis_narrow_passages.ipynb:347-394", "notebooks/vis_straight_line_env.ipynb:131-161", "notebooks/vis_straight_line_env.ipynb:207-226", "nonasymptotic/prm.py:162-166", "nonasymptotic/prm.py:213-289"]}
{"id": "C181", "title": "Configurations, poses and fluents of the turtlebot's motion test can be assigned", "statement": "Refuted: a configuration made without values does not hold the present joint positions and raises when assigned; the ObjectPose of the turtlebot's problems in a fluent makes the motion test raise after the rover was moved; when teleporting nothing is checked. Proved: a configuration with a value per joint moves exactly its joints, base positions are read back as they were set; for fluents with known predicates, grasps with a value and one assignable pose per body, the planner starts with the rover at the start, the posed bodies at their poses and all else unchanged, with the fixed and the posed bodies as obstacles (none without collisions) and the held bodies attached in order, and its path is answered; the order of the fluents does not matter; for all other fluents the test raises.", "quantifier": "all worlds, configurations, lists of fluents, fixed bodies and planners", "why_tests_cant": "There is no test of these functions; all worlds and fluents.", "anchors": ["exps/tamp_environment/turtlebot_move/problems.py:19-46", "exps/tamp_environment/turtlebot_move/problems.py:103-113", "exps/tamp_environment/turtlebot_move/streams.py:232-272"]}
{"id": "C182", "title": "The existence of a path needs fewer samples than any stretch tolerance", "statement": "Refuted: with clearance 1/2 in the plane, volume 1 and success probability 9/10, the setting of the test suite, the tolerance 1000 needs the same 57 samples as existence (tol=None). Proved: in that setting the suite's tolerance 10 needs 58, as test_existence_requires_fewer_samples asserts, with the connection radii 1 and 11/sqrt(101); in every setting existence needs fewer samples exactly when its count does not meet the failure probability with the tolerance's net radius; and in every setting whose count for existence does not meet the failure probability with equality, all tolerances from some value on need just that count.", "quantifier": "all clearances, probabilities, volumes, dimensions and tolerances", "why_tests_cant": "The test compares one pair of counts; the claim is about all tolerances and settings.", "anchors": ["nonasymptotic/bound.py:136-162", "tests/test_utils.py:108-116"]}
{"id": "C183", "title": "The design tables are computed for the boxes and nets that the notebook describes", "statement": "Refuted: the text has boxes of volume 2, the environments have volume 3 (in every dimension); the text has nets of a quarter of the clearance, the narrow passage table uses balls of the clearance, of 4^d times the measure. Proved: connection radius, net radius and ball measure fall strictly along falling tolerances in (0, 1]; the ball measures of narrow passages rise strictly with the clearance; both tables of required samples are made for dimensions up to 20, probabilities up to 0.99 and thresholds from 10^-12 on, each number is the least count for the ball measure of its own column and dimension, nan stands exactly below the threshold; counts do not rise with the tolerance or the clearance and do not fall with the probability.", "quantifier": "all lists of dimensions, probabilities, tolerances and clearances in the stated ranges", "why_tests_cant": "The notebook has no test; the claims are about all tables of this form.", "anchors": ["notebooks/designing_tractable_experiments.ipynb:cells 3-21", "nonasymptotic/bound.py:13-33", "nonasymptotic/bound.py:165-171", "nonasymptotic/envs.py:359-362", "nonasymptotic/envs.py:390-395"]}
