{
 "claims": [
  {
   "property": "C01",
   "status": "proved",
   "theorems": [
    "numerical_bound_error_iff",
    "numerical_bound_least",
    "numerical_bound_outcomes",
    "numerical_bound_diverges",
    "certified_count_exists",
    "zero_clearance_overflows"
   ],
   "note": "Real arithmetic; float midpoint of the search exact."
  },
  {
   "property": "C02",
   "status": "proved",
   "theorems": [
    "numerical_bound_permanent"
   ],
   "note": ""
  },
  {
   "property": "C03",
   "status": "proved",
   "theorems": [
    "numerical_bound_monotone"
   ],
   "note": ""
  },
  {
   "property": "C04",
   "status": "proved",
   "theorems": [
    "doubling_search_certified",
    "doubling_search_certified_nan_refuted"
   ],
   "note": ""
  },
  {
   "property": "C05",
   "status": "partial",
   "theorems": [
    "doubling_search_terminates_partial",
    "doubling_search_overflow_iff",
    "doubling_search_diverges_beyond_2_53",
    "doubling_search_terminates_refuted",
    "doubling_search_no_internal_error"
   ],
   "note": "Full termination is false: beyond 2^53 the float midpoint stops progress. Proved: terminates when a power of two up to 2^53 passes; overflow iff; divergence beyond."
  },
  {
   "property": "C06",
   "status": "proved",
   "theorems": [
    "connection_radius_formulas_agree",
    "connection_radius_without_tolerance",
    "connection_radius_range",
    "net_radius_at_most_clearance"
   ],
   "note": ""
  },
  {
   "property": "C07",
   "status": "partial",
   "theorems": [
    "net_radius_from_prob_gives_twice",
    "net_radius_from_prob_sound_refuted"
   ],
   "note": "The claim as stated is false of the code (missing +1 of the log2 bound): the exact value, twice the requested probability, is proved."
  },
  {
   "property": "C08",
   "status": "proved",
   "theorems": [
    "halving_search_certified",
    "halving_search_near_optimal",
    "halving_search_terminates",
    "halving_search_outcomes"
   ],
   "note": "Radii exact rationals."
  },
  {
   "property": "C09",
   "status": "proved",
   "theorems": [
    "hoeffding_tail_monotone",
    "hoeffding_mean_tail_monotone",
    "chernoff_kl_tail_monotone",
    "chernoff_generic_tail_monotone",
    "chernoff_generic_tail_monotone_refuted"
   ],
   "note": ""
  },
  {
   "property": "C10",
   "status": "partial",
   "theorems": [
    "eff_conn_rad_certified_partial",
    "eff_conn_rad_certified_refuted"
   ],
   "note": "Proved when the unit ball volume is at most the environment volume; refuted otherwise (clamp at 1)."
  },
  {
   "property": "C11",
   "status": "partial",
   "theorems": [
    "linear_search_decided_by_first_test_partial",
    "linear_search_terminates_refuted"
   ],
   "note": "Claim false of the code: the radius is never advanced."
  },
  {
   "property": "C12",
   "status": "proved",
   "theorems": [
    "full_conn_roadmap_exact"
   ],
   "note": "Any history of grow/set radius/query/reset, pointwise motion check."
  },
  {
   "property": "C13",
   "status": "proved",
   "theorems": [
    "full_conn_grow_samples",
    "nn_grow_samples",
    "radius_grow_always_finishes"
   ],
   "note": "All three roadmap classes; shrinking requests end in ArithmeticError (ValueError from np.zeros for the radius roadmap, modelled as an error)."
  },
  {
   "property": "C14",
   "status": "partial",
   "theorems": [
    "full_conn_rejected_grow_no_effect",
    "nn_rejected_grow_no_effect_refuted"
   ],
   "note": "Proved for the full-connection roadmap; refuted for the nearest-neighbour roadmap by a concrete history."
  },
  {
   "property": "C15",
   "status": "proved",
   "theorems": [
    "full_conn_monotone"
   ],
   "note": ""
  },
  {
   "property": "C16",
   "status": "proved",
   "theorems": [
    "full_conn_query_preserves",
    "full_conn_queries_repeatable",
    "nn_query_preserves",
    "radius_query_preserves"
   ],
   "note": "Adjacency, liveness and weights preserved; the id counter grows by 2 (see C31)."
  },
  {
   "property": "C17",
   "status": "proved",
   "theorems": [
    "full_conn_query_optimal",
    "nn_query_optimal",
    "radius_query_optimal"
   ],
   "note": "Relative to a shortest-path routine meeting sp_correct; an instance is proved to meet it."
  },
  {
   "property": "C18",
   "status": "proved",
   "theorems": [
    "full_conn_query_empty_iff_infinite",
    "nn_query_optimal",
    "radius_query_optimal"
   ],
   "note": ""
  },
  {
   "property": "C19",
   "status": "proved",
   "theorems": [
    "query_all_enumerates"
   ],
   "note": ""
  },
  {
   "property": "C20",
   "status": "proved",
   "theorems": [
    "lookup_table_faithful"
   ],
   "note": ""
  },
  {
   "property": "C21",
   "status": "proved",
   "theorems": [
    "nn_graph_exact"
   ],
   "note": "Any neighbour array with one row per sample."
  },
  {
   "property": "C22",
   "status": "proved",
   "theorems": [
    "nn_certified_radius_honest"
   ],
   "note": "Exact neighbour lists (ann_exact), any radius/query history after any successful grow."
  },
  {
   "property": "C23",
   "status": "partial",
   "theorems": [
    "nn_set_radius_keeps_short",
    "nn_set_radius_removes_long_refuted",
    "snapshot_prune_exact"
   ],
   "note": "Keeping the short edges is proved; removing the long ones is refuted for the live iteration and proved for a snapshot."
  },
  {
   "property": "C24",
   "status": "proved",
   "theorems": [
    "nn_short_edges_survive",
    "nn_short_edges_after_rejected_grow_refuted"
   ],
   "note": "Proved for radius changes and queries after a successful grow; refuted once a rejected grow intervenes."
  },
  {
   "property": "C25",
   "status": "proved",
   "theorems": [
    "nn_set_k_exact"
   ],
   "note": ""
  },
  {
   "property": "C26",
   "status": "partial",
   "theorems": [
    "nn_reduce_k_is_rebuild_refuted",
    "nn_reduce_k_subgraph_of_rebuild"
   ],
   "note": "Equality refuted; subgraph proved."
  },
  {
   "property": "C27",
   "status": "proved",
   "theorems": [
    "nn_roadmap_always_valid"
   ],
   "note": ""
  },
  {
   "property": "C28",
   "status": "partial",
   "theorems": [
    "nn_settings_order_independent_refuted"
   ],
   "note": "The full statement is refuted by a concrete history."
  },
  {
   "property": "C29",
   "status": "proved",
   "theorems": [
    "radius_grow_always_finishes",
    "radius_first_build_complete"
   ],
   "note": ""
  },
  {
   "property": "C30",
   "status": "partial",
   "theorems": [
    "radius_edges_within_radius_refuted",
    "radius_growth_edges_within_radius"
   ],
   "note": "Refuted for the first build; proved for the rebuild branch and preserved by growth."
  },
  {
   "property": "C31",
   "status": "partial",
   "theorems": [
    "radius_growth_ids_after_query_refuted",
    "radius_growth_ids_without_queries"
   ],
   "note": ""
  },
  {
   "property": "C32",
   "status": "proved",
   "theorems": [
    "full_conn_reset_fresh",
    "nn_reset_fresh"
   ],
   "note": ""
  },
  {
   "property": "C33",
   "status": "proved",
   "theorems": [
    "parse_line_aligned",
    "padding_width",
    "padding_keeps_distances",
    "neighbour_file_read",
    "ragged_file_rejected",
    "updates_equal_rebuild",
    "update_before_build_rejected"
   ],
   "note": "kgraph and float32 rounding are arbitrary functions (rounding idempotent, keeps 0); the rounding of the returned distances is idealised."
  },
  {
   "property": "C34",
   "status": "proved",
   "theorems": [
    "segment_test_never_misses"
   ],
   "note": "Real arithmetic."
  },
  {
   "property": "C35",
   "status": "partial",
   "theorems": [
    "segment_test_exact",
    "segment_test_exact_refuted"
   ],
   "note": "Proved exact unless the lines coincide (or a segment is a point); the full statement is refuted there."
  },
  {
   "property": "C36",
   "status": "proved",
   "theorems": [
    "narrow_accepted_motion_free",
    "narrow_accepted_inside_obstacle_refuted"
   ],
   "note": "The goal need only lie in the bounding box; a free start is needed (second theorem)."
  },
  {
   "property": "C37",
   "status": "partial",
   "theorems": [
    "narrow_accepts_iff",
    "narrow_clear_motions_accepted_refuted"
   ],
   "note": "The accepted motions are characterised exactly; the full statement is refuted for motions with a degenerate or collinear projection."
  },
  {
   "property": "C38",
   "status": "proved",
   "theorems": [
    "narrow_samples_free",
    "narrow_probabilities"
   ],
   "note": ""
  },
  {
   "property": "C39",
   "status": "proved",
   "theorems": [
    "narrow_motion_symmetric",
    "line_motion_symmetric",
    "segment_test_direction_free"
   ],
   "note": ""
  },
  {
   "property": "C40",
   "status": "proved",
   "theorems": [
    "line_motion_exact",
    "line_samples_connect"
   ],
   "note": ""
  },
  {
   "property": "C41",
   "status": "proved",
   "theorems": [
    "line_distance_exact",
    "line_clearance",
    "line_curve_covers",
    "line_volume_exact"
   ],
   "note": ""
  },
  {
   "property": "C42",
   "status": "partial",
   "theorems": [
    "line_curve_covers",
    "line_distance_exact",
    "narrow_curve_dimension_refuted",
    "narrow_curve_extra_coordinate",
    "narrow_distance_of_curve_refuted",
    "narrow_distance_misses_curve"
   ],
   "note": "Holds for StraightLine; refuted for NarrowPassage in every dimension."
  },
  {
   "property": "C43",
   "status": "proved",
   "theorems": [
    "gray_corridor"
   ],
   "note": ""
  },
  {
   "property": "C44",
   "status": "proved",
   "theorems": [
    "gray_samples",
    "gray_probabilities"
   ],
   "note": "The random draws are inputs of the model; the probability vectors passed to the generator are shown to be the region volumes over the total free volume."
  },
  {
   "property": "C45",
   "status": "partial",
   "theorems": [
    "gray_curve",
    "gray_curve_refuted"
   ],
   "note": "True for dim >= 3 or even length. For dim = 2 and odd length the last half unit of the curve is computed in the wrong direction (gray_curve_refuted)."
  },
  {
   "property": "C46",
   "status": "partial",
   "theorems": [
    "gray_motion_same_cube",
    "gray_motion_up",
    "gray_motion_down_partial",
    "gray_motion_sound_refuted",
    "gray_motion_several_cubes_refuted"
   ],
   "note": "Holds within one cube and into a neighbouring cube in a positive axis direction. Refuted in a negative direction and for motions over several cubes."
  },
  {
   "property": "C47",
   "status": "proved",
   "theorems": [
    "rings_become_cycles",
    "interior_rings_complete",
    "mpoly_rings_complete"
   ],
   "note": "Rings with at least two points (shapely's have at least four)."
  },
  {
   "property": "C48",
   "status": "proved",
   "theorems": [
    "triangle_sample_inside",
    "triangle_sample_uniform",
    "triangle_weights"
   ],
   "note": "The triangulation itself is external; the triangles are inputs of the model."
  },
  {
   "property": "C49",
   "status": "proved",
   "theorems": [
    "separating_axis_never_misses",
    "vec_separating_axis_never_misses"
   ],
   "note": "Hull membership by explicit convex weights."
  },
  {
   "property": "C50",
   "status": "proved",
   "theorems": [
    "separating_axis_exact",
    "vec_separating_axis_batch",
    "vec_separating_axis_exact"
   ],
   "note": "Via Helly's theorem in the plane (Plane.v) and a fan triangulation."
  },
  {
   "property": "C51",
   "status": "proved",
   "theorems": [
    "box_test_exact",
    "box_test_never_misses"
   ],
   "note": "Via Helly's theorem in space (Space.v) on the six slabs; the test never misses also without orthonormality."
  },
  {
   "property": "C52",
   "status": "proved",
   "theorems": [
    "motion_checked_exactly",
    "accepted_motion"
   ],
   "note": "Uses the exactness of the planar test (C50)."
  },
  {
   "property": "C53",
   "status": "partial",
   "theorems": [
    "motion_check_batch_refuted",
    "motion_check_empty_refuted",
    "motion_checked_exactly"
   ],
   "note": "False: two refutations. What holds: the verdict depends on the batch only through the number of steps."
  },
  {
   "property": "C54",
   "status": "proved",
   "theorems": [
    "interpolation_refines",
    "interpolation_keeps_vertices"
   ],
   "note": "Threshold > 0; all points of equal dimension."
  },
  {
   "property": "C55",
   "status": "proved",
   "theorems": [
    "anytime_terminates",
    "anytime_result",
    "anytime_growth",
    "anytime_uses_budget_refuted",
    "anytime_no_error_refuted",
    "anytime_path_bound_refuted"
   ],
   "note": "Planner abstract. The refuted theorems show the limits stated in the property: the default 10/100/1.5 never tries more than 75 samples; factor 1.5 from size 1 raises; a first size above the budget leaves path unbound."
  },
  {
   "property": "C56",
   "status": "partial",
   "theorems": [
    "adaptive_single_attempt",
    "adaptive_reaches_bound_refuted"
   ],
   "note": "The headline is false: for bounds of five or more samples and factor at least 1.5 the only attempt uses one sample less than the bound, whatever the planner answers."
  },
  {
   "property": "C57",
   "status": "proved",
   "theorems": [
    "domain_consistent",
    "init_consistent",
    "domain_is_machine"
   ],
   "note": "Any facts, any number of rovers and targets, plans of any length. domain_is_machine characterises exactly which plans are executable and their final state."
  },
  {
   "property": "C58",
   "status": "proved",
   "theorems": [
    "kuka_consistent",
    "kuka_is_machine",
    "moves_separated",
    "carried_object_put_down"
   ],
   "note": "Motion facts are a state-independent superset of what the fluent streams certify, so the statements hold for the plans of the state-dependent streams too."
  },
  {
   "property": "C59",
   "status": "proved",
   "theorems": [
    "post_process_correct",
    "two_rovers_key_error_refuted",
    "two_rovers_wrong_object_refuted"
   ],
   "note": "Single rover, as the problem builds; the two-rover statements are refuted as the property says."
  },
  {
   "property": "C60",
   "status": "proved",
   "theorems": [
    "reverse_command",
    "command_bodies_exact"
   ],
   "note": ""
  },
  {
   "property": "C61",
   "status": "proved",
   "theorems": [
    "slice_entries",
    "slices_partition",
    "line_combos_exact",
    "narrow_combos_exact"
   ],
   "note": "lists of any length and content, num_tasks >= 1"
  },
  {
   "property": "C62",
   "status": "partial",
   "theorems": [
    "row_resume_exact",
    "row_resume_no_repeat",
    "row_resume_gap",
    "row_resume_loses",
    "row_resume_refuted"
   ],
   "note": "false as stated for r >= 2 rows per experiment; row_resume_gap gives exactly what runs after one crash; any number of crashes for row_resume_exact and row_resume_no_repeat"
  },
  {
   "property": "C63",
   "status": "partial",
   "theorems": [
    "seed_resume_once",
    "seed_resume_complete",
    "seed_restarts",
    "seed_resume_stalls",
    "seed_fresh_refuted",
    "seed_repeat_refuted",
    "seed_missing_refuted"
   ],
   "note": "false as stated; the proved parts assume distinct draws and rows that carry the seed (narrow_trial_marks_seed)"
  },
  {
   "property": "C64",
   "status": "proved",
   "theorems": [
    "narrow_search_sound",
    "narrow_search_one",
    "narrow_search_critical",
    "first_entry_fails_refuted"
   ],
   "note": "all sizes and outcome patterns; the refuted theorem shows why the first index is excepted"
  },
  {
   "property": "C65",
   "status": "proved",
   "theorems": [
    "tolerance_recovered",
    "radius_recovered",
    "tolerance_outside",
    "large_tolerance_refuted"
   ],
   "note": "over the reals"
  },
  {
   "property": "C66",
   "status": "proved",
   "theorems": [
    "unit_ball_volume_correct"
   ],
   "note": ""
  },
  {
   "property": "C67",
   "status": "proved",
   "theorems": [
    "blumer_bound_sufficient",
    "numerical_bound_le_blumer"
   ],
   "note": ""
  },
  {
   "property": "C68",
   "status": "proved",
   "theorems": [
    "full_conn_query_symmetric"
   ],
   "note": ""
  },
  {
   "property": "C69",
   "status": "partial",
   "theorems": [
    "radius_growth_complete_refuted",
    "radius_growth_keeps_complete"
   ],
   "note": ""
  },
  {
   "property": "C70",
   "status": "partial",
   "theorems": [
    "radius_reset_fresh_refuted"
   ],
   "note": "The full statement is refuted by a concrete history."
  },
  {
   "property": "C71",
   "status": "proved",
   "theorems": [
    "gray_wall_distance_exact"
   ],
   "note": ""
  },
  {
   "property": "C72",
   "status": "proved",
   "theorems": [
    "gray_motion_same_cube",
    "gray_motion_up"
   ],
   "note": ""
  },
  {
   "property": "C73",
   "status": "proved",
   "theorems": [
    "gray_motion_finishes",
    "gray_motion_answers_refuted",
    "gray_motion_ends_free"
   ],
   "note": "gray_motion_answers_refuted shows that the lookup failure occurs for a goal in a grid cube."
  },
  {
   "property": "C74",
   "status": "partial",
   "theorems": [
    "gray_motion_symmetric_refuted",
    "gray_motion_complete_refuted"
   ],
   "note": "Both statements are false of the code; the witnesses are a motion crossing a face downwards and a motion starting on a shared face."
  },
  {
   "property": "C75",
   "status": "partial",
   "theorems": [
    "repeated_vertex_refuted",
    "unequal_vertices_refuted"
   ],
   "note": "The general statement is false; the part that holds is C49 and C50."
  },
  {
   "property": "C76",
   "status": "partial",
   "theorems": [
    "box_test_misses_refuted",
    "box_test_false_alarm_refuted"
   ],
   "note": "False in general; what holds is C51."
  },
  {
   "property": "C77",
   "status": "proved",
   "theorems": [
    "motion_check_symmetric"
   ],
   "note": ""
  },
  {
   "property": "C78",
   "status": "partial",
   "theorems": [
    "motion_check_sound_refuted",
    "accepted_motion"
   ],
   "note": "False of the code; every point of an accepted motion is within 0.04 per coordinate of a free one."
  },
  {
   "property": "C79",
   "status": "proved",
   "theorems": [
    "task_solvable",
    "task_needs"
   ],
   "note": ""
  },
  {
   "property": "C80",
   "status": "proved",
   "theorems": [
    "kuka_solvable",
    "kuka_needs"
   ],
   "note": "Assumes what the construction gives: distinct objects, configurations and poses per body, and that no object starts on a sink."
  },
  {
   "property": "C81",
   "status": "proved",
   "theorems": [
    "insertion_releases",
    "carried_object_put_down"
   ],
   "note": ""
  },
  {
   "property": "C82",
   "status": "proved",
   "theorems": [
    "plan_command_continuous"
   ],
   "note": ""
  },
  {
   "property": "C83",
   "status": "partial",
   "theorems": [
    "insert_path_complete",
    "insert_path_reaches_goal_refuted"
   ],
   "note": "The headline is false; holds when inverse kinematics succeeds on every waypoint."
  },
  {
   "property": "C84",
   "status": "proved",
   "theorems": [
    "deploy_each_once",
    "deploy_counts"
   ],
   "note": "waiting for the cluster and the lock-file assertion are not modelled"
  },
  {
   "property": "C85",
   "status": "proved",
   "theorems": [
    "fixed_size_attempt",
    "sweep_never_raises",
    "fixed_size_tries_n_refuted",
    "deployed_sets"
   ],
   "note": "linked to the anytime loop of C55"
  },
  {
   "property": "C86",
   "status": "partial",
   "theorems": [
    "array_jobs",
    "turtle_runs",
    "kuka_runs",
    "kuka_runs_distinct_refuted"
   ],
   "note": "false for the kuka deployment; kuka_runs gives the exact runs"
  },
  {
   "property": "C87",
   "status": "partial",
   "theorems": [
    "resume_dir_latest",
    "resume_same_name_refuted"
   ],
   "note": "names without glob metacharacters"
  },
  {
   "property": "C88",
   "status": "partial",
   "theorems": [
    "narrow_trial_rows",
    "narrow_trial_marks_seed",
    "no_connections_raises",
    "short_row_refuted",
    "py_index_exact"
   ],
   "note": "false for roadmaps without connections; pandas' padding of short rows is a library assumption (DESIGN section 3)"
  },
  {
   "property": "C89",
   "status": "proved",
   "theorems": [
    "line_search_sound",
    "line_search_raises",
    "line_upper_complete_refuted",
    "line_search_two"
   ],
   "note": "the completeness check is an arbitrary oracle (in the repository it raises NotImplementedError)"
  },
  {
   "property": "C90",
   "status": "partial",
   "theorems": [
    "knn_trial_records",
    "knn_too_few_raises",
    "knn_equal_refuted",
    "knn_env_unit_line_refuted"
   ],
   "note": "false as stated in the two refuted respects"
  },
  {
   "property": "C91",
   "status": "proved",
   "theorems": [
    "net_full_conn_stretch",
    "net_full_conn_feasible"
   ],
   "note": "The deterministic half of the guarantee behind bound.py: any net is enough. That random samples form a net with the given probability is not modelled."
  },
  {
   "property": "C92",
   "status": "proved",
   "theorems": [
    "net_nn_stretch",
    "net_radius_stretch"
   ],
   "note": ""
  },
  {
   "property": "C93",
   "status": "partial",
   "theorems": [
    "net_short_query_stretch_refuted",
    "net_full_conn_stretch"
   ],
   "note": "False for queries shorter than one net step: start and goal are never joined directly, so the answer detours through a sample (witness: factor above 4 too long). True for longer queries (net_full_conn_stretch)."
  },
  {
   "property": "C94",
   "status": "partial",
   "theorems": [
    "line_net_complete",
    "narrow_net_complete_refuted"
   ],
   "note": "Proved for StraightLine. False for NarrowPassage: its motion check rejects motions of length zero (and others in line with a wall), so a query from a sample to itself has no answer."
  },
  {
   "property": "C95",
   "status": "proved",
   "theorems": [
    "hollow_shape_exact",
    "bin_cavity_exact",
    "bin_escape"
   ],
   "note": "Rocq, over the reals."
  },
  {
   "property": "C96",
   "status": "proved",
   "theorems": [
    "bins_disjoint"
   ],
   "note": "Rocq, over the reals."
  },
  {
   "property": "C97",
   "status": "partial",
   "theorems": [
    "insert_delta_clearance_partial",
    "insert_delta_clearance_refuted",
    "insert_delta_value",
    "bin_clearance_exact",
    "insert_samples_too_few"
   ],
   "note": "The headline is false; value, true clearance and the exact condition are proved."
  },
  {
   "property": "C98",
   "status": "proved",
   "theorems": [
    "sampling_bounds_tight",
    "samples_fill_bounds",
    "bin_region",
    "bin_region_volume"
   ],
   "note": "random.uniform(a, b) is modelled as a + (b - a) u."
  },
  {
   "property": "C99",
   "status": "proved",
   "theorems": [
    "kuka_motion_exact",
    "shrunk_body_clear",
    "obb_covers_iff_centred"
   ],
   "note": "pbu.interpolate_poses is a parameter; shrunk_body_clear takes equal steps without rotation."
  },
  {
   "property": "C100",
   "status": "partial",
   "theorems": [
    "kuka_motion_sound_refuted",
    "kuka_motion_batch_refuted",
    "shrunk_body_clear"
   ],
   "note": "The headline is false; what acceptance does guarantee is shrunk_body_clear."
  },
  {
   "property": "C101",
   "status": "partial",
   "theorems": [
    "start_neighbourhood_sampled_refuted",
    "bin_region"
   ],
   "note": "The headline is false; the region is determined exactly."
  },
  {
   "property": "C102",
   "status": "partial",
   "theorems": [
    "aggregate_complete",
    "statistics_rows",
    "is_out_csv_iff",
    "aggregate_again_partial",
    "aggregate_again_refuted"
   ],
   "note": "Missing: idempotence, false for output names that begin with out."
  },
  {
   "property": "C103",
   "status": "proved",
   "theorems": [
    "recorded_sets_sound",
    "bounding_box_exact",
    "processed_query_covered"
   ],
   "note": "Regions are point sets; a Polygon is the convex hull of its vertices. Environment length 1, as the body assumes. The method raises before this code runs."
  },
  {
   "property": "C104",
   "status": "proved",
   "theorems": [
    "cover_sound",
    "failed_query_honest",
    "valid_rows_exact",
    "length_space_exact"
   ],
   "note": "Areas are not modelled: 'covered' is reported when all but area_tol of the region's area is in the cover, and nothing is claimed of the rest."
  },
  {
   "property": "C105",
   "status": "partial",
   "theorems": [
    "inner_approx_exact_partial",
    "inner_approx_refuted"
   ],
   "note": "The exact description fails in the branch of lines 198-202 (p1 instead of p2 in line 202): a query that passes the test is outside. Soundness (C103) is unaffected."
  },
  {
   "property": "C106",
   "status": "partial",
   "theorems": [
    "long_environment_fails",
    "length_scaling_refuted"
   ],
   "note": "This is the defect that the NotImplementedError of line 103 announces."
  },
  {
   "property": "C107",
   "status": "proved",
   "theorems": [
    "hallway_free_exact",
    "hallway_enclosed"
   ],
   "note": "World_Model.v, World_Props.v"
  },
  {
   "property": "C108",
   "status": "proved",
   "theorems": [
    "hallway_clearance"
   ],
   "note": "World_Props.v; intermediate value theorem at the middle of the hallway"
  },
  {
   "property": "C109",
   "status": "partial",
   "theorems": [
    "adaptive_delta_unreachable",
    "adaptive_samples_too_few",
    "adaptive_delta_refuted",
    "plain_hallway_delta_refuted"
   ],
   "note": "false of the code; the theorems say by how much"
  },
  {
   "property": "C110",
   "status": "proved",
   "theorems": [
    "flat_vertices_exact",
    "box_check_exact",
    "conf_check_exact",
    "hallway_conf_exact"
   ],
   "note": "WorldCheck_Props.v; the order of scipy's ConvexHull is assumed counterclockwise"
  },
  {
   "property": "C111",
   "status": "proved",
   "theorems": [
    "accepted_motion_stays",
    "accepted_path_stays"
   ],
   "note": "WorldCheck_Props.v; in general worlds the check is refuted (C53)"
  },
  {
   "property": "C112",
   "status": "proved",
   "theorems": [
    "sampling_region",
    "volume_overestimated"
   ],
   "note": "WorldCheck_Props.v"
  },
  {
   "property": "C113",
   "status": "proved",
   "theorems": [
    "placement_exact",
    "placements_sound",
    "placed_target_valid"
   ],
   "note": "WorldPlace_Props.v; contact tests are arbitrary functions in placements_sound"
  },
  {
   "property": "C114",
   "status": "partial",
   "theorems": [
    "placement_terminates",
    "placements_terminate_refuted"
   ],
   "note": "false of the code in general; exact condition for one body"
  },
  {
   "property": "C115",
   "status": "proved",
   "theorems": [
    "target_radius_quantile",
    "hallway_gap_exact"
   ],
   "note": "WorldPlace_Props.v"
  },
  {
   "property": "C116",
   "status": "partial",
   "theorems": [
    "init_conf_limits_refuted",
    "placed_target_valid"
   ],
   "note": "false of the code; validity of placed configurations holds"
  },
  {
   "property": "C117",
   "status": "proved",
   "theorems": [
    "top_grasp_geometry",
    "top_grasp_fits",
    "top_grasp_exists",
    "top_grasps_quarter_turns",
    "grasp_gen_exact"
   ],
   "note": ""
  },
  {
   "property": "C118",
   "status": "proved",
   "theorems": [
    "ik_sound",
    "ik_fails_exactly"
   ],
   "note": ""
  },
  {
   "property": "C119",
   "status": "partial",
   "theorems": [
    "certified_conf_holds",
    "top_conf_one_cm_above",
    "kin_conf_holds_pose_refuted"
   ],
   "note": "The headline is false; the pose is determined exactly."
  },
  {
   "property": "C120",
   "status": "proved",
   "theorems": [
    "iterator_exact",
    "movable_test_exact"
   ],
   "note": ""
  },
  {
   "property": "C121",
   "status": "partial",
   "theorems": [
    "motion_sound",
    "motion_raises_exactly",
    "teleport_checked_refuted"
   ],
   "note": "Proved for the calls that run.py makes (teleport=False); false with teleport."
  },
  {
   "property": "C122",
   "status": "partial",
   "theorems": [
    "insert_execution",
    "insert_misses_both_ends",
    "inserted_two_cm_above",
    "insert_leads_between_confs_refuted"
   ],
   "note": "The headline is false; where the trajectory goes is determined exactly."
  },
  {
   "property": "C123",
   "status": "partial",
   "theorems": [
    "executed_pose_offset",
    "executed_pose_refuted"
   ],
   "note": "The headline is false; the deviation is bounded."
  },
  {
   "property": "C124",
   "status": "partial",
   "theorems": [
    "placement_sound",
    "placement_ends_refuted"
   ],
   "note": "Termination is false; the result is sound."
  },
  {
   "property": "C125",
   "status": "partial",
   "theorems": [
    "problem_is_task",
    "problem_shortest_plan",
    "too_few_bins_unsolvable",
    "problem_solvable_refuted"
   ],
   "note": "Proved with a bin for every object (as in load_world); without, the problem has no plan."
  },
  {
   "property": "C126",
   "status": "proved",
   "theorems": [
    "problem_values",
    "problem_provides_kin",
    "problem_assertion"
   ],
   "note": ""
  },
  {
   "property": "C127",
   "status": "proved",
   "theorems": [
    "sauer_shelah_count",
    "balls_vc_dimension",
    "balls_vc_dimension_tight"
   ],
   "note": "Shattered-set induction; Radon's argument by linear dependence."
  },
  {
   "property": "C128",
   "status": "proved",
   "theorems": [
    "net_probability",
    "numerical_bound_net",
    "blumer_bound_net",
    "net_radius_from_prob_net"
   ],
   "note": "Double sampling and symmetrisation by counting over finite populations."
  },
  {
   "property": "C129",
   "status": "proved",
   "theorems": [
    "full_conn_success_probability",
    "full_conn_feasible_probability"
   ],
   "note": "C128 with the stretch theorem C91."
  },
  {
   "property": "C130",
   "status": "proved",
   "theorems": [
    "hoeffding_bound_sound",
    "chernoff_kl_bound_sound",
    "chernoff_kl_bound_one_sample",
    "radius_search_sound"
   ],
   "note": "Exponential moments by counting."
  },
  {
   "property": "C131",
   "status": "partial",
   "theorems": [
    "chernoff_generic_bound_sound",
    "chernoff_generic_bound_sound_refuted",
    "hoeffding_mean_variant_sound_refuted"
   ],
   "note": "Generic bound only where k is at least the mean."
  },
  {
   "property": "C132",
   "status": "partial",
   "theorems": [
    "eff_conn_rad_probability_partial",
    "eff_conn_rad_probability_refuted"
   ],
   "note": "Only where the unit ball fits the environment's volume."
  },
  {
   "property": "C133",
   "status": "proved",
   "theorems": [
    "knn_success_probability"
   ],
   "note": "C129 and C130 combined by a union bound."
  },
  {
   "property": "C134",
   "status": "partial",
   "theorems": [
    "radius_trial_rows",
    "radius_more_samples_keep_solution",
    "radius_reported_ub_works_refuted",
    "radius_reported_ub_decreases_refuted",
    "radius_nan_means_unsolvable_refuted"
   ],
   "note": "Rows and the test's claim proved; the reported upper radius is the last distance even where only max_connections was tried."
  },
  {
   "property": "C135",
   "status": "partial",
   "theorems": [
    "nearest_trial_rows",
    "nearest_more_samples_keep_solution_refuted",
    "nearest_reported_ub_within_max_refuted"
   ],
   "note": "Rows proved; more samples can destroy the solution, and 2^round(log2 max) is reported for max."
  },
  {
   "property": "C136",
   "status": "partial",
   "theorems": [
    "motion_stream_exact",
    "motion_stream_ends",
    "stream_path_checked",
    "stream_no_exception",
    "stream_sizes_grow_refuted",
    "stream_query_restores"
   ],
   "note": "All outcomes characterised; only the growth of the sizes is false."
  },
  {
   "property": "C137",
   "status": "partial",
   "theorems": [
    "stream_trajectory_near_clear",
    "stream_trajectory_inside",
    "stream_trajectory_clear_refuted",
    "stream_teleport_clear"
   ],
   "note": "The trajectory is near clear configurations, not clear."
  },
  {
   "property": "C138",
   "status": "partial",
   "theorems": [
    "stream_goes_on_refuted",
    "stream_no_exception"
   ],
   "note": "An empty array ends the stream early."
  },
  {
   "property": "C139",
   "status": "partial",
   "theorems": [
    "print_line",
    "print_blank",
    "print_splits",
    "log_read_back",
    "readlines_exact",
    "print_is_one_line_refuted"
   ],
   "note": "Logging and reading back characterised; one print can be several lines."
  },
  {
   "property": "C140",
   "status": "partial",
   "theorems": [
    "time_success_exact",
    "success_rate_exact",
    "search_exact",
    "time_line_exact",
    "time_success_raises",
    "time_success_run_raises",
    "time_success_reads_runs_refuted",
    "success_rate_all_runs_refuted",
    "time_success_all_logs_refuted"
   ],
   "note": "What is drawn is characterised; logs of run.py cannot be drawn, and failed runs are left out."
  },
  {
   "property": "C141",
   "status": "partial",
   "theorems": [
    "bound_plot_exact",
    "int_numeral",
    "float_numeral",
    "bound_plot_run_raises",
    "bound_plot_reads_runs_refuted"
   ],
   "note": "What is drawn is characterised; logs of run.py make the script raise."
  },
  {
   "property": "C142",
   "status": "proved",
   "theorems": [
    "animation_images",
    "animation_result",
    "animation_in_view"
   ],
   "note": "Full statement."
  },
  {
   "property": "C143",
   "status": "partial",
   "theorems": [
    "animation_repeats",
    "animation_raises",
    "animation_repeat_same_refuted",
    "animation_path_in_view_refuted"
   ],
   "note": "Picture after r rounds and failures characterised; repeating changes the picture and the ends of a path can be out of view."
  },
  {
   "property": "C144",
   "status": "proved",
   "theorems": [
    "radius_success_probability",
    "radius_success_probability_cut"
   ],
   "note": "Probability is counted over all sequences of draws from a finite population, as in C129; the neighbour index is an exact one."
  },
  {
   "property": "C145",
   "status": "proved",
   "theorems": [
    "execution_delivers",
    "execution_frames"
   ],
   "note": "The simulator's apply_commands, attachments and trajectories are modelled after pybullet_tools, which is not in the repository; heights and the rover's angle, which no command changes, are left out."
  },
  {
   "property": "C146",
   "status": "partial",
   "theorems": [
    "execution_targets_apart_refuted",
    "execution_frames"
   ],
   "note": "The headline is false of the code; execution_frames shows where every target is in every state."
  },
  {
   "property": "C147",
   "status": "proved",
   "theorems": [
    "corner_free_exact",
    "corner_ends_exact",
    "corner_ways_round",
    "corner_straight_rejected",
    "corner_motion_stays",
    "corner_stream"
   ],
   "note": "The body is a square as wide as the rover's extent e; corner_straight_rejected needs the half sides of box and body to add up to 4 cm."
  },
  {
   "property": "C148",
   "status": "partial",
   "theorems": [
    "corner_fits_solvable_refuted",
    "corner_fits_exact"
   ],
   "note": "The headline is false of the code; corner_fits_exact gives the exact condition under which the robot fits."
  },
  {
   "property": "C149",
   "status": "partial",
   "theorems": [
    "mpolygon_cut_refuted",
    "mpolygon_outside_refuted",
    "hole_points_outside",
    "polygon_triangulated",
    "triangulated_only_polygons",
    "single_hole_points",
    "single_as_multi"
   ],
   "note": "The headline is false of the code. covers, point_on_surface and the rule by which triangle removes holes are stated as assumptions on parameters; rings are abstract discs, instantiated with convex rings in the example and the refutations."
  },
  {
   "property": "C150",
   "status": "proved",
   "theorems": [
    "options_given",
    "option_text_exact",
    "option_numbers",
    "parsed_complete"
   ],
   "note": "argparse is a library: its rules for long options are the model. The token -- and joined short options are not modelled."
  },
  {
   "property": "C151",
   "status": "partial",
   "theorems": [
    "kuka_options_refuted",
    "kuka_seed_refuted",
    "kuka_factor_refuted",
    "kuka_unused_options",
    "kuka_used_options",
    "kuka_adaptive_min",
    "kuka_factor_values",
    "kuka_factor_growth"
   ],
   "note": "The headline is false of the code; the exact effect of the options is proved."
  },
  {
   "property": "C152",
   "status": "partial",
   "theorems": [
    "kuka_ends_refuted",
    "kuka_disconnects_refuted",
    "kuka_world",
    "kuka_ends",
    "kuka_report"
   ],
   "note": "The headline is false in its termination and clean-up; the rest is proved."
  },
  {
   "property": "C153",
   "status": "proved",
   "theorems": [
    "turtle_seed"
   ],
   "note": "create_parser belongs to pddlstream, so the arguments are a record."
  },
  {
   "property": "C154",
   "status": "partial",
   "theorems": [
    "impossible_clearance_refuted",
    "measure_sign",
    "count_needs_clearance",
    "nonpositive_odd_overflows",
    "negative_even_same",
    "turtle_count_returned",
    "unset_gap_count",
    "wider_body_fewer_samples"
   ],
   "note": "The headline is false of the code; the exact behaviour by sign and dimension is proved."
  },
  {
   "property": "C155",
   "status": "partial",
   "theorems": [
    "random_world_refuted",
    "random_world_adaptive",
    "setup_exact",
    "draws_in_box",
    "worlds_set_up",
    "manip_adaptive_set_up",
    "adaptive_outcomes",
    "zero_clearance_query"
   ],
   "note": "The headline is false of random_obstacles; it is proved for the other worlds."
  },
  {
   "property": "C156",
   "status": "partial",
   "theorems": [
    "missing_config_refuted",
    "blank_name_refuted",
    "submit_when",
    "submit_runs",
    "triples_text_read"
   ],
   "note": "The headline is false of the code; the exact conditions are proved. Names are taken to hold no slash."
  },
  {
   "property": "C157",
   "status": "partial",
   "theorems": [
    "resume_missing_refuted",
    "resume_exact",
    "resume_after_submit"
   ],
   "note": "The headline is false for an experiment without configuration; the rest is proved."
  },
  {
   "property": "C158",
   "status": "partial",
   "theorems": [
    "tune_positive_refuted",
    "tune_resume_refuted",
    "tune_exact",
    "tune_no_type",
    "triples_text_exact"
   ],
   "note": "The headline is false in its second half and for values that are not positive; the set of submitted triples is proved."
  },
  {
   "property": "C159",
   "status": "partial",
   "theorems": [
    "shipped_all_refuted",
    "line_job",
    "knn_job",
    "narrow_job",
    "job_covers",
    "call_values",
    "missing_key",
    "other_keys",
    "shipped_complete",
    "submitted_experiment",
    "job_exact",
    "no_plan",
    "odd_numbers",
    "text_dims",
    "finished_job",
    "missing_config"
   ],
   "note": "The headline is false of narrow_micro_test_run.json; everything else is proved. The cluster is taken to start the processes 0 .. size-1 of a job."
  },
  {
   "property": "C160",
   "status": "partial",
   "theorems": [
    "own_directory_refuted",
    "turtle_job",
    "kuka_job",
    "adaptive_job",
    "nothing_run",
    "kuka_job_settings",
    "adaptive_queue_exact",
    "directories_differ",
    "run_starts_exact",
    "second_run",
    "kuka_names_differ",
    "options_joined",
    "run_directories"
   ],
   "note": "The headline is false of the kuka deployment (the directory); the rest is proved. The shell, sbatch and argparse are modelled for the lines these scripts contain."
  },
  {
   "property": "C161",
   "status": "partial",
   "theorems": [
    "statistics_reported_refuted",
    "first_run_left_out_refuted",
    "report_exact",
    "no_directory",
    "trial_tables_report",
    "knn_tables_raise",
    "text_raises",
    "file_order_irrelevant",
    "stats_unique",
    "stats_meaning"
   ],
   "note": "The headline is false of the code (two witnesses); when and what it reports is proved. pandas' read_csv, concat, tail, mean and std are modelled; values are reals."
  },
  {
   "property": "C162",
   "status": "partial",
   "theorems": [
    "floor_not_fixed_refuted",
    "colour_ignored_refuted",
    "hollow_body_exact",
    "insertion_pairs",
    "placement_exact",
    "names_exact",
    "fixed_exact",
    "robot_in_floor",
    "load_world_succeeds",
    "category_outcomes",
    "link_body_exact",
    "category_walls"
   ],
   "note": "The headline is false of the code in two points (witnesses); the rest is proved. createMultiBody's links are placed relative to their parent; nothing is rotated."
  },
  {
   "property": "C163",
   "status": "proved",
   "theorems": [
    "compare_table",
    "compare_order",
    "compare_monotone",
    "compare_runs",
    "plotted_tables"
   ],
   "note": "Reals for floats; least_count and blumer are stated in Notebook_Spec.v over the failure bound of Bound_Spec.v. pandas and the plots are not modelled."
  },
  {
   "property": "C164",
   "status": "partial",
   "theorems": [
    "natural_log_bound_refuted",
    "natural_log_factor",
    "decimal_same",
    "decimal_least",
    "decimal_runs",
    "decimal_limit"
   ],
   "note": "The headline (that the formula with natural logarithms is a bound) is false of the code (witness); the rest is proved. Decimals of 100 digits are reals; int of a quotient that is no float raises OverflowError."
  },
  {
   "property": "C165",
   "status": "proved",
   "theorems": [
    "halton_curve",
    "sampled_dispersions",
    "sampled_curve",
    "halton_wins_when_fine",
    "sampling_wins_when_coarse"
   ],
   "note": "np.arange may give 1000 or 1001 points because of rounding; both are covered. That Halton points have this dispersion is the cited theorem of Mitchell, not proved here."
  },
  {
   "property": "C166",
   "status": "proved",
   "theorems": [
    "chunks_exact",
    "batch_table",
    "batch_order",
    "batch_runs"
   ],
   "note": "Reals for floats; least_count is stated in Notebook_Spec.v over the failure bound of Bound_Spec.v. The printing and the plots are not modelled."
  },
  {
   "property": "C167",
   "status": "partial",
   "theorems": [
    "ann_cube_refuted",
    "ann_exact",
    "ann_unit"
   ],
   "note": "The headline (cube of half width r) is false of the code (witness); what the code lists is proved for all inputs. Reals for floats, argsort is any order that sorts; division by a zero radius is left out."
  },
  {
   "property": "C168",
   "status": "partial",
   "theorems": [
    "knn_limit_refuted",
    "estimate_exact",
    "estimate_order"
   ],
   "note": "The headline fails at the largest number of neighbours (witness); what each estimate counts is proved for all inputs. Reals for floats, None for nan; np.isclose with its default tolerances."
  },
  {
   "property": "C169",
   "status": "partial",
   "theorems": [
    "prediction_refuted",
    "theory_p_refuted",
    "prediction_exact",
    "estimated_entries",
    "prediction_when_last_largest",
    "frame_runs"
   ],
   "note": "The headline is false of the code (late binding; witness with the repository's clearances); what is listed instead is proved for all inputs. Reals for floats; net_failure_bound and least_count are stated in Bound_Spec.v and Notebook_Spec.v, the volume of the passage in closed form in NarrowTab_Spec.v. The plots are not modelled."
  },
  {
   "property": "C170",
   "status": "partial",
   "theorems": [
    "full_run_refuted",
    "knn_header_refuted",
    "radius_cells",
    "knn_cells",
    "tables_run",
    "knn_table_needs",
    "headers_exact"
   ],
   "note": "The headlines are false of the code (witnesses with the repository's configurations); the content of every table made is proved. Reals for floats; the rounding of the printed numbers, the LaTeX and the Blumer bound that is computed but not printed are not modelled."
  },
  {
   "property": "C171",
   "status": "partial",
   "theorems": [
    "radius_table_refuted",
    "volume_refuted",
    "kl_radius_largest",
    "radius_table",
    "radius_table_made",
    "volume_found",
    "volume_own"
   ],
   "note": "Both headlines are false of the code (witnesses); optimality of the search, the content of the table and exactly when it is made are proved. Rationals for the halved radii, reals for the bound."
  },
  {
   "property": "C172",
   "status": "proved",
   "theorems": [
    "figure_below_threshold",
    "ratio_table",
    "ratio_table_made",
    "ratio_bound",
    "ratio_below_threshold",
    "ratio_figure_below",
    "ratio_vanishes",
    "net_radius_short"
   ],
   "note": "sqrt(20) is any rational upper end; reals for floats."
  },
  {
   "property": "C173",
   "status": "partial",
   "theorems": [
    "rho_refuted",
    "shown_refuted",
    "rho_factor",
    "rho_against_ball",
    "shown_value",
    "base2_guaranteed",
    "shown_eventually"
   ],
   "note": "Both headlines are false of the code (witnesses); how far they are off and when the number holds are proved. Reals for floats, None for NaN; the pivot table, the labels and the plots are not modelled."
  },
  {
   "property": "C174",
   "status": "proved",
   "theorems": [
    "scatter_exact",
    "scatter_draws",
    "scatter_raises",
    "literal_eval_repr",
    "file_date_index",
    "job_date_read"
   ],
   "note": "ast.literal_eval is modelled for flat dictionaries of numbers, booleans and plain texts; decimals are exact; log names are assumed to differ (C176 shows what happens otherwise)."
  },
  {
   "property": "C175",
   "status": "proved",
   "theorems": [
    "conditions_partition",
    "figure_exact",
    "figure_counts",
    "kuka_deployed",
    "turtle_deployed",
    "rate_exact",
    "std_error_zero",
    "time_exact"
   ],
   "note": "Reals for floats; a point with an infinite or undefined time has no abscissa. For the turtlebot the options of pddlstream's own parser must have other names."
  },
  {
   "property": "C176",
   "status": "partial",
   "theorems": [
    "point_of_run_refuted",
    "rate_all_runs_refuted",
    "one_setting_refuted",
    "adaptive_one_group",
    "adaptive_one_point"
   ],
   "note": "The headline is false of the code (three witnesses); what holds for the deployment of adaptive jobs is proved."
  },
  {
   "property": "C177",
   "status": "partial",
   "theorems": [
    "query_all_refuted",
    "nn_never_answers",
    "radius_never_answers",
    "full_conn_returns_exception",
    "answers_with_switch",
    "answers_agree_with_query",
    "switch_fewer_neighbours_refuted",
    "switch_refused_growth_refuted",
    "switch_too_late",
    "switch_later_refuted"
   ],
   "note": "The headline is false of the code (witnesses); proved is what each class returns, and what the table contains when the switch is on. networkit's SPSP is assumed to return shortest path lengths."
  },
  {
   "property": "C178",
   "status": "proved",
   "theorems": [
    "save_exact",
    "saved_roadmaps"
   ],
   "note": "The bytes of the two formats are not modelled; a file is the value written."
  },
  {
   "property": "C179",
   "status": "partial",
   "theorems": [
    "library_refuted",
    "one_more_neighbour",
    "pynn_certified",
    "one_neighbour_is_itself",
    "library_by_name"
   ],
   "note": "The headline is false of the code (witness); proved is how the two roadmaps correspond. Both libraries are taken to be exact. After a change of radius the two are compared through pynn_certified only, as edges that should be removed can survive (C23)."
  },
  {
   "property": "C180",
   "status": "proved",
   "theorems": [
    "narrow_passage_figures",
    "printed_edges_count_loops",
    "printed_edges_are_pairs_refuted",
    "nearest_neighbour_figures",
    "straight_line_figures",
    "reduced_figure_shows_nearest_refuted"
   ],
   "note": "Figures are lists of segments; marks, colours other than red and blue, and the window are not modelled. The two _refuted theorems bound what the figures and the printed numbers mean; the statement itself is proved."
  },
  {
   "property": "C181",
   "status": "partial",
   "theorems": [
    "conf_reads_joints_refuted",
    "own_poses_refuted",
    "teleport_checks_refuted",
    "conf_assigned",
    "base_conf_back",
    "motion_test_exact",
    "motion_test_raises",
    "fluent_order"
   ],
   "note": "The headline is false of the code (witnesses); proved is what holds for objects with assign and value. The planners are a parameter that reads the world."
  },
  {
   "property": "C182",
   "status": "partial",
   "theorems": [
    "existence_fewer_refuted",
    "suite_counts",
    "existence_fewer_iff",
    "large_tolerance_same"
   ],
   "note": "The headline is false of the code (witness); proved is the suite's test and exactly when it holds. Real arithmetic."
  },
  {
   "property": "C183",
   "status": "partial",
   "theorems": [
    "described_box_refuted",
    "described_net_refuted",
    "narrow_net_radius",
    "box_volume_same",
    "curves_fall",
    "narrow_rise",
    "line_table_exact",
    "narrow_table_exact"
   ],
   "note": "The headline is false of the notebook (witnesses); proved is what the curves and tables contain. Real arithmetic."
  }
 ]
}