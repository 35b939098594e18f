{
 "claims": [
  {
   "property": "C01",
   "status": "proved",
   "theorems": [
    "cc_reachability"
   ],
   "note": ""
  },
  {
   "property": "C02",
   "status": "proved",
   "theorems": [
    "cc_capped"
   ],
   "note": ""
  },
  {
   "property": "C03",
   "status": "proved",
   "theorems": [
    "cc_query_transparent"
   ],
   "note": ""
  },
  {
   "property": "C04",
   "status": "proved",
   "theorems": [
    "view_graph_refines"
   ],
   "note": ""
  },
  {
   "property": "C05",
   "status": "proved",
   "theorems": [
    "extract_subgraph_induced"
   ],
   "note": ""
  },
  {
   "property": "C06",
   "status": "proved",
   "theorems": [
    "largest_component_correct"
   ],
   "note": "ids must differ from kInvalidViewId; aborts exactly when there is no edge"
  },
  {
   "property": "C07",
   "status": "proved",
   "theorems": [
    "remove_disconnected_correct",
    "remove_disconnected_no_edges"
   ],
   "note": "views without edges (left by RemoveEdge) are kept by the code; stated in the theorem"
  },
  {
   "property": "C08",
   "status": "proved",
   "theorems": [
    "incidence_symmetric",
    "no_internal_abort",
    "reconstruction_refines"
   ],
   "note": "histories of fewer than 2^32 calls (ids are 32-bit)"
  },
  {
   "property": "C09",
   "status": "proved",
   "theorems": [
    "names_bijective",
    "ids_never_reused"
   ],
   "note": "histories of fewer than 2^32 calls (ids are 32-bit)"
  },
  {
   "property": "C10",
   "status": "proved",
   "theorems": [
    "remove_view_exact",
    "remove_track_exact"
   ],
   "note": ""
  },
  {
   "property": "C11",
   "status": "proved",
   "theorems": [
    "add_track_all_or_nothing"
   ],
   "note": ""
  },
  {
   "property": "C12",
   "status": "partial",
   "theorems": [
    "groups_partition",
    "private_group_partial",
    "private_group_refuted"
   ],
   "note": "the partition part is proved; the private-group part is false of the code (private_group_refuted) and proved for callers that only name groups AddView numbered before"
  },
  {
   "property": "C13",
   "status": "proved",
   "theorems": [
    "sub_reconstruction_induced",
    "sub_reconstruction_continues"
   ],
   "note": "output object empty, as documented"
  },
  {
   "property": "C14",
   "status": "partial",
   "theorems": [
    "save_load_partial",
    "save_load_refuted"
   ],
   "note": "false of the code because next_camera_intrinsics_group_id_ is not archived; proved for continuations that do not call AddView without a group"
  },
  {
   "property": "C15",
   "status": "proved",
   "theorems": [
    "track_builder_exact",
    "track_builder_valid",
    "track_builder_complete"
   ],
   "note": "minimum length at least 2, all views present, fewer than 2^31 image features"
  },
  {
   "property": "C16",
   "status": "partial",
   "theorems": [
    "min_track_length_partial",
    "min_track_length_refuted",
    "min_one_aborts"
   ],
   "note": "false of the code: the length is checked before features of repeated views are dropped; proved when no view has two features in one chain"
  },
  {
   "property": "C17",
   "status": "proved",
   "theorems": [
    "lru_cache_correct",
    "lru_cache_capacity"
   ],
   "note": ""
  },
  {
   "property": "C18",
   "status": "proved",
   "theorems": [
    "lru_cache_linearizable",
    "lru_cache_no_deadlock"
   ],
   "note": "Fetch and Insert; the unsynchronised accessors ExistsInCache/Size are not part of the claim"
  },
  {
   "property": "C19",
   "status": "partial",
   "theorems": [
    "priority_queue_partial",
    "priority_queue_refuted"
   ],
   "note": "false of the code when a live key is inserted again; proved for all other histories, with any heap algorithms meeting the C++ contract that do not compare the front element in pop_heap"
  },
  {
   "property": "C20",
   "status": "proved",
   "theorems": [
    "thread_pool_fifo_once",
    "thread_pool_destructor",
    "thread_pool_no_deadlock",
    "thread_pool_terminates",
    "thread_pool_threads",
    "thread_pool_abort"
   ],
   "note": "tasks are assumed to terminate; a CHECK failure ends the process"
  },
  {
   "property": "C21",
   "status": "proved",
   "theorems": [
    "feature_matcher_chunks",
    "feature_matcher_pool",
    "match_images_requested",
    "match_images_all",
    "match_images_nothing",
    "match_images_no_threads"
   ],
   "note": "fewer than 2^31-20 pairs; the per-pair result is an arbitrary function"
  },
  {
   "property": "C24",
   "status": "proved",
   "theorems": [
    "intersect_matches_exact",
    "intersect_matches_repeated"
   ],
   "note": "feature indices of forward matches are not -1"
  },
  {
   "property": "C25",
   "status": "partial",
   "theorems": [
    "brute_force_partial",
    "brute_force_refuted"
   ],
   "note": "false (undefined behaviour) when an image has fewer than two descriptors; proved otherwise, for distances without NaN"
  },
  {
   "property": "C45",
   "status": "partial",
   "theorems": [
    "feature_db_last_write",
    "feature_db_roundtrip_partial",
    "feature_db_merge_partial",
    "feature_db_roundtrip_refuted"
   ],
   "note": "last write wins is proved; the file round trip is false when a match is stored under names other than its own; features are not written to the file by design"
  },
  {
   "property": "C49",
   "status": "partial",
   "theorems": [
    "match_images_again_refuted",
    "match_images_again_partial"
   ],
   "note": "false of the code: the list of all pairs is computed once and reused"
  },
  {
   "property": "C22",
   "status": "proved",
   "theorems": [
    "minimum_spanning_tree_optimal",
    "minimum_spanning_tree_self_loop_refuted",
    "minimum_spanning_tree_reused_output_refuted"
   ],
   "note": "Spanning trees of minimum weight among all spanning trees, success iff connected. The two _refuted theorems show that the hypotheses (no self loops, empty output set) are needed."
  },
  {
   "property": "C23",
   "status": "proved",
   "theorems": [
    "triplets_exact",
    "triplets_unordered_refuted"
   ],
   "note": "All graphs with each edge once as (a,b), a<b; all iteration orders; any std::sort. The _refuted theorem shows what happens for other inputs."
  },
  {
   "property": "C28",
   "status": "proved",
   "theorems": [
    "random_sampler_distinct",
    "random_sampler_too_few"
   ],
   "note": ""
  },
  {
   "property": "C29",
   "status": "partial",
   "theorems": [
    "exhaustive_sampler_partial",
    "exhaustive_sampler_refuted"
   ],
   "note": "false of the code after a second Initialize with fewer data points, because i_ and j_ are not reset; proved otherwise"
  },
  {
   "property": "C30",
   "status": "partial",
   "theorems": [
    "prosac_sampler_partial",
    "prosac_sampler_terminates",
    "prosac_sampler_refuted"
   ],
   "note": "false of the code: the index n is drawn, one past the end; proved for the samples in which it is not"
  },
  {
   "property": "C31",
   "status": "partial",
   "theorems": [
    "lmed_cost_partial",
    "lmed_inliers_exact",
    "lmed_cost_refuted"
   ],
   "note": "false of the code: one residual is undefined behaviour and the two parities are exchanged; what is computed is proved exactly"
  },
  {
   "property": "C32",
   "status": "proved",
   "theorems": [
    "costs_exact",
    "costs_permutation",
    "costs_monotone"
   ],
   "note": "residuals are exact rationals"
  },
  {
   "property": "C50",
   "status": "proved",
   "theorems": [
    "random_sampler_uniform"
   ],
   "note": ""
  },
  {
   "property": "C26",
   "status": "proved",
   "theorems": [
    "ransac_best",
    "lmed_best"
   ],
   "note": "arithmetic is exact; the quotient of logarithms is an arbitrary function"
  },
  {
   "property": "C27",
   "status": "partial",
   "theorems": [
    "ransac_success_partial",
    "ransac_success_refuted"
   ],
   "note": "false of the code: when no sample gives a model Estimate still returns true; proved when some hypothesis was found"
  },
  {
   "property": "C51",
   "status": "partial",
   "theorems": [
    "ransac_failure_probability_partial",
    "ransac_failure_probability_refuted"
   ],
   "note": "false as stated because the number of iterations is rounded down; proved with two more iterations and up to the rounding of the logarithms"
  },
  {
   "property": "C52",
   "status": "proved",
   "theorems": [
    "ransac_total",
    "exhaustive_ransac_total",
    "lmed_total",
    "ransac_confidence_range"
   ],
   "note": "for LMed at least two residuals are needed"
  },
  {
   "property": "C38",
   "status": "partial",
   "theorems": [
    "histogram_exact",
    "histogram_int_partial",
    "histogram_int_refuted"
   ],
   "note": "proved for doubles (all values but NaN); for integer types infinity() is 0, so negative values are undefined behaviour, and the exact count is proved for non-negative ones"
  },
  {
   "property": "C53",
   "status": "partial",
   "theorems": [
    "histogram_print",
    "histogram_print_refuted"
   ],
   "note": "proved for at least one boundary; without boundaries the only bin is printed twice"
  },
  {
   "property": "C39",
   "status": "partial",
   "theorems": [
    "visibility_pyramid_partial",
    "visibility_pyramid_in_range",
    "visibility_pyramid_order",
    "visibility_pyramid_monotone",
    "visibility_pyramid_refuted"
   ],
   "note": "proved for up to seven levels, the code uses six; with more levels the int score overflows (refuted for fifteen); coordinates are exact rationals"
  },
  {
   "property": "C40",
   "status": "proved",
   "theorems": [
    "reservoir_contents",
    "reservoir_uniform"
   ],
   "note": ""
  },
  {
   "property": "C33",
   "status": "proved",
   "theorems": [
    "evaluate_polynomial",
    "remove_leading_zeros_exact",
    "add_polynomials",
    "multiply_polynomials",
    "differentiate_polynomial"
   ],
   "note": "coefficients are real numbers"
  },
  {
   "property": "C34",
   "status": "partial",
   "theorems": [
    "divide_polynomial_partial",
    "divide_polynomial_refuted"
   ],
   "note": "false of the code: division by a constant never returns, and dividends with leading zeros give a vector of negative size; proved otherwise"
  },
  {
   "property": "C35",
   "status": "partial",
   "theorems": [
    "quadratic_roots_partial",
    "quadratic_roots_real_partial",
    "linear_roots_exact",
    "quadratic_roots_refuted"
   ],
   "note": "false of the code for a x^2, where the second root is not a number; proved otherwise"
  },
  {
   "property": "C54",
   "status": "proved",
   "theorems": [
    "minimize_polynomial"
   ],
   "note": "the root finder is an argument with a contract"
  },
  {
   "property": "C36",
   "status": "partial",
   "theorems": [
    "solve_cubic_partial",
    "solve_cubic_triple",
    "solve_cubic_refuted",
    "solve_cubic_degenerate"
   ],
   "note": "false of the code for every cubic with b^2 < 3 a c; proved for 3 a c < b^2 and characterised for equality; exact real arithmetic with signed zeros"
  },
  {
   "property": "C55",
   "status": "partial",
   "theorems": [
    "solve_quartic_partial",
    "quartic_beta_meaning",
    "solve_quartic_refuted"
   ],
   "note": "false of the code for x^4 - 1 (division by zero); proved when the depressed quartic has a linear term and the cube root is zero or not below 1e-8"
  },
  {
   "property": "C56",
   "status": "partial",
   "theorems": [
    "solve_quadratic_partial",
    "solve_quadratic_linear",
    "reals_within_tolerance",
    "solve_quadratic_reals_partial",
    "solve_cubic_reals_partial",
    "solve_quadratic_refuted"
   ],
   "note": "the second root of a x^2 is not a number; proved otherwise"
  },
  {
   "property": "C37",
   "status": "partial",
   "theorems": [
    "gauss_jordan_solutions",
    "gauss_jordan_partial",
    "gauss_jordan_refuted",
    "gauss_jordan_one_row"
   ],
   "note": "the solution set is preserved for all matrices; the reduction is false of the code when a pivot is needed from the last row or a coefficient below 1e-9 is left; proved exactly when no non-zero coefficient is left"
  },
  {
   "property": "C41",
   "status": "partial",
   "theorems": [
    "selection_coverage_partial",
    "selection_all_views_partial",
    "selection_history_refuted"
   ],
   "note": "coverage proved; independence of earlier calls is false of the code: the cell size is a static constant initialised by the first call"
  },
  {
   "property": "C42",
   "status": "partial",
   "theorems": [
    "cell_choice_partial",
    "top_up_partial",
    "long_tracks_preferred_refuted"
   ],
   "note": "false of the code: the shortest track of a cell is selected and additional tracks are taken by id; the actual choice is characterised"
  },
  {
   "property": "C43",
   "status": "proved",
   "theorems": [
    "outlier_tracks_exact",
    "outlier_tracks_all",
    "outlier_tracks_idempotent",
    "outlier_tracks_missing",
    "reachable_consistent"
   ],
   "note": "projection, depth and rays are arbitrary functions; exact rationals"
  },
  {
   "property": "C44",
   "status": "proved",
   "theorems": [
    "common_tracks_exact",
    "common_tracks_few",
    "common_tracks_missing"
   ],
   "note": ""
  },
  {
   "property": "C57",
   "status": "proved",
   "theorems": [
    "common_views_exact"
   ],
   "note": ""
  },
  {
   "property": "C58",
   "status": "proved",
   "theorems": [
    "underconstrained_tracks_exact",
    "underconstrained_views_exact",
    "estimated_sets_exact"
   ],
   "note": ""
  },
  {
   "property": "C59",
   "status": "proved",
   "theorems": [
    "estimated_poses_exact",
    "estimated_poses_abort"
   ],
   "note": ""
  },
  {
   "property": "C60",
   "status": "proved",
   "theorems": [
    "estimate_tracks_exact",
    "estimation_unique",
    "estimate_tracks_deterministic",
    "estimate_all_tracks_exact",
    "estimate_tracks_bad_options"
   ],
   "note": "triangulation, adjustment and projection are arbitrary functions of the observations; workers interleave at the granularity of the writes to tracks and summary"
  },
  {
   "property": "C46",
   "status": "proved",
   "theorems": [
    "sift_round_trip",
    "sift_rewrite",
    "sift_truncated"
   ],
   "note": "IEEE single and double precision, bit for bit (Flocq); for descriptors of 128 entries between 0 and 1 and coordinates in the range of float; a truncated file is undefined behaviour, not an error"
  },
  {
   "property": "C47",
   "status": "proved",
   "theorems": [
    "transform_preserves_projections",
    "transform_frame",
    "transform_order_independent",
    "transform_fisheye_refuted"
   ],
   "note": "real arithmetic; the conversion of rotations to angle-axis vectors is any function that inverts Rodrigues' formula; without the condition on fisheye lenses the statement is false of the code"
  },
  {
   "property": "C48",
   "status": "proved",
   "theorems": [
    "ray_of_projection",
    "projection_of_ray"
   ],
   "note": "real arithmetic"
  },
  {
   "property": "C61",
   "status": "proved",
   "theorems": [
    "division_round_trip",
    "division_round_trip_back",
    "fov_round_trip",
    "fov_round_trip_back",
    "division_round_trip_refuted",
    "fov_round_trip_refuted"
   ],
   "note": "real arithmetic; refuted outside the stated domains"
  },
  {
   "property": "C62",
   "status": "proved",
   "theorems": [
    "pinhole_undistort_accurate",
    "pinhole_undistort_refuted"
   ],
   "note": "real arithmetic; refuted without the bound on the distortion"
  },
  {
   "property": "C63",
   "status": "partial",
   "theorems": [
    "projection_matrix_projects",
    "decompose_projection_exact",
    "decompose_inverts_compose",
    "initialize_reproduces_matrix",
    "intrinsics_calibration_round_trip",
    "initialize_singular_refuted"
   ],
   "note": "all proved, except that InitializeFromProjectionMatrix reads uninitialised matrices instead of returning false when the left block is singular"
  },
  {
   "property": "C64",
   "status": "proved",
   "theorems": [
    "orientations_from_mst_exact",
    "orientations_from_mst_ground_truth",
    "orientations_from_mst_no_edges",
    "orientations_from_mst_reused_output_refuted"
   ],
   "note": "real arithmetic; the conversion of rotations to angle-axis vectors is any function that inverts Rodrigues' formula with angles up to pi; push_heap and pop_heap by their contract"
  },
  {
   "property": "C65",
   "status": "proved",
   "theorems": [
    "orientation_filter_exact"
   ],
   "note": "real arithmetic; the comment in the header says less than, the code keeps pairs at the threshold"
  },
  {
   "property": "C66",
   "status": "proved",
   "theorems": [
    "cycle_filter_exact"
   ],
   "note": "real arithmetic"
  },
  {
   "property": "C67",
   "status": "proved",
   "theorems": [
    "multiply_rotations_composes",
    "two_view_pose",
    "swap_cameras_involution",
    "swap_cameras_inverts",
    "swap_cameras_zero_focal"
   ],
   "note": "real arithmetic"
  },
  {
   "property": "C68",
   "status": "proved",
   "theorems": [
    "adjust_changes_only",
    "adjust_view_changes_only",
    "adjust_track_changes_only",
    "adjust_reaches",
    "reachable_grouped"
   ],
   "note": "ceres::Solve by its contract (ceres_contract); numbers are reals"
  },
  {
   "property": "C69",
   "status": "proved",
   "theorems": [
    "adjust_cost",
    "adjust_all"
   ],
   "note": "ceres::Solve by its contract; the error of an observation is any function of model, feature, extrinsics, intrinsics and point"
  },
  {
   "property": "C70",
   "status": "partial",
   "theorems": [
    "adjust_returns_partial",
    "adjust_may_abort_refuted"
   ],
   "note": "false as stated: an estimated view without estimated tracks (when some intrinsics are kept constant, the default, or positions or orientations are) and an estimated track without estimated views abort the process; adjust_returns_partial gives the exact conditions"
  },
  {
   "property": "C71",
   "status": "proved",
   "theorems": [
    "kept_parameters_exact"
   ],
   "note": ""
  },
  {
   "property": "C72",
   "status": "proved",
   "theorems": [
    "alignment_optimal",
    "alignment_unweighted_optimal",
    "alignment_recovers",
    "svd_contract_met"
   ],
   "note": "real arithmetic; Eigen's singular value decomposition by its contract, which is shown to be satisfiable for every matrix"
  },
  {
   "property": "C73",
   "status": "partial",
   "theorems": [
    "alignment_defined_partial",
    "alignment_undefined_refuted"
   ],
   "note": "false as stated: empty clouds are undefined behaviour, clouds whose weighted left points coincide (a single pair) give a scale and translation that are not numbers; alignment_defined_partial gives the exact conditions"
  },
  {
   "property": "C74",
   "status": "partial",
   "theorems": [
    "align_reconstructions_optimal_partial",
    "align_reconstructions_exact_partial",
    "align_reconstructions_refuted"
   ],
   "note": "false as stated: views that are not estimated take part in the alignment with whatever position they have; proved when the common views of the second reconstruction are estimated and two of them have different positions"
  },
  {
   "property": "C75",
   "status": "proved",
   "theorems": [
    "sampson_is_first_order_distance",
    "sampson_invariant"
   ],
   "note": "real arithmetic"
  },
  {
   "property": "C76",
   "status": "partial",
   "theorems": [
    "normalize_points_partial",
    "normalize_average_refuted",
    "normalize_degenerate"
   ],
   "note": "false as documented: it is the root mean square distance that becomes sqrt(2), not the average distance; no points: undefined behaviour; all points equal: division by zero although true is returned"
  },
  {
   "property": "C77",
   "status": "partial",
   "theorems": [
    "project_to_rotation_partial",
    "project_to_rotation_refuted"
   ],
   "note": "false as documented: for every matrix of negative determinant the farthest rotation is returned; the nearest one for positive determinant"
  },
  {
   "property": "C78",
   "status": "proved",
   "theorems": [
    "decompose_essential_sound",
    "decompose_essential_recovers",
    "decompose_essential_candidates"
   ],
   "note": "real arithmetic; singular value decomposition by its contract"
  },
  {
   "property": "C79",
   "status": "proved",
   "theorems": [
    "best_pose_optimal",
    "best_pose_recovers"
   ],
   "note": "real arithmetic; singular value decomposition by its contract"
  },
  {
   "property": "C80",
   "status": "proved",
   "theorems": [
    "essential_from_cameras"
   ],
   "note": "real arithmetic"
  },
  {
   "property": "C81",
   "status": "proved",
   "theorems": [
    "fundamental_from_cameras",
    "projections_have_fundamental",
    "compose_fundamental_inverse"
   ],
   "note": "real arithmetic; singular value decomposition by its contract"
  },
  {
   "property": "C82",
   "status": "partial",
   "theorems": [
    "focal_lengths_right_partial",
    "focal_lengths_found_partial",
    "focal_lengths_sound",
    "focal_lengths_refuted",
    "focal_lengths_undefined_refuted"
   ],
   "note": "false as documented: an epipole with first coordinate 0 gives failure although the focal lengths are determined, an epipole at infinity gives success with values that are not numbers; returned numbers are always right and they are returned in general position"
  },
  {
   "property": "C83",
   "status": "proved",
   "theorems": [
    "in_front_of_cameras",
    "in_front_of_true_cameras"
   ],
   "note": "real arithmetic"
  },
  {
   "property": "C84",
   "status": "proved",
   "theorems": [
    "dlt_minimizes",
    "dlt_recovers_point"
   ],
   "note": "real arithmetic; singular value decomposition by its contract"
  },
  {
   "property": "C85",
   "status": "proved",
   "theorems": [
    "nview_minimizes",
    "nview_recovers_point",
    "nview_aborts"
   ],
   "note": "real arithmetic; eigenvalue solver by its contract"
  },
  {
   "property": "C86",
   "status": "proved",
   "theorems": [
    "midpoint_fails_iff_parallel",
    "midpoint_nearest",
    "midpoint_recovers_point",
    "midpoint_aborts"
   ],
   "note": "real arithmetic; the Cholesky solver is modelled and proved correct (LeastSquares)"
  },
  {
   "property": "C87",
   "status": "partial",
   "theorems": [
    "triangulate_recovers_point_partial",
    "corrected_points_constraint_refuted"
   ],
   "note": "false as documented: the correction uses the line of the wrong image, so the corrected points of a concrete pair violate the constraint and no point projects to both; proved for exact images"
  },
  {
   "property": "C88",
   "status": "partial",
   "theorems": [
    "nview_svd_recovers_point_refuted",
    "nview_svd_recovers_point_partial",
    "nview_svd_minimizes_partial"
   ],
   "note": "false: the design matrix is not initialized and there are memory contents for which an exact problem gives another point; proved when this memory is zero"
  },
  {
   "property": "C89",
   "status": "proved",
   "theorems": [
    "sufficient_angle_iff"
   ],
   "note": "real arithmetic"
  },
  {
   "property": "C90",
   "status": "proved",
   "theorems": [
    "translation_filter_keeps_consistent"
   ],
   "note": "real arithmetic; a single edge makes the axis not a number, not modelled"
  },
  {
   "property": "C91",
   "status": "proved",
   "theorems": [
    "translation_filter_exact",
    "translation_filter_short"
   ],
   "note": "real arithmetic"
  },
  {
   "property": "C92",
   "status": "proved",
   "theorems": [
    "translation_filter_breaks_cycle"
   ],
   "note": "real arithmetic"
  },
  {
   "property": "C93",
   "status": "proved",
   "theorems": [
    "localize_success",
    "localize_threshold"
   ],
   "note": "robust estimators and Ceres by their contracts"
  },
  {
   "property": "C94",
   "status": "proved",
   "theorems": [
    "localize_changes_only"
   ],
   "note": "robust estimators and Ceres by their contracts"
  },
  {
   "property": "C95",
   "status": "partial",
   "theorems": [
    "localize_failure_refuted",
    "localize_failure_partial"
   ],
   "note": "false: with too few inliers the pose and the focal length are already overwritten, and when the adjustment fails the view stays estimated; proved for too few estimated tracks and for failing estimators"
  },
  {
   "property": "C96",
   "status": "partial",
   "theorems": [
    "localize_shared_intrinsics_refuted",
    "localize_known_intrinsics_partial"
   ],
   "note": "false: the view itself is tested instead of the views that share its intrinsics, and the focal length of the estimated view is overwritten; proved: the exact condition that is used"
  },
  {
   "property": "C97",
   "status": "partial",
   "theorems": [
    "localize_fallback_refuted",
    "localize_known_orientation_partial"
   ],
   "note": "false: the call fails instead; proved: the other solvers are never used and the orientation is kept"
  },
  {
   "property": "C98",
   "status": "proved",
   "theorems": [
    "prior_roundtrip"
   ],
   "note": "doubles are reals"
  },
  {
   "property": "C99",
   "status": "proved",
   "theorems": [
    "prior_applied"
   ],
   "note": "doubles are reals"
  },
  {
   "property": "C100",
   "status": "proved",
   "theorems": [
    "priors_set_groups"
   ],
   "note": "for reconstructions whose views share intrinsics exactly within a group"
  },
  {
   "property": "C101",
   "status": "partial",
   "theorems": [
    "priors_keep_estimated_refuted",
    "priors_keep_estimated_partial"
   ],
   "note": "false: the estimated parameters are overwritten by the prior or the guess; proved: they are kept if the priors of estimated views are the ones made from their cameras"
  },
  {
   "property": "C102",
   "status": "proved",
   "theorems": [
    "camera_copies"
   ],
   "note": ""
  },
  {
   "property": "C103",
   "status": "proved",
   "theorems": [
    "incremental_frame"
   ],
   "note": "robust estimators and the nonlinear solver by their contracts; a run that ends with a CHECK failure does not return"
  },
  {
   "property": "C104",
   "status": "partial",
   "theorems": [
    "incremental_no_undefined_partial",
    "missing_views_undefined_refuted",
    "resume_undefined_refuted"
   ],
   "note": "false: views of the graph that are not in the reconstruction are dereferenced, and a resumed run erases a view that is not in the list; proved for graphs over existing views of which none is estimated before, with features within the range of int"
  },
  {
   "property": "C105",
   "status": "partial",
   "theorems": [
    "initial_pair",
    "initial_cameras_partial",
    "initial_cameras_refuted"
   ],
   "note": "all of it holds except for the pose of the first camera, which is not reset when an earlier candidate pair has moved it"
  },
  {
   "property": "C106",
   "status": "proved",
   "theorems": [
    "initial_pair_order",
    "next_views_order"
   ],
   "note": "with features within the range of int in units of pyramid cells"
  },
  {
   "property": "C107",
   "status": "partial",
   "theorems": [
    "underconstrained_partial",
    "underconstrained_views_refuted",
    "underconstrained_lost_refuted"
   ],
   "note": "false for views: the loop ends when either nothing of the one or nothing of the other kind was removed, and only the last count of views decides if views are put back; proved: all else, for views if no track was cleared or views were put back"
  },
  {
   "property": "C108",
   "status": "partial",
   "theorems": [
    "round_bookkeeping",
    "rounds_bounded_partial",
    "growth_test_partial",
    "growth_test_refuted",
    "optimized_count_refuted"
   ],
   "note": "false: the number of optimized views can become negative, and then full bundle adjustment is never used again; the bound on the rounds is for rounds in which the number of reconstructed views grows"
  },
  {
   "property": "C109",
   "status": "proved",
   "theorems": [
    "two_view_estimate",
    "two_view_estimate_total"
   ],
   "note": "for estimators that satisfy their contract"
  },
  {
   "property": "C110",
   "status": "proved",
   "theorems": [
    "verification_result",
    "verification_subset"
   ],
   "note": "for a first call of VerifyMatches and estimators that satisfy their contract; guided matching is an argument"
  },
  {
   "property": "C111",
   "status": "proved",
   "theorems": [
    "verification_no_undefined"
   ],
   "note": "without guided matching"
  },
  {
   "property": "C112",
   "status": "partial",
   "theorems": [
    "verification_limit_partial",
    "verification_limit_refuted",
    "negative_limit"
   ],
   "note": "false: exactly the minimum number of matches fails; proved: success exactly with more than that, without guided matching and adjustment; a negative limit always fails"
  },
  {
   "property": "C113",
   "status": "partial",
   "theorems": [
    "visibility_score_partial",
    "visibility_score_refuted"
   ],
   "note": "false: the score is computed from the vector of inliers before it is filled, so it is always 0"
  },
  {
   "property": "C114",
   "status": "partial",
   "theorems": [
    "homography_count_partial",
    "homography_count_refuted"
   ],
   "note": "false: the cameras have no image size yet when the homography inliers are counted, so the threshold is not scaled"
  },
  {
   "property": "C115",
   "status": "partial",
   "theorems": [
    "known_focal_partial",
    "known_focal_refuted"
   ],
   "note": "false if only one focal length is known: it is replaced by the estimate; proved if both are known"
  },
  {
   "property": "C116",
   "status": "proved",
   "theorems": [
    "guided_result"
   ],
   "note": "relative to the contract of the nearest neighbor search; keypoints of the second image with coordinates in [0, 65535]"
  },
  {
   "property": "C117",
   "status": "partial",
   "theorems": [
    "guided_features_partial",
    "guided_features_refuted"
   ],
   "note": "false: the feature of the second image may be a random one that has a match, and several features may get the same one; proved for the first image, and for the second image up to random features"
  },
  {
   "property": "C118",
   "status": "partial",
   "theorems": [
    "guided_defined_partial",
    "guided_defined_refuted"
   ],
   "note": "false if all features of the second image have a match or there is only one; proved for images of at most 65535 pixels, an unmatched feature, a distance of at least 1 and random numbers that are not all the same"
  },
  {
   "property": "C119",
   "status": "partial",
   "theorems": [
    "guided_search_partial",
    "guided_search_refuted"
   ],
   "note": "false: a feature on the line may be missed; proved: features closer than half the distance to a sample point of the mean segment of the group are considered (integer distances)"
  },
  {
   "property": "C120",
   "status": "partial",
   "theorems": [
    "line_segments_partial",
    "line_segments_refuted",
    "segment_number",
    "segment_order"
   ],
   "note": "false for lines through a corner of the box, which may be ignored; proved for the others; the numbers of segments are proved in full"
  },
  {
   "property": "C121",
   "status": "proved",
   "theorems": [
    "build_parts",
    "build_rounds"
   ],
   "note": "for estimators that only write estimates and keep the sharing of intrinsics (predicate keeps)"
  },
  {
   "property": "C122",
   "status": "partial",
   "theorems": [
    "build_result_partial",
    "build_exhausts_refuted",
    "build_result_refuted",
    "build_returns_refuted"
   ],
   "note": "false: a remaining pair of views is not tried, the result is true without a reconstruction when at most one view takes part or the vector was not empty, and the call may not return; proved: when it returns and what the result says"
  },
  {
   "property": "C123",
   "status": "proved",
   "theorems": [
    "build_only_calibrated"
   ],
   "note": ""
  },
  {
   "property": "C124",
   "status": "proved",
   "theorems": [
    "build_inputs",
    "given_inputs"
   ],
   "note": "with fewer than 2^31 calls and correspondences; the exact choice of matches is stated for calls that do not change priors after matches were added"
  },
  {
   "property": "C125",
   "status": "partial",
   "theorems": [
    "returned_intrinsics_stable_partial",
    "returned_intrinsics_stable_refuted"
   ],
   "note": "false for views with shared intrinsics, which the next estimate overwrites; proved for estimators that estimate whole groups"
  },
  {
   "property": "C126",
   "status": "partial",
   "theorems": [
    "given_builder_calls_partial",
    "builder_calls_refuted"
   ],
   "note": "false for both constructors; the undefined and aborting calls are stated, and that building a given reconstruction with tracks is defined"
  },
  {
   "property": "C127",
   "status": "proved",
   "theorems": [
    "added_images"
   ],
   "note": "with fewer than 2^31 calls"
  },
  {
   "property": "C128",
   "status": "proved",
   "theorems": [
    "global_poses_exact"
   ],
   "note": "the solvers are arguments with contracts; the views of the graph are assumed to be in the reconstruction"
  },
  {
   "property": "C129",
   "status": "proved",
   "theorems": [
    "global_remaining_edges"
   ],
   "note": ""
  },
  {
   "property": "C130",
   "status": "proved",
   "theorems": [
    "global_frame",
    "global_stored_poses",
    "adjust_positions_keeps"
   ],
   "note": "for calls that return"
  },
  {
   "property": "C131",
   "status": "proved",
   "theorems": [
    "global_tracks"
   ],
   "note": "for calls that return a success"
  },
  {
   "property": "C132",
   "status": "proved",
   "theorems": [
    "global_too_few_matches",
    "global_failed_poses"
   ],
   "note": ""
  },
  {
   "property": "C133",
   "status": "partial",
   "theorems": [
    "global_no_undefined_partial",
    "position_estimators_contract",
    "nonlinear_positions_total",
    "lud_positions_partial",
    "lud_positions_empty_refuted",
    "global_lud_emptied_refuted"
   ],
   "note": "false for the least unsquared deviation estimator: the comparison of rotations may leave no pair, and the estimator is undefined on an empty graph; proved for estimators that return, such as the nonlinear one, and for the least unsquared deviation estimator on a graph with a pair"
  },
  {
   "property": "C134",
   "status": "proved",
   "theorems": [
    "extraction_result",
    "extraction_no_images",
    "extraction_same_names_refuted"
   ],
   "note": "for images with distinct names; images with the same name lose features, as the third theorem shows"
  },
  {
   "property": "C135",
   "status": "proved",
   "theorems": [
    "extract_features_result",
    "extract_features_else",
    "extract_features_negative_refuted"
   ],
   "note": "a negative limit is no limit"
  },
  {
   "property": "C136",
   "status": "partial",
   "theorems": [
    "given_prior_partial",
    "given_prior_refuted"
   ],
   "note": "false for a prior without a focal length: its image size and principal point are replaced; proved for priors with a focal length, in every schedule"
  },
  {
   "property": "C137",
   "status": "proved",
   "theorems": [
    "select_pairs_result",
    "select_pairs_deterministic",
    "select_pairs_negative",
    "query_expansion_refuted"
   ],
   "note": "exact set of pairs, whatever the iteration orders; the last theorem shows that query expansion depends on the order of the images in the database"
  },
  {
   "property": "C138",
   "status": "partial",
   "theorems": [
    "extract_and_match_partial",
    "match_without_global_refuted",
    "requested_pairs_refuted",
    "only_calibrated_refuted",
    "no_neighbors_refuted"
   ],
   "note": "proved with global descriptors and a selection that is not empty; the refuted theorems are undefined behaviour without the global extractor, ignored requested pairs, uncalibrated images that are matched, all pairs for an empty selection"
  },
  {
   "property": "C139",
   "status": "partial",
   "theorems": [
    "extraction_race_refuted",
    "extraction_race_partial"
   ],
   "note": "two tasks use the in-memory database and the sampler without a lock; proved that there is no race with one thread"
  },
  {
   "property": "C140",
   "status": "proved",
   "theorems": [
    "calibration_round_trip",
    "json_parser_exists"
   ],
   "note": "for every parser that understands JSON texts; json_parser_exists shows that the modelled parser is one; doubles are rational numbers, without infinities and NaN; opening and writing the file succeed"
  },
  {
   "property": "C141",
   "status": "partial",
   "theorems": [
    "calibration_exact_partial",
    "calibration_exact_refuted",
    "calibration_name_refuted"
   ],
   "note": "false: six digits are written, and names are not escaped, so that a quote makes the file unreadable or changes other fields; proved for plain names and numbers with six digits"
  },
  {
   "property": "C142",
   "status": "proved",
   "theorems": [
    "calibration_file_says"
   ],
   "note": "for entries that can be used or lack a prior or a name; entries with a focal length, name or camera type of the wrong kind are the subject of C143"
  },
  {
   "property": "C143",
   "status": "partial",
   "theorems": [
    "calibration_bad_file_partial",
    "calibration_bad_file_refuted"
   ],
   "note": "false: text that is no JSON, or no JSON object, is undefined behaviour (a member of a null document is asked for), a focal length that is a string too, an unknown camera type ends the program; proved for missing files, texts without a closing brace and objects without a priors array"
  },
  {
   "property": "C144",
   "status": "proved",
   "theorems": [
    "colorize_mean"
   ],
   "note": "for color images with pixels from 0 to 1 that contain the features, tracks with views, and schedules that let every task finish; floats are exact rationals, so that the order of the additions does not matter"
  },
  {
   "property": "C145",
   "status": "partial",
   "theorems": [
    "colorize_checks_partial",
    "colorize_gray_refuted",
    "colorize_empty_track_refuted",
    "colorize_directory_refuted"
   ],
   "note": "false: a grayscale image leaves two of three color numbers uninitialized, a track without views divides zero by zero, a directory name without a slash at its end is not found; proved that missing directories, files and threads end the program"
  },
  {
   "property": "C146",
   "status": "partial",
   "theorems": [
    "rocksdb_usable_partial",
    "rocksdb_interrupted_constructor_refuted",
    "rocksdb_interrupted_removal_refuted",
    "rocksdb_creation_failure_refuted"
   ],
   "note": "false: a process that dies while it makes a new database, or in the middle of RemoveAllMatches, leaves a directory on which later calls dereference a null handle for ever, and so does a creation that fails; proved for deaths at every other point"
  },
  {
   "property": "C147",
   "status": "proved",
   "theorems": [
    "rocksdb_last_write"
   ],
   "note": "for databases that were made without interruption; RocksDB (atomic durable writes) and cereal (round trip) are assumed, machine failures are not modelled"
  },
  {
   "property": "C148",
   "status": "partial",
   "theorems": [
    "rocksdb_matches_partial",
    "rocksdb_slash_refuted"
   ],
   "note": "false: pairs are stored under one key with a slash between the names, so names with slashes collide; proved when no first name contains a slash"
  },
  {
   "property": "C149",
   "status": "partial",
   "theorems": [
    "rocksdb_counts_partial",
    "rocksdb_counts_refuted"
   ],
   "note": "false: the numbers are RocksDB's estimate, which counts overwritten entries; proved as an upper bound, and equal after a compaction"
  },
  {
   "property": "C150",
   "status": "proved",
   "theorems": [
    "hybrid_orientations"
   ],
   "note": ""
  },
  {
   "property": "C151",
   "status": "proved",
   "theorems": [
    "hybrid_frame"
   ],
   "note": "for inputs made by the API with intrinsics allocated for every view and usable priors, and estimators that meet their contracts"
  },
  {
   "property": "C152",
   "status": "partial",
   "theorems": [
    "hybrid_no_undefined_partial",
    "hybrid_missing_view_refuted"
   ],
   "note": "false for graphs with views that are not in the reconstruction; proved when all views of edges exist, no view is estimated before and the features fit"
  },
  {
   "property": "C153",
   "status": "partial",
   "theorems": [
    "hybrid_estimated_views_partial",
    "hybrid_estimated_views_refuted"
   ],
   "note": "false in every successful run: every view that was estimated before and is not in the initial pair ends unestimated; they are kept if the run fails before a pair is tried"
  },
  {
   "property": "C154",
   "status": "proved",
   "theorems": [
    "hybrid_initial_pair",
    "hybrid_pair_order"
   ],
   "note": ""
  },
  {
   "property": "C155",
   "status": "proved",
   "theorems": [
    "hybrid_keeps_orientations",
    "hybrid_exact_orientations",
    "hybrid_initial_orientations"
   ],
   "note": "The nonlinear solver is an argument that meets its contract: it returns the values of constant blocks unchanged."
  },
  {
   "property": "C156",
   "status": "proved",
   "theorems": [
    "ply_contents"
   ],
   "note": "How numbers are printed is an argument. At most 2^31 - 1 tracks and views together; the file has room for all lines."
  },
  {
   "property": "C157",
   "status": "partial",
   "theorems": [
    "ply_result_partial",
    "ply_result_refuted"
   ],
   "note": "False in the code: the stream is not checked after writing, so true is returned for a truncated file. Proved: false means that the file could not be opened and was not touched, and the contents are always a beginning of the complete text."
  },
  {
   "property": "C158",
   "status": "proved",
   "theorems": [
    "nvm_contents",
    "nvm_other_model"
   ],
   "note": "The file is modelled by the values that are written, not by its characters; indices are unbounded, writing does not fail."
  },
  {
   "property": "C159",
   "status": "proved",
   "theorems": [
    "colmap_contents",
    "colmap_other_model",
    "colmap_unopened"
   ],
   "note": "The files are modelled by the values that are written, not by their characters; writing does not fail. The second distortion parameter is the subject of C160."
  },
  {
   "property": "C160",
   "status": "partial",
   "theorems": [
    "colmap_distortion_partial",
    "colmap_distortion_refuted"
   ],
   "note": "False in the code: the first parameter is written twice. Proved for cameras whose two parameters are equal."
  },
  {
   "property": "C161",
   "status": "proved",
   "theorems": [
    "bundler_contents",
    "bundler_other_model"
   ],
   "note": "The files are modelled by the values that are written, not by their characters; indices are unbounded, writing does not fail."
  },
  {
   "property": "C162",
   "status": "proved",
   "theorems": [
    "sizes_missing",
    "sizes_set"
   ],
   "note": "Reading the size of an image is an argument; an image without columns ends the program and is excluded. That a second principal point replaces the first is a hypothesis on the setter."
  },
  {
   "property": "C163",
   "status": "partial",
   "theorems": [
    "sizes_center_partial",
    "sizes_center_refuted"
   ],
   "note": "False in the code for views that share intrinsics and have images of different sizes: the object has the center of one of them. Proved if images of a shared camera have the same size."
  },
  {
   "property": "C164",
   "status": "partial",
   "theorems": [
    "import_content_partial",
    "import_content_refuted"
   ],
   "note": "False in the code for a reconstruction that has views already: positions of cameras are used as view ids, so measurements are added to other views. Proved for an empty reconstruction, whenever the function returns."
  }
 ]
}