{
 "claims": [
  {
   "property": "C01",
   "status": "proved",
   "theorems": [
    "C01_storage_matches_size",
    "C01_calls_defined"
   ],
   "note": "Every history of the modelled public calls; exact rationals."
  },
  {
   "property": "C02",
   "status": "proved",
   "theorems": [
    "C02_added_cell_is_found",
    "C02_added_on_edge_refuted"
   ],
   "note": "Positions on the outer right/lower borders are shown to fail."
  },
  {
   "property": "C03",
   "status": "proved",
   "theorems": [
    "C03_add_disturbs_nothing_else"
   ],
   "note": ""
  },
  {
   "property": "C04",
   "status": "proved",
   "theorems": [
    "C04_enlarge"
   ],
   "note": ""
  },
  {
   "property": "C05",
   "status": "partial",
   "theorems": [
    "C05_isInside_rectangle",
    "C05_inside_lookup_partial",
    "C05_edge_lookup",
    "C05_inside_lookup_refuted"
   ],
   "note": "False on the right and lower outer edge (witness given); proved everywhere else."
  },
  {
   "property": "C06",
   "status": "proved",
   "theorems": [
    "C06_translate_discard"
   ],
   "note": ""
  },
  {
   "property": "C07",
   "status": "proved",
   "theorems": [
    "C07_translate_keep"
   ],
   "note": ""
  },
  {
   "property": "C08",
   "status": "proved",
   "theorems": [
    "C08_neighbours",
    "C08_neighbours_outside"
   ],
   "note": ""
  },
  {
   "property": "C09",
   "status": "proved",
   "theorems": [
    "C09_valid_cells"
   ],
   "note": ""
  },
  {
   "property": "C10",
   "status": "partial",
   "theorems": [
    "C10_valid_count_partial",
    "C10_valid_count_refuted"
   ],
   "note": "False after clear, ray tracing and discarding translation; proved for the other histories."
  },
  {
   "property": "C11",
   "status": "partial",
   "theorems": [
    "C11_copy_refuted"
   ],
   "note": "The property is false for every grid; the theorem says exactly what copying does."
  },
  {
   "property": "C12",
   "status": "partial",
   "theorems": [
    "C12_remove_partial",
    "C12_remove_outside",
    "C12_remove_reports_true_refuted"
   ],
   "note": "The return statement for the success case is missing in the code."
  },
  {
   "property": "C13",
   "status": "proved",
   "theorems": [
    "C13_ray",
    "C13_ray_outside"
   ],
   "note": ""
  },
  {
   "property": "C14",
   "status": "partial",
   "theorems": [
    "C14_ray_before_end_partial",
    "C14_short_ray_runs_to_border",
    "C14_ray_before_end_refuted"
   ],
   "note": "False for rays shorter than one cell."
  },
  {
   "property": "C15",
   "status": "proved",
   "theorems": [
    "C15_clear"
   ],
   "note": ""
  },
  {
   "property": "C31",
   "status": "proved",
   "theorems": [
    "C31_ids_agree_with_log",
    "C31_new_edge_id",
    "C31_addEdge_defined",
    "C31_fresh"
   ],
   "note": "Every history of addNode/addEdge/removeEdge and every allocator."
  },
  {
   "property": "C32",
   "status": "partial",
   "theorems": [
    "C32_removed_edge_partial",
    "C32_removed_edge_still_listed",
    "C32_removed_edge_gone_refuted"
   ],
   "note": "getEdge throws; but removed edges always stay in the adjacency lists (false half refuted)."
  },
  {
   "property": "C33",
   "status": "partial",
   "theorems": [
    "C33_removeEdge_total_partial",
    "C33_removeEdge_total_refuted"
   ],
   "note": "Removing the first never-used id is undefined behaviour; every other id is proved."
  },
  {
   "property": "C34",
   "status": "partial",
   "theorems": [
    "C34_iteration_partial",
    "C34_preincrement_refuted",
    "C34_first_removed_refuted",
    "C34_nodes"
   ],
   "note": "Pre-increment always reads past the end; id 0 removed breaks every traversal."
  },
  {
   "property": "C35",
   "status": "proved",
   "theorems": [
    "C35_adjacency",
    "C35_live_edges_listed"
   ],
   "note": ""
  },
  {
   "property": "C36",
   "status": "proved",
   "theorems": [
    "C36_poses"
   ],
   "note": "Every history of addPose/addConstrain/addLastConstrain/tryLoopClose/optimalize, with exceptions caught by the caller."
  },
  {
   "property": "C37",
   "status": "partial",
   "theorems": [
    "C37_constraint_kept_partial",
    "C37_information_refuted"
   ],
   "note": "Transform and end points are kept; the caller's information matrix is dropped (refuted)."
  },
  {
   "property": "C38",
   "status": "proved",
   "theorems": [
    "C38_last_constraint",
    "C38_last_constraint_throws",
    "C38_chain"
   ],
   "note": ""
  },
  {
   "property": "C39",
   "status": "proved",
   "theorems": [
    "C39_mirror",
    "C39_optimise"
   ],
   "note": "g2o itself is abstract: it may move every vertex that is not fixed arbitrarily."
  },
  {
   "property": "C40",
   "status": "proved",
   "theorems": [
    "C40_loop_close",
    "C40_loop_close_throws",
    "C40_loop_close_last"
   ],
   "note": ""
  },
  {
   "property": "C41",
   "status": "partial",
   "theorems": [
    "C41_thresholds_partial",
    "C41_true_distance_refuted"
   ],
   "note": "The accumulated distance starts from uninitialised memory (refuted for the true distance)."
  },
  {
   "property": "C42",
   "status": "partial",
   "theorems": [
    "C42_no_trace",
    "C42_defined_partial",
    "C42_drive",
    "C42_no_way_back_refuted",
    "C42_strict_refuted"
   ],
   "note": "Undefined if the queue runs empty (refuted); defined when all nodes lead to the query node."
  },
  {
   "property": "C43",
   "status": "partial",
   "theorems": [
    "C43_each_pair_once_partial",
    "C43_each_pair_once_refuted"
   ],
   "note": "False with parallel edges (witness)."
  },
  {
   "property": "C16",
   "status": "partial",
   "theorems": [
    "C16_occupancy_range_partial",
    "C16_occupancy_range_any",
    "C16_percentage",
    "C16_occupancy_nan_refuted",
    "C16_percentage_refuted"
   ],
   "note": "Occupancy in [-1,1] for every history of public calls without zero-length beams; with them it is that or NaN. False in full: a beam with start = end makes the occupancy NaN, and getOccupancy() reports values down to -100 (witness -20)."
  },
  {
   "property": "C17",
   "status": "proved",
   "theorems": [
    "C17_pooling_is_exact",
    "C17_merge_pools",
    "C17_merge_union",
    "C17_merge_mean",
    "C17_merge_missing",
    "C17_merge_between"
   ],
   "note": "Over exact reals; the covariance is the pooled one with its spectrum raised to 1% of the top eigenvalue (conditioning is part of the code's contract, C23)."
  },
  {
   "property": "C18",
   "status": "partial",
   "theorems": [
    "C18_merge_commutes",
    "C18_merge_groups_partial",
    "C18_grouping_refuted"
   ],
   "note": "Commutative. Grouping irrelevant for count and mean, and for the covariance when no intermediate pool needs conditioning; in general the covariance depends on the grouping (witness)."
  },
  {
   "property": "C19",
   "status": "partial",
   "theorems": [
    "C19_points_capped",
    "C19_points_grow_partial",
    "C19_points_grow_refuted"
   ],
   "note": "Cap holds for every reachable cell; the counter never falls when merging into a gaussian cell; it can fall (7 to 6) when the cell lost its gaussian to a beam."
  },
  {
   "property": "C20",
   "status": "partial",
   "theorems": [
    "C20_fresh_gaussian_partial",
    "C20_more_points",
    "C20_sample_covariance_refuted"
   ],
   "note": "Mean exact; covariance is (n-1)/n^2 (I + scatter) conditioned, not the sample covariance (witness)."
  },
  {
   "property": "C21",
   "status": "partial",
   "theorems": [
    "C21_few_points",
    "C21_rounds_partial",
    "C21_rounds_refuted"
   ],
   "note": "Fewer than six points never a gaussian; rounds equivalent to one call as long as six points are reached only in the last; six points followed by three lose the gaussian."
  },
  {
   "property": "C22",
   "status": "partial",
   "theorems": [
    "C22_passing_beam_partial",
    "C22_hit",
    "C22_beam_only",
    "C16_occupancy_nan_refuted"
   ],
   "note": "For all beams of non-zero length; zero length gives NaN."
  },
  {
   "property": "C23",
   "status": "proved",
   "theorems": [
    "C23_conditioning",
    "C23_rejection_refuted"
   ],
   "note": "Invariant of all reachable cells. The rejection branch has no effect (rescaleCovar always sets the gaussian flag), but no public call sequence reaches a non-positive spectrum."
  },
  {
   "property": "C24",
   "status": "proved",
   "theorems": [
    "C24_transform",
    "C24_transform_composes",
    "C24_transform_inverse",
    "C24_vocabulary"
   ],
   "note": ""
  },
  {
   "property": "C25",
   "status": "proved",
   "theorems": [
    "C25_move_split",
    "C25_move_rotated"
   ],
   "note": "Exact arithmetic; motions of fewer than 2^31 cells (int conversion in the code)."
  },
  {
   "property": "C26",
   "status": "proved",
   "theorems": [
    "C26_move_keeps_map"
   ],
   "note": "Gaussian cells keep their world position; cells without distribution move with their square."
  },
  {
   "property": "C27",
   "status": "partial",
   "theorems": [
    "C27_merge_accumulates_partial",
    "C27_merge_resize_replaces",
    "C27_merge_accumulates_refuted"
   ],
   "note": "Accumulates on an initialised grid without resize. With resize or on a fresh grid the last cell replaces the others (refuted, exact behaviour proved). Means exactly on cell borders excluded (see C02)."
  },
  {
   "property": "C28",
   "status": "partial",
   "theorems": [
    "C28_coarser_exact",
    "C28_coarser_merges_partial",
    "C28_coarser_merges_refuted"
   ],
   "note": "A coarse cell holds only the last of its fine cells (refuted); true when at most one lands there."
  },
  {
   "property": "C29",
   "status": "proved",
   "theorems": [
    "C29_occupancy_export"
   ],
   "note": ""
  },
  {
   "property": "C30",
   "status": "partial",
   "theorems": [
    "C30_serialized_origin_partial",
    "C30_serialized_origin_refuted"
   ],
   "note": "Only when no column lies left of the centre; otherwise the unsigned negation wraps (refuted)."
  },
  {
   "property": "C72",
   "status": "partial",
   "theorems": [
    "C72_radius_search_partial",
    "C72_own_cell",
    "C72_radius_search_refuted"
   ],
   "note": "Query points inside the window; from outside nothing is found (witness)."
  },
  {
   "property": "C73",
   "status": "proved",
   "theorems": [
    "C73_history",
    "C73_cloud_after_clear_refuted"
   ],
   "note": "Cell means off the exact cell borders; clear() leaves the stale cloud (witness)."
  },
  {
   "property": "C74",
   "status": "proved",
   "theorems": [
    "C74_nearest"
   ],
   "note": "The kd-tree is any function returning indices into the cloud."
  },
  {
   "property": "C75",
   "status": "proved",
   "theorems": [
    "C75_scan_partition"
   ],
   "note": "Points off the exact cell borders."
  },
  {
   "property": "C76",
   "status": "partial",
   "theorems": [
    "C76_traced_merge_partial",
    "C76_traced_resize_partial"
   ],
   "note": "A traced cell may lose its distribution (C22) but moves and gains none. Rays of at least one cell that start inside the window; C130 gives the exact content, also for shorter rays."
  },
  {
   "property": "C47",
   "status": "partial",
   "theorems": [
    "C47_transform_consistent_partial",
    "C47_tf_values"
   ],
   "note": "From the second accepted message on; at the first one an uninitialised transform is sent (C49)."
  },
  {
   "property": "C48",
   "status": "proved",
   "theorems": [
    "C48_increments_telescope",
    "C48_defined"
   ],
   "note": ""
  },
  {
   "property": "C49",
   "status": "partial",
   "theorems": [
    "C49_published_known_partial",
    "C49_published_unknown_refuted"
   ],
   "note": "False: before the second accepted message world_tf_trans_ is sent uninitialised (witness); proved exactly for all later ones."
  },
  {
   "property": "C50",
   "status": "proved",
   "theorems": [
    "C50_planar_covariance",
    "C50_symmetric"
   ],
   "note": ""
  },
  {
   "property": "C51",
   "status": "proved",
   "theorems": [
    "C51_conversions",
    "C51_meaning",
    "C51_message",
    "C51_displacement"
   ],
   "note": "Exact reals; signed zeros not distinguished."
  },
  {
   "property": "C52",
   "status": "proved",
   "theorems": [
    "C52_normalize",
    "C52_difference",
    "C52_add"
   ],
   "note": "Exact reals."
  },
  {
   "property": "C53",
   "status": "proved",
   "theorems": [
    "C53_frames",
    "C53_group",
    "C53_between",
    "C53_concat"
   ],
   "note": ""
  },
  {
   "property": "C54",
   "status": "partial",
   "theorems": [
    "C54_error_zero",
    "C54_jacobians_partial",
    "C54_no_jacobian_at_cut_refuted"
   ],
   "note": "Derivatives wherever the angle error is not exactly half a turn; there none exists."
  },
  {
   "property": "C55",
   "status": "partial",
   "theorems": [
    "C55_stays_psd",
    "C55_propagation_partial",
    "C55_propagation_refuted",
    "C55_associative_partial",
    "C55_associative_refuted"
   ],
   "note": "Positive semi-definiteness proved; propagation and associativity are false in general because the increment's angle is used for the accumulated one (witnesses)."
  },
  {
   "property": "C56",
   "status": "partial",
   "theorems": [
    "C56_inverse_partial",
    "C56_unadjusted_refuted"
   ],
   "note": "Inverse and conditioning proved; every matrix is adjusted, even the identity, because eigenvalues are read with a linear index."
  },
  {
   "property": "C79",
   "status": "proved",
   "theorems": [
    "C79_one_transform_per_message"
   ],
   "note": ""
  },
  {
   "property": "C44",
   "status": "proved",
   "theorems": [
    "C44_one_node_one_frame"
   ],
   "note": ""
  },
  {
   "property": "C45",
   "status": "partial",
   "theorems": [
    "C45_dead_reckoning_partial",
    "C45_dead_reckoning_refuted",
    "C45_increments_partial"
   ],
   "note": "True when every motion is used on its own; motions below the threshold are reported once and then dropped (witness)."
  },
  {
   "property": "C46",
   "status": "proved",
   "theorems": [
    "C46_window_correction",
    "C46_optimised_pose"
   ],
   "note": ""
  },
  {
   "property": "C77",
   "status": "partial",
   "theorems": [
    "C77_match_reported_partial",
    "C77_match_reported_refuted",
    "C77_match_motion_partial"
   ],
   "note": "True until a match fails; the fallback motion is then counted twice (witness)."
  },
  {
   "property": "C80",
   "status": "partial",
   "theorems": [
    "C80_never_fails_partial",
    "C80_never_fails_refuted"
   ],
   "note": "Defined if a read one past the end of a vector yields some value; by the letter of the language every run that makes a node is undefined."
  },
  {
   "property": "C81",
   "status": "proved",
   "theorems": [
    "C81_scan_used"
   ],
   "note": ""
  },
  {
   "property": "C82",
   "status": "partial",
   "theorems": [
    "C82_drawn_where_reported",
    "C82_rays_from_sensor_refuted"
   ],
   "note": "Position of the scan proved; rays start at the frame origin instead (witness)."
  },
  {
   "property": "C57",
   "status": "partial",
   "theorems": [
    "C57_split_partial",
    "C57_split_refuted"
   ],
   "note": "Proved for every non-empty token; an empty token makes split loop for ever."
  },
  {
   "property": "C58",
   "status": "partial",
   "theorems": [
    "C58_box",
    "C58_smallest_partial",
    "C58_smallest_refuted"
   ],
   "note": "The box always contains the origin, so it is the smallest one only for clouds around the origin."
  },
  {
   "property": "C69",
   "status": "partial",
   "theorems": [
    "C69_mixture_partial",
    "C69_mixture_refuted",
    "C69_best_component_partial",
    "C69_best_component_refuted"
   ],
   "note": "Proved for non-empty lists with positive weights and proper covariances; otherwise component -1 is read. Asking a new edge for its best component reads a number never set."
  },
  {
   "property": "C70",
   "status": "partial",
   "theorems": [
    "C70_switch_range_partial",
    "C70_switch_set",
    "C70_switch_nan_refuted"
   ],
   "note": "Proved for all updates that are numbers; an undefined number stays for ever."
  },
  {
   "property": "C83",
   "status": "partial",
   "theorems": [
    "C83_reinit_refuted"
   ],
   "note": "False: the determinants of the earlier components stay in use (witness). The positive statement for a first hand-over is C69."
  },
  {
   "property": "C84",
   "status": "partial",
   "theorems": [
    "C84_switch_jacobian_partial",
    "C84_switch_off",
    "C84_prior_jacobian"
   ],
   "note": "Derivatives proved except at the half turn, where the error jumps (see C54)."
  },
  {
   "property": "C63",
   "status": "proved",
   "theorems": [
    "C63_step_length"
   ],
   "note": "The interval search the code contains never changes the length; a positive minimum is assumed."
  },
  {
   "property": "C64",
   "status": "proved",
   "theorems": [
    "C64_fitting",
    "C64_signs"
   ],
   "note": ""
  },
  {
   "property": "C65",
   "status": "proved",
   "theorems": [
    "C65_derivatives",
    "C65_without_hessian",
    "C65_pose_vector",
    "C65_pose_vector_refuted"
   ],
   "note": "Proved for a further motion applied to the moved source. With respect to the pose vector, to which the step is added, the angle component is wrong (exact difference proved, witness given)."
  },
  {
   "property": "C66",
   "status": "partial",
   "theorems": [
    "C66_derivatives_partial",
    "C66_any_angle",
    "C66_gradient_refuted",
    "C66_hessian_refuted"
   ],
   "note": "Value proved; gradient proved except in the angle for nonzero angles below 1e-4, where its error is bounded (C66_any_angle); the Hessian is off by an exactly stated term in every entry."
  },
  {
   "property": "C67",
   "status": "partial",
   "theorems": [
    "C67_accept_partial",
    "C67_reject_partial",
    "C67_defined_partial",
    "C67_first",
    "C67_second",
    "C67_limit_setter",
    "C67_limit_refuted",
    "C67_unconverged_refuted"
   ],
   "note": "Proved for limits up to 0.6; above, transforms below the limit are accepted or an uninitialised one is used."
  },
  {
   "property": "C68",
   "status": "partial",
   "theorems": [
    "C68_pyramid_partial",
    "C68_zero_layers_refuted"
   ],
   "note": "Proved when at least one layer is requested; after setNumLayers(0) the next setter or getter is undefined."
  },
  {
   "property": "C85",
   "status": "proved",
   "theorems": [
    "C85_d2d_run",
    "C85_p2d_run"
   ],
   "note": ""
  },
  {
   "property": "C86",
   "status": "partial",
   "theorems": [
    "C86_covariance_refuted",
    "C85_d2d_run"
   ],
   "note": "False: the Hessian of the score is reported, which has negative variances at a maximum. The second part (information is its inverse) is in C85_d2d_run."
  },
  {
   "property": "C87",
   "status": "partial",
   "theorems": [
    "C87_self_refuted"
   ],
   "note": "False at a stationary point of the score."
  },
  {
   "property": "C61",
   "status": "proved",
   "theorems": [
    "C61_d2d_score_schedule",
    "C61_search_score",
    "C61_transform_refuted"
   ],
   "note": "Over the reals, for usable settings (positive steps and ranges, cells below 19.94 m). Beyond the claim: on equal scores the returned transform is not determined."
  },
  {
   "property": "C59",
   "status": "partial",
   "theorems": [
    "C59_table_partial",
    "C59_scores_partial",
    "C59_point_partial",
    "C59_wide_cells_refuted",
    "C59_empty_target_refuted"
   ],
   "note": "Proved for cells whose size times the deviation is at most 9.97 and targets with points; false beyond: wide cells run out of the table, an empty target gives no number."
  },
  {
   "property": "C60",
   "status": "partial",
   "theorems": [
    "C60_indexes_partial",
    "C60_indexes_refuted"
   ],
   "note": "False as stated: toIndexes() leaves the border out. True after moving the indexes by the border, for points inside the box."
  },
  {
   "property": "C62",
   "status": "partial",
   "theorems": [
    "C62_best_partial",
    "C62_offset_partial",
    "C62_best_refuted",
    "C62_guess_refuted",
    "C62_empty_range_refuted"
   ],
   "note": "False as stated: the guess is dropped from the result and the search looks one border off. Proved: the result is a candidate of the best search score, and what that score measures."
  },
  {
   "property": "C71",
   "status": "partial",
   "theorems": [
    "C71_frames",
    "C71_cloud_partial",
    "C71_redraw_partial",
    "C71_settles_partial",
    "C71_no_frames_refuted",
    "C71_fresh_refuted",
    "C71_twice_refuted",
    "C71_points_refuted"
   ],
   "note": "False as stated: a redraw keeps the old extent and traces rays before enlarging it, so the occupancy map can differ from a fresh merge and from one redraw to the next (witnesses); with no frame it is undefined. Even the cloud can lose a point in a redraw of unmoved frames (C71_points_refuted), because beams then start inside the map and end a distribution. Proved: the mapper keeps exactly the given frames; the cloud shows only what the frames put there last, all of it that no later beam crosses, and, where no frame's beams cross what an earlier one put down, depends only on the frames in time order and equals the fresh one; two mappers with the same frames and extent redraw the same map; from the second redraw on nothing changes."
  },
  {
   "property": "C78",
   "status": "partial",
   "theorems": [
    "C78_load_time",
    "C78_published_partial",
    "C78_published_refuted"
   ],
   "note": "False as stated: rows are published from the top while the message format counts from the bottom, and the origin is half a cell off (witness). Proved: the exact place of every entry and which cell it describes."
  },
  {
   "property": "C88",
   "status": "partial",
   "theorems": [
    "C88_initialize_partial",
    "C88_free_space_refuted"
   ],
   "note": "Distributions exact for scans with no point on a border between squares and none nearer than a cell. The free-space part is false: beams are followed before the window grows (witness)."
  },
  {
   "property": "C89",
   "status": "partial",
   "theorems": [
    "C89_add_scan_partial",
    "C89_add_scan_resize_partial",
    "C89_add_scan_plain_partial"
   ],
   "note": "Proved off the borders between squares and for beams of at least a cell. With resize a distribution replaces what was in its square instead of merging (also C27)."
  },
  {
   "property": "C90",
   "status": "partial",
   "theorems": [
    "C90_transform_partial"
   ],
   "note": "Proved when no turned mean falls on a border between squares."
  },
  {
   "property": "C91",
   "status": "partial",
   "theorems": [
    "C91_centroid_double",
    "C91_centroid_refuted",
    "C91_radius_partial",
    "C91_radius_refuted"
   ],
   "note": "False as stated: the centroid is doubled and the radius does not reach in tall frames. Proved for frames at least 15/8 as wide as high."
  },
  {
   "property": "C92",
   "status": "partial",
   "theorems": [
    "C92_accepted_partial",
    "C92_share_partial",
    "C92_rigid",
    "C92_returns_partial",
    "C92_share_refuted",
    "C92_perfect_refuted"
   ],
   "note": "False as stated: the score is divided by the number of target points and points on the border of the target do not count (witnesses). Proved for scans with no more points than the target and the smaller of the threshold and 0.6, over arbitrary registrations behind the matcher."
  },
  {
   "property": "C93",
   "status": "partial",
   "theorems": [
    "C93_history",
    "C93_empty",
    "C93_empty_grids",
    "C93_history_refuted"
   ],
   "note": "Proved for success, score and transform of frames with content and for the failure of empty ones; the transform reported with such a failure depends on the history (witness)."
  },
  {
   "property": "C94",
   "status": "partial",
   "theorems": [
    "C94_switch",
    "C94_prior",
    "C94_switchable",
    "C94_mixture_partial",
    "C94_mixture_refuted",
    "C94_null_refuted"
   ],
   "note": "Proved for switches, priors, switchable constraints (symmetric information) and mixtures read into a new edge; false for the edge with a null hypothesis (its text lacks the weight) and for mixtures read into an edge in use. Numbers are written exactly in the model."
  },
  {
   "property": "C95",
   "status": "partial",
   "theorems": [
    "C95_choice",
    "C95_null_partial",
    "C95_null_refuted",
    "C95_jacobian_partial",
    "C95_unread_refuted",
    "C95_at_first"
   ],
   "note": "False as stated: the exponents lack the factor 1/2, the Jacobian of the null hypothesis is scaled, and only read() sets the hypotheses (witnesses). Proved: exact rule used, never missing a more likely null hypothesis for weights up to 1, information and residual right, Jacobian right while the constraint is chosen."
  },
  {
   "property": "C96",
   "status": "partial",
   "theorems": [
    "C96_choice_partial",
    "C96_linear3_partial",
    "C96_landmark_partial",
    "C96_landmark_refuted",
    "C96_landmark_cost"
   ],
   "note": "Proved for proper component lists over any kind of component; the landmark edge does not choose again when linearised elsewhere (witness)."
  },
  {
   "property": "C97",
   "status": "partial",
   "theorems": [
    "C97_back_partial",
    "C97_stay",
    "C97_back_refuted"
   ],
   "note": "The estimate is restored and confirming changes nothing; the value is not restored, so a rejected update enters the next one (witness)."
  },
  {
   "property": "C98",
   "status": "partial",
   "theorems": [
    "C98_markers_partial",
    "C98_viewer_partial",
    "C98_markers_refuted"
   ],
   "note": "Proved if reading one element past the end of a vector goes well (the iterators do that on every traversal); undefined otherwise."
  },
  {
   "property": "C99",
   "status": "partial",
   "theorems": [
    "C99_text_partial"
   ],
   "note": "Proved if reading one element past the end of a vector goes well; the spelling of the lines is the subject of C128."
  },
  {
   "property": "C100",
   "status": "partial",
   "theorems": [
    "C100_map_current",
    "C100_cloud_partial"
   ],
   "note": "Which frames are drawn, where, with which content and in which order is proved for every history; the square by square form says that the cloud shows only what was put down last and all of that which no later beam crosses (a beam may end a distribution, C22), and needs frames with no position on a cell border and rays of at least a cell; C135 gives the exact content for beams of any length."
  },
  {
   "property": "C101",
   "status": "partial",
   "theorems": [
    "C101_frames",
    "C101_frozen",
    "C101_newest_partial"
   ],
   "note": "Content and finality proved for every history; the square by square form leaves open what a later beam does to a distribution it crosses (C22) and needs scans with no point on a cell border and rays of at least a cell; C135 gives the exact content for beams of any length."
  },
  {
   "property": "C102",
   "status": "proved",
   "theorems": [
    "C102_cloud_from_scans"
   ],
   "note": "For every history and every geometry, including degenerate ones; cells by the properties C20 and C23 prove of them."
  },
  {
   "property": "C103",
   "status": "partial",
   "theorems": [
    "C103_window_partial",
    "C103_guess_partial",
    "C103_stamp",
    "C103_guess_refuted"
   ],
   "note": "Where the window is and what it is stamped with is proved (shifts of matches taken as doubles); the guess leaves out all motion since the last match except that of the present call (witness)."
  },
  {
   "property": "C104",
   "status": "proved",
   "theorems": [
    "C104_window_points"
   ],
   "note": "For every history. Cells by the properties C17, C20, C22 and C24 prove of them; transforms of points are affine, and between unturned frames they are the difference of the origins."
  },
  {
   "property": "C105",
   "status": "proved",
   "theorems": [
    "C105_calls",
    "C105_topics",
    "C105_rejected",
    "C105_cloud",
    "C105_window",
    "C105_map",
    "C105_stamp"
   ],
   "note": "For every sequence of messages and every outcome of matcher, loop search and optimiser inside each call. Cells by the properties proved of them in C17-C24, transforms as in C104."
  },
  {
   "property": "C106",
   "status": "partial",
   "theorems": [
    "C106_correction",
    "C106_odometry_partial"
   ],
   "note": "The published transform is tied to the newest node and to everything registered, for every run; dead reckoning from messages to transform needs every message to report more than the smallest handled motion (C45)."
  },
  {
   "property": "C107",
   "status": "partial",
   "theorems": [
    "C107_covariance_refuted"
   ],
   "note": "False of the code: replacing the covariances of all messages by any others leaves every run possible, with the same published output."
  },
  {
   "property": "C108",
   "status": "partial",
   "theorems": [
    "C108_window_messages_partial",
    "C108_window_messages_refuted"
   ],
   "note": "The same distributions in the same order, displaced by a whole number of cells; the displacement is not zero once the window moved (witness)."
  },
  {
   "property": "C109",
   "status": "partial",
   "theorems": [
    "C109_cell_message",
    "C109_nan_refuted"
   ],
   "note": "Proved for cells whose beams have a length; a beam of length zero makes the occupancy not a number and hides the distribution from the receiver (witness)."
  },
  {
   "property": "C110",
   "status": "proved",
   "theorems": [
    "C110_measured",
    "C110_overlap",
    "C110_world",
    "C110_history",
    "C110_overlap_any",
    "C110_world_any"
   ],
   "note": "For every history, with the registrations of the program behind the detector; what is not in the repository (linear solver, neighbour search, thread schedule, sort) is a parameter. C110_overlap_any and C110_world_any: the same for any registration that returns rigid transforms and fails on empty frames."
  },
  {
   "property": "C111",
   "status": "proved",
   "theorems": [
    "C111_guess",
    "C111_length"
   ],
   "note": "For all poses."
  },
  {
   "property": "C112",
   "status": "proved",
   "theorems": [
    "C112_reach"
   ],
   "note": "For every history, with the registrations of the program."
  },
  {
   "property": "C113",
   "status": "proved",
   "theorems": [
    "C113_settings_idle",
    "C113_two_rounds",
    "C113_reach"
   ],
   "note": "For all layers, guesses and settings; an example corrects a guess by exactly 0.4."
  },
  {
   "property": "C114",
   "status": "proved",
   "theorems": [
    "C114_increment"
   ],
   "note": "For every history in which each match is one of the program's registration; shifts of matches are assumed to be doubles."
  },
  {
   "property": "C115",
   "status": "proved",
   "theorems": [
    "C115_step",
    "C115_call"
   ],
   "note": "For every sequence of messages; loop closings, which move the whole path, and skipped calls are excluded by hypothesis from the first and treated in the second."
  },
  {
   "property": "C116",
   "status": "proved",
   "theorems": [
    "C116_covers",
    "C116_never_smaller",
    "C116_bounded",
    "C116_radius_refuted"
   ],
   "note": "For every history; the last theorem shows that the configured radius by itself does not limit the window."
  },
  {
   "property": "C117",
   "status": "partial",
   "theorems": [
    "C117_start",
    "C117_only_these",
    "C117_misspelt_refuted",
    "C117_window",
    "C117_nodes",
    "C117_loops_partial",
    "C117_graph"
   ],
   "note": "Every setting is shown to do what it says in every run; the distance travelled before a loop is counted from an uninitialised value, and the documented-looking names odom_frame_id and map_frame_id are not read."
  },
  {
   "property": "C118",
   "status": "partial",
   "theorems": [
    "C118_frames",
    "C118_apart",
    "C118_unprefixed_refuted"
   ],
   "note": "Proved for robots with different prefixes; without a prefix namespaces do not keep robots apart."
  },
  {
   "property": "C119",
   "status": "partial",
   "theorems": [
    "C119_inputs",
    "C119_no_feedback",
    "C119_apart",
    "C119_scan_refuted"
   ],
   "note": "All topics but the laser scan's (and tf) are kept apart; the scan topic is fixed and the same for all robots (witness)."
  },
  {
   "property": "C120",
   "status": "proved",
   "theorems": [
    "C120_nodes",
    "C120_messages",
    "C120_edges",
    "C120_driven"
   ],
   "note": ""
  },
  {
   "property": "C121",
   "status": "partial",
   "theorems": [
    "C121_goes_on_partial",
    "C121_is_a_run",
    "C121_stops_refuted"
   ],
   "note": "Messages in general position are always answered; a scan with a distribution on a border between squares or exactly at the sensor leaves the window undefined and stops the program (witnesses)."
  },
  {
   "property": "C122",
   "status": "proved",
   "theorems": [
    "C122_odometry_frame",
    "C122_same_place"
   ],
   "note": ""
  },
  {
   "property": "C123",
   "status": "partial",
   "theorems": [
    "C123_ieee",
    "C123_inside",
    "C123_square_partial",
    "C123_square_refuted"
   ],
   "note": "Proved farther than 2^(n-48) cells from the lines between squares (n: reach in powers of two); closer to them the next square can be taken, at the border of the window undefined (witness)."
  },
  {
   "property": "C124",
   "status": "partial",
   "theorems": [
    "C124_operations_partial",
    "C124_added_is_found_partial",
    "C124_added_refuted"
   ],
   "note": "Proved farther than 2^(n-20) cells from the lines; a point less than the precision of float outside of the window is written beyond the storage (witness)."
  },
  {
   "property": "C125",
   "status": "proved",
   "theorems": [
    "C125_split_exact",
    "C125_other_sizes_refuted"
   ],
   "note": "Cell sizes that are powers of two, such as the program's; other sizes round (witness)."
  },
  {
   "property": "C126",
   "status": "proved",
   "theorems": [
    "C126_higher",
    "C126_rising",
    "C126_flatter",
    "C126_nan",
    "C126_interval",
    "C126_update",
    "C126_backwards",
    "C126_inside_refuted",
    "C126_signs"
   ],
   "note": "Looking forwards as the descriptions say; backwards the formula takes the maximum of the cubic and the step can lie outside of the interval, or be infinite (witnesses). The search itself never reaches these helpers (C63)."
  },
  {
   "property": "C127",
   "status": "proved",
   "theorems": [
    "C127_map_size",
    "C127_never_smaller",
    "C127_program",
    "C127_bounded"
   ],
   "note": "For every history of the mapper and every run of the program."
  },
  {
   "property": "C128",
   "status": "partial",
   "theorems": [
    "C128_readable_partial",
    "C128_number",
    "C128_exact_refuted"
   ],
   "note": "Character by character, with the standard's spelling of size_t and double; proved if reading one element past the end of a vector goes well (as C99). Exactness is false: six digits are written."
  },
  {
   "property": "C129",
   "status": "proved",
   "theorems": [
    "C129_reckoned",
    "C129_row",
    "C129_product",
    "C129_goes_on",
    "C129_ends_refuted",
    "C129_optimiser"
   ],
   "note": "The function has no caller. Stated from the log of earlier calls. That it always ends is false (refuted witness: two constraints there and back); C129_reckoned and C129_goes_on say exactly when it ends."
  },
  {
   "property": "C130",
   "status": "proved",
   "theorems": [
    "C130_merge",
    "C130_merge_resize",
    "C130_outside",
    "C130_scan",
    "C130_scan_resize",
    "C130_start",
    "C130_new_frame",
    "C130_decided",
    "C130_reach",
    "C130_segment",
    "C130_adds_up"
   ],
   "note": "Exact content of every square after a traced merge, for beams of any length above zero. Beams shorter than a cell run on to the border of the window (C14)."
  },
  {
   "property": "C131",
   "status": "partial",
   "theorems": [
    "C131_files",
    "C131_pairs",
    "C131_report_partial",
    "C131_mean_refuted",
    "C131_none",
    "C131_heading_refuted",
    "C131_missing",
    "C131_main",
    "C131_usage_refuted",
    "C131_bad_number"
   ],
   "note": "Two of the three figures are the mean errors; the first is too large by one n-th for every data set (the sum starts at Vector3d::Identity()). Direction errors are not wrapped, the usage is never printed, too few arguments and an unknown mode are undefined behaviour."
  },
  {
   "property": "C132",
   "status": "partial",
   "theorems": [
    "C132_map_partial",
    "C132_nothing",
    "C132_few",
    "C132_default_refuted",
    "C132_main",
    "C132_bad_number",
    "C132_bad_options"
   ],
   "note": "With a folder as only argument the outcome is undefined for every folder (at most 5000 scans are read, and the bound of the loop wraps below 10000). Proved for more than 17000 scans; from 10000 to 17000 the map is empty."
  },
  {
   "property": "C133",
   "status": "partial",
   "theorems": [
    "C133_invisible",
    "C133_defined",
    "C133_ids",
    "C133_switches",
    "C133_starts",
    "C133_consecutive_refuted",
    "C133_unknown_refuted"
   ],
   "note": "Proved for all histories, except that pose vertices are not numbered consecutively once a switch is added, and that a mixture between unknown poses is undefined behaviour."
  },
  {
   "property": "C134",
   "status": "proved",
   "theorems": [
    "C134_mixture",
    "C134_switch_cost"
   ],
   "note": "For mixtures between known poses with an information matrix of positive determinant; at an exact tie either hypothesis may show."
  },
  {
   "property": "C135",
   "status": "proved",
   "theorems": [
    "C135_frames",
    "C135_map",
    "C135_wider_scan",
    "C135_wider_frame"
   ],
   "note": "Exact recursion, scan by scan and frame by frame, for every history; needs positions off the borders between squares and beams of a length above zero."
  },
  {
   "property": "C136",
   "status": "partial",
   "theorems": [
    "C136_same_partial",
    "C136_cells_partial",
    "C136_short_partial",
    "C136_short_cells_partial",
    "C136_no_length",
    "C136_near_a_line_refuted",
    "C136_whole_length_refuted"
   ],
   "note": "Proved for rays whose length is farther than 2^(n-50) from a whole number of cells and whose steps stay farther than 2^(2n-45) cells (2^(2n-43) for rays shorter than a cell, which run to the border) from the lines; otherwise a cell more can be visited or, at the border, the access is undefined (witnesses)."
  },
  {
   "property": "C137",
   "status": "proved",
   "theorems": [
    "C137_picture",
    "C137_tells_apart"
   ],
   "note": ""
  },
  {
   "property": "C138",
   "status": "partial",
   "theorems": [
    "C138_grid_partial",
    "C138_cells",
    "C138_table",
    "C138_grid_refuted"
   ],
   "note": "Cells of the program always fit (C138_cells) and so do the numbers of the lookup table; a grid of other values loses its columns when a text is longer than five characters (witness)."
  },
  {
   "property": "C139",
   "status": "partial",
   "theorems": [
    "C139_lines_partial",
    "C139_colour_refuted"
   ],
   "note": "The traversal reads one element past the end of a vector (see C98); the first colour of every line is transparent black, since the second block of assignments sets the wrong variable."
  },
  {
   "property": "C140",
   "status": "partial",
   "theorems": [
    "C140_evidence",
    "C140_weight",
    "C140_no_distribution",
    "C140_setters",
    "C140_stops_short_refuted"
   ],
   "note": "The amount is exact for every beam of positive length; that only the traversed part of a line counts fails, since the most likely point is searched on the whole line (witness for every mean behind the end)."
  },
  {
   "property": "C141",
   "status": "proved",
   "theorems": [
    "C141_map"
   ],
   "note": ""
  },
  {
   "property": "C142",
   "status": "proved",
   "theorems": [
    "C142_goes_away",
    "C142_some_time",
    "C142_at_once",
    "C142_comes_back"
   ],
   "note": ""
  },
  {
   "property": "C143",
   "status": "proved",
   "theorems": [
    "C143_error",
    "C143_moved",
    "C143_first_pose",
    "C143_agree",
    "C143_optimum",
    "C143_only",
    "C143_newest"
   ],
   "note": ""
  },
  {
   "property": "C144",
   "status": "proved",
   "theorems": [
    "C144_range",
    "C144_error",
    "C144_direction",
    "C144_lost_refuted",
    "C144_enough",
    "C144_eleven",
    "C144_five"
   ],
   "note": "the rounding of the logarithm itself is not modelled: the evidence of a beam is any number"
  },
  {
   "property": "C145",
   "status": "partial",
   "theorems": [
    "C145_mean",
    "C145_covariance",
    "C145_positive",
    "C145_almost_symmetric",
    "C145_far_refuted",
    "C145_symmetric_refuted"
   ],
   "note": "Symmetry holds up to twice the error only: the two entries of a pair of coordinates are rounded differently (witness). Far from the origin (2^25) a variance can be negative (witness). Operations are taken as not fused."
  },
  {
   "property": "C146",
   "status": "proved",
   "theorems": [
    "C146_drift",
    "C146_weighted"
   ],
   "note": "One coordinate; the covariance of pooled cells is not rounded in the model."
  },
  {
   "property": "C147",
   "status": "proved",
   "theorems": [
    "C147_handed"
   ],
   "note": "For any algorithm; ROS (lookups, synchronisation) is the environment. That the handed covariance has no effect in this algorithm is C107."
  },
  {
   "property": "C148",
   "status": "proved",
   "theorems": [
    "C148_other_clock",
    "C148_started_later"
   ],
   "note": "Every run stays possible with the other stamps; what the environment decides (matcher, optimiser) is kept."
  },
  {
   "property": "C149",
   "status": "partial",
   "theorems": [
    "C149_fresh",
    "C149_setters",
    "C149_forgets",
    "C149_inside_partial",
    "C149_outside",
    "C149_bounds_refuted"
   ],
   "note": "False of the code: isInside answers whether the square holds a cell, not whether it lies within the bounds (refuted). The rest is proved; isInside on the right and lower outer edge is left out (see C05)."
  }
 ]
}