# Formal model of dynamic_slam (ndt_gslam) in Coq 8.16.1

## Approach

* The code is modelled function by function as total Gallina functions.
  Each definition cites the file and lines it models (paths relative to
  `/repo/ndt_gslam`; `INC` = `include/ndt_gslam`).
* Undefined behaviour is a separate outcome: `res A := Ok a | UB | Throw`.
  A null dereference, an out-of-range vector access, a missing `return`, a
  conversion of a negative float to `size_t` is `UB`; a C++ exception is `Throw`.
* Grid code (discrete part) is modelled over exact rationals `Q`, so it computes
  and needs no axiom.  Gaussian, angle and registration mathematics is modelled
  over Coq's real numbers `R` (standard-library axioms only).
* Each area has four kinds of file: model (`*Model.v`), an independent small
  specification (`*Spec.v`), proofs, and the property theorems (`Props*.v`: only
  statements closed by `exact`, with `Print Assumptions`, and `Example`s showing
  that the hypotheses are met).
* Where the code does not have the property, the theorem `*_refuted` exhibits a
  witness, and the strongest true restriction found is proved next to it with the
  suffix `_partial`.

| Area | Model | Specification | Proofs | Properties |
|---|---|---|---|---|
| voxel grid | VoxelModel | VoxelSpec | VoxelProofs, VoxelOps, VoxelAdd, VoxelQuery, VoxelRay, VoxelHist, VoxelFinal | PropsVoxel |
| NDT grid | GridModel | GridSpec | GridProofs, GridOps, GridCases | PropsGrid |
| frames from scans | GridModel | ScanSpec | ScanProofs, ScanInit | PropsScan, PropsStart |
| NDT cell | CellModel | CellSpec, EvidenceSpec | CellProofs, CellCases, CellBeam, CellMotion, LinAlg3 | PropsCell, PropsEvidence, PropsMotion |
| pose graph | GraphModel | GraphSpec | GraphProofs | PropsGraph |
| loop detector | LoopModel | LoopSpec | LoopProofs | PropsLoop |
| Slam2D | SlamModel | SlamSpec | SlamProofs | PropsSlam |
| published graph | ExportModel | ExportSpec | ExportProofs | PropsExport |
| whole system | SysModel | SysSpec | SysProofs SysMap CellsFrom SysCloud SysWindow SysHull SysFacts SysCases | PropsSys |
| whole program | RunModel, CellModel (messages) | RunSpec, CellSpec, RetimeSpec | SysMsg, CellMsg, RunProofs, RunCases, RetimeProofs | PropsRun, PropsRetime |
| closed loops of the system | CloseModel | CloseSpec, MatchSpec, SysSpec | LoopEdges, CloseProofs, CloseCases | PropsClose |
| the program's registrations in the system | RealModel, IncModel | RealSpec | RealProofs, RealClose, RealCases, IncProofs, IncCases, IncRun, IncRunCases | PropsReal, PropsInc, PropsIncRun |
| size of the running window | SysModel | WinSpec | WinSize, WinSizeCases | PropsWinSize |
| size of the graph | (the models above) | GrowSpec | GrowProofs | PropsGrow |
| going on | (the models above) | SafeSpec | SafeGrid, SafeProofs, SafeCases | PropsSafe |
| odometry frames | (the models above) | InvSpec | InvProofs | PropsInv |
| rounding | FloatModel, FloatRayModel, FloatOccModel, FloatBatchModel, FloatPoolModel | FloatSpec, FloatOccSpec, FloatBatchSpec, FloatPoolSpec | FloatIEEE, FloatErr, FloatProofs, FloatMove, FloatRay, FloatShort, FloatOcc, FloatBatch, FloatPool | PropsFloat, PropsFloatRay, PropsFloatOcc, PropsFloatBatch, PropsFloatPool |
| cost of the graph | AlgModel, OptModel | GaugeSpec | GaugeProofs | PropsGauge |
| printed texts, line list | PrintModel | PrintSpec | PrintProofs, PrintCorr | PropsPrint |
| map of known poses | KnownModel | KnownSpec | KnownProofs | PropsKnown |
| line search | RegModel | TrialSpec | TrialProofs | PropsTrial |
| size of the map | MapModel, SysModel | ExtSpec | ExtProofs | PropsExt |
| settings, frames and topics of the program | ParamModel | ParamSpec | ParamProofs, LoopWalk, ParamRun, ParamCases | PropsParam |
| front end | AlgModel | AlgSpec | AlgProofs, AlgCases | PropsAlg |
| geometry, ROS node | GeoModel, NodeModel | GeoSpec, NodeSpec, HandSpec | GeoProofs, GeoCov, NodeProofs, Deriv | PropsGeo, PropsHand |
| utilities | UtilModel | UtilSpec | UtilProofs | PropsUtil |
| g2o plug-ins | OptModel | OptSpec | OptProofs | PropsOpt |
| g2o plug-ins: text, null hypothesis, variants | PlugModel | PlugSpec | PlugProofs | PropsPlug |
| NDT registrations | RegModel | RegSpec | RegStep, RegNewton, RegDeriv, RegD2D, RegPose, RegFit, RegP2D, RegSmall, RegMisc, RegCases, MatDeriv | PropsReg |
| correlative registration | CorrModel | CorrSpec | CorrTable, CorrBuild, CorrInit, CorrSearch, CorrCases | PropsCorr |
| scan matcher | MatchModel | MatchSpec | MatchProofs, MatchCases | PropsMatch |
| mapper | MapModel | MapSpec | MapProofs, MapHist, MapDraw, MapMsg, MapCases | PropsMap |

## Trusted base

* Coq's kernel (8.16.1, no kernel check switched off, no native compiler, no
  plugin) and its standard library.  Flocq (a library without axioms of its own) gives
  the definition of IEEE rounding in `C123_ieee` and lemmas about it.
* The reading of the C++ text: that each definition does what the cited lines do,
  up to the simplifications listed below and in the comment of the definition.
* No axiom is declared in this development.  `Print Assumptions` is run on every
  property theorem in the `Props*.v` files; its result is one of
  * *closed under the global context* (all discrete properties),
  * *real numbers*: `ClassicalDedekindReals.sig_forall_dec`,
    `ClassicalDedekindReals.sig_not_dec` and
    `FunctionalExtensionality.functional_extensionality_dep`, the axioms under
    which the standard library constructs `R` (some theorems need only part of
    them),
  * *real numbers and `Classical_Prop.classic`*: in addition excluded middle, which
    the standard library uses for its trigonometry and analysis.
* A whole-library scan (`coqchk`, vcheck) also lists
  `Rdefinitions.RbaseSymbolsImpl.*`, `Rdefinitions.RinvImpl.*` and
  `ssr.ssrunder.Under_rel.*`.  They are sealed module fields of the standard
  library (definitions hidden behind a signature), not assumptions; no theorem here
  lists them.

| File | Class | Theorems |
|---|---|---|
| PropsAlg.v | real numbers and `classic` | `C44_one_node_one_frame`, `C45_dead_reckoning_partial`, `C45_dead_reckoning_refuted`, `C45_increments_partial`, `C46_window_correction`, `C46_optimised_pose`, `C77_match_reported_partial`, `C77_match_reported_refuted`, `C77_match_motion_partial`, `C80_never_fails_partial`, `C80_never_fails_refuted`, `C81_scan_used`, `C82_drawn_where_reported`, `C82_rays_from_sensor_refuted` |
| PropsBeam.v | closed under the global context | `C130_merge`, `C130_merge_resize`, `C130_outside`, `C130_scan`, `C130_scan_resize`, `C130_start`, `C130_new_frame`, `C130_decided`, `C130_reach`, `C130_segment` |
| PropsBeam.v | real numbers and `classic` | `C130_adds_up` |
| PropsCell.v | real numbers | `C16_percentage`, `C17_pooling_is_exact`, `C20_fresh_gaussian_partial`, `C20_sample_covariance_refuted`, `C21_few_points`, `C21_rounds_partial`, `C21_rounds_refuted`, `C23_rejection_refuted`, `C24_vocabulary` |
| PropsCell.v | real numbers and `classic` | `C16_occupancy_range_partial`, `C16_occupancy_range_any`, `C16_occupancy_nan_refuted`, `C16_percentage_refuted`, `C17_merge_pools`, `C17_merge_union`, `C17_merge_mean`, `C17_merge_missing`, `C17_merge_between`, `C18_merge_commutes`, `C18_merge_groups_partial`, `C18_grouping_refuted`, `C19_points_capped`, `C19_points_grow_partial`, `C19_points_grow_refuted`, `C20_more_points`, `C22_passing_beam_partial`, `C22_hit`, `C22_beam_only`, `C23_conditioning`, `C24_transform`, `C24_transform_composes`, `C24_transform_inverse` |
| PropsClose.v | real numbers | `C111_guess` |
| PropsClose.v | real numbers and `classic` | `C110_measured`, `C110_history`, `C110_overlap_any`, `C110_world_any`, `C111_length` |
| PropsCorr.v | real numbers and `classic` | `C61_search_score`, `C61_transform_refuted`, `C59_table_partial`, `C59_scores_partial`, `C59_point_partial`, `C59_wide_cells_refuted`, `C59_empty_target_refuted`, `C60_indexes_partial`, `C60_indexes_refuted`, `C62_best_partial`, `C62_offset_partial`, `C62_best_refuted`, `C62_guess_refuted`, `C62_empty_range_refuted` |
| PropsEval.v | closed under the global context | `C131_files` |
| PropsEval.v | real numbers and `classic` | `C131_pairs`, `C131_report_partial`, `C131_mean_refuted`, `C131_none`, `C131_heading_refuted`, `C131_missing`, `C131_main`, `C131_usage_refuted`, `C131_bad_number`, `C132_map_partial`, `C132_nothing`, `C132_few`, `C132_default_refuted`, `C132_main`, `C132_bad_number`, `C132_bad_options` |
| PropsEvidence.v | closed under the global context | `C140_setters` |
| PropsEvidence.v | real numbers and `classic` | `C140_evidence`, `C140_weight`, `C140_no_distribution`, `C140_stops_short_refuted` |
| PropsExport.v | closed under the global context | `C98_markers_partial`, `C98_viewer_partial`, `C98_markers_refuted`, `C99_text_partial` |
| PropsExt.v | closed under the global context | `C127_map_size`, `C127_never_smaller` |
| PropsExt.v | real numbers and `classic` | `C127_program`, `C127_bounded` |
| PropsFloat.v | closed under the global context | `C123_square_refuted`, `C124_added_refuted`, `C125_other_sizes_refuted` |
| PropsFloat.v | real numbers and `classic` | `C123_ieee`, `C123_inside`, `C123_square_partial`, `C124_operations_partial`, `C124_added_is_found_partial`, `C125_split_exact` |
| PropsFloatBatch.v | real numbers | `C145_far_refuted`, `C145_symmetric_refuted` |
| PropsFloatBatch.v | real numbers and `classic` | `C145_mean`, `C145_covariance`, `C145_positive`, `C145_almost_symmetric` |
| PropsFloatOcc.v | real numbers and `classic` | `C144_range`, `C144_error`, `C144_direction`, `C144_lost_refuted`, `C144_enough`, `C144_eleven`, `C144_five` |
| PropsFloatPool.v | real numbers | `C146_weighted` |
| PropsFloatPool.v | real numbers and `classic` | `C146_drift` |
| PropsFloatRay.v | closed under the global context | `C136_near_a_line_refuted`, `C136_whole_length_refuted` |
| PropsFloatRay.v | real numbers and `classic` | `C136_same_partial`, `C136_cells_partial`, `C136_short_partial`, `C136_short_cells_partial`, `C136_no_length` |
| PropsGauge.v | real numbers and `classic` | `C143_error`, `C143_moved`, `C143_first_pose`, `C143_agree`, `C143_optimum`, `C143_only`, `C143_newest` |
| PropsGeo.v | real numbers | `C47_tf_values`, `C50_planar_covariance`, `C50_symmetric`, `C51_meaning`, `C51_message`, `C51_displacement`, `C53_frames`, `C53_group`, `C56_inverse_partial`, `C56_unadjusted_refuted` |
| PropsGeo.v | real numbers and `classic` | `C47_transform_consistent_partial`, `C48_increments_telescope`, `C48_defined`, `C49_published_known_partial`, `C49_published_unknown_refuted`, `C51_conversions`, `C52_normalize`, `C52_difference`, `C52_add`, `C53_between`, `C53_concat`, `C54_error_zero`, `C54_jacobians_partial`, `C54_no_jacobian_at_cut_refuted`, `C55_stays_psd`, `C55_propagation_partial`, `C55_propagation_refuted`, `C55_associative_partial`, `C55_associative_refuted`, `C79_one_transform_per_message` |
| PropsGraph.v | closed under the global context | `C31_ids_agree_with_log`, `C31_new_edge_id`, `C31_addEdge_defined`, `C31_fresh`, `C32_removed_edge_partial`, `C32_removed_edge_still_listed`, `C32_removed_edge_gone_refuted`, `C33_removeEdge_total_partial`, `C33_removeEdge_total_refuted`, `C34_iteration_partial`, `C34_preincrement_refuted`, `C34_first_removed_refuted`, `C34_nodes`, `C35_adjacency`, `C35_live_edges_listed` |
| PropsGrid.v | closed under the global context | `C25_move_split`, `C25_move_rotated`, `C26_move_keeps_map`, `C27_merge_accumulates_partial`, `C27_merge_resize_replaces`, `C27_merge_accumulates_refuted`, `C28_coarser_exact`, `C28_coarser_merges_partial`, `C28_coarser_merges_refuted`, `C29_occupancy_export`, `C30_serialized_origin_partial`, `C30_serialized_origin_refuted`, `C72_radius_search_partial`, `C72_own_cell`, `C72_radius_search_refuted`, `C73_history`, `C73_cloud_after_clear_refuted`, `C74_nearest`, `C75_scan_partition`, `C76_traced_merge_partial`, `C76_traced_resize_partial` |
| PropsGrow.v | real numbers and `classic` | `C120_nodes`, `C120_messages`, `C120_edges`, `C120_driven` |
| PropsHand.v | real numbers and `classic` | `C147_handed` |
| PropsInc.v | real numbers and `classic` | `C113_settings_idle`, `C113_two_rounds`, `C113_reach`, `C114_increment` |
| PropsIncRun.v | real numbers and `classic` | `C115_step`, `C115_call` |
| PropsInv.v | real numbers and `classic` | `C122_odometry_frame`, `C122_same_place` |
| PropsKnown.v | real numbers and `classic` | `C141_map` |
| PropsLoop.v | closed under the global context | `C41_thresholds_partial`, `C41_true_distance_refuted`, `C42_no_trace`, `C42_defined_partial`, `C42_drive`, `C42_no_way_back_refuted`, `C42_strict_refuted`, `C43_each_pair_once_partial`, `C43_each_pair_once_refuted` |
| PropsMap.v | closed under the global context | `C71_frames`, `C71_cloud_partial`, `C71_redraw_partial`, `C71_settles_partial`, `C71_no_frames_refuted`, `C71_fresh_refuted`, `C71_twice_refuted`, `C71_points_refuted`, `C78_load_time`, `C78_published_partial`, `C78_published_refuted` |
| PropsMatch.v | real numbers | `C92_rigid`, `C93_history`, `C93_empty` |
| PropsMatch.v | real numbers and `classic` | `C92_accepted_partial`, `C92_share_partial`, `C92_returns_partial`, `C92_share_refuted`, `C92_perfect_refuted`, `C93_empty_grids`, `C93_history_refuted` |
| PropsMotion.v | real numbers and `classic` | `C142_goes_away`, `C142_some_time`, `C142_at_once`, `C142_comes_back` |
| PropsOpt.v | closed under the global context | `C69_best_component_refuted` |
| PropsOpt.v | real numbers | `C70_switch_range_partial`, `C70_switch_set`, `C70_switch_nan_refuted`, `C84_prior_jacobian` |
| PropsOpt.v | real numbers and `classic` | `C69_mixture_partial`, `C69_mixture_refuted`, `C69_best_component_partial`, `C83_reinit_refuted`, `C84_switch_jacobian_partial`, `C84_switch_off` |
| PropsParam.v | real numbers | `C117_start`, `C117_only_these`, `C117_misspelt_refuted`, `C118_frames`, `C118_apart`, `C118_unprefixed_refuted`, `C119_inputs`, `C119_no_feedback`, `C119_apart`, `C119_scan_refuted` |
| PropsParam.v | real numbers and `classic` | `C117_window`, `C117_nodes`, `C117_loops_partial`, `C117_graph` |
| PropsPlug.v | closed under the global context | `C94_switch`, `C95_unread_refuted` |
| PropsPlug.v | real numbers | `C94_prior`, `C94_switchable`, `C94_null_refuted`, `C95_at_first`, `C96_landmark_cost`, `C97_back_partial`, `C97_stay`, `C97_back_refuted` |
| PropsPlug.v | real numbers and `classic` | `C94_mixture_partial`, `C94_mixture_refuted`, `C95_choice`, `C95_null_partial`, `C95_null_refuted`, `C95_jacobian_partial`, `C96_choice_partial`, `C96_linear3_partial`, `C96_landmark_partial`, `C96_landmark_refuted` |
| PropsPrint.v | closed under the global context | `C137_picture`, `C137_tells_apart`, `C138_grid_partial`, `C138_grid_refuted`, `C139_lines_partial`, `C139_colour_refuted` |
| PropsPrint.v | real numbers and `classic` | `C138_cells`, `C138_table` |
| PropsReal.v | real numbers and `classic` | `C110_overlap`, `C110_world`, `C112_reach` |
| PropsReg.v | real numbers | `C63_step_length`, `C65_derivatives`, `C65_without_hessian`, `C65_pose_vector`, `C67_accept_partial`, `C67_reject_partial`, `C67_defined_partial`, `C67_first`, `C67_second`, `C67_limit_setter`, `C67_limit_refuted`, `C67_unconverged_refuted`, `C61_d2d_score_schedule` |
| PropsReg.v | real numbers and `classic` | `C64_fitting`, `C64_signs`, `C65_pose_vector_refuted`, `C66_derivatives_partial`, `C66_any_angle`, `C66_gradient_refuted`, `C66_hessian_refuted`, `C68_pyramid_partial`, `C68_zero_layers_refuted`, `C85_d2d_run`, `C85_p2d_run`, `C86_covariance_refuted`, `C87_self_refuted` |
| PropsRetime.v | real numbers and `classic` | `C148_other_clock`, `C148_started_later` |
| PropsRobust.v | real numbers and `classic` | `C133_invisible`, `C133_defined`, `C133_ids`, `C133_switches`, `C133_starts`, `C133_consecutive_refuted`, `C133_unknown_refuted`, `C134_mixture`, `C134_switch_cost` |
| PropsRun.v | real numbers and `classic` | `C105_calls`, `C105_topics`, `C105_rejected`, `C105_cloud`, `C105_window`, `C105_map`, `C105_stamp`, `C106_correction`, `C106_odometry_partial`, `C107_covariance_refuted`, `C108_window_messages_partial`, `C108_window_messages_refuted`, `C109_cell_message`, `C109_nan_refuted` |
| PropsSafe.v | real numbers and `classic` | `C121_goes_on_partial`, `C121_is_a_run`, `C121_stops_refuted` |
| PropsScan.v | closed under the global context | `C88_initialize_partial`, `C88_free_space_refuted`, `C89_add_scan_partial`, `C89_add_scan_resize_partial`, `C89_add_scan_plain_partial`, `C90_transform_partial`, `C91_centroid_double`, `C91_centroid_refuted`, `C91_radius_partial`, `C91_radius_refuted` |
| PropsSeed.v | closed under the global context | `C129_reckoned`, `C129_row`, `C129_goes_on`, `C129_ends_refuted`, `C129_optimiser` |
| PropsSeed.v | real numbers and `classic` | `C129_product` |
| PropsSlam.v | closed under the global context | `C36_poses`, `C37_constraint_kept_partial`, `C37_information_refuted`, `C38_last_constraint`, `C38_last_constraint_throws`, `C38_chain`, `C39_mirror`, `C39_optimise`, `C40_loop_close`, `C40_loop_close_throws`, `C40_loop_close_last` |
| PropsStart.v | closed under the global context | `C149_fresh`, `C149_setters`, `C149_forgets`, `C149_inside_partial`, `C149_outside`, `C149_bounds_refuted` |
| PropsSys.v | real numbers and `classic` | `C100_map_current`, `C100_cloud_partial`, `C101_frames`, `C101_frozen`, `C101_newest_partial`, `C102_cloud_from_scans`, `C103_window_partial`, `C103_guess_partial`, `C103_stamp`, `C103_guess_refuted`, `C104_window_points` |
| PropsSysExact.v | closed under the global context | `C135_wider_scan`, `C135_wider_frame` |
| PropsSysExact.v | real numbers and `classic` | `C135_frames`, `C135_map` |
| PropsText.v | closed under the global context | `C128_readable_partial`, `C128_number`, `C128_exact_refuted` |
| PropsTrial.v | real numbers | `C126_higher`, `C126_rising`, `C126_flatter`, `C126_nan`, `C126_update`, `C126_backwards`, `C126_inside_refuted`, `C126_signs` |
| PropsTrial.v | real numbers and `classic` | `C126_interval` |
| PropsUtil.v | closed under the global context | `C57_split_partial`, `C57_split_refuted`, `C58_box`, `C58_smallest_partial`, `C58_smallest_refuted` |
| PropsVoxel.v | closed under the global context | `C01_storage_matches_size`, `C01_calls_defined`, `C02_added_cell_is_found`, `C02_added_on_edge_refuted`, `C03_add_disturbs_nothing_else`, `C04_enlarge`, `C05_isInside_rectangle`, `C05_inside_lookup_partial`, `C05_edge_lookup`, `C05_inside_lookup_refuted`, `C06_translate_discard`, `C07_translate_keep`, `C08_neighbours`, `C08_neighbours_outside`, `C09_valid_cells`, `C10_valid_count_partial`, `C10_valid_count_refuted`, `C11_copy_refuted`, `C12_remove_partial`, `C12_remove_outside`, `C12_remove_reports_true_refuted`, `C13_ray`, `C13_ray_outside`, `C14_ray_before_end_partial`, `C14_short_ray_runs_to_border`, `C14_ray_before_end_refuted`, `C15_clear` |
| PropsWinSize.v | real numbers and `classic` | `C116_covers`, `C116_never_smaller`, `C116_bounded`, `C116_radius_refuted` |

## What is modelled

| Code | Modelled | Left out or abstract |
|---|---|---|
| `ndt/voxel_grid2d.h` | all public operations, text output | rounding only in FloatModel and FloatRayModel (index, growing, moving, ray tracing); sizes are unbounded naturals except the counter and the ray's iteration count (modulo 2^64) |
| `ndt/ndt_cell.h`, `src/ndt/ndt_cell.cpp` | all operations that change or read a cell, its message | the eigenvalue solver is any function meeting `eigen_solver` |
| `ndt/ndt_grid2d.h` | construction, scans, merging (plain, with cells, traced), transform, move, queries, export, coarser grid, serialisation of the origin, text output | file output, the kd-tree (arbitrary function) |
| `src/registration/ndt2d_visual.cpp` | main, test, testMatch, reading of the files, command line | text other than the final figures, clocks, the projection of a laser message, testSkip (not called) |
| `src/ndt/ndt_grid2d_merging.cpp` | main, mappingKnownPoses, reading of the files, command line | the functions main does not call, windows, the unused running window |
| `test/` | not modelled | test programs |
| `ndt/ndt_mapper.h`, `ndt/output_msgs.h`, `utils/msgs_conversions.h` | addFrame, recalc, message, cloud | removeFrame, updateFrame, combineFrames: they cannot be instantiated (`std::vector` has no `find`) |
| `slam_optimizer/pose_graph.h` | nodes, edges, ids, iterators | printNodes |
| `slam_optimizer/loop_detector.h` | genLoopClosures, loop search, thresholds, distances, starting guess | matcher arbitrary in LoopModel and the real scan matcher in CloseModel; queue order arbitrary; the covariance that orders the queue starts from uninitialised memory |
| `slam_optimizer/slam2d.h`, `graph_slam_interfaces.h`, `slam2d_policy.h` | poses, constraints, loop closing, optimisation, optimiser graph | g2o's solver (arbitrary new estimates for free vertices) |
| `ndt_slam_algorithm.h`, `ndt_grid2d_holder.h`, `slam_algorithm_interface.h` | update, node creation, loop closure, window moves | incremental matcher: arbitrary outcome in AlgModel and the real one in IncModel; frames and window are abstract functions in AlgModel and real grids, with the mapper, in SysModel (reals rounded to rationals by an arbitrary function) |
| `src/graph_slam2d_node.cpp`, `graph_slam2d_node.h` | message handling, odometry increments, published transforms, conversions, content of every topic, parameters, frames and topic names | ROS transport, remapping, message synchronisation |
| `utils/eigen_tools.h`, `covariance_wrapper.h`, `covariance_inverse.h` | all functions used by the code | - |
| `utils/string_tools.h`, `utils/point_cloud_tools.h` | split, bounding box, centroid and radius | - |
| `max_mixture/*`, `switchable_constraints/*` (planar) | component choice (all three mixtures), errors, Jacobians, switch updates with g2o's push and pop, text input and output | rounding of numbers in the text, `edge_se3Switchable`, text of the 3-D and landmark mixtures, the squared errors of 3-D components (arbitrary function), drawing |
| `registration/ndt_reg_tools.h`, `d2d_ndt2d.h`, `ndt2d.h`, `d2d_ndt2d_robust.h` | constants, scores, derivatives, step length, Newton loop, pyramid, robust decision | PCL base class (input checks), debug output |
| `registration/correlative_estimation_tools.h`, `correlative_estimation2d.h` | kernel, table, scores, indexes, search with threads, text output | debug scores computed and thrown away |
| `slam_optimizer/ndt_scanmatcher.h` (with the state kept by PCL's Registration) | match, setScoreThreshold | the point cloud files written by match (PCL refuses to write an empty cloud, so the program can throw there); PCL is assumed to keep the old cloud when given an empty one and to return at once when a cloud is missing |
| `pcl_holder.h` | not modelled | unused variant of the frame holder |

Arithmetic is exact (NaN and infinities are kept where the code can produce them),
except in FloatModel and FloatRayModel, which round the index computations, the growing, the ray tracing and the moving
of the grids as the machine does (overflow excluded).  Not expressible in this model:
concurrency below OpenMP's
distribution of loop iterations, ROS transport and time-outs, g2o's numerical
convergence, PCL's kd-tree.

## Properties

| Id | Property | Modelled and proved how | Status | File | What is (not) proved |
|---|---|---|---|---|---|
| C01 | Voxel grid storage always matches its announced size | invariant `wf` by induction over operation lists; every operation is shown to keep it | proved | PropsVoxel.v | Every history of the modelled public calls; exact rationals. |
| C02 | A cell that was added is found again at its position | refinement: `content g` is a partial map from plane cells to values; addCell is an update of it | proved | PropsVoxel.v | Positions on the outer right/lower borders are shown to fail. |
| C03 | Adding a cell disturbs no other cell | same refinement, all other keys unchanged | proved | PropsVoxel.v |  |
| C04 | Enlarging keeps all content in place and covers the requested box | resize as four loops that insert empty columns and rows; content unchanged, box covered | proved | PropsVoxel.v |  |
| C05 | Points reported as inside can be looked up safely | index arithmetic over Q; equivalence of lookup and window test; border witness | partial | PropsVoxel.v | False on the right and lower outer edge (witness given); proved everywhere else. |
| C06 | Discarding translation shifts the window exactly | loop over slots in code order; content shifted by (dx,dy), the rest empty | proved | PropsVoxel.v |  |
| C07 | Non-discarding translation loses nothing | enlarge then shift; content is the shifted map | proved | PropsVoxel.v |  |
| C08 | Neighbour query returns exactly the window | double loop; list characterised as the cells of the clipped square | proved | PropsVoxel.v |  |
| C09 | Listing valid cells is complete and ordered | filter of the slots in storage order | proved | PropsVoxel.v |  |
| C10 | validCells() equals the number of existing cells | counter modulo 2^64 carried in the state; history invariant; witnesses of de-synchronisation | partial | PropsVoxel.v | False after clear, ray tracing and discarding translation; proved for the other histories. |
| C11 | Copying a grid yields an equal grid | both copy operations as written; exact result for every grid | partial | PropsVoxel.v | The property is false for every grid; the theorem says exactly what copying does. |
| C12 | Removing a cell removes exactly that cell | removeCell with the missing return as UB after the effect | partial | PropsVoxel.v | The return statement for the success case is missing in the code. |
| C13 | Ray tracing reports the cells of the sampled segment, in order and without gaps | ray as the code's DDA loop, iteration count modulo 2^64; compared with the sampled segment | proved | PropsVoxel.v |  |
| C14 | A ray never reports cells beyond its end | same loop; bound on the cells for rays of at least one cell, witness for shorter ones | partial | PropsVoxel.v | False for rays shorter than one cell. |
| C15 | Clearing empties the grid and keeps its extent | map over slots | proved | PropsVoxel.v |  |
| C16 | Cell occupancy stays in its range | NDTCell over R with NaN as a value; invariant over all public-call histories | partial | PropsCell.v | Occupancy in [-1,1] for every history of public calls without zero-length beams; with them it is that or NaN. False in full: a beam with start = end makes the occupancy NaN, and getOccupancy() reports values down to -100 (witness -20). |
| C17 | Merging two cells gives the statistics of the pooled points | pooled mean and covariance against sums over point lists (`CellSpec.v`) | proved | PropsCell.v | Over exact reals; the covariance is the pooled one with its spectrum raised to 1% of the top eigenvalue (conditioning is part of the code's contract, C23). |
| C18 | Merge order does not matter | algebra over R; spectral floor shown to break associativity by a witness | partial | PropsCell.v | Commutative. Grouping irrelevant for count and mean, and for the covariance when no intermediate pool needs conditioning; in general the covariance depends on the grouping (witness). |
| C19 | Point counter is capped | history invariant, counter arithmetic modulo 2^64 | partial | PropsCell.v | Cap holds for every reachable cell; the counter never falls when merging into a gaussian cell; it can fall (7 to 6) when the cell lost its gaussian to a beam. |
| C20 | Freshly computed gaussian describes the inserted points | closed formula for computeGaussian against the sample formulas; witness | partial | PropsCell.v | Mean exact; covariance is (n-1)/n^2 (I + scatter) conditioned, not the sample covariance (witness). |
| C21 | Too few points never make a gaussian | case analysis on the buffered points and history lemma | partial | PropsCell.v | Fewer than six points never a gaussian; rounds equivalent to one call as long as six points are reached only in the last; six points followed by three lose the gaussian. |
| C22 | A beam passing through a cell never raises its occupancy | monotonicity of the logarithm of the computed likelihood | partial | PropsCell.v | For all beams of non-zero length; zero length gives NaN. |
| C23 | Covariances are kept well conditioned | spectral theorem for 3x3 symmetric matrices is the contract of the solver; eigenvalue floor; history invariant | proved | PropsCell.v | Invariant of all reachable cells. The rejection branch has no effect (rescaleCovar always sets the gaussian flag), but no public call sequence reaches a non-positive spectrum. |
| C24 | Rigid motion of a cell | SE(2) action on mean and covariance, matrix algebra | proved | PropsCell.v |  |
| C25 | Moving the window splits the motion into whole cells and a remainder | floor/truncation arithmetic on Q, int conversion with its bound | proved | PropsGrid.v | Exact arithmetic; motions of fewer than 2^31 cells (int conversion in the code). |
| C26 | Moving the window does not move the map | combination of C25 with the content map in world coordinates | proved | PropsGrid.v | Gaussian cells keep their world position; cells without distribution move with their square. |
| C27 | Merging a grid into another accumulates information | mergeIn as fold of addCell; exact result; witnesses for replacement | partial | PropsGrid.v | Accumulates on an initialised grid without resize. With resize or on a fresh grid the last cell replaces the others (refuted, exact behaviour proved). Means exactly on cell borders excluded (see C02). |
| C28 | Coarser grid keeps all information | createCoarserGrid as fold; last cell wins; witness | partial | PropsGrid.v | A coarse cell holds only the last of its fine cells (refuted); true when at most one lands there. |
| C29 | Occupancy grid export | export loop, entry = rounded occupancy of the slot | proved | PropsGrid.v |  |
| C30 | Serialized map origin matches the grid | serialize with the unsigned negation modulo 2^64 | partial | PropsGrid.v | Only when no column lies left of the centre; otherwise the unsigned negation wraps (refuted). |
| C31 | Edge and node identifiers are unique and stable | graph as slots + id pool + adjacency lists; edge addresses chosen by an arbitrary allocator; history invariant | proved | PropsGraph.v | Every history of addNode/addEdge/removeEdge and every allocator. |
| C32 | Removed edges are gone | refinement of getEdge to a finite map; adjacency witness | partial | PropsGraph.v | getEdge throws; but removed edges always stay in the adjacency lists (false half refuted). |
| C33 | removeEdge is total | all ids, case analysis on the pool | partial | PropsGraph.v | Removing the first never-used id is undefined behaviour; every other id is proved. |
| C34 | Iterating edges visits exactly the live edges | iterators as written, including the pre-increment read past the end | partial | PropsGraph.v | Pre-increment always reads past the end; id 0 removed breaks every traversal. |
| C35 | Adjacency lists mirror the edges | history invariant relating lists and edges | proved | PropsGraph.v |  |
| C36 | Pose identifiers are consecutive and poses are kept | Slam2D state = pose graph + optimiser graph; history induction with caught exceptions | proved | PropsSlam.v | Every history of addPose/addConstrain/addLastConstrain/tryLoopClose/optimalize, with exceptions caught by the caller. |
| C37 | Constraints keep what the caller supplied | history induction; witness for the information matrix | partial | PropsSlam.v | Transform and end points are kept; the caller's information matrix is dropped (refuted). |
| C38 | Last constraint joins the two most recent poses | direct, over all reachable states | proved | PropsSlam.v |  |
| C39 | Optimiser graph mirrors the pose graph | simulation relation between the two graphs along histories; optimiser = arbitrary new estimates | proved | PropsSlam.v | g2o itself is abstract: it may move every vertex that is not fixed arbitrarily. |
| C40 | Loop closing reports what it did | loop closing loop with arbitrary matcher and queue order; count of added edges | proved | PropsSlam.v |  |
| C41 | Reported loop closures satisfy the thresholds | loop invariant of the detector; uninitialised start distance is an input of the model | partial | PropsLoop.v | The accumulated distance starts from uninitialised memory (refuted for the true distance). |
| C42 | Loop search is safe and repeatable | loop invariant, UB on empty queue; sufficient condition | partial | PropsLoop.v | Undefined if the queue runs empty (refuted); defined when all nodes lead to the query node. |
| C43 | A loop query reports each pair once | loop invariant with distinct node pairs; witness | partial | PropsLoop.v | False with parallel edges (witness). |
| C44 | One node, one frame, one constraint per accepted frame | NdtSlamAlgortihm::update as state machine; invariant over update lists | proved | PropsAlg.v |  |
| C45 | Odometry fallback dead-reckons | sum of motions along histories; witness | partial | PropsAlg.v | True when every motion is used on its own; motions below the threshold are reported once and then dropped (witness). |
| C46 | Pose jump after graph optimisation is only the window correction | algebra of rigid transforms over the update step | proved | PropsAlg.v |  |
| C47 | Published transforms are consistent | node callback as state machine; trace of published transforms | partial | PropsGeo.v | From the second accepted message on; at the first one an uninitialised transform is sent (C49). |
| C48 | Odometry increments telescope | telescoping induction over messages | proved | PropsGeo.v |  |
| C49 | No transform is published before it is known | uninitialised transform kept as an explicit unknown | partial | PropsGeo.v | False: before the second accepted message world_tf_trans_ is sent uninitialised (witness); proved exactly for all later ones. |
| C50 | Planar covariance extraction | index computation | proved | PropsGeo.v |  |
| C51 | Pose and transform conversions are inverse | trigonometry: atan2 built from the standard library's atan | proved | PropsGeo.v | Exact reals; signed zeros not distinguished. |
| C52 | Angle normalisation | integer part arithmetic | proved | PropsGeo.v | Exact reals. |
| C53 | Relative transforms | group laws of SE(2) | proved | PropsGeo.v |  |
| C54 | Constraint error and Jacobians | `derivable_pt_lim` of each error component; jump at the half turn | partial | PropsGeo.v | Derivatives wherever the angle error is not exactly half a turn; there none exists. |
| C55 | Covariance propagation | quadratic forms; witness by evaluation | partial | PropsGeo.v | Positive semi-definiteness proved; propagation and associativity are false in general because the increment's angle is used for the accumulated one (witnesses). |
| C56 | Safe covariance inverse | diagonalisation contract of the solver, linear index as written | partial | PropsGeo.v | Inverse and conditioning proved; every matrix is adjusted, even the identity, because eigenvalues are read with a linear index. |
| C57 | Splitting and joining text | structural recursion with fuel shown sufficient; non-termination as a lemma for the empty token | partial | PropsUtil.v | Proved for every non-empty token; an empty token makes split loop for ever. |
| C58 | Bounding box | fold of min/max; smallest box characterised | partial | PropsUtil.v | The box always contains the origin, so it is the smallest one only for clouds around the origin. |
| C59 | Lookup table access is in bounds and scores are bounded | table as list of Z, every access checked; bound on the smoothing cascade | partial | PropsCorr.v | Proved for cells whose size times the deviation is at most 9.97 and targets with points; false beyond: wide cells run out of the table, an empty target gives no number. |
| C60 | Index scoring equals point scoring | index arithmetic with the border; witness | partial | PropsCorr.v | False as stated: toIndexes() leaves the border out. True after moving the indexes by the border, for points inside the box. |
| C61 | Parallel search does not depend on the schedule | arbitrary assignment of work items to threads; permutation invariance; sums per thread | proved | PropsCorr.v, PropsReg.v | Over the reals, for usable settings (positive steps and ranges, cells below 19.94 m). Beyond the claim: on equal scores the returned transform is not determined. |
| C62 | Correlative search result refers to the given guess | search as argmax over the candidate list; witness for the dropped guess | partial | PropsCorr.v | False as stated: the guess is dropped from the result and the search looks one border off. Proved: the result is a candidate of the best search score, and what that score measures. |
| C63 | Newton step length is bounded | More-Thuente wrapper with extended reals; clamp characterised | proved | PropsReg.v | The interval search the code contains never changes the length; a positive minimum is assumed. |
| C64 | Fitting constants have the right sign | sign analysis of exp/log expressions | proved | PropsReg.v |  |
| C65 | D2D gradient and Hessian are the derivatives of the score | derivative of the composed score along a moving pose, matrix calculus in `MatDeriv.v` | proved | PropsReg.v | Proved for a further motion applied to the moved source. With respect to the pose vector, to which the step is added, the angle component is wrong (exact difference proved, witness given). |
| C66 | Point-to-distribution gradient and Hessian are the derivatives of the score | same for point scores; the replaced sine and cosine are within 1e-4, which bounds the error of the slope | partial | PropsReg.v | Value proved; gradient proved except in the angle for nonzero angles below 1e-4, where its error is bounded (C66_any_angle); the Hessian is off by an exactly stated term in every entry. |
| C67 | Robust matcher acceptance rule | decision function of the robust matcher over arbitrary component outcomes | partial | PropsReg.v | Proved for limits up to 0.6; above, transforms below the limit are accepted or an uninitialised one is used. |
| C68 | Resolution pyramid | vector of layers with setters; history lemma | partial | PropsReg.v | Proved when at least one layer is requested; after setNumLayers(0) the next setter or getter is undefined. |
| C69 | Max-mixture picks the most likely component | argmin loop over the components with NaN and infinities | partial | PropsOpt.v | Proved for non-empty lists with positive weights and proper covariances; otherwise component -1 is read. Asking a new edge for its best component reads a number never set. |
| C70 | Switch variables stay in [0,1] | clamp with NaN; history induction | partial | PropsOpt.v | Proved for all updates that are numbers; an undefined number stays for ever. |
| C71 | Map redraw depends only on the frames | mapper as fold of traced merges over frames; simulation between maps of equal extent; witnesses computed | partial | PropsMap.v | False as stated: a redraw keeps the old extent and traces rays before enlarging it, so the occupancy map can differ from a fresh merge and from one redraw to the next (witnesses); with no frame it is undefined. Even the cloud can lose a point in a redraw of unmoved frames (C71_points_refuted), because beams then start inside the map and end a distribution. Proved: the mapper keeps exactly the given frames; the cloud shows only what the frames put there last, all of it that no later beam crosses, and, where no frame's beams cross what an earlier one put down, depends only on the frames in time order and equals the fresh one; two mappers with the same frames and extent redraw the same map; from the second redraw on nothing changes. |
| C72 | Radius search finds exactly the distributions within reach | neighbour window + distance filter against the set of all gaussians | partial | PropsGrid.v | Query points inside the window; from outside nothing is found (witness). |
| C73 | Distributions stay in the square of their mean | history invariant of the NDT grid | proved | PropsGrid.v | Cell means off the exact cell borders; clear() leaves the stale cloud (witness). |
| C74 | Nearest-neighbour queries return real distributions | kd-tree = arbitrary function into the cloud | proved | PropsGrid.v | The kd-tree is any function returning indices into the cloud. |
| C75 | A scan is partitioned into cells | fold over scan points; partition by cell | proved | PropsGrid.v | Points off the exact cell borders. |
| C76 | Free-space tracing only touches cells on the beams | ray cells of C13 applied to occupancy updates | partial | PropsGrid.v | A traced cell may lose its distribution (C22) but moves and gains none. Rays of at least one cell that start inside the window; C130 gives the exact content, also for shorter rays. |
| C77 | A matched scan determines the reported pose | state machine of the front end; witness | partial | PropsAlg.v | True until a match fails; the fallback motion is then counted twice (witness). |
| C78 | Published map shows cells where they are | entry/cell correspondence of the message computed from the window; witness | partial | PropsMap.v | False as stated: rows are published from the top while the message format counts from the bottom, and the origin is half a cell off (witness). Proved: the exact place of every entry and which cell it describes. |
| C79 | One transform per message | count along traces of the node | proved | PropsGeo.v |  |
| C80 | The front end never fails | totality of the step function in the UB monad, plus the strict reading | partial | PropsAlg.v | Defined if a read one past the end of a vector yields some value; by the letter of the language every run that makes a node is undefined. |
| C81 | A scan is used exactly when the robot moved enough | decision of the step function | proved | PropsAlg.v |  |
| C82 | Scans are drawn at the reported pose | pose arithmetic of the step; witness | partial | PropsAlg.v | Position of the scan proved; rays start at the frame origin instead (witness). |
| C83 | The components handed over last count | state of the mixture edge across two initialisations; witness | partial | PropsOpt.v | False: the determinants of the earlier components stay in use (witness). The positive statement for a first hand-over is C69. |
| C84 | Switchable constraint Jacobians | derivatives as for C54 | partial | PropsOpt.v | Derivatives proved except at the half turn, where the error jumps (see C54). |
| C85 | A registration run always ends and stays near its guess | Newton loop with fuel = iteration limit; bound on the accumulated steps | proved | PropsReg.v |  |
| C86 | The reported covariance is a covariance | witness at a maximum | partial | PropsReg.v | False: the Hessian of the score is reported, which has negative variances at a maximum. The second part (information is its inverse) is in C85_d2d_run. |
| C87 | A scan matches itself | witness at a stationary point | partial | PropsReg.v | False at a stationary point of the score. |
| C88 | A frame started from a scan holds exactly that scan | createGrid, traced merge of its cells into the cleared frame; content square by square | partial | PropsScan.v | Distributions exact for scans with no point on a border between squares and none nearer than a cell. The free-space part is false: beams are followed before the window grows (witness). |
| C89 | Adding a scan to a frame | as C88 on a frame in use | partial | PropsScan.v | Proved off the borders between squares and for beams of at least a cell. With resize a distribution replaces what was in its square instead of merging (also C27). |
| C90 | Transforming a frame | loop invariant over the added cells | partial | PropsScan.v | Proved when no turned mean falls on a border between squares. |
| C91 | Radius and centroid of a frame | exact formula and bound; witnesses | partial | PropsScan.v | False as stated: the centroid is doubled and the radius does not reach in tall frames. Proved for frames at least 15/8 as wide as high. |
| C92 | Accepted matches overlap | case analysis of the robust run; a positive table entry has a target point near; sums bound the number of hits | partial | PropsMatch.v | False as stated: the score is divided by the number of target points and points on the border of the target do not count (witnesses). Proved for scans with no more points than the target and the smaller of the threshold and 0.6, over arbitrary registrations behind the matcher. |
| C93 | A match does not depend on earlier ones | invariant of the matcher state over all histories | partial | PropsMatch.v | Proved for success, score and transform of frames with content and for the failure of empty ones; the transform reported with such a failure depends on the history (witness). |
| C94 | Saved robust edges read back | token streams; induction over the components written and read | partial | PropsPlug.v | Proved for switches, priors, switchable constraints (symmetric information) and mixtures read into a new edge; false for the edge with a null hypothesis (its text lacks the weight) and for mixtures read into an edge in use. Numbers are written exactly in the model. |
| C95 | The null hypothesis is chosen when it is more likely | likelihood ratio over the reals; run invariant of the edge; uniqueness of derivatives for the refutation | partial | PropsPlug.v | False as stated: the exponents lack the factor 1/2, the Jacobian of the null hypothesis is scaled, and only read() sets the hypotheses (witnesses). Proved: exact rule used, never missing a more likely null hypothesis for weights up to 1, information and residual right, Jacobian right while the constraint is chosen. |
| C96 | Spatial and landmark mixtures choose the most likely component | loop invariant of the component choice, generic in the component type | partial | PropsPlug.v | Proved for proper component lists over any kind of component; the landmark edge does not choose again when linearised elsewhere (witness). |
| C97 | A rejected optimiser step leaves no trace in a switch | induction over balanced push/pop sequences | partial | PropsPlug.v | The estimate is restored and confirming changes nothing; the value is not restored, so a rejected update enters the next one (witness). |
| C98 | The published graph shows every constraint once | run invariant relating edge types to the log of calls; induction over publications | partial | PropsExport.v | Proved if reading one element past the end of a vector goes well (the iterators do that on every traversal); undefined otherwise. |
| C99 | The text of the graph lists every pose and constraint | induction over nodes and edges | partial | PropsExport.v | Proved if reading one element past the end of a vector goes well; the spelling of the lines is the subject of C128. |
| C100 | The published map is that of the current graph | invariant of the composed front end, frames and mapper over all histories; frames as functions of the history | partial | PropsSys.v | Which frames are drawn, where, with which content and in which order is proved for every history; the square by square form says that the cloud shows only what was put down last and all of that which no later beam crosses (a beam may end a distribution, C22), and needs frames with no position on a cell border and rays of at least a cell; C135 gives the exact content for beams of any length. |
| C101 | A frame holds the scans drawn into it, and is final once it belongs to a node | same invariant: a frame is the fold of the scans drawn into it; scan_replace (C89) per scan | partial | PropsSys.v | Content and finality proved for every history; the square by square form leaves open what a later beam does to a distribution it crosses (C22) and needs scans with no point on a cell border and rays of at least a cell; C135 gives the exact content for beams of any length. |
| C102 | Every map point was seen | cells of every grid operation come from their arguments; induction over histories | proved | PropsSys.v | For every history and every geometry, including degenerate ones; cells by the properties C20 and C23 prove of them. |
| C103 | The running window follows the robot | invariant over histories: window origin times remainder is the last match | partial | PropsSys.v | Where the window is and what it is stamped with is proved (shifts of matches taken as doubles); the guess leaves out all motion since the last match except that of the present call (witness). |
| C104 | Every point of the running window was seen | invariant over histories: half planes that hold a placed scan hold its cells, under merging, turning and moving the window | proved | PropsSys.v | For every history. Cells by the properties C17, C20, C22 and C24 prove of them; transforms of points are affine, and between unturned frames they are the difference of the origins. |
| C105 | Everything published comes from accepted messages | transition system of the node around the mapping system; invariant ties the calls of the algorithm to the accepted messages; C100, C102, C103 and C104 applied to the history of calls | proved | PropsRun.v | For every sequence of messages and every outcome of matcher, loop search and optimiser inside each call. Cells by the properties proved of them in C17-C24, transforms as in C104. |
| C106 | The published transform corrects the odometry | same invariant; C45 and C46 applied to the history of calls; odometry motions multiply up | partial | PropsRun.v | The published transform is tied to the newest node and to everything registered, for every run; dead reckoning from messages to transform needs every message to report more than the smallest handled motion (C45). |
| C107 | The odometry's uncertainty is used | replace the covariances step by step in a run (simulation) | partial | PropsRun.v | False of the code: replacing the covariances of all messages by any others leaves every run possible, with the same published output. |
| C108 | The two messages about the window agree | invariant over histories: window unturned, origin a whole number of cells, cached means are those of its cells; concrete run as witness | partial | PropsRun.v | The same distributions in the same order, displaced by a whole number of cells; the displacement is not zero once the window moved (witness). |
| C109 | A cell's message tells its distribution | invariant over all histories of a cell: distribution iff six points and positive occupancy; entries of the message read back row by row | partial | PropsRun.v | Proved for cells whose beams have a length; a beam of length zero makes the occupancy not a number and hides the distribution from the receiver (witness). |
| C110 | A closed loop was measured | invariant over histories: each loop edge has a witness match on frames with the bodies of its end nodes; C92 gives the overlap; the registrations of the program return rigid transforms and fail on empty frames; concrete runs that close a loop | proved | PropsClose.v, PropsReal.v | For every history, with the registrations of the program behind the detector; what is not in the repository (linear solver, neighbour search, thread schedule, sort) is a parameter. C110_overlap_any and C110_world_any: the same for any registration that returns rigid transforms and fails on empty frames. |
| C111 | A loop candidate is matched from the heading alone | rotation algebra | proved | PropsClose.v | For all poses. |
| C112 | A loop closing edge has a limited length | bound of the registration over four layers (steps times rounds) and of the correlative search (its window), through the decision of the robust registration and the witness match of C110 | proved | PropsReal.v | For every history, with the registrations of the program. |
| C113 | The incremental registration takes two rounds per layer, whatever is configured | the clamped step is half the epsilon or zero, so the second round always ends a layer | proved | PropsInc.v | For all layers, guesses and settings; an example corrects a guess by exactly 0.4. |
| C114 | Matching cannot move the path far from the odometry | C113 through the update: the guess is the window position moved by this call's motion, the window moves with the match (C103) | proved | PropsInc.v | For every history in which each match is one of the program's registration; shifts of matches are assumed to be doubles. |
| C115 | Published poses follow the odometry from message to message | C114 and C107: the reported pose is the old one continued by the increment, the published transform is that pose seen from the odometry | proved | PropsIncRun.v | For every sequence of messages; loop closings, which move the whole path, and skipped calls are excluded by hypothesis from the first and treated in the second. |
| C116 | Size of the running window | extents of the grid through every operation of the window: enlarging adds less than a cell beyond what was asked, moving and tracing keep them; invariant over histories | proved | PropsWinSize.v | For every history; the last theorem shows that the configured radius by itself does not limit the window. |
| C117 | Settings do what they say | reading of the parameters modelled as a function into a configuration, which sets the environment of the whole program (C105); each setting's effect from C116, C44, C110 and, for the minimal distance, the walk the detector measured, which later calls keep in the graph | partial | PropsParam.v | Every setting is shown to do what it says in every run; the distance travelled before a loop is counted from an uninitialised value, and the documented-looking names odom_frame_id and map_frame_id are not read. |
| C118 | Published frames are the configured ones | frames of messages and lookups as functions of the configuration; names split at the first slash | partial | PropsParam.v | Proved for robots with different prefixes; without a prefix namespaces do not keep robots apart. |
| C119 | Topics of robots are kept apart | name resolution as in roscpp; names split at the last slash | partial | PropsParam.v | All topics but the laser scan's (and tf) are kept apart; the scan topic is fixed and the same for all robots (witness). |
| C120 | The graph grows with the path only | triangle inequality over the increments between nodes; one more edge and at most fifty closures for each new node; C114 for the odometry | proved | PropsGrow.v |  |
| C121 | The program goes on in general position | invariant over runs whose calls are in general position: frames, window and map well formed; each drawing step defined; insertion sort for the redrawn map | partial | PropsSafe.v | Messages in general position are always answered; a scan with a distribution on a border between squares or exactly at the sensor leaves the window undefined and stops the program (witnesses). |
| C122 | The frame of the odometry does not matter | simulation between the two runs; quotients of rigid motions do not see a common left factor, tf composition and inversion computed on rotations about z | proved | PropsInv.v |  |
| C123 | Rounding puts points into their own squares | rounding of rationals, shown equal to Flocq's; error bounds, monotonicity and exactness on dyadic numbers | partial | PropsFloat.v | Proved farther than 2^(n-48) cells from the lines between squares (n: reach in powers of two); closer to them the next square can be taken, at the border of the window undefined (witness). |
| C124 | Rounding does not spoil growing | float versions of enlargeToFit, addCell, removeCell, cellExists; errors of the single precision argument; equality with the exact model | partial | PropsFloat.v | Proved farther than 2^(n-20) cells from the lines; a point less than the precision of float outside of the window is written beyond the storage (witness). |
| C125 | Following the robot accumulates no rounding errors | canonical digits of a double reach below the size of a cell; quotient and difference are representable | proved | PropsFloat.v | Cell sizes that are powers of two, such as the program's; other sizes round (witness). |
| C126 | Trial steps of the line search | Hermite interpolation by explicit coefficients, roots of the slope by ideal membership, mean value arguments for the enclosed minimum | proved | PropsTrial.v | Looking forwards as the descriptions say; backwards the formula takes the maximum of the cubic and the step can lie outside of the interval, or be infinite (witnesses). The search itself never reaches these helpers (C63). |
| C127 | Size of the published map | window bounds carried through drawing and redrawing; every run shown to be a history of the mapper | proved | PropsExt.v | For every history of the mapper and every run of the program. |
| C128 | The text of the graph can be read again | the characters are produced by a model of operator<< (printf %g, precision 6); a reader written from the look of the text is shown to invert it line by line | partial | PropsText.v | Character by character, with the standard's spelling of size_t and double; proved if reading one element past the end of a vector goes well (as C99). Exactness is false: six digits are written. |
| C129 | Starting values from the odometry | the constraints leaving a pose are shown to be kept in the order they were added; induction along the way, bisimulation of the graph up to places for the optimiser | proved | PropsSeed.v | The function has no caller. Stated from the log of earlier calls. That it always ends is false (refuted witness: two constraints there and back); C129_reckoned and C129_goes_on say exactly when it ends. |
| C130 | Free-space evidence is counted once per beam | the samples of a beam visit each square in one run (convexity), so each is updated once; fold over the beams, square by square | proved | PropsBeam.v | Exact content of every square after a traced merge, for beams of any length above zero. Beams shorter than a cell run on to the border of the window (C14). |
| C131 | Figures of the matcher comparison | both tools are modelled from the text of the files and the command line on; induction over the loop against the relation that picks pairs, geometry by uniqueness of relative poses | partial | PropsEval.v | Two of the three figures are the mean errors; the first is too large by one n-th for every data set (the sum starts at Vector3d::Identity()). Direction errors are not wrapped, the usage is never printed, too few arguments and an unknown mode are undefined behaviour. |
| C132 | Map from recorded poses | the loop is run as often as its size_t bound says (binary count); induction on that count | partial | PropsEval.v | With a folder as only argument the outcome is undefined for every folder (at most 5000 scans are read, and the bound of the loop wraps below 10000). Proved for more than 17000 scans; from 10000 to 17000 the map is empty. |
| C133 | Robust loop constraints do not disturb the graph | the object with the optimiser's numbers made consecutive is a homomorphic image: every operation commutes with renumbering, so a history with robust constraints maps to the history without; ids by an invariant over histories | partial | PropsRobust.v | Proved for all histories, except that pose vertices are not numbered consecutively once a switch is added, and that a mixture between unknown poses is undefined behaviour. |
| C134 | Robust loop constraints give way to wrong closures | invariant over histories: each mixture holds its two components and was last evaluated at the current estimates; threshold from the likelihoods, switch cost by completing the square | proved | PropsRobust.v | For mixtures between known poses with an information matrix of positive determinant; at an exact tie either hypothesis may show. |
| C135 | Exact content of frames and map | induction over the scans of a frame and the frames of the map with the exact one-step theorems of C130; composition with the invariant of C100 | proved | PropsSysExact.v | Exact recursion, scan by scan and frame by frame, for every history; needs positions off the borders between squares and beams of a length above zero. |
| C136 | Tracing a ray with rounded numbers | error bounds for length, step and running sum (linear in the number of steps); the comparisons with the lines then agree; induction over the loop; short rays: errors relative to the length, and a bound on the step at which the window is left | partial | PropsFloatRay.v | Proved for rays whose length is farther than 2^(n-50) from a whole number of cells and whose steps stay farther than 2^(2n-45) cells (2^(2n-43) for rays shorter than a cell, which run to the border) from the lines; otherwise a cell more can be visited or, at the border, the access is undefined (witnesses). |
| C137 | The printed picture of a map | the loop over the cells, row by row; lines are split at line feeds; the k-th character of line r is the square of column k and row r | proved | PropsPrint.v |  |
| C138 | Numbers are printed in columns | the same with fields of five characters; the occupancy of C16 and the numbers of C59 bound the length of the texts | partial | PropsPrint.v | Cells of the program always fit (C138_cells) and so do the numbers of the lookup table; a grid of other values loses its columns when a text is longer than five characters (witness). |
| C139 | The graph as a list of lines | the loop adds the ends of the arrow that C98 shows for the same constraint | partial | PropsPrint.v | The traversal reads one element past the end of a vector (see C98); the first colour of every line is transparent black, since the second block of assignments sets the wrong variable. |
| C140 | How much one beam tells about a distribution | the squared Mahalanobis distance along a line is a parabola; its vertex is the point the code computes; monotone logarithm for the bounds | partial | PropsEvidence.v | The amount is exact for every beam of positive length; that only the traversed part of a line counts fails, since the most likely point is searched on the whole line (witness for every mean behind the end). |
| C141 | The map of known poses and its picture | the exact scan theorems of C130 for a sensor inside and outside the window; induction over the scans; C132 for the loop and C137 for the text | proved | PropsKnown.v |  |
| C142 | Obstacles that go away and come back | induction over the number of beams with the exact amount of C140; the Archimedean property for the time; a lower bound of the logarithm for three readings; the exact batch of C01 for the new distribution | proved | PropsMotion.v |  |
| C143 | Without a loop there is nothing to optimise | the cost through the g2o error of a pose constraint; invariance under rigid motions; induction over quiet histories for the poses as products of measured motions | proved | PropsGauge.v |  |
| C144 | The occupancy of a cell with rounded numbers | every operation of updateOccupancy rounded as its types say; Flocq's half-ulp bound below 1 and monotone rounding; the clamp is 1-Lipschitz; induction over the updates | proved | PropsFloatOcc.v | the rounding of the logarithm itself is not modelled: the evidence of a beam is any number |
| C145 | Mean and covariance with rounded numbers | the one-pass formulas with every operation rounded as in the text; running error bounds with monotone rounding for the magnitudes; the exact batch of C20 for the reference and for the smallest eigenvalue | partial | PropsFloatBatch.v | Symmetry holds up to twice the error only: the two entries of a pair of coordinates are rounded differently (witness). Far from the origin (2^25) a variance can be negative (witness). Operations are taken as not fused. |
| C146 | Means do not drift | both ways of pooling with every operation rounded; one step adds at most 32 units of 2^(e-53) because a weighted mean does not enlarge errors; induction over the sequence | proved | PropsFloatPool.v | One coordinate; the covariance of pooled cells is not rounded in the model. |
| C147 | The node hands every usable message to the algorithm once | the algorithm is any update function; induction over the messages with the calls written down | proved | PropsHand.v | For any algorithm; ROS (lookups, synchronisation) is the environment. That the handed covariance has no effect in this algorithm is C107. |
| C148 | Only the order of time stamps matters | simulation: the states of both runs agree but for stamps; a sorting of the frames stays one because the clock is monotone | proved | PropsRetime.v | Every run stays possible with the other stamps; what the environment decides (matcher, optimiser) is kept. |
| C149 | A grid can be started anew | the constructors and setters by computation; starting anew: two grids that differ in their contents only are equal once cleared; isInside through the look-up of C05 | partial | PropsStart.v | False of the code: isInside answers whether the square holds a cell, not whether it lies within the bounds (refuted). The rest is proved; isInside on the right and lower outer edge is left out (see C05). |

## Disagreements between the code and its documented behaviour

Most of these are theorems (`*_refuted`, or part of a `_partial` statement); the rest is
visible in the model definitions and their comments.

* Voxel grid: adding at points exactly on the right or lower cell border beyond the
  window writes the wrong cell or runs out of the storage.  Copies are never equal
  to the original.  Rays shorter than a cell run 2^64-1 iterations; a ray with equal
  ends divides by zero.  clear, rays and discarding translations leave the counter of
  valid cells behind.  removeCell has no return on success.  Rounding: a double just
  inside the right border is looked up outside of the storage, and one just outside of
  it does not make the window grow, because growing computes with float.
* NDT cell: a beam of length zero makes the occupancy NaN.  computeGaussian's
  covariance is (n-1)/n^2 (I + S).  A gaussian cell that gets fewer than six new
  points loses its gaussian, and merging into such a cell replaces its counter.
  rescaleCovar never rejects.  A beam that stops in front of a cell's mean counts as if
  it had gone through, since the most likely point is searched on the whole line.
* NDT grid: mergeIn with resize replaces instead of merging; createCoarserGrid drops
  the origin and keeps only the last fine cell; serialize wraps when the window
  extends to the left; the constructor from an origin leaves the cloud null; clear
  leaves the old cloud; a radius search from outside finds nothing; move treats only
  angles up to 1e-7 as aligned; starting a frame follows the beams before the window
  grows, so it records no free space; getCentroid is doubled and getRadius too short
  for tall windows.
* Mapper: redrawing frames that did not move can lose a point of the published cloud. A
  frame whose sensor is outside the map when it is added has none of its beams followed;
  in the redraw the map is already large enough, the beams are followed, and a beam can
  end the distribution of a cell it crosses (`C71_points_refuted`).
* Mapper: a redraw keeps the old window and traces rays before enlarging it, so it
  differs from a fresh merge, and a second redraw can differ from the first; a redraw
  before the first frame dereferences a null pointer; the published message is
  mirrored vertically and half a cell off.
* Pose graph: pre-increment reads past the end; removing the first never-used id is
  undefined; removed edges stay in the adjacency lists; after removing id 0
  traversals dereference null.
* Loop detector: start distance and covariance are uninitialised; the search pops
  from an empty queue; parallel edges give duplicates.
* Robust loop constraints (addMaxMixtureEdge, addSwitchConstrainEdge; no caller enables them): the matrix information_valid is computed and not used; a switch vertex takes a number out of the sequence of the poses, so the pose after it is no longer the successor of the pose before it (C133_consecutive_refuted), which is how g2o's EstimatePropagatorCostOdometry recognises odometry; a mixture between unknown poses dereferences a null pointer where addConstrain throws.  Eigen::Matrix<double,1,1>(1) is the value 1 from Eigen 3.3 on; in 3.2 it is a size, and the information of the prior is not set: the theorems hold for every value of it.
* Tools: ndt2d_visual starts its sum of errors at (1, 0, 0), does not wrap direction
  errors, never prints its usage (it looks at a missing argument instead) and calls a
  null matcher for an unknown mode; ndt_grid2d_merging with a folder as only argument
  always reads past the end of its scans.
* Slam2D: addConstrain ignores the caller's information matrix; addLastConstrain
  after one pose makes a self loop.
* Front end and node: the odometry fallback is counted twice; small motions are
  reported once and then dropped; the first motion is ignored; the world transform is
  sent uninitialised until the second accepted message; scans are traced from the
  frame origin; every run that makes a node reads one past the end of a vector.
* Geometry: covarInverse reads eigenvalues with a linear index; addToCovar uses the
  angle of the increment; the constraint error jumps at the half turn.
* Utilities: split never ends for an empty token; the bounding box always contains
  the origin.
* g2o plug-ins: a mixture without usable components reads component -1; a second
  initialisation keeps the old determinants; a switch that became NaN stays so; the
  edge with a null hypothesis writes a text it cannot read, compares exp(-m) instead of
  exp(-m/2), scales its Jacobian as well as its information and works only after
  read(); a mixture read into an edge in use keeps old weights; the landmark mixture is
  linearised without choosing again; a switch keeps the value of rejected updates.
* Registrations: the step search never changes the clamped length; the covariance is
  the Hessian and not its inverse; a registration at the optimum reports failure; the
  angular derivative of D2D is for another parametrisation than the step; P2D's
  Hessian has an extra term; robust matching above a limit of 0.6 accepts what it
  should reject; setNumLayers(0) makes the next call undefined.
  The helper that chooses trial steps takes the maximum of the interpolating cubic when
  it looks backwards, and minus infinity for a function that falls evenly.
* Incremental registration: its step size 0.01 is below half its epsilon 0.1, so every step
  is 0.05 long, every layer ends after two rounds, the 35 iterations are never used and a
  guess is corrected by at most 0.4.
* Correlative registration: toIndexes leaves the border out; the guess is dropped;
  cells of about 20 m run out of the table; an empty target gives NaN.
* Scan matcher: the score divides by the number of target points, so it can exceed
  one and accept a scan of which most points are far away; points on the border of the
  target do not count, so a perfect match can be rejected; a failed match with an empty
  scan reports a transform found for an older scan.
* Whole system: scans of a frame do not add up, the newest scan replaces the
  distribution of a square; scans of the current frame are not in the map until its
  node is made; the guess for the matcher leaves out the motion of skipped updates and
  failed matches.
* Whole program: the covariance of the odometry is computed by the node and ignored by
  the algorithm.  The cells of the window's NDT message are in window coordinates while
  its header names the frame of the map, so it disagrees with the window's cloud once
  the window moved.  Cells without distribution are sent unmarked; a receiver can still
  tell them apart unless a beam of length zero made the occupancy NaN.

## Testing the theorems

`seeded/LOG.jsonl` lists every edit of the model tried in a scratch copy, the claim
it breaks, the lemmas that stopped proving and the theorems tightened because of it.
An empty list of failed theorems is explained in the line's note.
