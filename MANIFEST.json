{
 "claims": [
  {
   "property": "C01",
   "status": "proved",
   "theorems": [
    "C01_rle_round_trip"
   ],
   "note": "for every byte list; counters without 32-bit wrap-around"
  },
  {
   "property": "C02",
   "status": "proved",
   "theorems": [
    "C02_rle_size_bound",
    "C02_rle_empty"
   ],
   "note": "documented bound n + n/256 + 1; attained by the witness"
  },
  {
   "property": "C03",
   "status": "proved",
   "theorems": [
    "C03_rle_decoder_safe",
    "C03_rle_decoder_terminates",
    "C03_rle_decoder_arbitrary_refuted"
   ],
   "note": "safe on compressor output; on arbitrary byte strings the decoder can read out of bounds (refuted theorem)"
  },
  {
   "property": "C04",
   "status": "proved",
   "theorems": [
    "C04_roundtrip",
    "C04_outcome",
    "C04_even_safe",
    "C04_odd_refuted"
   ],
   "note": "Round trip and exact outcome for every block; out-of-bounds write shown for every odd size"
  },
  {
   "property": "C05",
   "status": "proved",
   "theorems": [
    "C05_node_pool",
    "C05_node_allocated_flag",
    "C05_double_remove_refuted"
   ],
   "note": "removal only of nodes in use; double removal is a refuted theorem"
  },
  {
   "property": "C06",
   "status": "proved",
   "theorems": [
    "C06_tree_well_formed",
    "C06_tree_path",
    "C06_remove_inner_node_refuted"
   ],
   "note": "removal of nodes without children; removal of inner nodes can create a parent cycle (refuted theorem); the optional children lists are not modelled"
  },
  {
   "property": "C07",
   "status": "proved",
   "theorems": [
    "C07_nearest_neighbour"
   ],
   "note": "for every strict weak order of distances"
  },
  {
   "property": "C08",
   "status": "proved",
   "theorems": [
    "C08_path_valid_sound",
    "C08_path_valid_complete",
    "C08_limitless_slider_refuted",
    "C08_interpolation"
   ],
   "note": "positive answer gives a checked chain; completeness; a limitless translational joint voids the check (refuted)"
  },
  {
   "property": "C09",
   "status": "proved",
   "theorems": [
    "C09_rrt_solution",
    "C09_solution_after_failure_refuted",
    "C09_solution_null_pointer_refuted",
    "C09_start_is_goal_refuted"
   ],
   "note": "success implies a validated path from start to (near) goal; the solution after a failed plan can be an old one or crash (refuted theorems); 'near' is the end tolerance of the C-space's path constructors"
  },
  {
   "property": "C10",
   "status": "proved",
   "theorems": [
    "C10_birrt_solution",
    "C10_birrt_get_solution_safe",
    "C10_new_goal_refuted",
    "C10_solution_after_failure_refuted"
   ],
   "note": "histories that call setGoal only before plan or after reset; otherwise refuted"
  },
  {
   "property": "C11",
   "status": "proved",
   "theorems": [
    "C11_rrt_terminates",
    "C11_birrt_terminates"
   ],
   "note": "cycle limit, no divergence, node count bounded by the C-space capacity"
  },
  {
   "property": "C12",
   "status": "proved",
   "theorems": [
    "C12_shorten",
    "C12_shorten_covered",
    "C12_prune",
    "C12_prune_single_refuted",
    "C12_saved_points_refuted"
   ],
   "note": "shortcut and pruning: ends, length, checked steps, coverage; pruning of one-point paths (endless loop) and the documented return value of doShortcut are refuted"
  },
  {
   "property": "C13",
   "status": "proved",
   "theorems": [
    "C13_ends",
    "C13_neighbor_force_bounded",
    "C13_short_path_refuted",
    "C13_validity_refuted"
   ],
   "note": "ends and number of points; validity of inner configurations and short paths refuted"
  },
  {
   "property": "C14",
   "status": "proved",
   "theorems": [
    "C14_edits",
    "C14_copies",
    "C14_get_point",
    "C14_remove_count",
    "C14_insert_self_refuted",
    "C14_insert_self_at_end"
   ],
   "note": "edit histories, copies, removal count; inserting a trajectory into itself is refuted (correct only at the end)"
  },
  {
   "property": "C15",
   "status": "proved",
   "theorems": [
    "C15_interpolate",
    "C15_blend_divides",
    "C15_index_refuted"
   ],
   "note": "interpolation over exact reals, first/last/inner points; the segment index stored for zero length paths is refuted"
  },
  {
   "property": "C16",
   "status": "proved",
   "theorems": [
    "C16_history",
    "C16_increments",
    "C16_destroy",
    "C16_clone",
    "C16_clone_refuted",
    "C16_two_objects"
   ],
   "note": "Histories of all mutating calls on an explicit heap, saturating increments, destructor, clone and independence; clone is undefined beyond 2^31 positions"
  },
  {
   "property": "C17",
   "status": "proved",
   "theorems": [
    "C17_filled",
    "C17_maximum",
    "C17_maximum_exact",
    "C17_filled_refuted",
    "C17_filled_refuted_reset",
    "C17_maximum_refuted",
    "C17_binarize_refuted",
    "C17_sums_refuted"
   ],
   "note": "Exact under the stated conditions; counterexamples outside them"
  },
  {
   "property": "C18",
   "status": "proved",
   "theorems": [
    "C18_axes",
    "C18_voxel",
    "C18_accepts",
    "C18_inside",
    "C18_tolerance_refuted",
    "C18_pose",
    "C18_position",
    "C18_position_refuted",
    "C18_local",
    "C18_local_three",
    "C18_local_refuted",
    "C18_voxel_size"
   ],
   "note": "initialize (grid part), getVoxelFromPose, getVoxelFromPosition, both getPoseFromVoxel, getVoxelSize on local pose vectors over rationals; matrix/vector conversion and float rounding not modelled. Refuted: symmetric tolerance, agreement of getVoxelFromPose and getVoxelFromPosition at the upper bound, protected getPoseFromVoxel for one or two voxels, getVoxelSize(6) reads out of bounds."
  },
  {
   "property": "C19",
   "status": "proved",
   "theorems": [
    "C19_cells",
    "C19_position",
    "C19_region",
    "C19_border_refuted",
    "C19_max",
    "C19_random",
    "C19_random_refuted",
    "C19_cell_width"
   ],
   "note": "WorkspaceGrid: new_grid (constructor), setEntry, setCellEntry, setEntryCheckNeighbors, setGridPosition, reset, getEntry, getCellEntry, getMaxEntry, getRandomPos over rational positions; every history. Border asymmetry and getRandomPos position shown as _refuted witnesses."
  },
  {
   "property": "C20",
   "status": "proved",
   "theorems": [
    "C20_set",
    "C20_history",
    "C20_value_unique",
    "C20_one_level_refuted",
    "C20_resolution",
    "C20_too_coarse_refuted"
   ],
   "note": "VoxelTreeND over rationals; one-level trees answer reads outside the extends (refuted there); too coarse discretization undefined"
  },
  {
   "property": "C21",
   "status": "proved",
   "theorems": [
    "C21_iterator",
    "C21_count",
    "C21_one_level_refuted"
   ],
   "note": "one-level trees make the iterator read a missing array (refuted there)"
  },
  {
   "property": "C22",
   "status": "proved",
   "theorems": [
    "C22_roundtrip",
    "C22_empty_refuted"
   ],
   "note": "the loaded tree is equal to the saved one; an empty one-level tree cannot be saved (refuted there)"
  },
  {
   "property": "C23",
   "status": "proved",
   "theorems": [
    "C23_string",
    "C23_any_string",
    "C23_refuted",
    "C23_words",
    "C23_int",
    "C23_matrix"
   ],
   "note": "readString, writeString, read/write of int32 and float words, arrays and matrices on byte lists. Empty strings and strings with NUL are refuted for the literal round trip."
  },
  {
   "property": "C24",
   "status": "proved",
   "theorems": [
    "C24_round_trip",
    "C24_restored",
    "C24_base_refuted",
    "C24_static_refuted",
    "C24_version_refuted",
    "C24_manipulability_refuted"
   ],
   "note": "save/load of WorkspaceRepresentation with Manipulability custom fields on byte lists; the bzip2 data codec is a parameter with a round-trip contract. Refuted: missing base node, unregistered collision set, re-saving version 1.0, re-saving Manipulability 2.8."
  },
  {
   "property": "C25",
   "status": "proved",
   "theorems": [
    "C25_queue",
    "C25_min_test",
    "C25_sorted",
    "C25_overfull_undefined"
   ],
   "note": "Every history within capacity is served as a multiset priority queue, without out-of-bounds access, from any uninitialised memory."
  },
  {
   "property": "C26",
   "status": "proved",
   "theorems": [
    "C26_hull",
    "C26_all_inputs"
   ],
   "note": "C26_hull: for every input and bound, the kept points are a maximal well-separated part of the input, the vertices are kept points, all kept points are weighted means of the vertices, and (unless all kept points are on one vertical line) any three vertices in order turn left; two vertices iff the kept points are collinear; exception iff fewer than three kept points; vertical degenerate case described. Exact integer arithmetic on the float grid, rounding left out."
  },
  {
   "property": "C27",
   "status": "proved",
   "theorems": [
    "C27_inside",
    "C27_half_planes"
   ],
   "note": "C27_inside: on every hull produced by createConvexHull2D (degenerate ones included) isInside is true exactly for the weighted means of the vertices; C27_half_planes: for strictly convex polygons these are the points left of or on every edge."
  },
  {
   "property": "C28",
   "status": "proved",
   "theorems": [
    "C28_algebra",
    "C28_matrices",
    "C28_not_unit_refuted"
   ],
   "note": "Over the reals (no rounding)."
  },
  {
   "property": "C29",
   "status": "proved",
   "theorems": [
    "C29_slerp",
    "C29_start",
    "C29_slerp_refuted"
   ],
   "note": "The stated interpolation is refuted for the code (components swapped); what it returns is characterised exactly."
  },
  {
   "property": "C30",
   "status": "proved",
   "theorems": [
    "C30_rotation",
    "C30_round_trip",
    "C30_angles",
    "C30_band_refuted"
   ],
   "note": "Over the reals; the float band of 1e-10 is modelled, rounding is not."
  },
  {
   "property": "C31",
   "status": "proved",
   "theorems": [
    "C31_fmod",
    "C31_angle_mod",
    "C31_angle_delta",
    "C31_angle_lerp",
    "C31_lerp"
   ],
   "note": "over exact reals with M_PIf = PI; a positive interval length is required"
  },
  {
   "property": "C32",
   "status": "proved",
   "theorems": [
    "C32_gram_schmidt",
    "C32_dimension",
    "C32_refuted"
   ],
   "note": "The documented orthonormality is refuted; the exact condition is proved, in every dimension. The LU/random completion stage is an arbitrary function whose result is assumed independent."
  },
  {
   "property": "C33",
   "status": "proved",
   "theorems": [
    "C33_set_value",
    "C33_set_value_not_initialized",
    "C33_positive_limits_refuted",
    "C33_narrow_limits_refuted",
    "C33_float_loop_refuted"
   ],
   "note": "Over the reals; the float divergence of setJointValueNotInitialized is proved with Flocq's float formats (no axioms beyond the standard library's)."
  },
  {
   "property": "C34",
   "status": "proved",
   "theorems": [
    "C34_consistent",
    "C34_attach",
    "C34_detach",
    "C34_attach_detach",
    "C34_forest_refuted",
    "C34_forest",
    "C34_forest_exact",
    "C34_has_child_recursive",
    "C34_initialize",
    "C34_initialize_refuted",
    "C34_set_name_refuted"
   ],
   "note": "Histories of create/attach/detach/destroy; forest refuted without the guard (circle of two objects); initialize and setName counterexamples."
  },
  {
   "property": "C35",
   "status": "proved",
   "theorems": [
    "C35_set_global_pose",
    "C35_robot_set_joint_values",
    "C35_node_set",
    "C35_set_joint_value",
    "C35_kinematic_root_refuted",
    "C35_propagation_refuted"
   ],
   "note": "Tree of fixed, revolute, prismatic nodes and sensors over R; stale poses after setKinematicRoot and endless propagation refuted."
  },
  {
   "property": "C36",
   "status": "proved",
   "theorems": [
    "C36_set_pose_for_node",
    "C36_identity",
    "C36_identity_refuted",
    "C36_position",
    "C36_position_refuted"
   ],
   "note": "SVD as argument with its contract on rotation matrices; identity orientation case and rotated robots refuted."
  },
  {
   "property": "C37",
   "status": "proved",
   "theorems": [
    "C37_smallest",
    "C37_add_points",
    "C37_nan",
    "C37_add_box",
    "C37_transform",
    "C37_transform_empty",
    "C37_is_inside",
    "C37_is_inside_flat",
    "C37_is_inside_refuted",
    "C37_is_inside_empty",
    "C37_scale",
    "C37_scale_refuted",
    "C37_plane",
    "C37_plane_refuted"
   ],
   "note": "C37_smallest, C37_add_points, C37_nan, C37_add_box, C37_transform(+_empty), C37_is_inside(+_flat, _empty; refuted for flat boxes), C37_scale (refuted for negative factors), C37_plane (undefined on an empty box). Exact reals with NaN; no rounding."
  },
  {
   "property": "C38",
   "status": "proved",
   "theorems": [
    "C38_new",
    "C38_invariant",
    "C38_add",
    "C38_remove",
    "C38_history",
    "C38_add_set",
    "C38_add_set_new",
    "C38_add_set_refuted",
    "C38_add_nodes",
    "C38_clone",
    "C38_models"
   ],
   "note": "C38_invariant, C38_add, C38_remove, C38_history, C38_add_set, C38_add_set_new, C38_add_nodes, C38_clone, C38_models; C38_add_set_refuted: adding a set stops at the first object already there."
  },
  {
   "property": "C39",
   "status": "proved",
   "theorems": [
    "C39_last_set",
    "C39_set",
    "C39_apply",
    "C39_apply_to",
    "C39_clone",
    "C39_gone",
    "C39_last_set_refuted",
    "C39_of_names"
   ],
   "note": "One joint value vector per robot body; the locks are the subject of C41."
  },
  {
   "property": "C40",
   "status": "proved",
   "theorems": [
    "C40_add_pair",
    "C40_add_model",
    "C40_add_model_refuted",
    "C40_all_pairs",
    "C40_twice_refuted",
    "C40_collision",
    "C40_distance",
    "C40_points",
    "C40_points_with",
    "C40_points_with_refuted",
    "C40_has",
    "C40_object_pair"
   ],
   "note": "The collision checker is a function argument; vector capacity is a parameter of the model."
  },
  {
   "property": "C41",
   "status": "proved",
   "theorems": [
    "C41_locked",
    "C41_progress",
    "C41_set_joint_values_refuted",
    "C41_set_global_pose_refuted",
    "C41_unsafe_refuted",
    "C41_sequential"
   ],
   "note": "Interleaving semantics with a recursive mutex; a pose is one assignment (matrix entries are not separate steps), kinematic structure is fixed. Sequentially consistent memory."
  },
  {
   "property": "C42",
   "status": "proved",
   "theorems": [
    "C42_once",
    "C42_start",
    "C42_answers",
    "C42_stop",
    "C42_honoured",
    "C42_progress",
    "C42_lost_refuted"
   ],
   "note": "One controlling thread; the planner is an arbitrary loop that resets the stop flag at its beginning and looks at it before every round (Rrt, BiRrt, GraspIkRrt, GraspRrt, ShortcutProcessor); an uninitialised planner that returns at once is not distinguished. Lost stop request is C42_lost_refuted."
  },
  {
   "property": "C43",
   "status": "proved",
   "theorems": [
    "C43_ends",
    "C43_continuous",
    "C43_deviation",
    "C43_tangent",
    "C43_smooth",
    "C43_switching"
   ],
   "note": "Over the reals. With a positive deviation the waypoints must be in general position: more than 2e-6 apart, no exact reversal. Without deviation no condition. Rounding not modelled. Path::Path(path with < 2 points) leaves no segment: every query is undefined behaviour (Example C43_empty)."
  },
  {
   "property": "C44",
   "status": "proved",
   "theorems": [
    "C44_invariant",
    "C44_add",
    "C44_release_refuted",
    "C44_include",
    "C44_has",
    "C44_get",
    "C44_remove",
    "C44_clone",
    "C44_preshape"
   ],
   "note": "Null pointers stored by a build without asserts are not modelled."
  },
  {
   "property": "C45",
   "status": "proved",
   "theorems": [
    "C45_visualization_status",
    "C45_visualization_status_birrt",
    "C45_timeout_refuted"
   ],
   "note": "holds without timeout; refuted with timeout"
  },
  {
   "property": "C46",
   "status": "proved",
   "theorems": [
    "C46_create_path",
    "C46_goal_missing_refuted",
    "C46_zero_sampling_refuted"
   ],
   "note": "terminates, spacing, end point; goal may be missing and sampling size 0 never returns (refuted)"
  },
  {
   "property": "C47",
   "status": "proved",
   "theorems": [
    "C47_create_path_until_invalid",
    "C47_zero_sampling_refuted"
   ],
   "note": "all clauses for positive collision sampling size; size 0 never returns (refuted)"
  },
  {
   "property": "C48",
   "status": "proved",
   "theorems": [
    "C48_sampled_contract",
    "C48_rrt_solution_checked",
    "C48_birrt_solution_checked"
   ],
   "note": "CSpaceSampled meets the planner contract; Rrt and BiRrt solutions are covered by checked configurations"
  },
  {
   "property": "C49",
   "status": "proved",
   "theorems": [
    "C49_interpolate",
    "C49_blend_divides",
    "C49_time",
    "C49_length",
    "C49_length_doc_refuted",
    "C49_weights_refuted",
    "C49_turns_refuted",
    "C49_last_index_refuted"
   ],
   "note": "unit weights; with weights, with more than 1.5 turns and the index at t=1 refuted"
  },
  {
   "property": "C50",
   "status": "proved",
   "theorems": [
    "C50_distance",
    "C50_separation"
   ],
   "note": "calcDist over exact reals"
  },
  {
   "property": "C51",
   "status": "proved",
   "theorems": [
    "C51_all_contacts",
    "C51_first_contact"
   ],
   "note": "Triangle and volume tests are parameters; soundness of the volume test is a hypothesis, met by the 1-D instance in PqpBuildProps.v."
  },
  {
   "property": "C52",
   "status": "proved",
   "theorems": [
    "C52_distance",
    "C52_exact"
   ],
   "note": "Distances are rationals; lower-bound property of the volume distance is a hypothesis, met by the 1-D instance."
  },
  {
   "property": "C53",
   "status": "proved",
   "theorems": [
    "C53_tolerance"
   ],
   "note": "As C52."
  },
  {
   "property": "C54",
   "status": "proved",
   "theorems": [
    "C54_build",
    "C54_protocol",
    "C54_processed_defined",
    "C54_begin_twice_refuted",
    "C54_collide",
    "C54_distance"
   ],
   "note": "Includes the refutation of BeginModel on a processed model (double deletion)."
  },
  {
   "property": "C55",
   "status": "proved",
   "theorems": [
    "C55_leafs",
    "C55_max"
   ],
   "note": "prefix queries of VoxelTreeND"
  },
  {
   "property": "C56",
   "status": "proved",
   "theorems": [
    "C56_get_rotation",
    "C56_zero_refuted"
   ],
   "note": "Over the reals."
  },
  {
   "property": "C57",
   "status": "proved",
   "theorems": [
    "C57_mean"
   ],
   "note": "Over the reals."
  },
  {
   "property": "C58",
   "status": "proved",
   "theorems": [
    "C58_axis_angle",
    "C58_length_refuted"
   ],
   "note": "Over the reals."
  },
  {
   "property": "C59",
   "status": "proved",
   "theorems": [
    "C59_delta"
   ],
   "note": "Over the reals."
  },
  {
   "property": "C60",
   "status": "proved",
   "theorems": [
    "C60_free_means_disjoint",
    "C60_exact",
    "C60_contact_exact",
    "C60_contact_degenerate_refuted",
    "C60_boxes",
    "C60_fit",
    "C60_eigen"
   ],
   "note": "Exact reals; the rounding-dependent tests of the eigenvector routine are an arbitrary oracle, convergence of the routine is a hypothesis with a witness. Degenerate triangles: refuted by C60_contact_degenerate_refuted."
  },
  {
   "property": "C61",
   "status": "proved",
   "theorems": [
    "C61_jacobian",
    "C61_stacked",
    "C61_unit_refuted",
    "C61_propagation_refuted"
   ],
   "note": "Exact derivatives over the reals for every tree; conversion to metres of prismatic columns and propagated joint values refuted."
  },
  {
   "property": "C62",
   "status": "proved",
   "theorems": [
    "C62_success",
    "C62_failure",
    "C62_at_goal_refuted",
    "C62_worse_refuted"
   ],
   "note": "real arithmetic; the step (pseudo inverse) and Eigen's AngleAxis are arguments, the latter with the contract that it returns an angle in [0, pi] about some axis, shown to be met by an explicit function; kinematic root propagates nothing"
  },
  {
   "property": "C63",
   "status": "proved",
   "theorems": [
    "C63_solve",
    "C63_best_refuted"
   ],
   "note": "over C62's model; translational joint, if set, in the node set; reachability and collision checks are arguments"
  },
  {
   "property": "C64",
   "status": "proved",
   "theorems": [
    "C64_no_update",
    "C64_grasp",
    "C64_object"
   ],
   "note": "over GenericIKSolver::solve of C63; applyJointValues included; visualisation status left out"
  },
  {
   "property": "C65",
   "status": "proved",
   "theorems": [
    "C65_objects",
    "C65_object_set",
    "C65_sets",
    "C65_symmetric",
    "C65_foreign_refuted",
    "C65_robot_in_set_refuted",
    "C65_no_model_refuted",
    "C65_point",
    "C65_tolerance_refuted"
   ],
   "note": "Release build; the pairwise answers are an argument with the contract right_hits"
  },
  {
   "property": "C66",
   "status": "proved",
   "theorems": [
    "C66_objects",
    "C66_sets",
    "C66_empty",
    "C66_robot_in_set_refuted"
   ],
   "note": "Release build; the pairwise answers are an argument with the contract fair"
  },
  {
   "property": "C67",
   "status": "proved",
   "theorems": [
    "C67_project",
    "C67_plane_point",
    "C67_coordinates",
    "C67_roundtrip_refuted"
   ],
   "note": "Over the real numbers; rounding is left out."
  },
  {
   "property": "C68",
   "status": "proved",
   "theorems": [
    "C68_segment",
    "C68_segment_refuted",
    "C68_box",
    "C68_box_refuted",
    "C68_change_frame"
   ],
   "note": "Over the real numbers; rounding is left out."
  },
  {
   "property": "C69",
   "status": "proved",
   "theorems": [
    "C69_line",
    "C69_no_line",
    "C69_segment",
    "C69_segment_refuted",
    "C69_planes",
    "C69_planes_refuted"
   ],
   "note": "Over the real numbers; rounding is left out."
  },
  {
   "property": "C70",
   "status": "proved",
   "theorems": [
    "C70_area",
    "C70_collinear",
    "C70_normal",
    "C70_normal_refuted",
    "C70_random",
    "C70_random_refuted"
   ],
   "note": "Over the real numbers; rounding is left out."
  },
  {
   "property": "C71",
   "status": "proved",
   "theorems": [
    "C71_spherical",
    "C71_spherical_refuted"
   ],
   "note": "Over the real numbers; rounding is left out."
  },
  {
   "property": "C72",
   "status": "proved",
   "theorems": [
    "C72_contacts",
    "C72_null",
    "C72_resting",
    "C72_depth_refuted",
    "C72_touching_refuted",
    "C72_empty_refuted"
   ],
   "note": "Guarded statement proved; unlimited depth, the exact boundary and models without vertices refuted with witnesses."
  },
  {
   "property": "C73",
   "status": "proved",
   "theorems": [
    "C73_models",
    "C73_polygon",
    "C73_range",
    "C73_value",
    "C73_positive",
    "C73_index_refuted"
   ],
   "note": "Index over the reals, hull over whole multiples of a unit; right triangle refuted as a witness."
  },
  {
   "property": "C74",
   "status": "proved",
   "theorems": [
    "C74_terminates",
    "C74_motion",
    "C74_closed",
    "C74_contacts",
    "C74_again",
    "C74_open",
    "C74_speed_refuted"
   ],
   "note": "Speed 0 refuted. Exact arithmetic; the collision checker is an arbitrary function of the joint values; propagated joints and limitless joints are left out."
  },
  {
   "property": "C75",
   "status": "proved",
   "theorems": [
    "C75_free",
    "C75_modes_refuted"
   ],
   "note": "Under the contract that hit tests depend on the joints involved; refuted for actors that mind the static part only."
  },
  {
   "property": "C76",
   "status": "proved",
   "theorems": [
    "C76_triangle",
    "C76_of_triangles",
    "C76_add_mesh",
    "C76_box",
    "C76_scale",
    "C76_com",
    "C76_nan_refuted",
    "C76_clear_refuted",
    "C76_vector_colors_refuted",
    "C76_mirror_refuted"
   ],
   "note": "Mesh files; coordinates as integers (common unit), normals abstract."
  },
  {
   "property": "C77",
   "status": "proved",
   "theorems": [
    "C77_unused",
    "C77_defined",
    "C77_merge",
    "C77_clusters",
    "C77_chain_refuted",
    "C77_box_refuted"
   ],
   "note": "Mesh files; coordinates as integers (common unit), normals abstract."
  },
  {
   "property": "C78",
   "status": "proved",
   "theorems": [
    "C78_correct",
    "C78_flip",
    "C78_order_refuted",
    "C78_inverted_refuted",
    "C78_colors_refuted"
   ],
   "note": "Mesh files; coordinates as integers (common unit), normals abstract."
  },
  {
   "property": "C79",
   "status": "proved",
   "theorems": [
    "C79_normals",
    "C79_normals_refuted",
    "C79_colors",
    "C79_set_color",
    "C79_set_color_refuted"
   ],
   "note": "Mesh files; coordinates as integers (common unit), normals abstract."
  },
  {
   "property": "C80",
   "status": "proved",
   "theorems": [
    "C80_build",
    "C80_radius",
    "C80_eps",
    "C80_leaf_refuted",
    "C80_merge"
   ],
   "note": "Kd*: C80_build, C80_radius, C80_eps, C80_merge (discharges the contract of C77); the need for a leaf size of at least one is C80_leaf_refuted. std::sort is a contract."
  },
  {
   "property": "C81",
   "status": "proved",
   "theorems": [
    "C81_knn",
    "C81_distinct"
   ],
   "note": "Kd*: C81_knn, C81_distinct. k = 0 reads before the array (KNNResultSet::worstDist) and is excluded."
  },
  {
   "property": "C82",
   "status": "proved",
   "theorems": [
    "C82_process_closed",
    "C82_process_watertight",
    "C82_positions_balanced",
    "C82_thin_edge_refuted"
   ],
   "note": "see theorems; floats are whole multiples of a unit, interpolation exact"
  },
  {
   "property": "C83",
   "status": "proved",
   "theorems": [
    "C83_cell",
    "C83_vertices_on_level",
    "C83_crossed_edges_have_vertices"
   ],
   "note": "see theorems; floats are whole multiples of a unit, interpolation exact"
  },
  {
   "property": "C84",
   "status": "proved",
   "theorems": [
    "C84_single_closed",
    "C84_single_balanced",
    "C84_single_component",
    "C84_single_finds",
    "C84_calculate",
    "C84_start_on_hull_refuted",
    "C84_start_cell",
    "C84_start_off_surface_refuted"
   ],
   "note": "see theorems; floats are whole multiples of a unit, interpolation exact"
  },
  {
   "property": "C85",
   "status": "proved",
   "theorems": [
    "C85_cache_transparent",
    "C85_cells_in_range",
    "C85_outside_refuted"
   ],
   "note": "see theorems; floats are whole multiples of a unit, interpolation exact"
  },
  {
   "property": "C86",
   "status": "proved",
   "theorems": [
    "C86_contacts",
    "C86_accepted",
    "C86_rejected",
    "C86_closed",
    "C86_no_contacts",
    "C86_few_points_refuted",
    "C86_qhull_error_refuted",
    "C86_zero_force_refuted",
    "C86_false_yes_refuted"
   ],
   "note": "Real arithmetic; qhull by contract (joggling left out); false parts as _refuted theorems."
  },
  {
   "property": "C87",
   "status": "proved",
   "theorems": [
    "C87_directions",
    "C87_friction",
    "C87_default_friction_refuted",
    "C87_negative_force_refuted"
   ],
   "note": "Real arithmetic; qhull by contract (joggling left out); false parts as _refuted theorems."
  },
  {
   "property": "C88",
   "status": "proved",
   "theorems": [
    "C88_quality",
    "C88_history",
    "C88_no_contacts_refuted",
    "C88_overload_refuted",
    "C88_basic",
    "C88_volume",
    "C88_positive_without_closure_refuted"
   ],
   "note": "Real arithmetic; qhull by contract (joggling left out); false parts as _refuted theorems."
  },
  {
   "property": "C89",
   "status": "proved",
   "theorems": [
    "C89_plan",
    "C89_ends",
    "C89_fuel",
    "C89_zero_timeout_refuted",
    "C89_retreat_refuted",
    "C89_names_refuted"
   ],
   "note": "plan: number, soundness and numbering of the new grasps for every environment; termination by the clock; zero timeout, closing inside an obstacle after a retreat and repeated names refuted. Hand, checker, generator and measure are arguments."
  },
  {
   "property": "C90",
   "status": "proved",
   "theorems": [
    "C90_fresh",
    "C90_plan",
    "C90_plan_grasp",
    "C90_averages",
    "C90_minimum_refuted"
   ],
   "note": "Consistency of the evaluation is an invariant of planning; averages of the report computed exactly; stale demanded quality refuted."
  },
  {
   "property": "C91",
   "status": "proved",
   "theorems": [
    "C91_surface",
    "C91_frame",
    "C91_frame_ends",
    "C91_areas_refuted",
    "C91_global_refuted"
   ],
   "note": "Convex combination and normal of the drawn face; orthonormal frame by vector algebra over R; ignored area option and ignored object pose refuted."
  },
  {
   "property": "C92",
   "status": "proved",
   "theorems": [
    "C92_move_away",
    "C92_create",
    "C92_set_random",
    "C92_retreat_refuted",
    "C92_stuck_refuted",
    "C92_tcp_refuted"
   ],
   "note": "Retreat and restoration for hands without a preshape TCP; collision after the random distance, giving up after a thousand steps and the preshape TCP refuted by concrete cases."
  },
  {
   "property": "C93",
   "status": "proved",
   "theorems": [
    "C93_bins",
    "C93_limits",
    "C93_extremes",
    "C93_value",
    "C93_centre_refuted",
    "C93_min_value_refuted",
    "C93_median_refuted",
    "C93_median_zero",
    "C93_equal_refuted",
    "C93_below_refuted"
   ],
   "note": "Counts by membership over the rationals (rounding of the float division not modelled); extremes; centre, value of the emptiest bin, median filter and degenerate data refuted."
  },
  {
   "property": "C94",
   "status": "proved",
   "theorems": [
    "C94_bezier_derivative",
    "C94_bezier_ends",
    "C94_bezier_in_hull",
    "C94_bezier_reverse",
    "C94_bezier_points",
    "C94_continued",
    "C94_line",
    "C94_composite",
    "C94_transformed_points",
    "C94_transformed",
    "C94_transformed_rigid"
   ],
   "note": "Over the reals; derivatives are limits (stdlib derivable_pt_lim)."
  },
  {
   "property": "C95",
   "status": "proved",
   "theorems": [
    "C95_strip_through_points",
    "C95_strip_linear",
    "C95_strip_extends",
    "C95_strip_total",
    "C95_strip_empty_interval",
    "C95_strip_single_refuted",
    "C95_segments",
    "C95_closest",
    "C95_length_chord",
    "C95_length_line",
    "C95_move_constant_speed",
    "C95_move_length_refuted",
    "C95_move_length_at_most"
   ],
   "note": "Two refuted parts: single-point strips throw, MoveLengthOnCurve moves too little."
  },
  {
   "property": "C96",
   "status": "proved",
   "theorems": [
    "C96_ray",
    "C96_ray_unique",
    "C96_ray_corners",
    "C96_ray_parallel",
    "C96_ray_parallel_refuted",
    "C96_primitive"
   ],
   "note": "Exact arithmetic with IEEE results for division by zero; one refuted part (hit at infinity)."
  },
  {
   "property": "C97",
   "status": "proved",
   "theorems": [
    "C97_line_closest",
    "C97_line_distance",
    "C97_plane_closest",
    "C97_plane_same",
    "C97_plane_through",
    "C97_signed_distance_refuted",
    "C97_signed_distance_off",
    "C97_intersect",
    "C97_to_implicit"
   ],
   "note": "One refuted part: GetSignedDistance."
  },
  {
   "property": "C98",
   "status": "proved",
   "theorems": [
    "C98_plane_coordinates",
    "C98_plane_coordinates_refuted",
    "C98_orthonormal",
    "C98_from_normal",
    "C98_swapped",
    "C98_plane_transform",
    "C98_subdivide_count",
    "C98_subdivide_cover",
    "C98_subdivide_normal",
    "C98_triangle"
   ],
   "note": "One refuted part: non-orthogonal directions."
  },
  {
   "property": "C99",
   "status": "proved",
   "theorems": [
    "C99_first_derivatives",
    "C99_plus_second",
    "C99_minus_second_off",
    "C99_minus_second_refuted",
    "C99_symmetric",
    "C99_gaussian",
    "C99_out_of_range"
   ],
   "note": "The derivatives of the Williams plus kernel are proved as limits; C99_minus_second_refuted shows that the minus kernel reports wrong second derivatives."
  },
  {
   "property": "C100",
   "status": "proved",
   "theorems": [
    "C100_radius",
    "C100_interpolates",
    "C100_variance",
    "C100_surface",
    "C100_normal_scale_ignored",
    "C100_noise_refuted",
    "C100_noise_rows"
   ],
   "note": "inverse_of is the contract of Eigen's QR inverse, shown satisfiable by two concrete cases (2x2 and 8x8). Refuted part: C100_noise_refuted."
  },
  {
   "property": "C101",
   "status": "proved",
   "theorems": [
    "C101_shift",
    "C101_mod_pi",
    "C101_canonical_refuted",
    "C101_float_ends_refuted"
   ],
   "note": "C101_float_ends_refuted uses Flocq's rounding to single and double precision (definitions only, no axioms of Flocq); refuted parts: canonical result, termination in floats."
  },
  {
   "property": "C102",
   "status": "proved",
   "theorems": [
    "C102_clamp",
    "C102_lerp",
    "C102_lerp_vec",
    "C102_lerp_int",
    "C102_sign",
    "C102_range",
    "C102_range_start_refuted",
    "C102_vectors",
    "C102_average"
   ],
   "note": "Refuted part: C102_range_start_refuted (zero steps give NaN)."
  },
  {
   "property": "C103",
   "status": "proved",
   "theorems": [
    "C103_throws",
    "C103_unchanged",
    "C103_direction",
    "C103_exceeds",
    "C103_limit_refuted",
    "C103_not_finite"
   ],
   "note": "Refuted: C103_limit_refuted; C103_exceeds proves that the limit is exceeded for every vector beyond it."
  },
  {
   "property": "C104",
   "status": "proved",
   "theorems": [
    "C104_corners",
    "C104_points",
    "C104_cells",
    "C104_cache",
    "C104_outside_refuted",
    "C104_weighted",
    "C104_weighted_between"
   ],
   "note": "Refuted part: C104_outside_refuted."
  },
  {
   "property": "C105",
   "status": "proved",
   "theorems": [
    "C105_invert",
    "C105_transform",
    "C105_polar",
    "C105_svd_rotation",
    "C105_svd_closest",
    "C105_closest_refuted",
    "C105_rotation_kept",
    "C105_qr_orthogonal",
    "C105_qr_rotation_refuted",
    "C105_distance",
    "C105_rotation_vector",
    "C105_rotation_vector_inverse"
   ],
   "note": "Decompositions and AngleAxis are oracles with contracts at the matrix used; refuted parts: C105_closest_refuted, C105_qr_rotation_refuted."
  },
  {
   "property": "C106",
   "status": "proved",
   "theorems": [
    "C106_start",
    "C106_end",
    "C106_velocity",
    "C106_slow",
    "C106_end_refuted",
    "C106_derivative_refuted",
    "C106_lerp"
   ],
   "note": "Refuted parts: C106_end_refuted, C106_derivative_refuted (slow rotations do not move)."
  },
  {
   "property": "C107",
   "status": "proved",
   "theorems": [
    "C107_there_is_a_clone",
    "C107_links_of_the_clone",
    "C107_types_stay_valid_refuted"
   ],
   "note": "The structure of the clone for all trees. Types refuted."
  },
  {
   "property": "C108",
   "status": "proved",
   "theorems": [
    "C108_models_are_shown",
    "C108_models_keep_their_place",
    "C108_all_models_keep_their_place_refuted"
   ],
   "note": "All models but that of the new root; relative poses for the models that are kept, refuted for all models."
  },
  {
   "property": "C109",
   "status": "proved",
   "theorems": [
    "C109_centres_of_mass",
    "C109_mass_of_the_clone",
    "C109_mass_is_kept_refuted",
    "C109_sensors",
    "C109_sensors_keep_their_place_refuted"
   ],
   "note": "Masses and centres of mass; conservation of mass and of the place of sensors refuted."
  },
  {
   "property": "C110",
   "status": "proved",
   "theorems": [
    "C110_when_there_is_a_clone"
   ],
   "note": "When there is a clone, and its nodes."
  },
  {
   "property": "C111",
   "status": "proved",
   "theorems": [
    "C111_nodes_keep_their_place",
    "C111_united_models_and_sensors_keep_their_place",
    "C111_models_of_the_root",
    "C111_nodes_further_down_keep_their_place_refuted",
    "C111_pose_of_the_robot_refuted"
   ],
   "note": "Poses of nodes, united models and sensors under the stated conditions; without them refuted twice."
  },
  {
   "property": "C112",
   "status": "proved",
   "theorems": [
    "C112_every_node_once",
    "C112_mass_is_kept",
    "C112_mass_of_a_single_node_refuted",
    "C112_sensors_are_kept_refuted"
   ],
   "note": "Partition and mass for at least two nodes; single node and sensors refuted."
  },
  {
   "property": "C113",
   "status": "proved",
   "theorems": [
    "C113_file_found",
    "C113_found_files_stay",
    "C113_paths_only_grow",
    "C113_named_paths_are_added",
    "C113_paths_of_the_environment",
    "C113_fallbacks_only_if_nothing_else_refuted",
    "C113_data_paths_are_directories_refuted",
    "C113_accepted_directories"
   ],
   "note": "Stated over all histories of calls with a file system per call; boost::program_options' parsing is an argument (the parsed line), boost::filesystem answers are a function from names to kinds."
  },
  {
   "property": "C114",
   "status": "proved",
   "theorems": [
    "C114_last_value_counts",
    "C114_what_is_answered",
    "C114_file_of_a_key",
    "C114_keys_asked_for"
   ],
   "note": "Stated over all histories of calls with a file system per call; boost::program_options' parsing is an argument (the parsed line), boost::filesystem answers are a function from names to kinds."
  },
  {
   "property": "C115",
   "status": "proved",
   "theorems": [
    "C115_vectors_read"
   ],
   "note": "atof and the check for finiteness are an argument from text to optional real."
  },
  {
   "property": "C116",
   "status": "proved",
   "theorems": [
    "C116_changing_frames_moves_nothing",
    "C116_change_of_frame",
    "C116_in_frame",
    "C116_moves_with_the_frame",
    "C116_first_frame",
    "C116_in_frame_before_set_refuted"
   ],
   "note": "Matrix4f::inverse is taken to be the inverse of a rigid pose."
  },
  {
   "property": "C117",
   "status": "proved",
   "theorems": [
    "C117_when_there_is_a_chain",
    "C117_order_of_a_chain",
    "C117_test_for_a_chain",
    "C117_test_of_an_empty_set_refuted",
    "C117_tcp_of_a_chain_refuted"
   ],
   "note": "All nodes belong to one robot; the exception for nodes of different robots is left out."
  },
  {
   "property": "C118",
   "status": "proved",
   "theorems": [
    "C118_extension_is_a_bound",
    "C118_extension_of_a_set",
    "C118_extension_with_slides_refuted",
    "C118_extension_of_an_empty_set_refuted"
   ],
   "note": "Real arithmetic; joint values by FacSpec.with_q, positions by forward kinematics."
  },
  {
   "property": "C119",
   "status": "proved",
   "theorems": [
    "C119_center_of_mass",
    "C119_center_of_mass_is_among_the_nodes",
    "C119_nodes_sufficient",
    "C119_check_limits",
    "C119_respect_limits"
   ],
   "note": "Real arithmetic; names are numbers."
  },
  {
   "property": "C120",
   "status": "proved",
   "theorems": [
    "C120_when_torques_can_be_computed",
    "C120_torques",
    "C120_torque_is_the_derivative_of_the_energy",
    "C120_one_torque",
    "C120_by_name",
    "C120_torques_with_equal_names_refuted",
    "C120_torques_after_a_mass_changed_refuted"
   ],
   "note": "guards: distinct names of siblings, unchanged masses; both shown necessary by _refuted theorems"
  },
  {
   "property": "C121",
   "status": "proved",
   "theorems": [
    "C121_keys_accepted",
    "C121_color_at_a_position",
    "C121_color_at_a_key",
    "C121_order_of_keys",
    "C121_components",
    "C121_two_keys_at_one_position_refuted",
    "C121_one_key_refuted"
   ],
   "note": "guards: different key positions, at least two keys; both shown necessary by _refuted theorems"
  },
  {
   "property": "C122",
   "status": "proved",
   "theorems": [
    "C122_predefined_maps",
    "C122_custom_maps",
    "C122_custom_map_of_one_color",
    "C122_custom_maps_in_single_precision_refuted"
   ],
   "note": "custom maps in exact arithmetic; refuted in IEEE single precision (SpecFloat) by a map of eleven colours"
  },
  {
   "property": "C123",
   "status": "proved",
   "theorems": [
    "C123_pseudo_inverse",
    "C123_best_solution",
    "C123_any_decomposition",
    "C123_below_the_tolerance",
    "C123_damped",
    "C123_small_singular_values_refuted"
   ],
   "note": "exact arithmetic in any ordered field; the singular value decomposition is an argument with its contract"
  },
  {
   "property": "C124",
   "status": "proved",
   "theorems": [
    "C124_inverse_by_svd",
    "C124_regularized",
    "C124_inverse_by_transpose",
    "C124_damped_inverse",
    "C124_damping_in_double_precision_refuted",
    "C124_weights_must_be_positive",
    "C124_weights_without_effect"
   ],
   "note": "exact arithmetic; square root and decomposition as arguments with contracts; Eigen's inverse of a singular matrix is an undefined outcome"
  },
  {
   "property": "C125",
   "status": "proved",
   "theorems": [
    "C125_when_it_throws",
    "C125_best_step",
    "C125_damped_step",
    "C125_transposed_step",
    "C125_provider_not_initialized_refuted"
   ],
   "note": "exact arithmetic"
  },
  {
   "property": "C126",
   "status": "proved",
   "theorems": [
    "C126_when_it_throws",
    "C126_priorities",
    "C126_transpose_refuted",
    "C126_damped_refuted"
   ],
   "note": "exact arithmetic; matrices along the way assumed well conditioned (singular values zero or above 0.00001)"
  },
  {
   "property": "C127",
   "status": "proved",
   "theorems": [
    "C127_registry",
    "C127_remove_absent",
    "C127_added_twice_refuted",
    "C127_equal_priorities_refuted"
   ],
   "note": "All histories, any sorting function; two false expectations refuted."
  },
  {
   "property": "C128",
   "status": "proved",
   "theorems": [
    "C128_solve",
    "C128_succeeds_iff",
    "C128_stepwise",
    "C128_initialize"
   ],
   "note": "Any step, tolerance test and constraint behaviour; by induction on the iterations left."
  },
  {
   "property": "C129",
   "status": "proved",
   "theorems": [
    "C129_step",
    "C129_stall",
    "C129_first_step",
    "C129_solve",
    "C129_used_again_refuted",
    "C129_rise_from_zero_refuted"
   ],
   "note": "Exact numbers; the step of the HierarchicalIK and the errors are arbitrary functions; two false expectations refuted."
  }
 ]
}