{
 "claims": [
  {
   "property": "C01",
   "status": "proved",
   "theorems": [
    "C01_live_blocks_never_overlap"
   ],
   "note": ""
  },
  {
   "property": "C02",
   "status": "proved",
   "theorems": [
    "C02_alloc_fresh_and_frames"
   ],
   "note": ""
  },
  {
   "property": "C03",
   "status": "proved",
   "theorems": [
    "C03_alloc_recycles_best_fit"
   ],
   "note": ""
  },
  {
   "property": "C04",
   "status": "proved",
   "theorems": [
    "C04_defragment_terminates_dense"
   ],
   "note": ""
  },
  {
   "property": "C05",
   "status": "proved",
   "theorems": [
    "C05_defragment_carries_data"
   ],
   "note": ""
  },
  {
   "property": "C06",
   "status": "proved",
   "theorems": [
    "C06_client_array_in_step",
    "C06_ascending_moves_are_safe"
   ],
   "note": ""
  },
  {
   "property": "C07",
   "status": "proved",
   "theorems": [
    "C07_motivator_and_processor_agree",
    "motivators_refine_table"
   ],
   "note": "all histories of init/invalidate/move/clone/frame/write/destroy over any number of motivators and processors"
  },
  {
   "property": "C08",
   "status": "proved",
   "theorems": [
    "C08_motivators_are_isolated",
    "motivators_refine_table"
   ],
   "note": "per-index data abstracted to one array of cells; a frame is Defragment followed by a per-cell update"
  },
  {
   "property": "C09",
   "status": "proved",
   "theorems": [
    "C09_move_transfers_identity",
    "C09_self_move_invalidates"
   ],
   "note": ""
  },
  {
   "property": "C10",
   "status": "proved",
   "theorems": [
    "C10_invalidate_is_clean_and_idempotent"
   ],
   "note": ""
  },
  {
   "property": "C11",
   "status": "proved",
   "theorems": [
    "C11_destroying_processor_resets_motivators"
   ],
   "note": ""
  },
  {
   "property": "C12",
   "status": "proved",
   "theorems": [
    "C12_clones_are_equal_copies",
    "C08_motivators_are_isolated",
    "C07_motivator_and_processor_agree"
   ],
   "note": "CloneIndices modelled as cell-by-cell assignment"
  },
  {
   "property": "C13",
   "status": "proved",
   "theorems": [
    "C13_frame_leaves_no_dead_slots"
   ],
   "note": ""
  },
  {
   "property": "C14",
   "status": "proved",
   "theorems": [
    "C14_one_processor_per_type",
    "engine_runs_without_reset"
   ],
   "note": "histories up to the first Reset; after Reset see C16"
  },
  {
   "property": "C15",
   "status": "proved",
   "theorems": [
    "C15_frame_order"
   ],
   "note": "histories up to the first Reset"
  },
  {
   "property": "C16",
   "status": "partial",
   "theorems": [
    "C16_reset_then_frame_refuted",
    "C16_reset_partial"
   ],
   "note": "false of the code: Reset does not clear sorted_processors_, refuted for every history that created a processor"
  },
  {
   "property": "C17",
   "status": "proved",
   "theorems": [
    "C17_normalize",
    "C17_zero_length_fails"
   ],
   "note": "exact real arithmetic"
  },
  {
   "property": "C18",
   "status": "partial",
   "theorems": [
    "C18_mod_diff_partial",
    "C18_closest_refuted",
    "C18_far_from_zero_refuted"
   ],
   "note": "holds for ranges centred on 0; refuted for others"
  },
  {
   "property": "C19",
   "status": "partial",
   "theorems": [
    "C19_intersect",
    "C19_union",
    "C19_union_invalid_refuted",
    "C19_clamp",
    "C19_lengthen",
    "C19_lengthen_comment_refuted",
    "C19_clamp_to_closest"
   ],
   "note": "Union and Include only for valid ranges; refuted for the default-constructed range"
  },
  {
   "property": "C20",
   "status": "proved",
   "theorems": [
    "C20_values_in_range",
    "C20_intersect_ranges",
    "C20_intersect_ranges_points",
    "C20_index_of_longest",
    "C20_index_of_shortest",
    "C20_index_of_longest_invalid_refuted",
    "C20_covers"
   ],
   "note": "IndexOfLongest for valid ranges"
  },
  {
   "property": "C76",
   "status": "proved",
   "theorems": [
    "C76_dead_slots_are_reset"
   ],
   "note": "Added after seeded bugs in move_own and remove_motivator went unnoticed by C07-C13."
  },
  {
   "property": "C21",
   "status": "proved",
   "theorems": [
    "C21_angle_operations",
    "C21_representation_unique",
    "C21_three_pi_refuted"
   ],
   "note": "Over exact reals. The documented right end 3pi of FromWithinThreePi is rejected by an assert (refuted)."
  },
  {
   "property": "C22",
   "status": "proved",
   "theorems": [
    "C22_clamp_nearest"
   ],
   "note": "Over exact reals."
  },
  {
   "property": "C77",
   "status": "partial",
   "theorems": [
    "C77_vector_round_trip",
    "C77_from_vector_direction",
    "C77_rotation_matrix",
    "C77_unit_sphere",
    "C77_up_is_right_handed_refuted"
   ],
   "note": "Everything proved except the right-handed up vector, which is false for XZ and ZX (refuted)."
  },
  {
   "property": "C75",
   "status": "partial",
   "theorems": [
    "C75_exponent_as_int",
    "C75_power_of_two_below",
    "C75_exponent_from_int",
    "C75_reciprocal_exponent",
    "C75_reciprocal_of_largest",
    "C75_reciprocal_of_largest_refuted",
    "C75_sqrt_reciprocal_partial",
    "C75_sqrt_rounded_down_refuted",
    "C75_max_power_of_2_scale"
   ],
   "note": "On the 32-bit patterns. ReciprocalExponent is claimed for exponents up to 126 (refuted at 127, flushed to zero); the documented rounding of SqrtReciprocalExponent is refuted."
  },
  {
   "property": "C23",
   "status": "partial",
   "theorems": [
    "C23_cubic_end_conditions",
    "C23_non_positive_width_partial",
    "C23_constant_for_no_width_refuted"
   ],
   "note": "End conditions proved for every positive width; the constant-for-non-positive-width half is false of the code (refuted)."
  },
  {
   "property": "C24",
   "status": "proved",
   "theorems": [
    "C24_quadratic",
    "C24_quadratic_sum",
    "C24_quadratic_derivatives",
    "C24_quadratic_init",
    "C24_cubic",
    "C24_cubic_derivatives"
   ],
   "note": "Over exact reals."
  },
  {
   "property": "C25",
   "status": "partial",
   "theorems": [
    "C25_uniform_curvature_complete",
    "C25_uniform_curvature_partial",
    "C25_small_curvature_refuted"
   ],
   "note": "One direction always; the other when the end curvatures are zero or above the tolerance; refuted in general."
  },
  {
   "property": "C26",
   "status": "partial",
   "theorems": [
    "C26_roots_partial",
    "C26_roots_without_normalizing_partial",
    "C26_roots_moderate_partial",
    "C26_xs_for_value_partial",
    "C26_roots_in_range_partial",
    "C26_roots_in_range_exact_partial",
    "C26_ranges_matching_sign_partial",
    "C26_critical_point",
    "C26_zero_curve_refuted",
    "C26_lost_roots_refuted",
    "C26_scaling_check",
    "C26_scaling_check_refuted",
    "C26_sign_zero_at_limits_refuted"
   ],
   "note": "Complete for well-conditioned curves (in particular coefficients in [1/8,8] with discriminant 0 or at least 1/128); refuted in general."
  },
  {
   "property": "C27",
   "status": "partial",
   "theorems": [
    "C27_ease_in_ease_out_partial",
    "C27_fly_out_partial",
    "C27_fly_in_partial",
    "C27_already_there",
    "C27_typical_curve_partial",
    "C27_end_slope_refuted",
    "C27_join_refuted"
   ],
   "note": "Proved over the reals when the quadratics solved are well-conditioned (the root finder's tolerance), and when the join does not fall within the tolerance of the start, where the code moves it; the end slope is reached unless no ease-out parabola fits after the start. In general both are false: from 0 with slope 2 to 1 the curve arrives faster than it started instead of at rest, and a join moved onto the start makes the curve jump."
  },
  {
   "property": "C28",
   "status": "partial",
   "theorems": [
    "C28_stepping_smooth",
    "C28_peaks",
    "C28_jump_is_stepping",
    "C28_increment_context",
    "C28_start_partial",
    "C28_at_rest",
    "C28_iteration_x",
    "C28_start_on_target_refuted",
    "C28_iteration_x_bias_one_refuted",
    "C28_tiny_bias_refuted",
    "C28_second_derivative",
    "C28_bias",
    "C28_accepted"
   ],
   "note": "Continuity at joins and peak decay hold for any number of steps. The start value and slope hold for bias in [1e-4, 9801] away from the target; refuted for a start on the target moving down and for a tiny bias."
  },
  {
   "property": "C29",
   "status": "partial",
   "theorems": [
    "C29_mid_node_partial",
    "C29_second_derivative_continuous_refuted",
    "C29_mid_range_splines",
    "C29_uniform_halves",
    "C29_extreme_second_derivatives",
    "C29_dual_cubic_mid_node",
    "C29_mid_percent"
   ],
   "note": "Value and slope agree at the mid node and the outer second derivatives are as requested. Equality of second derivatives at the mid node is refuted."
  },
  {
   "property": "C30",
   "status": "partial",
   "theorems": [
    "C30_nodes",
    "C30_built_ok",
    "C30_calls_succeed",
    "C30_call_makes_node",
    "C30_init_from_nodes",
    "C30_not_greater_is_nop_refuted",
    "C30_well_behaved_call_succeeds_refuted"
   ],
   "note": "Over exact reals, any number of AddNode calls. Refuted: a call that is not after the last node is not always ignored; a well-behaved call can fail an assert."
  },
  {
   "property": "C31",
   "status": "partial",
   "theorems": [
    "C31_x_error",
    "C31_y_error",
    "C31_derivative_error",
    "C31_exact",
    "C31_negative_x_refuted",
    "C31_closest_rung_refuted"
   ],
   "note": "Error bounds hold for x >= -g/2; a negative x is off by a whole grain (refuted) and the y rung chosen is the one below, not the closest (refuted)."
  },
  {
   "property": "C32",
   "status": "partial",
   "theorems": [
    "C32_lookup",
    "C32_unique",
    "C32_guess_independent_partial",
    "C32_guess_independent_refuted",
    "C32_marker_collision_refuted",
    "C32_clamp_index",
    "C32_segment_queries"
   ],
   "note": "The segment contains x up to half a grain. The value is independent of the guess on the grid and away from nodes; off the grid near a node it is not (refuted). 65535 nodes collide with a marker (refuted)."
  },
  {
   "property": "C33",
   "status": "partial",
   "theorems": [
    "C33_segments_join",
    "C33_at_nodes",
    "C33_held",
    "C33_single_node",
    "C33_continuous_refuted",
    "C33_held_before_refuted",
    "C33_end_y_refuted"
   ],
   "note": "Nodes are interpolated, ends are held, segments join. Continuity in real x is refuted (the lookup rounds x to the grid), as is holding one grain before a first node at 0 and EndY at the end of a spline ending in a jump."
  },
  {
   "property": "C34",
   "status": "partial",
   "theorems": [
    "C34_repeat",
    "C34_no_repeat",
    "C34_zero_width",
    "C34_wrapped_inside_refuted"
   ],
   "note": "Positions at least half a grain past the end are wrapped to (0, EndX]; within half a grain they are not (refuted)."
  },
  {
   "property": "C36",
   "status": "partial",
   "theorems": [
    "C36_size",
    "C36_array",
    "C36_array_size_partial",
    "C36_array_size_refuted"
   ],
   "note": "Pairwise disjointness for all counts and capacities. Fitting in ArraySize bytes holds for odd capacities or at most two splines and is refuted for even capacities with three or more."
  },
  {
   "property": "C35",
   "status": "partial",
   "theorems": [
    "C35_bulk",
    "C37_exact_away_from_nodes",
    "C37_value_at_node",
    "C35_many_points_refuted",
    "C37_slowly_refuted"
   ],
   "note": "BulkYs equals evaluation at every point, up to the segment chosen within half a grain of a node; for 65536 or more points the uint16 loop never ends (refuted)."
  },
  {
   "property": "C37",
   "status": "partial",
   "theorems": [
    "C37_tracks",
    "C37_no_failure",
    "C37_exact_away_from_nodes",
    "C37_value_at_node",
    "C37_slowly_refuted",
    "C37_backwards_refuted"
   ],
   "note": "For non-negative steps; within half a grain of a node the adjacent segment's cubic may be used."
  },
  {
   "property": "C40",
   "status": "partial",
   "theorems": [
    "C40_independent",
    "C40_advance",
    "C40_move",
    "C40_set_num_indices",
    "C40_copy",
    "C40_move_overlapping_refuted"
   ],
   "note": "All calls; a move upwards onto an overlapping range repeats slots (refuted)."
  },
  {
   "property": "C41",
   "status": "partial",
   "theorems": [
    "C41_cleared_partial",
    "C41_value_after_a_frame",
    "C41_clear_keeps_value_refuted"
   ],
   "note": "The value is kept only until the next frame, then becomes the old position in the cubic (refuted)."
  },
  {
   "property": "C42",
   "status": "partial",
   "theorems": [
    "C42_fresh_partial",
    "C42_fresh_index_refuted"
   ],
   "note": "Holds for frame times <= 0 only; any positive frame time uses the missing spline (refuted)."
  },
  {
   "property": "C38",
   "status": "partial",
   "theorems": [
    "C38_agree_partial",
    "C38_few_ends_partial",
    "C38_single_index",
    "C38_agree_refuted"
   ],
   "note": "They agree when the indices written do not catch up with the mask in the shared buffer (e.g. fewer than half of the segments end); with a single index they never do (refuted)."
  },
  {
   "property": "C39",
   "status": "partial",
   "theorems": [
    "C39_start",
    "C39_end",
    "C39_no_failure",
    "C39_velocity_refuted",
    "C39_end_velocity_refuted"
   ],
   "note": "Value is continuous at both ends. Velocity is continuous at the start only for playback rate 1 (refuted) and at the end only for y-scale 1 (refuted)."
  },
  {
   "property": "C43",
   "status": "partial",
   "theorems": [
    "C43_ownership",
    "C43_playing",
    "C43_one_owner",
    "C43_no_failure_partial",
    "C43_clone_without_spline_refuted",
    "C43_all_destroyed_refuted"
   ],
   "note": "Exclusive ownership proved for every history. Cloning a motivator without a spline dereferences null (refuted), and splines of motivators alive at destruction leak (refuted)."
  },
  {
   "property": "C44",
   "status": "partial",
   "theorems": [
    "C44_start",
    "C44_waypoints",
    "C44_precision",
    "C44_succeeds",
    "C44_modular_succeeds_partial",
    "C44_direction_refuted",
    "C44_closest_refuted",
    "C44_target_on_clone_refuted"
   ],
   "note": "Proved over exact reals: the start is the current value and velocity, each waypoint is attained at its time, both up to the documented 16-bit quantisation, for waypoint times that the time grid tells apart. Success is proved without modular arithmetic; with it only for up to two closest/direct waypoints, and refuted for the other directions, for three closest waypoints and for small splines taken over from a clone."
  },
  {
   "property": "C45",
   "status": "partial",
   "theorems": [
    "C45_velocity",
    "C45_max_delta_partial",
    "C45_range_partial",
    "C45_arrives",
    "C45_rests",
    "C45_max_delta_refuted",
    "C45_range_refuted",
    "C45_max_delta_per_frame_refuted",
    "C45_uninitialised_refuted"
   ],
   "note": "The velocity limit and arrival hold for every frame. The max_delta and range limits hold unless the step lands on the target, which is returned unclamped (refuted); the default configuration reads an uninitialised max_delta (refuted)."
  },
  {
   "property": "C46",
   "status": "partial",
   "theorems": [
    "C46_consumes_partial",
    "C46_frame",
    "C46_terminates_refuted"
   ],
   "note": "Terminates and consumes the frame time when max_delta_time > 0; with the default 0 it never ends (refuted)."
  },
  {
   "property": "C47",
   "status": "partial",
   "theorems": [
    "C47_overshoot",
    "C47_simple",
    "C47_simple_initialize",
    "C47_overshoot_difference_partial",
    "C47_overshoot_difference_refuted"
   ],
   "note": "Holds for the simple processors and for all overshoot queries but one. Overshoot Differences reads values_[i] instead of values_[index + i]: right only for index 0 (refuted)."
  },
  {
   "property": "C48",
   "status": "partial",
   "theorems": [
    "C48_const",
    "C48_at_target",
    "C48_no_derivatives_refuted"
   ],
   "note": "The value is the last value set for every frame sequence. Initialising with the default (null) start_derivatives dereferences null (refuted)."
  },
  {
   "property": "C49",
   "status": "partial",
   "theorems": [
    "C49_start_partial",
    "C49_trajectory_partial",
    "C49_path",
    "C49_target_time",
    "C49_at_rest_refuted",
    "C49_moving_start_refuted"
   ],
   "note": "The motion follows the two-quadratic path from the current value and velocity while the quadratics solved are well conditioned; arrival at rest when the start velocity points past the target is refuted, and so is the first frame of a motivator initialised with a velocity."
  },
  {
   "property": "C50",
   "status": "partial",
   "theorems": [
    "C50_new",
    "C50_trajectory_partial",
    "C50_start",
    "C50_oscillation_smooth",
    "C50_target_time_refuted",
    "C50_fresh_refuted"
   ],
   "note": "For a damped spring any sequence of frames shows a once continuously differentiable oscillation that starts at the current value and velocity. The reported target time is never updated (refuted), and a motivator without a target fails in its first frame (refuted)."
  },
  {
   "property": "C51",
   "status": "proved",
   "theorems": [
    "C51_product",
    "C51_unsupported",
    "C51_frame"
   ],
   "note": "Matrix motivator value = ordered product of the elementary matrices."
  },
  {
   "property": "C52",
   "status": "proved",
   "theorems": [
    "C52_matrix",
    "C52_matrix_succeeds",
    "C52_sqt",
    "C52_sqt_succeeds",
    "C52_default",
    "C52_blend",
    "C52_new"
   ],
   "note": "BlendToOps result is the merge by id; what becomes of each operation is stated without the functions of the model in C52_default, C52_blend and C52_new."
  },
  {
   "property": "C53",
   "status": "partial",
   "theorems": [
    "C53_update_partial",
    "C53_unsupported",
    "C53_zero_refuted",
    "C53_frame"
   ],
   "note": "Translation * rotation * scale with defaults and the normalised quaternion; when all four quaternion components are zero it cannot be normalised (refuted)."
  },
  {
   "property": "C54",
   "status": "partial",
   "theorems": [
    "C54_orientation_partial",
    "C54_closer_partial",
    "C54_goal",
    "C54_velocity",
    "C54_absent_w_refuted"
   ],
   "note": "Holds whenever the motivator drives the w component; without an operation for w the default 1 is not negated and the orientation shown changes (refuted)."
  },
  {
   "property": "C78",
   "status": "partial",
   "theorems": [
    "C78_composes",
    "C78_rotation_partial",
    "C78_rotation_refuted"
   ],
   "note": "The parts always compose to the matrix; the rotation part is a proper rotation when scaling comes last and is non-zero (refuted otherwise)."
  },
  {
   "property": "C55",
   "status": "proved",
   "theorems": [
    "C55_matrix",
    "C55_sqt",
    "C55_rig",
    "C55_child",
    "C55_child_none",
    "C55_simple"
   ],
   "note": "Matrix, SQT and rig motivators, and the single animations of a rig; an endless rig animation is C60."
  },
  {
   "property": "C56",
   "status": "proved",
   "theorems": [
    "C56_single",
    "C56_blended",
    "C56_lineage",
    "C56_new",
    "C56_frame"
   ],
   "note": "Product along the unique line of ancestors for one or several animations; the root motion bone counts as identity and is reported separately."
  },
  {
   "property": "C57",
   "status": "partial",
   "theorems": [
    "C57_blend_to_anims",
    "C57_set_weights_partial",
    "C57_set_weights_refuted",
    "C57_history_partial"
   ],
   "note": "BlendToAnims always normalises, and so does SetWeights with at most as many weights as animations; with more weights the sum is below 1 (refuted)."
  },
  {
   "property": "C58",
   "status": "proved",
   "theorems": [
    "C58_sums",
    "C58_convex",
    "C58_same",
    "C58_rig"
   ],
   "note": "Weighted sums of positions and scales with normalised weights; animations that agree on a bone give the common transform. When the blend is defined at all is C79."
  },
  {
   "property": "C59",
   "status": "partial",
   "theorems": [
    "C59_accepts_partial",
    "C59_anims_partial",
    "C59_single_bone_refuted",
    "C59_mixed_refuted"
   ],
   "note": "Accepted when the hierarchies match or the rig has one bone. A single-bone animation passes the assert but is read out of range on a rig with several bones (refuted); an SQT animation after a matrix animation fails an assert (refuted)."
  },
  {
   "property": "C60",
   "status": "partial",
   "theorems": [
    "C60_start_zero_partial",
    "C60_later_refuted"
   ],
   "note": "Holds when started at time 0; at any later time start_time + endless overflows (refuted)."
  },
  {
   "property": "C64",
   "status": "proved",
   "theorems": [
    "C64_found",
    "C64_default",
    "C64_all",
    "C64_num_ops"
   ],
   "note": "First matching operation, default otherwise; NumOps for up to kMaxNumBones bones."
  },
  {
   "property": "C65",
   "status": "partial",
   "theorems": [
    "C65_parents_partial",
    "C65_rig_init",
    "C65_names_refuted"
   ],
   "note": "Decides equality of bone counts and parents; names are not compared (refuted)."
  },
  {
   "property": "C79",
   "status": "partial",
   "theorems": [
    "C79_first_weight_partial",
    "C79_zero_weight_refuted"
   ],
   "note": "Defined when the first animation has a positive weight; with first weight 0 two quaternions of one orientation can cancel (refuted)."
  },
  {
   "property": "C61",
   "status": "partial",
   "theorems": [
    "C61_query_partial",
    "C61_distinct_names_partial",
    "C61_loads_once",
    "C61_result",
    "C61_many_refuted",
    "C61_failed_load_refuted",
    "C61_empty_object_refuted"
   ],
   "note": "Proved for tables with at most 65535 animations, after any sequence of calls of Load. False beyond that (16-bit indices: the 65536th entry yields none, the 65537th yields the first animation), false for names that cannot be loaded (load_fn is called once per occurrence), and undefined when an object of the table lists no animations and no other object lists one."
  },
  {
   "property": "C62",
   "status": "partial",
   "theorems": [
    "C62_defining_anim_partial",
    "C62_succeeds",
    "C62_constant_refuted",
    "C62_reload_refuted"
   ],
   "note": "Union with ascending ids proved for a newly loaded table. The claim about constants is false: the range of values starts as [1, 0], not as the empty range, so an operation is constant exactly when all animations have the same constant in [0, 1]. After a second Load the operations are added again."
  },
  {
   "property": "C63",
   "status": "partial",
   "theorems": [
    "C63_most_bones_partial",
    "C63_many_refuted"
   ],
   "note": "Proved for at most 256 animations; false for more (the index of the best animation is truncated to 8 bits)."
  },
  {
   "property": "C74",
   "status": "partial",
   "theorems": [
    "C74_first_stop",
    "C74_terminates_partial",
    "C74_refuted",
    "C74_curve_refuted"
   ],
   "note": "The search is characterised exactly: it returns the first index on its walk that is the end index or far enough. It always terminates when the positions wrap, or for 1 or at least 4 positions. False for 3 non-wrapping positions (the end index is computed with wrapping and the walk never reaches it): the search and the constant-speed curve built on it loop forever."
  },
  {
   "property": "C80",
   "status": "proved",
   "theorems": [
    "C80_constant_speed"
   ],
   "note": "Exact arithmetic; hypotheses are that the function returns, two positions at least, positive total time."
  },
  {
   "property": "C66",
   "status": "partial",
   "theorems": [
    "C66_linear_partial",
    "C66_others_unchanged",
    "C66_cubic_refuted"
   ],
   "note": "Proved for linear keyframes. Step and cubic keyframes are converted without the check, so two cubic keyframes q and -q keep opposite signs."
  },
  {
   "property": "C67",
   "status": "partial",
   "theorems": [
    "C67_step",
    "C67_grain",
    "C67_linear_nodes",
    "C67_linear_partial",
    "C67_linear_refuted"
   ],
   "note": "Step keyframes hold their values to the precision of 16 bits, outside a grain around each keyframe. For linear keyframes the uncompressed nodes lie exactly on the line and the compressed spline is within a stated bound of it; it is not the line: angles are rounded, and a ramp slower than the smallest angle becomes an S-curve."
  },
  {
   "property": "C68",
   "status": "partial",
   "theorems": [
    "C68_exact",
    "C68_exact_quaternion",
    "C68_succeeds",
    "C68_no_keyframes_refuted",
    "C68_too_many"
   ],
   "note": "Exact whenever the conversion returns, and it returns for 1 to 32766 chronological keyframes. Without keyframes a size is computed but the conversion reads before the first node."
  },
  {
   "property": "C81",
   "status": "proved",
   "theorems": [
    "C81_cubic",
    "C81_curve"
   ],
   "note": "Stated for the nodes and the Hermite cubics before compression; compression errors are C31."
  },
  {
   "property": "C82",
   "status": "proved",
   "theorems": [
    "C82_quaternion_ops",
    "C82_buffer",
    "C82_vector_ops",
    "C82_vector_constants",
    "C82_quaternion_constants"
   ],
   "note": "Ids are modulo 256, as the 8-bit ids are."
  },
  {
   "property": "C69",
   "status": "partial",
   "theorems": [
    "C69_records_curve",
    "C69_whole_spacing",
    "C69_times_partial",
    "C69_times_refuted"
   ],
   "note": "Termination, order, end points and tolerance hold for all sample arrays when samples between two nodes are taken as evenly spaced, and in full when samples are whole time units apart. At the times the samples were taken the tolerance claim is false in general: split times are truncated to ints, so nodes move earlier by up to count - 2 units."
  },
  {
   "property": "C70",
   "status": "partial",
   "theorems": [
    "C70_prune_partial",
    "C70_remaining_curve_partial",
    "C70_refuted",
    "C70_constant_refuted"
   ],
   "note": "Order, first and last node, and removed nodes near the curve between two kept nodes, for all node lists. Near the remaining curve only when redundancy passes to shorter stretches; otherwise false (witness), and the last node goes when the channel becomes constant."
  },
  {
   "property": "C73",
   "status": "proved",
   "theorems": [
    "C73_shift",
    "C73_extend",
    "C73_span",
    "C73_extend_all"
   ],
   "note": "Times that stay ints; curves over the reals."
  },
  {
   "property": "C83",
   "status": "proved",
   "theorems": [
    "C83_repeats",
    "C83_first_reported"
   ],
   "note": "At most 255 bones, no empty channel (both undefined or endless otherwise)."
  },
  {
   "property": "C72",
   "status": "partial",
   "theorems": [
    "C72_whole_partial",
    "C72_scene",
    "C72_single_partial",
    "C72_names",
    "C72_refuted"
   ],
   "note": "Holds for whole skeletons. A bone exported alone keeps its parent's index; the file loads exactly if it had no parent (C72_single_partial), so the claim is false of the single-bone export (C72_refuted)."
  },
  {
   "property": "C84",
   "status": "proved",
   "theorems": [
    "C84_skeleton"
   ],
   "note": "Whether a node holds a skeleton or mesh is an input."
  },
  {
   "property": "C85",
   "status": "partial",
   "theorems": [
    "C85_base_name",
    "C85_round_trip_partial",
    "C85_bone_limit",
    "C85_bone_count",
    "C85_quaternions_refuted",
    "C85_float_splines_refuted"
   ],
   "note": "For whole skeletons with channels that are not empty, in order of time, of at most 65535 nodes and not of quaternions. Quaternion channels give files that the loader rejects; files with float splines never load. Exact arithmetic; times are ints."
  },
  {
   "property": "C86",
   "status": "partial",
   "theorems": [
    "C86_defining_partial",
    "C86_constants_refuted",
    "C86_quaternions_refuted"
   ],
   "note": "All but the constants' values, which are lost, and quaternions, which do not load."
  },
  {
   "property": "C71",
   "status": "partial",
   "theorems": [
    "C71_sum_partial",
    "C71_pose_partial",
    "C71_bones_partial",
    "C71_scales_refuted",
    "C71_spans_refuted",
    "C71_uniform_refuted",
    "C71_quaternion_refuted"
   ],
   "note": "The pose after pruning is the pose before it with every channel's value changed by less than its tolerance (twice that for scales along an axis), for all channel lists with ascending ids, no scale twice, curves with flat ends or one span, and, if scales are collapsed, at node times. False without these (witnesses)."
  },
  {
   "property": "C87",
   "status": "partial",
   "theorems": [
    "C87_in_order",
    "C87_made",
    "C87_three",
    "C87_two",
    "C87_from_current",
    "C87_current_holds",
    "C87_const_velocity",
    "C87_const_velocity_succeeds",
    "C87_whole_turn_refuted",
    "C87_dimensions",
    "C87_dimensions_made",
    "C87_end_time"
   ],
   "note": "Exact arithmetic. Constant velocity is proved for ranges that are not modular; in a modular range a turn of more than half the range does not move at the velocity asked for (witness)."
  },
  {
   "property": "C88",
   "status": "proved",
   "theorems": [
    "C88_membership",
    "C88_tolerance",
    "C88_percent",
    "C88_percent_clamped",
    "C88_scale",
    "C88_create",
    "C88_degrees",
    "C88_degrees_back"
   ],
   "note": "Exact arithmetic."
  },
  {
   "property": "C89",
   "status": "partial",
   "theorems": [
    "C89_follows",
    "C89_repeat_after_end_refuted",
    "C89_succeeds"
   ],
   "note": "For splines set without a blend. Repetition switched on after the end has no effect (witness): the position goes on past the end and the value stays."
  },
  {
   "property": "C90",
   "status": "partial",
   "theorems": [
    "C90_target_values_partial",
    "C90_target_velocities_partial",
    "C90_target_time_partial",
    "C90_differences",
    "C90_spline_time",
    "C90_end_derivatives",
    "C90_shift_and_rate_refuted"
   ],
   "note": "For splines that do not repeat and are set without a blend. The answers ignore the y scale, the y offset and (TargetTime) the playback rate: the theorems say how they are related to what follows, and a witness shows they are not what is claimed with a shift and a rate of 2."
  },
  {
   "property": "C91",
   "status": "proved",
   "theorems": [
    "C91_move",
    "C91_remove",
    "C91_set_num_indices",
    "C91_initialize",
    "C91_defragment",
    "C91_allocate",
    "C91_queries_own",
    "C91_evaluator"
   ],
   "note": "The arrays of data and values are of the same length ('even'), as SetNumIndices keeps them."
  },
  {
   "property": "C92",
   "status": "partial",
   "theorems": [
    "C92_simple",
    "C92_simple_succeeds",
    "C92_matrix",
    "C92_sqt",
    "C92_reset",
    "C92_overshoot",
    "C92_spline_refuted"
   ],
   "note": "Proved for const, ease, spring, matrix and SQT motivators. A spline motivator on a reused index keeps the value of the motivator removed (witness)."
  },
  {
   "property": "C93",
   "status": "partial",
   "theorems": [
    "C93_current",
    "C93_target",
    "C93_target_now",
    "C93_current_to_target",
    "C93_second_target_refuted"
   ],
   "note": "Only the first target is used: the second of two is lost (witness). A target at time 0 is taken for the current value."
  },
  {
   "property": "C94",
   "status": "partial",
   "theorems": [
    "C94_legal",
    "C94_file",
    "C94_only_legal_partial",
    "C94_only_legal_refuted",
    "C94_no_failure"
   ],
   "note": "Legal command lines are accepted and do what they say. That only legal ones are accepted holds without -a and -u; a known unit or axis system resets valid_args, so that an unknown switch, a negative tolerance or a missing file name before it is accepted (refuted). Library functions (atof, unit names) are arbitrary."
  },
  {
   "property": "C95",
   "status": "partial",
   "theorems": [
    "C95_turn_back",
    "C95_transform_partial",
    "C95_static_partial",
    "C95_order_refuted"
   ],
   "note": "Proved for the orders XYZ, ZYX and SphericXYZ; for animated nodes under the conditions of C71 on the recorded curves, for nodes without curves in full. For XZY, YZX, YXZ and ZXY the order table is wrong: a node turned by 90 degrees about x and y is exported with the turns exchanged (refuted)."
  },
  {
   "property": "C96",
   "status": "partial",
   "theorems": [
    "C96_undriven",
    "C96_driven",
    "C96_refuted"
   ],
   "note": "What AnimConst reports is characterised exactly. That a channel reported as constant stays within the tolerance is false: the slopes of the last key are not looked at (refuted)."
  },
  {
   "property": "C97",
   "status": "partial",
   "theorems": [
    "C97_intervals",
    "C97_recorded",
    "C97_outside",
    "C97_outside_refuted",
    "C97_late_refuted"
   ],
   "note": "The recording is proved in full. A curve that is not constant but has no key interval in the span fails the assertion that it has nodes, and one whose interval ends later than an int holds fails the assertion of the time (both refuted)."
  },
  {
   "property": "C98",
   "status": "partial",
   "theorems": [
    "C98_blend_partial",
    "C98_default_partial",
    "C98_constant_refuted"
   ],
   "note": "Proved for operations that have a motivator, and for new motivators. A constant operation that is blended to another constant, or to the default, jumps at once (refuted)."
  },
  {
   "property": "C99",
   "status": "partial",
   "theorems": [
    "C99_table",
    "C99_list",
    "C99_names",
    "C99_zero",
    "C99_same_list",
    "C99_same_table",
    "C99_embedded",
    "C99_empty",
    "C99_empty_refuted",
    "C99_both_refuted"
   ],
   "note": "Proved for what the descriptions mean and that they agree. A table whose only lists are empty fails the check on the number of bones (refuted), and the anim_files of a list that also has anims are ignored (refuted)."
  },
  {
   "property": "C100",
   "status": "proved",
   "theorems": [
    "C100_built",
    "C100_parents_first"
   ],
   "note": "For all sequences of calls after Init on a new RigAnim."
  },
  {
   "property": "C101",
   "status": "partial",
   "theorems": [
    "C101_bone_rate",
    "C101_bone_repeat",
    "C101_rate",
    "C101_repeat",
    "C101_rates",
    "C101_rates_refuted",
    "C101_time_refuted"
   ],
   "note": "What is set is proved for all rigs, over any behaviour of the motivators of operations. Refuted: more rates than animations are read out of range, and a rig that plays an endless animation still reports endless time after it is told not to repeat."
  },
  {
   "property": "C102",
   "status": "partial",
   "theorems": [
    "C102_resample",
    "C102_overshoot_refuted"
   ],
   "note": "Proved in full whenever the curve stays within the lengthened range of y at the samples; that resampling always succeeds is refuted: a curve that bulges out of its range by more than 52.5% fails the assertion on y."
  },
  {
   "property": "C103",
   "status": "proved",
   "theorems": [
    "C103_prune_again"
   ],
   "note": "For channels in the order FBX nodes produce (regular), which every gathered node satisfies."
  },
  {
   "property": "C104",
   "status": "partial",
   "theorems": [
    "C104_scene",
    "C104_gathers",
    "C104_static_partial",
    "C104_animated_partial"
   ],
   "note": "C104_scene holds for all scenes that are gathered without failing; C104_gathers says which animated scenes are: those whose curves have their keys in order and some key interval in the span (for others C97_outside_refuted). The transform of bones is proved for the rotation orders XYZ, ZYX and spheric (for the others it is refuted by C95_order_refuted): for nodes that are not animated in full, for animated nodes under the conditions of C71 on what is recorded (without them C71 has witnesses against it)."
  },
  {
   "property": "C105",
   "status": "partial",
   "theorems": [
    "C105_times",
    "C105_run",
    "C105_static_partial",
    "C105_animated",
    "C105_plays"
   ],
   "note": "The status, the file and the times are proved for all scenes; the way from scene to loaded rig, and to a rig that plays it, for readable scenes of at most 254 bones with at most 2000 keys each (enough for the 65535 nodes of a channel). The FBX transform of the bones is proved for scenes that are not animated, with the rotation orders XYZ, ZYX and spheric; for the others it is refuted by C95_order_refuted. For animated bones see C104_animated_partial."
  },
  {
   "property": "C106",
   "status": "partial",
   "theorems": [
    "C106_spline",
    "C106_exists",
    "C106_matrix_exists",
    "C106_sqt_exists",
    "C106_spline_class",
    "C106_spline_matrix",
    "C106_spline_sqt",
    "C106_matrix_partial",
    "C106_sqt_partial",
    "C106_driven_refuted"
   ],
   "note": "In full for spline motivators and for matrices and SQT transforms driven by them (cloned splines of the default capacity; one with more nodes fails the assertion of the assignment). C106_matrix_partial and C106_sqt_partial: for any kind of motivator that can be cloned; refuted when it cannot: then the clone shows the constant of the operation. The \u2026_exists theorems say exactly which spline motivators, matrices and SQT transforms can be cloned."
  },
  {
   "property": "C107",
   "status": "proved",
   "theorems": [
    "C107_matrix",
    "C107_initialized",
    "C107_sqt",
    "C107_sqt_initialized"
   ],
   "note": "Real arithmetic. For motivators with no operations before, and blend time 0; later blends are C39, C52 and C98. SQT: as long as the quaternion is not zero (C53_zero_refuted)."
  },
  {
   "property": "C108",
   "status": "proved",
   "theorems": [
    "C108_rig"
   ],
   "note": "Real arithmetic; one animation from the start."
  },
  {
   "property": "C109",
   "status": "proved",
   "theorems": [
    "C109_coordinates",
    "C109_succeeds",
    "C109_shown",
    "C109_vector",
    "C109_plays",
    "C109_range"
   ],
   "note": "Spline processor, real arithmetic. The spline that SetTarget builds has the default capacity, whereas one from the pool may have more room: targets too long for the default capacity are calls that fail in the model. C109_succeeds asks that the indices exist and that SetSplinesAndTargets is given as many targets as splines."
  },
  {
   "property": "C110",
   "status": "proved",
   "theorems": [
    "C110_keyframes",
    "C110_channel",
    "C110_rig"
   ],
   "note": "Real arithmetic. Channels as in C85 (not empty, in order of time, no quaternions), of at most 65534 keyframes, with ids of at most 254 and operations that matrices have; no blend from an earlier animation; frames and start of at most 32 seconds of playback; an animation that the file marks as repeating is started at time 0 (C60). The bound at keyframes asks for strictly ascending times from 0 to 65535 ms."
  },
  {
   "property": "C111",
   "status": "proved",
   "theorems": [
    "C111_matrix",
    "C111_sqt",
    "C111_rig"
   ],
   "note": "Real arithmetic; modular ranges of splines are invalid or symmetric about 0, blend times of 1 to 2^31 - 1 ticks, frames of at most 32 seconds. Frames of an SQT transform are proved as long as they do not fail, which they do if the quaternion passes through zero (C53_zero_refuted). One animation per rig at a time."
  },
  {
   "property": "C112",
   "status": "proved",
   "theorems": [
    "C112_matrix",
    "C112_sqt",
    "C112_rig",
    "C112_ends"
   ],
   "note": "Real arithmetic. For motivators with no operations before and blend time 0; times that an int can hold. The unit is that of the animation: ticks only at rate 1 (C90_shift_and_rate_refuted). A rig with an endless animation is C60."
  },
  {
   "property": "C113",
   "status": "proved",
   "theorems": [
    "C113_frame",
    "C113_plays",
    "C113_runs",
    "C113_rig",
    "C113_realized"
   ],
   "note": "Real arithmetic. References between processors are a processor and an index (C10: Defragment changes no reference's meaning); making them by blending is C98, C52 and C59. Rigs as their constructor and BlendToAnim leave them. Engines on which Reset has not been called (C16)."
  },
  {
   "property": "C114",
   "status": "partial",
   "theorems": [
    "C114_range",
    "C114_three_pi",
    "C114_operators",
    "C114_clamp",
    "C114_radians_partial",
    "C114_scale_partial",
    "C114_radians_refuted",
    "C114_degrees_partial",
    "C114_degrees_refuted",
    "C114_clamp_refuted"
   ],
   "note": "Single precision with rounding to nearest, overflow not modelled. FromRadians and scaling are proved up to 2^24 radians and false beyond: FromRadians(201326592.0f) fails the constructor's assert. ToDegrees is proved in [-180, 180]; kMinUniqueAngle gives -180. Clamp gives the angle back only up to 2^-21. The constants' digits are taken as given."
  },
  {
   "property": "C115",
   "status": "partial",
   "theorems": [
    "C115_symmetric",
    "C115_normalize_partial",
    "C115_normalize_refuted",
    "C115_close_partial",
    "C115_close_refuted",
    "C115_wild_partial",
    "C115_wild_refuted"
   ],
   "note": "Single precision with rounding to nearest, overflow not modelled. Proved for ranges whose length is a single and that reach at least as far above zero as below, NormalizeWildValue for (-h, h] and values up to 2^22 h; false in general: the assert of Normalize fails for 2^-30 in (1, 2], NormalizeCloseValue returns the excluded start of (-1, 0], NormalizeWildValue fails for 235035600 in (-3.5, 3.5]."
  },
  {
   "property": "C116",
   "status": "partial",
   "theorems": [
    "C116_x_round_trip",
    "C116_x_error",
    "C116_y_round_trip_partial",
    "C116_y_round_trip_refuted"
   ],
   "note": "Single precision with rounding to nearest, overflow not modelled. x: proved. y: false, CompactY truncates, so that on [0, 1] rung 257 becomes 256; proved on ranges [0, h]: the same rung or the one below. Derivatives (atan, tan) aren't modelled in single precision."
  },
  {
   "property": "C117",
   "status": "proved",
   "theorems": [
    "C117_runs",
    "C117_step",
    "C117_rests",
    "C117_clamped",
    "C117_set_targets",
    "C117_whole_turn_fails"
   ],
   "note": "Single precision with rounding to nearest, overflow not modelled. One index; AdvanceFrame treats them one by one (C45). Less than a whole turn: a single lies between h + max_delta and 3h."
  },
  {
   "property": "C118",
   "status": "proved",
   "theorems": [
    "C118_value",
    "C118_slope",
    "C118_start",
    "C118_end",
    "C118_join",
    "C118_constant",
    "C118_placed",
    "C118_beyond",
    "C118_end_refuted"
   ],
   "note": "Single precision with rounding to nearest, overflow not modelled, no fused operations. C118_end_refuted shows why the join is only bounded."
  },
  {
   "property": "C119",
   "status": "proved",
   "theorems": [
    "C119_position",
    "C119_shown",
    "C119_drift_refuted",
    "C119_end_refuted"
   ],
   "note": "Single precision with rounding to nearest, overflow not modelled, no fused operations; the sequential update, one index, no blending; tan is a parameter: what C119_shown compares with is the cubic between the rounded node values and whatever slopes tan returns. Proved on the grid; false off it, with two witnesses."
  },
  {
   "property": "C120",
   "status": "proved",
   "theorems": [
    "C120_once",
    "C120_repeats"
   ],
   "note": "Single precision with rounding to nearest, overflow not modelled, no fused operations; the sequential update, one index, no blending; tan is a parameter. Values are compared with the cubic of the segment the rounded index search picks: at a join this may be either neighbour, up to a grain beyond its end."
  },
  {
   "property": "C121",
   "status": "proved",
   "theorems": [
    "C121_values",
    "C121_value",
    "C121_set_values",
    "C121_set_values_sqt",
    "C121_settable",
    "C121_set_target",
    "C121_set_target_sqt",
    "C121_shown",
    "C121_initialized",
    "C121_blended",
    "C121_count_refuted"
   ],
   "note": "The operations of MatrixData and SqtData for any scalar motivator; matrices over the reals."
  },
  {
   "property": "C122",
   "status": "partial",
   "theorems": [
    "C122_header",
    "C122_values",
    "C122_row_partial",
    "C122_children",
    "C122_fits",
    "C122_local",
    "C122_new_refuted",
    "C122_overflow_refuted",
    "C122_shift_refuted",
    "C122_local_refuted"
   ],
   "note": "Rows and header agree only while the counts of operations do; where they do not, the claim is false of the code (witnesses: write past the end, values under another bone, value of another operation). Cells are modelled, not their text."
  },
  {
   "property": "C123",
   "status": "proved",
   "theorems": [
    "C123_blend",
    "C123_at_node",
    "C123_moved",
    "C123_refuted"
   ],
   "note": "Single precision with rounding to nearest, overflow not modelled, no fused operations; the sequential update, one index; no modular range; tan is a parameter. C123_refuted: why the bound has to grow with s."
  },
  {
   "property": "C124",
   "status": "proved",
   "theorems": [
    "C124_clamped",
    "C124_wraps",
    "C124_missing",
    "C124_spline",
    "C124_endless_refuted",
    "C124_limits_refuted"
   ],
   "note": "Overshoot in single precision as in C117; limits that include 0 (a new motivator shows 0), modular ranges around 0 with max_delta of at most half a turn. The last two theorems are over exact reals. FlatBuffers are records whose tables may be absent; the defaults are those of the schema."
  },
  {
   "property": "C125",
   "status": "partial",
   "theorems": [
    "C125_update",
    "C125_evaluate",
    "C125_four",
    "C125_update_call_refuted",
    "C125_evaluate_call_refuted",
    "C125_later_refuted",
    "C125_past_refuted"
   ],
   "note": "The claim is false of the assembly: see the refutations (calls as declared fault if the first 4096 bytes are not mapped; eight curves; floats behind one index; lost registers). Proved: with the arguments as the comments of the assembly say, the exact effect of both functions on registers and memory for any number of indices and any rounding. The instructions are modelled on words of memory with unbounded core registers."
  },
  {
   "property": "C126",
   "status": "partial",
   "theorems": [
    "C126_weights",
    "C126_set_weights",
    "C126_one",
    "C126_mean",
    "C126_same_pose",
    "C126_sum_refuted",
    "C126_same_pose_refuted"
   ],
   "note": "Bounds for any number of animations and any rounding to nearest, without overflow. That the sum is exactly 1, as the comments say, and that a bone with the same position in all animations is shown exactly there are refuted. SetWeights with more weights than animations is refuted in C57."
  },
  {
   "property": "C127",
   "status": "partial",
   "theorems": [
    "C127_average",
    "C127_average_refuted",
    "C127_deviation",
    "C127_min_max",
    "C127_histogram",
    "C127_count_refuted",
    "C127_bucket_refuted",
    "C127_drawing",
    "C127_statistics",
    "C127_scale_refuted",
    "C127_recorded",
    "C127_valid_ids",
    "C127_output"
   ],
   "note": "BenchmarkTime, declared in a header of another project, is taken to be an unsigned integer of 64 bits. sqrt, floor and doubles are exact; the clock, threads and the text of the report are left out. Refuted: averages when the sum passes 2^64, counts of 65536 samples, buckets when the product passes 2^64, and that the drawing is scaled to the bucket with the most samples (the first bucket is left out)."
  },
  {
   "property": "C128",
   "status": "partial",
   "theorems": [
    "C128_settled_partial",
    "C128_twitch_partial",
    "C128_index_refuted",
    "C128_far_refuted",
    "C128_returns",
    "C128_boost",
    "C128_settles_refuted",
    "C128_spline_refuted"
   ],
   "note": "Overshoot and spline motivators, over exact reals. Settled and Twitch of overshoot motivators hold for index 0 and are refuted for others; refuted as well: that every boosted motivator settles back, and that a spline motivator is boosted."
  },
  {
   "property": "C129",
   "status": "partial",
   "theorems": [
    "C129_alone",
    "C129_path",
    "C129_arrives_partial",
    "C129_past_refuted",
    "C129_set_targets",
    "C129_current_refuted",
    "C129_queries",
    "C129_target_time_partial",
    "C129_target_time_refuted",
    "C129_new",
    "C129_program"
   ],
   "note": "Over exact reals. Refuted: that a motivator is at its target, and not beyond it, as soon as its time has come; that a value set on a motivator at rest lasts; that TargetTime is the longest over the dimensions."
  },
  {
   "property": "C130",
   "status": "partial",
   "theorems": [
    "C130_close",
    "C130_arrives",
    "C130_rests_refuted"
   ],
   "note": "Round to nearest without overflow, any rule for ties. The error bound is for up to 2^24 / 6 frames. Refuted: that a motivator at its target stays exactly there while its time runs."
  },
  {
   "property": "C131",
   "status": "proved",
   "theorems": [
    "C131_builds",
    "C131_returns"
   ],
   "note": ""
  },
  {
   "property": "C132",
   "status": "partial",
   "theorems": [
    "C132_draws",
    "C132_curve",
    "C132_memory_refuted",
    "C132_flat_refuted",
    "C132_zero_refuted"
   ],
   "note": "Over real numbers. C132_draws is for drawings that have a zero line (smallest y not above 0) and for memory after the last point that may be read. Refuted: that nothing but the points is read, that points of one height can be drawn, that points of height zero lie on the line of zero. The text of the numbers above and below the drawing is left out."
  },
  {
   "property": "C133",
   "status": "partial",
   "theorems": [
    "C133_usage",
    "C133_writes_partial",
    "C133_succeeds_partial",
    "C133_missing_refuted",
    "C133_unwritable_refuted"
   ],
   "note": "The FlatBuffers library is a pair of functions, of which it is only assumed that nothing can be read from no bytes. Missing: more than 256 inputs (FindCompleteRig counts in a byte), and the text that is printed. Refuted: that unreadable inputs and unwritable outputs are reported."
  },
  {
   "property": "C134",
   "status": "partial",
   "theorems": [
    "C134_range",
    "C134_nodes",
    "C134_end",
    "C134_slopes_refuted"
   ],
   "note": "Over real numbers. For calls of CreateSpline that fail no assertion: a node that AddNode inserts can be outside the range (C30_well_behaved_call_succeeds_refuted). Refuted: that slopes are scaled with y."
  }
 ]
}