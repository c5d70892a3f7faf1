# Formal model of google/motive

Plan for C01 to C75, written before the proofs; the later properties were added as the model grew, and the lines from C87 on were written down after their proofs, to say how these were done. The status column of MANIFEST.json is authoritative.

## Approach

* Integer / pointer / state-machine code is modelled literally over `list`, `Z`, `nat`; undefined behaviour, failed asserts and out-of-range accesses are a distinct outcome (`None` or an error constructor).
* Floating-point code is modelled over Coq's real numbers `R`: rounding, overflow, NaN are **not** modelled, except for the bit-level helpers of float.h (C75). Every definition comment cites file and lines.
* Loops become structural recursion or fuelled recursion with an explicit out-of-fuel result that theorems exclude.
* Where a property is false of the code as written the theorem is named `..._refuted` and exhibits a witness; the part that does hold is named `..._partial`.
* Cases that meet the hypotheses of the theorems stand beside them as `Example`s; those of older properties are gathered in Cases.v and Cases2.v.

## Plan per property

* **C01** Live index blocks never overlap — Concrete allocator (counts array, free list) over Z; every array access and assert is an option failure. Invariant: counts is the layout of a block list and the free list is a permutation of the free starts; induction over the op list.
* **C02** Alloc returns a fresh block and disturbs nobody — Same model; frame theorem for Alloc from the block-list refinement.
* **C03** Alloc recycles before it grows — Same model; Alloc scan loop modelled literally, first minimal excess proved.
* **C04** Defragment always terminates and leaves the array dense — Defragment modelled with fuel and an explicit out-of-fuel outcome; measure = sum of used positions; theorem says fuel computed from the state always suffices.
* **C05** Defragment carries the client's data along — Callback events returned as a log; client array = replay of the log; block contents permuted, mapping function derived by running the log on the identity array.
* **C06** Client array size always matches — Invariant over histories on length of the replayed client array; bounds of every logged event.
* **C07** A motivator and its processor always agree — Processor state machine: allocator + back-pointer array + motivator handles + data array; bijection invariant by induction over histories.
* **C08** Motivators are isolated from one another — Same state machine; observation of handle h (list of its data cells) framed by every op not on h.
* **C09** Moving a motivator transfers its identity — Same; specification in terms of observation before/after.
* **C10** Invalidate is clean and idempotent — Same.
* **C11** Destroying a processor resets its motivators — Same; destructor loop over blocks.
* **C12** Clones are independent equal copies — Same; CloneMotivator/CloneFrom.
* **C13** A frame leaves no dead slots — Same + C04.
* **C14** One processor per motivator type — Engine state machine: factory map, processor map, sorted list.
* **C15** AdvanceFrame runs every processor exactly once in priority order — Insertion into multiset order modelled; sortedness + stability.
* **C16** Reset leaves a usable engine — Reset modelled as written; expected refutation (sorted list is not cleared).
* **C17** Modular normalisation lands in range and is congruent — Range over R (exact arithmetic instead of float; stated simplification); floor via up/Int_part.
* **C18** Modular differences — Same; expected refutation for ranges not symmetric about 0 plus positive theorem for symmetric ones.
* **C19** Range algebra has set semantics — Range over R, lattice laws.
* **C20** Range array helpers — List functions over Range.
* **C21** Angles stay in (-pi, pi] and are congruent to the exact result — Angle over R with kPi = PI.
* **C22** Angle clamping picks the nearer end — Angle over R.
* **C23** Cubic curve meets its four end conditions — Cubic over R, ring/field.
* **C24** Curve transformations — Derivable_pt_lim / algebra.
* **C25** UniformCurvature tells the truth — Affine second derivative.
* **C26** Quadratic root finding is complete — Discriminant argument over R with sqrt.
* **C27** Ease-in-ease-out curve is C1 and ends where asked — R with sqrt; model of CalculateQuadraticEaseInEaseOut.
* **C28** Spring context stepping is continuous — R; induction on oscillation count.
* **C29** Dual-cubic mid node — R, field.
* **C30** Spline nodes stay sorted and within capacity — CompactSpline as list of quantised nodes (Z) with capacity; induction over AddNode sequence.
* **C31** Quantisation error bounds — Truncation over R/Z.
* **C32** Segment lookup is correct for every guess — IndexForX with guess and binary search modelled literally with option failures.
* **C33** Spline interpolates its nodes — Evaluation over R.
* **C34** Repeat wraps the domain — Same.
* **C35** Bulk evaluation equals point evaluation — Loop model with uint16 counter; termination refuted for large counts.
* **C36** In-place spline arrays do not overlap — Z arithmetic of Size/ArraySize.
* **C37** Evaluator tracks the spline it plays — Evaluator state over R per index; refinement to CalculatedSlowly.
* **C38** Both evaluator update strategies agree — Both strategies modelled, equality.
* **C39** Blending is continuous — R; CalculateBlendInit modelled; velocity continuity expected refuted for rate<>1.
* **C40** Evaluator indices are independent — Frame lemmas on arrays.
* **C41** Clearing keeps the current value — Modelled as written; expected refutation.
* **C42** A freshly initialised spline motivator can be advanced — Null spline access is a failure outcome; expected refutation.
* **C43** Local spline pool ownership — Ownership state machine.
* **C44** SetTarget reaches its waypoints — R; SetTarget node list.
* **C45** Overshoot respects its limits — R; per-index overshoot step.
* **C46** Overshoot frame update terminates — Fuelled loop; refutation for max_delta_time<=0.
* **C47** Per-index accessors address the right index — Refutation for overshoot Differences, proof for others.
* **C48** Constant motivators hold their value — Trivial state machine over histories.
* **C49** Ease-in-ease-out motivator trajectory — R; uses C27.
* **C50** Spring motivator trajectory — R; uses C28.
* **C51** Matrix result is the ordered product — 4x4 matrices over R as nested tuples; fold over ops equals product.
* **C52** Blending operation lists merges by id — Merge loop over lists with in-place insertion.
* **C53** SQT update — R.
* **C54** Quaternion alignment preserves orientation — R; expected refutation when W is absent.
* **C55** TimeRemaining is the latest child — Fold max.
* **C56** Global bone transforms follow the hierarchy — Induction over bones, matrices over R.
* **C57** Blend weights are normalised — R sums.
* **C58** Blending identical poses changes nothing — R sums.
* **C59** Any compatible animation can be played on a rig — Index model; expected refutation.
* **C60** Endless animations report endless time — int32 arithmetic; expected refutation.
* **C61** Animation table loads each animation once — Table as lists/maps; loader as an oracle.
* **C62** Defining animation covers every animation of the object — Union of op maps.
* **C63** Most complete rig is found — uint8 truncation; expected refutation above 256 animations.
* **C64** Rig animation look-up — List search.
* **C65** Hierarchy matching — List comparison.
* **C66** Keyframe quaternion continuity — R; induction over keyframes.
* **C67** Linear and step keyframes are reproduced — R.
* **C68** Required buffer size suffices — Z.
* **C69** Curve recording terminates and keeps end points — Fuelled recursion; termination by sample count.
* **C70** Node pruning stays within tolerance — R; literal loop.
* **C71** Channel pruning preserves the transform — R; expected refutation for scale channels.
* **C72** Exported single-bone animations are loadable — Expected refutation.
* **C73** Time shifting and extending — List maps.
* **C74** Farther-position search terminates — Fuelled loop; expected refutation of termination.
* **C75** Float exponent helpers — Bit-level Z model of binary32 patterns.
* **C76** Slots without a motivator hold no data — Processor state machine with data that is swapped and reset (added after seeded bugs went unnoticed).
* **C77** Angles, vectors and rotation matrices agree — Six axis systems over R; atan2 defined from atan.
* **C78** Separately reported translation, rotation and scale — Matrices over R.
* **C79** A blend of poses has an orientation — Sums of quaternions aligned in one hemisphere.
* **C80** Curves through positions have constant speed — Lists of points over R.
* **C81** Cubic keyframes keep values and tangents — Hermite nodes over R.
* **C82** Converted components become the right operations — List model of the operations added.
* **C83** When an exported animation repeats — Literal loop over bones and channels with the uint8 index.
* **C84** The bones of an imported scene — Tree of nodes; depth-first order.
* **C85** Exported animations load as what was exported — Export and load composed.
* **C86** Defining animations survive their file — Same.
* **C87** Targets made by the helper functions — Lists of nodes; played with the model of SetTarget.
* **C88** Range queries and degrees — Range and angle over R.
* **C89** Seeking, rate and repeat changes while playing — Invariant of the evaluator kept by every call, by induction over the calls.
* **C90** Queries about a spline motivator's target — Literal queries against the spline's last node.
* **C91** Processor arrays follow the allocator — Callbacks of the allocator replayed on the arrays of each processor.
* **C92** A fresh motivator is independent of earlier users of its index — Initialisation over any earlier slot.
* **C93** Setting targets of overshoot motivators — State of one index.
* **C94** The converter's command line — Argument lists as strings; induction over the arguments.
* **C95** The transform of an FBX node — Products of matrices over R.
* **C96** Constant channels of FBX nodes — Lists of keys.
* **C97** Curves of FBX nodes — Recorded channels composed with C69.
* **C98** Blending an operation starts where it is — Laws of an abstract motivator.
* **C99** The ways to describe an animation table agree — The describers as functions to lists of names.
* **C100** Rig animations are built with parents first — Induction over the bones.
* **C101** Playback rates and repetition reach everything that plays — Folds over operations and bones.
* **C102** Resampling a spline — Evaluation composed with AddNode.
* **C103** Pruning the channels of a bone again changes nothing — Induction over the channels.
* **C104** Gathering a scene — The tree of nodes mapped to recorded channels.
* **C105** A run of the converter — The steps composed, from scene to loaded rig.
* **C106** Clones show what their originals show — Simulation between the two, by induction over the events.
* **C107** Matrices animated by splines — C37 composed with C51.
* **C108** Rigs play their animations — C107 composed with C56.
* **C109** Vector motivators move coordinate by coordinate — Projection of calls to one coordinate; induction over the calls.
* **C110** Exported animations play as their keyframes — C85 (what a loaded file holds), C102-style bounds for splines built from keyframes, then C108.
* **C111** Animations cross-fade — One operation at a time with C39, C44 and C98, then C52 for the merge, C51/C53 for the transform and C56 for the rig.
* **C112** TimeRemaining of what plays splines — C55 composed with the positions of C107.
* **C113** A whole frame of the engine — One state for all processors with references between them; C14 and C15 give the order of the kinds, then each processor's frame sees the end-of-frame values of the earlier ones; simulation of the single-processor models.
* **C114** Angles in single precision — A format as the set m * 2^e, rounding as any nearest element; grid lemma (no single between -pi and kMinUniqueAngle, turns are exact), relative error bounds for WrapAngle.
* **C115** Modular ranges in single precision — Sterbenz' lemma and monotonicity of rounding; witnesses found by search.
* **C116** Quantised nodes in single precision — Relative error bounds scaled by the granularity; a witness at a tie.
* **C117** Overshoot motivators in single precision — Invariant over the loop, with C115 for Normalize; monotonicity of rounding bounds the differences; a witness next to the end of the circle.
* **C118** Cubic curves in single precision — Coefficients scaled by powers of the width, so that all errors are multiples of 2^-24 times the size; one lemma per rounding, one per product; Horner's rule once for all coefficients with such errors; a witness computed for every tie-breaking.
* **C119** Playing splines in single precision — On the grid every operation on positions is exact, so the rounded evaluator keeps the same place as the exact one (simulation over frames); the value is one evaluation of a curve made from nodes, so C118 bounds it.
* **C120** Any spline in single precision — One rounding error per frame, bounded by the spacing of singles below the largest position; an invariant over frames (place within the segment, position in total); the value is one evaluation of a curve made from nodes, at most two widths away (C118_beyond).
* **C121** Children of matrix motivators — Induction over the list of values for the setters; the merge of C52 for the number of children; C51 for what the next matrix shows.
* **C122** Debugging reports of rigs — Positions in concatenated lists: a writer and a reader that walk the same counts meet at the same places; blending into an empty bone yields the operations of the animation; four witnesses where the counts differ.
* **C123** Blending in single precision — The coefficients of C118 seen at the scale of s + w instead of w, Horner's rule for the second derivative and once more for the moved curve; frames within the blend only add up positions; a witness computed for every tie-breaking.
* **C124** Motivators initialised from files — Records for the tables, absent tables are failures; induction over the calls with the invariants of C117.
* **C125** The NEON assembly agrees with the C++ loops — A machine with core registers, SIMD registers and memory; one round of each loop by symbolic execution, the loops by induction on the rounds; the calls as declared in C++ fail by an invariant on the instructions before the first access to an unmapped address.
* **C126** Weights of rigs in single precision — sums of floats have a relative error only; induction on the animations for the total and for the accumulated coordinate
* **C127** Statistics of the benchmarks — sums and squares modulo 2^64 by induction on the samples; the histogram as counts of a predicate; the recorded samples by induction on the events.
* **C128** Settled and Twitch — the two functions over the overshoot and spline processors; frames by induction; the spline case from C44 with a target of one node at time 0.
* **C129** The linear processor of the samples — one step as linear interpolation; induction on the frames with the remaining time as invariant; the program's loop by induction on its fuel.
* **C130** The linear processor in single precision — the error of one rounded interpolation; since interpolation contracts, errors of frames add up (induction on the frames); the last frame has the fraction 1 and is exact.
* **C131** Building animation data call by call — the specification looks at the sequence of calls only (which bone was current when); induction on the calls from the last one, with the invariants that the current bone exists and that constants come after their channels.
* **C132** Drawing points with characters — the pointer into the sorted cells is the list of those not drawn yet; induction on the columns and on the rows with the invariant that all of them come at or after the cell that is drawn next.
* **C133** The tool that writes a defining animation — composition of C61, C62 and the export: the animations of the table's only object are those in the named files, because a name is in the table only if its file could be parsed; loading, creation and export are total by induction.
* **C134** The splines of the benchmark program — from what any sequence of AddNode builds (C30) and the rounding of nodes (C31): nodes more than a grain apart have different x in grains, so each is the first at its own.

## Trusted base

A theorem listed in MANIFEST.json rests on the following, and on nothing else:

1. **Coq 8.16.1**: the kernel that checks the proofs (also re-checked with `coqchk`), and the correctness of `Print Assumptions`. `vm_compute` is used in some proofs, so the kernel's bytecode machine is part of this.
2. **Axioms of Coq's standard library**, as listed by `Print Assumptions` (next section). There are no axioms of our own, no `Admitted`, no switched-off checks, no functors or module types, no plugins beyond those of the standard library's tactics, no library but the standard one.
3. **The model**: that the definitions in the `*Model.v` files describe the C++ code. Each cites the file and lines it was written from. What is left out, and where the model departs from the code, is listed below. Nothing was compiled or run against /repo.
4. **The statements**: the `*Spec.v` files and the definitions in the `*Props.v` files that the theorems use. They are kept small and are independent of the model's helper functions.

### Axioms per theorem

The real numbers of the standard library are built on these axioms:

* `sig_forall_dec` — `ClassicalDedekindReals.sig_forall_dec`
* `sig_not_dec` — `ClassicalDedekindReals.sig_not_dec`
* `funext` — `FunctionalExtensionality.functional_extensionality_dep`
* `classic` — `Classical_Prop.classic` (used by the standard library's lemmas on derivatives, `sqrt`, `sin`, `cos`, `PI`, and `Rlt_or_le` style case analysis in proofs)

`Print Assumptions` lists, for the theorems named in MANIFEST.json:

* **no axioms ("Closed under the global context")** (98 theorems): C01_live_blocks_never_overlap, C02_alloc_fresh_and_frames, C03_alloc_recycles_best_fit, C04_defragment_terminates_dense, C05_defragment_carries_data, C06_client_array_in_step, C06_ascending_moves_are_safe, C07_motivator_and_processor_agree, motivators_refine_table, C08_motivators_are_isolated, C09_move_transfers_identity, C09_self_move_invalidates, C10_invalidate_is_clean_and_idempotent, C11_destroying_processor_resets_motivators, C12_clones_are_equal_copies, C13_frame_leaves_no_dead_slots, C14_one_processor_per_type, engine_runs_without_reset, C15_frame_order, C16_reset_then_frame_refuted, C16_reset_partial, C76_dead_slots_are_reset, C75_reciprocal_of_largest_refuted, C36_size, C36_array, C36_array_size_partial, C36_array_size_refuted, C40_move, C40_copy, C43_ownership, C43_playing, C43_one_owner, C43_no_failure_partial, C43_clone_without_spline_refuted, C43_all_destroyed_refuted, C44_target_on_clone_refuted, C47_overshoot, C47_simple, C47_simple_initialize, C48_const, C48_no_derivatives_refuted, C55_matrix, C55_sqt, C55_rig, C55_child, C55_child_none, C56_lineage, C64_num_ops, C65_parents_partial, C65_rig_init, C65_names_refuted, C61_empty_object_refuted, C63_most_bones_partial, C63_many_refuted, C73_shift, C72_scene, C84_skeleton, C85_base_name, C91_move, C91_initialize, C91_queries_own, C92_simple, C92_simple_succeeds, C93_current, C93_target, C93_target_now, C93_current_to_target, C99_table, C99_list, C99_names, C99_zero, C99_empty, C99_empty_refuted, C99_both_refuted, C100_built, C100_parents_first, C101_bone_rate, C101_bone_repeat, C101_rate, C101_repeat, C101_rates, C101_rates_refuted, C101_time_refuted, C121_values, C121_value, C121_set_target, C121_set_target_sqt, C122_header, C124_missing, C127_average, C127_average_refuted, C127_min_max, C127_histogram, C127_count_refuted, C127_bucket_refuted, C127_drawing, C127_recorded, C127_valid_ids.
* **`sig_forall_dec`** (27 theorems): C32_clamp_index, C40_set_num_indices, C52_default, C54_goal, C59_accepts_partial, C59_single_bone_refuted, C60_start_zero_partial, C60_later_refuted, C64_found, C64_default, C64_all, C73_span, C91_remove, C91_set_num_indices, C91_defragment, C91_allocate, C91_evaluator, C92_overshoot, C93_second_target_refuted, C98_default_partial, C106_exists, C106_matrix_exists, C106_sqt_exists, C122_values, C129_set_targets, C131_builds, C131_returns.
* **`sig_forall_dec`, `funext`** (179 theorems): C17_normalize, C17_zero_length_fails, C18_mod_diff_partial, C18_closest_refuted, C18_far_from_zero_refuted, C19_intersect, C19_union, C19_union_invalid_refuted, C19_clamp, C19_lengthen, C19_lengthen_comment_refuted, C19_clamp_to_closest, C20_values_in_range, C20_intersect_ranges, C20_intersect_ranges_points, C20_index_of_longest, C20_index_of_shortest, C20_index_of_longest_invalid_refuted, C20_covers, C75_exponent_as_int, C75_power_of_two_below, C75_exponent_from_int, C75_reciprocal_exponent, C75_sqrt_reciprocal_partial, C75_sqrt_rounded_down_refuted, C75_max_power_of_2_scale, C23_cubic_end_conditions, C23_non_positive_width_partial, C23_constant_for_no_width_refuted, C24_quadratic, C24_quadratic_sum, C24_quadratic_derivatives, C24_quadratic_init, C24_cubic, C24_cubic_derivatives, C25_uniform_curvature_complete, C25_uniform_curvature_partial, C25_small_curvature_refuted, C26_critical_point, C28_second_derivative, C28_accepted, C29_mid_node_partial, C29_second_derivative_continuous_refuted, C29_mid_range_splines, C29_uniform_halves, C29_extreme_second_derivatives, C32_lookup, C32_unique, C32_marker_collision_refuted, C34_repeat, C34_no_repeat, C34_zero_width, C34_wrapped_inside_refuted, C40_move_overlapping_refuted, C41_cleared_partial, C45_velocity, C45_max_delta_partial, C45_range_partial, C45_arrives, C45_rests, C45_max_delta_refuted, C45_range_refuted, C45_max_delta_per_frame_refuted, C45_uninitialised_refuted, C46_consumes_partial, C46_frame, C46_terminates_refuted, C47_overshoot_difference_partial, C47_overshoot_difference_refuted, C48_at_target, C49_path, C49_target_time, C50_new, C52_matrix, C52_matrix_succeeds, C52_blend, C52_new, C55_simple, C57_blend_to_anims, C57_set_weights_partial, C57_set_weights_refuted, C58_convex, C59_anims_partial, C66_linear_partial, C66_others_unchanged, C66_cubic_refuted, C67_linear_nodes, C81_cubic, C81_curve, C82_vector_constants, C82_quaternion_constants, C69_records_curve, C69_whole_spacing, C69_times_partial, C69_times_refuted, C73_extend, C73_extend_all, C71_sum_partial, C87_in_order, C87_made, C87_dimensions, C87_dimensions_made, C87_end_time, C88_membership, C88_tolerance, C88_percent, C88_percent_clamped, C88_scale, C88_create, C90_spline_time, C92_reset, C98_blend_partial, C98_constant_refuted, C105_times, C114_range, C114_three_pi, C114_operators, C114_clamp, C114_degrees_partial, C114_clamp_refuted, C115_symmetric, C115_normalize_partial, C115_normalize_refuted, C115_close_partial, C115_close_refuted, C115_wild_refuted, C117_runs, C117_step, C117_rests, C117_clamped, C117_set_targets, C117_whole_turn_fails, C118_start, C118_constant, C118_end_refuted, C121_blended, C123_at_node, C123_refuted, C124_clamped, C124_wraps, C124_spline, C124_endless_refuted, C124_limits_refuted, C125_update, C125_evaluate, C125_four, C125_update_call_refuted, C125_evaluate_call_refuted, C125_later_refuted, C125_past_refuted, C126_set_weights, C126_one, C126_sum_refuted, C126_same_pose_refuted, C128_settled_partial, C128_twitch_partial, C128_index_refuted, C128_far_refuted, C128_returns, C128_boost, C128_settles_refuted, C129_alone, C129_path, C129_arrives_partial, C129_past_refuted, C129_current_refuted, C129_queries, C129_target_time_partial, C129_target_time_refuted, C129_new, C129_program, C130_close, C130_arrives, C130_rests_refuted, C132_draws, C132_curve, C132_memory_refuted, C132_flat_refuted, C132_zero_refuted.
* **`sig_forall_dec`, `sig_not_dec`, `funext`** (133 theorems): C21_angle_operations, C21_representation_unique, C21_three_pi_refuted, C22_clamp_nearest, C77_rotation_matrix, C77_unit_sphere, C77_up_is_right_handed_refuted, C26_roots_without_normalizing_partial, C28_stepping_smooth, C28_peaks, C28_bias, C32_guess_independent_partial, C32_guess_independent_refuted, C32_segment_queries, C33_segments_join, C33_at_nodes, C33_held, C33_single_node, C33_continuous_refuted, C33_held_before_refuted, C33_end_y_refuted, C35_bulk, C37_exact_away_from_nodes, C37_value_at_node, C35_many_points_refuted, C37_slowly_refuted, C37_tracks, C37_no_failure, C37_backwards_refuted, C40_independent, C40_advance, C41_value_after_a_frame, C41_clear_keeps_value_refuted, C42_fresh_partial, C42_fresh_index_refuted, C38_agree_partial, C38_few_ends_partial, C38_single_index, C38_agree_refuted, C39_start, C39_end, C39_no_failure, C39_velocity_refuted, C39_end_velocity_refuted, C51_product, C51_unsupported, C51_frame, C52_sqt, C52_sqt_succeeds, C53_update_partial, C53_unsupported, C53_zero_refuted, C53_frame, C54_orientation_partial, C54_closer_partial, C54_velocity, C54_absent_w_refuted, C78_composes, C78_rotation_partial, C78_rotation_refuted, C56_single, C56_blended, C56_new, C56_frame, C57_history_partial, C58_sums, C58_same, C58_rig, C59_mixed_refuted, C79_first_weight_partial, C79_zero_weight_refuted, C61_query_partial, C61_distinct_names_partial, C61_loads_once, C61_result, C61_many_refuted, C61_failed_load_refuted, C62_defining_anim_partial, C62_succeeds, C62_constant_refuted, C62_reload_refuted, C74_first_stop, C74_terminates_partial, C74_refuted, C74_curve_refuted, C80_constant_speed, C88_degrees, C88_degrees_back, C89_follows, C89_repeat_after_end_refuted, C89_succeeds, C90_target_values_partial, C90_target_velocities_partial, C90_target_time_partial, C90_differences, C90_end_derivatives, C90_shift_and_rate_refuted, C92_matrix, C92_sqt, C92_spline_refuted, C94_legal, C94_file, C94_only_legal_partial, C94_only_legal_refuted, C94_no_failure, C95_turn_back, C97_intervals, C99_same_list, C99_same_table, C99_embedded, C106_spline, C106_matrix_partial, C106_sqt_partial, C106_driven_refuted, C109_shown, C121_set_values, C121_set_values_sqt, C121_settable, C121_shown, C121_initialized, C121_count_refuted, C122_row_partial, C122_children, C122_fits, C122_local, C122_new_refuted, C122_overflow_refuted, C122_shift_refuted, C122_local_refuted, C127_deviation, C127_statistics, C127_scale_refuted, C127_output.
* **`sig_forall_dec`, `sig_not_dec`, `classic`, `funext`** (188 theorems): C77_vector_round_trip, C77_from_vector_direction, C75_reciprocal_of_largest, C26_roots_partial, C26_roots_moderate_partial, C26_xs_for_value_partial, C26_roots_in_range_partial, C26_roots_in_range_exact_partial, C26_ranges_matching_sign_partial, C26_zero_curve_refuted, C26_lost_roots_refuted, C26_scaling_check, C26_scaling_check_refuted, C26_sign_zero_at_limits_refuted, C27_ease_in_ease_out_partial, C27_fly_out_partial, C27_fly_in_partial, C27_already_there, C27_typical_curve_partial, C27_end_slope_refuted, C27_join_refuted, C28_jump_is_stepping, C28_increment_context, C28_start_partial, C28_at_rest, C28_iteration_x, C28_start_on_target_refuted, C28_iteration_x_bias_one_refuted, C28_tiny_bias_refuted, C29_dual_cubic_mid_node, C29_mid_percent, C30_nodes, C30_built_ok, C30_calls_succeed, C30_call_makes_node, C30_init_from_nodes, C30_not_greater_is_nop_refuted, C30_well_behaved_call_succeeds_refuted, C31_x_error, C31_y_error, C31_derivative_error, C31_exact, C31_negative_x_refuted, C31_closest_rung_refuted, C44_start, C44_waypoints, C44_precision, C44_succeeds, C44_modular_succeeds_partial, C44_direction_refuted, C44_closest_refuted, C49_start_partial, C49_trajectory_partial, C49_at_rest_refuted, C49_moving_start_refuted, C50_trajectory_partial, C50_start, C50_oscillation_smooth, C50_target_time_refuted, C50_fresh_refuted, C67_step, C67_grain, C67_linear_partial, C67_linear_refuted, C68_exact, C68_exact_quaternion, C68_succeeds, C68_no_keyframes_refuted, C68_too_many, C82_quaternion_ops, C82_buffer, C82_vector_ops, C70_prune_partial, C70_remaining_curve_partial, C70_refuted, C70_constant_refuted, C83_repeats, C83_first_reported, C72_whole_partial, C72_single_partial, C72_names, C72_refuted, C85_round_trip_partial, C85_bone_limit, C85_bone_count, C85_quaternions_refuted, C85_float_splines_refuted, C86_defining_partial, C86_constants_refuted, C86_quaternions_refuted, C71_pose_partial, C71_bones_partial, C71_scales_refuted, C71_spans_refuted, C71_uniform_refuted, C71_quaternion_refuted, C87_three, C87_two, C87_from_current, C87_current_holds, C87_const_velocity, C87_const_velocity_succeeds, C87_whole_turn_refuted, C95_transform_partial, C95_static_partial, C95_order_refuted, C96_undriven, C96_driven, C96_refuted, C97_recorded, C97_outside, C97_outside_refuted, C97_late_refuted, C102_resample, C102_overshoot_refuted, C103_prune_again, C104_scene, C104_gathers, C104_static_partial, C104_animated_partial, C105_run, C105_static_partial, C105_animated, C105_plays, C106_spline_class, C106_spline_matrix, C106_spline_sqt, C107_matrix, C107_initialized, C107_sqt, C107_sqt_initialized, C108_rig, C109_coordinates, C109_succeeds, C109_vector, C109_plays, C109_range, C110_keyframes, C110_channel, C110_rig, C111_matrix, C111_sqt, C111_rig, C112_matrix, C112_sqt, C112_rig, C112_ends, C113_frame, C113_plays, C113_runs, C113_rig, C113_realized, C114_radians_partial, C114_scale_partial, C114_radians_refuted, C114_degrees_refuted, C115_wild_partial, C116_x_round_trip, C116_x_error, C116_y_round_trip_partial, C116_y_round_trip_refuted, C118_value, C118_slope, C118_end, C118_join, C118_placed, C118_beyond, C119_position, C119_shown, C119_drift_refuted, C119_end_refuted, C120_once, C120_repeats, C123_blend, C123_moved, C126_weights, C126_mean, C126_same_pose, C128_spline_refuted, C133_usage, C133_writes_partial, C133_succeeds_partial, C133_missing_refuted, C133_unwritable_refuted, C134_range, C134_nodes, C134_end, C134_slopes_refuted.

`coqchk` reports in addition the parameters of standard library modules that are sealed by a module type (for instance `RbaseSymbolsImpl` in `Rdefinitions`); they are defined there and are not axioms of any theorem.

### Simplifications that hold for the whole model

* **Floats are exact reals**, except in C114-C120, C123, C126 and C130. Rounding, overflow to infinity, NaN and signed zeros are not modelled. The exceptions are the models RoundAngleModel.v, RoundRangeModel.v, RoundNodeModel.v, RoundOvershootModel.v, RoundCubicModel.v, RoundEvaluatorModel.v, RoundBlendModel.v, RoundWeightModel.v and RoundLinearModel.v (C114-C120, C123, C126, C130), which round every operation to a nearest single (subnormals included, no overflow), the bit-level helpers of float.h (C75), which work on 32-bit patterns, and infinite sentinels, which are `None` or a separate constructor. A claim proved over the reals says nothing about the size of rounding errors; a claim refuted over the reals does not depend on them.
* `sqrtf`, `sinf`, `cosf`, `atan2f`, `fabsf`, `floorf` are the mathematical functions.
* **Integers**: `Z`, unbounded unless a model says otherwise. Types whose width matters are bounded where they are used: uint16 times, values and angles of compact splines; uint8 bone indices and operation ids; int `MotiveTime`/`FlatTime` in the rig and exporter models (overflow is `None`); 16-bit indices of AnimTable.
* **Failure**: failed asserts, null dereferences, accesses out of range, divisions by zero, reads of uninitialised members, conversions out of range and signed overflow are `None`. Asserts are taken to be compiled in. A theorem that concludes `= Some …` therefore also says that none of these happens.
* **Loops that may not end** have fuel; `None` also means out of fuel. Theorems about termination give a sufficient fuel; refutations show that no fuel suffices.
* **Memory**: `std::vector` is a list. Allocation does not fail. Aliasing is modelled where the code relies on it (ownership of splines C43, the shared index/mask buffer C38, swapped data C76) and nowhere else.
* **Single thread**, as in the code.
* **mathfu**, **FlatBuffers**, the **FBX SDK** and **fplutil/fplbase** are not in /repo. mathfu's vectors, matrices, quaternions, `Clamp` and `Lerp` are defined in MathfuModel.v and VecModel.v from their documentation; a FlatBuffer is the record of its fields; an FBX scene is a tree of names and attributes plus a list of recorded channels.
* **ABI**: sizes and alignments used by CompactSpline's in-place arrays are those of a common ABI: a node has 6 bytes and a CompactSpline 60 bytes with its seven nodes, so `kBaseSize` is 18, as on a 64-bit machine with 4-byte alignment of the floats (CompactSplineModel.v; C36, C68).

### What is modelled, per source file

| source | model | not modelled |
|---|---|---|
| include/motive/util/index_allocator.h | IndexAllocatorModel.v: all of it | overflow of `Index` |
| include/motive/processor.h, src/motive/processor.cpp, include/motive/motivator.h, src/motive/motivator.cpp | ProcessorModel.v: allocation, moves, removal, clones, defragmentation, destructor; ProcessorOwn.v: data that is swapped or owned | benchmark hooks, `VerifyInternalState` |
| include/motive/engine.h, src/motive/engine.cpp | EngineModel.v: registration, processor creation, frame order, Reset; WorldModel.v: a frame of all the processors on one state | benchmarks, `Version` |
| include/motive/math/range.h | RangeModel.v: all of RangeT<float> and the array helpers; RoundRangeModel.v: Normalize and its variants in single precision | other instances of the template |
| include/motive/math/angle.h, src/motive/math/angle.cpp | AngleModel.v: all; RoundAngleModel.v: the arithmetic in single precision | text output |
| include/motive/math/float.h | FloatModel.v: all | |
| include/motive/math/curve.h, curve.cpp | CurveModel.v: quadratic and cubic curves, roots, limits, uniform curvature; GraphModel.v: Graph2DPoints, GraphCurveOnXRange | `Text()`, `kCurveInRangeEpsilon` display helpers |
| include/motive/math/curve_util.h, curve_util.cpp | CurveUtilModel.v: ease-in-ease-out, fly-in, fly-out, spring | conversion of the iteration count to int when out of range |
| include/motive/math/dual_cubic.h, dual_cubic.cpp | DualCubicModel.v: all | |
| include/motive/math/compact_spline.h, compact_spline_node.h, compact_spline.cpp | CompactSplineModel.v, KeyframeModel.v: adding nodes, lookup, evaluation, sizes, bulk evaluation; EvaluatorModel.v: `BulkYs`; ResampleModel.v: `InitFromSpline`; CloneModel.v: `operator=`; RoundNodeModel.v: quantisation of x and y in single precision | the object lifetime side of `CreateInPlace` |
| include/motive/math/bulk_spline_evaluator.h, bulk_spline_evaluator.cpp | EvaluatorModel.v: all C++ variants; RoundEvaluatorModel.v, RoundBlendModel.v: rounded; NeonModel.v: the two functions of bulk_spline_evaluator_neon.s and how they are called | that C++ and assembly run in turn on one state (nothing sets `optimization_`); processor modes, exceptions, flushing of subnormal operands |
| include/motive/math/spline_util.h | SplineUtilModel.v: all | |
| include/motive/simple_processor_template.h, src/motive/processor/{const,ease_in_ease_out,spring}_{data.h,processor.cpp} | SimpleModel.v: all | |
| src/motive/processor/overshoot_data.h, overshoot_processor.cpp, include/motive/overshoot_init.h, include/motive/util.h (Settled1f, Twitch) | OvershootModel.v: all; TwitchModel.v: Settled1f of motivators and Twitch; RoundOvershootModel.v: the simulation in single precision | |
| src/motive/processor/spline_processor.cpp, spline_data.h | SplinePoolModel.v: who owns which spline; SplineTargetModel.v: SetTarget; SplineQueryModel.v: queries about targets; CloneModel.v: CloneIndices; VectorMotivatorModel.v: SetTargets, SetSplines, SetSplinesAndTargets | ownership and contents of splines together in one state |
| include/motive/matrix_op.h, src/motive/matrix_op.cpp, include/motive/matrix_anim.h, src/motive/processor/{matrix,sqt}_{data.h,processor.cpp} | MatrixModel.v: operations, their blending, the matrices, the decomposition, time remaining; SplineClassModel.v: spline motivators as drivers of operations; CloneModel.v: copies of operations, CloneIndices; RateModel.v: playback rates and repetition; ChildModel.v: the children (NumChildren, ChildValue1f, SetChildTarget1f, SetChildValues) | `MatrixOpName`, printing |
| include/motive/rig_anim.h, rig_anim.cpp, rig_init.cpp, src/motive/processor/rig_data.h, rig_processor.cpp | RigModel.v: hierarchy, blending, weights, time remaining, init from animations; RateModel.v: playback rates and repetition; ChildModel.v: the reports for debugging, as lists of cells; RoundWeightModel.v: weights and blended coordinates, rounded | how cells are printed; the wrappers of rig_motivator.h |
| include/motive/anim_table.h, anim_table.cpp | AnimTableModel.v: Load, Query, defining animations, the search for the most complete rig; DescribeModel.v: the describers and the Init functions | |
| include/motive/util/keyframe_converter.h, keyframe_converter.cpp | KeyframeModel.v: all | |
| src/anim_pipeline/anim_data.h, anim_data.cpp | AnimDataModel.v, AnimChannelsModel.v: all but logging and NumBytes | `LogChannel`, `LogAllChannels`, `NumBytes` |
| src/anim_pipeline/anim_pipeline.cpp | FlatAnimModel.v: the gathering of bones (IncludeBones, GatherBones); FbxModel.v: transforms, constants and curves of a node; PipelineModel.v: the scene and RunAnimPipeline | loading of the scene, conversion of axes and units, logging; the FBX SDK itself, whose answers are data of the model |
| src/anim_pipeline/anim_pipeline_main.cpp | CommandLineModel.v: the parsing of arguments and their defaults | `atof`, `atoi`, names of axes and units, which are parameters |
| src/anim_pipeline/flat_anim.cpp, src/anim_pipeline/defining_anim_pipeline.cpp, src/motive/io/flatbuffers.cpp | FlatAnimModel.v, FlatLoad*.v: export, loading, defining animations; PipelineModel.v: OutputFlatBuffer; InitFileModel.v: initialisers from FlatBuffers; DefiningToolModel.v: the program for defining animations, with files and the FlatBuffers library as functions | other file access; flat_anim.cpp:1-52 |
| include/motive/target.h | SplineTargetModel.v: nodes of a target and what processors read; TargetModel.v: the functions that make targets | |
| include/motive/vector_motivator.h, vector_converter.h | VectorMotivatorModel.v: the calls of spline motivators of several dimensions | the converters of other vector types; motivators of several dimensions of other processors |
| src/motive/util/benchmark.cpp | BenchmarkModel.v: samples, average, deviation, histogram and its drawing, recording and clearing; BenchmarkTime taken as an unsigned integer of 64 bits | the clock, the text, the macros of benchmark.h |
| src/samples/linear_processor/linear_processor.cpp | LinearModel.v: the processor and the program's loop, over reals; RoundLinearModel.v: AdvanceFrame in single precision | the plot's text, registration |
| src/benchmarker/benchmarker.cpp | BenchSplineModel.v: CreateSpline | the rest, which measures time |
| src/viewer, the other samples, src/tests, optimizations.cpp, version.cpp | — | all |

## Findings

Where a property is false of the code as modelled, a theorem whose name ends in `_refuted` gives a witness. The notes are those of MANIFEST.json.

* **C101** (C101_rates_refuted, C101_time_refuted): What is set is proved for all rigs, over any behaviour of the motivators of operations. Refuted: more rates than animations are read out of range, and a rig that plays an endless animation still reports endless time after it is told not to repeat.
* **C102** (C102_overshoot_refuted): Proved in full whenever the curve stays within the lengthened range of y at the samples; that resampling always succeeds is refuted: a curve that bulges out of its range by more than 52.5% fails the assertion on y.
* **C106** (C106_driven_refuted): In full for spline motivators and for matrices and SQT transforms driven by them (cloned splines of the default capacity; one with more nodes fails the assertion of the assignment). C106_matrix_partial and C106_sqt_partial: for any kind of motivator that can be cloned; refuted when it cannot: then the clone shows the constant of the operation. The …_exists theorems say exactly which spline motivators, matrices and SQT transforms can be cloned.
* **C114** (C114_radians_refuted, C114_degrees_refuted, C114_clamp_refuted): Single precision with rounding to nearest, overflow not modelled. FromRadians and scaling are proved up to 2^24 radians and false beyond: FromRadians(201326592.0f) fails the constructor's assert. ToDegrees is proved in [-180, 180]; kMinUniqueAngle gives -180. Clamp gives the angle back only up to 2^-21. The constants' digits are taken as given.
* **C115** (C115_normalize_refuted, C115_close_refuted, C115_wild_refuted): Single precision with rounding to nearest, overflow not modelled. Proved for ranges whose length is a single and that reach at least as far above zero as below, NormalizeWildValue for (-h, h] and values up to 2^22 h; false in general: the assert of Normalize fails for 2^-30 in (1, 2], NormalizeCloseValue returns the excluded start of (-1, 0], NormalizeWildValue fails for 235035600 in (-3.5, 3.5].
* **C116** (C116_y_round_trip_refuted): Single precision with rounding to nearest, overflow not modelled. x: proved. y: false, CompactY truncates, so that on [0, 1] rung 257 becomes 256; proved on ranges [0, h]: the same rung or the one below. Derivatives (atan, tan) aren't modelled in single precision.
* **C118** (C118_end_refuted): Single precision with rounding to nearest, overflow not modelled, no fused operations. C118_end_refuted shows why the join is only bounded.
* **C119** (C119_drift_refuted, C119_end_refuted): Single precision with rounding to nearest, overflow not modelled, no fused operations; the sequential update, one index, no blending; tan is a parameter: what C119_shown compares with is the cubic between the rounded node values and whatever slopes tan returns. Proved on the grid; false off it, with two witnesses.
* **C121** (C121_count_refuted): The operations of MatrixData and SqtData for any scalar motivator; matrices over the reals.
* **C122** (C122_new_refuted, C122_overflow_refuted, C122_shift_refuted, C122_local_refuted): Rows and header agree only while the counts of operations do; where they do not, the claim is false of the code (witnesses: write past the end, values under another bone, value of another operation). Cells are modelled, not their text.
* **C123** (C123_refuted): Single precision with rounding to nearest, overflow not modelled, no fused operations; the sequential update, one index; no modular range; tan is a parameter. C123_refuted: why the bound has to grow with s.
* **C124** (C124_endless_refuted, C124_limits_refuted): Overshoot in single precision as in C117; limits that include 0 (a new motivator shows 0), modular ranges around 0 with max_delta of at most half a turn. The last two theorems are over exact reals. FlatBuffers are records whose tables may be absent; the defaults are those of the schema.
* **C125** (C125_update_call_refuted, C125_evaluate_call_refuted, C125_later_refuted, C125_past_refuted): The claim is false of the assembly: see the refutations (calls as declared fault if the first 4096 bytes are not mapped; eight curves; floats behind one index; lost registers). Proved: with the arguments as the comments of the assembly say, the exact effect of both functions on registers and memory for any number of indices and any rounding. The instructions are modelled on words of memory with unbounded core registers.
* **C126** (C126_sum_refuted, C126_same_pose_refuted): Bounds for any number of animations and any rounding to nearest, without overflow. That the sum is exactly 1, as the comments say, and that a bone with the same position in all animations is shown exactly there are refuted. SetWeights with more weights than animations is refuted in C57.
* **C127** (C127_average_refuted, C127_count_refuted, C127_bucket_refuted, C127_scale_refuted): BenchmarkTime, declared in a header of another project, is taken to be an unsigned integer of 64 bits. sqrt, floor and doubles are exact; the clock, threads and the text of the report are left out. Refuted: averages when the sum passes 2^64, counts of 65536 samples, buckets when the product passes 2^64, and that the drawing is scaled to the bucket with the most samples (the first bucket is left out).
* **C128** (C128_index_refuted, C128_far_refuted, C128_settles_refuted, C128_spline_refuted): Overshoot and spline motivators, over exact reals. Settled and Twitch of overshoot motivators hold for index 0 and are refuted for others; refuted as well: that every boosted motivator settles back, and that a spline motivator is boosted.
* **C129** (C129_past_refuted, C129_current_refuted, C129_target_time_refuted): Over exact reals. Refuted: that a motivator is at its target, and not beyond it, as soon as its time has come; that a value set on a motivator at rest lasts; that TargetTime is the longest over the dimensions.
* **C130** (C130_rests_refuted): Round to nearest without overflow, any rule for ties. The error bound is for up to 2^24 / 6 frames. Refuted: that a motivator at its target stays exactly there while its time runs.
* **C132** (C132_memory_refuted, C132_flat_refuted, C132_zero_refuted): Over real numbers. C132_draws is for drawings that have a zero line (smallest y not above 0) and for memory after the last point that may be read. Refuted: that nothing but the points is read, that points of one height can be drawn, that points of height zero lie on the line of zero. The text of the numbers above and below the drawing is left out.
* **C133** (C133_missing_refuted, C133_unwritable_refuted): The FlatBuffers library is a pair of functions, of which it is only assumed that nothing can be read from no bytes. Missing: more than 256 inputs (FindCompleteRig counts in a byte), and the text that is printed. Refuted: that unreadable inputs and unwritable outputs are reported.
* **C134** (C134_slopes_refuted): Over real numbers. For calls of CreateSpline that fail no assertion: a node that AddNode inserts can be outside the range (C30_well_behaved_call_succeeds_refuted). Refuted: that slopes are scaled with y.
* **C16** (C16_reset_then_frame_refuted): false of the code: Reset does not clear sorted_processors_, refuted for every history that created a processor
* **C18** (C18_closest_refuted, C18_far_from_zero_refuted): holds for ranges centred on 0; refuted for others
* **C19** (C19_union_invalid_refuted, C19_lengthen_comment_refuted): Union and Include only for valid ranges; refuted for the default-constructed range
* **C20** (C20_index_of_longest_invalid_refuted): IndexOfLongest for valid ranges
* **C21** (C21_three_pi_refuted): Over exact reals. The documented right end 3pi of FromWithinThreePi is rejected by an assert (refuted).
* **C23** (C23_constant_for_no_width_refuted): End conditions proved for every positive width; the constant-for-non-positive-width half is false of the code (refuted).
* **C25** (C25_small_curvature_refuted): One direction always; the other when the end curvatures are zero or above the tolerance; refuted in general.
* **C26** (C26_zero_curve_refuted, C26_lost_roots_refuted, C26_scaling_check_refuted, C26_sign_zero_at_limits_refuted): Complete for well-conditioned curves (in particular coefficients in [1/8,8] with discriminant 0 or at least 1/128); refuted in general.
* **C27** (C27_end_slope_refuted, C27_join_refuted): Proved over the reals when the quadratics solved are well-conditioned (the root finder's tolerance), and when the join does not fall within the tolerance of the start, where the code moves it; the end slope is reached unless no ease-out parabola fits after the start. In general both are false: from 0 with slope 2 to 1 the curve arrives faster than it started instead of at rest, and a join moved onto the start makes the curve jump.
* **C28** (C28_start_on_target_refuted, C28_iteration_x_bias_one_refuted, C28_tiny_bias_refuted): Continuity at joins and peak decay hold for any number of steps. The start value and slope hold for bias in [1e-4, 9801] away from the target; refuted for a start on the target moving down and for a tiny bias.
* **C29** (C29_second_derivative_continuous_refuted): Value and slope agree at the mid node and the outer second derivatives are as requested. Equality of second derivatives at the mid node is refuted.
* **C30** (C30_not_greater_is_nop_refuted, C30_well_behaved_call_succeeds_refuted): Over exact reals, any number of AddNode calls. Refuted: a call that is not after the last node is not always ignored; a well-behaved call can fail an assert.
* **C31** (C31_negative_x_refuted, C31_closest_rung_refuted): Error bounds hold for x >= -g/2; a negative x is off by a whole grain (refuted) and the y rung chosen is the one below, not the closest (refuted).
* **C32** (C32_guess_independent_refuted, C32_marker_collision_refuted): The segment contains x up to half a grain. The value is independent of the guess on the grid and away from nodes; off the grid near a node it is not (refuted). 65535 nodes collide with a marker (refuted).
* **C33** (C33_continuous_refuted, C33_held_before_refuted, C33_end_y_refuted): Nodes are interpolated, ends are held, segments join. Continuity in real x is refuted (the lookup rounds x to the grid), as is holding one grain before a first node at 0 and EndY at the end of a spline ending in a jump.
* **C34** (C34_wrapped_inside_refuted): Positions at least half a grain past the end are wrapped to (0, EndX]; within half a grain they are not (refuted).
* **C35** (C35_many_points_refuted, C37_slowly_refuted): BulkYs equals evaluation at every point, up to the segment chosen within half a grain of a node; for 65536 or more points the uint16 loop never ends (refuted).
* **C36** (C36_array_size_refuted): Pairwise disjointness for all counts and capacities. Fitting in ArraySize bytes holds for odd capacities or at most two splines and is refuted for even capacities with three or more.
* **C37** (C37_slowly_refuted, C37_backwards_refuted): For non-negative steps; within half a grain of a node the adjacent segment's cubic may be used.
* **C38** (C38_agree_refuted): They agree when the indices written do not catch up with the mask in the shared buffer (e.g. fewer than half of the segments end); with a single index they never do (refuted).
* **C39** (C39_velocity_refuted, C39_end_velocity_refuted): Value is continuous at both ends. Velocity is continuous at the start only for playback rate 1 (refuted) and at the end only for y-scale 1 (refuted).
* **C40** (C40_move_overlapping_refuted): All calls; a move upwards onto an overlapping range repeats slots (refuted).
* **C41** (C41_clear_keeps_value_refuted): The value is kept only until the next frame, then becomes the old position in the cubic (refuted).
* **C42** (C42_fresh_index_refuted): Holds for frame times <= 0 only; any positive frame time uses the missing spline (refuted).
* **C43** (C43_clone_without_spline_refuted, C43_all_destroyed_refuted): Exclusive ownership proved for every history. Cloning a motivator without a spline dereferences null (refuted), and splines of motivators alive at destruction leak (refuted).
* **C44** (C44_direction_refuted, C44_closest_refuted, C44_target_on_clone_refuted): Proved over exact reals: the start is the current value and velocity, each waypoint is attained at its time, both up to the documented 16-bit quantisation, for waypoint times that the time grid tells apart. Success is proved without modular arithmetic; with it only for up to two closest/direct waypoints, and refuted for the other directions, for three closest waypoints and for small splines taken over from a clone.
* **C45** (C45_max_delta_refuted, C45_range_refuted, C45_max_delta_per_frame_refuted, C45_uninitialised_refuted): The velocity limit and arrival hold for every frame. The max_delta and range limits hold unless the step lands on the target, which is returned unclamped (refuted); the default configuration reads an uninitialised max_delta (refuted).
* **C46** (C46_terminates_refuted): Terminates and consumes the frame time when max_delta_time > 0; with the default 0 it never ends (refuted).
* **C47** (C47_overshoot_difference_refuted): Holds for the simple processors and for all overshoot queries but one. Overshoot Differences reads values_[i] instead of values_[index + i]: right only for index 0 (refuted).
* **C48** (C48_no_derivatives_refuted): The value is the last value set for every frame sequence. Initialising with the default (null) start_derivatives dereferences null (refuted).
* **C49** (C49_at_rest_refuted, C49_moving_start_refuted): The motion follows the two-quadratic path from the current value and velocity while the quadratics solved are well conditioned; arrival at rest when the start velocity points past the target is refuted, and so is the first frame of a motivator initialised with a velocity.
* **C50** (C50_target_time_refuted, C50_fresh_refuted): For a damped spring any sequence of frames shows a once continuously differentiable oscillation that starts at the current value and velocity. The reported target time is never updated (refuted), and a motivator without a target fails in its first frame (refuted).
* **C53** (C53_zero_refuted): Translation * rotation * scale with defaults and the normalised quaternion; when all four quaternion components are zero it cannot be normalised (refuted).
* **C54** (C54_absent_w_refuted): Holds whenever the motivator drives the w component; without an operation for w the default 1 is not negated and the orientation shown changes (refuted).
* **C57** (C57_set_weights_refuted): BlendToAnims always normalises, and so does SetWeights with at most as many weights as animations; with more weights the sum is below 1 (refuted).
* **C59** (C59_single_bone_refuted, C59_mixed_refuted): Accepted when the hierarchies match or the rig has one bone. A single-bone animation passes the assert but is read out of range on a rig with several bones (refuted); an SQT animation after a matrix animation fails an assert (refuted).
* **C60** (C60_later_refuted): Holds when started at time 0; at any later time start_time + endless overflows (refuted).
* **C61** (C61_many_refuted, C61_failed_load_refuted, C61_empty_object_refuted): Proved for tables with at most 65535 animations, after any sequence of calls of Load. False beyond that (16-bit indices: the 65536th entry yields none, the 65537th yields the first animation), false for names that cannot be loaded (load_fn is called once per occurrence), and undefined when an object of the table lists no animations and no other object lists one.
* **C62** (C62_constant_refuted, C62_reload_refuted): Union with ascending ids proved for a newly loaded table. The claim about constants is false: the range of values starts as [1, 0], not as the empty range, so an operation is constant exactly when all animations have the same constant in [0, 1]. After a second Load the operations are added again.
* **C63** (C63_many_refuted): Proved for at most 256 animations; false for more (the index of the best animation is truncated to 8 bits).
* **C65** (C65_names_refuted): Decides equality of bone counts and parents; names are not compared (refuted).
* **C66** (C66_cubic_refuted): Proved for linear keyframes. Step and cubic keyframes are converted without the check, so two cubic keyframes q and -q keep opposite signs.
* **C67** (C67_linear_refuted): Step keyframes hold their values to the precision of 16 bits, outside a grain around each keyframe. For linear keyframes the uncompressed nodes lie exactly on the line and the compressed spline is within a stated bound of it; it is not the line: angles are rounded, and a ramp slower than the smallest angle becomes an S-curve.
* **C68** (C68_no_keyframes_refuted): Exact whenever the conversion returns, and it returns for 1 to 32766 chronological keyframes. Without keyframes a size is computed but the conversion reads before the first node.
* **C69** (C69_times_refuted): Termination, order, end points and tolerance hold for all sample arrays when samples between two nodes are taken as evenly spaced, and in full when samples are whole time units apart. At the times the samples were taken the tolerance claim is false in general: split times are truncated to ints, so nodes move earlier by up to count - 2 units.
* **C70** (C70_refuted, C70_constant_refuted): Order, first and last node, and removed nodes near the curve between two kept nodes, for all node lists. Near the remaining curve only when redundancy passes to shorter stretches; otherwise false (witness), and the last node goes when the channel becomes constant.
* **C71** (C71_scales_refuted, C71_spans_refuted, C71_uniform_refuted, C71_quaternion_refuted): The pose after pruning is the pose before it with every channel's value changed by less than its tolerance (twice that for scales along an axis), for all channel lists with ascending ids, no scale twice, curves with flat ends or one span, and, if scales are collapsed, at node times. False without these (witnesses).
* **C72** (C72_refuted): Holds for whole skeletons. A bone exported alone keeps its parent's index; the file loads exactly if it had no parent (C72_single_partial), so the claim is false of the single-bone export (C72_refuted).
* **C74** (C74_refuted, C74_curve_refuted): The search is characterised exactly: it returns the first index on its walk that is the end index or far enough. It always terminates when the positions wrap, or for 1 or at least 4 positions. False for 3 non-wrapping positions (the end index is computed with wrapping and the walk never reaches it): the search and the constant-speed curve built on it loop forever.
* **C75** (C75_reciprocal_of_largest_refuted, C75_sqrt_rounded_down_refuted): On the 32-bit patterns. ReciprocalExponent is claimed for exponents up to 126 (refuted at 127, flushed to zero); the documented rounding of SqrtReciprocalExponent is refuted.
* **C77** (C77_up_is_right_handed_refuted): Everything proved except the right-handed up vector, which is false for XZ and ZX (refuted).
* **C78** (C78_rotation_refuted): The parts always compose to the matrix; the rotation part is a proper rotation when scaling comes last and is non-zero (refuted otherwise).
* **C79** (C79_zero_weight_refuted): Defined when the first animation has a positive weight; with first weight 0 two quaternions of one orientation can cancel (refuted).
* **C85** (C85_quaternions_refuted, C85_float_splines_refuted): For whole skeletons with channels that are not empty, in order of time, of at most 65535 nodes and not of quaternions. Quaternion channels give files that the loader rejects; files with float splines never load. Exact arithmetic; times are ints.
* **C86** (C86_constants_refuted, C86_quaternions_refuted): All but the constants' values, which are lost, and quaternions, which do not load.
* **C87** (C87_whole_turn_refuted): Exact arithmetic. Constant velocity is proved for ranges that are not modular; in a modular range a turn of more than half the range does not move at the velocity asked for (witness).
* **C89** (C89_repeat_after_end_refuted): For splines set without a blend. Repetition switched on after the end has no effect (witness): the position goes on past the end and the value stays.
* **C90** (C90_shift_and_rate_refuted): For splines that do not repeat and are set without a blend. The answers ignore the y scale, the y offset and (TargetTime) the playback rate: the theorems say how they are related to what follows, and a witness shows they are not what is claimed with a shift and a rate of 2.
* **C92** (C92_spline_refuted): Proved for const, ease, spring, matrix and SQT motivators. A spline motivator on a reused index keeps the value of the motivator removed (witness).
* **C93** (C93_second_target_refuted): Only the first target is used: the second of two is lost (witness). A target at time 0 is taken for the current value.
* **C94** (C94_only_legal_refuted): Legal command lines are accepted and do what they say. That only legal ones are accepted holds without -a and -u; a known unit or axis system resets valid_args, so that an unknown switch, a negative tolerance or a missing file name before it is accepted (refuted). Library functions (atof, unit names) are arbitrary.
* **C95** (C95_order_refuted): Proved for the orders XYZ, ZYX and SphericXYZ; for animated nodes under the conditions of C71 on the recorded curves, for nodes without curves in full. For XZY, YZX, YXZ and ZXY the order table is wrong: a node turned by 90 degrees about x and y is exported with the turns exchanged (refuted).
* **C96** (C96_refuted): What AnimConst reports is characterised exactly. That a channel reported as constant stays within the tolerance is false: the slopes of the last key are not looked at (refuted).
* **C97** (C97_outside_refuted, C97_late_refuted): The recording is proved in full. A curve that is not constant but has no key interval in the span fails the assertion that it has nodes, and one whose interval ends later than an int holds fails the assertion of the time (both refuted).
* **C98** (C98_constant_refuted): Proved for operations that have a motivator, and for new motivators. A constant operation that is blended to another constant, or to the default, jumps at once (refuted).
* **C99** (C99_empty_refuted, C99_both_refuted): Proved for what the descriptions mean and that they agree. A table whose only lists are empty fails the check on the number of bones (refuted), and the anim_files of a list that also has anims are ignored (refuted).
