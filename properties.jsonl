{"id": "C01", "title": "Live index blocks never overlap", "statement": "After any sequence of Alloc / Free / Defragment calls on an index allocator, every block handed out and not yet freed lies inside [0, num_indices), has the size it was requested with, and shares no index with any other live block; no assertion or out-of-range access happens inside the allocator.", "quantifier": "all finite histories of Alloc(n>0), Free(live block), Defragment()", "why_tests_cant": "the layout after a history depends on the exact interleaving of sizes and frees; tests sample a handful of histories of small size", "anchors": ["include/motive/util/index_allocator.h: Alloc, Free, Defragment, InitializeIndex"]}
{"id": "C02", "title": "Alloc returns a fresh block and disturbs nobody", "statement": "Alloc(n) returns a block of exactly n indices none of which belonged to a live block, that block becomes live, and every other live block keeps its start index and its size.", "quantifier": "all allocator states reachable by any history, all n > 0", "why_tests_cant": "must hold for every pattern of holes; tests can only try some patterns", "anchors": ["include/motive/util/index_allocator.h: Alloc, InitializeIndex"]}
{"id": "C03", "title": "Alloc recycles before it grows", "statement": "Alloc(n) changes num_indices only if no freed block has at least n indices; when it grows it grows by exactly n at the end and reports it through SetNumIndices; when it recycles, it uses an exact fit if one exists and otherwise a hole whose excess is minimal.", "quantifier": "all reachable allocator states, all n > 0", "why_tests_cant": "quantifies over every configuration of holes", "anchors": ["include/motive/util/index_allocator.h: Alloc"]}
{"id": "C04", "title": "Defragment always terminates and leaves the array dense", "statement": "From every reachable state Defragment() finishes, and afterwards num_indices equals the total size of the live blocks, there are no unused indices, and each live block still has its size.", "quantifier": "all reachable allocator states", "why_tests_cant": "termination of the for(;;) loop and density for all hole patterns cannot be established by finitely many runs", "anchors": ["include/motive/util/index_allocator.h: Defragment, ConsolidateUnusedIndices, BackfillFirstUnused, LastIndexRangeSmallerThanHole"]}
{"id": "C05", "title": "Defragment carries the client's data along", "statement": "If a client keeps an array in step with the callbacks (resizing on SetNumIndices, moving elements on MoveIndexRange), then after Defragment each live block has moved to a new start, the mapping is one-to-one onto the new live blocks, and the elements of the block are the client's old elements in order.", "quantifier": "all reachable allocator states, all client arrays and element types", "why_tests_cant": "a single misdirected move corrupts data silently only for particular hole patterns", "anchors": ["include/motive/util/index_allocator.h: Defragment, BackfillFirstUnused; CallbackInterface"]}
{"id": "C06", "title": "Client array size always matches", "statement": "A client array resized on every SetNumIndices callback has exactly num_indices() elements between calls, every MoveIndexRange it receives lies inside the array, and the target of a move starts strictly below its source, so moving elements one by one in ascending order is safe.", "quantifier": "all histories, all callbacks issued", "why_tests_cant": "bounds of every callback in every history", "anchors": ["include/motive/util/index_allocator.h: SetNumIndices, BackfillFirstUnused", "src/motive/processor.cpp: MoveIndexRangeBase"]}
{"id": "C07", "title": "A motivator and its processor always agree", "statement": "After any sequence of initialise, re-initialise, destroy, move-construct, move-assign, clone and frame-advance calls, each valid motivator refers to exactly the slots its processor attributes to it, no two valid motivators share a slot, and a motivator whose processor does not know it reports Valid() == false.", "quantifier": "all histories of motivator and processor operations, any number of motivators and dimensions", "why_tests_cant": "aliasing appears only under particular interleavings of removal, defragmentation and moves", "anchors": ["src/motive/processor.cpp: AllocateMotivatorIndices, TransferMotivator, RemoveMotivator, MoveIndexRangeBase", "include/motive/motivator.h: Motivator"]}
{"id": "C08", "title": "Motivators are isolated from one another", "statement": "The per-dimension data of a motivator changes only through calls on that motivator; initialising, destroying, moving or cloning other motivators and defragmenting leaves it bit-for-bit the same.", "quantifier": "all histories, all pairs of distinct motivators", "why_tests_cant": "cross-talk depends on the slot layout created by the whole history", "anchors": ["src/motive/processor.cpp: MoveIndexRangeBase, RemoveMotivator", "include/motive/simple_processor_template.h: MoveIndices"]}
{"id": "C09", "title": "Moving a motivator transfers its identity", "statement": "Move construction and move assignment give the destination the source's data and dimension, leave the source invalid, release what the destination drove before, and change no other motivator.", "quantifier": "all reachable states, all pairs of motivators including source == destination", "why_tests_cant": "must hold in every layout and for self-moves", "anchors": ["include/motive/motivator.h: Motivator(Motivator&&), operator=", "src/motive/processor.cpp: TransferMotivator"]}
{"id": "C10", "title": "Invalidate is clean and idempotent", "statement": "After Invalidate() (or destruction) a motivator is invalid, its slots are free for reuse, a second Invalidate has no effect, and all other motivators keep their data.", "quantifier": "all reachable states", "why_tests_cant": "depends on every possible layout", "anchors": ["include/motive/motivator.h: Invalidate", "src/motive/processor.cpp: RemoveMotivator"]}
{"id": "C11", "title": "Destroying a processor resets its motivators", "statement": "When a processor is destroyed every motivator it drove becomes invalid, no motivator of another processor is affected, and the motivators may be destroyed later without touching the processor.", "quantifier": "all reachable states with any number of live motivators and holes", "why_tests_cant": "destruction order and hole patterns are unbounded", "anchors": ["src/motive/processor.cpp: ~MotiveProcessor, RemoveMotivatorWithoutNotifying"]}
{"id": "C12", "title": "Clones are independent equal copies", "statement": "Cloning a motivator from a processor that supports cloning yields a valid motivator of the same dimension and equal data in fresh slots, the source is unchanged, and subsequent changes to either do not affect the other; if cloning is unsupported, or source and destination are the same motivator, the destination ends up invalid.", "quantifier": "all reachable states, all (source, destination) pairs", "why_tests_cant": "layout- and history-dependent", "anchors": ["src/motive/processor.cpp: CloneMotivator", "include/motive/motivator.h: CloneFrom"]}
{"id": "C13", "title": "A frame leaves no dead slots", "statement": "Directly after AdvanceFrame of a processor, the number of slots it processes equals the sum of the dimensions of its live motivators.", "quantifier": "all histories ending in AdvanceFrame", "why_tests_cant": "unbounded histories", "anchors": ["src/motive/processor.cpp", "include/motive/processor.h: Defragment"]}
{"id": "C14", "title": "One processor per motivator type", "statement": "For every sequence of factory registrations, motivator initialisations and processor look-ups on an engine, a given type is always served by the same processor object, created at most once by the first factory registered for it; an unregistered type yields none.", "quantifier": "all histories of RegisterProcessorFactory / Processor calls", "why_tests_cant": "histories are unbounded", "anchors": ["src/motive/engine.cpp: RegisterProcessorFactory, Processor"]}
{"id": "C15", "title": "AdvanceFrame runs every processor exactly once in priority order", "statement": "AdvanceFrame advances every existing processor exactly once, in non-decreasing Priority(), with ties in creation order, so a processor that reads lower-priority motivators sees their values for the current frame.", "quantifier": "all histories of processor creation, in any order", "why_tests_cant": "order must be right for every creation order", "anchors": ["src/motive/engine.cpp: Processor, AdvanceFrame", "include/motive/engine.h: ComparePriority"]}
{"id": "C16", "title": "Reset leaves a usable engine", "statement": "After Reset() the engine can be used as if new: AdvanceFrame touches no destroyed processor.", "quantifier": "all histories followed by Reset and AdvanceFrame", "why_tests_cant": "dangling pointers are history-dependent and may go unnoticed in a test run", "anchors": ["src/motive/engine.cpp: Reset, AdvanceFrame"]}
{"id": "C17", "title": "Modular normalisation lands in range and is congruent", "statement": "For a valid modular range of positive length, Normalize/NormalizeWildValue return a value in the half-open range that differs from the input by an integer multiple of the range length, and NormalizeCloseValue returns the same value for every input.", "quantifier": "all real inputs and all valid ranges of positive length", "why_tests_cant": "infinitely many inputs; loop and floor-based paths must agree everywhere", "anchors": ["include/motive/math/range.h: NormalizeWildValue, NormalizeCloseValue, ModularAdjustment"]}
{"id": "C18", "title": "Modular differences", "statement": "For a modular range the ModDiff variants return a d with a + d congruent to b, with the sign demanded by the requested direction; the 'closest' variant returns the congruent difference of least magnitude.", "quantifier": "all valid ranges of positive length and all in-range a, b", "why_tests_cant": "infinitely many value pairs and ranges", "anchors": ["include/motive/math/range.h: ModDiff, ModDiffClose, ModDiffPositive, ModDiffNegative"]}
{"id": "C19", "title": "Range algebra has set semantics", "statement": "Intersect contains exactly the common points, Union is the smallest range holding both operands, Include is the smallest extension, Lengthen keeps the centre, Clamp returns the nearest contained value, ClampToClosest / DistanceFrom agree with it.", "quantifier": "all ranges (valid or not) and all values", "why_tests_cant": "algebraic laws over infinite domains", "anchors": ["include/motive/math/range.h: Intersect, Union, Include, Lengthen, Clamp, DistanceFrom"]}
{"id": "C20", "title": "Range array helpers", "statement": "ValuesInRange keeps exactly the contained values in order; IntersectRanges returns exactly the valid pairwise intersections (or the smallest gap); IndexOfLongest/Shortest return the first extremal index.", "quantifier": "all arrays of any length", "why_tests_cant": "unbounded arrays", "anchors": ["include/motive/math/range.h: ValuesInRange, IntersectRanges, IndexOfLongest, IndexOfShortest, ClampToClosest"]}
{"id": "C21", "title": "Angles stay in (-pi, pi] and are congruent to the exact result", "statement": "Every angle operation (construction from any radian value, +, -, negation, difference, scaling, wrapping, clamping) returns an angle in (-pi, pi] that is congruent modulo 2*pi to the mathematical result.", "quantifier": "all angle values", "why_tests_cant": "infinitely many inputs, including boundary cases at +-pi", "anchors": ["include/motive/math/angle.h: Angle, WrapAngle, ModWithinThreePi, ModIfNegativePi, Clamp"]}
{"id": "C22", "title": "Angle clamping picks the nearer end", "statement": "Angle::Clamp(center, max_diff) returns the angle itself when it is within max_diff of center, and otherwise the end of the arc that is nearer.", "quantifier": "all angles, centers and max_diff in [0, pi]", "why_tests_cant": "boundary cases of a circular domain", "anchors": ["include/motive/math/angle.h: Clamp"]}
{"id": "C23", "title": "Cubic curve meets its four end conditions", "statement": "A cubic created from (start value, start derivative, end value, end derivative, width > 0) has exactly those values and derivatives at 0 and at width; for a non-positive width it is the constant start value.", "quantifier": "all real end conditions and widths", "why_tests_cant": "identity over all reals", "anchors": ["src/motive/math/curve.cpp: CubicCurve::Init"]}
{"id": "C24", "title": "Curve transformations", "statement": "Shifting left/right/up and scaling a curve give the curve x -> f(x + s), f(x - s), f(x) + s, s f(x), and Derivative/SecondDerivative/ThirdDerivative are the true derivatives of Evaluate.", "quantifier": "all curves, shifts and arguments", "why_tests_cant": "identity over all reals", "anchors": ["include/motive/math/curve.h: ShiftLeft, ShiftRight, ShiftUp, ScaleUp, Evaluate, Derivative", "src/motive/math/curve.cpp: ShiftLeft"]}
{"id": "C25", "title": "UniformCurvature tells the truth", "statement": "UniformCurvature over an interval returns true exactly when the second derivative does not change sign on it.", "quantifier": "all cubics and intervals", "why_tests_cant": "universally quantified real property", "anchors": ["src/motive/math/curve.cpp: CubicCurve::UniformCurvature"]}
{"id": "C26", "title": "Quadratic root finding is complete", "statement": "The root finder returns exactly the real roots of the quadratic (none, one or two), in ascending order; RootsInRange returns exactly those within the range; RangesMatchingSign returns exactly the sub-ranges where the curve has the requested sign.", "quantifier": "all quadratics and ranges", "why_tests_cant": "all coefficient combinations incl. degenerate ones", "anchors": ["src/motive/math/curve.cpp: Roots, RootsWithoutNormalizing, RootsInRange, RangesMatchingSign"]}
{"id": "C27", "title": "Ease-in-ease-out curve is C1 and ends where asked", "statement": "The ease-in-ease-out curve starts with the given value and derivative, is continuous with continuous derivative at the join, and arrives at the end value with zero slope after its reported total time.", "quantifier": "all start conditions, end values and positive accelerations meeting the documented preconditions", "why_tests_cant": "real quantification with square roots", "anchors": ["src/motive/math/curve_util.cpp: CalculateQuadraticEaseInEaseOut, FlyOut, FlyIn", "include/motive/math/curve_util.h: QuadraticEaseInEaseOut"]}
{"id": "C28", "title": "Spring context stepping is continuous", "statement": "Stepping a quadratic spring through its oscillations keeps value and derivative continuous, each successive peak is the previous one times the bias with opposite sign, and the value/derivative at time zero are those given.", "quantifier": "all springs with positive constants and any number of oscillations", "why_tests_cant": "unbounded number of oscillations", "anchors": ["src/motive/math/curve_util.cpp: QuadraticSpring, IncrementContextInternal, CalculateContext"]}
{"id": "C29", "title": "Dual-cubic mid node", "statement": "Splitting at the computed mid node yields two cubics that meet with equal value, first and second derivative and have the requested second derivatives at the outer ends.", "quantifier": "all end conditions, widths and second derivatives", "why_tests_cant": "identity over reals", "anchors": ["src/motive/math/dual_cubic.cpp: CalculateMidNode, CalculateDualCubicMidNode"]}
{"id": "C30", "title": "Spline nodes stay sorted and within capacity", "statement": "After any sequence of AddNode calls in non-decreasing x, the stored x values are non-decreasing, no x occurs more than twice, the node count never exceeds the capacity, and the first and last stored nodes bound all others.", "quantifier": "all sequences of AddNode calls of any length", "why_tests_cant": "unbounded sequences", "anchors": ["include/motive/math/compact_spline.h: AddNode, AddNodeVerbatim", "src/motive/math/compact_spline.cpp: AddNode"]}
{"id": "C31", "title": "Quantisation error bounds", "statement": "A stored x differs from the given x by at most half the granularity and a stored y in range by at most one rung of the y range (the documentation promises the closest rung).", "quantifier": "all x, y in range, all granularities and ranges", "why_tests_cant": "all real inputs", "anchors": ["include/motive/math/compact_spline_node.h: QuantizeX, CompactY, X, Y"]}
{"id": "C32", "title": "Segment lookup is correct for every guess", "statement": "IndexForX(x, guess) returns a segment whose x interval contains x, the before/after marker when x lies outside the spline, and this for every guess; curve value at x is the same whatever guess is passed when the spline is continuous at x.", "quantifier": "all splines, x and guess indices", "why_tests_cant": "the guess is a hint whose value must never matter; tests try few", "anchors": ["src/motive/math/compact_spline.cpp: IndexForX, BinarySearchIndexForX, IndexContainsX"]}
{"id": "C33", "title": "Spline interpolates its nodes", "statement": "Evaluating a spline at the x of a node yields the node's y and derivative; before the first and after the last node the value is held with zero derivative; the curve is continuous across segments with distinct x.", "quantifier": "all splines and all x", "why_tests_cant": "all node lists and real x", "anchors": ["src/motive/math/compact_spline.cpp: CalculatedSlowly, CreateCubicInit"]}
{"id": "C34", "title": "Repeat wraps the domain", "statement": "With repeat enabled, evaluation past the end is evaluation at the wrapped x inside the spline's x range.", "quantifier": "all splines with positive width and all x", "why_tests_cant": "real quantification", "anchors": ["src/motive/math/compact_spline.cpp: IndexForXAllowingRepeat"]}
{"id": "C35", "title": "Bulk evaluation equals point evaluation", "statement": "BulkYs over any number of points and any x step yields at each point the same value as evaluating the spline at that x.", "quantifier": "all splines, start x, step and number of points", "why_tests_cant": "unbounded number of points", "anchors": ["src/motive/math/compact_spline.cpp: BulkEvaluate"]}
{"id": "C36", "title": "In-place spline arrays do not overlap", "statement": "Splines laid out with Size/Next/IdxBase inside a buffer of ArraySize bytes are pairwise disjoint and inside the buffer.", "quantifier": "all spline counts and node capacities", "why_tests_cant": "all sizes", "anchors": ["include/motive/math/compact_spline.h: Size, ArraySize, NextAtIdx, CreateArrayInPlace"]}
{"id": "C37", "title": "Evaluator tracks the spline it plays", "statement": "After SetSplines and any sequence of AdvanceFrame calls, each evaluated index reports the value, derivative and x position the source spline has at the accumulated x (wrapped when repeating, held at the end otherwise), scaled and offset by the playback parameters.", "quantifier": "all splines, playback parameters and frame-time sequences", "why_tests_cant": "unbounded frame sequences with arbitrary step sizes", "anchors": ["src/motive/math/bulk_spline_evaluator.cpp: SetSplines, AdvanceFrame, UpdateCubicXs, InitCubic"]}
{"id": "C38", "title": "Both evaluator update strategies agree", "statement": "The one-step and the two-step x-update strategies produce identical evaluator states.", "quantifier": "all evaluator states and time steps", "why_tests_cant": "state space is infinite", "anchors": ["src/motive/math/bulk_spline_evaluator.cpp: UpdateCubicXs_TwoSteps, UpdateCubicXs_OneStep"]}
{"id": "C39", "title": "Blending is continuous", "statement": "When an index blends to a new spline over a positive blend duration, value is continuous at the start and at the end of the blend; velocity is continuous too.", "quantifier": "all old/new splines, playback rates and scales, blend durations", "why_tests_cant": "real quantification", "anchors": ["src/motive/math/bulk_spline_evaluator.cpp: BlendToSpline, CalculateBlendInit"]}
{"id": "C40", "title": "Evaluator indices are independent", "statement": "Setting, clearing, moving or advancing one evaluator index leaves the state of all others as it would have been without that call.", "quantifier": "all evaluator states and index pairs", "why_tests_cant": "state space is infinite", "anchors": ["src/motive/math/bulk_spline_evaluator.cpp: SetSplines, ClearSplines, MoveIndices, SetNumIndices"]}
{"id": "C41", "title": "Clearing keeps the current value", "statement": "ClearSplines leaves the index holding its current value from then on.", "quantifier": "all evaluator states", "why_tests_cant": "all states", "anchors": ["src/motive/math/bulk_spline_evaluator.cpp: ClearSplines"]}
{"id": "C42", "title": "A freshly initialised spline motivator can be advanced", "statement": "A motivator initialised from SplineInit without any target can be advanced by any frame time without touching invalid memory.", "quantifier": "all frame-time sequences", "why_tests_cant": "memory errors may be silent in a test", "anchors": ["src/motive/math/bulk_spline_evaluator.cpp: AdvanceFrame, InitCubic, SetNumIndices", "src/motive/processor/spline_processor.cpp: InitializeIndices"]}
{"id": "C43", "title": "Local spline pool ownership", "statement": "Each locally allocated spline is owned by exactly one index or is in the free pool, never both, for every history of SetTarget, SetSpline, Clone, Remove and Move calls; a spline supplied by the caller is never put in the pool.", "quantifier": "all histories", "why_tests_cant": "double ownership shows up only after specific histories", "anchors": ["src/motive/processor/spline_processor.cpp: AllocateSpline, FreeSpline, FreeSplineForIndex, SetTarget, CloneIndices, RemoveIndices"]}
{"id": "C44", "title": "SetTarget reaches its waypoints", "statement": "After SetTarget on a spline motivator the value starts at the current value with the current velocity and attains each waypoint's value at its time.", "quantifier": "all current states and targets of up to the maximum number of waypoints", "why_tests_cant": "real quantification", "anchors": ["src/motive/processor/spline_processor.cpp: SetTarget"]}
{"id": "C45", "title": "Overshoot respects its limits", "statement": "Every overshoot update keeps |velocity| within the configured maximum, moves a non-modular value at most max_delta per step, keeps a value inside the configured range, and ends exactly at the target once within the at-target tolerance.", "quantifier": "all states, time steps and configurations", "why_tests_cant": "infinite state space", "anchors": ["src/motive/processor/overshoot_processor.cpp: CalculateVelocity, CalculateValue, AdvanceFrame", "include/motive/overshoot_init.h: ClampVelocity, ClampDelta, AtTarget"]}
{"id": "C46", "title": "Overshoot frame update terminates", "statement": "AdvanceFrame of the overshoot processor terminates for every configuration and consumes exactly the frame time.", "quantifier": "all configurations and frame times", "why_tests_cant": "non-termination cannot be observed by finite tests", "anchors": ["src/motive/processor/overshoot_processor.cpp: AdvanceFrame", "include/motive/overshoot_init.h: OvershootInit"]}
{"id": "C47", "title": "Per-index accessors address the right index", "statement": "Value/Velocity/Difference queries on an index report the state of exactly that index.", "quantifier": "all indices and dimensions", "why_tests_cant": "all indices", "anchors": ["src/motive/processor/overshoot_processor.cpp: Differences", "src/motive/processor/*: Values, Velocities"]}
{"id": "C48", "title": "Constant motivators hold their value", "statement": "A const motivator's value is the last value set, for every frame-time sequence.", "quantifier": "all histories", "why_tests_cant": "unbounded histories", "anchors": ["src/motive/processor/const_processor.cpp"]}
{"id": "C49", "title": "Ease-in-ease-out motivator trajectory", "statement": "After SetTargetWithShape the value starts from the current value and velocity and is at the target value, at rest, once the reported target time has passed; Velocity is the derivative of Value.", "quantifier": "all states, targets, shapes and elapsed times", "why_tests_cant": "real quantification", "anchors": ["src/motive/processor/ease_in_ease_out_processor.cpp"]}
{"id": "C50", "title": "Spring motivator trajectory", "statement": "After SetTargetWithShape the value and velocity are continuous across AdvanceFrame, and TargetTime reports the time until the spring's oscillation reaches the requested number of half periods.", "quantifier": "all states, targets, shapes and frame sequences", "why_tests_cant": "unbounded oscillations", "anchors": ["src/motive/processor/spring_processor.cpp"]}
{"id": "C51", "title": "Matrix result is the ordered product", "statement": "A matrix motivator's value is the product, in operation order, of the elementary rotation/translation/scale matrices of its operations at their current values; the reported scale is the product of the scale factors per axis.", "quantifier": "all operation lists of any length and all operation values", "why_tests_cant": "incremental column updates must equal the product for every list", "anchors": ["include/motive/matrix_op.h: CalculateResultMatrix, RotateAboutAxis"]}
{"id": "C52", "title": "Blending operation lists merges by id", "statement": "Blending to a new operation list keeps operations sorted by id, blends operations with matching ids, sends unmatched old ones to their default and inserts unmatched new ones; nothing is dropped or duplicated.", "quantifier": "all old and new id-sorted operation lists", "why_tests_cant": "merge loops over unbounded lists", "anchors": ["src/motive/processor/matrix_data.h: BlendToOps", "src/motive/processor/sqt_data.h: BlendToOps"]}
{"id": "C53", "title": "SQT update", "statement": "An SQT motivator's value is translate * rotate * scale built from its operations with defaults for missing ones, the quaternion normalised.", "quantifier": "all operation lists and values", "why_tests_cant": "real quantification", "anchors": ["src/motive/processor/sqt_data.h: UpdateResultMatrix"]}
{"id": "C54", "title": "Quaternion alignment preserves orientation", "statement": "Aligning quaternion operations before a blend never changes the orientation being displayed or blended to.", "quantifier": "all combinations of present and absent quaternion components", "why_tests_cant": "combinations of present/absent ops over real values", "anchors": ["src/motive/processor/sqt_data.h: AlignQuaternionOps"]}
{"id": "C55", "title": "TimeRemaining is the latest child", "statement": "TimeRemaining of a matrix/SQT/rig motivator is the maximum over its children and 0 when there are none.", "quantifier": "all child lists", "why_tests_cant": "unbounded lists", "anchors": ["src/motive/processor/matrix_data.h: TimeRemaining", "src/motive/processor/sqt_data.h: TimeRemaining", "src/motive/processor/rig_data.h: TimeRemaining"]}
{"id": "C56", "title": "Global bone transforms follow the hierarchy", "statement": "The global transform of a bone is the product of the local transforms along its ancestor chain from root to bone, with the root-motion bone treated as identity and reported separately.", "quantifier": "all hierarchies in which parents precede children, all local transforms", "why_tests_cant": "unbounded hierarchies", "anchors": ["src/motive/processor/rig_data.h: CalculateGlobalTransforms, CalculateBlendedGlobalTransforms"]}
{"id": "C57", "title": "Blend weights are normalised", "statement": "After BlendToAnims or SetWeights the weights are non-negative and sum to 1.", "quantifier": "all weight arrays with positive sum, all counts", "why_tests_cant": "all array lengths", "anchors": ["src/motive/processor/rig_data.h: BlendToAnims, SetWeights"]}
{"id": "C58", "title": "Blending identical poses changes nothing", "statement": "The blended position and scale of a bone are convex combinations of those of the animations, and blending animations that agree on a bone yields that bone's common transform.", "quantifier": "all weight vectors and numbers of animations", "why_tests_cant": "unbounded number of animations", "anchors": ["src/motive/processor/rig_data.h: CalculateBlendedGlobalTransforms"]}
{"id": "C59", "title": "Any compatible animation can be played on a rig", "statement": "BlendToAnim accepts every animation that satisfies its documented precondition (same hierarchy, single-bone animation or single-bone rig) without out-of-range access.", "quantifier": "all animation/rig pairs meeting the precondition", "why_tests_cant": "all bone counts", "anchors": ["src/motive/processor/rig_data.h: BlendToAnim", "include/motive/rig_anim.h: Anim", "src/motive/rig_init.cpp: MatchesHierarchy"]}
{"id": "C60", "title": "Endless animations report endless time", "statement": "A rig playing an animation whose end time is 'endless' reports endless TimeRemaining whenever it was started.", "quantifier": "all start times", "why_tests_cant": "integer overflow at particular start times", "anchors": ["src/motive/processor/rig_data.h: BlendToAnim, TimeRemaining"]}
{"id": "C61", "title": "Animation table loads each animation once", "statement": "After loading an animation table every (object, index) entry yields the animation with its listed name (or none), equal names share one animation, and every listed non-empty name is loaded at most once.", "quantifier": "all table contents and load histories", "why_tests_cant": "unbounded tables", "anchors": ["src/motive/anim_table.cpp: InitNameMapFromFlatBuffers, LoadAnimations, Query, QueryByName"]}
{"id": "C62", "title": "Defining animation covers every animation of the object", "statement": "For each object the defining animation has, for every bone, exactly the union of the operations of that object's animations, in ascending id, constant exactly when every animation of the object has the same constant.", "quantifier": "all sets of animations", "why_tests_cant": "unbounded numbers of animations and operations", "anchors": ["src/motive/anim_table.cpp: CalculateDefiningAnims, CreateDefiningAnim"]}
{"id": "C63", "title": "Most complete rig is found", "statement": "The animation used as hierarchy for the defining animation is one with the largest number of bones.", "quantifier": "all sets of animations of any size", "why_tests_cant": "index truncation appears only with many animations", "anchors": ["src/motive/anim_table.cpp: FindCompleteRig"]}
{"id": "C64", "title": "Rig animation look-up", "statement": "GetSplinesAndConstants fills, per requested operation, the first matching operation's spline or constant, or the default; NumOps counts all operations.", "quantifier": "all animations and requested operation lists", "why_tests_cant": "unbounded lists", "anchors": ["src/motive/rig_anim.cpp: GetSplinesAndConstants, NumOps"]}
{"id": "C65", "title": "Hierarchy matching", "statement": "MatchesHierarchy accepts exactly the animations with the same bone count (or fewer, as documented) whose names and parents agree for every bone.", "quantifier": "all pairs of animations", "why_tests_cant": "unbounded bone counts", "anchors": ["src/motive/rig_init.cpp: MatchesHierarchy"]}
{"id": "C66", "title": "Keyframe quaternion continuity", "statement": "When converting quaternion keyframes, every output quaternion is plus or minus the input one (same orientation) and consecutive outputs have non-negative dot product.", "quantifier": "all keyframe sequences of any length", "why_tests_cant": "unbounded sequences", "anchors": ["src/motive/util/keyframe_converter.cpp: GetQuaternionValue, IndexForQuaternionComponent"]}
{"id": "C67", "title": "Linear and step keyframes are reproduced", "statement": "Splines created from linear keyframes interpolate linearly between keyframes; step keyframes hold each value until the next keyframe.", "quantifier": "all keyframe sequences and times", "why_tests_cant": "unbounded sequences and real times", "anchors": ["src/motive/util/keyframe_converter.cpp: AddLinearKeyframeData, AddStepKeyframeData"]}
{"id": "C68", "title": "Required buffer size suffices", "statement": "The buffer size computed for in-place curve conversion is exactly what the conversion consumes.", "quantifier": "all curve sets", "why_tests_cant": "all counts", "anchors": ["src/motive/util/keyframe_converter.cpp: GetRequiredBufferSize, CreateSplinesInPlace, GetRequiredNodeCount"]}
{"id": "C69", "title": "Curve recording terminates and keeps end points", "statement": "Recording a sampled curve terminates, produces nodes in chronological order, keeps the first and last samples, and each sample lies within tolerance of the cubic segment that replaced it.", "quantifier": "all sample arrays of any length, all tolerances", "why_tests_cant": "recursion over unbounded inputs", "anchors": ["src/anim_pipeline/anim_data.cpp: AddCurve"]}
{"id": "C70", "title": "Node pruning stays within tolerance", "statement": "Removing redundant nodes keeps the first and last node, keeps order, and each removed node lies within tolerance of the remaining curve.", "quantifier": "all node lists and tolerances", "why_tests_cant": "unbounded lists", "anchors": ["src/anim_pipeline/anim_data.cpp: PruneNodes, IntermediateNodesRedundant"]}
{"id": "C71", "title": "Channel pruning preserves the transform", "statement": "Collapsing channels leaves the combined transform of the bone unchanged up to tolerance.", "quantifier": "all channel lists", "why_tests_cant": "unbounded lists and operation combinations", "anchors": ["src/anim_pipeline/anim_data.cpp: PruneChannels, SummableChannel, SumChannels, UniformScaleChannels"]}
{"id": "C72", "title": "Exported single-bone animations are loadable", "statement": "Every exported rig animation has bone parents that are either 'no parent' or smaller than the bone's own index, as the loader requires.", "quantifier": "all skeletons", "why_tests_cant": "all hierarchies", "anchors": ["src/anim_pipeline/flat_anim.cpp: CreateRigAnimFbFromBoneRange", "include/motive/rig_anim.h: InitMatrixAnim"]}
{"id": "C73", "title": "Time shifting and extending", "statement": "ShiftTime moves every node by the offset and nothing else; ExtendChannelsToTime makes every animated channel last at least until the given time without changing its value before.", "quantifier": "all channel data", "why_tests_cant": "unbounded data", "anchors": ["src/anim_pipeline/anim_data.cpp: ShiftTime, ExtendChannelsToTime, MaxAnimatedTime, MinAnimatedTime"]}
{"id": "C74", "title": "Farther-position search terminates", "statement": "Searching for the next position farther than a minimum distance terminates and returns an index at least that far away, or the end.", "quantifier": "all position arrays, start indices, directions", "why_tests_cant": "non-termination cannot be tested", "anchors": ["include/motive/math/spline_util.h: FindFartherIdx, NormalizeIdx"]}
{"id": "C75", "title": "Float exponent helpers", "statement": "ExponentFromInt(ExponentAsInt(x)) is the largest power of two not exceeding |x|; ReciprocalExponent(x) * x lies in [1, 2); MaxPowerOf2Scale(x, m) scales |x| to within the requested exponent.", "quantifier": "all normal single-precision values", "why_tests_cant": "2^32 bit patterns", "anchors": ["include/motive/math/float.h: ExponentAsInt, ExponentFromInt, ReciprocalExponent, MaxPowerOf2Scale"]}
{"id": "C76", "title": "Slots without a motivator hold no data", "statement": "In a processor whose data is swapped or owned (matrix, SQT, rig), every slot that no motivator owns holds reset data, every owned slot holds exactly its motivator's data, and advancing a frame neither drops, duplicates nor aliases any data that is not reset, however the slots are moved.", "quantifier": "all sequences of motivator operations, all processors, all frames", "why_tests_cant": "leaks and double ownership leave the values read through live motivators unchanged", "anchors": ["src/motive/processor/rig_processor.cpp:129-167", "src/motive/processor/matrix_processor.cpp:146-176", "src/motive/processor.cpp:186-220"]}
{"id": "C77", "title": "Angles, vectors and rotation matrices agree", "statement": "In each of the six axis systems: converting an angle to a unit vector and back returns the same angle; converting any vector gives the direction of its projection; the rotation matrix of an angle maps the vector of every angle b to the vector of b plus the angle and fixes the up vector; latitude/longitude gives a point of the unit sphere at height sin(latitude); the up vector is the right-handed normal of the system.", "quantifier": "all systems, angles and vectors", "why_tests_cant": "continuum of angles in six systems with quadrant cases", "anchors": ["include/motive/math/angle.h:151-309,352-400", "src/motive/math/angle.cpp:20-53"]}
{"id": "C78", "title": "Separately reported translation, rotation and scale", "statement": "The translation, rotation and scale that a matrix motivator reports separately describe the same transform as its matrix, the rotation being a proper rotation.", "quantifier": "all operation lists and values", "why_tests_cant": "continuum of values in arbitrary orders; tests only compare the matrix", "anchors": ["src/motive/processor/matrix_data.h: result_rotation, result_scale, result_translation"]}
{"id": "C79", "title": "A blend of poses has an orientation", "statement": "Blending unit quaternions with normalised weights yields an orientation for every bone, in particular when all animations with a positive weight agree on it.", "quantifier": "all weight vectors and poses", "why_tests_cant": "cancellation needs particular signs of quaternions and weights", "anchors": ["src/motive/processor/rig_data.h:406-448"]}
{"id": "C80", "title": "Curves through positions have constant speed", "statement": "The times assigned to a sequence of positions start at zero, end at the total time and advance in proportion to the distance travelled; every derivative has length path length divided by total time.", "quantifier": "all position sequences of length at least two and all positive total times for which the calculation returns", "why_tests_cant": "unbounded sequences of real vectors", "anchors": ["include/motive/math/spline_util.h:71-124"]}
{"id": "C81", "title": "Cubic keyframes keep values and tangents", "statement": "Converting cubic keyframes yields, for every channel, curves that pass through each keyframe's value at its time, arriving with its left tangent and leaving with its right tangent.", "quantifier": "all keyframe sequences, channel counts and time units", "why_tests_cant": "unbounded sequences", "anchors": ["src/motive/util/keyframe_converter.cpp: AddCubicSplineKeyframeData, GetArrayValue"]}
{"id": "C82", "title": "Converted components become the right operations", "statement": "Quaternion curves and constants are added as operations W, X, Y, Z with consecutive ids, whichever order the input has them in, and the buffer and animation variants agree; vector components get consecutive types and ids; constants are added exactly when they differ from the value that does nothing by more than 0.00001; existing operations are kept.", "quantifier": "all keyframes, orders, base ids and existing operations", "why_tests_cant": "all values and orders", "anchors": ["src/motive/util/keyframe_converter.cpp: IndexForQuaternionComponent, AddQuaternionCurves, AddVector3Curves, AddVector3Constants, AddQuaternionConstants"]}
{"id": "C83", "title": "When an exported animation repeats", "statement": "An animation exported with 'repeat if repeatable' is marked as repeating exactly when every channel of every bone ends with the value and slope, within tolerance, with which it starts; 'always' and 'never' override that, and the first offending channel is the one reported.", "quantifier": "all animations with at most 255 bones and no empty channel", "why_tests_cant": "unbounded data", "anchors": ["src/anim_pipeline/anim_data.cpp: FirstNonRepeatingBone, Repeat"]}
{"id": "C84", "title": "The bones of an imported scene", "statement": "The bones gathered from a scene are exactly its nodes that hold a skeleton or a mesh or have one somewhere below them, in depth-first order and under their names; a bone's parent is the bone of its parent node, which comes before it, and the children of the scene's root have none.", "quantifier": "all scenes (trees of any depth and width)", "why_tests_cant": "all trees", "anchors": ["src/anim_pipeline/anim_pipeline.cpp: MarkBoneNodesRecursive, GatherBonesRecursive, GatherFlatAnim"]}
{"id": "C85", "title": "Exported animations load as what was exported", "statement": "An exported rig animation can be loaded, and the loaded one has the same bones, parents and base names, the same operations with the same ids and types, the value of each constant channel, splines that hold the keyframes of the others within the precision of the format, and the time of the last keyframe as its end unless it repeats.", "quantifier": "all animation data with at most 254 bones", "why_tests_cant": "unbounded data and skeletons; two programs that must agree", "anchors": ["src/anim_pipeline/flat_anim.cpp: CreateFlatBuffer, CreateRigAnimFbFromBoneRange, CreateCompactSpline", "src/motive/io/flatbuffers.cpp: RigAnimFromFlatBuffers, MatrixAnimFromFlatBuffers"]}
{"id": "C86", "title": "Defining animations survive their file", "statement": "A defining animation written to a file and loaded again has the same bones, parents, names, repetition and operations, with ids, types and constant values.", "quantifier": "all defining animations with at most 254 bones", "why_tests_cant": "unbounded data; two programs that must agree", "anchors": ["src/anim_pipeline/defining_anim_pipeline.cpp: CreateRigAnimFbFromRigAnim", "src/motive/io/flatbuffers.cpp: RigAnimFromFlatBuffers"]}
{"id": "C87", "title": "Targets made by the helper functions", "statement": "Each helper that makes a target (current, target, current to target, constant velocity, target to target, and the vector forms) makes waypoints in order of time with the values, velocities and times given. A motivator given such a target passes through exactly the values described: it stays with the first, reaches the next at its time, and moves at constant speed for a constant velocity target.", "quantifier": "all values, velocities, times, evaluators and frame sequences", "why_tests_cant": "real-valued arguments and unbounded frame sequences; modular and non-modular ranges", "anchors": ["include/motive/target.h: Tar1f, Target1f, CurrentToTarget1f, CurrentToTargetConstVelocity1f, TargetToTarget1f", "src/motive/processor/spline_processor.cpp: SetTargets"]}
{"id": "C88", "title": "Range queries and degrees", "statement": "The membership tests of a range are those of the closed, open, half-open or widened interval. Percent is the affine map taking the start to 0 and the end to 1, clamped or not. Scaling scales both ends; a range created from two numbers in any order contains exactly what lies between them. An angle from degrees is that number of degrees up to whole turns, and converting back and forth loses nothing.", "quantifier": "all ranges, numbers and angles", "why_tests_cant": "real-valued arguments, boundary cases at the ends", "anchors": ["include/motive/math/range.h: Contains, ContainsExcludingEnd, StrictlyContains, ContainsWithTolerance, Percent, PercentClamped, Scale, CreateValidRange", "include/motive/math/angle.h: FromDegrees, ToDegrees"]}
{"id": "C89", "title": "Seeking, rate and repeat changes while playing", "statement": "Whatever calls are made while a spline plays (frames, seeking to a time, changing the playback rate, switching repetition), a motivator shows its spline at the position these calls describe: a frame adds its length times the present rate, seeking sets the position, positions wrap only while repeating, and calls for other indices change nothing.", "quantifier": "all splines, parameters, evaluators and sequences of calls", "why_tests_cant": "unbounded interleavings of calls", "anchors": ["src/motive/math/bulk_spline_evaluator.cpp: SetXs, AdvanceFrame", "include/motive/math/bulk_spline_evaluator.h: SetPlaybackRates, SetRepeating"]}
{"id": "C90", "title": "Queries about a spline motivator's target", "statement": "TargetValue is the value a spline motivator shows once its splines have ended, TargetVelocity its velocity on the last node, Difference leads from the value shown to the target value (the range's modulo allowed for), TargetTime is the time until the last of its splines ends, and SplineTime is where its spline is now, in whole ticks.", "quantifier": "all splines, playback parameters, evaluators, dimensions, and frames before and after the question", "why_tests_cant": "relates an answer now to behaviour after any future sequence of frames", "anchors": ["src/motive/processor/spline_processor.cpp: TargetValues, TargetVelocities, Differences, TargetTime, SplineTime", "include/motive/math/bulk_spline_evaluator.h: EndX, EndY, EndDerivative, YDifferenceToEnd"]}
{"id": "C91", "title": "Processor arrays follow the allocator", "statement": "The data and value arrays of the const, ease and spring processors (and the evaluator's arrays) obey the allocator's callbacks: after any history, allocation leaves every live motivator's data where it is, defragmentation moves each motivator's data and values in order to its new index, the arrays stay as long as the allocator says, and what a motivator is told about itself depends on its own cells only.", "quantifier": "all reachable allocator states, all array contents, all block sizes", "why_tests_cant": "any fragmentation pattern reached by any history of allocations and frees, with overlapping moves", "anchors": ["include/motive/simple_processor_template.h: InitializeIndices, RemoveIndices, MoveIndices, SetNumIndices", "src/motive/math/bulk_spline_evaluator.cpp: MoveIndices, SetNumIndices", "include/motive/util/index_allocator.h: Defragment"]}
{"id": "C92", "title": "A fresh motivator is independent of earlier users of its index", "statement": "After a motivator is created its data depend on its initialization parameters only, not on a motivator that used the same indices before, and no other index changes.", "quantifier": "all previous contents, all initialization parameters, all blocks", "why_tests_cant": "depends on the leftovers of any earlier use of the index", "anchors": ["include/motive/simple_processor_template.h: InitializeIndices", "src/motive/processor/matrix_processor.cpp: InitializeIndices", "src/motive/processor/sqt_processor.cpp: InitializeIndices", "src/motive/processor/spline_processor.cpp: InitializeIndices, RemoveIndices"]}
{"id": "C93", "title": "Setting targets of overshoot motivators", "statement": "Setting a target on an overshoot motivator changes the current value and velocity exactly when the target says what they are now, changes the value moved towards to the target's value, and leaves the initialization parameters alone; of several targets the last is the one that is reached.", "quantifier": "all states of the motivator, values, velocities and times", "why_tests_cant": "all states and all target functions", "anchors": ["src/motive/processor/overshoot_processor.cpp: SetTargets", "include/motive/target.h: Current1f, Target1f, CurrentToTarget1f, TargetToTarget1f"]}
{"id": "C94", "title": "The converter's command line", "statement": "ParseAnimPipelineArgs accepts a command line exactly if its last word is a file name and the words before it are the switches of the usage text with values in their documented ranges; then each switch does what the usage text says, in order, and nothing else changes from the defaults.", "quantifier": "all command lines, all switches in any order and number", "why_tests_cant": "all sequences of switches, valid and invalid, of any length", "anchors": ["src/anim_pipeline/anim_pipeline_main.cpp: ParseAnimPipelineArgs, LogUsage", "src/anim_pipeline/anim_pipeline.cpp: AnimPipelineArgs, Tolerances"]}
{"id": "C95", "title": "The transform of an FBX node", "statement": "The channels that GatherFlatAnimForNode exports for a node, played by the runtime, give the transform that FBX defines for the node (translation, rotation offset and pivot, pre, local and post rotation, scaling offset and pivot, scaling, with the pivots undone), for amounts of the parts that are within the tolerances of the constants and the recorded curves; for every rotation order.", "quantifier": "all nodes, property values, rotation orders, tolerances and times", "why_tests_cant": "33 real-valued channels, any subset of them constant, default or animated, pruned and merged in any combination", "anchors": ["src/anim_pipeline/anim_pipeline.cpp: GatherFlatAnimForNode, ChannelOrder, kRotationOrderToChannelOrder", "src/anim_pipeline/anim_data.cpp: PruneChannels"]}
{"id": "C96", "title": "Constant channels of FBX nodes", "statement": "AnimConst reports a channel as constant exactly if no curve drives it or the curve stays within the tolerance of the first key; the value is that of the first key.", "quantifier": "all curves, with any number of keys, values, slopes and tolerances", "why_tests_cant": "arbitrarily many keys with real values", "anchors": ["src/anim_pipeline/anim_pipeline.cpp: AnimConst"]}
{"id": "C97", "title": "Curves of FBX nodes", "statement": "GatherFlatAnimCurve records every key interval that has a time in common with the span: sixteen samples from the later start to the earlier end, the first and the last of them as nodes and the others within the tolerance of the nodes' cubics. Nodes are in the order of their times and within the span. Every curve that is not constant is exported.", "quantifier": "all curves with keys in order, all spans and tolerances", "why_tests_cant": "arbitrarily many intervals, cut by the span in every way, with real samples", "anchors": ["src/anim_pipeline/anim_pipeline.cpp: GatherFlatAnimCurve", "src/anim_pipeline/anim_data.cpp: AddCurve, PruneNodes"]}
{"id": "C98", "title": "Blending an operation starts where it is", "statement": "When BlendToOp or BlendToDefault makes an operation go somewhere else, its value and velocity just after the call are those just before; it moves to its new place within the blend time.", "quantifier": "all operations, new operations, playbacks and classes of motivators that keep their current state when given a later target", "why_tests_cant": "all states, targets and classes of motivators", "anchors": ["include/motive/matrix_op.h: BlendToOp, BlendToDefault"]}
{"id": "C99", "title": "The ways to describe an animation table agree", "statement": "InitFromFlatBuffers and InitFromAnimFileNames load the same table from the same names, whether given as a vector, a vector of vectors, anim_files or anims; each list is one object; an entry is loaded if it is given; with embedded animations only, load_fn is not called.", "quantifier": "all tables, lists, names and load functions", "why_tests_cant": "unboundedly many tables and lists", "anchors": ["src/motive/anim_table.cpp: describers, InitFromFlatBuffers, InitFromAnimFileNames", "include/motive/anim_table.h", "schemas/anim_list.fbs"]}
{"id": "C100", "title": "Rig animations are built with parents first", "statement": "After Init and any InitMatrixAnim calls, every bone is as its last call said; a call succeeds exactly when the bone exists and its parent is an earlier bone or none; so in a fully built animation parents come before children.", "quantifier": "all numbers of bones and all sequences of calls", "why_tests_cant": "unboundedly many call sequences", "anchors": ["src/motive/rig_anim.cpp: Init, InitMatrixAnim"]}
{"id": "C101", "title": "Setting the playback rate or repetition reaches everything that plays", "statement": "Setting the playback rate, or whether to repeat, on a matrix, SQT or rig motivator sets it on every motivator that drives an operation of every bone of every animation, and changes nothing else; SetPlaybackRates sets each animation's bones to that animation's rate; afterwards the remaining time is that of the new setting.", "quantifier": "all rigs, numbers of animations and bones, operations with or without motivators, rates", "why_tests_cant": "unboundedly many combinations of bones, animations and operations", "anchors": ["src/motive/processor/rig_data.h: SetPlaybackRate, SetPlaybackRates, SetRepeating, TimeRemaining", "src/motive/processor/matrix_data.h: SetPlaybackRate, SetRepeating", "src/motive/processor/sqt_data.h: SetPlaybackRate, SetRepeating", "include/motive/matrix_op.h: SetPlaybackRate, SetRepeating"]}
{"id": "C102", "title": "Resampling a spline", "statement": "InitFromSpline on any well-formed spline succeeds; every node it makes is, up to the resolution of a node, the point and slope of the source at one of the evenly spaced positions from its start to its end; and when those positions are at least one grain apart there is exactly one node for each.", "quantifier": "all well-formed source splines, capacities, ranges and granularities", "why_tests_cant": "real-valued splines and unboundedly many shapes", "anchors": ["src/motive/math/compact_spline.cpp: InitFromSpline, AddNode", "src/motive/math/bulk_spline_evaluator.cpp: BulkEvaluate"]}
{"id": "C103", "title": "Pruning the channels of a bone again changes nothing", "statement": "After the redundant channels of a bone have been pruned (scales collapsed, translations summed, defaults removed, channels sorted), pruning the bone a second time leaves it as it is; so gathering one node of a scene after another never disturbs bones that are already done.", "quantifier": "all bones whose channels have ids and operations in the order FBX nodes produce, all tolerances, both settings of uniform scale", "why_tests_cant": "unboundedly many channels and real keyframe values; a failure would only show for particular near-equal values", "anchors": ["src/anim_pipeline/anim_data.cpp: PruneChannels", "src/anim_pipeline/anim_pipeline.cpp: GatherFlatAnimRecursive"]}
{"id": "C104", "title": "Gathering a scene", "statement": "Gathering the animation of a scene gives one bone per node that is, or has below it, a skeleton or mesh node, with its name and parent; each bone gets exactly the channels its node would get if it were exported alone, except that with root bones only, bones below an animated bone get none; an animated scene is gathered if its curves have their keys in order and meet the span, and its channels then have nodes in the order of their times within the span; a scene that is not animated is always gathered, and each bone then plays the FBX transform of its node up to the tolerances.", "quantifier": "all scene trees, properties, curves, tolerances and settings", "why_tests_cant": "arbitrary trees and real-valued properties", "anchors": ["src/anim_pipeline/anim_pipeline.cpp: GatherFlatAnim, GatherBonesRecursive, AddBoneForNode, GatherFlatAnimRecursive"]}
{"id": "C105", "title": "A run of the converter", "statement": "A run of the converter that writes a file returns 0 and the file holds the gathered and time-adjusted scene; otherwise it returns nonzero unless it was only asked to dump the scene. The time adjustment shifts all curves by one amount so that the earliest starts at 0 and extends all curves to one end, as the arguments say. A scene that is not animated, of at most 254 bones, is converted to a file that loads, with the same names and parents, and whose constant operations make up the FBX transforms of the nodes up to the tolerances. An animated scene of at most 254 bones, with curves that can be read and at most 2000 keys per node, is converted to a file that loads with the same names and parents and the keyframes gathered, and a rig that plays the file shows every bone where its channels and those of its ancestors put it.", "quantifier": "all arguments, scenes and curves with times below 2^30 ms", "why_tests_cant": "arbitrary scenes and real-valued properties through the whole chain of export and load", "anchors": ["src/anim_pipeline/anim_pipeline.cpp: RunAnimPipeline", "src/anim_pipeline/flat_anim.cpp: OutputFlatBuffer, CreateFlatBuffer", "src/anim_pipeline/anim_data.cpp: ShiftTime, ExtendChannelsToTime", "src/motive/io/flatbuffers.cpp: RigAnimFromFlatBuffers"]}
{"id": "C106", "title": "Clones show what their originals show", "statement": "A clone of a spline motivator is in the state of its original, whatever room its spline has: value, velocity, target, playback rate; and goes on to show what the original would show under the same frames, whatever is done to other motivators. A clone of a matrix or SQT motivator driven by splines shows the matrix and remaining time of its original through any sequence of frames and blends. Cloning succeeds exactly if everything that is to be cloned follows a spline for which the clone has room.", "quantifier": "all states of the evaluator, all sequences of operations and frames, all matrices, all blends", "why_tests_cant": "unboundedly long runs from arbitrary states", "anchors": ["src/motive/processor/spline_processor.cpp: CloneIndices", "include/motive/math/compact_spline.h: operator=", "include/motive/matrix_op.h: operator=", "src/motive/processor/matrix_processor.cpp: CloneIndices", "src/motive/processor/sqt_processor.cpp: CloneIndices", "include/motive/math/bulk_spline_evaluator.h: CopyIndices"]}
{"id": "C107", "title": "Matrices animated by splines show the operations at the values of the splines", "statement": "A matrix motivator that is made of, or had no operations and is blended at once to, operations that are constants or splines plays over any frames without failing; after every frame its matrix is the product of the elementary matrices of its operations, each at its constant or at the value of its spline at the time played so far (times the rate, wrapped if it repeats), scaled and offset as the playback says. For SQT motivators the same with scale, normalised rotation and translation, as long as the quaternion has a direction.", "quantifier": "all lists of operations, splines, playbacks and sequences of frames", "why_tests_cant": "arbitrary splines and frame times over unbounded runs through two processors", "anchors": ["src/motive/processor/matrix_processor.cpp: AdvanceFrame, InitializeIndices", "src/motive/processor/sqt_processor.cpp: AdvanceFrame", "include/motive/matrix_op.h: MatrixOperation::BlendToOp", "src/motive/processor/spline_processor.cpp: AdvanceFrame, SetSplines"]}
{"id": "C108", "title": "Rigs play their animations", "statement": "A new rig that is blended at once to an animation with its hierarchy plays over any frames without failing; after every frame each bone's global transform is the product, along its ancestors, of the transforms that their animations show at the time played so far (C107), with the root motion bone's transform reported apart.", "quantifier": "all rigs, animations of constants and splines, playbacks and sequences of frames", "why_tests_cant": "arbitrary hierarchies and splines over unbounded runs through three processors", "anchors": ["src/motive/processor/rig_processor.cpp: AdvanceFrame", "src/motive/processor/rig_data.h: RigData, BlendToAnim, UpdateGlobalTransforms", "src/motive/processor/matrix_processor.cpp: AdvanceFrame", "src/motive/processor/spline_processor.cpp: AdvanceFrame"]}
{"id": "C109", "title": "Vector motivators move coordinate by coordinate", "statement": "After any sequence of calls (initialise, remove, SetTargets, SetSplines, SetSplinesAndTargets, SetSplineTime, SetSplinePlaybackRate, SetSplineRepeating, AdvanceFrame) about any spline motivators of any dimensions, every coordinate of every motivator is in the state that a motivator of one dimension reaches that is given the coordinates of those calls alone; what a motivator of n dimensions shows (value, velocity, direction, target value, target velocity, difference) is the vector of what those n show. If those calls on one dimension all succeed, and the calls on the vectors name indices that exist and give a target for every spline, the calls on the vectors succeed too.", "quantifier": "all sequences of calls, evaluator states, indices, dimensions, targets, splines, playbacks and frame times", "why_tests_cant": "unbounded interleavings of calls on arbitrarily many motivators, with any dimensions", "anchors": ["include/motive/vector_motivator.h: MotivatorNf, MotivatorXfTemplate", "src/motive/processor/spline_processor.cpp: SetTargets, SetSplines, SetSplinesAndTargets", "include/motive/math/bulk_spline_evaluator.h: Derivatives, EndYs"]}
{"id": "C110", "title": "Exported animations play as their keyframes", "statement": "A skeleton with keyframed channels that is exported to a file, loaded, and played on a rig made for it, shows after every sequence of frames each bone as the product of its ancestors' and its own operations, each at the constant of its channel or at the value, at the playback's position, of a spline for the channel's keyframes. Such a spline has each keyframe's value, up to a 65535th of the spread of the channel's values, at a time within half a 65535th of the channel's length of the keyframe's time; at a first keyframe at 0 and at the last keyframe, at that very time.", "quantifier": "all skeletons of at most 254 bones, channel lists, keyframes, playbacks, start times and sequences of frame times", "why_tests_cant": "any skeleton, keyframes and frames; the error bound is over all reals", "anchors": ["src/anim_pipeline/flat_anim.cpp: CreateFlatBuffer", "src/motive/io/flatbuffers.cpp: RigAnimFromFlatBuffers", "src/motive/processor/rig_processor.cpp: BlendToAnim, AdvanceFrame", "src/motive/math/compact_spline.cpp: AddNode"]}
{"id": "C111", "title": "Animations cross-fade", "statement": "A matrix, SQT transform or rig whose operations are constants or follow splines, blended over a positive time to other such operations, does not fail. Right after the call every operation that has a motivator is where it was, up to the precision of a spline, and one that goes over to a spline keeps its speed times the new rate; a constant goes to a new constant at once. After every frame the transform is that of the operations' values; once the blend's time is over each operation shows the new animation, or is at its default if that has none for it. The state reached can be blended again. The quaternion of an SQT transform is turned to its negative first if the new one lies on the other side.", "quantifier": "all operations, states that follow splines, playbacks with blend times of at least one tick, and sequences of frames; all rigs with such bones", "why_tests_cant": "any splines, any moment of interruption, any chain of blends and frames", "anchors": ["src/motive/processor/matrix_data.h: BlendToOps", "src/motive/processor/sqt_data.h: BlendToOps, AlignQuaternionOps", "src/motive/processor/rig_data.h: BlendToAnim", "include/motive/matrix_op.h: BlendToOp", "src/motive/math/bulk_spline_evaluator.cpp: BlendToSpline"]}
{"id": "C112", "title": "TimeRemaining of what plays splines", "statement": "While a matrix, SQT or rig motivator plays an animation of constants and splines, TimeRemaining succeeds after any frames and is the latest of 0 and, for each spline, the distance from the position played so far (times the rate, wrapped if it repeats) to the spline's end, truncated to an int; constants count as 0. For a matrix whose animation does not repeat: once that many units of the animation and one more have been played, every operation is at the end of its spline.", "quantifier": "all lists of operations, splines, playbacks and sequences of frames; all rigs with such bones", "why_tests_cant": "arbitrary splines, rates, frame times and hierarchies", "anchors": ["src/motive/processor/matrix_data.h: TimeRemaining", "src/motive/processor/sqt_data.h: TimeRemaining", "src/motive/processor/rig_data.h: TimeRemaining", "include/motive/matrix_op.h: TimeRemaining", "src/motive/processor/spline_processor.cpp: TargetTime"]}
{"id": "C113", "title": "A whole frame of the engine", "statement": "In any engine whose processor types have been registered with the library's own functions, in whatever order processors were registered and handed out, AdvanceFrame advances each processor handed out exactly once and leaves the others as they are; afterwards every matrix is the product of its operations' elementary matrices, and every SQT transform made of its operations, at the values that the scalar motivators they refer to show at the end of that same frame, and every rig's global transforms are the products along the hierarchy of the matrices its bones show at the end of that same frame. Over any sequence of frames, a matrix, SQT transform or rig that is animated by spline motivators goes through the same states as on its own (C107, C108); the engine's frames succeed if the single ones do; a rig that has started an animation shows it after the engine's frames.", "quantifier": "all histories of registrations and processor look-ups without Reset, all states of all processors with arbitrary references, all frame times and sequences of frames", "why_tests_cant": "any creation order and any web of references between processors", "anchors": ["src/motive/engine.cpp: AdvanceFrame, Processor", "src/motive/processor/spline_processor.cpp: Priority, AdvanceFrame", "src/motive/processor/matrix_processor.cpp: Priority, AdvanceFrame", "src/motive/processor/sqt_processor.cpp: Priority, AdvanceFrame", "src/motive/processor/rig_processor.cpp: Priority, AdvanceFrame"]}
{"id": "C114", "title": "Angles in single precision", "statement": "With every float operation rounded to nearest single, however ties are broken: IsAngleInRange accepts exactly the singles in (-pi, pi] (pi being kPi); FromWithinThreePi on (-3pi, 3pi), +, -, negation, Abs and Clamp of valid angles fail no assert and return valid angles that are congruent to the mathematical result modulo kTwoPi, FromWithinThreePi and negation exactly and the others with an error of at most 2^-22 per addition; FromRadians, FromDegrees and scaling return a valid angle for every float; ToDegrees is in (-180, 180]; Clamp returns the angle itself when it does not clamp.", "quantifier": "all single precision inputs, all roundings to nearest; floor returning float or double", "why_tests_cant": "2^32 inputs per operand; the failures are at isolated inputs", "anchors": ["include/motive/math/angle.h: kMinUniqueAngle, IsAngleInRange, ModWithinThreePi, ModIfNegativePi, WrapAngle, operator+, operator-, Clamp, FromRadians, ToDegrees"]}
{"id": "C115", "title": "Modular ranges in single precision", "statement": "With every float operation rounded to nearest single: Normalize of a value within a length of the bounds, NormalizeCloseValue and NormalizeWildValue of any value fail no assert and return a value in (start, end] that differs from the input by a whole number of lengths, up to the rounding of the last operations; on ranges (-h, h] Normalize is exact.", "quantifier": "all singles, all ranges of singles, all roundings to nearest", "why_tests_cant": "the failures need values of very different magnitude", "anchors": ["include/motive/math/range.h: Length, ModularAdjustment, Normalize, NormalizeCloseValue, NormalizeWildValue"]}
{"id": "C116", "title": "Quantised nodes in single precision", "statement": "With every float operation rounded to nearest single: quantising the x, or the y, that a stored node reports gives the same node back, for every granularity and range; an x up to 65535 granularities is accepted and stored with an error of little more than half a granularity.", "quantifier": "all 16-bit node values, all granularities and ranges of singles not smaller than 2^-100, all roundings to nearest", "why_tests_cant": "all granularities and ranges", "anchors": ["include/motive/math/compact_spline_node.h: X, Y, QuantizeX, CompactX, CompactY"]}
{"id": "C117", "title": "Overshoot motivators in single precision", "statement": "With every float operation of AdvanceFrame rounded to nearest single: a simulation on a circle (-h, h] with moves of less than a whole turn never fails an assert of Normalize, over any frames, and keeps its value on the circle, its speed within max_velocity and its target; each step stops on the target or moves by at most max_delta, up to one rounding and whole turns; at rest on its target it doesn't drift; SetTargets with a value, target and velocity within the limits keeps this; on a range that isn't modular the value stays in the range. Moves of a whole turn can fail the assert, although they can't with exact arithmetic.", "quantifier": "all circles and parameters that are singles, all states, all sequences of frame times, all roundings to nearest", "why_tests_cant": "all parameters and runs; the failure needs a value one unit in the last place away from the end of the circle", "anchors": ["src/motive/processor/overshoot_processor.cpp: AdvanceFrame, CalculateVelocity, CalculateValue, SetTargets", "include/motive/overshoot_init.h: ClampVelocity, ClampDelta, AtTarget"]}
{"id": "C118", "title": "Cubic curves in single precision", "statement": "With every float operation rounded to nearest single: a CubicCurve made by Init from two values, two slopes and a width between 2^-20 and 2^20 evaluates, over its whole width, to within 2^-17 of the size of its data (|start| + |end| + width * (|slope| + |slope|)) of the exact cubic, and its derivative to within 2^-16 of that size over the width; also after ScaleUp and ShiftUp, with the size scaled and shifted; up to two widths from its start on either side (widths up to 2^19) the value is within 2^-14 of that size; it starts exactly at its start value and slope; so where the segments of a spline meet, value and slope jump by at most these bounds; a curve between equal values without slopes is exactly constant. The end is not met exactly: the flat curve from 0 to 1 over a width of 13 ends at 1 + 2^-23.", "quantifier": "all values, slopes, widths from 2^-20 to 2^20 and positions, the size taken as 2^-20 where it is smaller, all scales and offsets, all roundings to nearest", "why_tests_cant": "all curves and positions: a bound on the accumulated rounding of about thirty operations; sampled curves come nowhere near the worst case", "anchors": ["src/motive/math/curve.cpp: CubicCurve::Init", "include/motive/math/curve.h: CubicCurve::Evaluate, Derivative, ScaleUp, ShiftUp", "src/motive/math/bulk_spline_evaluator.cpp: InitCubic"]}
{"id": "C119", "title": "Playing splines in single precision", "statement": "With every float operation rounded to nearest single: while a spline whose granularity is a power of two plays from a position on its grid by steps (frame time times rate) on its grid, SetSplines and AdvanceFrame succeed and X is exactly the start plus the sum of the steps, wrapped if it repeats, after any number of frames; Y and Derivative stay within the bounds of C118 of the exact cubic of the segment that holds X, whatever happened before, and before and after the spline Y is the scaled and shifted value of its end node. Off the grid this fails: a rate of 0.1f drifts with every frame, and a spline of 65535 * 512 ticks played at half a tick per frame never reaches its end.", "quantifier": "all splines with a granularity from 2^-100 to 2^100 (for Y and Derivative 2^-20 to 2^4), start positions up to 2^22 grains, sequences of frames of whole grains, for repeating splines without limit; all roundings to nearest", "why_tests_cant": "runs of any length; a test can't tell no drift from little drift, nor see that a spline of nine hours never ends", "anchors": ["src/motive/math/bulk_spline_evaluator.cpp: SetSplines, InitCubic, UpdateCubicXs_OneStep, AdvanceFrame, EvaluateIndex", "src/motive/math/compact_spline.cpp: IndexForX, IndexForXAllowingRepeat, CreateCubicInit", "include/motive/math/bulk_spline_evaluator.h: X, Y, Derivative"]}
{"id": "C120", "title": "Any spline in single precision", "statement": "With every float operation rounded to nearest single, for a spline of any granularity that lies within 2^(k-1) with a granularity of at least 2^(k-21), played forwards in any steps: SetSplines and AdvanceFrame succeed; while it plays once, X after N frames is within (N+1) * 2^(k-23) of the start plus the sum of the steps; while it repeats, X is within (N+1) * 2^(k-21) of that sum less a whole number of spline lengths, and never leaves the spline by more than a grain; and in both cases, however many frames were played, Y and Derivative are those of the exact cubic of the segment that holds X, to within 2^-14 of the size of its data, so errors of position do not add up to errors of value at a position.", "quantifier": "all splines, start positions and sequences of forward frames (up to 2^21 frames when not repeating, steps up to three spline lengths when repeating); for Y and Derivative granularities from 2^-20 to 2^3; all roundings to nearest", "why_tests_cant": "runs of any length with any steps: the bound grows with the number of frames, and the worst case needs every rounding to go the same way", "anchors": ["src/motive/math/bulk_spline_evaluator.cpp: SetSplines, InitCubic, UpdateCubicXs_OneStep, AdvanceFrame, EvaluateIndex", "src/motive/math/compact_spline.cpp: IndexForX, IndexForXAllowingRepeat, CreateCubicInit", "include/motive/math/compact_spline.h: RecommendXGranularity"]}
{"id": "C121", "title": "Children of matrix motivators", "statement": "NumChildren is the number of operations the matrix or SQT motivator has, one for each id of the operations it was initialised with or blended to, in order of id; ChildValue1f(i) is the value that operation i contributes to the matrix from the next update on; SetChildValues changes exactly the named operations, which must be constants, to exactly the given values, and fails on an animated one; SetChildTarget1f gives the target to exactly the one named operation, which must be animated, and fails on a constant; no setter touches ids, types, the number of children or the matrix itself. NumChildren is documented to equal the number of operations of the initialiser, which fails after BlendToOps.", "quantifier": "all lists of operations, child indices, values and targets; all scalar motivator types", "why_tests_cant": "every mixture of constant and animated operations, and every index, including those whose child has the wrong kind", "anchors": ["include/motive/matrix_motivator.h: NumChildren, ChildValue1f, ChildValue3f, SetChildTarget1f, SetChildValue1f, SetChildValue3f", "src/motive/processor/matrix_processor.cpp: SetChildTarget1f, SetChildValues", "src/motive/processor/sqt_processor.cpp: SetChildTarget1f, SetChildValues"]}
{"id": "C122", "title": "Debugging reports of rigs", "statement": "CsvHeaderForDebugging has a column for each operation of each bone of the defining animation, named after the bone in its first column and after the operation; while every bone has as many children as the defining animation has operations for it, as is the case once a new rig has started an animation with that many operations, CsvValuesForDebugging has the same columns, shows the time since the start of the animation, and under each heading the value of that child, rotations in degrees; LocalTransformsForDebugging lists the bones from the given one up to the root with their names, matrices and the operations of the current animation. Neither holds for every animation that fits the rig: the values may be written past the end of the array or appear under another bone, and after a second blend an operation is reported with another one's value; both reports fail before the first BlendToAnim.", "quantifier": "all defining animations of up to 254 bones, played animations, times and bones", "why_tests_cant": "depends on how many operations each bone has in two animations; agreement on a few rigs says nothing about the others", "anchors": ["src/motive/processor/rig_data.h: ChildValuesForDebugging, CsvHeaderForDebugging, CsvValuesForDebugging, LocalTransformsForDebugging", "src/motive/rig_anim.cpp: CsvHeaderForDebugging", "include/motive/rig_anim.h: BoneName"]}
{"id": "C123", "title": "Blending in single precision", "statement": "With every float operation rounded to nearest single, SetSplines with a blend time, followed by any frames that stay within the blend, shows the cubic from the value and slope shown before to the value and slope of the new spline at the end of the blend, to within 2^-14 * (1 + s/w)^3 of the size of these data, where w is the length of the blend and s how far into one of its segments the new spline is started. Started at a node (s = 0), the value is kept exactly and the slope is the one shown before times the new playback rate. The growth with s is real: a blend of 128 ticks from the constant 0 to the constant 1, started 65000 ticks into a segment, shows -32 at once.", "quantifier": "all splines, playbacks, earlier states without a modular range and sequences of forward frames; blends of at least 2^-20 that end within 2^20 of the start of the segment; all roundings to nearest", "why_tests_cant": "the error depends on where in a segment the blend starts; blends from the start of a spline, as tests make them, are exact at once", "anchors": ["src/motive/math/bulk_spline_evaluator.cpp: CalculateBlendInit, BlendToSpline, SetSplines, AdvanceFrame", "src/motive/math/curve.cpp: ShiftLeft", "include/motive/math/curve.h: ShiftRight"]}
{"id": "C124", "title": "Motivators initialised from files", "statement": "OvershootInitFromFlatBuffers gives a motivator that obeys the limits in the file, if these include 0 and max_delta_time is positive (and, if modular, lie around 0 with max_delta at most half a turn): whatever targets within the limits are set and whatever frames pass, with float operations rounded, no call fails, the value stays between min and max (wrapped into them if modular), and the velocity within max_velocity. SplineInitFromFlatBuffers makes the motivator modular exactly when the file says so and min is not above max. A file without base or at_target cannot be read, one with max_delta_time of 0 or less makes AdvanceFrame endless, and one that leaves min and max out does not mean no limits, as it does for OvershootInit: the value never leaves 0, though the velocity is not 0.", "quantifier": "all parameters, sequences of SetTarget calls and frames; all roundings to nearest", "why_tests_cant": "all parameter files, and histories of any length", "anchors": ["src/motive/io/flatbuffers.cpp: OvershootInitFromFlatBuffers, SplineInitFromFlatBuffers, Settled1fFromFlatBuffers", "schemas/motive.fbs: OvershootParameters, ModularParameters", "src/motive/processor/overshoot_processor.cpp: AdvanceFrame, CalculateVelocity, CalculateValue"]}
{"id": "C125", "title": "The NEON assembly agrees with the C++ loops", "statement": "UpdateCubicXsAndGetMask_Neon and EvaluateCubics_Neon can be called as bulk_spline_evaluator.cpp declares them, give every index what UpdateCubicXsAndGetMask_C and EvaluateCubics_C give it, with the same rounding, change no other memory, restore the registers that a function must restore, and return. (True is: with arguments in the registers that the assembly's comments name, and arrays padded to multiples of four, the first does; the second does for four indices, and gives index i the curve of index i mod 4 otherwise. As declared in C++ the calls fault. Floats behind the arrays are changed, and r4, r5, r10 are not restored.)", "quantifier": "all contents of memory and registers, numbers of indices, roundings", "why_tests_cant": "needs ARM hardware and a special build; and all array lengths, contents and roundings", "anchors": ["src/motive/math/bulk_spline_evaluator_neon.s: UpdateCubicXsAndGetMask_Neon, EvaluateCubics_Neon", "src/motive/math/bulk_spline_evaluator.cpp: UpdateCubicXsAndGetMask, EvaluateCubics and the extern declarations"]}
{"id": "C126", "title": "Weights of rigs in single precision", "statement": "In IEEE single precision arithmetic: the weights that MotiveEngine keeps for the animations of a rig after BlendToAnims or SetWeights are between 0 and 1, exactly 0 for an animation given the weight 0, exactly 1 for a single animation, in the order of the weights given, and their sum is within n 2^-23 of 1 for n animations; each coordinate of the position and scale of a blended bone is the mean of the animations' coordinates weighted by the weights given, up to n 2^-20 of the largest coordinate, so that a bone with the same position in all animations stays where it is up to that much. The comment that the weights 'sum to 1' is not exact, nor is the position of such a bone kept exactly.", "quantifier": "all finite lists of non-negative single precision weights with positive total (any number of animations for the weights, up to 2^20 for the mean), all coordinates, all roundings to nearest", "why_tests_cant": "The error grows with the number of animations and depends on all the bits of the weights; a test tries a few weights, mostly powers of two, for which the result is exact.", "anchors": ["src/motive/processor/rig_data.h:89-163", "src/motive/processor/rig_data.h:187-201", "src/motive/processor/rig_data.h:396-455"]}
{"id": "C127", "title": "Statistics of the benchmarks", "statement": "Compiled with BENCHMARK_MOTIVE: RegisterBenchmark returns an id not in use, and the samples of that id are exactly the times recorded for it since they were last cleared, whatever else happens; a time is recorded only for a registered id; OutputBenchmarks never fails and reports, in order, the benchmarks with samples. Average is the mean rounded to a nearest integer and lies among the samples, StandardDeviation the rounded root of the rounded mean of the squared differences although differences wrap around, MinMax the least and greatest sample; every sample is counted in the bucket of its place between them, and the histogram is drawn with every column scaled to the bucket with the most samples. The first two hold only while the sums fit 64 bits, the counts only modulo 2^16, the buckets only while a product fits, and the scale leaves out the first bucket.", "quantifier": "all lists of 64 bit samples, all numbers of buckets, all heights and widths, all sequences of registering, recording and clearing", "why_tests_cant": "The failures need sums past 2^64, 65536 samples or a distribution concentrated in the first bucket; that differences may wrap is seen to be harmless only for all values.", "anchors": ["src/motive/util/benchmark.cpp:67-177", "src/motive/util/benchmark.cpp:180-218"]}
{"id": "C128", "title": "Settled and Twitch", "statement": "Settled1f::Settled of a motivator is true exactly if in every dimension the difference to the target and the velocity are within the thresholds. Twitch gives a settled motivator the velocity asked for, in the direction asked for, and changes nothing else: not its value, not its target, not other motivators, and nothing at all for kTwitchDirectionNone or a motivator that is not settled. The target stays whatever frames follow, and a boosted overshoot motivator that has stopped is exactly at its target; its first step goes in the direction of the boost unless the boost is within the motivator's own thresholds. False of the code: overshoot motivators at indices other than 0 (Difference uses the value at index 0), that every boosted motivator settles back, and that a spline motivator is boosted (it stays where it is).", "quantifier": "all thresholds, velocities, directions, processor states and sequences of frames", "why_tests_cant": "Tests boost the only motivator of a processor, for a few parameters and frames; the failures need a second motivator or a parameter set that oscillates for ever.", "anchors": ["include/motive/util.h:52-110", "src/motive/processor/overshoot_processor.cpp:74-110"]}
{"id": "C129", "title": "The linear processor of the samples", "statement": "A motivator of the sample's linear processor that has been given a target and a time is, after frames that take no more than that time in total, on the straight line from where it was to its target, however the time is cut into frames; its velocity is the slope of the line, its target time what remains. Once the time has passed by the end of a frame it is at its target after the next frame and stays there. SetTargets takes the value from a first node at time 0 and the target from the first later node among the first two, and changes no other motivator; frames act on each motivator by itself; a motivator without a target stays at 0. The sample's program plots exactly the points of the line. False of the code: that the motivator never passes its target (a frame longer than the remaining time takes it beyond, without bound), that a value set on a motivator at rest lasts (the next frame moves it back to the old target), and that TargetTime is the longest over the dimensions (it is the first's).", "quantifier": "all values, targets, times, numbers of motivators and sequences of frames", "why_tests_cant": "The sample runs one motivator of one dimension with frames of length one; overshooting needs a frame that does not divide the time, the wrong target time needs two dimensions.", "anchors": ["src/samples/linear_processor/linear_processor.cpp:51-259"]}
{"id": "C130", "title": "The linear processor in single precision", "statement": "With every float operation rounded to nearest: for whole times up to 2^24 the remaining time of the sample's linear processor counts down without error; after n frames the value is within 6 n units of the last place of the straight line from start to target; and when frames have taken exactly the target time, the value is the target itself, with no rounding error left, and stays so. False of the code: that a motivator which is at its target already stays exactly there while its time runs.", "quantifier": "every rounding to nearest (ties in any way), all values and targets up to a power of two, all times up to 2^24 and sequences of frames", "why_tests_cant": "The sample runs one motivator for a hundred frames and looks at a plot; error growth over millions of frames and exact equality at the end for every start cannot be sampled.", "anchors": ["src/samples/linear_processor/linear_processor.cpp:58-75"]}
{"id": "C131", "title": "Building animation data call by call", "statement": "AllocBone, SetCurBoneIndex, ResetCurBoneIndex, AllocChannel and AddConstant, called in any order, run without a failed assertion or an access outside an array exactly if bones are made current only while none is and if they exist, channels are allocated only while a bone is current, and constants are given only to channels of the current bone. The data then has the allocated bones in order, each with the channels that were allocated while it was current, each with the last constant given to it or no node. AllocBone and AllocChannel return the number of bones and of the bone's channels before the call, and ShouldRecurse answers whether all bones are wanted or the bone has no channels.", "quantifier": "all finite sequences of calls with all arguments, all tolerances", "why_tests_cant": "Unbounded interleavings of calls; the tests of the repository do not cover the pipeline.", "anchors": ["src/anim_pipeline/anim_data.cpp:18-56", "src/anim_pipeline/anim_data.h: AllocBone, SetCurBoneIndex, ResetCurBoneIndex, AllocChannel, AddConstant, ShouldRecurse"]}
{"id": "C132", "title": "Drawing points with characters", "statement": "Graph2DPoints draws one line for each row from size.y down to 0, and a character is a star exactly if a point is next to its cell, all others being the axis, the line of zero or blanks, provided that memory after the last point may be read and holds no cell of a point. A curve that GraphCurveOnXRange draws has one star in each column up to the width, in the row next to its value there, and no others. False of the code: that it reads its points only (it always reads the one past the last, for all points and sizes), that samples of a constant can be drawn (a division by zero, and the conversion of its result to an int), and that the line of zero is the row of the points of height zero.", "quantifier": "all non-empty lists of points, all sizes from 2 up", "why_tests_cant": "Tests print graphs for people to look at; an undefined read past the end of a vector goes unnoticed in most runs, and the pixels of all sets of points can't be enumerated.", "anchors": ["src/motive/math/curve.cpp:364-449 (Graph2DPoints)", "include/motive/math/curve.h:477-495 (GraphCurveOnXRange)"]}
{"id": "C133", "title": "The tool that writes a defining animation", "statement": "The program returns -1 and writes nothing when it has fewer than two arguments. With inputs that can be read and loaded and whose operations with the same bone and id have the same type, it returns 0. When it returns 0, it has read every input that has a name, has written at most its output, and has written that if it can be written: an animation with as many bones as the largest input, with the parents and names of one such input, and on each bone, in the order of ids, an empty spline for each operation that drives this bone in some input, with the type that it has there. False of the code: that an input that cannot be read is reported (the empty string is read as a FlatBuffer instead, for every such input), and that an output that cannot be written is reported (the program returns 0).", "quantifier": "all argument lists with up to 256 inputs, all file systems, all contents of files", "why_tests_cant": "The repository has no test of the program; the sets of input files and their contents are unbounded, and unreadable inputs lead to undefined behaviour that a run may hide.", "anchors": ["src/anim_pipeline/defining_anim_pipeline.cpp:25-131", "src/motive/anim_table.cpp:185-260", "src/motive/anim_table.cpp:271-379"]}
{"id": "C134", "title": "The splines of the benchmark program", "statement": "CreateSpline makes a spline whose y range is the least for the scaled values, with its nodes in order and no more than fit. Every given node that is more than a grain from the others is in it, its x within half a grain and its y within a rung of the scaled ones, and its slope that of the node divided by the scale of x. It ends exactly at the scaled x of the last node, which is the last of its 65536 grains. False of the code: that the slopes are those of the scaled curve, since y is scaled and the slope is not multiplied by that scale.", "quantifier": "all lists of nodes with x not negative, all positive scales of x, all scales of y, all capacities", "why_tests_cant": "The program only measures time and never looks at the values, so no run shows that slopes do not belong to the curve.", "anchors": ["src/benchmarker/benchmarker.cpp:66-89", "src/motive/math/compact_spline.cpp:122-177"]}
