# Formal model of Simox: design

## Layout

For each modelled part `X` of the code there are up to four files in `rocq/theories/`:

* `XModel.v`: total Gallina functions, one per C++ function, each with a comment citing the file and
  lines it models and every simplification.
* `XSpec.v`: the independent vocabulary used in the statements (no reference to helpers of the model).
* `XProofs.v`: lemmas.
* `XProps.v`: only the property theorems, each closed by `exact`, with `Print Assumptions` below and
  an `Example` showing a concrete case that meets the hypotheses.

## Conventions

* C++ undefined behaviour, out-of-range access and thrown exceptions are distinct outcomes of the
  model (`option` or a result type), never silently totalised.
* `float` and `double` are modelled exactly: by `Q` or `Z` where the code only adds, multiplies and
  compares (these developments are axiom free), by Coq's real numbers `R` where square roots or
  trigonometric functions occur. Rounding, overflow and NaN of floating point numbers are NOT modelled
  unless a definition says so.
* External code (collision checker, random generator, clock, bzip2, Eigen decompositions) appears as
  function arguments over which the theorems quantify, never as axioms.
* A statement that the code violates is proved as `..._refuted` with a concrete witness, next to the
  strongest guarded statement that does hold. Part proofs carry the suffix `_partial`.

## Plan per property

| id | what is modelled | how it is proved |
|----|------------------|------------------|
| C01 | RLE_Compress / RLE_Uncompress on byte lists, do-while loops by fuel | invariant over the main loop: decoded output of what is written so far ++ pending run ++ rest = input |
| C02 | same | each written symbol costs at most 1 byte except the marker byte, whose frequency is at most n/256 (pigeonhole) |
| C03 | decoder with out-of-range reads as an explicit error | from the C01 invariant; refutation by a truncated code |
| C04 | compressData/uncompressData with buffer bound and throw | run invariant; refutation by a block of size 1 |
| C05 | node pool as stack of free IDs | invariant by induction over the history |
| C06 | tree as list of nodes and ID map | invariant by induction over the history |
| C07 | linear scan with strict comparison | fold invariant |
| C08 | recursive bisection, abstract metric space interpolation | induction on recursion depth |
| C09, C11 | planner loop over an oracle stream | loop invariant on the tree, then the parent walk |
| C10, C11 | two trees | same, with bridge configuration |
| C12 | shortcut loop over an oracle stream | path invariant |
| C13 | elastic band loop | path invariant |
| C14 | list edits with index checks | refinement to firstn/skipn |
| C15 | polyline interpolation over R | induction over segments |
| C16, C17 | sparse 6D array with counters | refinement to a total map, invariant by induction |
| C18 | index arithmetic over Q | arithmetic |
| C19 | 2D grid | refinement |
| C20 | recursive 2^N tree | refinement to a map keyed by cell index |
| C21 | stack iterator | simulation with the flattened list of leaves |
| C22 | writer/reader over records | round trip by induction |
| C23 | byte streams | round trip; refutation for the empty string |
| C24 | header as field list | round trip; refutation without base node |
| C25 | heap with pointer indirection | heap invariant and multiset refinement |
| C26 | monotone chain over Z or Q | stack invariant |
| C27 | half plane test | convexity |
| C28 | quaternions over R (field) | ring / field |
| C29 | slerp with the component assignment of the code | refutation |
| C30 | matrices over R with atan2 | trigonometric identities |
| C31 | fmod over R | arithmetic |
| C32 | Gram-Schmidt over R vectors | refutation, guarded statement |
| C33 | joint value update over R | arithmetic |
| C34 | object store with parent and children | invariant; refutation of acyclicity |
| C35 | kinematic tree with cached poses | invariant |
| C36 | poses as matrices | group laws; refutation |
| C37 | boxes over Q with empty state | fold invariant; refutation for flat boxes |
| C38 | set as duplicate free list | invariant; refutation for set union |
| C39 | name to value map | refinement |
| C40 | registration lists, iterator invalidation as UB | refinement; refutation |
| C41 | lock and step semantics | invariant over schedules; refutation for setGlobalPose |
| C42 | two-thread transition system | invariant over schedules |
| C43 | segments over vector space R | geometry |
| C44 | list with identities | refinement |
| C45 | the planners' calls to the status display | trace invariant |
| C46, C47 | sampled path construction | induction over the recursion |
| C48 | planners of C09/C10 instantiated with the sampled C-space of C08/C46 | composition of the theorems |
| C49 | path interpolation over R | induction over the segments |
| C50 | weighted norm, border-free joints | Minkowski inequality, arithmetic |
| C51-C53 | PQP's recursive queries over abstract bounding volumes with a containment contract | induction over the tree of volumes |
| C54 | PQP model building | permutation invariant over the splits |
| C55 | voxel tree queries by leading coordinates | refinement to a map |
| C56, C57 | rotation between vectors, quaternion mean | real algebra |
| C58 | axis-angle matrices | real algebra and trigonometry |
| C59 | distance to a joint target | arithmetic |
| C60 | box overlap test of collision queries | separating axes, Gordan's theorem |
| C61 | Jacobian columns | derivative of forward kinematics |
| C62-C64 | loops of the IK solvers on the kinematic tree | loop invariants: every robot state is the start with some joint values set |
| C65-C66 | the nested loops over collision models, pairwise answers as argument | existsb / fold over the product of the two lists |
| C67-C71 | planes, segments, oriented boxes, lines, triangles and spherical coordinates over the reals | nearest points by Pythagoras; plane coordinates by the rotation lemmas of C29; section of a box by descent over faces to edges: a zero of an affine function lies between two zeros on the border |
| C72-C73 | contacts of a mesh with a plane, support polygon, stability index | a point of the enlarged box on either side of the plane for every vertex near it; the nearest point on the nearest edge line lies on the edge because the disc around an inner point stays in all half planes; the centre of the surrounding rectangle is always in the closed polygon |
| C74-C75 | closing and opening a hand | every round is a sequence of single steps, each within limits and without a hit; the room left to the limits decreases, so the loop with its restarts ends; the last round was a full round without a step, so everything is blocked and the contacts are those of that round |
| C76-C79 | triangle meshes: building, merging of vertices, orientation, missing normals and colours | lists of vertices, colours, normals and faces with optional indices; an invariant (indices in range, smallest box) for building; merging as a renaming of vertices followed by a renumbering; orientation by induction over the double loop against an orientation of all faces |
| C80-C81 | kd-tree over integer coordinates: building (plane split, bounding boxes), the recursive search with pruning, the two result sets | partition invariant; the array of component distances bounds the distance of every point of a subtree from below; one search lemma, generic in the result set, used for the radius and for the k nearest |
| C82-C85 | marching cubes: both tables, one cell, all cells, one surface, Calculate, the cache | all 256 cases and all face combinations by computation in the kernel, lifted to grids of any size: a side shared by two cells is on their common face; breadth-first search by an invariant on queue and marks; positions by pushing the matching of sides through the interpolation |
| C86-C88 | Contacts, cones, wrench points, hull evaluation and the cached state of the grasp quality measures | Linear algebra over R: the map from pushes to wrench points is linear and invertible; facets by qhull's contract; Cauchy-Schwarz for the ball; a seven-contact grasp with its exact hull as witness |
| C89-C90 | Planning loop, one attempt with retreat, evaluation entries and the averages of the report; hand, world, generator, measure and clock as arguments | Invariant of the loop: appended grasps, numbers, counters; termination by the clock; concrete environment over nat for the cases and refutations |
| C91-C92 | Surface point, approach frame, retreat and restoration of the cloned hand; random numbers, collision checker and SVD as arguments | Vector algebra over R for the frame; induction over the retreat; pose group laws and the SVD contract of C36 for placing; concrete hand above a triangle for cases and refutations |
| C93 | Bin index, insertion, limits, first extremes and median filter of the histogram, with undefined behaviour as None | Floor of the position against the edges of the bins; induction over the data |
| C94 | Curves as functions of a real parameter; derivatives as limits, the joints of the continued curve by gluing one-sided polynomials. |
| C95 | Line strips with truncation to an index; fold invariants for the closest sample and the length; counterexamples for single points and MoveLengthOnCurve. |
| C96-C98 | Lines, planes and triangles over the reals, with extended reals where the code divides by zero; Cramer's rule, feet of perpendiculars, induction on the depth of the subdivision. |
| C99, C100 | Kernels as functions with explicit throws, derivatives as limits (`derivable_pt_lim`); matrices as functions of two indices, the inverse as an oracle with the contract of an inverse; sums by induction on the size. |
| C101-C104 | Loops with fuel over the reals, and with Flocq's rounding to single and double precision for the divergence; lists by induction; the cache by an invariant over all histories of calls. |
| C105, C106 | Poses as rotation matrix and translation over the reals; decompositions and AngleAxis as oracles; closeness by the trace of orthogonal matrices, angular velocity by derivatives of matrices. |
| C107-C109 | A breadth-first search with fuel that gives the list of nodes with their children, and the clone built from it, on the robots of KinModel; the new links are characterised by the way to the new root; forward kinematics of both robots is compared by induction along the way and off it; masses by a sum that telescopes along the way. |
| C110-C112 | The loops of cloneSubSet on the robots of KinModel with the poses stored at the time of the call; the search below a node is characterised by descendants, with a rank for its fuel; poses by induction along the chain; the nodes of the clone are shown to be a partition of those of the robot. |
| C113-C115 | The state of RuntimeEnvironment as a record, one step per call with the file system at that time; histories by induction (growth of the path list, last value set by induction from the end); the text of a vector by the two directions of the splitting at commas. |
| C116-C119 | The functions on the robots of KinModel; the world pose of a coordinate is an invariant of the calls; chains by induction along the list with the order of the tree; the distance of neighbours in the chain is shown to be independent of the joints of the chain (the way between them has none of them, the origin of a node does not depend on its own angle), then the triangle inequality; sums by induction. |
| C120 | The records of Gravity.cpp as a tree built from the kinematic tree of KinModel; induction over the recursion: mass sum, mass-weighted centre of mass and torques of all joints below equal sums over the carried bodies; the derivative of the energy with the velocity of a rigid motion about an axis (C61). |
| C121-C122 | Key lists with std::sort as a contract (a rearrangement in order); the loop of getColor returns the blend of neighbours; tables of the predefined maps restated in ColSpec at equal distances; the accumulation of positions of a custom map with the arithmetic as an argument, exact and IEEE single precision (SpecFloat of the standard library). |
| C123-C124 | Matrices of MathComp over an arbitrary ordered field; the singular value decomposition as a function argument with its contract per matrix; Moore-Penrose equations from orthonormal columns, least squares from the equations (orthogonal split of the error), weights by a change of variables. |
| C125-C126 | Tasks as Jacobian and error with a common number of columns, stacked by blocks; the loop over priorities by induction with the invariant 'prioritized' of HikSpec: the projector of the tasks above annihilates the new part of the step. Witnesses and counterexamples over the rational numbers. |
| C127-C129 | Constraints as numbers, the maps as functions with the defaults of operator[], std::sort as a contract; histories of calls by induction from the end. The loop of solve with an arbitrary step, by induction on the iterations left; stepwise use as an inductive relation in CikSpec. The hierarchical step with arbitrary error and step functions over exact fractions; an invariant says that the recorded errors are those of the configuration before. |

## What is modelled, and what is not

Every definition in a `*Model.v` file cites the lines it models. Per part:

| files | code | properties |
|-------|------|------------|
| Rle | VirtualRobot/Compression/CompressionRLE.cpp | C01-C03 |
| Block | Workspace/WorkspaceRepresentation.cpp: compressed data blocks | C04 |
| Tree | MotionPlanning/CSpace/CSpaceTree.cpp, CSpace.cpp (nodes) | C05-C07 |
| Planner | MotionPlanning/Planner/Rrt.cpp, BiRrt.cpp, MotionPlanner.cpp | C09-C11, C45 |
| Sampled, SampledPlan, Metric | MotionPlanning/CSpace/CSpace.cpp, CSpaceSampled.cpp | C08, C46-C48, C50 |
| CSPath | MotionPlanning/CSpace/CSpacePath.cpp | C49 |
| Shortcut | MotionPlanning/PostProcessing/ShortcutProcessor.cpp, ElasticBandProcessor.cpp | C12, C13 |
| Thread | MotionPlanning/Planner/PlanningThread.cpp, PostProcessing/PathProcessingThread.cpp | C42 |
| Traj | VirtualRobot/Trajectory.cpp | C14, C15 |
| Blend (BlendPath, BlendSwitch) | TimeOptimalTrajectory/Path.cpp | C43 |
| WsData, WsPose, WsFile, Grid | Workspace/WorkspaceDataArray.cpp, WorkspaceRepresentation.cpp, WorkspaceGrid.cpp, Manipulability.cpp (file format) | C16-C19, C24 |
| Vox | Workspace/VoxelTreeND.hpp, VoxelTreeNDElement.hpp | C20-C22, C55 |
| File | XML/FileIO.h | C23 |
| Queue, Pqp, PqpBuild, Obb | CollisionDetection/PQP/PQP++ (BVTQ.h, PQP.cpp, Build.cpp, BV.cpp, OBB_Disjoint.h, MatVec.h), CollisionCheckerPQP.cpp | C25, C51-C54, C60 |
| Cdm | CollisionDetection/CDManager.cpp | C40 |
| Hull, Angle, Quat, Rpy, Gram | MathTools.cpp | C26-C32, C56-C58 |
| Joint (JointFloat) | Nodes/RobotNode.cpp: joint values and limits | C33, C59 |
| Scene | SceneObject.cpp: attaching and detaching | C34 |
| Kin | Robot.cpp, RobotNodeSet.cpp, Nodes/RobotNode*.cpp, SceneObject.cpp, Nodes/Sensor.cpp: poses | C35, C36 |
| BBox | BoundingBox.cpp | C37 |
| ObjSet | SceneObjectSet.cpp | C38 |
| Config | RobotConfig.cpp | C39 |
| Lock (LockRobot) | Robot.cpp, Nodes/RobotNode.cpp, Nodes/ConditionedLock.h: locking | C41 |
| Grasp | Grasping/GraspSet.cpp, Grasp.cpp | C44 |
| Jac, Ik | IK/DifferentialIK.cpp, GenericIKSolver.cpp, AdvancedIKSolver.cpp | C61-C64 |
| Check | CollisionDetection/CollisionChecker.cpp (queries on objects, robots, sets), PQP/CollisionCheckerPQP.cpp (point query) | C65, C66 |
| Plane | MathTools.h 111-114, 193-387, 507-567; MathTools.cpp 371-380, 671-714, 851-854, 959-1001, 1581-1620, 1676-1748, 1768-1793, 2114-2136 (exact real arithmetic; templates for three dimensions) | C67-C71 |
| Support | CollisionChecker.cpp 753-790; CollisionModel.cpp 209-230; SupportPolygon.cpp 9-175; MathTools.cpp 1879-1917 (exact real arithmetic; the hull is that of part Hull, in whole units; the positions on that grid by a function argument) | C72-C73 |
| Eef | EndEffector.cpp 114-172; EndEffectorActor.cpp 65-319, 523-543 (collision checker as an oracle on joint values; propagated and limitless joints left out; contact points and distances not computed, only the joint values at which they are) | C74-C75 |
| Mesh | VirtualRobot/Visualization/TriMeshModel.cpp (add*, addMesh, clear, getSize, getCOM, scale, clone, setColor, mergeVertices, removeUnusedVertices, checkAndCorrectNormals, checkFacesHaveSameEdge, flipVertexOrientations, addMissingNormals, addMissingColors), MathTools.h TriangleFace; not modelled: fattenShrink, smoothNormalSurface, mergeVertices' radius search (given by its contract), materials, rounding | C76-C79 |
| Kd | nanoflann.hpp (building, searchLevel, KNNResultSet, RadiusResultSet), KdTreePointCloud.h, TriMeshModel::mergeVertices 354-387; not: saving and loading an index, the pool allocator, the matrix adaptor, NaN coordinates, rounding of distances | C80-C81 |
| Mc | VirtualRobot/math/MarchingCubes.cpp, GridCacheFloat3.cpp, Array3D.h, Triangle::Transform | C82-C85 |
| Gws | GraspPlanning/ContactConeGenerator.cpp, GraspQuality/GraspQualityMeasure.cpp, GraspQualityMeasureWrenchSpace.cpp, ConvexHullGenerator.cpp (6D hull; qhull itself by contract), VirtualRobot/Grasping/BasicGraspQualityMeasure.cpp | C86-C88 |
| Gpl | GraspPlanning/GraspPlanner/GenericGraspPlanner.cpp, GraspPlanner.cpp, GraspPlannerEvaluation.cpp (averages of toCSVString) | C89-C90 |
| Apr | GraspPlanning/ApproachMovementGenerator.cpp, ApproachMovementSurfaceNormal.cpp, MathTools.cpp (randomPointInTriangle), Robot.cpp (setGlobalPoseForRobotNode) | C91-C92 |
| Hist | VirtualRobot/math/Histogram.cpp | C93 |
| Crv | Bezier.cpp, LinearContinuedBezier.cpp, Line.cpp (as a curve), LineStrip.cpp, CompositeFunctionR1R6.cpp, TransformedFunctionR1R3.cpp, AbstractFunctionR1R3.cpp, Helpers::GetIndex; not: orientations, rounding |
| Geo | math/Line.cpp, Plane.cpp, ImplicitPlane.cpp, Triangle.cpp, Helpers::GetOrthonormalVectors, Helpers::AssertNormalized; not: rounding, FromPoses, ToString |
| Ker | math/Kernels.cpp, GaussianImplicitSurface3D.cpp, GaussianImplicitSurface3DNormals.cpp; not: rounding, the QR decomposition (oracle), GaussianImplicitSurface3DCombined |
| Help | math/Helpers.cpp (angles, Clamp, Lerp, ranges, Average, LimitVectorLength), Grid3D.cpp, Array3D.h, GridCacheFloat3.cpp, WeightedAverage.cpp; not: rounding except in ShiftAngle0_2PI, overflow of int |
| Ori | math/Helpers.cpp (poses, orthogonalisation, Distance, rotation vectors, Lerp of orientations), LinearInterpolatedOrientation.cpp; not: rounding, quaternions as such (represented by rotation matrices), startT = endT |
| Fac | RobotFactory.cpp (cloneInversed, cloneChangeStructure); not: collision models (treated as visualisations), registration of nodes, DH parameters, attach, detach |
| Sub | RobotFactory.cpp (cloneSubSet, accumulateTransformations, createUnitedRobotNode, getChildNodes, getChildSensorNodes); not: collision models, names, centre of mass of united nodes (the code drops it), check of node types, cloneUniteSubsets |
| Env | RuntimeEnvironment.cpp (init, addDataPath, getDataFileAbsolute, getDataPaths, addKeyValuePair, getValue, hasValue, considerKey, checkParameter, checkValidFileParameter, processCommandLine after parsing, toVector3f); not: option parsing, atof, printing, exceptions of boost::filesystem |
| Chn | LinkedCoordinate.cpp (all), KinematicChain.cpp (constructor), RobotNodeSet.cpp (isKinematicChain, getMaximumExtension, getMass, getCoM, nodesSufficient, checkJointLimits, respectJointLimits), SceneObject.cpp (getTransformationTo, getCoMGlobal); not: locks, warnings, sets over several robots, collision checkers |
| Grav | Tools/Gravity.cpp (all), on KinModel and PlaneModel; not: null arguments, printing |
| Col | Visualization/ColorMap.cpp (all); not: float rounding of colours and of the lookup, conversion of out-of-range floats to unsigned char |
| Hik | MathTools.cpp (getPseudoInverse, getPseudoInverseDamped and double versions), IK/JacobiProvider.cpp (inverse Jacobians, joint weights, regularization as an argument), IK/StackedIK.cpp, IK/HierarchicalIK.cpp (all); not: rounding, Eigen's SVD itself (contract), getJacobiRegularization, conversions between float and double |
| Cik | IK/ConstrainedIK.cpp (addConstraint, removeConstraint, getConstraints, initialize, solve), IK/ConstrainedHierarchicalIK.cpp (solveStep), IK/Constraint.cpp (initialize, getErrorDifference); not: seeds, the other constrained solvers (ConstrainedStackedIK, ConstrainedOptimizationIK), the single constraints |

Not modelled: floating point rounding, overflow and NaN (except JointFloat.v, and where a definition says so); memory and object
lifetimes other than the indices and pointers a definition names; XML and robot importers and exporters (XML/RobotIO.cpp,
BaseIO.cpp, SceneIO.cpp, ObjectIO.cpp, Import/); CompressionBZip2.cpp; everything under Visualization; SimDynamics; the Coin/Qt
examples; the triangle distance (TriDist.cpp) and rectangle swept spheres of PQP, for which the theorems take contracts or which
they leave out; Eigen's decompositions (SVD, LU, AngleAxis) which are arguments; the time parametrisation
TimeOptimalTrajectory.cpp; nanoflann.

## What the proofs found

Behaviour of the pinned commit that contradicts what a caller may expect, each a theorem; the list is made from the comments above
the theorems by `tools/gen_findings.py`.

<!-- findings begin -->
* `C03_rle_decoder_arbitrary_refuted`: On byte strings that the compressor did not produce, the decoder can read behind the end of its input: a code that is cut off after the marker, or after an escaped count.
* `C04_odd_refuted`: C04 fails for every odd size: there is a block of that size for which one byte is written behind the buffer.
* `C05_double_remove_refuted`: Giving a node back twice is not detected: the pool then hands it out twice.
* `C06_remove_inner_node_refuted`: Removing a node that has children is not prevented; its ID is used again, and the parent links can then form a cycle on which createPath runs for ever.
* `C08_limitless_slider_refuted`: For a limitless translational joint the check is void: the distance is measured like an angle but the joint moves linearly. The motion from 0 to 2 pi is accepted although every configuration strictly between is in collision.
* `C09_solution_after_failure_refuted`: After a plan that FAILED, [getSolution] may deliver a path, namely to the goal of an earlier plan: here the goal is 20, planning fails, and the path ends in 5.
* `C09_solution_null_pointer_refuted`: After a successful plan, setting a new start and a failing plan, [getSolution] dereferences a null pointer.
* `C09_start_is_goal_refuted`: A query whose goal is the start is not solved: if a path from a configuration to itself has one point only, going for the goal in the first cycle ends the search without a solution.
* `C100_noise_refuted`: The noise does not reach every row of the covariance matrix: the loop runs over the points, of which there are a quarter as many.
* `C101_canonical_refuted`: The result is not a canonical representative: 0 and 2 pi are one direction but both stay.
* `C101_float_ends_refuted`: With the rounding of the machine the loop does not end for large angles: subtracting a turn from 2^30 gives 2^30 again.
* `C102_range_start_refuted`: A range with no steps is one value, which is no number.
* `C103_limit_refuted`: So the limit is not kept.
* `C104_outside_refuted`: Outside the cube a call need not throw: it can give the data of another cell.
* `C105_closest_refuted`: ... but for a matrix of negative determinant it is not the closest rotation.
* `C105_qr_rotation_refuted`: (see the statement)
* `C106_derivative_refuted`: (see the statement)
* `C106_end_refuted`: So the end is not always reached, and the derivative is not zero where nothing moves: one radian over 60 seconds.
* `C107_types_stay_valid_refuted`: A robot whose nodes have fitting types can make cloneInversed throw: a joint node gets the model of its old parent.
* `C108_all_models_keep_their_place_refuted`: What hangs on a turned joint that is not at rest does not keep its place: it no longer follows the joint.
* `C109_mass_is_kept_refuted`: The mass of the new root is lost.
* `C109_sensors_keep_their_place_refuted`: The sensor of the base does not stay where it was on the base.
* `C10_new_goal_refuted`: Setting a new goal after a plan and planning again: success is reported, the current goal is 7, and the solution ends in the old goal 5.
* `C10_solution_after_failure_refuted`: After a plan that failed, [getSolution] delivers a path from start to goal one of whose steps is invalid: here 3 -> 15 leads through the wall.
* `C111_nodes_further_down_keep_their_place_refuted`: With the arm left out of the set, what lies between the lifts is wrong.
* `C111_pose_of_the_robot_refuted`: The pose of the robot is applied twice if the clone does not start with the root of the robot.
* `C112_mass_of_a_single_node_refuted`: A set with a single node, which is its kinematic root: the node is in the root of the clone as well, and its mass counts twice.
* `C112_sensors_are_kept_refuted`: The sensors of a node of the set without united nodes below it are lost.
* `C113_data_paths_are_directories_refuted`: Every data path is a directory: a symbolic link to a file is accepted.
* `C113_fallbacks_only_if_nothing_else_refuted`: The fallbacks are only for the case that nothing else was found: with VIRTUAL_ROBOT_DATA_PATH set to a path that does not exist, they are used although SIMOX_DATA_PATH was accepted.
* `C116_in_frame_before_set_refuted`: As the documentation has it, getInFrame gives a pose also if set was not called before: it throws.
* `C117_tcp_of_a_chain_refuted`: The tcp of a chain is one of its nodes or below: any node is taken.
* `C117_test_of_an_empty_set_refuted`: The test always has an answer: for a set without nodes its loop runs out of the list.
* `C118_extension_of_an_empty_set_refuted`: Every set has an extension: for a set without nodes the loop runs out of the list.
* `C118_extension_with_slides_refuted`: The bound holds for all chains: with a prismatic joint the tcp can be further away.
* `C120_torques_after_a_mass_changed_refuted`: The sum of the masses is that of the time of construction: after a mass has changed, the torque is wrong.
* `C120_torques_with_equal_names_refuted`: A sensor with the name of a body beside it takes its place in the map of the children: the weight of the body is left out.
* `C121_one_key_refuted`: A map with one key answers nothing, not even at the key.
* `C121_two_keys_at_one_position_refuted`: Two keys at the lowest position: the color there is black and fully transparent, whatever the colors of the keys are.
* `C122_custom_maps_in_single_precision_refuted`: In single precision the positions of eleven colors add up to more than 1: the last color is refused, and the position 1 has no color.
* `C123_small_singular_values_refuted`: A matrix of numbers that are not above the tolerance is treated as if it were zero, although it has an inverse.
* `C124_damping_in_double_precision_refuted`: The versions for double ignore the damping set by setDampedSvdLambda: the damping is always 1.
* `C125_provider_not_initialized_refuted`: Only the first provider is asked whether it is initialized.
* `C126_damped_refuted`: With the damped inverse a task of lower priority disturbs the one above it.
* `C126_transpose_refuted`: With the transposed Jacobian a task of lower priority disturbs the one above it.
* `C127_added_twice_refuted`: A constraint that was added twice and removed once stays in the list, but is no longer hard.
* `C127_equal_priorities_refuted`: Constraints with equal priorities need not stay in the order in which they were added: std::sort is not stable.
* `C129_rise_from_zero_refuted`: In a run of successful steps right after initialize(), the error of a hard constraint may rise by any amount from exactly zero: without the condition on zero, the bound in C129_solve is false.
* `C129_used_again_refuted`: A solver used for a second time can fail although the robot is at the goal: initialize() does not forget the last step.
* `C12_prune_single_refuted`: A path of one valid point makes [doPathPruning] loop forever: n - 2 is computed without sign.
* `C12_saved_points_refuted`: The documented result of [doShortcut], the number of saved points, is wrong when points are inserted: here the path keeps its three points and 2 is returned.
* `C13_short_path_refuted`: Shorter paths: every call with at least one step throws.
* `C13_validity_refuted`: Validity is not checked: a path all of whose configurations are valid is moved into the forbidden region, without any obstacle force and in one step.
* `C14_insert_self_refuted`: Inserting a trajectory into itself is not the sequence operation (except at its end): the argument is read while it is being changed.
* `C15_index_refuted`: For a path of length 0 (for example a single point) the stored index is -1.
* `C16_clone_refuted`: C16: beyond 2^31 positions the copy constructor leaves the array: its index is an [int].
* `C17_binarize_refuted`: ... and binarizing empty data reports the maximum 1.
* `C17_filled_refuted`: C17 fails in general: writing 0 counts an empty voxel as filled, each time; ...
* `C17_maximum_refuted`: ... overwriting the largest value by a smaller one keeps the old maximum; ...
* `C17_sums_refuted`: C17: the sum of the values at one position, and the largest sum, are always reported as 0: the test for an allocated block is the wrong way round.
* `C18_local_refuted`: With voxels narrower than half a step the pose belongs to another voxel, or to none.
* `C18_position_refuted`: So a position can have no voxel although a pose at that position has one: the upper border is treated differently.
* `C18_tolerance_refuted`: The tolerance is not symmetric: one and a quarter voxels below the lower bound is still the first voxel, three quarters of a voxel above the upper bound is outside.
* `C19_border_refuted`: So a position outside the extends can be written and read, and the upper border cannot.
* `C19_random_refuted`: The position it returns need not lie in that cell, nor in the grid.
* `C20_one_level_refuted`: With one level only, a query outside the space is answered as if it were inside.
* `C20_too_coarse_refuted`: A space smaller than half a step in every direction has no defined number of levels.
* `C21_one_level_refuted`: On a tree of one level the iterator reads the missing array of children.
* `C22_empty_refuted`: An empty tree of one level cannot be saved.
* `C23_refuted`: So the round trip fails for the empty string and for one with a NUL in it.
* `C24_base_refuted`: Without a base node the loaded representation has the TCP as its base node.
* `C24_manipulability_refuted`: The same for a Manipulability of version 2.8, where the parameters of the self distance are written but not read.
* `C24_static_refuted`: A collision set that is not registered with the robot is lost without an error.
* `C24_version_refuted`: A file of version 1.0 can be loaded; saving the result makes a file that cannot be loaded, since the old version number is written in front of the new layout.
* `C28_not_unit_refuted`: The condition is needed: a quaternion that is not a unit gives no rotation.
* `C29_slerp_refuted`: The promised behaviour is refuted: the half turn about y interpolated with itself is the zero quaternion.
* `C30_band_refuted`: Within the band around gimbal lock the round trip is not exact.
* `C32_refuted`: The documented behaviour, an orthonormal basis, is refuted by the axes scaled by 1, 2 and 3: only the first vector is normalised.
* `C33_float_loop_refuted`: In float arithmetic the loop of the variant before initialisation does not end for any float of at least 2^29 above the upper limit: subtracting 2 pi gives the same float again.
* `C33_narrow_limits_refuted`: Without room for a full turn it can end up outside the limits: with limits -1 and 1, the request 2 stays 2.
* `C33_positive_limits_refuted`: Without zero between the limits a limitless joint can end up at another angle: with limits 1 and 8, the request 1/2 stores 2 pi - 1/2.
* `C34_forest_refuted`: The graph need not be a forest: an object can be attached below itself, and then the recursive search never ends.
* `C34_initialize_refuted`: If the parent refuses the object, initialize makes it the parent nevertheless, and the graph is inconsistent.
* `C34_set_name_refuted`: setName is not checked: siblings can get the same name.
* `C35_kinematic_root_refuted`: setKinematicRoot is not checked: with the child as kinematic root of a set holding the root node, the poses are stale.
* `C35_propagation_refuted`: Propagated joint values that run in a circle never come to an end.
* `C36_identity_refuted`: An identity orientation is not brought about: only the position is set then, and a turned node stays turned.
* `C36_position_refuted`: A rotated robot loses its orientation, and the node misses the position.
* `C37_is_inside_refuted`: So a point beside a flat box counts as inside.
* `C37_plane_refuted`: For an empty box the corners are missing: undefined.
* `C37_scale_refuted`: A negative factor turns the box inside out.
* `C38_add_set_refuted`: But a new object that comes after one already there is not added.
* `C39_last_set_refuted`: If a node is taken from the robot, getConfig throws for its name; if another node is registered under the name it returns 0, while hasConfig is true.
* `C40_add_model_refuted`: Without room the behaviour is undefined: a set that is not yet known is appended to the vector while the loop goes over it.
* `C40_points_with_refuted`: So for a known set the two functions disagree.
* `C40_twice_refuted`: A single object added twice is registered against itself, as each call wraps it in a new set.
* `C41_set_global_pose_refuted`: The same holds for Robot::setGlobalPose: of two nodes read under one read lock the first has been moved and the second has not.
* `C41_set_joint_values_refuted`: Robot::setJointValues only touches the lock: a reader that holds the read lock sees a robot with the new joint value and the old pose.
* `C41_unsafe_refuted`: After setThreadsafe(false) there is no lock at all, and even setJointValue of a node can be seen halfway.
* `C42_lost_refuted`: But a request that comes before the planner has begun is taken back by it: the planner's loop can then go round any number of times while stop waits.
* `C44_release_refuted`: Without asserts a grasp can be added twice, and grasps for other end effectors can be added. Removing one by its position then takes away an earlier entry, so that the order of the rest is not the order before.
* `C45_timeout_refuted`: A timeout leaves the visualization updates switched off.
* `C46_goal_missing_refuted`: The goal itself need not be on the path.
* `C46_zero_sampling_refuted`: With sampling size 0 [createPath] never returns.
* `C47_zero_sampling_refuted`: With collision sampling size 0 it never returns.
* `C49_last_index_refuted`: For t = 1 the index that is stored is not the index of a point.
* `C49_length_doc_refuted`: The documentation says the opposite: with weights, [getLength()] is not the weighted length.
* `C49_turns_refuted`: More than one and a half turns apart: the interpolated configuration is further from the ends than they are from each other.
* `C49_weights_refuted`: With weights the middle of a path is not found, and the time of the last point is not 1.
* `C54_begin_twice_refuted`: But BeginModel on a processed model deletes the volumes without resetting the pointer: a second BeginModel, or the destruction of the model before the next EndModel, deletes them again.
* `C56_zero_refuted`: With a zero vector the result is the zero quaternion.
* `C58_length_refuted`: With an axis of another length the result need not be a rotation: the function does not normalise it.
* `C60_contact_degenerate_refuted`: Without an area the test may report a contact of triangles apart: two parallel segments.
* `C61_propagation_refuted`: Propagated joint values are not in the Jacobian: moving the root of this robot by q moves its child by 2 q, since the child follows the root; the Jacobian says 1.
* `C61_unit_refuted`: With convertModelScalingtoM the Jacobian of a prismatic joint is not converted: not every column is the velocity in metres.
* `C62_at_goal_refuted`: A goal that is reached from the start does not make it return true: the first check is ignored.
* `C62_worse_refuted`: checkImprovements does not keep the result from being farther from the goal than the start.
* `C63_best_refuted`: The result of a failure need be neither the nearest of the attempts nor as near as the robot was: the first attempt counts as the best with the distance the robot had before it.
* `C65_foreign_refuted`: A robot that belongs to another collision checker is taken for a robot without collision models: no collision is reported.
* `C65_no_model_refuted`: An object without a collision model: a null pointer is followed.
* `C65_robot_in_set_refuted`: A robot in a set is accepted but not looked at: no collision is reported.
* `C65_tolerance_refuted`: Every other tolerance is taken for 50: a point 30 away from the only model is within a tolerance of 1.
* `C66_robot_in_set_refuted`: The distance to a set with a robot in it ignores the robot.
* `C67_roundtrip_refuted`: "Converting the plane coordinates of a point back gives its projection" is wrong: with the normal (1,0,0) through (1,0,0) it is missed.
* `C68_box_refuted`: "A box that meets a plane in a face is reported" is wrong: nothing is found if the box lies on the side of the normal.
* `C68_segment_refuted`: "A segment that touches the plane is reported, whichever way the normal points" is wrong.
* `C69_planes_refuted`: "Planes that are not parallel have a line" is wrong: below an angle of about 0.0014 they are taken for parallel.
* `C69_segment_refuted`: "The nearest point on a segment is on the segment" is wrong if the ends are equal: the origin is returned.
* `C70_normal_refuted`: "The normal of points of one plane that are not all on a line is the normal of the plane" is wrong: only consecutive points are looked at.
* `C70_random_refuted`: "The random points are spread evenly over the triangle" is wrong: half of the draws fall into the quarter next to the first corner.
* `C71_spherical_refuted`: "Every point is given back by its coordinates" is wrong: below a distance of 1e-8 the direction is lost.
* `C72_depth_refuted`: getContacts: a vertex far below the plane is reported as a contact (the distance is signed), here one at depth 10 for the bound 1.
* `C72_empty_refuted`: getContacts for a model without a bounding box (no vertices) reads outside a vector.
* `C72_touching_refuted`: getContacts: a vertex at exactly the given distance need not be reported, although the comparison lets it pass.
* `C73_index_refuted`: getStabilityIndex: the index is 0 although the centre of mass is well inside the polygon: for a right triangle the centre of the surrounding rectangle lies on the border.
* `C74_speed_refuted`: A joint with speed 0: closing never ends.
* `C75_modes_refuted`: An actor that minds the static part only runs into another one, even though that one minds actors.
* `C76_clear_refuted`: A cleared mesh is not like a new one: it keeps its normals.
* `C76_mirror_refuted`: Mirroring a mesh by a negative factor swaps the corners of the stored bounding box, so that it contains no vertex.
* `C76_nan_refuted`: A triangle with a NaN corner is not left out: a face is added that refers to vertices of other triangles, or to none at all.
* `C76_vector_colors_refuted`: Adding a triangle with colours as vectors of four numbers always reads behind the end of these vectors.
* `C77_box_refuted`: Removing an unused vertex does not update the bounding box.
* `C77_chain_refuted`: Vertices in a row, each closer than the threshold to the next, all become the last one: corners move far more than the threshold.
* `C78_colors_refuted`: Turning a face swaps its points but not their colours: the corners change their colours.
* `C78_inverted_refuted`: With the option "inverted" neighbours that fit are made not to fit.
* `C78_order_refuted`: (see the statement)
* `C79_normals_refuted`: A face that lacks only its second or third normal still lacks it afterwards.
* `C79_set_color_refuted`: After merging, setting the colour leaves corners without colour, and such a mesh cannot be added to another.
* `C80_leaf_refuted`: Leaves for no point: the first point is divided for ever.
* `C82_thin_edge_refuted`: Without the condition on thin edges the positions do not fit: next to an edge with both ends within the threshold of the level, neighbouring cells take different ends, and the closed surface gets a crack.
* `C84_start_off_surface_refuted`: From a cell that no surface meets the result need not be a single surface.
* `C84_start_on_hull_refuted`: The start is only a cell of the grid in this range: on the far hull of the grid, which is sampled, the index is beyond the cells, and nothing checks it.
* `C85_outside_refuted`: Outside the range, a fetch is refused for some points, but for others it fills the place of another point, which then has the wrong value.
* `C86_false_yes_refuted`: The answer can be yes although the grasp cannot push the object along the outer normal of its only real contact.
* `C86_few_points_refuted`: With too few cone points, or when qhull fails, the answer is yes, though the grasp cannot apply every wrench.
* `C86_qhull_error_refuted`: (see the statement)
* `C86_zero_force_refuted`: One contact where finger and object touch exactly (or the finger moves sideways) makes every grasp force closed, since its cone consists of the origin.
* `C87_default_friction_refuted`: The friction coefficient is not used as announced: with the default coefficient every direction is outside the friction cone.
* `C87_negative_force_refuted`: A finger that moves away from the object still gets a cone, on the other side.
* `C88_no_contacts_refuted`: Without contacts the quality is that of the contacts before, although force closure is then denied.
* `C88_overload_refuted`: The overload for contact points ignores its argument: the measure is left without contacts.
* `C88_positive_without_closure_refuted`: A positive radius does not mean force closure: the ball is not about the origin.
* `C89_names_refuted`: The number in the name may be in use when grasps were removed from the set.
* `C89_retreat_refuted`: After a retreat the hand may start to close inside an obstacle.
* `C89_zero_timeout_refuted`: A time out of zero does not switch the time limit off: nothing is planned.
* `C90_minimum_refuted`: The demanded quality shown with the evaluation is not the one in use after it was changed, or after the evaluation was cleared.
* `C91_areas_refuted`: Asking for faces in proportion to their area changes nothing.
* `C91_global_refuted`: The point is on the object only where the object's coordinates are the global ones: the pose of the object is not taken into account.
* `C92_retreat_refuted`: The random distance brings the hand into a collision although it was free before: the check after the move looks at the original hand.
* `C92_stuck_refuted`: A thousand steps of one millimetre may not be enough: the pose collides and nothing says so.
* `C92_tcp_refuted`: With a TCP in the preshape, moving the hand by zero moves it: the TCP is put where the grasp centre point was.
* `C93_below_refuted`: (see the statement)
* `C93_centre_refuted`: The header promises the centre of the bin: the value is the lower edge.
* `C93_equal_refuted`: Data with one value only, and values more than a bin below the lower limit, are undefined behaviour.
* `C93_median_refuted`: The median filter reads before the first bin, whatever the histogram, unless its size is zero.
* `C93_min_value_refuted`: The value of the emptiest bin is in fact the value of the fullest one.
* `C95_move_length_refuted`: ... so MoveLengthOnCurve does not move by the requested length: it follows the graph of the curve in parameter and space.
* `C95_strip_single_refuted`: A strip of a single point throws at every parameter, also at its own point.
* `C96_ray_parallel_refuted`: ... but a line parallel to the edge from the first to the third corner, beside the plane of the triangle, is reported as a hit (at infinity).
* `C97_signed_distance_refuted`: GetSignedDistance adds the offset instead of subtracting it: a point of the plane does not have distance zero ...
* `C98_plane_coordinates_refuted`: Directions that are normalized but not orthogonal are accepted, and the coordinates are then wrong.
* `C99_minus_second_refuted`: The second derivatives WilliamsMinusKernel reports are not the derivatives of its first derivatives.
<!-- findings end -->

Only read, not proved: CollisionCheckerPQP::checkCollision(point, tolerance) ignores its tolerance (CollisionCheckerPQP.cpp 135);
  PQP's Meigen leaves its output unset when it does not converge; CSpaceSampled::clone passes the random seed as the maximal number of
  configurations; fillHoles of the workspace representation never fills a hole; computeStep ignores the parameter for the pseudo
  inverse; AdvancedIKSolver::solve(object) dereferences a null grasp set.

## Trusted base

* Coq 8.16.1's kernel (`coqc`), and `coqchk` as a second checker.
* The axioms `Print Assumptions` lists, all of the standard library (real numbers, functional extensionality, excluded middle); the
  full list per theorem is below, generated by `tools/gen_assumptions.py`.
* The faithfulness of the hand-written model to the cited lines, and that floating point rounding, overflow and NaN
  are left out except where a definition says otherwise.
* Libraries: the standard library everywhere, Flocq for the one place where float arithmetic itself is modelled, MathComp's matrices
  and rational numbers (axiom free) for C123 to C126.  No axiom of a
  library other than the standard library is used.

<!-- assumptions begin -->

**Closed under the global context (no axiom)** (323 theorems):
C01_rle_round_trip, C02_rle_size_bound, C02_rle_empty, C03_rle_decoder_safe, C03_rle_decoder_terminates, C03_rle_decoder_arbitrary_refuted, C04_roundtrip, C04_outcome, C04_even_safe, C04_odd_refuted, C05_node_pool, C05_node_allocated_flag, C05_double_remove_refuted, C06_tree_well_formed, C06_tree_path, C06_remove_inner_node_refuted, C07_nearest_neighbour, C09_rrt_solution, C09_solution_after_failure_refuted, C09_solution_null_pointer_refuted, C09_start_is_goal_refuted, C10_birrt_solution, C10_birrt_get_solution_safe, C10_new_goal_refuted, C10_solution_after_failure_refuted, C11_rrt_terminates, C11_birrt_terminates, C14_edits, C14_copies, C14_get_point, C14_remove_count, C14_insert_self_refuted, C14_insert_self_at_end, C16_history, C16_increments, C16_destroy, C16_clone, C16_clone_refuted, C16_two_objects, C17_filled, C17_maximum, C17_maximum_exact, C17_filled_refuted, C17_filled_refuted_reset, C17_maximum_refuted, C17_binarize_refuted, C17_sums_refuted, C18_axes, C18_voxel, C18_accepts, C18_inside, C18_tolerance_refuted, C18_pose, C18_position, C18_position_refuted, C18_local, C18_local_three, C18_local_refuted, C18_voxel_size, C19_cells, C19_position, C19_region, C19_border_refuted, C19_max, C19_random, C19_random_refuted, C19_cell_width, C20_set, C20_history, C20_value_unique, C20_one_level_refuted, C20_resolution, C20_too_coarse_refuted, C21_iterator, C21_count, C21_one_level_refuted, C22_roundtrip, C22_empty_refuted, C23_string, C23_any_string, C23_refuted, C23_words, C23_int, C23_matrix, C24_round_trip, C24_restored, C24_base_refuted, C24_static_refuted, C24_version_refuted, C24_manipulability_refuted, C25_queue, C25_min_test, C25_sorted, C25_overfull_undefined, C26_hull, C26_all_inputs, C27_inside, C27_half_planes, C34_consistent, C34_attach, C34_detach, C34_attach_detach, C34_forest_refuted, C34_forest, C34_forest_exact, C34_has_child_recursive, C34_initialize, C34_initialize_refuted, C34_set_name_refuted, C37_plane_refuted, C38_new, C38_invariant, C38_add, C38_remove, C38_history, C38_add_set, C38_add_set_new, C38_add_set_refuted, C38_add_nodes, C38_clone, C38_models, C39_set, C39_clone, C39_of_names, C40_add_pair, C40_add_model, C40_add_model_refuted, C40_all_pairs, C40_twice_refuted, C40_collision, C40_distance, C40_points, C40_points_with, C40_points_with_refuted, C40_has, C40_object_pair, C42_once, C42_start, C42_answers, C42_stop, C42_honoured, C42_progress, C42_lost_refuted, C44_invariant, C44_add, C44_release_refuted, C44_include, C44_has, C44_get, C44_remove, C44_clone, C44_preshape, C45_visualization_status, C45_visualization_status_birrt, C45_timeout_refuted, C51_all_contacts, C51_first_contact, C52_distance, C52_exact, C53_tolerance, C54_build, C54_protocol, C54_processed_defined, C54_begin_twice_refuted, C54_collide, C54_distance, C55_leafs, C55_max, C65_objects, C65_object_set, C65_sets, C65_symmetric, C65_foreign_refuted, C65_robot_in_set_refuted, C65_no_model_refuted, C65_point, C65_tolerance_refuted, C66_objects, C66_sets, C66_empty, C66_robot_in_set_refuted, C72_null, C72_empty_refuted, C73_models, C74_terminates, C74_motion, C74_closed, C74_contacts, C74_again, C74_open, C74_speed_refuted, C75_free, C75_modes_refuted, C76_triangle, C76_of_triangles, C76_add_mesh, C76_box, C76_scale, C76_com, C76_nan_refuted, C76_clear_refuted, C76_vector_colors_refuted, C76_mirror_refuted, C77_unused, C77_defined, C77_merge, C77_clusters, C77_chain_refuted, C77_box_refuted, C78_correct, C78_flip, C78_order_refuted, C78_inverted_refuted, C78_colors_refuted, C79_normals, C79_normals_refuted, C79_colors, C79_set_color, C79_set_color_refuted, C80_build, C80_radius, C80_eps, C80_leaf_refuted, C80_merge, C81_knn, C81_distinct, C82_process_closed, C82_process_watertight, C82_positions_balanced, C82_thin_edge_refuted, C83_cell, C83_vertices_on_level, C83_crossed_edges_have_vertices, C84_single_closed, C84_single_balanced, C84_single_component, C84_single_finds, C84_calculate, C84_start_on_hull_refuted, C84_start_cell, C84_start_off_surface_refuted, C85_cache_transparent, C85_cells_in_range, C85_outside_refuted, C86_no_contacts, C89_plan, C89_ends, C89_fuel, C89_zero_timeout_refuted, C89_retreat_refuted, C89_names_refuted, C90_fresh, C90_plan, C90_plan_grasp, C90_averages, C90_minimum_refuted, C93_bins, C93_limits, C93_extremes, C93_value, C93_centre_refuted, C93_min_value_refuted, C93_median_refuted, C93_median_zero, C93_equal_refuted, C93_below_refuted, C102_vectors, C104_cells, C104_cache, C113_file_found, C113_found_files_stay, C113_paths_only_grow, C113_named_paths_are_added, C113_paths_of_the_environment, C113_fallbacks_only_if_nothing_else_refuted, C113_data_paths_are_directories_refuted, C113_accepted_directories, C114_last_value_counts, C114_what_is_answered, C114_file_of_a_key, C114_keys_asked_for, C115_vectors_read, C117_when_there_is_a_chain, C117_order_of_a_chain, C117_test_for_a_chain, C119_nodes_sufficient, C120_by_name, C123_pseudo_inverse, C123_best_solution, C123_any_decomposition, C123_below_the_tolerance, C123_damped, C123_small_singular_values_refuted, C124_inverse_by_svd, C124_regularized, C124_inverse_by_transpose, C124_damped_inverse, C124_damping_in_double_precision_refuted, C124_weights_must_be_positive, C124_weights_without_effect, C125_when_it_throws, C125_best_step, C125_damped_step, C125_transposed_step, C125_provider_not_initialized_refuted, C126_when_it_throws, C126_priorities, C126_transpose_refuted, C126_damped_refuted, C127_registry, C127_remove_absent, C127_added_twice_refuted, C127_equal_priorities_refuted, C128_solve, C128_succeeds_iff, C128_stepwise, C128_initialize, C129_step, C129_stall, C129_first_step, C129_solve, C129_used_again_refuted, C129_rise_from_zero_refuted

**`ClassicalDedekindReals.sig_forall_dec`** (9 theorems):
C39_last_set, C39_last_set_refuted, C102_lerp_vec, C110_when_there_is_a_clone, C112_sensors_are_kept_refuted, C116_moves_with_the_frame, C116_in_frame_before_set_refuted, C117_test_of_an_empty_set_refuted, C117_tcp_of_a_chain_refuted

**`ClassicalDedekindReals.sig_forall_dec`, `FunctionalExtensionality.functional_extensionality_dep`** (113 theorems):
C28_algebra, C28_matrices, C28_not_unit_refuted, C31_fmod, C31_lerp, C37_smallest, C37_add_points, C37_nan, C37_add_box, C37_transform, C37_transform_empty, C37_is_inside, C37_is_inside_flat, C37_is_inside_refuted, C37_is_inside_empty, C37_scale, C37_scale_refuted, C37_plane, C60_contact_exact, C60_contact_degenerate_refuted, C60_boxes, C61_stacked, C68_change_frame, C70_random, C92_move_away, C92_tcp_refuted, C94_bezier_derivative, C94_bezier_ends, C94_bezier_in_hull, C94_bezier_reverse, C94_bezier_points, C94_continued, C94_line, C94_composite, C94_transformed_points, C94_transformed, C95_strip_through_points, C95_strip_linear, C95_strip_extends, C95_strip_total, C95_strip_empty_interval, C95_strip_single_refuted, C95_segments, C96_ray, C96_ray_unique, C96_ray_corners, C96_ray_parallel, C96_ray_parallel_refuted, C96_primitive, C97_plane_through, C97_signed_distance_refuted, C97_intersect, C97_to_implicit, C98_plane_coordinates_refuted, C98_swapped, C98_plane_transform, C98_subdivide_count, C98_subdivide_cover, C98_triangle, C102_clamp, C102_lerp, C102_lerp_int, C102_sign, C102_range, C102_range_start_refuted, C102_average, C103_throws, C103_unchanged, C103_direction, C103_exceeds, C103_limit_refuted, C103_not_finite, C104_corners, C104_points, C104_outside_refuted, C104_weighted, C104_weighted_between, C105_invert, C105_transform, C105_svd_rotation, C105_svd_closest, C105_closest_refuted, C105_rotation_kept, C105_qr_orthogonal, C105_qr_rotation_refuted, C107_there_is_a_clone, C107_links_of_the_clone, C107_types_stay_valid_refuted, C109_mass_of_the_clone, C109_mass_is_kept_refuted, C112_every_node_once, C112_mass_is_kept, C112_mass_of_a_single_node_refuted, C116_changing_frames_moves_nothing, C116_change_of_frame, C116_in_frame, C116_first_frame, C119_center_of_mass, C119_center_of_mass_is_among_the_nodes, C119_check_limits, C119_respect_limits, C120_when_torques_can_be_computed, C121_keys_accepted, C121_color_at_a_position, C121_color_at_a_key, C121_order_of_keys, C121_components, C121_two_keys_at_one_position_refuted, C121_one_key_refuted, C122_predefined_maps, C122_custom_maps, C122_custom_map_of_one_color, C122_custom_maps_in_single_precision_refuted

**`ClassicalDedekindReals.sig_forall_dec`, `ClassicalDedekindReals.sig_not_dec`, `FunctionalExtensionality.functional_extensionality_dep`** (172 theorems):
C08_path_valid_sound, C08_path_valid_complete, C08_limitless_slider_refuted, C08_interpolation, C12_shorten, C12_shorten_covered, C12_prune, C12_prune_single_refuted, C12_saved_points_refuted, C13_ends, C13_neighbor_force_bounded, C13_short_path_refuted, C13_validity_refuted, C15_interpolate, C15_blend_divides, C15_index_refuted, C30_rotation, C31_angle_mod, C31_angle_delta, C31_angle_lerp, C32_gram_schmidt, C32_dimension, C32_refuted, C33_set_value, C33_set_value_not_initialized, C35_set_global_pose, C35_robot_set_joint_values, C35_kinematic_root_refuted, C35_propagation_refuted, C36_set_pose_for_node, C36_identity, C36_identity_refuted, C36_position, C36_position_refuted, C39_apply, C39_apply_to, C39_gone, C41_progress, C41_set_joint_values_refuted, C41_set_global_pose_refuted, C41_unsafe_refuted, C41_sequential, C46_create_path, C46_goal_missing_refuted, C46_zero_sampling_refuted, C47_create_path_until_invalid, C47_zero_sampling_refuted, C48_sampled_contract, C48_rrt_solution_checked, C48_birrt_solution_checked, C49_interpolate, C49_blend_divides, C49_time, C49_length, C49_length_doc_refuted, C49_weights_refuted, C49_last_index_refuted, C50_distance, C50_separation, C56_get_rotation, C56_zero_refuted, C57_mean, C58_axis_angle, C58_length_refuted, C59_delta, C60_free_means_disjoint, C60_exact, C60_fit, C60_eigen, C61_jacobian, C61_unit_refuted, C61_propagation_refuted, C67_project, C67_plane_point, C67_coordinates, C67_roundtrip_refuted, C68_segment, C68_segment_refuted, C68_box, C68_box_refuted, C69_line, C69_no_line, C69_segment, C69_segment_refuted, C69_planes, C69_planes_refuted, C70_area, C70_collinear, C70_normal, C70_normal_refuted, C70_random_refuted, C72_contacts, C72_resting, C72_depth_refuted, C72_touching_refuted, C73_polygon, C73_range, C73_value, C73_positive, C73_index_refuted, C86_contacts, C88_basic, C88_positive_without_closure_refuted, C91_surface, C91_frame, C91_frame_ends, C91_areas_refuted, C91_global_refuted, C92_create, C92_set_random, C92_retreat_refuted, C92_stuck_refuted, C94_transformed_rigid, C95_closest, C95_length_chord, C95_length_line, C95_move_constant_speed, C95_move_length_refuted, C95_move_length_at_most, C97_line_closest, C97_line_distance, C97_plane_closest, C97_plane_same, C97_signed_distance_off, C98_plane_coordinates, C98_orthonormal, C98_from_normal, C98_subdivide_normal, C99_first_derivatives, C99_plus_second, C99_minus_second_off, C99_minus_second_refuted, C99_symmetric, C99_out_of_range, C100_radius, C100_interpolates, C100_variance, C100_surface, C100_normal_scale_ignored, C100_noise_refuted, C100_noise_rows, C101_shift, C101_mod_pi, C101_canonical_refuted, C105_polar, C105_rotation_vector, C105_rotation_vector_inverse, C106_start, C106_end, C106_velocity, C106_slow, C106_lerp, C108_models_are_shown, C108_models_keep_their_place, C108_all_models_keep_their_place_refuted, C109_centres_of_mass, C109_sensors, C109_sensors_keep_their_place_refuted, C111_nodes_keep_their_place, C111_united_models_and_sensors_keep_their_place, C111_models_of_the_root, C111_nodes_further_down_keep_their_place_refuted, C111_pose_of_the_robot_refuted, C118_extension_is_a_bound, C118_extension_of_a_set, C118_extension_with_slides_refuted, C118_extension_of_an_empty_set_refuted, C120_torques, C120_torque_is_the_derivative_of_the_energy, C120_one_torque, C120_torques_with_equal_names_refuted, C120_torques_after_a_mass_changed_refuted

**`ClassicalDedekindReals.sig_forall_dec`, `ClassicalDedekindReals.sig_not_dec`, `Classical_Prop.classic`, `FunctionalExtensionality.functional_extensionality_dep`** (51 theorems):
C29_slerp, C29_start, C29_slerp_refuted, C30_round_trip, C30_angles, C30_band_refuted, C33_positive_limits_refuted, C33_narrow_limits_refuted, C33_float_loop_refuted, C35_node_set, C35_set_joint_value, C41_locked, C43_ends, C43_continuous, C43_deviation, C43_tangent, C43_smooth, C43_switching, C49_turns_refuted, C62_success, C62_failure, C62_at_goal_refuted, C62_worse_refuted, C63_solve, C63_best_refuted, C64_no_update, C64_grasp, C64_object, C71_spherical, C71_spherical_refuted, C86_accepted, C86_rejected, C86_closed, C86_few_points_refuted, C86_qhull_error_refuted, C86_zero_force_refuted, C86_false_yes_refuted, C87_directions, C87_friction, C87_default_friction_refuted, C87_negative_force_refuted, C88_quality, C88_history, C88_no_contacts_refuted, C88_overload_refuted, C88_volume, C99_gaussian, C101_float_ends_refuted, C105_distance, C106_end_refuted, C106_derivative_refuted

<!-- assumptions end -->
