{
 "C01": [
  "proved",
  "for every byte list; counters without 32-bit wrap-around"
 ],
 "C02": [
  "proved",
  "documented bound n + n/256 + 1; attained by the witness"
 ],
 "C03": [
  "proved",
  "safe on compressor output; on arbitrary byte strings the decoder can read out of bounds (refuted theorem)"
 ],
 "C04": [
  "proved",
  "Round trip and exact outcome for every block; out-of-bounds write shown for every odd size"
 ],
 "C05": [
  "proved",
  "removal only of nodes in use; double removal is a refuted theorem"
 ],
 "C06": [
  "proved",
  "removal of nodes without children; removal of inner nodes can create a parent cycle (refuted theorem); the optional children lists are not modelled"
 ],
 "C07": [
  "proved",
  "for every strict weak order of distances"
 ],
 "C08": [
  "proved",
  "positive answer gives a checked chain; completeness; a limitless translational joint voids the check (refuted)"
 ],
 "C09": [
  "proved",
  "success implies a validated path from start to (near) goal; the solution after a failed plan can be an old one or crash (refuted theorems); 'near' is the end tolerance of the C-space's path constructors"
 ],
 "C10": [
  "proved",
  "histories that call setGoal only before plan or after reset; otherwise refuted"
 ],
 "C11": [
  "proved",
  "cycle limit, no divergence, node count bounded by the C-space capacity"
 ],
 "C12": [
  "proved",
  "shortcut and pruning: ends, length, checked steps, coverage; pruning of one-point paths (endless loop) and the documented return value of doShortcut are refuted"
 ],
 "C13": [
  "proved",
  "ends and number of points; validity of inner configurations and short paths refuted"
 ],
 "C14": [
  "proved",
  "edit histories, copies, removal count; inserting a trajectory into itself is refuted (correct only at the end)"
 ],
 "C15": [
  "proved",
  "interpolation over exact reals, first/last/inner points; the segment index stored for zero length paths is refuted"
 ],
 "C16": [
  "proved",
  "Histories of all mutating calls on an explicit heap, saturating increments, destructor, clone and independence; clone is undefined beyond 2^31 positions"
 ],
 "C17": [
  "proved",
  "Exact under the stated conditions; counterexamples outside them"
 ],
 "C18": [
  "proved",
  "initialize (grid part), getVoxelFromPose, getVoxelFromPosition, both getPoseFromVoxel, getVoxelSize on local pose vectors over rationals; matrix/vector conversion and float rounding not modelled. Refuted: symmetric tolerance, agreement of getVoxelFromPose and getVoxelFromPosition at the upper bound, protected getPoseFromVoxel for one or two voxels, getVoxelSize(6) reads out of bounds."
 ],
 "C19": [
  "proved",
  "WorkspaceGrid: new_grid (constructor), setEntry, setCellEntry, setEntryCheckNeighbors, setGridPosition, reset, getEntry, getCellEntry, getMaxEntry, getRandomPos over rational positions; every history. Border asymmetry and getRandomPos position shown as _refuted witnesses."
 ],
 "C20": [
  "proved",
  "VoxelTreeND over rationals; one-level trees answer reads outside the extends (refuted there); too coarse discretization undefined"
 ],
 "C21": [
  "proved",
  "one-level trees make the iterator read a missing array (refuted there)"
 ],
 "C22": [
  "proved",
  "the loaded tree is equal to the saved one; an empty one-level tree cannot be saved (refuted there)"
 ],
 "C23": [
  "proved",
  "readString, writeString, read/write of int32 and float words, arrays and matrices on byte lists. Empty strings and strings with NUL are refuted for the literal round trip."
 ],
 "C24": [
  "proved",
  "save/load of WorkspaceRepresentation with Manipulability custom fields on byte lists; the bzip2 data codec is a parameter with a round-trip contract. Refuted: missing base node, unregistered collision set, re-saving version 1.0, re-saving Manipulability 2.8."
 ],
 "C25": [
  "proved",
  "Every history within capacity is served as a multiset priority queue, without out-of-bounds access, from any uninitialised memory."
 ],
 "C26": [
  "proved",
  "C26_hull: for every input and bound, the kept points are a maximal well-separated part of the input, the vertices are kept points, all kept points are weighted means of the vertices, and (unless all kept points are on one vertical line) any three vertices in order turn left; two vertices iff the kept points are collinear; exception iff fewer than three kept points; vertical degenerate case described. Exact integer arithmetic on the float grid, rounding left out."
 ],
 "C27": [
  "proved",
  "C27_inside: on every hull produced by createConvexHull2D (degenerate ones included) isInside is true exactly for the weighted means of the vertices; C27_half_planes: for strictly convex polygons these are the points left of or on every edge."
 ],
 "C28": [
  "proved",
  "Over the reals (no rounding)."
 ],
 "C29": [
  "proved",
  "The stated interpolation is refuted for the code (components swapped); what it returns is characterised exactly."
 ],
 "C30": [
  "proved",
  "Over the reals; the float band of 1e-10 is modelled, rounding is not."
 ],
 "C31": [
  "proved",
  "over exact reals with M_PIf = PI; a positive interval length is required"
 ],
 "C32": [
  "proved",
  "The documented orthonormality is refuted; the exact condition is proved, in every dimension. The LU/random completion stage is an arbitrary function whose result is assumed independent."
 ],
 "C33": [
  "proved",
  "Over the reals; the float divergence of setJointValueNotInitialized is proved with Flocq's float formats (no axioms beyond the standard library's)."
 ],
 "C34": [
  "proved",
  "Histories of create/attach/detach/destroy; forest refuted without the guard (circle of two objects); initialize and setName counterexamples."
 ],
 "C35": [
  "proved",
  "Tree of fixed, revolute, prismatic nodes and sensors over R; stale poses after setKinematicRoot and endless propagation refuted."
 ],
 "C36": [
  "proved",
  "SVD as argument with its contract on rotation matrices; identity orientation case and rotated robots refuted."
 ],
 "C37": [
  "proved",
  "C37_smallest, C37_add_points, C37_nan, C37_add_box, C37_transform(+_empty), C37_is_inside(+_flat, _empty; refuted for flat boxes), C37_scale (refuted for negative factors), C37_plane (undefined on an empty box). Exact reals with NaN; no rounding."
 ],
 "C38": [
  "proved",
  "C38_invariant, C38_add, C38_remove, C38_history, C38_add_set, C38_add_set_new, C38_add_nodes, C38_clone, C38_models; C38_add_set_refuted: adding a set stops at the first object already there."
 ],
 "C39": [
  "proved",
  "One joint value vector per robot body; the locks are the subject of C41."
 ],
 "C40": [
  "proved",
  "The collision checker is a function argument; vector capacity is a parameter of the model."
 ],
 "C41": [
  "proved",
  "Interleaving semantics with a recursive mutex; a pose is one assignment (matrix entries are not separate steps), kinematic structure is fixed. Sequentially consistent memory."
 ],
 "C42": [
  "proved",
  "One controlling thread; the planner is an arbitrary loop that resets the stop flag at its beginning and looks at it before every round (Rrt, BiRrt, GraspIkRrt, GraspRrt, ShortcutProcessor); an uninitialised planner that returns at once is not distinguished. Lost stop request is C42_lost_refuted."
 ],
 "C43": [
  "proved",
  "Over the reals. With a positive deviation the waypoints must be in general position: more than 2e-6 apart, no exact reversal. Without deviation no condition. Rounding not modelled. Path::Path(path with < 2 points) leaves no segment: every query is undefined behaviour (Example C43_empty)."
 ],
 "C44": [
  "proved",
  "Null pointers stored by a build without asserts are not modelled."
 ],
 "C45": [
  "proved",
  "holds without timeout; refuted with timeout"
 ],
 "C46": [
  "proved",
  "terminates, spacing, end point; goal may be missing and sampling size 0 never returns (refuted)"
 ],
 "C47": [
  "proved",
  "all clauses for positive collision sampling size; size 0 never returns (refuted)"
 ],
 "C48": [
  "proved",
  "CSpaceSampled meets the planner contract; Rrt and BiRrt solutions are covered by checked configurations"
 ],
 "C49": [
  "proved",
  "unit weights; with weights, with more than 1.5 turns and the index at t=1 refuted"
 ],
 "C50": [
  "proved",
  "calcDist over exact reals"
 ],
 "C51": [
  "proved",
  "Triangle and volume tests are parameters; soundness of the volume test is a hypothesis, met by the 1-D instance in PqpBuildProps.v."
 ],
 "C52": [
  "proved",
  "Distances are rationals; lower-bound property of the volume distance is a hypothesis, met by the 1-D instance."
 ],
 "C53": [
  "proved",
  "As C52."
 ],
 "C54": [
  "proved",
  "Includes the refutation of BeginModel on a processed model (double deletion)."
 ],
 "C55": [
  "proved",
  "prefix queries of VoxelTreeND"
 ],
 "C56": [
  "proved",
  "Over the reals."
 ],
 "C57": [
  "proved",
  "Over the reals."
 ],
 "C58": [
  "proved",
  "Over the reals."
 ],
 "C59": [
  "proved",
  "Over the reals."
 ],
 "C60": [
  "proved",
  "Exact reals; the rounding-dependent tests of the eigenvector routine are an arbitrary oracle, convergence of the routine is a hypothesis with a witness. Degenerate triangles: refuted by C60_contact_degenerate_refuted."
 ],
 "C61": [
  "proved",
  "Exact derivatives over the reals for every tree; conversion to metres of prismatic columns and propagated joint values refuted."
 ],
 "C62": [
  "proved",
  "real arithmetic; the step (pseudo inverse) and Eigen's AngleAxis are arguments, the latter with the contract that it returns an angle in [0, pi] about some axis, shown to be met by an explicit function; kinematic root propagates nothing"
 ],
 "C63": [
  "proved",
  "over C62's model; translational joint, if set, in the node set; reachability and collision checks are arguments"
 ],
 "C64": [
  "proved",
  "over GenericIKSolver::solve of C63; applyJointValues included; visualisation status left out"
 ],
 "C65": [
  "proved",
  "Release build; the pairwise answers are an argument with the contract right_hits"
 ],
 "C66": [
  "proved",
  "Release build; the pairwise answers are an argument with the contract fair"
 ],
 "C67": [
  "proved",
  "Over the real numbers; rounding is left out."
 ],
 "C68": [
  "proved",
  "Over the real numbers; rounding is left out."
 ],
 "C69": [
  "proved",
  "Over the real numbers; rounding is left out."
 ],
 "C70": [
  "proved",
  "Over the real numbers; rounding is left out."
 ],
 "C71": [
  "proved",
  "Over the real numbers; rounding is left out."
 ],
 "C72": [
  "proved",
  "Guarded statement proved; unlimited depth, the exact boundary and models without vertices refuted with witnesses."
 ],
 "C73": [
  "proved",
  "Index over the reals, hull over whole multiples of a unit; right triangle refuted as a witness."
 ],
 "C74": [
  "proved",
  "Speed 0 refuted. Exact arithmetic; the collision checker is an arbitrary function of the joint values; propagated joints and limitless joints are left out."
 ],
 "C75": [
  "proved",
  "Under the contract that hit tests depend on the joints involved; refuted for actors that mind the static part only."
 ],
 "C76": [
  "proved",
  "Mesh files; coordinates as integers (common unit), normals abstract."
 ],
 "C77": [
  "proved",
  "Mesh files; coordinates as integers (common unit), normals abstract."
 ],
 "C78": [
  "proved",
  "Mesh files; coordinates as integers (common unit), normals abstract."
 ],
 "C79": [
  "proved",
  "Mesh files; coordinates as integers (common unit), normals abstract."
 ],
 "C80": [
  "proved",
  "Kd*: C80_build, C80_radius, C80_eps, C80_merge (discharges the contract of C77); the need for a leaf size of at least one is C80_leaf_refuted. std::sort is a contract."
 ],
 "C81": [
  "proved",
  "Kd*: C81_knn, C81_distinct. k = 0 reads before the array (KNNResultSet::worstDist) and is excluded."
 ],
 "C82": [
  "proved",
  "see theorems; floats are whole multiples of a unit, interpolation exact"
 ],
 "C83": [
  "proved",
  "see theorems; floats are whole multiples of a unit, interpolation exact"
 ],
 "C84": [
  "proved",
  "see theorems; floats are whole multiples of a unit, interpolation exact"
 ],
 "C85": [
  "proved",
  "see theorems; floats are whole multiples of a unit, interpolation exact"
 ],
 "C86": [
  "proved",
  "Real arithmetic; qhull by contract (joggling left out); false parts as _refuted theorems."
 ],
 "C87": [
  "proved",
  "Real arithmetic; qhull by contract (joggling left out); false parts as _refuted theorems."
 ],
 "C88": [
  "proved",
  "Real arithmetic; qhull by contract (joggling left out); false parts as _refuted theorems."
 ],
 "C89": [
  "proved",
  "plan: number, soundness and numbering of the new grasps for every environment; termination by the clock; zero timeout, closing inside an obstacle after a retreat and repeated names refuted. Hand, checker, generator and measure are arguments."
 ],
 "C90": [
  "proved",
  "Consistency of the evaluation is an invariant of planning; averages of the report computed exactly; stale demanded quality refuted."
 ],
 "C91": [
  "proved",
  "Convex combination and normal of the drawn face; orthonormal frame by vector algebra over R; ignored area option and ignored object pose refuted."
 ],
 "C92": [
  "proved",
  "Retreat and restoration for hands without a preshape TCP; collision after the random distance, giving up after a thousand steps and the preshape TCP refuted by concrete cases."
 ],
 "C93": [
  "proved",
  "Counts by membership over the rationals (rounding of the float division not modelled); extremes; centre, value of the emptiest bin, median filter and degenerate data refuted."
 ],
 "C94": [
  "proved",
  "Over the reals; derivatives are limits (stdlib derivable_pt_lim)."
 ],
 "C95": [
  "proved",
  "Two refuted parts: single-point strips throw, MoveLengthOnCurve moves too little."
 ],
 "C96": [
  "proved",
  "Exact arithmetic with IEEE results for division by zero; one refuted part (hit at infinity)."
 ],
 "C97": [
  "proved",
  "One refuted part: GetSignedDistance."
 ],
 "C98": [
  "proved",
  "One refuted part: non-orthogonal directions."
 ],
 "C99": [
  "proved",
  "The derivatives of the Williams plus kernel are proved as limits; C99_minus_second_refuted shows that the minus kernel reports wrong second derivatives."
 ],
 "C100": [
  "proved",
  "inverse_of is the contract of Eigen's QR inverse, shown satisfiable by two concrete cases (2x2 and 8x8). Refuted part: C100_noise_refuted."
 ],
 "C101": [
  "proved",
  "C101_float_ends_refuted uses Flocq's rounding to single and double precision (definitions only, no axioms of Flocq); refuted parts: canonical result, termination in floats."
 ],
 "C102": [
  "proved",
  "Refuted part: C102_range_start_refuted (zero steps give NaN)."
 ],
 "C103": [
  "proved",
  "Refuted: C103_limit_refuted; C103_exceeds proves that the limit is exceeded for every vector beyond it."
 ],
 "C104": [
  "proved",
  "Refuted part: C104_outside_refuted."
 ],
 "C105": [
  "proved",
  "Decompositions and AngleAxis are oracles with contracts at the matrix used; refuted parts: C105_closest_refuted, C105_qr_rotation_refuted."
 ],
 "C106": [
  "proved",
  "Refuted parts: C106_end_refuted, C106_derivative_refuted (slow rotations do not move)."
 ],
 "C107": [
  "proved",
  "The structure of the clone for all trees. Types refuted."
 ],
 "C108": [
  "proved",
  "All models but that of the new root; relative poses for the models that are kept, refuted for all models."
 ],
 "C109": [
  "proved",
  "Masses and centres of mass; conservation of mass and of the place of sensors refuted."
 ],
 "C110": [
  "proved",
  "When there is a clone, and its nodes."
 ],
 "C111": [
  "proved",
  "Poses of nodes, united models and sensors under the stated conditions; without them refuted twice."
 ],
 "C112": [
  "proved",
  "Partition and mass for at least two nodes; single node and sensors refuted."
 ],
 "C113": [
  "proved",
  "Stated over all histories of calls with a file system per call; boost::program_options' parsing is an argument (the parsed line), boost::filesystem answers are a function from names to kinds."
 ],
 "C114": [
  "proved",
  "Stated over all histories of calls with a file system per call; boost::program_options' parsing is an argument (the parsed line), boost::filesystem answers are a function from names to kinds."
 ],
 "C115": [
  "proved",
  "atof and the check for finiteness are an argument from text to optional real."
 ],
 "C116": [
  "proved",
  "Matrix4f::inverse is taken to be the inverse of a rigid pose."
 ],
 "C117": [
  "proved",
  "All nodes belong to one robot; the exception for nodes of different robots is left out."
 ],
 "C118": [
  "proved",
  "Real arithmetic; joint values by FacSpec.with_q, positions by forward kinematics."
 ],
 "C119": [
  "proved",
  "Real arithmetic; names are numbers."
 ],
 "C120": [
  "proved",
  "guards: distinct names of siblings, unchanged masses; both shown necessary by _refuted theorems"
 ],
 "C121": [
  "proved",
  "guards: different key positions, at least two keys; both shown necessary by _refuted theorems"
 ],
 "C122": [
  "proved",
  "custom maps in exact arithmetic; refuted in IEEE single precision (SpecFloat) by a map of eleven colours"
 ],
 "C123": [
  "proved",
  "exact arithmetic in any ordered field; the singular value decomposition is an argument with its contract"
 ],
 "C124": [
  "proved",
  "exact arithmetic; square root and decomposition as arguments with contracts; Eigen's inverse of a singular matrix is an undefined outcome"
 ],
 "C125": [
  "proved",
  "exact arithmetic"
 ],
 "C126": [
  "proved",
  "exact arithmetic; matrices along the way assumed well conditioned (singular values zero or above 0.00001)"
 ],
 "C127": [
  "proved",
  "All histories, any sorting function; two false expectations refuted."
 ],
 "C128": [
  "proved",
  "Any step, tolerance test and constraint behaviour; by induction on the iterations left."
 ],
 "C129": [
  "proved",
  "Exact numbers; the step of the HierarchicalIK and the errors are arbitrary functions; two false expectations refuted."
 ]
}