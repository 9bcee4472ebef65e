{"id": "C01", "title": "RLE codec round trip", "statement": "Decompressing with CompressionRLE::RLE_Uncompress exactly the bytes produced by RLE_Compress for a buffer gives back that buffer, byte for byte.", "quantifier": "every byte buffer of every length (marker byte absent, rare or frequent; runs of every length, also longer than 32768)", "why_tests_cant": "The codec branches on the histogram of the whole input, on run lengths around 3/4, 128 and 32768 and on the last byte; no finite set of buffers covers all combinations.", "anchors": ["VirtualRobot/Compression/CompressionRLE.cpp: RLE_Compress, RLE_Uncompress, _RLE_WriteRep, _RLE_WriteNonRep"]}
{"id": "C02", "title": "RLE output size bound", "statement": "RLE_Compress never writes more bytes than the documented output buffer size, 257/256 of the input size plus one byte, and writes nothing for an empty input.", "quantifier": "every byte buffer", "why_tests_cant": "The worst case depends on the frequency of the least frequent byte of the whole input; a buffer overflow needs one adversarial input.", "anchors": ["VirtualRobot/Compression/CompressionRLE.cpp: RLE_Compress", "VirtualRobot/Compression/CompressionRLE.h"]}
{"id": "C03", "title": "RLE decoder memory safety", "statement": "RLE_Uncompress called on a byte string produced by RLE_Compress reads only inside that byte string and writes exactly as many bytes as the original buffer had; a byte string not produced by the compressor gives no such guarantee.", "quantifier": "every compressor output; separately every byte string", "why_tests_cant": "Out of bounds reads are invisible to example tests unless the heap layout makes them crash.", "anchors": ["VirtualRobot/Compression/CompressionRLE.cpp: RLE_Uncompress"]}
{"id": "C04", "title": "Legacy workspace block compression round trip", "statement": "If WorkspaceRepresentation::compressData returns a buffer without throwing and without writing outside its output buffer, uncompressData of that buffer with the original size gives back the original block; and compressData never writes outside the buffer it allocated.", "quantifier": "every voxel block (byte array of every size)", "why_tests_cant": "Whether the output fits depends on every run of the block and on the parity of its size.", "anchors": ["VirtualRobot/Workspace/WorkspaceRepresentation.cpp: compressData, uncompressData"]}
{"id": "C05", "title": "C-space node pool", "statement": "Over any sequence of node creations, removals and resets, nodes handed out by a configuration space and not yet removed are pairwise different, carry pairwise different IDs smaller than the maximum number of configurations, and creation fails exactly when that maximum is in use.", "quantifier": "every history of createNewNode / removeNode (of live nodes) / reset and every capacity", "why_tests_cant": "Sharing a node between two trees needs a particular interleaving of removals and creations.", "anchors": ["MotionPlanning/CSpace/CSpace.cpp: createNewNode, removeNode, reset, getMaximumConfigs"]}
{"id": "C06", "title": "C-space tree well-formedness", "statement": "After any sequence of appendNode / appendPath / removeNode calls on existing parents, every node of a CSpaceTree except those started without a parent has its parent in the tree, following parents never cycles, IDs are unique, and the ID lookup returns exactly the stored nodes.", "quantifier": "every history of tree operations", "why_tests_cant": "The parent relation is built incrementally by planners from random samples.", "anchors": ["MotionPlanning/CSpace/CSpaceTree.cpp: appendNode, appendPath, appendPathUntilCollision, removeNode, getNode, hasNode"]}
{"id": "C07", "title": "Nearest neighbour query", "statement": "CSpaceTree::getNearestNeighbor returns a node of the tree such that no node of the tree is closer to the query configuration (in the metric of the configuration space).", "quantifier": "every non-empty tree and query configuration", "why_tests_cant": "Holds for all point sets, including ties and borderless dimensions.", "anchors": ["MotionPlanning/CSpace/CSpaceTree.cpp: getNearestNeighborID, getNearestNeighbor", "MotionPlanning/CSpace/CSpace.cpp: calcDist2"]}
{"id": "C08", "title": "Sampled path validity", "statement": "If CSpaceSampled::isPathValid(q1,q2) answers true, then there is a chain of configurations on the segment from q1 to q2, consecutive ones no further apart than (just over) the collision detection sampling size, all of which except q1 itself passed the collision check.", "quantifier": "every pair of configurations, every sampling size and every collision checker answer function", "why_tests_cant": "The guarantee is about all intermediate samples of a recursive bisection.", "anchors": ["MotionPlanning/CSpace/CSpaceSampled.cpp: isPathValid", "MotionPlanning/CSpace/CSpace.cpp: interpolate, calcDist"]}
{"id": "C09", "title": "RRT solution path", "statement": "If Rrt::plan reports success, the solution path returned by getSolution starts with the start configuration, ends with the goal configuration, and each of its consecutive pairs is a step that the planner had validated with the configuration space; if it reports failure no new solution is reported.", "quantifier": "every sequence of random samples, every answer of the validity check, every start, goal, mode and cycle limit", "why_tests_cant": "The planner is randomised; the guarantee must hold for all random sequences.", "anchors": ["MotionPlanning/Planner/Rrt.cpp: plan, extend, connectUntilCollision, connectComplete, createSolution", "MotionPlanning/Planner/MotionPlanner.cpp: getSolution"]}
{"id": "C10", "title": "Bidirectional RRT solution path", "statement": "If BiRrt::plan reports success, the solution starts with the start configuration, ends with the goal configuration, and every consecutive pair was validated in one of the two directions.", "quantifier": "every sequence of random samples, every answer of the validity check, every pair of extension modes", "why_tests_cant": "Joining two trees reverses one branch; an off-by-one or wrong tree choice shows only for particular random sequences.", "anchors": ["MotionPlanning/Planner/BiRrt.cpp: plan, createSolution"]}
{"id": "C11", "title": "Planner termination", "statement": "Rrt::plan and BiRrt::plan perform at most the configured number of cycles, each adding at most a bounded number of nodes, and then return.", "quantifier": "every random sequence and every validity check", "why_tests_cant": "Termination is a statement about all executions.", "anchors": ["MotionPlanning/Planner/Rrt.cpp: plan", "MotionPlanning/Planner/BiRrt.cpp: plan", "MotionPlanning/Planner/MotionPlanner.cpp: setMaxCycles"]}
{"id": "C12", "title": "Shortcut optimisation", "statement": "ShortcutProcessor::shortenSolutionRandom and optimize return a path with the same first and last configuration whose every step is a step of the input path or a connection the configuration space reported valid, and that is never longer (unweighted) than the input path.", "quantifier": "every input path, loop count, random choice and validity check", "why_tests_cant": "Random shortcut candidates: all choices must be safe.", "anchors": ["MotionPlanning/PostProcessing/ShortcutProcessor.cpp: shortenSolutionRandom, doShortcut, validShortcut, selectCandidatesRandom, doPathPruning"]}
{"id": "C13", "title": "Elastic band optimisation", "statement": "ElasticBandProcessor::optimize keeps the first and last configuration of every path with at least two points and adds no points; the pull of the neighbours is bounded. It does not check validity: a valid path can be moved into the forbidden region, so the result has to be checked again, and shorter paths throw.", "quantifier": "every path, number of steps and force function", "why_tests_cant": "Iterated in-place modification of a path with node insertion and removal.", "anchors": ["MotionPlanning/PostProcessing/ElasticBandProcessor.cpp: optimize, elasticBandLoop, checkRemoveNodes, getNeighborCForce"]}
{"id": "C14", "title": "Trajectory editing", "statement": "The points of a Trajectory after any sequence of addPoint, insertPosition, erasePosition, removePositions, insertTrajectory and reverse calls are those obtained by the corresponding sequence edits, out of range positions leave it unchanged, and createSubPath / getPoints return exactly the closed index range.", "quantifier": "every history of edits, including out of range indices", "why_tests_cant": "Index arithmetic must be right for all lengths and positions.", "anchors": ["VirtualRobot/Trajectory.cpp: addPoint, insertPosition, erasePosition, removePositions, insertTrajectory, reverse, createSubPath, getPoints, getPoint"]}
{"id": "C15", "title": "Trajectory interpolation", "statement": "Trajectory::interpolate(t) returns the first point for t<=0, the last point for t>=1, and for 0<t<1 the point at the fraction t of the arc length on the polyline through the points.", "quantifier": "every trajectory with at least one point and every parameter", "why_tests_cant": "A statement about all real parameters and segment lengths.", "anchors": ["VirtualRobot/Trajectory.cpp: interpolate, getLength"]}
{"id": "C16", "title": "Workspace voxel data", "statement": "The six-dimensional workspace data behaves as a total map from voxel to an 8-bit count: reading a voxel returns the value last written or, after increments, the number of increments saturated at 255; writing one voxel changes no other; unwritten voxels read 0; a clone reads the same everywhere and is independent.", "quantifier": "every history of set / increase / binarize / clear / clone operations and every grid size", "why_tests_cant": "Aliasing between voxels appears only for particular index combinations.", "anchors": ["VirtualRobot/Workspace/WorkspaceDataArray.cpp: setDatum, get, increaseDatum, ensureData, getPos, bisectData, binarize, clear", "VirtualRobot/Workspace/WorkspaceData.cpp"]}
{"id": "C17", "title": "Workspace voxel statistics", "statement": "The reported number of filled voxels equals the number of voxels with a non-zero value as long as nothing is explicitly set to 0, no stored value is above the reported maximum entry, and the reported maximum equals the largest stored value as long as no single write lowers a voxel. Outside these histories the statistics are wrong, and the summed orientation counts are always reported as 0.", "quantifier": "every history of set / increase / binarize / clear operations", "why_tests_cant": "Counters drift only after particular histories.", "anchors": ["VirtualRobot/Workspace/WorkspaceDataArray.cpp: setDatum, setDatumCheckNeighbors, increaseDatum, binarize, getVoxelFilledCount, getMaxEntry"]}
{"id": "C18", "title": "Pose to voxel mapping", "statement": "For a grid made by initialize, getVoxelFromPose answers true exactly for the poses inside the bounds widened by one and a half voxels below and half a voxel above (the rounding tolerance, which is not symmetric); the voxel indices are always inside the grid and the voxel contains the pose if the pose is inside the bounds; the pose that the public getPoseFromVoxel returns for a voxel is its centre and is mapped back to that voxel. The protected getPoseFromVoxel adds half a step instead of half a voxel, which stays inside the voxel whenever there are at least three voxels in every dimension but not in general.", "quantifier": "every pose and every grid parameter", "why_tests_cant": "Boundary values and all grid sizes.", "anchors": ["VirtualRobot/Workspace/WorkspaceRepresentation.cpp: getVoxelFromPose, getPoseFromVoxel, getVoxelFromPosition, getVoxelSize, initialize"]}
{"id": "C19", "title": "Workspace grid queries", "statement": "WorkspaceGrid::getEntry at a position returns the largest value stored (since the last reset) at the grid cell of that position together with its grasps; positions that belong to no cell read 0 and are ignored on write; getMaxEntry is the maximum over all cells; getRandomPos only picks cells whose entry is at least the requested one. The positions that belong to a cell are those below the upper border and less than one cell width below the lower one (so the border treatment is asymmetric), and the position getRandomPos returns need not lie in the picked cell.", "quantifier": "every history of setEntry calls and every grid extent", "why_tests_cant": "Cell mapping must hold for all positions.", "anchors": ["VirtualRobot/Workspace/WorkspaceGrid.cpp: setEntry, getEntry, setCellEntry, getCellEntry, getMaxEntry, getRandomPos"]}
{"id": "C20", "title": "Voxel tree lookup", "statement": "After setEntry at a position inside the extends of a voxel tree, getEntry returns that entry for exactly the positions in the same finest cell, every other position reads as before, positions outside the extends are rejected on write and, in a tree of at least two levels, read as not present; the finest cells are smaller than one and a half discretization steps.", "quantifier": "every dimension, extend, depth, history of writes and query position", "why_tests_cant": "Recursive space subdivision in N dimensions; boundaries of cells at all levels.", "anchors": ["VirtualRobot/Workspace/VoxelTreeND.hpp: setEntry, getEntry", "VirtualRobot/Workspace/VoxelTreeNDElement.hpp: setEntry, getEntry, getLeaf, getChildIndx, covers, createChild"]}
{"id": "C21", "title": "Voxel tree iteration", "statement": "An ElementIterator over a voxel tree of at least two levels visits every stored leaf exactly once and then returns null on every further call; getNumNodes counts the elements.", "quantifier": "every tree", "why_tests_cant": "Explicit stack traversal over arbitrary tree shapes.", "anchors": ["VirtualRobot/Workspace/VoxelTreeND.hpp: ElementIterator"]}
{"id": "C22", "title": "Voxel tree save / load", "statement": "Saving a voxel tree (other than an empty one-level tree, which is refused) succeeds, and loading the file gives the same tree, so it answers every query alike.", "quantifier": "every tree built by writes", "why_tests_cant": "Serialisation is by node numbering; sharing or ordering errors depend on the tree shape.", "anchors": ["VirtualRobot/Workspace/VoxelTreeND.hpp: save, load", "VirtualRobot/Workspace/VoxelTreeNDElement.hpp: write, read, collectElements"]}
{"id": "C23", "title": "File string round trip", "statement": "A non-empty string without NUL characters written with FileIO::writeString is read back unchanged by FileIO::readString, leaving the stream exactly behind it; for any string shorter than 2 GB the stream stands exactly behind it afterwards, an empty string makes readString fail and leaves its destination unchanged, and a string with a NUL is cut off there. Integers, float arrays and 4x4 matrices are read back unchanged.", "quantifier": "every string (empty, with NUL bytes, any length) and every following stream content", "why_tests_cant": "Edge lengths and embedded bytes.", "anchors": ["VirtualRobot/XML/FileIO.h: readString, writeString, read, write", "VirtualRobot/XML/FileIO.cpp"]}
{"id": "C24", "title": "Workspace file header round trip", "statement": "Saving a workspace representation (or manipulability) in the current file version and loading the file with the same robot restores the node set, TCP, base node, registered collision sets, discretisation, bounds, counters, custom fields and data; without a base node the loaded object gets the TCP as base node; an object that was loaded from an old file version keeps the old version number, so that saving it can produce a file that cannot be loaded.", "quantifier": "every representation (with or without base node, collision sets) and every library version that wrote the file", "why_tests_cant": "The header is a sequence of optional fields; one wrong field order or default shows only for particular settings and versions.", "anchors": ["VirtualRobot/Workspace/WorkspaceRepresentation.cpp: save, load"]}
{"id": "C25", "title": "Proximity query priority queue", "statement": "The queue used by PQP proximity queries returns on each extraction an element with the smallest distance among those inserted and not yet extracted, never loses or duplicates an element, and never touches memory outside its arrays while at most its capacity is queued.", "quantifier": "every sequence of AddTest and ExtractMinTest calls", "why_tests_cant": "Heap with pointer indirection and back indices; corruption needs particular sequences.", "anchors": ["VirtualRobot/CollisionDetection/PQP/PQP++/BVTQ.h: AddTest, ExtractMinTest"]}
{"id": "C26", "title": "2D convex hull", "statement": "createConvexHull2D throws exactly if fewer than three distinct points remain after removing points closer than the bound to an earlier one. Otherwise its vertices are input points, every distinct input point lies in the closed polygon they span, and, unless all distinct points are on one vertical line, any three vertices in their order make a strict left turn (strictly convex, counter-clockwise); there are only two vertices exactly if all distinct points are collinear. For a vertical line the result is the lower end, the upper end and the lower end again.", "quantifier": "every point set with at least three distinct points that are not all on one vertical line (degenerate sets separately)", "why_tests_cant": "All point configurations, including collinear ones and ties in x.", "anchors": ["VirtualRobot/MathTools.cpp: createConvexHull2D, sortPoints", "VirtualRobot/MathTools.h: isLeft"]}
{"id": "C27", "title": "Point in convex hull test", "statement": "isInside(p, hull) is true exactly if p lies in the closed convex polygon.", "quantifier": "every convex hull produced by createConvexHull2D and every point", "why_tests_cant": "All points including those on edges, on extensions of edges and on vertices.", "anchors": ["VirtualRobot/MathTools.cpp: isInside"]}
{"id": "C28", "title": "Quaternion algebra", "statement": "Quaternion multiplication, conjugation, inverse and delta obey the group laws: associativity, multiplicative norm, inverse of a non-zero quaternion, and getDelta(q1,q2) composed with q1 gives q2; quat2eigen4f maps unit quaternions to rotation matrices and products to products.", "quantifier": "all real quaternions", "why_tests_cant": "Algebraic identities over all values.", "anchors": ["VirtualRobot/MathTools.cpp: multiplyQuaternions, getInverse, getConjugated, getDelta, quat2eigen4f"]}
{"id": "C29", "title": "Quaternion interpolation", "statement": "MathTools::slerp throws for alpha outside [0,1]. Inside, it takes a point of the shorter arc between unit quaternions q1 and q2 (q1 at 0, q2 up to sign at 1, at the fraction alpha of the angle, norm one up to 2^-24) but returns (x,z,x,w) of that point instead of (x,y,z,w). So slerp(q1,q2,0) is q1 only if the three vector components of q1 are equal, and slerp of the half turn about y with itself is the zero quaternion.", "quantifier": "all pairs of unit quaternions and all alpha in [0,1]", "why_tests_cant": "All rotations.", "anchors": ["VirtualRobot/MathTools.cpp: slerp"]}
{"id": "C30", "title": "Roll-pitch-yaw conversion", "statement": "rpy2eigen4f / posrpy2eigen4f produce, for all angles, the rotation about x by roll, then y by pitch, then z by yaw, with the given position. For every rotation matrix M, posrpy2eigen4f(eigen4f2rpy(M)) has the position of M and every entry of its rotation within 2e-10 of that of M; it equals M exactly at gimbal lock and whenever the pitch is at least 1e-10 away from it (inside that band it is in general not exact). Angles in the usual ranges with the pitch outside the band come back unchanged.", "quantifier": "all angles and all rotation matrices", "why_tests_cant": "Branches at gimbal lock and all quadrants of atan2.", "anchors": ["VirtualRobot/MathTools.cpp: rpy2eigen4f, eigen4f2rpy, posrpy2eigen4f"]}
{"id": "C31", "title": "Angle normalisation", "statement": "angleMod2PI, angleModPI and angleModX return an angle in the documented half-open interval that differs from the argument by a multiple of 2 pi; AngleDelta returns the signed shortest difference; AngleLerp goes from a to b the short way.", "quantifier": "all real angles", "why_tests_cant": "All values including negative and large ones.", "anchors": ["VirtualRobot/MathTools.cpp: fmod, angleMod2PI, angleModPI, angleModX, AngleDelta, AngleLerp, Lerp, ILerp"]}
{"id": "C32", "title": "Orthonormalisation", "statement": "GramSchmidt on a basis (after the rank stage, which hands on linearly independent vectors) returns true and overwrites it; the result is orthonormal, with every leading part spanning what it spanned before, exactly when every vector after the first that belongs to a leading pairwise orthogonal family already had length one (only the first of these is normalised: the axes scaled by 1, 2, 3 come back unchanged). In dimensions other than three, vectors that are not orthogonal already end in a failed assertion.", "quantifier": "every linearly independent list of vectors", "why_tests_cant": "All inputs, in particular ones that are already partly orthogonal.", "anchors": ["VirtualRobot/MathTools.cpp: GramSchmidt, ensureOrthonormalBasis"]}
{"id": "C33", "title": "Joint limits", "statement": "Setting a joint value (setJointValue, setJointValueNoUpdate) ends, changes only that value, and keeps a request within the limits. A joint with enforced limits lo <= hi stores the nearest value within them; with enforcement off, the request. A limitless joint stores the same angle (up to full turns) within the limits provided lo <= 0 <= hi and hi - lo >= 2 pi; with lo > 0 it can store another angle (sign flip), with a narrower range a value outside the limits. setJointValueNotInitialized always clamps and needs no zero between the limits, but in float arithmetic its loop never ends for floats of at least 2^29 above hi.", "quantifier": "every request, every limit pair", "why_tests_cant": "All real requests, including many turns away.", "anchors": ["VirtualRobot/Nodes/RobotNode.cpp: setJointValueNoUpdate, setJointValueNotInitialized, respectJointLimits, checkJointLimits, getDelta"]}
{"id": "C34", "title": "Scene graph structure", "statement": "Under any sequence of creating, attaching, detaching and destroying objects, an object is listed as a child exactly of its parent, once, has at most one parent, and siblings have different names; attachChild and detachChild succeed exactly as documented and change nothing else. The object graph is a forest as long as no object is attached to itself or to something below it, and in a forest the recursive hasChild ends and is exact. (attachChild does not check for circles, initialize takes over a parent that refused the object, and setName is unchecked: shown by counterexamples.)", "quantifier": "every history of attach / detach calls", "why_tests_cant": "Cycles and dangling relations need particular histories.", "anchors": ["VirtualRobot/SceneObject.cpp: attachChild, detachChild, hasChild, getParent, attached, detachedFromParent"]}
{"id": "C35", "title": "Forward kinematics consistency", "statement": "After Robot::setJointValues or setGlobalPose the global pose of every robot node equals the product of the robot pose and all joint transformations on the chain from the root to the node, whatever the poses were before. RobotNodeSet::setJointValues, with the kinematic root chosen by the constructor, and RobotNode::setJointValue preserve this, provided propagated joint values do not run in circles. (setKinematicRoot is unchecked and can leave stale poses, circular propagation never ends: shown by counterexamples.)", "quantifier": "every kinematic tree, node set and joint value assignment history", "why_tests_cant": "All tree shapes and all subsets of updated joints.", "anchors": ["VirtualRobot/RobotNodeSet.cpp: setJointValues, isKinematicRoot, setKinematicRoot", "VirtualRobot/Robot.cpp: setJointValues, applyJointValuesNoLock, setGlobalPose", "VirtualRobot/Nodes/RobotNode.cpp: updatePose, updateTransformationMatrices"]}
{"id": "C36", "title": "Placing a robot by one of its nodes", "statement": "After setGlobalPoseForRobotNode(node, pose) the global pose of the node is pose, if the orientation of pose is not the identity, or if neither the robot nor the node is rotated; setGlobalPositionForRobotNode moves the node to the position and keeps its orientation if the robot is not rotated. (For the identity orientation, and for positions of a rotated robot, the result is wrong: shown by counterexamples.)", "quantifier": "every robot pose, node pose and target pose", "why_tests_cant": "All rotations of robot, node and target.", "anchors": ["VirtualRobot/Robot.cpp: setGlobalPoseForRobotNode, getGlobalPoseForRobotNode, getGlobalPositionForRobotNode"]}
{"id": "C37", "title": "Bounding boxes", "statement": "A bounding box built from points contains all of them and is the smallest such axis-aligned box, coordinates that are not numbers being ignored; adding points or a box to a box gives the smallest box around both; transform returns the smallest box around the image of every point of the old box, as long as that image stays in the float range; isInside is true exactly for the points of a box that has an extent in each dimension, is false for an empty box, and ignores the dimensions in which the box is flat (so it accepts points outside of a flat box); scale gives exactly the scaled points for factors that are not negative (a negative factor swaps the corners); planeGoesThrough is true exactly if the box has points on both sides (undefined for an empty box).", "quantifier": "every point set, transformation and query point", "why_tests_cant": "All point sets and boxes, including flat ones.", "anchors": ["VirtualRobot/BoundingBox.cpp: addPoint, addPoints, transform, scale, isInside, getPoints"]}
{"id": "C38", "title": "Object sets", "statement": "After any history of operations a SceneObjectSet holds each object at most once and only objects of its collision checker; with single adds and removes it holds exactly the objects that came in and did not go since, in the order in which they came in; add succeeds exactly for a new object of the same checker; remove removes exactly that object; adding a whole set appends its objects up to the first one that is already there (so later new objects are not added); copies hold the same objects in the same order.", "quantifier": "every history of add / remove / add-set operations", "why_tests_cant": "All histories.", "anchors": ["VirtualRobot/SceneObjectSet.cpp: addSceneObject, addSceneObjects, removeSceneObject, hasSceneObject, clone"]}
{"id": "C39", "title": "Robot configurations", "statement": "As long as the robot keeps its nodes, RobotConfig::getConfig returns the value last set for a node of the robot, and hasConfig tells whether one was set. setJointValues sets exactly the stored joints, as a single joint update does, and leaves every pose equal to the forward kinematics. Applying a configuration to another robot changes all named joints or, if one is missing there, none and returns false. A clone for another robot holds the values of the names that robot has. Once a node has been deregistered or replaced, getConfig throws or returns 0 although hasConfig is true.", "quantifier": "every history of setConfig calls and every robot", "why_tests_cant": "All histories and all subsets of missing nodes.", "anchors": ["VirtualRobot/RobotConfig.cpp: setConfig, getConfig, hasConfig, setJointValues, clone"]}
{"id": "C40", "title": "Collision manager", "statement": "CDManager::isInCollision() is true exactly if some registered pair collides, getDistance() is the minimum over the registered pairs (with the closest points of a pair attaining it), and adding a collision model registers it against all models added before, provided the vector of models has room for it; if the vector has to grow the loop runs over freed memory. The same object added twice is checked against itself. The query for one set leaves out that set itself, except in the version that returns points.", "quantifier": "every history of addCollisionModel / addCollisionModelPair calls and every collision checker", "why_tests_cant": "All registration histories.", "anchors": ["VirtualRobot/CollisionDetection/CDManager.cpp: addCollisionModel, addCollisionModelPair, isInCollision, getDistance"]}
{"id": "C41", "title": "Robot update atomicity", "statement": "A thread that reads a thread-safe robot under the read lock never observes a state in which only a part of another thread's RobotNode::setJointValue, RobotNodeSet::setJointValues or RobotConfig::setJointValues has been applied, or of Robot::setJointValues or setGlobalPose by a caller that holds the write lock: what it sees is the result of whole calls one after the other, all reads under one lock agree, every pose seen fits the joint values seen, and these threads never block each other for ever. Called without the write lock, Robot::setJointValues and setGlobalPose release the lock at once and can be seen half done, as can every call after setThreadsafe(false).", "quantifier": "every interleaving of a writer and a reader", "why_tests_cant": "Schedules cannot be enumerated by tests.", "anchors": ["VirtualRobot/Robot.cpp: setGlobalPose, setJointValues, getReadLock, getWriteLock", "VirtualRobot/RobotNodeSet.cpp: setJointValues", "VirtualRobot/Nodes/ConditionedLock.h"]}
{"id": "C42", "title": "Planning thread life cycle", "statement": "Planning in a working thread (PlanningThread, PathProcessingThread), for one controlling thread: every accepted start runs the planner exactly once, runs follow one another without overlap, a start is refused exactly while a run is under way, isRunning tells whether one is under way, the result read is that of the last run (none while one is under way), stop returns only after the run is over and the working thread is done with the object, a stop request made since the planner began lets its loop not go round again and a waiting stop then returns within four steps, and no interleaving deadlocks. A stop request that arrives between start and the moment the planner begins is lost, because the planner resets the flag: the planner may then go on any number of rounds while stop waits.", "quantifier": "every interleaving of the controlling thread and the planning thread", "why_tests_cant": "Schedules.", "anchors": ["MotionPlanning/Planner/PlanningThread.cpp", "MotionPlanning/PostProcessing/PathProcessingThread.cpp"]}
{"id": "C43", "title": "Time-optimal path geometry", "statement": "For every list of at least two waypoints, in any number of dimensions, the path built from it starts at the first and ends at the last waypoint; the distance travelled between two path positions never exceeds their difference, up to one millionth per corner (a line shorter than that is left out before a blend); no point of the path is farther than the maximal deviation from the polyline through the waypoints, and the path passes every inner waypoint within it; away from segment boundaries the tangent is the derivative of the configuration and has length one and the curvature is the derivative of the tangent; at blended corners the direction of travel does not jump; the switching points are sorted, lie on the path, contain every inner segment boundary and every place in a blend where a coordinate turns, and the next switching point is the first one ahead or the path's end.", "quantifier": "every list of at least two waypoints in general position and every positive deviation", "why_tests_cant": "All waypoint geometries.", "anchors": ["VirtualRobot/TimeOptimalTrajectory/Path.cpp: Path, LinearPathSegment, CircularPathSegment, getConfig, getPathSegment"]}
{"id": "C44", "title": "Grasp sets", "statement": "In a build with asserts a GraspSet behaves as an insertion-ordered list without duplicates of grasps made for its robot type and end effector: hasGrasp, getGrasp by index or name, removeGrasp, includeGraspSet, setPreshape and clone agree with that list. Without asserts, duplicates and incompatible grasps can enter, and removing by index then removes another entry.", "quantifier": "every history of add / remove / include operations", "why_tests_cant": "All histories.", "anchors": ["VirtualRobot/Grasping/GraspSet.cpp: addGrasp, removeGrasp, includeGraspSet, getGrasp, hasGrasp, clone"]}
{"id": "C45", "title": "Visualization status after planning", "statement": "Rrt::plan and BiRrt::plan switch off visualization updates of the robot while planning and restore the previous status before they return.", "quantifier": "every planner history, random sequence, validity check, stop request and timeout", "why_tests_cant": "All ways out of the planning loop under all inputs.", "anchors": ["MotionPlanning/Planner/Rrt.cpp: plan", "MotionPlanning/Planner/BiRrt.cpp: plan"]}
{"id": "C46", "title": "Sampled path construction", "statement": "CSpaceSampled::createPath(start, goal) returns for every pair of configurations; the path starts with start, moves along the segment to goal without going back, in steps of at most 1.05 times the sampling size, and ends with goal or less than 1e-6 before it.", "quantifier": "all configuration spaces without limitless translational joints, all metric weights, start and goal configurations and positive sampling sizes", "why_tests_cant": "ranges over all real configurations; termination and step bounds are needed for every distance, including those close to a multiple of the sampling size", "anchors": ["MotionPlanning/CSpace/CSpaceSampled.cpp:CSpaceSampled::createPath", "MotionPlanning/CSpace/CSpace.cpp:CSpace::interpolate"]}
{"id": "C47", "title": "Sampled path until first invalid configuration", "statement": "CSpaceSampled::createPathUntilInvalid returns a path from start along the segment to goal; all its configurations after start were found valid, with checked configurations in between at most the collision sampling size apart; the reported length is 1 exactly if the goal was reached, and otherwise some configuration on the segment is invalid.", "quantifier": "all configuration spaces without limitless translational joints, start and goal configurations, collision checkers and positive sampling sizes", "why_tests_cant": "quantifies over all collision checker answers and all distances", "anchors": ["MotionPlanning/CSpace/CSpaceSampled.cpp:CSpaceSampled::createPathUntilInvalid", "MotionPlanning/CSpace/CSpace.cpp:CSpace::generateNewConfig"]}
{"id": "C48", "title": "Planner solutions are collision checked", "statement": "If Rrt or BiRrt on a CSpaceSampled reports success, every configuration on the straight segments between consecutive points of the solution is within (just over) the collision sampling size of a configuration that passed the collision and constraint check.", "quantifier": "all CSpaceSampled configuration spaces, planner histories, samples, stop requests and clock readings", "why_tests_cant": "the guarantee is about the continuum of configurations on the path and every random sample sequence", "anchors": ["MotionPlanning/Planner/Rrt.cpp:Rrt::plan", "MotionPlanning/Planner/BiRrt.cpp:BiRrt::plan", "MotionPlanning/CSpace/CSpaceSampled.cpp:CSpaceSampled::isPathValid"]}
{"id": "C49", "title": "Interpolation on C-space paths", "statement": "CSpacePath::getLength() is the sum of the distances of consecutive configurations; CSpacePath::interpolate(t) returns the first configuration for t<=0, the last for t>=1 and otherwise the configuration at the fraction t of the length, moving limitless joints the shorter way; getTime(n) is the fraction of the length before point n. This holds when no metric weights are used; with weights the search and the length use different metrics.", "quantifier": "every path, parameter and choice of joints", "why_tests_cant": "A statement about all real parameters, path lengths and mixtures of limited and limitless joints.", "anchors": ["MotionPlanning/CSpace/CSpacePath.cpp: getLength, interpolate, getTime"]}
{"id": "C50", "title": "C-space distance is a metric", "statement": "CSpace::calcDist is non-negative, symmetric, zero from a configuration to itself, satisfies the triangle inequality, and with nonzero weights is zero only between configurations that are equal up to full turns of limitless joints.", "quantifier": "all configurations, weights and mixtures of limited and limitless joints", "why_tests_cant": "The nearest neighbour search and all length comparisons rely on it for all real configurations.", "anchors": ["MotionPlanning/CSpace/CSpace.cpp: calcDist, calcDist2", "VirtualRobot/MathTools.cpp: AngleDelta"]}
{"id": "C51", "title": "Collision query reports exactly the touching triangle pairs", "statement": "PQP_Collide with PQP_ALL_CONTACTS on two processed models terminates and reports the identifiers of exactly the touching pairs of triangles, each once; with PQP_FIRST_CONTACT it reports one touching pair if any exists and none otherwise, provided the overlap test of volumes never denies an overlap of volumes above touching triangles.", "quantifier": "for all pairs of complete bounding volume trees of any shape and size, all triangles, all transformations and every conservative overlap test", "why_tests_cant": "The trees and the order of descent depend on the volumes' sizes; a missed branch shows only for particular trees.", "anchors": ["VirtualRobot/CollisionDetection/PQP/PQP++/PQP.cpp: CollideRecurse, PQP_Collide, PQP_CollideResult::Add"]}
{"id": "C52", "title": "Distance query returns a minimal pair within the allowed errors", "statement": "PQP_Distance returns the distance, points and identifiers of an actual pair of triangles, exceeding the distance of no pair by more than the allowed absolute or relative error, for the recursive and the queue traversal alike and whatever pair the previous query left as start; with errors 0 it is the exact minimum.", "quantifier": "for all complete trees, volumes distances that are lower bounds, allowed errors >= 0, queue sizes and last triangles", "why_tests_cant": "Pruning errors show only for particular trees, bounds and caches of earlier queries; the queue traversal nests when its queue is full.", "anchors": ["VirtualRobot/CollisionDetection/PQP/PQP++/PQP.cpp: DistanceRecurse, DistanceQueueRecurse, PQP_Distance"]}
{"id": "C53", "title": "Tolerance query decides whether a pair is within the tolerance", "statement": "PQP_Tolerance reports a pair of triangles whose distance does not exceed the tolerance if there is one and otherwise reports that none is, for the recursive and the queue traversal; the queue's capacity is never exceeded.", "quantifier": "for all complete trees, lower-bound volume distances, tolerances and queue sizes", "why_tests_cant": "Early exits and pruning interact with the shape of the trees.", "anchors": ["VirtualRobot/CollisionDetection/PQP/PQP++/PQP.cpp: ToleranceRecurse, ToleranceQueueRecurse, PQP_Tolerance"]}
{"id": "C54", "title": "Building a model loses no triangle", "statement": "BeginModel, AddTri for each triangle and EndModel give a model whose volume tree has every added triangle below its root exactly once, with each volume fitted to the triangles below it and stored relative to its parent, never leaving the array of 2n-1 volumes; hence queries on built models speak about the added triangles. A model that was ended and begun again must be ended before it is destroyed or begun again.", "quantifier": "for all non-empty lists of triangles, all splitting decisions, all initial array contents and all call histories", "why_tests_cant": "The recursion's array layout depends on every split; degenerate splits need the fallback; the double deletion needs a particular history.", "anchors": ["VirtualRobot/CollisionDetection/PQP/PQP++/Build.cpp: split_tris, build_recurse, make_parent_relative, build_model", "VirtualRobot/CollisionDetection/PQP/PQP++/PQP.cpp: PQP_Model::BeginModel, AddTri, EndModel"]}
{"id": "C55", "title": "Voxel tree queries by leading coordinates", "statement": "getAllLeafs with the leading coordinates of a position returns, each once, exactly the leaves that getLeafElement finds for some completion of these coordinates inside the extends, and getMaxEntry returns one of them with the largest entry, or null if there are none.", "quantifier": "every tree of at least two levels built by writes, every prefix of coordinates inside the extends, every ordering of entries", "why_tests_cant": "The children to visit at each level are enumerated by bit patterns that mix fixed and free dimensions; completeness and absence of duplicates concern all tree shapes.", "anchors": ["VirtualRobot/Workspace/VoxelTreeND.hpp: getAllLeafs, getMaxEntry", "VirtualRobot/Workspace/VoxelTreeNDElement.hpp: getAllLeafs, maxLeaf, getAllChildrenIndx"]}
{"id": "C56", "title": "Rotation between two vectors", "statement": "MathTools::getRotation(from,to), for any two non-zero vectors (parallel and antiparallel ones included), returns a unit quaternion whose rotation turns from into a positive multiple of to. With a zero vector it returns the zero quaternion, which is no rotation.", "quantifier": "all pairs of real vectors", "why_tests_cant": "The degenerate directions are branches of their own, and the claim is over a continuum.", "anchors": ["VirtualRobot/MathTools.cpp: getRotation"]}
{"id": "C57", "title": "Mean of quaternions", "statement": "MathTools::getMean of unit quaternions is a unit quaternion; if all of them stand for one rotation (whatever their signs), so does the mean; of an empty list it is the identity.", "quantifier": "all lists of unit quaternions", "why_tests_cant": "Lists of any length and every choice of signs.", "anchors": ["VirtualRobot/MathTools.cpp: getMean"]}
{"id": "C58", "title": "Axis-angle matrices", "statement": "MathTools::axisangle2eigen4f(axis, angle, m) writes, for every axis of length one and every angle, a rotation matrix: it fixes the axis, equals the matrix of the quaternion (axis*sin(angle/2), cos(angle/2)), is the identity at angle 0, and rotations about one axis compose by adding the angles. The axis is not normalised: with another length the result need not be a rotation.", "quantifier": "all unit axes and all real angles", "why_tests_cant": "Identities over a continuum of axes and angles.", "anchors": ["VirtualRobot/MathTools.cpp: axisangle2eigen4f"]}
{"id": "C59", "title": "Distance to a joint target", "statement": "RobotNode::getDelta(target): for a limitless joint, value + delta is the angle of the target (up to full turns), and |delta| <= pi whenever the target is at most 3 pi away; for a joint with limits it is target - value if the target is within the limits and 0 otherwise.", "quantifier": "all joints, values and targets", "why_tests_cant": "A continuum of values, with wrap around.", "anchors": ["VirtualRobot/Nodes/RobotNode.cpp: getDelta"]}
{"id": "C60", "title": "Collision queries are exact on meshes", "statement": "For two triangle meshes at any rigid poses, the collision query answers true exactly if some point of one mesh, placed at its pose, coincides with a point of the other, provided every triangle has an area and the eigenvector routine converges on every selection of triangles; without the area a free answer still means that the meshes are disjoint. The boxes fitted to triangles contain them, boxes found disjoint share no point, and two triangles with an area pass the contact test exactly if they share a point. For triangles without an area the contact test may report a contact of triangles that are apart.", "quantifier": "every pair of meshes, poses, descent heuristic, content of uninitialised memory and outcome of the rounding-dependent negligibility tests", "why_tests_cant": "tests sample a few meshes and poses; a missed contact depends on the relative pose of boxes at any level of the tree", "anchors": ["VirtualRobot/CollisionDetection/PQP/PQP++/PQP.cpp PQP_Collide, TriContact, project6", "VirtualRobot/CollisionDetection/PQP/PQP++/OBB_Disjoint.h obb_disjoint", "VirtualRobot/CollisionDetection/PQP/PQP++/BV.cpp FitToTris", "VirtualRobot/CollisionDetection/PQP/PQP++/Build.cpp", "VirtualRobot/CollisionDetection/PQP/PQP++/MatVec.h Meigen", "VirtualRobot/CollisionDetection/PQP/CollisionCheckerPQP.cpp checkCollision"]}
{"id": "C61", "title": "The Jacobian is the derivative of forward kinematics", "statement": "For every robot whose nodes are at the poses of forward kinematics, DifferentialIK::getJacobianMatrix(tcp, mode) has for every joint of the node set a column holding the selected coordinates of the velocity and angular velocity with which forward kinematics moves the tcp when that joint alone moves, expressed in the chosen coordinate system; joints the tcp does not depend on have zero columns. The tcp must be a robot node or attached to one. With several tcps the parts are stacked in order. Two things do not hold and are refuted: with the conversion to metres only the columns of revolute joints are converted, and joints that follow another joint (propagated joint values) are not accounted for.", "quantifier": "all kinematic trees, joint kinds, axes, joint values, node sets, tcps, selections and coordinate systems", "why_tests_cant": "A test compares with finite differences for some robot and configuration, up to some tolerance; the exact derivative for every tree and configuration is a theorem of analysis about the recursion.", "anchors": ["VirtualRobot/IK/DifferentialIK.cpp: updateJacobianMatrix", "VirtualRobot/Nodes/RobotNode.cpp: getAllParents", "VirtualRobot/Nodes/RobotNodeRevolute.cpp: getJointRotationAxis", "VirtualRobot/Nodes/RobotNodePrismatic.cpp: getJointTranslationDirection"]}
{"id": "C62", "title": "What DifferentialIK::solveIK returns is true of the robot", "statement": "For every robot, node set, goals and step function, solveIK (computeSteps) ends after at most the given number of steps and moves only the joints of the node set, which stay within their limits. If it returns true every tcp is within the position and rotation tolerances of its goal in the selected coordinates, and this is the first step after which that is so. If it returns false, no step reached the goals and the robot is where it was after the step before the one that made it give up (last step, NaN step, too small a step, or no improvement); with checkImprovements the mean distance never grew between the steps kept. It is not true that a goal reached from the start makes it return true, nor that with checkImprovements the result is at least as near as the start.", "quantifier": "all robots, node sets, goals, selections, tolerances, step functions (with NaN), numbers of steps", "why_tests_cant": "quantifies over all robots, all step functions and all numbers of steps; a test runs a few", "anchors": ["VirtualRobot/IK/DifferentialIK.cpp: computeSteps, solveIK, checkTolerances, getErrorPosition, getErrorRotation, getMeanErrorPosition", "VirtualRobot/RobotNodeSet.cpp: setJointValues"]}
{"id": "C63", "title": "What GenericIKSolver::solve returns is true of the robot", "statement": "For every robot, pose and all random numbers, solve(pose, selection, maxLoops) ends and moves only the joints of the node set. True: the tcp is at the pose within the tolerances and the collision manager reports no collision. An unreachable pose: false, robot untouched. False otherwise: all maxLoops attempts failed and the robot is where one of them ended: the nearest of the random attempts if that is nearer than the robot was at the beginning, else the first attempt. It is not true that the robot ends at the best of all attempts: the first attempt is recorded with the distance from before it.", "quantifier": "all robots, node sets, poses, selections, random numbers, step functions, collision checks, reachability maps, numbers of attempts", "why_tests_cant": "random restarts: a test sees a few runs of the random generator", "anchors": ["VirtualRobot/IK/GenericIKSolver.cpp: solve, trySolve, setJointsRandom", "VirtualRobot/IK/DifferentialIK.cpp: solveIK"]}
{"id": "C64", "title": "AdvancedIKSolver restores the robot and finds a grasp if a call finds one", "statement": "solveNoRNSUpdate always leaves the robot as it was, and the joint values it returns take the tcp to the pose without a collision. solve(object, grasp) returns true only with the tcp at the grasp's pose and otherwise restores the robot. solve(object) ends after at most as many calls as the object has grasps for the end effector, whatever the random choices; a grasp it returns is a copy (not a member) of one of the object's grasps, with the tcp at its pose; null means that every grasp was tried from the starting position without success and the robot is as it was. (An object without a grasp set for the end effector makes it call clone through a null pointer.)", "quantifier": "all robots, objects, sets of grasps, random choices, solver outcomes", "why_tests_cant": "the random order of the grasps and the outcomes of the solver make unboundedly many runs", "anchors": ["VirtualRobot/IK/AdvancedIKSolver.cpp: solveNoRNSUpdate, solve, sampleSolution", "VirtualRobot/Grasping/GraspSet.cpp: clone, removeGrasp"]}
{"id": "C65", "title": "Collision queries on objects, robots and sets look at all pairs", "statement": "checkCollision on two scene objects or robots (in either order), an object or robot and a set, two sets, a collision model and a set, or several collision models and one is true exactly if some collision model of the one side touches one of the other side; for a robot these are the models of all its nodes. For a set and a point the same holds with tolerance 0 or 50. It is not true in general: a robot whose nodes belong to another collision checker never collides, a robot put into a set is ignored, an object without a collision model makes it follow a null pointer, and every tolerance other than 0 is taken for 50.", "quantifier": "all scenes, robots, sets (also empty ones), collision models, answers of the pairwise test", "why_tests_cant": "any number of objects and nodes, with the touching pair anywhere among them", "anchors": ["VirtualRobot/CollisionDetection/CollisionChecker.cpp: checkCollision, getRobotModels", "VirtualRobot/CollisionDetection/PQP/CollisionCheckerPQP.cpp: checkCollision", "VirtualRobot/SceneObjectSet.cpp: getCollisionModels, addSceneObject"]}
{"id": "C66", "title": "Distance queries on objects, robots and sets return the nearest pair", "statement": "calculateDistance on two scene objects or robots, an object or robot and a set, two sets, or a collision model and a set returns the distance, points and triangle numbers of a pair of collision models, one from each side, and no other pair is closer; the first point and number always belong to the first argument. With no collision model on a side the result is -1 and the points are untouched. It is not true for a set with a robot in it: the robot is ignored.", "quantifier": "all scenes, robots, sets, collision models, answers of the pairwise distance up to FLT_MAX", "why_tests_cant": "any number of objects and nodes, with the nearest pair anywhere among them and the roles exchanged for robots", "anchors": ["VirtualRobot/CollisionDetection/CollisionChecker.cpp: calculateDistance, getRobotModels"]}
{"id": "C67", "title": "Projection to planes and plane coordinates", "statement": "projectPointToPlane gives a point of the plane that is nearer than every other point of it, and getDistancePointPlane its distance, positive on the side of the normal and negative on the other. planePoint3D maps plane coordinates to the plane, keeping distances and reaching every point; projectPointToPlane2D gives coordinates that keep the distances of the projections. Going there and back gives the projection moved by a vector that is the same for all points; it is zero if the plane is given by the origin or has an upright normal. That the round trip always gives the projection is refuted.", "quantifier": "all planes with a nonzero normal and all points", "why_tests_cant": "real-valued identities over all planes and points; a test can only try some planes, and those through the origin hide the defect", "anchors": ["VirtualRobot/MathTools.cpp: getDistancePointPlane, projectPointToPlane, onNormalPointingSide, planePoint3D, projectPointToPlane2D", "VirtualRobot/MathTools.h: Plane"]}
{"id": "C68", "title": "Intersection of a segment or a box with a plane", "statement": "intersectSegmentPlane reports exactly the segments with one end on the normal's side (or in the plane), the other strictly on the other side and distances differing by at least 1e-6, and stores the only common point. intersectOOBBPlane stores points that are in the box and in the plane and pairwise more than 1e-6 apart; if no corner is within 5e-7 of the plane, every common point of box and plane is within 1e-6 of the convex hull of the points found. changeCoordSystem gives the smallest box of the new frame that contains the old one. That touching is always reported is refuted, for segments and for boxes.", "quantifier": "all segments, boxes, poses and planes", "why_tests_cant": "completeness of the section of a box is a statement about infinitely many points and all positions of the plane", "anchors": ["VirtualRobot/MathTools.cpp: intersectSegmentPlane, intersectOOBBPlane", "VirtualRobot/MathTools.h: OOBB"]}
{"id": "C69", "title": "Nearest points on lines and segments, and the line common to two planes", "statement": "nearestPointOnLine and nearestPointOnSegment give a point of the line or segment that is nearer than every other point of it, and distPointLine and distPointSegment its distance. intersectPlanes gives the line of exactly the common points of the two planes, through the one nearest to the point of the first plane, unless the planes are nearly parallel. Refuted: a segment with equal ends (the origin is returned), and planes at a small angle (taken for parallel).", "quantifier": "all lines, segments, pairs of planes and points", "why_tests_cant": "nearest means nearer than infinitely many other points, for all real inputs", "anchors": ["VirtualRobot/MathTools.h: BaseLine, nearestPointOnLine, nearestPointOnSegment, distPointLine, distPointSegment", "VirtualRobot/MathTools.cpp: intersectPlanes"]}
{"id": "C70", "title": "Triangles and normals of point sets", "statement": "getTriangleArea is half of base times height, independent of the order of the corners, and zero exactly if they are on a line; collinear means an area below 5e-7. findNormal has length one and is the normal of the plane of the points if three consecutive ones form a triangle. randomPointInTriangle gives points of the triangle only, and every one for some random numbers. Refuted: findNormal for points that are not on a line but have no such three consecutive ones, and an even spread of the random points.", "quantifier": "all triangles, point lists and random numbers", "why_tests_cant": "identities over all real triangles and lists of points of every length", "anchors": ["VirtualRobot/MathTools.cpp: getTriangleArea, collinear, findNormal, randomPointInTriangle"]}
{"id": "C71", "title": "Spherical coordinates", "statement": "toSphericalCoords gives the distance to the origin and angles in (-pi,pi] and [0,pi]; toPosition gives the point back from them, for all points at a distance of at least 1e-8; and coordinates away from the poles are given back by the point. For nearer points the direction is lost (refuted).", "quantifier": "all points and all coordinates", "why_tests_cant": "a round trip over all real points", "anchors": ["VirtualRobot/MathTools.cpp: toPosition, toSphericalCoords"]}
{"id": "C72", "title": "Contacts of an object with a plane", "statement": "CollisionChecker::getContacts(plane, model, contacts, maxDist) appends to the vector only world positions of vertices of the model, each with the plane's normal, and none further than maxDist above the plane; whenever some vertex is closer to the plane than maxDist, every vertex that is not more than maxDist above the plane is appended, so the bounding box test never loses a contact. For an object nowhere deeper than maxDist this gives the vertices near the plane. Refuted as found: vertices far below the plane also count as contacts, a vertex at exactly maxDist may be missed, and a model without vertices leads to a read outside a vector.", "quantifier": "all planes with a nonzero normal, all rigid poses, all models whose bounding box holds their vertices, all bounds maxDist >= 0 and all earlier contents of the vector", "why_tests_cant": "the pre-test with the turned and enlarged box could lose contacts only for particular orientations; tests try a few", "anchors": ["VirtualRobot/CollisionDetection/CollisionChecker.cpp:getContacts", "VirtualRobot/CollisionDetection/CollisionModel.cpp:getModelVeticesGlobal", "VirtualRobot/BoundingBox.cpp:planeGoesThrough"]}
{"id": "C73", "title": "Support polygon and stability index", "statement": "SupportPolygon::updateSupportPolygon takes the ground positions of the model vertices near the floor, drops doubles and reports their convex hull, or no polygon if fewer than three are left. getStabilityIndex is a number between 0 and 1; it is 0 without a node set, without a polygon, for a polygon without area and if the projected centre of mass is outside; otherwise it is the distance of the centre of mass to the border of the polygon divided by that of the centre of the rectangle around the polygon, capped at 1, and so it is positive exactly for a centre of mass strictly inside, if that rectangle's centre is not on the border. Refuted as found: for a right triangle that centre lies on the border and the index is 0 everywhere.", "quantifier": "all sets of models, all finite sets of contact points, all positions of the centre of mass and all tolerances", "why_tests_cant": "the index is measured to lines through the edges and not to the edges; that this makes no difference needs convexity and holds for every polygon or not at all", "anchors": ["VirtualRobot/IK/SupportPolygon.cpp", "VirtualRobot/MathTools.cpp:getConvexHullCenter"]}
{"id": "C74", "title": "Closing and opening a hand", "statement": "EndEffector::closeActors ends if every joint of the hand has a nonzero speed and the step is not zero. It moves only joints of the hand, each by a whole number of steps in its direction, and never beyond its limits. When it returns, no joint of the hand can do another step: the step would leave the limits, or the actor would meet an obstacle, another actor or the static part. The contacts returned are exactly the pairs of a node and an obstacle that meet if one more step is done, each once, evaluated at the final joint values. Closing a closed hand changes nothing and reports the same pairs. openActors does the same in the other direction. Refuted as found: with a joint of speed 0 closing never returns.", "quantifier": "all hands, joint values, limits, speeds, steps, obstacles and outcomes of the collision checks", "why_tests_cant": "the result depends on every collision check along the way, and fingers can be released again by the movement of others; termination must hold for all of them", "anchors": ["VirtualRobot/EndEffector/EndEffector.cpp:closeActors", "VirtualRobot/EndEffector/EndEffector.cpp:openActors", "VirtualRobot/EndEffector/EndEffectorActor.cpp:moveActorCheckCollision"]}
{"id": "C75", "title": "Closing a hand does not run into anything", "statement": "If no actor of the hand meets an obstacle, another actor or the static part before EndEffector::closeActors, then none does afterwards, provided that every actor which minds the static part also minds other actors. Refuted as found: an actor that minds the static part only is driven into another one, although that one minds actors.", "quantifier": "all hands, joint values, obstacles and symmetric collision tests that depend on the joints involved only", "why_tests_cant": "an actor that has stopped can be hit by one that is still moving; that this is always noticed must hold for every order of movements", "anchors": ["VirtualRobot/EndEffector/EndEffector.cpp:closeActors", "VirtualRobot/EndEffector/EndEffectorActor.cpp:moveActorCheckCollision", "VirtualRobot/EndEffector/EndEffectorActor.cpp:isColliding"]}
{"id": "C76", "title": "Building a triangle mesh", "statement": "A mesh built from triangles of points without NaN has exactly these triangles as faces, in this order, with the colours given; adding a triangle or another mesh leaves the faces there are as they are. Adding a mesh adds its faces with their points and colours up to the first one that lacks a vertex or a colour, where an exception is thrown. The stored bounding box is the smallest box around the vertices and equals what getSize gives; scaling scales all corners, and with factors that are not negative the box stays the smallest; the centre of mass lies in the box. Refuted: a triangle with a NaN corner is added as a face that refers to vertices of other triangles or to none; clear keeps the normals; colours given as vectors of four numbers are read behind their end; a negative scale factor turns the box inside out.", "quantifier": "all meshes, triangles, colours, scale factors and orders of adding", "why_tests_cant": "The faces refer to vertices by index from the end of the list; that every index stays right after any sequence of additions is an invariant over all histories.", "anchors": ["VirtualRobot/Visualization/TriMeshModel.cpp: addTriangleWithFace, addMesh, addVertex, addColor, addFace, clear, getSize, getCOM, scale, clone", "VirtualRobot/BoundingBox.cpp: addPoint, scale"]}
{"id": "C77", "title": "Merging vertices", "statement": "mergeVertices and removeUnusedVertices are free of undefined behaviour on exactly the meshes whose faces are made of vertices of the mesh. Removing unused vertices changes no triangle, leaves only used vertices and returns how many were removed. With an exact radius search, merging moves each corner along a chain of vertices with distances below the threshold; at the end no two vertices are closer than the threshold, all are used, and the rest of the faces is unchanged; if closeness is transitive on the vertices every corner moves less than the threshold, and two corners come to share a vertex exactly if they were close. Refuted: in a row of close vertices all become the last one, far beyond the threshold; the bounding box is not updated when vertices are removed.", "quantifier": "all meshes, thresholds and results orders of the radius search", "why_tests_cant": "The faces are redirected vertex by vertex with an index that is updated on the way; the claim covers every arrangement of vertices and faces.", "anchors": ["VirtualRobot/Visualization/TriMeshModel.cpp: mergeVertices, removeUnusedVertices"]}
{"id": "C78", "title": "Orienting the faces of a mesh", "statement": "checkAndCorrectNormals only turns triangles: the points of every face stay the same three. A mesh in which all neighbouring faces run through their common edge in opposite directions is left unchanged with result 0. If the faces can be oriented consistently by turning some, and every face but the first has a neighbour before it in the list, the result is consistent and the first face is as before. Flipping all faces reverses each, twice is the identity. Refuted: without that order of the faces a strip of four stays inconsistent; with the option inverted, consistent neighbours are made inconsistent; turning a face exchanges the colours of its corners.", "quantifier": "all meshes of triangles with three different corners", "why_tests_cant": "Whether faces fit is a global property of the mesh; the double loop turns faces that were looked at before.", "anchors": ["VirtualRobot/Visualization/TriMeshModel.cpp: checkAndCorrectNormals, checkFacesHaveSameEdge, flipVertexOrientations", "VirtualRobot/MathTools.h: TriangleFace::flipOrientation"]}
{"id": "C79", "title": "Adding missing normals and colours", "statement": "addMissingNormals keeps the indices there are; every missing index of a face whose first one is missing is set to a new entry with the normal of the face, the number returned is the number of entries added, nothing else changes. addMissingColors, after merging, gives every corner a colour: one it had is kept, a new one is that of a corner at the same vertex or the given colour, and new ones at the same vertex are equal. setColor gives every corner whose colour index is below the number of vertices the given colour. Refuted: a face that lacks only its second or third normal still lacks it; after merging, setColor leaves corners whose colour does not exist, so that the mesh cannot be added to another.", "quantifier": "all meshes and patterns of missing indices", "why_tests_cant": "Eight patterns per face, with indices that depend on all faces before.", "anchors": ["VirtualRobot/Visualization/TriMeshModel.cpp: addMissingNormals, addMissingColors, setColor"]}
{"id": "C80", "title": "A radius search in the kd-tree finds exactly the points within the radius", "statement": "A kd-tree can be built over any points, also if many of them coincide, whatever rounding does to the choice of the planes, and it holds every point exactly once. A radius search around any query gives exactly the points whose distance is below the radius, each once and with its distance, by ascending distance if asked for; with a tolerance eps it may miss points, but none whose distance times 1+eps is within the radius. In particular merging the vertices of a mesh sees exactly the pairs of vertices that are closer than the threshold. The tree needs leaves for at least one point: with a leaf size of zero building does not end.", "quantifier": "every number of points and dimension, every coordinate, every leaf size, every query, radius and tolerance, every metric that is a sum of monotone terms (L1 and L2)", "why_tests_cant": "the correctness of the pruning depends on all points, planes and queries at once; tests compare a few queries with brute force", "anchors": ["VirtualRobot/DataStructures/nanoflann.hpp: KDTreeSingleIndexAdaptor::buildIndex, divideTree, middleSplit_, planeSplit, computeInitialDistances, searchLevel, radiusSearch, RadiusResultSet", "VirtualRobot/DataStructures/KdTreePointCloud.h: PointCloud", "VirtualRobot/Visualization/TriMeshModel.cpp: mergeVertices"]}
{"id": "C81", "title": "A search for the k nearest points finds k nearest points", "statement": "For k of at least one, the search for the k nearest points of a query gives min(k, number of points) different points with their distances, in ascending order of distance, and no point that is left out is nearer than one that is given; what the arrays held before does not matter.", "quantifier": "every number of points and dimension, every coordinate, leaf size, query and k, any earlier contents of the arrays", "why_tests_cant": "the bound for the pruning changes while the search goes on; a wrong bound loses a neighbour only for special arrangements of points", "anchors": ["VirtualRobot/DataStructures/nanoflann.hpp: KNNResultSet::init, addPoint, worstDist; KDTreeSingleIndexAdaptor::knnSearch, findNeighbors, searchLevel"]}
{"id": "C82", "title": "Marching cubes gives a closed surface", "statement": "For every sampled field and level the triangles of the grid form an oriented surface: no directed side occurs twice, and every side is matched by its reverse in a neighbouring triangle unless it lies on the hull of the grid; if the hull is on one side of the level the surface is closed. The returned positions match in the same way as long as no crossed edge has both ends within the threshold 0.00001 of the level; with such an edge the surface can crack.", "quantifier": "every field on the grid points, every level, size and threshold", "why_tests_cant": "closedness depends on all 256 cases of the tables agreeing on every shared face, in every combination of neighbouring cells", "anchors": ["VirtualRobot/math/MarchingCubes.cpp: Process, Polygonise, VertexInterp, _edgeTable, _triTable"]}
{"id": "C83", "title": "Marching cubes puts the surface where the field has the level", "statement": "Every vertex lies on an edge of the grid whose ends are on different sides of the level, at the place where the linearly interpolated field has the level (or in an end within the threshold of it); every such edge carries a vertex; a cell gives at most five triangles, never reads an uninitialised vertex, and gives none exactly if all its corners are on one side.", "quantifier": "every field, level, size, cell and edge", "why_tests_cant": "a wrong table entry or a swapped corner shows only for some of the 256 cases and some fields", "anchors": ["VirtualRobot/math/MarchingCubes.cpp: Polygonise, VertexInterp, Process"]}
{"id": "C84", "title": "Extracting a single surface", "statement": "Starting in any cell of the grid, the extraction of a single surface ends, gives a surface that is closed (except on the hull), and is empty only if the grid has no surface; from a cell the surface meets it gives exactly the face-connected surface through this cell, each cell once. Calculate does this for every start closer to the center than half the width of the grid, and each vertex lies between two neighbouring samples where the interpolated field has the level. From a start off the surface several surfaces can be returned, and a start on the far hull is not a cell.", "quantifier": "every field, level, size, start and order of the search", "why_tests_cant": "quantifies over all fields and all histories of the queue", "anchors": ["VirtualRobot/math/MarchingCubes.cpp: ProcessSingleSurfaceOptimized, AddAndMark, IsValidIndex, Calculate"]}
{"id": "C85", "title": "The grid cache is transparent", "statement": "For every sequence of requests inside the grid the cache returns the value of the field at each point and asks the field exactly once per point; all corners of all cells are inside. Outside the grid a request can fill the place of another point.", "quantifier": "every sequence of requests, every field and size", "why_tests_cant": "a history property: an aliased or stale entry shows only after particular requests", "anchors": ["VirtualRobot/math/GridCacheFloat3.cpp: Get", "VirtualRobot/math/Array3D.h: Get, Set"]}
{"id": "C86", "title": "Force closure verdict", "statement": "After setContactPoints(ContactInfoVector) with at least one contact, isGraspForceClosure depends on these contacts only. Given that qhull returns the facets of the convex hull: a grasp whose cone forces can be combined to every wrench on the object is accepted; a rejected grasp has a wrench it cannot apply; if the origin is strictly inside the hull every wrench can be applied and the grasp is accepted; without contacts the answer is no. Not true: that accepted grasps can apply every wrench - the answer is yes when qhull fails, when there are fewer than four cone points, and for every grasp that has one contact of force zero (finger touching exactly).", "quantifier": "every list of contacts, every cone, every object length, every hull library that keeps its contract, every state of the measure before", "why_tests_cant": "The set of wrenches is infinite and the combinations are existential; a test sees one grasp and one hull.", "anchors": ["GraspPlanning/GraspQuality/GraspQualityMeasureWrenchSpace.cpp: isGraspForceClosure, calculateGWS, createWrenchPoints, isOriginInGWSHull", "GraspPlanning/ConvexHullGenerator.cpp: CreateConvexHull", "VirtualRobot/Grasping/BasicGraspQualityMeasure.cpp: setContactPoints"]}
{"id": "C87", "title": "Contact cones", "statement": "computeConePoints yields as many unit force directions as asked for, each at 45 degrees to the contact normal, starting on the line through the contact. They obey Coulomb's law for the friction coefficient given to the constructor if and only if that coefficient is at least one. Not true: that the coefficient decides how wide the cone is - with the default of 0.35 every direction is outside the friction cone, and a contact with negative force gets a cone on the wrong side.", "quantifier": "every number of samples, friction coefficient, unit force, contact with a unit normal", "why_tests_cant": "The claim is about all normals and coefficients; the error does not show for the coefficient one.", "anchors": ["GraspPlanning/ContactConeGenerator.cpp: ContactConeGenerator, computeConePoints", "VirtualRobot/MathTools.cpp: getRotation"]}
{"id": "C88", "title": "Grasp quality", "statement": "For contacts with a hull of positive volume, getGraspQuality times the offset of the object wrench space is the radius of the largest six-dimensional ball inside the hull of the wrenches about the mean of the hull's vertices; getVolumeGraspMeasure is the ratio of the volumes; the basic measure is the number of contacts divided by five, at most one. The answers depend on the contacts set last and on the object wrench space only. Not true: that a positive quality implies force closure (the ball is not about the origin); that without contacts the quality is zero (it is that of the previous contacts); that the overload for a vector of ContactPoint sets the contacts (it ignores its argument).", "quantifier": "every list of contacts, every history of calls, every hull library that keeps its contract", "why_tests_cant": "Largest ball and history independence quantify over all points, radii and earlier calls.", "anchors": ["GraspPlanning/GraspQuality/GraspQualityMeasureWrenchSpace.cpp: getGraspQuality, calculateGraspQuality, minOffset, getVolumeGraspMeasure, preCalculatedOWS", "VirtualRobot/Grasping/BasicGraspQualityMeasure.cpp: setContactPoints, getGraspQuality"]}
{"id": "C89", "title": "Grasps returned by the planner are sound, counted and numbered", "statement": "plan(n, timeout) returns the number of grasps it appended to the grasp set and to the list of planned grasps, at most n. Each of them comes from a hand that closed around the object with at least two contacts, touches no obstacle, reaches the demanded quality and, if demanded, force closure; its pose, joint values and quality are those of the closed hand. The grasps are numbered on from the size of the set. Fewer than n are planned only when the time ran out, and planning ends once it has. A timeout of zero does not switch the limit off as documented: nothing is planned. After a retreat the hand may start to close from inside an obstacle, and after a removal from the set a name may repeat.", "quantifier": "Every hand, object, approach generator, collision checker, quality measure and clock, every demanded number, quality and timeout, every state of the planner.", "why_tests_cant": "The planner is driven by random approach poses, collisions and time; a test sees a few runs of one generator.", "anchors": ["GraspPlanning/GraspPlanner/GenericGraspPlanner.cpp: plan, planGrasp, moveEEFAway, timeout", "GraspPlanning/GraspPlanner/GenericGraspPlanner.h: plan"]}
{"id": "C90", "title": "The planner's evaluation agrees with what it planned", "statement": "At all times the evaluation has one entry per attempt in each of its lists, the attempts are the valid ones plus those rejected for collision, missing contacts and missing quality or force closure, and the valid entries are exactly the grasps that were returned, with their scores. The report never runs over its lists; its averages are the mean time of all attempts, the shares one and zero of power and precision grasps, and the mean score of the valid grasps. The demanded quality kept with the evaluation is not updated when the parameters change and is lost when the evaluation is cleared.", "quantifier": "Every sequence of planning calls with every generator, checker, measure and clock.", "why_tests_cant": "The outcome of the attempts is random; agreement must hold over every history of attempts.", "anchors": ["GraspPlanning/GraspPlanner/GraspPlannerEvaluation.cpp: toCSVString, constructor", "GraspPlanning/GraspPlanner/GenericGraspPlanner.cpp: planGrasp, setParameters", "GraspPlanning/GraspPlanner/GraspPlanner.cpp: clearEvaluation"]}
{"id": "C91", "title": "Approach frames lie on the object's surface and look against its normal", "statement": "The point drawn on the object is a point of the face that was drawn, and the approach direction is the normal of this face with length one. Placing the hand there gives its grasp point a right handed orthonormal frame at the point whose third axis is opposite to the approach direction (unless the orientation is nearly the identity, see C36); it is refused only when none of a thousand random directions is of use. The option to draw faces in proportion to their area has no effect, and the pose of the object is ignored: the point is on the object only if the object is at the origin.", "quantifier": "Every triangle mesh, every random number, every direction that is not tiny, every hand.", "why_tests_cant": "Random draws over all meshes; orthonormality must hold for each of them.", "anchors": ["GraspPlanning/ApproachMovementSurfaceNormal.cpp: constructor, getPositionOnObject, setEEFToApproachPose", "VirtualRobot/MathTools.cpp: randomPointInTriangle"]}
{"id": "C92", "title": "New approach poses are retreated to be free, and the hand is put back", "statement": "moveEEFAway moves the hand by whole steps along the direction, as long as it collides and at most the given number of times. createNewApproachPose opens the hand, returns the frame on the surface moved out along the normal by whole millimetres plus, if wanted, the random distance, and puts the hand back to the pose it had. Without a random distance the open hand is free at the returned pose unless a thousand steps did not suffice. With a random distance the pose may collide, since the original hand is checked instead of the moved one; after a thousand steps a colliding pose is returned; and if the preshape has a TCP of its own, a move by zero moves the hand.", "quantifier": "Every hand, object, collision checker, random draw and pose of the hand.", "why_tests_cant": "All poses and all outcomes of the collision checker along the way.", "anchors": ["GraspPlanning/ApproachMovementSurfaceNormal.cpp: createNewApproachPose, moveEEFAway, setEEFPose, getEEFPose", "GraspPlanning/ApproachMovementGenerator.cpp: updateEEFPose, setEEFToRandomApproachPose, openHand"]}
{"id": "C93", "title": "Histogram bins count the values that belong to them", "statement": "A histogram with limits min < max counts in each bin exactly the values between the edges of the bin (the last bin also those above), so every value is counted once and the counts add up to their number. Limits taken from the data are its smallest and greatest value. getMaxBinIndex and getMinBinIndex give the first of the fullest and emptiest bins, and the value of a bin is its lower edge. Contrary to the interface the value is not the centre of the bin, getMinBinValue returns the value of the fullest bin, the median filter of any size above zero reads before the first bin, and data of one value or far below the limits is undefined behaviour.", "quantifier": "Every list of values, all limits and all numbers of bins.", "why_tests_cant": "All values and bin numbers, including the borders of the bins.", "anchors": ["VirtualRobot/math/Histogram.cpp: constructors, insert, valueToIndex, indexToValue, getMinBinIndex, getMaxBinIndex, getMinBinValue, applyMedianFilter", "VirtualRobot/math/Histogram.h"]}
{"id": "C94", "title": "Curves and their derivatives agree", "statement": "A cubic Bezier curve starts at its first and ends at its last control point, leaves and arrives along its inner control points, stays in the convex hull of its control points for parameters in [0,1], is reversed by reversing its control points, and the derivative it reports is its derivative at every parameter. Its sampled points are equidistant in the parameter and include both ends. The linearly continued Bezier curve is the Bezier curve inside [0,1], a straight line outside, and has the reported derivative everywhere, also at the two joints. The same holds for lines, for curves stretched to another interval, and for curves moved by a pose; a rigid motion keeps distances along the curve.", "quantifier": "all control points, parameters, intervals, poses and differentiable curves", "why_tests_cant": "The derivative is a limit at every real parameter, with a case distinction exactly at the joints, which sampling misses.", "anchors": ["VirtualRobot/math/Bezier.cpp", "VirtualRobot/math/LinearContinuedBezier.cpp", "VirtualRobot/math/CompositeFunctionR1R6.cpp", "VirtualRobot/math/TransformedFunctionR1R3.cpp", "VirtualRobot/math/Line.cpp:Line::Get"]}
{"id": "C95", "title": "Line strips and sampled curves", "statement": "A line strip of at least two points passes through its points at equidistant parameters, is straight in between, continues its first and last segment outside its interval, never throws, and stays at its first point when its interval is empty. A strip of a single point throws at every parameter (refuted). The segments of a curve are equidistant parameters including both ends; the closest point search returns a sampled parameter whose point is nearest among all samples; the approximated length is at least the distance of the end points and exact for straight lines. Moving by a length along a curve of constant speed never overshoots; that it moves by the requested length is refuted: on a straight line of unit speed it moves by the length divided by the square root of two.", "quantifier": "all point lists, intervals, parameters, curves and numbers of steps", "why_tests_cant": "The claims range over all real parameters, point lists and step counts; the boundary cases are single parameters.", "anchors": ["VirtualRobot/math/LineStrip.cpp:LineStrip::Get", "VirtualRobot/math/Helpers.cpp:Helpers::GetIndex", "VirtualRobot/math/AbstractFunctionR1R3.cpp"]}
{"id": "C96", "title": "Rays and triangles", "statement": "For a line that is not parallel to a triangle the intersection test reports a hit at t exactly if t is positive and the point at t is in the triangle, borders included; there is at most one hit and the order of the corners does not matter. For a parallel line or a degenerate triangle no finite hit is reported; but a line parallel to the edge between the first and third corner, beside the triangle, is reported as a hit at infinity (refuted). A list of triangles is hit exactly at the smallest hit of its triangles.", "quantifier": "all lines, triangles and lists of triangles over the reals; the sign of a zero determinant is arbitrary", "why_tests_cant": "Exactness ranges over all rays; the failing case is a single direction per triangle.", "anchors": ["VirtualRobot/math/Line.cpp:Line::IntersectsTriangle", "VirtualRobot/math/Line.cpp:Line::IntersectsPrimitive"]}
{"id": "C97", "title": "Closest points and intersections of lines and planes", "statement": "The closest point of a line or of an implicit plane lies on it and no other point of it is nearer; the line parameter of a point of the line is its parameter; the distance vector points from the closest point to the point; Get of an implicit plane is zero exactly on the plane, changes sign with the side and is the distance times the length of the normal. Normalizing and flipping keep the points of the plane. The intersection of two planes that are not parallel is a line of exactly the common points; a plane and its implicit form have the same points. That GetSignedDistance is zero on the plane is refuted: it is off by twice the offset.", "quantifier": "all lines, planes and points over the reals", "why_tests_cant": "The claims are about nearest points among infinitely many and equality of point sets.", "anchors": ["VirtualRobot/math/Line.cpp", "VirtualRobot/math/ImplicitPlane.cpp", "VirtualRobot/math/Plane.cpp:Plane::ToImplicit"]}
{"id": "C98", "title": "Plane coordinates, frames and triangle subdivision", "statement": "For orthonormal directions the coordinates of a plane recover every point and give its closest point; directions that are normalized but not orthogonal are accepted and give wrong coordinates (refuted). For every vector but zero GetOrthonormalVectors returns a right-handed orthonormal frame whose third axis has the direction of the vector, and a plane made from a normal has this normal. Subdividing a triangle n times gives 3^n triangles that lie in it, cover it, keep its orientation and have equal areas. Flipping turns the normal round, scaling never does.", "quantifier": "all planes, vectors, triangles and depths", "why_tests_cant": "Covering and orthonormality must hold for every point and vector, with a case distinction near the z axis, and for every depth.", "anchors": ["VirtualRobot/math/Plane.cpp", "VirtualRobot/math/Helpers.cpp:Helpers::GetOrthonormalVectors", "VirtualRobot/math/Triangle.cpp"]}
{"id": "C99", "title": "Kernels and their derivatives", "statement": "The derivatives which the Williams kernels report are those of their value: the first derivatives with respect to each coordinate of either point exist everywhere and have the reported values, also where the points coincide; for the plus kernel the same holds for all mixed second derivatives. For the minus kernel the reported second derivatives are wrong (the diagonal by a term and the off-diagonal by a sign). The kernel with derivative indices is symmetric under exchange of the points together with the indices. The Gaussian kernel is symmetric, in (0,1] and one exactly for equal points, and throws for every derivative; an axis index above three throws.", "quantifier": "all pairs of points (also coinciding), radii, axes, length scales", "why_tests_cant": "A derivative is a limit over all small shifts and must hold at every pair of points, including the singular one; finite differences on samples only approximate it.", "anchors": ["VirtualRobot/math/Kernels.cpp: KernelWithDerivatives::Kernel, Kernel_di, Kernel_dj, Kernel_didj, swap, WilliamsPlusKernel, WilliamsMinusKernel, GaussianKernel"]}
{"id": "C100", "title": "Gaussian implicit surfaces pass through their samples", "statement": "If the covariance matrix is inverted correctly, Predict at a sample differs from the value of the sample exactly by the squared noise of the sample times its weight, so a sample without noise is met exactly and has variance zero, whatever the other samples are. The surface of contacts with normals, without noise, vanishes at every contact point and its gradient there is the normal of the contact. The radius is the greatest distance of two samples. The parameter normalScale has no effect on the surface; the noise is not added to all rows of the matrix with derivatives but only to the first quarter.", "quantifier": "all lists of samples and contacts, all symmetric kernels, positions, noises and inverses", "why_tests_cant": "The property relates the surface at each sample to the solution of a linear system of any size; tests see few sizes and only approximate gradients.", "anchors": ["VirtualRobot/math/GaussianImplicitSurface3D.cpp: Calculate, Predict, GetVariance, CalculateCovariance, MatrixInvert", "VirtualRobot/math/GaussianImplicitSurface3DNormals.cpp: Calculate, Predict, getCux, CalculateCovariance"]}
{"id": "C101", "title": "Shifting angles terminates and keeps the direction", "statement": "Over the real numbers ShiftAngle0_2PI returns for every angle, after finitely many steps, an angle in [0, 2 pi] of the same direction, unchanged if it is there already; AngleModPI likewise for [-pi, pi]. The result is not canonical: 0 and 2 pi both stay. In single precision the function does not return for large angles: for 2^30 subtracting a turn gives the same number again.", "quantifier": "all angles; for the refutation all numbers of loop iterations", "why_tests_cant": "Termination and the range must hold for every real angle; the divergence shows only for huge angles.", "anchors": ["VirtualRobot/math/Helpers.cpp: ShiftAngle0_2PI, AngleModPI"]}
{"id": "C102", "title": "Clamping, interpolation, ranges and averages", "statement": "Clamp gives the value of the interval that is nearest; Lerp passes through both ends, stays between them for factors in [0,1], and ILerp inverts it; on integer ranges the steps are equal and an empty range gives the first end. FloatRange gives steps + 1 equally spaced values from start to end for a positive number of steps, but for zero steps it gives one NaN. VectorRange gives every combination of coordinates, in lexicographic order. Average is the componentwise mean, within the bounds of the vectors, and zero for none. Sign is -1, 0 or 1 and odd.", "quantifier": "all reals, lists of any length and numbers of steps", "why_tests_cant": "The lists have any length; order, count and bounds must hold for all of them.", "anchors": ["VirtualRobot/math/Helpers.cpp: Clamp, Lerp, ILerp, Sign, FloatRange, VectorRange, Average"]}
{"id": "C103", "title": "Limiting a vector", "statement": "LimitVectorLength throws exactly if there is neither one limit nor one for each component. A vector within its limits is unchanged (a negative limit is none); the result is a positive multiple of the vector. But a vector beyond its limits is not shortened: as the code divides by the scale it gets longer, so the result always exceeds the limit even more, or is infinite if a nonzero component has the limit zero.", "quantifier": "all vectors and limits of any size", "why_tests_cant": "The scale is a minimum over all components, so the claim ranges over vectors of every size and all combinations of limits.", "anchors": ["VirtualRobot/math/Helpers.cpp: LimitVectorLength"]}
{"id": "C104", "title": "Grids, caches and weighted averages", "statement": "The grid between two points has these as corners and (sx+1)(sy+1)(sz+1) points, those of all indices. Cells of a cube have distinct places in the array. A grid cache answers every sequence of calls inside the cube with the data of the cells and computes the data of each cell exactly once if it is asked for; outside the cube it may answer with the data of another cell instead of throwing. The weighted average is the weighted sum over the sum of weights, does not depend on the order and is between the extreme values for weights that are not negative; it divides by zero if the weights sum to zero.", "quantifier": "all grids, all sequences of calls, all lists of values and weights", "why_tests_cant": "Cache coherence is a property of every history of calls; unit tests try a few.", "anchors": ["VirtualRobot/math/Grid3D.cpp: Get, AllGridPoints", "VirtualRobot/math/Array3D.h: Get, Set", "VirtualRobot/math/GridCacheFloat3.cpp: Get", "VirtualRobot/math/WeightedAverage.cpp: Add, Average"]}
{"id": "C105", "title": "Pose helpers", "statement": "InvertPose gives for a rigid pose the pose that undoes it on every point; transformations compose, and differences of positions are transformed as directions. Points from cylinder and sphere coordinates are on the cylinder and sphere of the radius. OrthogonalizeSVD gives a rotation for every matrix, the closest orthogonal matrix if the determinant is positive, but not the closest rotation if it is negative; OrthogonalizeQR gives an orthogonal matrix which may be a reflection; both leave rotations as they are. The distance of two rigid poses is not negative, symmetric and zero exactly for equal poses, and is the distance of the positions plus the weighted angle between the orientations. RotationVectorToOrientation gives the rotation about the vector by its length and inverts GetRotationVector.", "quantifier": "all poses, points, matrices with any decomposition, rotation vectors", "why_tests_cant": "Closeness is a minimum over all orthogonal matrices, and the rest ranges over all poses.", "anchors": ["VirtualRobot/math/Helpers.cpp: InvertPose, TranslatePose, TransformPosition, TransformDirection, TransformOrientation, CartesianFromCylinder, CartesianFromSphere, OrthogonalizeSVD, OrthogonalizeQR, Distance, GetRotationVector, RotationVectorToOrientation"]}
{"id": "C106", "title": "Interpolated orientations", "statement": "LinearInterpolatedOrientation starts at the first orientation and gives rotations throughout. If the rotation is at least 0.01 radians and its squared speed at least 1/1000 it ends at the second orientation, the reported derivative is its angular velocity, and if clamped it stays at the ends outside the interval with derivative zero. Otherwise it does not move at all: the end is not reached, although a nonzero derivative may be reported; so Lerp of two orientations less than 0.0316 radians apart always gives the first.", "quantifier": "all pairs of orientations, intervals, times, and both modes", "why_tests_cant": "The angular velocity is a limit at every time, and the slow case depends on a threshold between angle and duration.", "anchors": ["VirtualRobot/math/LinearInterpolatedOrientation.cpp: LinearInterpolatedOrientation, Get, GetDerivative", "VirtualRobot/math/Helpers.cpp: Lerp, LerpClamp"]}
{"id": "C107", "title": "A robot with another root: structure", "statement": "RobotFactory::cloneInversed on a robot whose nodes form a tree ends and, if no node has a special type, gives a robot. The clone has the same nodes, is a tree with the given node as root, and has the same links, just those on the way from the old root to the new one turned round. It is not so that a robot with valid node types can always be cloned: a joint node gets the model of its old parent and initialisation throws (refuted).", "quantifier": "all robots that are trees, all nodes as new root", "why_tests_cant": "Robots are trees of any shape and size; tests use one or two robots.", "anchors": ["VirtualRobot/RobotFactory.cpp RobotFactory::cloneInversed, cloneChangeStructure", "VirtualRobot/Nodes/RobotNode.cpp RobotNode::initialize"]}
{"id": "C108", "title": "A robot with another root: models", "statement": "In a robot made by cloneInversed every model but that of the new root is shown, at all joint values. Set to the same joint values, the models on the way to the new root, and those that hang on joints at rest, have the relative poses which they have in the robot. It is not so for all models: what hangs off the way on a joint that is not at rest is not moved with it (refuted).", "quantifier": "all robots that are trees of rigid transformations, all new roots, all joint values", "why_tests_cant": "A wrong inversion shows only at joint values and on branches that a test does not use.", "anchors": ["VirtualRobot/RobotFactory.cpp RobotFactory::cloneInversed, cloneChangeStructure, accumulateTransformations"]}
{"id": "C109", "title": "A robot with another root: masses and sensors", "statement": "In a robot made by cloneInversed the mass of a node on the way to the new root is carried by the next node on the way, with the centre of mass where the model of the node is; nodes off the way keep mass and centre. The masses add up to those of the robot without that of the new root (that the mass is kept is refuted). Sensors off the way stay where they were at the model of their node; those on the way are displaced by the transformation of the next node (that they keep their place is refuted).", "quantifier": "all robots that are trees of rigid transformations, all new roots, all joint values, all masses", "why_tests_cant": "Sums over trees of any shape, and places for all joint values.", "anchors": ["VirtualRobot/RobotFactory.cpp RobotFactory::cloneChangeStructure", "VirtualRobot/Nodes/Sensor.cpp Sensor::clone"]}
{"id": "C110", "title": "Robots made of a node set: which nodes", "statement": "RobotFactory::cloneSubSet gives a robot exactly if the set is not empty and each of its nodes, the kinematic root first (added if it is not in the set), lies above the next one; otherwise it throws. The nodes of the robot it gives are these, in this order.", "quantifier": "all robots that are trees, all node sets with their kinematic root", "why_tests_cant": "Sets and trees of any size.", "anchors": ["VirtualRobot/RobotFactory.cpp RobotFactory::cloneSubSet"]}
{"id": "C111", "title": "Robots made of a node set: places", "statement": "In a robot made by cloneSubSet the nodes, the models of the nodes united with them and the sensors of these have the poses which they have in the robot, whatever values the joints of the set are moved to, if the robot stands at the origin or the set starts with its root, and if each node of the set is the parent of the next or what lies between them commutes with the pose of the first. Without these conditions it is not so: between nodes further apart the wrong transformation is used, and the pose of the robot is applied twice (both refuted). The models united in the new root are where they were for a robot that stands at the origin.", "quantifier": "all robots that are trees of rigid transformations, all node sets, all joint values of the set", "why_tests_cant": "The error shows only for sets with gaps, robots away from the origin and moved joints.", "anchors": ["VirtualRobot/RobotFactory.cpp RobotFactory::cloneSubSet, accumulateTransformations, createUnitedRobotNode"]}
{"id": "C112", "title": "Robots made of a node set: nothing lost", "statement": "A robot made by cloneSubSet with at least two nodes contains every node of the robot exactly once, as a node of its own or united with one, and has the mass of the robot. For a single node that is its own kinematic root the mass is counted twice, and sensors of a node with nothing united below it are lost (both refuted).", "quantifier": "all robots that are trees, all node sets, all masses", "why_tests_cant": "A partition of trees of any shape.", "anchors": ["VirtualRobot/RobotFactory.cpp RobotFactory::cloneSubSet, getChildNodes, getChildSensorNodes, createUnitedRobotNode"]}
{"id": "C113", "title": "A data file name stands for the same file for as long as the program runs", "statement": "RuntimeEnvironment::getDataFileAbsolute leaves a name that is a regular file as it is, and otherwise gives the file below the first data path, in the order of getDataPaths, that has one; it returns false, with the name unchanged, only if there is none. Over every history of calls the data paths only grow at the end, each was a directory or a symbolic link when it was added, and after the first use exactly the paths which are named by addDataPath or --data-path and accepted are added; so a name that was found stands for the same file after any further calls. If SIMOX_DATA_PATH is accepted and VIRTUAL_ROBOT_DATA_PATH is unset or accepted, these and the paths of the build are used and nothing else. It is not true that the fallback paths are only used if nothing else was found (an invalid VIRTUAL_ROBOT_DATA_PATH brings them in), nor that every data path is a directory.", "quantifier": "all file systems (which may change between calls), environment variables, names and histories of calls", "why_tests_cant": "Tests run in one file system with one set of variables; the claim is about every history of calls and every state of the file system at each of them.", "anchors": ["VirtualRobot/RuntimeEnvironment.cpp: init, addDataPath, getDataFileAbsolute, getDataPaths, processCommandLine"]}
{"id": "C114", "title": "The value of a key is the last one that was set", "statement": "After every history of calls RuntimeEnvironment::getValue, hasValue and checkParameter answer with the value that was set last by addKeyValuePair or by a command line that gives the key, if the key had been asked for by considerKey before (the first value given on the line); without any they answer with the empty text, false and the standard. checkValidFileParameter gives the file which the value stands for, or else the file which the standard stands for, or else the standard as it is.", "quantifier": "all histories of calls, keys, values, command lines and file systems", "why_tests_cant": "The claim is about the interplay of any number of calls in any order.", "anchors": ["VirtualRobot/RuntimeEnvironment.cpp: addKeyValuePair, getValue, hasValue, considerKey, checkParameter, checkValidFileParameter, processCommandLine"]}
{"id": "C115", "title": "Vectors are read from text exactly if they are written as (a,b,c)", "statement": "RuntimeEnvironment::toVector3f succeeds exactly if the text is an opening parenthesis, three parts without commas separated by commas, and a closing parenthesis, and each part is converted to a finite number; the vector is then made of those numbers.", "quantifier": "all texts and all conversions of parts to numbers", "why_tests_cant": "There are infinitely many texts, and both directions are claimed.", "anchors": ["VirtualRobot/RuntimeEnvironment.cpp: toVector3f"]}
{"id": "C116", "title": "A linked coordinate stays where it is when its frame is changed", "statement": "LinkedCoordinate::changeFrame, called any number of times with any nodes and also with arguments for which it throws, does not move the coordinate in the world; it succeeds exactly for members of the robot and the coordinate then refers to that frame. getInFrame gives exactly the pose which, seen from the given node, is where the coordinate is, whichever frames it was put in before. A coordinate keeps its pose in its frame when the robot moves, and is the identity in the first frame chosen if it was never set. It is not true, as documented, that getInFrame gives a pose for a coordinate that was never set: it throws.", "quantifier": "all robots whose poses are rigid, all coordinates and all sequences of calls", "why_tests_cant": "The claim is about every sequence of frames in every state of every robot.", "anchors": ["VirtualRobot/LinkedCoordinate.cpp: set, changeFrame, getInFrame, getCoordinateTransformation"]}
{"id": "C117", "title": "A kinematic chain is a chain", "statement": "The constructor of KinematicChain succeeds exactly if there is a node and each node is somewhere above the next in the tree (otherwise it throws); its kinematic root is the given one if that is above all nodes. Then no node occurs twice and each node is above all later ones. RobotNodeSet::isKinematicChain is exact for sets with a node. It is not true that isKinematicChain is defined for a set without nodes, nor that the tcp of a chain is one of its nodes or below one.", "quantifier": "all robots that are trees, all lists of nodes, tcps and kinematic roots", "why_tests_cant": "The claim is about all trees and all lists of nodes.", "anchors": ["VirtualRobot/KinematicChain.cpp: KinematicChain::KinematicChain", "VirtualRobot/RobotNodeSet.cpp: RobotNodeSet::RobotNodeSet, isKinematicChain, isKinematicRoot", "VirtualRobot/SceneObject.cpp: hasChild"]}
{"id": "C118", "title": "The maximum extension bounds the reach of a chain", "statement": "For a chain without prismatic joints, with the kinematic root above its first node and the tcp at or below its last, the tcp is never further from the kinematic root than RobotNodeSet::getMaximumExtension, for all values of the joints of the chain, although the extension is computed from the present ones. It is not true with a prismatic joint, and the extension of a set without nodes is undefined.", "quantifier": "all robots, chains, present joint values and all other values of the joints of the chain", "why_tests_cant": "The bound is about the continuum of all joint values, tests sample a few.", "anchors": ["VirtualRobot/RobotNodeSet.cpp: getMaximumExtension", "VirtualRobot/SceneObject.cpp: getTransformationTo"]}
{"id": "C119", "title": "Masses, names and limits of a node set", "statement": "RobotNodeSet::getMass is the sum of the masses of the nodes; getCoM is zero without mass and otherwise, times the mass, the sum of the moments, so that with masses that are not negative it lies in every half space which has the centres of mass of all nodes. nodesSufficient is true exactly if the names of the tcp, of the kinematic root and of all nodes are among those given. checkJointLimits is true exactly if every value is within the limits of its joint, and throws for another number of values; respectJointLimits gives the nearest values within the limits.", "quantifier": "all robots, node sets, masses, centres of mass, lists of names, limits and values", "why_tests_cant": "The claims are about lists of any length and all real values.", "anchors": ["VirtualRobot/RobotNodeSet.cpp: getMass, getCoM, nodesSufficient, checkJointLimits, respectJointLimits", "VirtualRobot/Nodes/RobotNode.cpp: checkJointLimits, respectJointLimits"]}
{"id": "C120", "title": "Gravity compensation torques", "statement": "Gravity.computeGravityTorque returns for each joint of its set the torque that holds the weight of all bodies of the body set at or below the joint (9.81 m/s2 along -z, masses in kg, millimetres converted to metres): minus the sum over these bodies of the moment of the body's weight at its centre of mass about the joint's axis. That number is the derivative of the potential energy of the bodies by the joint value. It does not depend on earlier calls, and the robot may have moved since construction. The constructor throws for an empty joint set, for a joint that is not revolute and for a body with mass <= 0, and for nothing else. The map form gives each joint name its torque. Guards: children of one node have different names (a sensor or object named like a body beside it replaces the body in the map of children, and its weight is lost: refuted) and masses are unchanged since construction (refuted otherwise).", "quantifier": "every kinematic tree, joint values, masses, centres of mass, joint and body sets, call history", "why_tests_cant": "the recursion combines centres of mass over subtrees of arbitrary shape; equality with the sum over all bodies, and with the derivative of the energy, has to hold for every tree and posture", "anchors": ["VirtualRobot/Tools/Gravity.cpp: Gravity::Gravity, GravityData::init, GravityData::computeCoMAndTorque, Gravity::computeGravityTorque"]}
{"id": "C121", "title": "Colours of a colour map", "statement": "addColorKey accepts exactly the positions from 0 to 1. With keys at different positions, getColor(p) answers exactly for the positions between the lowest and the highest key, with the linear blend of the two keys next to p (the colour of the key itself at a key), components from 0 to 1, alpha turned into transparency; neither the order of adding keys nor the way std::sort treats ties matters. Refuted without the guards: two keys at the lowest position give black, fully transparent, at that position; a map with one key answers nothing.", "quantifier": "every list of keys, order of insertion, position and sorting algorithm", "why_tests_cant": "the space of key lists and positions is unbounded, and std::sort is only specified by its contract", "anchors": ["VirtualRobot/Visualization/ColorMap.cpp: ColorMap::addColorKey, ColorMap::sort, ColorMap::getColor"]}
{"id": "C122", "title": "Predefined and custom colour maps", "statement": "Every predefined map answers all positions from 0 to 1: at (i+s)/(n-1) with the blend at s of the entries i and i+1 of its table, whatever the map object contained before. A custom map of n >= 2 colours does the same with the given colours, up to the rounding to bytes (1/510 per component), and one of a single colour has it everywhere - in exact arithmetic. In single precision this is false (refuted): with eleven colours the positions add up to more than 1, the key of the last colour is refused and positions above 0.9 have no colour.", "quantifier": "every predefined map, every list of colours, every position", "why_tests_cant": "positions and colour lists are unbounded; the failure appears only for particular numbers of colours", "anchors": ["VirtualRobot/Visualization/ColorMap.cpp: ColorMap::create, ColorMap::customColorMap"]}
{"id": "C123", "title": "Pseudo inverses", "statement": "For every matrix of which the decomposition into singular values is right, and every tolerance that separates the zero singular values from the others, getPseudoInverse answers the Moore-Penrose inverse: applied to any right hand side it gives the shortest one of the best solutions in the sense of least squares, and the answer does not depend on which of the possible decompositions was found. Singular values not above the tolerance are treated as zero: the answer is the Moore-Penrose inverse of the matrix without them, so a small invertible matrix gets the inverse 0. getPseudoInverseDamped gives the minimum of the squared error plus lambda squared times the squared length.", "quantifier": "all sizes of matrices, all entries, tolerances and right hand sides", "why_tests_cant": "Tests check a few matrices; the claim is about every matrix of every size and about all competing solutions.", "anchors": ["VirtualRobot/MathTools.cpp: MathTools::getPseudoInverse, getPseudoInverseD, getPseudoInverseDamped, getPseudoInverseDampedD"]}
{"id": "C124", "title": "Inverse Jacobians of a provider", "statement": "The inverse Jacobian computed by a provider with method eSVD solves every error as well as possible; with joint weights it does so with the smallest weighted sum of squares of joint changes, without weights with the shortest change; with a regularization the rows of the error count scaled by it. Weights that are zero or negative are refused by an exception; a number of weights different from the number of joints has no effect. With method eTranspose the result, where it is defined, solves every error exactly, again with the smallest weighted change. With method eSVDDamped the result is the damped minimum with the damping set at the provider and joint weights have no effect; in the versions for double the damping set is ignored (it is always 1).", "quantifier": "all sizes, Jacobians, errors, weights, regularizations and dampings", "why_tests_cant": "A test sees a few Jacobians and cannot compare with all other joint changes.", "anchors": ["VirtualRobot/IK/JacobiProvider.cpp: computePseudoInverseJacobianMatrix, computePseudoInverseJacobianMatrixD, updatePseudoInverseJacobianMatrix, updatePseudoInverseJacobianMatrixInternal and the versions for double", "VirtualRobot/IK/JacobiProvider.h: setJointWeights, setDampedSvdLambda"]}
{"id": "C125", "title": "A step for several tasks at once", "statement": "StackedIK::computeStep throws exactly if the first provider is not initialized or the sizes of some provider do not agree; otherwise, with method eSVD, no joint change makes the sum of the squared errors of all tasks smaller, and among those that treat all tasks alike it is the shortest; with eSVDDamped it is the minimum of that sum plus the squared length; with eTranspose it is the sum of the transposed Jacobians applied to the errors. That each provider has to be initialized is not checked: only the first one is asked.", "quantifier": "any number of tasks of any sizes, all Jacobians, errors and step sizes", "why_tests_cant": "The optimum is compared with all joint changes, for any number of tasks.", "anchors": ["VirtualRobot/IK/StackedIK.cpp: StackedIK::computeStep"]}
{"id": "C126", "title": "Tasks with priorities", "statement": "HierarchicalIK::computeStep throws exactly if some provider is not initialized, does not agree in its sizes with the joints, or inverts by eSVD with a joint weight that is not positive. With method eSVD, a first provider that does not damp, and well conditioned matrices, the step respects priorities strictly: for each task, no joint change that treats all tasks before it in the same way is better at this task. With the methods eTranspose and eSVDDamped this is false: a task of lower priority can disturb the one above it.", "quantifier": "any number of tasks of any sizes, all Jacobians, errors and step sizes", "why_tests_cant": "The claim ranges over all stacks of tasks and compares with all joint changes; tests look at a few steps.", "anchors": ["VirtualRobot/IK/HierarchicalIK.cpp: HierarchicalIK::computeStep", "VirtualRobot/IK/HierarchicalIK.h"]}
{"id": "C127", "title": "The constraint solver's list of constraints", "statement": "After any history of addConstraint and removeConstraint calls in which no constraint is added while it is there, getConstraints() holds exactly the constraints added and not removed since, each once, each with the priority and hardness given in its last addConstraint, and no constraint stands before one with a greater priority. Removing a constraint that is not there changes nothing. Two expectations are false of the code and refuted: a constraint added twice as hard and removed once stays in the list but is no longer hard, and constraints with equal priorities need not stay in the order in which they were added.", "quantifier": "every history of calls, all priorities, every sorting function that meets the contract of std::sort", "why_tests_cant": "Histories and priorities are unbounded, and the order of equal elements depends on the standard library in use.", "anchors": ["VirtualRobot/IK/ConstrainedIK.cpp: ConstrainedIK::addConstraint, removeConstraint, getConstraints"]}
{"id": "C128", "title": "What solve() and initialize() of a constraint solver answer", "statement": "Whatever a single step does, solve() does at most as many steps as iterations are left and always answers. It answers true exactly if some positive number of successful steps within that limit leads to a state in which all hard constraints are within their tolerances, and then stops at the first such state; otherwise it answers false after the first failed step or after the last iteration. Afterwards the solver is not running and only its iteration counter has changed. Calling solve(true) again and again while the solver is running gives the same answer and the same final state. initialize() initializes all constraints; with no constraint asking to move the robot it does nothing else, with one the robot gets that pose, and with several it fails and leaves the solver as it was.", "quantifier": "every solver state, every behaviour of the step, of the tolerance tests and of the constraints, every iteration limit", "why_tests_cant": "The number of iterations and the behaviour of derived solvers and user-defined constraints are unbounded.", "anchors": ["VirtualRobot/IK/ConstrainedIK.cpp: ConstrainedIK::initialize, solve"]}
{"id": "C129", "title": "Steps of the prioritized constraint solver", "statement": "A step of the hierarchical constraint solver that fails leaves the joint values as they were. A step succeeds only if it differs from the step before by at least the stall epsilon and if no hard constraint's error has risen by more than the raise epsilon over a recorded positive error; then the robot is moved by exactly that step. Over a successful solve(), the error of each hard constraint rises by at most the raise epsilon from one configuration to the next, except in the last step or where it was zero. Two expectations are false of the code and refuted: after initialize() a solver used for the second time can fail at once although the robot is already at the goal, because the last step is not forgotten, and the error of a hard constraint may rise by any amount from exactly zero.", "quantifier": "every robot, every set of constraints, all error functions, both epsilons, every number of steps", "why_tests_cant": "The checks depend on state kept across steps and across calls; histories are unbounded.", "anchors": ["VirtualRobot/IK/ConstrainedHierarchicalIK.cpp: ConstrainedHierarchicalIK::initialize, solveStep", "VirtualRobot/IK/Constraint.cpp: Constraint::initialize, getErrorDifference"]}
