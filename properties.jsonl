{"id": "C01", "title": "Voxel grid storage always matches its announced size", "statement": "After any sequence of public calls on a voxel grid (adding, removing and clearing cells, enlarging, translating with or without discarding, ray tracing), iterating the grid yields exactly width()*height() slots, the centre cell is part of the grid, and the grid has never become narrower or lower than it was before a call.", "quantifier": "every finite sequence of public operations with any arguments that complete, starting from a fresh grid", "why_tests_cant": "The claim is about every history of calls, of any length; tests replay a few fixed histories.", "anchors": ["ndt_gslam/include/ndt_gslam/ndt/voxel_grid2d.h: VoxelGrid2D, addCell, removeCell, enlarge, translate, clear, rayTrace, width, height, begin, end"]}
{"id": "C02", "title": "A cell that was added is found again at its position", "statement": "After addCell(pos, c, merging) the cell containing pos exists, and reading it returns: c if the place was empty or merging was off, and old+=c if the place was occupied and merging was on. The position may lie anywhere, inside or outside the old bounds. Positions lying exactly on the right or lower outer edge of the (enlarged) grid are the documented exception (see C05).", "quantifier": "every well-formed grid, every position, every cell value, both merging modes", "why_tests_cant": "The claim ranges over an unbounded set of grids, positions and histories; a test visits finitely many.", "anchors": ["ndt_gslam/include/ndt_gslam/ndt/voxel_grid2d.h: addCell, enlargeToFit, calcIndex, operator[], cellExists"]}
{"id": "C03", "title": "Adding a cell disturbs no other cell", "statement": "addCell(pos, c) leaves the content of every cell of the plane other than the one containing pos unchanged at its physical place, even when the grid has to be re-allocated to include pos, and validCells() grows by one exactly when the place was empty.", "quantifier": "every well-formed grid, every position and value, every other cell of the infinite plane", "why_tests_cant": "The claim ranges over an unbounded set of grids, positions and histories; a test visits finitely many.", "anchors": ["ndt_gslam/include/ndt_gslam/ndt/voxel_grid2d.h: addCell, enlargeToFit, enlargeGrid"]}
{"id": "C04", "title": "Enlarging keeps all content in place and covers the requested box", "statement": "enlarge(minx,miny,maxx,maxy) keeps the content of every cell at the same physical position, never shrinks any side, afterwards isInside() holds for every point of the requested box (and for everything that was inside before), and enlarging again with the same box changes nothing.", "quantifier": "every well-formed grid and every requested box, including inverted and already covered ones", "why_tests_cant": "The claim ranges over an unbounded set of grids, positions and histories; a test visits finitely many.", "anchors": ["ndt_gslam/include/ndt_gslam/ndt/voxel_grid2d.h: enlarge, enlargeGrid, calcIncLeft, calcIncRight, calcIncUp, calcIncDown, isInside"]}
{"id": "C05", "title": "Points reported as inside can be looked up safely", "statement": "If isInside(pt) is true then cellExists(pt), getCellPtr(pt), removeCell(pt) and getNeighbors(pt,r) access only storage of the grid, and the cell they access is the one that contains pt.", "quantifier": "every well-formed grid and every point, including points exactly on the border", "why_tests_cant": "The claim ranges over an unbounded set of grids, positions and histories; a test visits finitely many. The failing points form a measure-zero set (exact border), so random tests miss them.", "anchors": ["ndt_gslam/include/ndt_gslam/ndt/voxel_grid2d.h: isInside, calcCoordinates, calcIndex, cellExists, getCellPtr, addCell"]}
{"id": "C06", "title": "Discarding translation shifts the window exactly", "statement": "translate(t, discard=true) keeps the grid size, and afterwards the cell at grid place q holds what was at place q-t before if that place was inside the grid, and is empty otherwise; nothing is duplicated or left behind.", "quantifier": "every well-formed grid and every integer translation, including ones larger than the grid", "why_tests_cant": "The claim ranges over an unbounded set of grids, positions and histories; a test visits finitely many.", "anchors": ["ndt_gslam/include/ndt_gslam/ndt/voxel_grid2d.h: translate, moveLeft, moveRight, moveUp, moveDown"]}
{"id": "C07", "title": "Non-discarding translation loses nothing", "statement": "translate(t, discard=false) keeps every cell: the content of every place q is found at q+t afterwards, every other place is empty, and the grid grows by exactly |t| on the side it moves to.", "quantifier": "every well-formed grid and every integer translation", "why_tests_cant": "The claim ranges over an unbounded set of grids, positions and histories; a test visits finitely many.", "anchors": ["ndt_gslam/include/ndt_gslam/ndt/voxel_grid2d.h: translate, enlargeGrid, moveLeft, moveRight, moveUp, moveDown"]}
{"id": "C08", "title": "Neighbour query returns exactly the window", "statement": "getNeighbors(pt, r) returns, each exactly once and in row order, precisely the existing cells whose column and row differ from those of the cell of pt by at most r; for a point outside the grid it returns nothing.", "quantifier": "every well-formed grid, every point not exactly on the outer border, every radius", "why_tests_cant": "The claim ranges over an unbounded set of grids, positions and histories; a test visits finitely many.", "anchors": ["ndt_gslam/include/ndt_gslam/ndt/voxel_grid2d.h: getNeighbors, cellExists, isInside"]}
{"id": "C09", "title": "Listing valid cells is complete and ordered", "statement": "getValidCells()/getValidCellsPtr() return every existing cell exactly once, in storage order, and nothing else, whatever happened to the grid before.", "quantifier": "every grid state reachable by any sequence of public operations", "why_tests_cant": "The claim is about every history of calls, of any length; tests replay a few fixed histories.", "anchors": ["ndt_gslam/include/ndt_gslam/ndt/voxel_grid2d.h: getValidCells, getValidCellsPtr"]}
{"id": "C10", "title": "validCells() equals the number of existing cells", "statement": "At all times validCells() is the number of cells the grid holds.", "quantifier": "every sequence of public operations", "why_tests_cant": "The claim is about every history of calls, of any length; tests replay a few fixed histories.", "anchors": ["ndt_gslam/include/ndt_gslam/ndt/voxel_grid2d.h: validCells, addCell, removeCell, clear, rayTrace, translate"]}
{"id": "C11", "title": "Copying a grid yields an equal grid", "statement": "A copy-constructed or copy-assigned voxel grid is well-formed, has the same size, the same cells at the same places and leaves the original unchanged.", "quantifier": "every well-formed grid", "why_tests_cant": "The claim ranges over an unbounded set of grids, positions and histories; a test visits finitely many.", "anchors": ["ndt_gslam/include/ndt_gslam/ndt/voxel_grid2d.h: VoxelGrid2D(const VoxelGrid2D&), operator="]}
{"id": "C12", "title": "Removing a cell removes exactly that cell", "statement": "removeCell(pos) with pos inside empties the cell containing pos, changes no other cell, and reports true; with pos outside it reports false and changes nothing.", "quantifier": "every well-formed grid and every position", "why_tests_cant": "The claim ranges over an unbounded set of grids, positions and histories; a test visits finitely many.", "anchors": ["ndt_gslam/include/ndt_gslam/ndt/voxel_grid2d.h: removeCell"]}
{"id": "C13", "title": "Ray tracing reports the cells of the sampled segment, in order and without gaps", "statement": "For a start inside the grid and a ray at least one cell long, rayTrace(start,end) returns the cells visited by walking from start towards end in half-cell steps along the dominant axis, each consecutive pair of returned cells being distinct but adjacent (8-neighbourhood), starting with the cell of start; every returned cell contains a point of the segment strictly before end; all of them exist afterwards and no other cell changed. A start outside the grid returns nothing and changes nothing.", "quantifier": "every well-formed grid, every start, every end at distance of one cell or more", "why_tests_cant": "The claim ranges over an unbounded set of grids, positions and histories; a test visits finitely many.", "anchors": ["ndt_gslam/include/ndt_gslam/ndt/voxel_grid2d.h: rayTrace"]}
{"id": "C14", "title": "A ray never reports cells beyond its end", "statement": "Every cell returned by rayTrace(start,end) contains a point of the segment from start to end, also when start and end are closer than one cell or equal.", "quantifier": "every grid and every pair of points", "why_tests_cant": "Only rays shorter than a cell fail and the failure depends on where the border is; tests use long rays.", "anchors": ["ndt_gslam/include/ndt_gslam/ndt/voxel_grid2d.h: rayTrace"]}
{"id": "C15", "title": "Clearing empties the grid and keeps its extent", "statement": "After clear() no cell exists, getValidCells() is empty, and width, height and cell size are unchanged; cells added later behave as in a fresh grid of that extent.", "quantifier": "every grid state", "why_tests_cant": "The claim ranges over an unbounded set of grids, positions and histories; a test visits finitely many.", "anchors": ["ndt_gslam/include/ndt_gslam/ndt/voxel_grid2d.h: clear, getValidCells"]}
{"id": "C16", "title": "Cell occupancy stays in its range", "statement": "Whatever sequence of point insertions, gaussian computations, merges, ray updates and transformations is applied to an NDT cell, its occupancy value stays within [-1,1], and getOccupancy() reports -1 (unknown) or a percentage between 0 and 100.", "quantifier": "every sequence of cell operations with any arguments", "why_tests_cant": "The claim is about every history of calls, of any length; tests replay a few fixed histories.", "anchors": ["ndt_gslam/src/ndt/ndt_cell.cpp: computeGaussian, operator+=, updateOccupancy", "ndt_gslam/include/ndt_gslam/ndt/ndt_cell.h: getOccupancy, MAX_OCCUPANCY"]}
{"id": "C17", "title": "Merging two cells gives the statistics of the pooled points", "statement": "If two cells carry the mean and covariance of two point sets, then a += b carries the mean and covariance of the union of both sets (as long as the point cap is not hit), computed from the summaries alone.", "quantifier": "every pair of finite point multisets with at least the required number of points each", "why_tests_cant": "The claim ranges over a continuum of real inputs; tests sample isolated points and accept an epsilon.", "anchors": ["ndt_gslam/src/ndt/ndt_cell.cpp: NDTCell::operator+="]}
{"id": "C18", "title": "Merge order does not matter", "statement": "The merged mean, covariance and point count of several cells do not depend on the order or grouping of the merges (below the point cap).", "quantifier": "every triple of cell summaries", "why_tests_cant": "The claim ranges over a continuum of real inputs; tests sample isolated points and accept an epsilon.", "anchors": ["ndt_gslam/src/ndt/ndt_cell.cpp: NDTCell::operator+="]}
{"id": "C19", "title": "Point counter is capped", "statement": "The number of points a cell reports after merging never exceeds the configured maximum, and merging never lowers it below the smaller of the maximum and the old value.", "quantifier": "every sequence of merges", "why_tests_cant": "The claim is about every history of calls, of any length; tests replay a few fixed histories.", "anchors": ["ndt_gslam/src/ndt/ndt_cell.cpp: NDTCell::operator+=, computeGaussian", "ndt_gslam/include/ndt_gslam/ndt/ndt_cell.h: MAX_POINTS"]}
{"id": "C20", "title": "Freshly computed gaussian describes the inserted points", "statement": "After adding n points to an empty cell and calling computeGaussian(), getMean() is the average of the points and getCov() is their sample covariance (before conditioning).", "quantifier": "every list of at least six points", "why_tests_cant": "The claim ranges over a continuum of real inputs; tests sample isolated points and accept an epsilon.", "anchors": ["ndt_gslam/src/ndt/ndt_cell.cpp: computeGaussian"]}
{"id": "C21", "title": "Too few points never make a gaussian", "statement": "computeGaussian() on a cell with fewer than six collected points never reports a gaussian, and collecting points over several calls is equivalent to collecting them at once.", "quantifier": "every split of every point list over several computeGaussian calls", "why_tests_cant": "The claim is about every history of calls, of any length; tests replay a few fixed histories.", "anchors": ["ndt_gslam/src/ndt/ndt_cell.cpp: computeGaussian, addPoint"]}
{"id": "C22", "title": "A beam passing through a cell never raises its occupancy", "statement": "updateOccupancy(start,end,n) for a beam that ends away from the cell never increases the occupancy of the cell, and the cell keeps being a gaussian only while its occupancy stays positive.", "quantifier": "every cell state, every beam, every point count", "why_tests_cant": "The claim ranges over a continuum of real inputs; tests sample isolated points and accept an epsilon.", "anchors": ["ndt_gslam/src/ndt/ndt_cell.cpp: updateOccupancy, calcMaxLikelihoodOnLine"]}
{"id": "C23", "title": "Covariances are kept well conditioned", "statement": "After a successful merge or gaussian computation the stored covariance is symmetric positive definite, its smallest eigenvalue is at least one percent of its largest, and the stored inverse is its inverse; covariances with a non-positive spectrum are rejected.", "quantifier": "every symmetric covariance", "why_tests_cant": "The claim ranges over a continuum of real inputs; tests sample isolated points and accept an epsilon.", "anchors": ["ndt_gslam/src/ndt/ndt_cell.cpp: rescaleCovar"]}
{"id": "C24", "title": "Rigid motion of a cell", "statement": "transform(T) moves the mean of a gaussian cell by T and turns its covariance with the rotation of T, so that transforming by T then S equals transforming by S*T, and transforming by T then T^-1 restores the cell; cells without gaussian are untouched.", "quantifier": "every cell and all rigid transforms", "why_tests_cant": "The claim ranges over a continuum of real inputs; tests sample isolated points and accept an epsilon.", "anchors": ["ndt_gslam/src/ndt/ndt_cell.cpp: transform"]}
{"id": "C25", "title": "Moving the window splits the motion into whole cells and a remainder", "statement": "move(T) on an unrotated grid shifts the grid by a whole number of cells and returns the remaining transform: whole-cell shift followed by the remainder equals T, the remainder translation is smaller than a cell in each axis and has the sign of T, the rotation is returned untouched; grids with a rotated origin return T unchanged and stay put.", "quantifier": "every grid and every transform", "why_tests_cant": "The claim ranges over a continuum of real inputs; tests sample isolated points and accept an epsilon.", "anchors": ["ndt_gslam/include/ndt_gslam/ndt/ndt_grid2d.h: move"]}
{"id": "C26", "title": "Moving the window does not move the map", "statement": "For every gaussian cell kept in the window, its world position (grid origin plus cell mean) is the same before and after move(T); cells that fall out of the window are the only ones lost.", "quantifier": "every grid, every transform, every cell", "why_tests_cant": "The claim ranges over a continuum of real inputs; tests sample isolated points and accept an epsilon.", "anchors": ["ndt_gslam/include/ndt_gslam/ndt/ndt_grid2d.h: move", "ndt_gslam/include/ndt_gslam/ndt/voxel_grid2d.h: translate"]}
{"id": "C27", "title": "Merging a grid into another accumulates information", "statement": "mergeIn(cells, resize) adds each gaussian cell to the cell at its mean (+=), keeps what was there, and with resize=false ignores exactly the cells outside the bounds.", "quantifier": "every target grid, every list of cells, both resize modes", "why_tests_cant": "The claim ranges over an unbounded set of grids, positions and histories; a test visits finitely many.", "anchors": ["ndt_gslam/include/ndt_gslam/ndt/ndt_grid2d.h: mergeIn(const std::vector<CellType>&, bool)"]}
{"id": "C28", "title": "Coarser grid keeps all information", "statement": "createCoarserGrid(s) returns a grid in which every coarse cell is the merge of all fine gaussian cells whose mean lies in it.", "quantifier": "every grid and every multiple of the cell size", "why_tests_cant": "The claim ranges over an unbounded set of grids, positions and histories; a test visits finitely many.", "anchors": ["ndt_gslam/include/ndt_gslam/ndt/ndt_grid2d.h: createCoarserGrid, mergeIn"]}
{"id": "C29", "title": "Occupancy grid export", "statement": "createOccupancyGrid() has width*height entries in row order; an entry is -1 exactly for missing cells, 99 exactly for cells whose occupancy value exceeds 0.8 and 0 otherwise. Its origin is the world position of the centre of the left top cell.", "quantifier": "every grid", "why_tests_cant": "The claim ranges over an unbounded set of grids, positions and histories; a test visits finitely many.", "anchors": ["ndt_gslam/include/ndt_gslam/ndt/ndt_grid2d.h: createOccupancyGrid"]}
{"id": "C30", "title": "Serialized map origin matches the grid", "statement": "serialize() reports the world position of the left upper corner of the grid as origin, for every grid extent.", "quantifier": "every grid extent and origin", "why_tests_cant": "Fails only when the grid extends to the left of its centre, through unsigned arithmetic; a test on the default grid passes.", "anchors": ["ndt_gslam/include/ndt_gslam/ndt/ndt_grid2d.h: serialize"]}
{"id": "C31", "title": "Edge and node identifiers are unique and stable", "statement": "Graph::addNode/addEdge return an id that no live object has; getNode(id)/getEdge(id) return the object added under that id until it is removed; ids of removed edges are re-used before new ones are invented; nodeCount/edgeCount count the live objects. An edge counts as unused and as no loop closure, a node as not visited, until the caller says otherwise.", "quantifier": "every sequence of addNode, addEdge, removeEdge", "why_tests_cant": "The claim is about every history of calls, of any length; tests replay a few fixed histories.", "anchors": ["ndt_gslam/include/ndt_gslam/slam_optimizer/pose_graph.h: addNode, addEdge, removeEdge, getEdge, getNode, edgeCount, nodeCount"]}
{"id": "C32", "title": "Removed edges are gone", "statement": "After removeEdge(id) returned true, getEdge(id) throws out_of_range, and no node lists the edge among its incoming or outgoing edges.", "quantifier": "every sequence of graph operations", "why_tests_cant": "The claim is about every history of calls, of any length; tests replay a few fixed histories.", "anchors": ["ndt_gslam/include/ndt_gslam/slam_optimizer/pose_graph.h: removeEdge, getEdge, Node::getEdgesIn, Node::getEdgesOut"]}
{"id": "C33", "title": "removeEdge is total", "statement": "removeEdge(id) returns false and changes nothing for every id that is not a live edge, and returns true for every live edge.", "quantifier": "every graph state and every id", "why_tests_cant": "The claim ranges over an unbounded set of grids, positions and histories; a test visits finitely many.", "anchors": ["ndt_gslam/include/ndt_gslam/slam_optimizer/pose_graph.h: removeEdge"]}
{"id": "C34", "title": "Iterating edges visits exactly the live edges", "statement": "A loop from beginEdge() to endEdge() visits every live edge exactly once in id order, visits nothing else and accesses only valid storage, for any set of removed edges.", "quantifier": "every graph state", "why_tests_cant": "The claim is about every history of calls, of any length; tests replay a few fixed histories.", "anchors": ["ndt_gslam/include/ndt_gslam/slam_optimizer/pose_graph.h: beginEdge, endEdge, ListIterator::operator++"]}
{"id": "C35", "title": "Adjacency lists mirror the edges", "statement": "As long as no edge is removed, edge e is listed exactly once in the outgoing list of its start node and exactly once in the incoming list of its end node, and in no other list.", "quantifier": "every sequence of addNode and addEdge", "why_tests_cant": "The claim is about every history of calls, of any length; tests replay a few fixed histories.", "anchors": ["ndt_gslam/include/ndt_gslam/slam_optimizer/pose_graph.h: addEdge, Node::addEdgeIn, Node::addEdgeOut"]}
{"id": "C36", "title": "Pose identifiers are consecutive and poses are kept", "statement": "The k-th addPose call returns k (from 0), getPoseLocation(k) returns the pose that was added until the optimiser moves it, and asking for a pose that was never added throws.", "quantifier": "every sequence of addPose/addConstrain calls", "why_tests_cant": "The claim is about every history of calls, of any length; tests replay a few fixed histories.", "anchors": ["ndt_gslam/include/ndt_gslam/slam_optimizer/slam2d.h: addPose, getPoseLocation, getPoseData"]}
{"id": "C37", "title": "Constraints keep what the caller supplied", "statement": "getConstrainTransform/getConstrainInformMat/getConstrainPoses return the transform, information matrix and end points given to addConstrain.", "quantifier": "every graph and every constraint", "why_tests_cant": "The claim ranges over an unbounded set of grids, positions and histories; a test visits finitely many.", "anchors": ["ndt_gslam/include/ndt_gslam/slam_optimizer/slam2d.h: addConstrain, getConstrainTransform, getConstrainInformMat, getConstrainPoses"]}
{"id": "C38", "title": "Last constraint joins the two most recent poses", "statement": "addLastConstrain joins the previous pose to the most recent one; after a first pose and n-1 further poses each followed by addLastConstrain the constraints form the chain 0-1-2-...-(n-1).", "quantifier": "every number of poses", "why_tests_cant": "The claim is about every history of calls, of any length; tests replay a few fixed histories.", "anchors": ["ndt_gslam/include/ndt_gslam/slam_optimizer/slam2d.h: addLastConstrain"]}
{"id": "C39", "title": "Optimiser graph mirrors the pose graph", "statement": "At every moment the back-end graph has one vertex per pose with the same id, one edge per constraint with the same end points and measurement, and only the first pose is fixed; optimalize() therefore never moves pose 0 and never changes the structure.", "quantifier": "every history of addPose, addConstrain, loop closing and optimalize calls", "why_tests_cant": "The claim is about every history of calls, of any length; tests replay a few fixed histories.", "anchors": ["ndt_gslam/include/ndt_gslam/slam_optimizer/slam2d.h: addPose, addConstrain, optimalize, updatePoseGraph"]}
{"id": "C40", "title": "Loop closing reports what it did", "statement": "tryLoopClose(id) returns true exactly when it added at least one constraint, adds only constraints of loop type, and leaves poses and existing constraints as they were.", "quantifier": "every graph and every outcome of the matcher", "why_tests_cant": "The claim ranges over an unbounded set of grids, positions and histories; a test visits finitely many.", "anchors": ["ndt_gslam/include/ndt_gslam/slam_optimizer/slam2d.h: tryLoopClose"]}
{"id": "C41", "title": "Reported loop closures satisfy the thresholds", "statement": "Every closure reported by the loop detector joins the query node to another node whose accumulated path distance is at least the minimum distance, whose Euclidean distance is below the maximum, and for which the scan matcher succeeded; at most 50 match attempts are made per query.", "quantifier": "every graph, every matcher behaviour", "why_tests_cant": "The matcher and the graph are arbitrary; tests fix both.", "anchors": ["ndt_gslam/include/ndt_gslam/slam_optimizer/loop_detector.h: genLoopClosures, isCloseMatch"]}
{"id": "C42", "title": "Loop search is safe and repeatable", "statement": "A loop query terminates without accessing an empty queue for every graph and leaves no trace: afterwards all nodes and edges are unmarked so that an identical second query returns the same result.", "quantifier": "every graph including disconnected ones", "why_tests_cant": "The claim ranges over an unbounded set of grids, positions and histories; a test visits finitely many.", "anchors": ["ndt_gslam/include/ndt_gslam/slam_optimizer/loop_detector.h: genLoopClosures, genPossibleEdges"]}
{"id": "C43", "title": "A loop query reports each pair once", "statement": "A single loop query never reports the same pair of nodes twice.", "quantifier": "every graph", "why_tests_cant": "The claim ranges over an unbounded set of grids, positions and histories; a test visits finitely many.", "anchors": ["ndt_gslam/include/ndt_gslam/slam_optimizer/loop_detector.h: genLoopClosures"]}
{"id": "C44", "title": "One node, one frame, one constraint per accepted frame", "statement": "In the SLAM front end the number of pose-graph nodes always equals the number of map frames, and there is exactly one odometry constraint fewer than nodes; a new node is created exactly when the window moved more than the threshold.", "quantifier": "every sequence of update() calls, every matcher behaviour", "why_tests_cant": "The claim is about every history of calls, of any length; tests replay a few fixed histories.", "anchors": ["ndt_gslam/include/ndt_gslam/ndt_slam_algorithm.h: update, updateGraph, movedEnough"]}
{"id": "C45", "title": "Odometry fallback dead-reckons", "statement": "While the scan matcher fails or the robot has not moved enough, the reported pose is the composition of all odometry increments received so far.", "quantifier": "every sequence of increments", "why_tests_cant": "The claim is about every history of calls, of any length; tests replay a few fixed histories.", "anchors": ["ndt_gslam/include/ndt_gslam/ndt_slam_algorithm.h: update"]}
{"id": "C46", "title": "Pose jump after graph optimisation is only the window correction", "statement": "After an update that closes a loop, the reported pose equals the optimised origin of the last frame composed with the motion made since that frame.", "quantifier": "every sequence of updates", "why_tests_cant": "The claim is about every history of calls, of any length; tests replay a few fixed histories.", "anchors": ["ndt_gslam/include/ndt_gslam/ndt_slam_algorithm.h: update, updateGraph"]}
{"id": "C47", "title": "Published transforms are consistent", "statement": "After each processed message, map->odom composed with the odometry pose of that message equals the pose estimated by SLAM.", "quantifier": "every odometry pose and every SLAM pose", "why_tests_cant": "The claim ranges over a continuum of real inputs; tests sample isolated points and accept an epsilon.", "anchors": ["ndt_gslam/src/graph_slam2d_node.cpp: updateTFTrans, publishTF, doAlgorithm"]}
{"id": "C48", "title": "Odometry increments telescope", "statement": "The product of the increments handed to the SLAM algorithm equals the total odometry motion since the first message; rejected messages are not lost but folded into the next increment.", "quantifier": "every sequence of messages, accepted or rejected", "why_tests_cant": "The claim is about every history of calls, of any length; tests replay a few fixed histories.", "anchors": ["ndt_gslam/src/graph_slam2d_node.cpp: doAlgorithm, prepareAllData"]}
{"id": "C49", "title": "No transform is published before it is known", "statement": "Every map->odom transform that is published was computed from a SLAM pose.", "quantifier": "every sequence of messages", "why_tests_cant": "The claim is about every history of calls, of any length; tests replay a few fixed histories.", "anchors": ["ndt_gslam/src/graph_slam2d_node.cpp: publishTF, doAlgorithm, laserCallback"]}
{"id": "C50", "title": "Planar covariance extraction", "statement": "The 3x3 covariance handed on is exactly the (x,y,yaw) block of the 6x6 covariance of the pose message and is symmetric if the message is.", "quantifier": "every 6x6 covariance", "why_tests_cant": "The index set must be right for all entries simultaneously; tests check some.", "anchors": ["ndt_gslam/src/graph_slam2d_node.cpp: arrayToMatrix"]}
{"id": "C51", "title": "Pose and transform conversions are inverse", "statement": "getPoseFromTransform(getTransFromPose(p)) equals p with the angle wrapped to (-pi,pi], getTransFromPose(getPoseFromTransform(T)) equals T for every rigid T, and the same holds for the 3D matrix conversions.", "quantifier": "all poses and rigid transforms", "why_tests_cant": "The claim ranges over a continuum of real inputs; tests sample isolated points and accept an epsilon.", "anchors": ["ndt_gslam/include/ndt_gslam/utils/eigen_tools.h: getPoseFromTransform, getTransFromPose, vecToMat2d, matToVec2d, convertToTransform, convertFromTransform"]}
{"id": "C52", "title": "Angle normalisation", "statement": "normalizeAngle returns the unique angle in (-pi,pi] congruent to its argument modulo 2*pi, is idempotent, and getAngleDiffrence is the normalised signed difference.", "quantifier": "all real angles", "why_tests_cant": "The claim ranges over a continuum of real inputs; tests sample isolated points and accept an epsilon.", "anchors": ["ndt_gslam/include/ndt_gslam/utils/eigen_tools.h: normalizeAngle, getAngleDiffrence, getAngle"]}
{"id": "C53", "title": "Relative transforms", "statement": "transBtwFrames(from,to) maps coordinates in frame from to coordinates in frame to, so it is the identity for equal frames, inverse for swapped frames and transitive; transformPose(a, transBtwPoses(a,b)) equals b up to angle wrapping.", "quantifier": "all pairs and triples of poses", "why_tests_cant": "The claim ranges over a continuum of real inputs; tests sample isolated points and accept an epsilon.", "anchors": ["ndt_gslam/include/ndt_gslam/utils/eigen_tools.h: transBtwFrames, transBtwPoses, transformPose, transformConcat"]}
{"id": "C54", "title": "Constraint error and Jacobians", "statement": "calcError is zero exactly when the constraint holds, and the Jacobian blocks are the partial derivatives of the error.", "quantifier": "all poses and measurements", "why_tests_cant": "The claim ranges over a continuum of real inputs; tests sample isolated points and accept an epsilon.", "anchors": ["ndt_gslam/include/ndt_gslam/slam_optimizer/slam2d_policy.h: calcError, calcJacobianBlocks"]}
{"id": "C55", "title": "Covariance propagation", "statement": "addToCovar keeps the covariance symmetric and positive semi-definite and matches first-order propagation through pose composition; order of composition is associative.", "quantifier": "all covariances and transforms", "why_tests_cant": "The claim ranges over a continuum of real inputs; tests sample isolated points and accept an epsilon.", "anchors": ["ndt_gslam/include/ndt_gslam/utils/covariance_wrapper.h: addToCovar, computeJacc1, computeJacc2"]}
{"id": "C56", "title": "Safe covariance inverse", "statement": "covarInverse returns true with icov the inverse of the adjusted covariance, and leaves well-conditioned covariances unadjusted.", "quantifier": "all symmetric matrices", "why_tests_cant": "The claim ranges over a continuum of real inputs; tests sample isolated points and accept an epsilon.", "anchors": ["ndt_gslam/include/ndt_gslam/utils/covariance_inverse.h: covarInverse"]}
{"id": "C57", "title": "Splitting and joining text", "statement": "split(data, token) terminates for every token, joining the parts with the token gives data back, and no part contains the token.", "quantifier": "all strings and tokens", "why_tests_cant": "The claim ranges over an unbounded set of grids, positions and histories; a test visits finitely many.", "anchors": ["ndt_gslam/include/ndt_gslam/utils/string_tools.h: split"]}
{"id": "C58", "title": "Bounding box", "statement": "getMinMax2D returns a box that contains every point of the cloud and is the smallest such box.", "quantifier": "all clouds", "why_tests_cant": "The claim ranges over an unbounded set of grids, positions and histories; a test visits finitely many.", "anchors": ["ndt_gslam/include/ndt_gslam/utils/point_cloud_tools.h: getMinMax2D", "ndt_gslam/include/ndt_gslam/registration/correlative_estimation_tools.h: LookUpTable::getMinMax2D"]}
{"id": "C59", "title": "Lookup table access is in bounds and scores are bounded", "statement": "Building the correlative lookup table and scoring any cloud against it touches only storage of the table; every cell value is between 0 and 100, and the score of n points is between 0 and n divided by the number of target points.", "quantifier": "every target cloud, every cell size, every scored cloud", "why_tests_cant": "The claim ranges over an unbounded set of grids, positions and histories; a test visits finitely many.", "anchors": ["ndt_gslam/include/ndt_gslam/registration/correlative_estimation_tools.h: initGrid, applyKernel, getCellIdx, getScore"]}
{"id": "C60", "title": "Index scoring equals point scoring", "statement": "Scoring a cloud through toIndexes() gives the same score as scoring the points directly.", "quantifier": "every table and every cloud", "why_tests_cant": "The claim ranges over an unbounded set of grids, positions and histories; a test visits finitely many.", "anchors": ["ndt_gslam/include/ndt_gslam/registration/correlative_estimation_tools.h: toIndexes, getScore, getCellIdx"]}
{"id": "C61", "title": "Parallel search does not depend on the schedule", "statement": "The best score found by the correlative search, and the D2D score, gradient and Hessian, are the same for every number of threads and every assignment of work to threads.", "quantifier": "every partition of work over threads", "why_tests_cant": "Schedules are chosen by the runtime; a test observes one.", "anchors": ["ndt_gslam/include/ndt_gslam/registration/correlative_estimation2d.h: computeTransformation", "ndt_gslam/include/ndt_gslam/registration/d2d_ndt2d.h: calcScore"]}
{"id": "C62", "title": "Correlative search result refers to the given guess", "statement": "The transform returned by the correlative estimator, applied to the source cloud, has the best score among all candidate offsets applied after the initial guess.", "quantifier": "every guess and candidate set", "why_tests_cant": "The claim ranges over an unbounded set of grids, positions and histories; a test visits finitely many.", "anchors": ["ndt_gslam/include/ndt_gslam/registration/correlative_estimation2d.h: computeTransformation"]}
{"id": "C63", "title": "Newton step length is bounded", "statement": "The step length used in one registration iteration lies between the configured minimum and maximum step unless the gradient is orthogonal to the direction (then it is zero), and is the Newton length clamped to that interval.", "quantifier": "all scores, gradients and directions", "why_tests_cant": "The claim ranges over a continuum of real inputs; tests sample isolated points and accept an epsilon.", "anchors": ["ndt_gslam/include/ndt_gslam/registration/d2d_ndt2d.h: computeStepLengthMT", "ndt_gslam/include/ndt_gslam/registration/ndt2d.h: computeStepLengthMT"]}
{"id": "C64", "title": "Fitting constants have the right sign", "statement": "For every outlier ratio strictly between 0 and 1 and every positive resolution the fitting constants give a score that is positive, bounded, and decreases with the Mahalanobis distance.", "quantifier": "all outlier ratios and resolutions", "why_tests_cant": "The claim ranges over a continuum of real inputs; tests sample isolated points and accept an epsilon.", "anchors": ["ndt_gslam/include/ndt_gslam/registration/ndt_reg_tools.h: FittingParams"]}
{"id": "C65", "title": "D2D gradient and Hessian are the derivatives of the score", "statement": "The gradient and Hessian returned by the distribution-to-distribution score are its first and second partial derivatives with respect to the pose increment.", "quantifier": "all means, covariances and poses", "why_tests_cant": "The claim ranges over a continuum of real inputs; tests sample isolated points and accept an epsilon.", "anchors": ["ndt_gslam/include/ndt_gslam/registration/d2d_ndt2d.h: computeDerivatives, calcSourceCellScore"]}
{"id": "C66", "title": "Point-to-distribution gradient and Hessian are the derivatives of the score", "statement": "The gradient and Hessian of the point-to-distribution score are its first and second partial derivatives with respect to the pose.", "quantifier": "all points, cells and poses", "why_tests_cant": "The claim ranges over a continuum of real inputs; tests sample isolated points and accept an epsilon.", "anchors": ["ndt_gslam/include/ndt_gslam/registration/ndt2d.h: calcPointScore"]}
{"id": "C67", "title": "Robust matcher acceptance rule", "statement": "When the robust matcher reports convergence the returned transform was produced by a registration and its verification score reached the acceptance limit; when no registration produced an acceptable score it reports failure.", "quantifier": "all outcomes of the component matchers and all limits", "why_tests_cant": "The decision depends on combinations of external outcomes that tests cannot enumerate over reals.", "anchors": ["ndt_gslam/include/ndt_gslam/registration/d2d_ndt2d_robust.h: computeTransformation, setRejectionLimit"]}
{"id": "C68", "title": "Resolution pyramid", "statement": "setCellSize/setNumLayers produce exactly the requested number of layers, each twice as fine as the previous one, ending in the requested cell size.", "quantifier": "all layer counts and cell sizes, all sequences of setter calls", "why_tests_cant": "The claim is about every history of calls, of any length; tests replay a few fixed histories.", "anchors": ["ndt_gslam/include/ndt_gslam/registration/d2d_ndt2d.h: initCellSizes, setNumLayers, setCellSize", "ndt_gslam/include/ndt_gslam/registration/ndt2d.h: initCellSizes"]}
{"id": "C69", "title": "Max-mixture picks the most likely component", "statement": "computeError of a mixture edge selects the component with the smallest negative log likelihood and takes over its measurement, information and vertices.", "quantifier": "all component lists", "why_tests_cant": "The claim ranges over an unbounded set of grids, positions and histories; a test visits finitely many.", "anchors": ["ndt_gslam/src/slam_optimizer/max_mixture/edge_se2_mixture.cpp: computeError, UpdateBelief, getNegLogProb"]}
{"id": "C70", "title": "Switch variables stay in [0,1]", "statement": "Whatever updates the optimiser applies, the value of a switch vertex stays in [0,1] and its estimate equals its value.", "quantifier": "all sequences of updates", "why_tests_cant": "The claim is about every history of calls, of any length; tests replay a few fixed histories.", "anchors": ["ndt_gslam/src/slam_optimizer/switchable_constraints/vertex_switchLinear.cpp: oplusImpl"]}
{"id": "C71", "title": "Map redraw depends only on the frames", "statement": "recalc() yields the map obtained by merging all frames in time order into an empty map; calling it twice in a row gives the same map.", "quantifier": "every set of frames and every earlier history", "why_tests_cant": "The claim is about every history of calls, of any length; tests replay a few fixed histories.", "anchors": ["ndt_gslam/include/ndt_gslam/ndt/ndt_mapper.h: recalc, addFrame"]}
{"id": "C72", "title": "Radius search finds exactly the distributions within reach", "statement": "getNeighbors(p, r) returns, without repetition, exactly the cells holding a distribution whose mean is at most r away from p.", "quantifier": "every grid reachable by public calls, every point and radius", "why_tests_cant": "The claim ranges over an unbounded set of grids, positions and histories; a test visits finitely many.", "anchors": ["ndt_gslam/include/ndt_gslam/ndt/ndt_grid2d.h: getNeighbors"]}
{"id": "C73", "title": "Distributions stay in the square of their mean", "statement": "After any sequence of mergeIn, move, enlarge, clear, setOrigin and setTimestamp calls on a new grid, no call was undefined, every cell with a distribution is stored in the square its mean lies in, and the cloud of means used by neighbour searches lists exactly the means of those cells.", "quantifier": "every finite history of public calls", "why_tests_cant": "The claim is about every history of calls, of any length; tests replay a few fixed histories.", "anchors": ["ndt_gslam/include/ndt_gslam/ndt/ndt_grid2d.h: mergeIn, move, enlarge, clear, updateMeansCloud"]}
{"id": "C74", "title": "Nearest-neighbour queries return real distributions", "statement": "getKNearestNeighbors(p, K) returns no null pointer: each result is a stored cell with a distribution whose mean is the point found by the search tree.", "quantifier": "every grid reachable by public calls, every point and K, every answer of the search tree", "why_tests_cant": "The claim ranges over an unbounded set of grids, positions and histories; a test visits finitely many.", "anchors": ["ndt_gslam/include/ndt_gslam/ndt/ndt_grid2d.h: getKNearestNeighbors, updateMeansCloud"]}
{"id": "C75", "title": "A scan is partitioned into cells", "statement": "initialize(pcl) adds every valid point to the one square it lies in, drops invalid points, and creates no other cells except the one around the sensor.", "quantifier": "every scan of any length, every cell size", "why_tests_cant": "The claim ranges over an unbounded set of grids, positions and histories; a test visits finitely many.", "anchors": ["ndt_gslam/include/ndt_gslam/ndt/ndt_grid2d.h: initialize, createGrid, addPoint, computeNDTCells"]}
{"id": "C76", "title": "Free-space tracing only touches cells on the beams", "statement": "mergeInTraced updates, before merging, only cells that lie on a segment from the sensor to an incoming distribution strictly before its end, and changes only their occupancy.", "quantifier": "every pair of grids, poses and modes", "why_tests_cant": "The claim ranges over an unbounded set of grids, positions and histories; a test visits finitely many.", "anchors": ["ndt_gslam/include/ndt_gslam/ndt/ndt_grid2d.h: mergeInTraced, rayTrace; ndt_gslam/include/ndt_gslam/ndt/voxel_grid2d.h: rayTrace"]}
{"id": "C77", "title": "A matched scan determines the reported pose", "statement": "When the scan matcher succeeds and no loop is closed, the pose returned by update() is the pose of the match: the origin of the running window composed with the transformation found.", "quantifier": "every sequence of updates and matcher results", "why_tests_cant": "The claim is about every history of calls, of any length; tests replay a few fixed histories.", "anchors": ["ndt_gslam/include/ndt_gslam/ndt_slam_algorithm.h: update, updateGraph"]}
{"id": "C78", "title": "Published map shows cells where they are", "statement": "In the published occupancy grid message, read by the ROS convention (row-major from the lower left corner at the origin pose), each entry stands for the map cell at that place of the world.", "quantifier": "every map", "why_tests_cant": "The claim ranges over an unbounded set of grids, positions and histories; a test visits finitely many.", "anchors": ["ndt_gslam/include/ndt_gslam/ndt/ndt_mapper.h: calcOccupancyGridMsg; ndt_gslam/include/ndt_gslam/ndt/ndt_grid2d.h: createOccupancyGrid"]}
{"id": "C79", "title": "One transform per message", "statement": "Each incoming message pair, accepted or not, makes the node send exactly one map->odom transform, carrying the time stamp of that message.", "quantifier": "every sequence of messages", "why_tests_cant": "The claim is about every history of calls, of any length; tests replay a few fixed histories.", "anchors": ["ndt_gslam/src/graph_slam2d_node.cpp: odom_cb, pose_cb, laser_cb, publishTF"]}
{"id": "C80", "title": "The front end never fails", "statement": "update() of the SLAM front end never runs into undefined behaviour or an exception in its pose graph and loop detection, whatever motions, scans, matcher results and optimiser results it gets.", "quantifier": "every sequence of updates", "why_tests_cant": "The claim is about every history of calls, of any length; tests replay a few fixed histories.", "anchors": ["ndt_gslam/include/ndt_gslam/ndt_slam_algorithm.h: update, updateGraph; ndt_gslam/include/ndt_gslam/slam_optimizer/slam2d.h"]}
{"id": "C81", "title": "A scan is used exactly when the robot moved enough", "statement": "update() uses a scan exactly when the motion accumulated since the last scan it used is longer than 0.2 m or turns by more than 0.1 rad; other scans change neither map nor graph.", "quantifier": "every sequence of updates", "why_tests_cant": "The claim is about every history of calls, of any length; tests replay a few fixed histories.", "anchors": ["ndt_gslam/include/ndt_gslam/ndt_slam_algorithm.h: update, movedEnough"]}
{"id": "C82", "title": "Scans are drawn at the reported pose", "statement": "Each scan that update() uses is merged into the current map frame at the very pose that is reported for it, and its free space is traced from the place where it was taken.", "quantifier": "every sequence of updates with rigid motions", "why_tests_cant": "The claim is about every history of calls, of any length; tests replay a few fixed histories.", "anchors": ["ndt_gslam/include/ndt_gslam/ndt_slam_algorithm.h: updateGraph; ndt_gslam/include/ndt_gslam/ndt/ndt_grid2d.h: mergeInTraced"]}
{"id": "C83", "title": "The components handed over last count", "statement": "A mixture edge that is given new components chooses among them by their own likelihoods, whatever components it had before.", "quantifier": "every sequence of component lists", "why_tests_cant": "The claim is about every history of calls, of any length; tests replay a few fixed histories.", "anchors": ["ndt_gslam/src/slam_optimizer/max_mixture/edge_se2_mixture.cpp: initializeComponents"]}
{"id": "C84", "title": "Switchable constraint Jacobians", "statement": "The Jacobian blocks of a switchable constraint are the partial derivatives of its error with respect to both poses and the switch, and a switch at 0 removes the error while 1 leaves that of the plain constraint.", "quantifier": "all poses, measurements and switch values", "why_tests_cant": "The claim ranges over a continuum of real inputs; tests sample isolated points and accept an epsilon.", "anchors": ["ndt_gslam/src/slam_optimizer/switchable_constraints/edge_se2Switchable.cpp: computeError, linearizeOplus; edge_switchPrior.cpp"]}
{"id": "C85", "title": "A registration run always ends and stays near its guess", "statement": "align() of the two NDT registrations ends within the configured number of iterations per layer. The result is a rotation and translation in the plane whose pose differs from the guess by at most layers * iterations * max(step size, half the convergence threshold). It reports failure only when the Newton equations give no usable direction.", "quantifier": "every source, target, guess and setting with a positive threshold", "why_tests_cant": "The claim ranges over a continuum of real inputs; tests sample isolated points and accept an epsilon.", "anchors": ["ndt_gslam/include/ndt_gslam/registration/d2d_ndt2d.h: computeTransformation, computeSingleGrid", "ndt_gslam/include/ndt_gslam/registration/ndt2d.h: computeTransformation, computeSingleGrid"]}
{"id": "C86", "title": "The reported covariance is a covariance", "statement": "After a successful registration getCovariance() returns a positive semidefinite matrix and getInformMatrix() its inverse.", "quantifier": "every successful run", "why_tests_cant": "The claim ranges over a continuum of real inputs; tests sample isolated points and accept an epsilon.", "anchors": ["ndt_gslam/include/ndt_gslam/registration/d2d_ndt2d.h: computeSingleGrid, getCovariance, getInformMatrix"]}
{"id": "C87", "title": "A scan matches itself", "statement": "Registering a grid against itself from the right guess succeeds.", "quantifier": "every grid", "why_tests_cant": "The claim ranges over a continuum of real inputs; tests sample isolated points and accept an epsilon.", "anchors": ["ndt_gslam/include/ndt_gslam/registration/d2d_ndt2d.h: computeSingleGrid"]}
{"id": "C88", "title": "A frame started from a scan holds exactly that scan", "statement": "initialize(scan) replaces whatever the frame held: its distributions are exactly those of the points of the scan that share a square, squares with too few points give none, invalid points are ignored, and every square crossed by a beam before its end becomes known free space; no other square exists.", "quantifier": "every frame and scan", "why_tests_cant": "The claim ranges over an unbounded set of grids, positions and histories; a test visits finitely many.", "anchors": ["ndt_gslam/include/ndt_gslam/ndt/ndt_grid2d.h: initialize, mergeInTraced, createGrid"]}
{"id": "C89", "title": "Adding a scan to a frame", "statement": "mergeInTraced(scan, origin, false) merges the distribution of each square of the scan, seen from the frame, into the cell of that square of the window and leaves all others alone but for the free-space update along the beams; with resize the window grows so that none is lost.", "quantifier": "every frame in use, scan and origin", "why_tests_cant": "The claim ranges over an unbounded set of grids, positions and histories; a test visits finitely many.", "anchors": ["ndt_gslam/include/ndt_gslam/ndt/ndt_grid2d.h: mergeInTraced, mergeIn, createGrid"]}
{"id": "C90", "title": "Transforming a frame", "statement": "transform(t) turns every distribution about the origin of the frame and moves the origin by the translation; distributions that meet in a square are merged and none is lost.", "quantifier": "every frame and transformation", "why_tests_cant": "The claim ranges over an unbounded set of grids, positions and histories; a test visits finitely many.", "anchors": ["ndt_gslam/include/ndt_gslam/ndt/ndt_grid2d.h: transform"]}
{"id": "C91", "title": "Radius and centroid of a frame", "statement": "getCentroid() is the centre of the frame and every cell of the frame is within getRadius() of it.", "quantifier": "every frame", "why_tests_cant": "The claim ranges over an unbounded set of grids, positions and histories; a test visits finitely many.", "anchors": ["ndt_gslam/include/ndt_gslam/ndt/ndt_grid2d.h: getRadius, getCentroid"]}
{"id": "C92", "title": "Accepted matches overlap", "statement": "A match is reported as successful exactly when at least the set share of the points of the scan, moved by the returned rigid transform, lie within two cells of a point of the target.", "quantifier": "every sequence of matches and threshold changes, every pair of frames and guess", "why_tests_cant": "The claim is about every history of calls, of any length; tests replay a few fixed histories.", "anchors": ["ndt_gslam/include/ndt_gslam/slam_optimizer/ndt_scanmatcher.h: match, setScoreThreshold", "ndt_gslam/include/ndt_gslam/registration/d2d_ndt2d_robust.h: computeTransformation, proofTransform"]}
{"id": "C93", "title": "A match does not depend on earlier ones", "statement": "The result of match(source, target, guess) depends only on its arguments and the threshold in force, not on what was matched before; frames without distributions never match.", "quantifier": "every pair of histories of a matcher", "why_tests_cant": "The claim is about every history of calls, of any length; tests replay a few fixed histories.", "anchors": ["ndt_gslam/include/ndt_gslam/slam_optimizer/ndt_scanmatcher.h: match", "ndt_gslam/include/ndt_gslam/registration/d2d_ndt2d_robust.h: setInputSource, setInputTarget"]}
{"id": "C94", "title": "Saved robust edges read back", "statement": "What a switch, a switch prior, a switchable constraint, a mixture edge or an edge with a null hypothesis writes to a graph file is read back as the same vertex or edge, leaving the rest of the file for the next reader.", "quantifier": "all values and edges in any state", "why_tests_cant": "The claim ranges over an unbounded set of grids, positions and histories; a test visits finitely many.", "anchors": ["ndt_gslam/src/slam_optimizer/max_mixture/edge_se2_mixture.cpp: read, write", "ndt_gslam/src/slam_optimizer/switchable_constraints/vertex_switchLinear.cpp: read, write", "ndt_gslam/src/slam_optimizer/switchable_constraints/edge_se2Switchable.cpp: read, write", "ndt_gslam/src/slam_optimizer/switchable_constraints/edge_switchPrior.cpp: read, write", "ndt_gslam/src/slam_optimizer/switchable_constraints/edge_se2MaxMixture.cpp: read, write"]}
{"id": "C95", "title": "The null hypothesis is chosen when it is more likely", "statement": "An edge with a null hypothesis uses the null hypothesis exactly when the residual is more likely under it than under the constraint, takes over the information of the hypothesis chosen, and its Jacobian is the derivative of its error.", "quantifier": "every measurement, information matrix, weight and sequence of estimates", "why_tests_cant": "The claim ranges over a continuum of real inputs; tests sample isolated points and accept an epsilon.", "anchors": ["ndt_gslam/src/slam_optimizer/switchable_constraints/edge_se2MaxMixture.cpp: computeError, linearizeOplus"]}
{"id": "C96", "title": "Spatial and landmark mixtures choose the most likely component", "statement": "After each evaluation and each linearisation the 3-D and the landmark mixture edge show a component that is most likely at the current estimate.", "quantifier": "every component list and sequence of estimates", "why_tests_cant": "The claim is about every history of calls, of any length; tests replay a few fixed histories.", "anchors": ["ndt_gslam/src/slam_optimizer/max_mixture/edge_se3_mixture.cpp: computeError, linearizeOplus", "ndt_gslam/src/slam_optimizer/max_mixture/edge_se2_pointxy_mixture.cpp: computeError, linearizeOplus"]}
{"id": "C97", "title": "A rejected optimiser step leaves no trace in a switch", "statement": "Taking back the updates since an estimate was kept restores the switch vertex: its estimate, its value, and what later updates lead to.", "quantifier": "every nested sequence of kept, taken back and confirmed updates", "why_tests_cant": "The claim is about every history of calls, of any length; tests replay a few fixed histories.", "anchors": ["ndt_gslam/src/slam_optimizer/switchable_constraints/vertex_switchLinear.cpp: oplusImpl, setEstimate; ndt_gslam/include/ndt_gslam/slam_optimizer/switchable_constraints/vertex_switchLinear.h"]}
{"id": "C98", "title": "The published graph shows every constraint once", "statement": "getGraphSerialized(frame) returns one arrow per constraint, numbered consecutively, between the present places of its poses, red for constraints added by the caller and green for loop closures; a viewer that gets it again and again shows exactly the present constraints.", "quantifier": "every history of calls and publications", "why_tests_cant": "The claim is about every history of calls, of any length; tests replay a few fixed histories.", "anchors": ["ndt_gslam/include/ndt_gslam/slam_optimizer/slam2d.h: getGraphSerialized, createArrowMarkers"]}
{"id": "C99", "title": "The text of the graph lists every pose and constraint", "statement": "getGraphSerialized(stream) writes one line per pose, in order, with its present place, and then one line per constraint with the ids of its poses.", "quantifier": "every history of calls", "why_tests_cant": "The claim is about every history of calls, of any length; tests replay a few fixed histories.", "anchors": ["ndt_gslam/include/ndt_gslam/slam_optimizer/slam2d.h: getGraphSerialized"]}
{"id": "C100", "title": "The published map is that of the current graph", "statement": "After any sequence of updates the map cloud and the occupancy grid are those of a map into which exactly the frames of all nodes were drawn, each once, filled with the scans the robot got there and placed where the graph has its node now (also after loop closures moved nodes), oldest first if the clock goes forward; before the first node the map is empty.", "quantifier": "every history of updates (motions, scans, match outcomes, loop closures, optimisation results, times)", "why_tests_cant": "The claim is about every history of calls, of any length; tests replay a few fixed histories.", "anchors": ["ndt_gslam/include/ndt_gslam/ndt_slam_algorithm.h: update, updateGraph, calcOccupancyGridMsg, getPclMap", "ndt_gslam/include/ndt_gslam/ndt/ndt_mapper.h: addFrame, recalc, addToMap"]}
{"id": "C101", "title": "A frame holds the scans drawn into it, and is final once it belongs to a node", "statement": "The frame of every node holds exactly the scans taken while it was the current frame, each moved by the distance gone inside the frame; in each square it shows the newest scan's distribution; after the node is made its content never changes.", "quantifier": "every history of updates and every node", "why_tests_cant": "The claim is about every history of calls, of any length; tests replay a few fixed histories.", "anchors": ["ndt_gslam/include/ndt_gslam/ndt_slam_algorithm.h: update, updateGraph", "ndt_gslam/include/ndt_gslam/ndt/ndt_grid2d.h: mergeInTraced, initialize"]}
{"id": "C102", "title": "Every map point was seen", "statement": "Every point of the published map cloud is the average of some points of one single scan, moved into the frame of a node as the front end moved that scan, and from where the graph has that node now into the world.", "quantifier": "every history of updates and every point of the cloud", "why_tests_cant": "The claim is about every history of calls, of any length; tests replay a few fixed histories.", "anchors": ["ndt_gslam/include/ndt_gslam/ndt_slam_algorithm.h: update, getPclMap", "ndt_gslam/include/ndt_gslam/ndt/ndt_mapper.h: addFrame, recalc", "ndt_gslam/include/ndt_gslam/ndt/ndt_grid2d.h: getMeansTransformed, mergeInTraced"]}
{"id": "C103", "title": "The running window follows the robot", "statement": "The running window is never turned, its origin stays less than a cell from the last matched position along either axis, its message carries the time of the newest scan in it and the number of matches, and the matcher is started where the robot should be according to all motion since the last match.", "quantifier": "every history of updates", "why_tests_cant": "The claim is about every history of calls, of any length; tests replay a few fixed histories.", "anchors": ["ndt_gslam/include/ndt_gslam/ndt_slam_algorithm.h: update, getNDTMap, moveWindow", "ndt_gslam/include/ndt_gslam/ndt/ndt_grid2d.h: move"]}
{"id": "C104", "title": "Every point of the running window was seen", "statement": "Every distribution in the running window and every point of its published cloud lies in the convex hull of the points of one single scan that went into the window, placed in the world exactly where the match of that scan put it, however often the window has been moved since.", "quantifier": "every history of updates, every cell of the window and every point of its cloud", "why_tests_cant": "The claim is about every history of calls, of any length; tests replay a few fixed histories.", "anchors": ["ndt_gslam/include/ndt_gslam/ndt_slam_algorithm.h: update, getPclMap2, moveWindow", "ndt_gslam/include/ndt_gslam/ndt/ndt_grid2d.h: move, transform, mergeInTraced, getMeansTransformed"]}
{"id": "C105", "title": "Everything published comes from accepted messages", "statement": "Each message with known transforms and a scan of at least 400 points leads to one update with its time, its scan and the odometry motion since the last such message; other messages have no lasting effect. Every message is answered by the current transform; from the second accepted message on also by window, map, both clouds and (if configured) the graph. The map, every point of the clouds and the stamp of the window come from the scans and times of accepted messages.", "quantifier": "every sequence of incoming messages, every outcome of matching, loop search and optimisation", "why_tests_cant": "The claim is about every history of calls, of any length; tests replay a few fixed histories.", "anchors": ["ndt_gslam/src/graph_slam2d_node.cpp: laserCallback, doAlgorithm, prepareAllData", "ndt_gslam/include/ndt_gslam/ndt_slam_algorithm.h: update, getNDTMap, getPclMap2, getPclMap, calcOccupancyGridMsg"]}
{"id": "C106", "title": "The published transform corrects the odometry", "statement": "The transform published for an accepted message takes the odometry pose of that message to the estimated robot pose: the pose of the newest node moved by everything registered since; with odometry only, the odometry pose relative to the first message.", "quantifier": "every sequence of incoming messages", "why_tests_cant": "The claim is about every history of calls, of any length; tests replay a few fixed histories.", "anchors": ["ndt_gslam/src/graph_slam2d_node.cpp: doAlgorithm, tfTransFromPose", "ndt_gslam/include/ndt_gslam/ndt_slam_algorithm.h: update"]}
{"id": "C107", "title": "The odometry's uncertainty is used", "statement": "The covariance that comes with the odometry influences the estimate.", "quantifier": "every sequence of incoming messages and covariances", "why_tests_cant": "The claim is about every history of calls, of any length; tests replay a few fixed histories.", "anchors": ["ndt_gslam/src/graph_slam2d_node.cpp: doAlgorithm", "ndt_gslam/include/ndt_gslam/ndt_slam_algorithm.h: update, updateGraph"]}
{"id": "C108", "title": "The two messages about the window agree", "statement": "The window's NDT map message and the window's cloud, published for the same message in the same frame, show the same distributions at the same places.", "quantifier": "every sequence of incoming messages", "why_tests_cant": "The claim is about every history of calls, of any length; tests replay a few fixed histories.", "anchors": ["ndt_gslam/include/ndt_gslam/ndt_slam_algorithm.h: getNDTMap, getPclMap2", "ndt_gslam/include/ndt_gslam/ndt/ndt_grid2d.h: serialize, getMeansTransformed, move"]}
{"id": "C109", "title": "A cell's message tells its distribution", "statement": "From the message of a cell a receiver gets back mean, covariance, point count and occupancy, and can tell whether the cell has a distribution at all.", "quantifier": "every history of a cell", "why_tests_cant": "The claim is about every history of calls, of any length; tests replay a few fixed histories.", "anchors": ["ndt_gslam/src/ndt/ndt_cell.cpp: serialize", "ndt_gslam/include/ndt_gslam/ndt_slam_algorithm.h: toNdtMapMsg"]}
{"id": "C110", "title": "A closed loop was measured", "statement": "Every loop closing edge of the graph joins a node to an older one and carries a transform for which the scan matcher accepted the frames of the two nodes, made of exactly the scans that belong to them, when the nodes were closer than the configured distance; placed by that transform, the number of points of the older frame close to a point of the newer one reaches the configured share (0.6, the default, if a higher one is configured) of the number of points of the newer frame, so that once the poses satisfy the edge both frames show the same place. What the matcher compared before has no influence.", "quantifier": "every history of updates and every edge of the graph", "why_tests_cant": "The claim is about every history of calls, of any length; tests replay a few fixed histories.", "anchors": ["ndt_gslam/include/ndt_gslam/slam_optimizer/loop_detector.h: genLoopClosures", "ndt_gslam/include/ndt_gslam/slam_optimizer/ndt_scanmatcher.h: match", "ndt_gslam/include/ndt_gslam/slam_optimizer/slam2d.h: tryLoopClose", "ndt_gslam/include/ndt_gslam/ndt_slam_algorithm.h: update"]}
{"id": "C111", "title": "A loop candidate is matched from the heading alone", "statement": "The match of a loop candidate starts from the difference of the two headings and no translation, and the distance travelled along an edge is the same in both directions.", "quantifier": "every pair of poses", "why_tests_cant": "The claim ranges over a continuum of real inputs; tests sample isolated points and accept an epsilon.", "anchors": ["ndt_gslam/include/ndt_gslam/slam_optimizer/loop_detector.h: genLoopClosures, genPossibleEdges"]}
{"id": "C112", "title": "A loop closing edge has a limited length", "statement": "However far apart the two nodes were estimated to be when the loop was found, and however large the configured search distance, the transform of a loop closing edge is never longer than 4 + sqrt(32) metres (about 9.66).", "quantifier": "every history of updates, every edge of the graph, every search distance, any linear solver, neighbour search, thread schedule and sort", "why_tests_cant": "The claim is about every history of calls, of any length; tests replay a few fixed histories.", "anchors": ["ndt_gslam/include/ndt_gslam/slam_optimizer/loop_detector.h: genLoopClosures", "ndt_gslam/include/ndt_gslam/slam_optimizer/ndt_scanmatcher.h: match", "ndt_gslam/include/ndt_gslam/registration/d2d_ndt2d_robust.h: computeTransformation", "ndt_gslam/include/ndt_gslam/registration/correlative_estimation2d.h: computeTransformation"]}
{"id": "C113", "title": "The incremental registration takes two rounds per layer, whatever is configured", "statement": "When the step size is at most half the transformation epsilon, as in the front end (0.01 and 0.1), neither the step size nor the maximum of iterations influences the result of aligning a cloud with a grid; every layer takes exactly two rounds, and the result differs from the guess by at most the epsilon per layer: 0.4 metres and radians together with the settings of the front end.", "quantifier": "all clouds, grids, guesses, step sizes, iteration limits, linear solvers and neighbour searches", "why_tests_cant": "The claim ranges over a continuum of real inputs; tests sample isolated points and accept an epsilon.", "anchors": ["ndt_gslam/include/ndt_gslam/registration/ndt2d.h: computeTransformation, computeSingleGrid, computeStepLengthMT", "ndt_gslam/include/ndt_gslam/ndt_slam_algorithm.h: NDTSlamAlgorithm"]}
{"id": "C114", "title": "Matching cannot move the path far from the odometry", "statement": "What an update adds to the path differs by at most 0.4 (metres and radians together) from the motion reported by the odometry for that update, whatever the scans show and however long the history.", "quantifier": "every history of updates with the incremental matcher of the program", "why_tests_cant": "The claim is about every history of calls, of any length; tests replay a few fixed histories.", "anchors": ["ndt_gslam/include/ndt_gslam/ndt_slam_algorithm.h: update, updateGraph", "ndt_gslam/include/ndt_gslam/registration/ndt2d.h: computeTransformation"]}
{"id": "C115", "title": "Published poses follow the odometry from message to message", "statement": "Unless a loop is closed, the motion between the robot poses that two successive accepted messages make known (odometry pose moved by the published transform) differs by at most 0.4 (metres and radians together) from the motion between their odometry poses. After messages whose motion was too small to be processed the later pose continues the last processed one by the newest motion only.", "quantifier": "every sequence of incoming messages with the incremental matcher of the program", "why_tests_cant": "The claim is about every history of calls, of any length; tests replay a few fixed histories.", "anchors": ["ndt_gslam/src/graph_slam2d_node.cpp: doAlgorithm", "ndt_gslam/include/ndt_gslam/ndt_slam_algorithm.h: update"]}
{"id": "C116", "title": "Size of the running window", "statement": "The running window always covers the square of the configured radius around its origin, a call never makes it smaller, and however long the robot runs it never reaches farther than the larger of the configured radius and the reach of the matched scans, plus one cell; the published message gives that size. (The configured radius alone is no upper limit.)", "quantifier": "every history of calls, every radius and every bound on the scans and matches", "why_tests_cant": "The claim is about every history of calls, of any length; tests replay a few fixed histories.", "anchors": ["ndt_gslam/include/ndt_gslam/ndt_slam_algorithm.h: update", "ndt_gslam/include/ndt_gslam/ndt_slam_algorithm.h: getNDTMap", "ndt_gslam/include/ndt_gslam/ndt/ndt_grid2d.h: mergeInTraced", "ndt_gslam/include/ndt_gslam/ndt/ndt_grid2d.h: enlarge", "ndt_gslam/include/ndt_gslam/ndt/ndt_grid2d.h: move", "ndt_gslam/include/ndt_gslam/ndt/voxel_grid2d.h: enlarge"]}
{"id": "C117", "title": "Settings do what they say", "statement": "The program starts exactly if the configured score threshold lies inside (0, 1). In every run the window covers the configured radius, nodes are made exactly when the robot has gone further than the configured distance, every loop closing edge joins nodes that were closer than the configured maximum, whose frames overlap by the configured share (at most 0.6), after a way through the graph as long as the configured minimum, and the graph is published only if configured. Settings of the wrong type count as not given; no other setting has an effect, and frames are set by names spelt like the others.", "quantifier": "every assignment of parameters, every sequence of messages", "why_tests_cant": "The claim ranges over an unbounded set of grids, positions and histories; a test visits finitely many.", "anchors": ["ndt_gslam/src/graph_slam2d_node.cpp: initParameters, doAlgorithm", "ndt_gslam/include/ndt_gslam/ndt_slam_algorithm.h: setRunWindowRadius, setGenerationDistance, setLoopClosureMaxDist, setLoopClosureMinDist, setLoopClosureScoreThreshold", "ndt_gslam/include/ndt_gslam/slam_optimizer/loop_detector.h: genLoopClosures"]}
{"id": "C118", "title": "Published frames are the configured ones", "statement": "Transforms are published from the configured map frame to the odometry frame in which the robot's pose is looked up, everything else in the map frame, all below the prefix if there is one; robots that are configured apart never name the same frame.", "quantifier": "every assignment of parameters and prefixes, every message", "why_tests_cant": "The claim ranges over an unbounded set of grids, positions and histories; a test visits finitely many.", "anchors": ["ndt_gslam/src/graph_slam2d_node.cpp: initParameters, publishTF, preparePoseData, doAlgorithm"]}
{"id": "C119", "title": "Topics of robots are kept apart", "statement": "Which topics are listened to follows from the subscribe mode; the program never listens to a topic it publishes; robots in different namespaces share no topic but that of the transforms.", "quantifier": "every assignment of parameters and all namespaces", "why_tests_cant": "The claim ranges over an unbounded set of grids, positions and histories; a test visits finitely many.", "anchors": ["ndt_gslam/src/graph_slam2d_node.cpp: GraphSlamNode, initParameters"]}
{"id": "C120", "title": "The graph grows with the path only", "statement": "There is at most one node for every configured distance of estimated path, at most one for every accepted message, and at most 51 edges for every node. With the program's registration the estimated path is longer than that through the odometry positions by at most 0.4 metres for every message that moved the pose.", "quantifier": "every sequence of incoming messages, any loop detection outcome", "why_tests_cant": "The claim is about every history of calls, of any length; tests replay a few fixed histories.", "anchors": ["ndt_gslam/include/ndt_gslam/ndt_slam_algorithm.h: update, updateGraph, movedEnough", "ndt_gslam/include/ndt_gslam/slam_optimizer/slam2d.h: tryLoopClose, addConstrain", "ndt_gslam/include/ndt_gslam/slam_optimizer/loop_detector.h: genLoopClosures"]}
{"id": "C121", "title": "The program goes on in general position", "statement": "Every message with odometry and a scan of at least 400 points is processed and answered, and leaves nothing undefined behind: the current frame, the frames of all nodes, the running window and the map. Required of the scans, frames and grids drawn along the way: none of their points or distributions lies exactly on a border between squares, or exactly where it is seen from.", "quantifier": "every sequence of incoming messages, any loop detection, registration and optimisation outcome", "why_tests_cant": "The claim is about every history of calls, of any length; tests replay a few fixed histories.", "anchors": ["ndt_gslam/src/graph_slam2d_node.cpp: data callback", "ndt_gslam/include/ndt_gslam/ndt_slam_algorithm.h: update", "ndt_gslam/include/ndt_gslam/ndt/ndt_grid2d.h: mergeInTraced, initialize, transform, move", "ndt_gslam/include/ndt_gslam/ndt/ndt_mapper.h: addFrame, recalc"]}
{"id": "C122", "title": "The frame of the odometry does not matter", "statement": "If the same messages arrive with the robot's poses told in another odometry frame (turned and displaced by any rigid motion), the program does the same: pose graph, window, map and every published message but the transform to the odometry frame are the same, and that transform leads from the other frame to the same place of the map for every pose of the robot.", "quantifier": "every sequence of incoming messages and every planar rigid motion between the frames", "why_tests_cant": "The claim is about every history of calls, of any length; tests replay a few fixed histories.", "anchors": ["ndt_gslam/src/graph_slam2d_node.cpp: data callback, preparePoseData, doAlgorithm", "ndt_gslam/include/ndt_gslam/utils/eigen_tools.h: getPoseFromTransform, getTransFromPose, eigenPoseToTF"]}
{"id": "C123", "title": "Rounding puts points into their own squares", "statement": "With the arithmetic of the machine (double points, float cell sizes, every operation rounded) the test whether a point is in a grid gives the exact answer and a point is looked up in the square it lies in.", "quantifier": "every grid whose cell size is a power of two (the program's 0.25 m included) and every point, both up to 2^18 cells from the origin", "why_tests_cant": "The claim ranges over an unbounded set of grids, positions and histories; a test visits finitely many.", "anchors": ["ndt_gslam/include/ndt_gslam/ndt/voxel_grid2d.h: isInside, calcCoordinates, cellExists, getCellPtr"]}
{"id": "C124", "title": "Rounding does not spoil growing", "statement": "With the arithmetic of the machine, adding a cell grows the window so that it holds the position, and the cell is found again there; adding, finding, reading and removing do the same as with exact numbers.", "quantifier": "every grid whose cell size is a power of two and every point, both up to 2^17 cells from the origin", "why_tests_cant": "The claim ranges over an unbounded set of grids, positions and histories; a test visits finitely many.", "anchors": ["ndt_gslam/include/ndt_gslam/ndt/voxel_grid2d.h: enlargeToFit, calcIncLeft, calcIncRight, calcIncUp, calcIncDown, addCell, removeCell, cellExists"]}
{"id": "C125", "title": "Following the robot accumulates no rounding errors", "statement": "With the arithmetic of the machine, when the window follows the robot the whole cells it moves and the remainder handed on add up exactly to the motion asked for, and are what they would be without rounding; the origin of the window stays an exact multiple of the cell size.", "quantifier": "every cell size of at most a metre that is a power of two, every motion of at most 2^23 cells, any origin up to 2^50 cells away", "why_tests_cant": "The claim ranges over an unbounded set of grids, positions and histories; a test visits finitely many.", "anchors": ["ndt_gslam/include/ndt_gslam/ndt/ndt_grid2d.h: move"]}
{"id": "C126", "title": "Trial steps of the line search", "statement": "The helpers of the line search return what their descriptions say: looking forwards, the next step is built from the minimum of the cubic, the minimum of the parabola or the zero of the slope that interpolate the two places, and lies between them when the function has turned; when it still falls the step goes at most 66 percent of the way to the other end. The interval is updated so that its first end is the lowest place seen, it only shrinks, and it always encloses a minimum of the function. (Looking backwards the cubic's maximum is taken and the step can lie outside.)", "quantifier": "all places, values and slopes, every differentiable function and every sequence of trials", "why_tests_cant": "The claim ranges over a continuum of real inputs; tests sample isolated points and accept an epsilon.", "anchors": ["ndt_gslam/include/ndt_gslam/registration/ndt_reg_tools.h: updateIntervalMT, trialValueSelectionMT"]}
{"id": "C127", "title": "Size of the published map", "statement": "The map shows every distribution that was ever drawn into it; it never shrinks, also when it is redrawn after loop closures, and reaches no farther than one cell beyond the smallest centred square that held the frames; the published message has that size. In the whole program the map always shows the frames of all nodes where the graph has them now.", "quantifier": "every history of adding, moving and redrawing frames, every run of the program", "why_tests_cant": "The claim is about every history of calls, of any length; tests replay a few fixed histories.", "anchors": ["ndt_gslam/include/ndt_gslam/ndt/ndt_mapper.h: addFrame, recalc, calcOccupancyGridMsg", "ndt_gslam/include/ndt_gslam/ndt/ndt_grid2d.h: mergeInTraced, enlarge"]}
{"id": "C128", "title": "The text of the graph can be read again", "statement": "A reader of the characters that getGraphSerialized(stream) writes gets back exactly the poses in order, each at the place where it is reported to be up to five parts in a million in each coordinate (without any error if six digits are enough), and then exactly the constraints with their two poses; numbers that are not finite and the sign of zero survive. Places that differ by less than that can have the same text.", "quantifier": "every history of the graph, every pose value", "why_tests_cant": "The claim ranges over an unbounded set of grids, positions and histories; a test visits finitely many.", "anchors": ["ndt_gslam/include/ndt_gslam/slam_optimizer/slam2d.h: getGraphSerialized(std::ostream&)"]}
{"id": "C129", "title": "Starting values from the odometry", "statement": "Setting the graph up from odometry puts every pose where dead reckoning along the caller's constraints from the first pose puts it, keeps everything else (payload, constraints, the optimiser's graph), and does not affect the result of a later optimisation. It ends if and only if the constraints followed from the first pose lead to a pose that none leaves.", "quantifier": "every history of the graph, every set of constraints", "why_tests_cant": "The claim is about every history of calls, of any length; tests replay a few fixed histories.", "anchors": ["ndt_gslam/include/ndt_gslam/slam_optimizer/slam2d.h: initializeGrapFromOdom, optimalize, optimalizeIterationaly"]}
{"id": "C130", "title": "Free-space evidence is counted once per beam", "statement": "When a scan or another grid is merged with tracing, every square of the window gets exactly one free-space update for each incoming distribution whose beam is sampled in it (half-cell steps from the sensor to a cell before the end, as long as the samples stay inside the window), in reading order of the scan's squares, and no other; the distributions are merged after that. From outside of the window nothing is traced; in a new frame only the sensor's own square is marked. In a square without a distribution the updates add up: 0.2 less per point seen through it, down to -1.", "quantifier": "every window, scan and grid without distributions on borders between squares and without beams of length zero", "why_tests_cant": "The claim ranges over an unbounded set of grids, positions and histories; a test visits finitely many.", "anchors": ["ndt_gslam/include/ndt_gslam/ndt/ndt_grid2d.h: mergeInTraced, initialize", "ndt_gslam/include/ndt_gslam/ndt/voxel_grid2d.h: rayTrace", "ndt_gslam/src/ndt/ndt_cell.cpp: updateOccupancy"]}
{"id": "C131", "title": "Figures of the matcher comparison", "statement": "ndt2d_visual reads every line of the two files of a folder, compares each recording that is turned and moved by more than the limits from the last target with that target (the first 1001 of them), and prints how many there were and the mean absolute errors in x, y and direction of the chosen matcher's answers against the recorded poses; a wrong command line is answered by the usage.", "quantifier": "every pair of files, every command line, every behaviour of the matchers", "why_tests_cant": "The claim ranges over an unbounded set of grids, positions and histories; a test visits finitely many.", "anchors": ["ndt_gslam/src/registration/ndt2d_visual.cpp: main, test, testMatch, preparePoseData, prepareLaserScans"]}
{"id": "C132", "title": "Map from recorded poses", "statement": "ndt_grid2d_merging, given a folder, merges the recorded scans in order into one map, each at the recorded pose relative to the first one.", "quantifier": "every pair of files and every command line", "why_tests_cant": "The claim ranges over an unbounded set of grids, positions and histories; a test visits finitely many.", "anchors": ["ndt_gslam/src/ndt/ndt_grid2d_merging.cpp: main, mappingKnownPoses, preparePoseData, prepareLaserScans"]}
{"id": "C133", "title": "Robust loop constraints do not disturb the graph", "statement": "Closing loops with mixture or switchable constraints instead of ordinary ones leaves everything a caller reads as it is without them, apart from what the optimiser makes of the poses. Every constraint asked for reaches the optimiser once, with its two poses, its motion and its information matrix; a switchable one gets its own switch, which starts at 1, stays between 0 and 1 and is pulled to 1 by its own prior. No two vertices and no two edges of the optimiser have the same number, and successive poses have successive numbers. A constraint between unknown poses is refused.", "quantifier": "every history of poses, constraints, loop closures, robust constraints and optimisations", "why_tests_cant": "The claim is about every history of calls, of any length; tests replay a few fixed histories.", "anchors": ["ndt_gslam/include/ndt_gslam/slam_optimizer/slam2d.h: addMaxMixtureEdge, addSwitchConstrainEdge, addPose, addConstrain, optimalize", "ndt_gslam/src/slam_optimizer/switchable_constraints/vertex_switchLinear.cpp: oplusImpl, setEstimate"]}
{"id": "C134", "title": "Robust loop constraints give way to wrong closures", "statement": "A mixture constraint acts as the constraint asked for while the squared error of the current estimates exceeds that of the null hypothesis by less than ln(det I / det N) + 2 ln 10^4, and as the null hypothesis beyond that, at every point of every history. A switchable constraint costs the optimiser less than the information of its prior, however wrong the measured motion is, at exactly one best position of its switch between 0 and 1.", "quantifier": "every history, all poses, motions and information matrices of positive determinant", "why_tests_cant": "The claim ranges over a continuum of real inputs; tests sample isolated points and accept an epsilon.", "anchors": ["ndt_gslam/include/ndt_gslam/slam_optimizer/slam2d.h: addMaxMixtureEdge, addSwitchConstrainEdge", "ndt_gslam/src/slam_optimizer/max_mixture/edge_se2_mixture.cpp: initializeComponents, computeError, getNegLogProb, UpdateBelief", "ndt_gslam/src/slam_optimizer/switchable_constraints/edge_se2Switchable.cpp: computeError"]}
{"id": "C135", "title": "Exact content of frames and map", "statement": "After any calls of update(), every frame is the result of its scans one after the other: a distribution of the next scan replaces what its square held, and every other square gets one free-space update for each beam of that scan through it. The map is the result of the frames of all nodes one after the other, each at its node's present place: free-space updates from every frame whose sensor lies in the map drawn so far, then its distributions replace what their squares held. The published cloud is exactly the set of means of the distributions in that map, and the occupancy grid is made of the same map.", "quantifier": "every history of calls of update() whose scans have no point on a border between squares and no distribution exactly at the sensor", "why_tests_cant": "The claim is about every history of calls, of any length; tests replay a few fixed histories.", "anchors": ["ndt_gslam/include/ndt_gslam/ndt/ndt_grid2d.h: mergeInTraced, initialize", "ndt_gslam/include/ndt_gslam/ndt/ndt_mapper.h: addFrame, addToMap, recalc", "ndt_gslam/include/ndt_gslam/ndt_slam_algorithm.h: update"]}
{"id": "C136", "title": "Tracing a ray with rounded numbers", "statement": "With the arithmetic of the machine (double points, float cell sizes, every operation rounded, the rounding errors of the running point adding up from step to step) rayTrace lists and creates the same cells as with exact numbers: those of the half-cell steps from the start to the end or to the border of the window.", "quantifier": "every grid with a cell size that is a power of two, all points within 2^17 cells", "why_tests_cant": "The claim ranges over a continuum of real inputs; tests sample isolated points and accept an epsilon.", "anchors": ["ndt_gslam/include/ndt_gslam/ndt/voxel_grid2d.h: rayTrace"]}
{"id": "C137", "title": "The printed picture of a map", "statement": "An NDT grid written to a stream (as ndt_grid2d_merging does with its map) is a picture: one line for each row of the window from the top, one character for each square from the left, W for a square with a distribution, a full stop for a cell without one and a space for no cell. Two maps of the same size that print alike have distributions in the same squares.", "quantifier": "every grid", "why_tests_cant": "The claim ranges over an unbounded set of grids, positions and histories; a test visits finitely many.", "anchors": ["ndt_gslam/include/ndt_gslam/ndt/ndt_grid2d.h: operator<<", "ndt_gslam/src/ndt/ndt_grid2d_merging.cpp: mappingKnownPoses"]}
{"id": "C138", "title": "Numbers are printed in columns", "statement": "A voxel grid and the lookup table of the correlative registration, written to a stream, have one line for each row and one field of five characters for each square, which holds the value of that square, or NULL.", "quantifier": "every grid and every lookup table", "why_tests_cant": "The claim ranges over an unbounded set of grids, positions and histories; a test visits finitely many.", "anchors": ["ndt_gslam/include/ndt_gslam/ndt/voxel_grid2d.h: operator<<", "ndt_gslam/include/ndt_gslam/ndt/ndt_cell.h: operator<<", "ndt_gslam/include/ndt_gslam/registration/correlative_estimation_tools.h: operator<<"]}
{"id": "C139", "title": "The graph as a list of lines", "statement": "createListMarkers gives one marker with one visible line for each constraint, between the present places of its two poses.", "quantifier": "every history of poses, constraints, loop closures and optimisations", "why_tests_cant": "The claim is about every history of calls, of any length; tests replay a few fixed histories.", "anchors": ["ndt_gslam/include/ndt_gslam/slam_optimizer/slam2d.h: createListMarkers"]}
{"id": "C140", "title": "How much one beam tells about a distribution", "statement": "A beam that does not end at the mean of a cell lowers the cell's occupancy by a number of log odds for each of its readings that depends only on the likelihood of the most likely point the beam passed and on that point's distance from the beam's end: nothing at the end, less than ln(3/2) anywhere. The occupancy stops at -1 and the distribution goes when nothing above zero remains. A cell without distribution loses a fifth for each reading. What lies behind the end of the beam does not count.", "quantifier": "every cell reachable by public calls, all beams and numbers of readings", "why_tests_cant": "The claim ranges over a continuum of real inputs; tests sample isolated points and accept an epsilon.", "anchors": ["ndt_gslam/src/ndt/ndt_cell.cpp: updateOccupancy, calcMaxLikelihoodOnLine", "ndt_gslam/include/ndt_gslam/ndt/ndt_cell.h: setMean, setCentroid"]}
{"id": "C141", "title": "The map of known poses and its picture", "statement": "ndt_grid2d_merging draws its map scan by scan from number 7000 on, without the last 10000: the distributions of a scan, placed where the first pose sees the pose of the scan, replace what is in their squares, and every other square gets one free-space update for each beam of the scan through it if the sensor is in the window drawn so far. The text it prints has one line for each row of that map and shows for each square whether it has a distribution, a cell without one, or none.", "quantifier": "every folder with more than 17000 scans and a pose for each used one, no used recording with a point on a border between squares or a distribution exactly at the sensor", "why_tests_cant": "The claim ranges over an unbounded set of grids, positions and histories; a test visits finitely many.", "anchors": ["ndt_gslam/src/ndt/ndt_grid2d_merging.cpp: mappingKnownPoses", "ndt_gslam/include/ndt_gslam/ndt/ndt_grid2d.h: mergeInTraced, operator<<"]}
{"id": "C142", "title": "Obstacles that go away and come back", "statement": "A distribution crossed by the same beam again and again stays exactly as long as the evidence of these beams together is less than the occupancy it had. It goes at some time unless the beam ends at the most likely point of its line, and at once for a beam of three readings through the mean which ends at least three centimetres away. Once it is gone, the next six points added make a new one with full occupancy, computed from the new points alone, however many beams went through.", "quantifier": "every cell reachable by public calls, all beams, readings and points", "why_tests_cant": "The claim is about every history of calls, of any length; tests replay a few fixed histories.", "anchors": ["ndt_gslam/src/ndt/ndt_cell.cpp: updateOccupancy, computeGaussian, addPoint"]}
{"id": "C143", "title": "Without a loop there is nothing to optimise", "statement": "The cost of a set of poses depends only on where they see each other, so keeping the first pose fixed loses nothing. As long as no loop was closed the poses of all nodes agree exactly with all constraints: their cost is zero, no choice of poses costs less, and with the first pose kept no other choice costs as little. A pose made without closing a loop agrees with the constraint to the pose before it after every history.", "quantifier": "every history of calls of update() and every choice of poses, all information matrices for the first part and positive definite ones for uniqueness", "why_tests_cant": "The claim is about every history of calls, of any length; tests replay a few fixed histories.", "anchors": ["ndt_gslam/include/ndt_gslam/ndt_slam_algorithm.h: update, updateGraph", "ndt_gslam/include/ndt_gslam/slam_optimizer/slam2d.h: addPose, addLastConstrain, optimalize"]}
{"id": "C144", "title": "The occupancy of a cell with rounded numbers", "statement": "With the arithmetic of the machine (occupancies are floats) the occupancy of a cell is a float between -1 and 1 and differs from the one of exact numbers by at most 2^-22 for each update. Evidence never acts in the wrong direction; five points fill a cell and eleven through a cell without distribution empty it. A full cell loses its distribution in the end to beams whose evidence is at least 2^-24 each; evidence of at most 2^-25 is lost for ever, although with exact numbers it would empty the cell.", "quantifier": "every history of updates of a cell, every evidence", "why_tests_cant": "The claim ranges over a continuum of real inputs; tests sample isolated points and accept an epsilon.", "anchors": ["ndt_gslam/src/ndt/ndt_cell.cpp: updateOccupancy, addPoint, computeGaussian", "ndt_gslam/include/ndt_gslam/ndt/ndt_cell.h: MAX_OCCUPANCY, LOG_LIKE_OCCUPANCY, NO_GAUSSIAN_OCCUP_UPDATE"]}
{"id": "C145", "title": "Mean and covariance with rounded numbers", "statement": "With the arithmetic of the machine (doubles, sums over all points in one pass) the mean of n new points whose coordinates are at most 2^e differs from the true one by at most n 2^e / 2^51 and every entry of their covariance by at most n 4^e / 2^48. The matrix is positive definite as long as n 2^e is at most 2^23, and symmetric.", "quantifier": "all batches of at least six points, all coordinates", "why_tests_cant": "The claim ranges over a continuum of real inputs; tests sample isolated points and accept an epsilon.", "anchors": ["ndt_gslam/src/ndt/ndt_cell.cpp: computeGaussian"]}
{"id": "C146", "title": "Means do not drift", "statement": "Pooling a cell any number of times, with further points or with other cells, keeps its number of points exactly as with exact numbers (at most 10^9) and its mean right but for the error of what is added and 2^e / 2^48 for each time, all means being within 2^e. As long as the cell counts all its points the exact mean is that of everything added, each weighted with its number.", "quantifier": "every cell, every sequence of pooled batches and cells, all numbers of points", "why_tests_cant": "The claim is about every history of calls, of any length; tests replay a few fixed histories.", "anchors": ["ndt_gslam/src/ndt/ndt_cell.cpp: computeGaussian, operator+="]}
{"id": "C147", "title": "The node hands every usable message to the algorithm once", "statement": "The algorithm is called once for every message whose lookups succeed and whose cloud has at least 400 points, in the order of arrival, with the cloud, the time and the planar part of the covariance of that message (0.0001 for each of x, y and the angle in laser only mode), and for nothing else; the poses are those it returned.", "quantifier": "every algorithm, every sequence of messages", "why_tests_cant": "The claim is about every history of calls, of any length; tests replay a few fixed histories.", "anchors": ["ndt_gslam/src/graph_slam2d_node.cpp: odom_cb, pose_cb, laser_cb, prepareAllData, doAlgorithm, arrayToMatrix"]}
{"id": "C148", "title": "Only the order of time stamps matters", "statement": "Reading the stamps of all messages off another clock that never goes backwards against the first (started earlier or later, faster or slower) leaves the poses, the map, the window and the graph as they are; what is published differs in its stamps only, and they are those of the same messages on the other clock.", "quantifier": "every run of the program, every clock", "why_tests_cant": "The claim is about every history of calls, of any length; tests replay a few fixed histories.", "anchors": ["ndt_gslam/include/ndt_gslam/ndt_slam_algorithm.h: update, updateGraph", "ndt_gslam/include/ndt_gslam/ndt/ndt_mapper.h: addFrame, recalc", "ndt_gslam/src/graph_slam2d_node.cpp: doAlgorithm"]}
{"id": "C149", "title": "A grid can be started anew", "statement": "A new grid is at its pose with its stamp and holds nothing but one default cell; setting origin or stamp changes nothing else; starting a grid from a cloud gives the same grid whatever it held before; and asking whether a position is inside answers for the bounds of the grid.", "quantifier": "every grid, pose, stamp, cloud and position", "why_tests_cant": "The claim ranges over an unbounded set of grids, positions and histories; a test visits finitely many.", "anchors": ["ndt_gslam/include/ndt_gslam/ndt/ndt_grid2d.h: NDTGrid2D, setOrigin, setTimestamp, initialize, initializeSimple, isInside"]}
