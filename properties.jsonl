{"id": "C01", "title": "Union-find maintains a partition", "statement": "After any history of adding items and uniting sets through the handles that find() returns, two items get the same handle from find() exactly when the unions performed so far connect them; find() never changes the answer of any other query.", "quantifier": "every sequence of add / find / unite calls, of any length, over any item type", "why_tests_cant": "the path-compressed forest reachable after n calls depends on the whole history; a test fixes one history", "anchors": ["include/utils/UnionFind.h: UnionFind::add, find, findByHandle, unite", "src/infill.cpp: Infill::connectLines"]}
{"id": "C02", "title": "Integer division helpers round as documented", "statement": "For every dividend and every non-zero divisor, floor_divide_signed is the mathematical floor of the quotient, ceil_divide_signed the ceiling, and round_divide_signed and round_divide a nearest integer (ties away from zero).", "quantifier": "all 64-bit dividends and non-zero divisors of either sign for which no intermediate overflows", "why_tests_cant": "2^128 argument pairs; the sign and remainder cases interact", "anchors": ["include/utils/math.h: round_divide_signed, ceil_divide_signed, floor_divide_signed, round_divide, round_up_divide"]}
{"id": "C03", "title": "Raft layer classification tiles the layer stack", "statement": "With a raft, walking the layer numbers upward from the lowest one shows exactly the configured number of base, then interface, then surface, then air-gap layers, and layer 0 and up are model layers; without a raft every layer number from the lowest up is a model layer.", "quantifier": "all raft settings (layer counts, air gap, layer height) and all layer numbers", "why_tests_cant": "layer numbers and settings are unbounded", "anchors": ["src/raft.cpp: Raft::getLayerType, getTotalExtraLayers, getFillerLayerCount, getFillerLayerHeight"]}
{"id": "C04", "title": "Sliced layer heights are strictly increasing and evenly spaced", "statement": "The z coordinate at which layer i is sliced is strictly increasing in i, consecutive layers after the first are exactly one layer height apart (or follow the adaptive table), and each z lies inside the layer it represents in the middle-slicing mode.", "quantifier": "all layer counts, layer thicknesses, initial thicknesses and slicing tolerance modes", "why_tests_cant": "quantifies over every layer index of every print", "anchors": ["src/slicer.cpp: Slicer::buildLayersWithHeight"]}
{"id": "C05", "title": "A triangle crossing a layer gives exactly one segment on its edges", "statement": "For each triangle and slicing height the slicer emits a segment exactly when the (compensated) vertices are not all on the same side in the documented sense; both ends lie on two different edges of the triangle, within the edge's bounding range, and the material side is consistently on one side of the directed segment.", "quantifier": "all integer triangles and all slicing heights", "why_tests_cant": "six orderings of vertex heights times all coordinates; boundary cases where a vertex lies exactly on the plane", "anchors": ["src/slicer.cpp: Slicer::buildSegments, project2D, interpolate"]}
{"id": "C06", "title": "Interpolation along an edge stays on the edge", "statement": "Interpolating the x (or y) coordinate of the point where an edge meets a layer height gives a value between the two end coordinates, equals the start coordinate at the start height and (for edges traversed upwards) the end coordinate at the end height, is always less than 1.25 units from the exact rational value, and slicing the same edge in the opposite direction differs by at most one unit.", "quantifier": "all integer edge end points with different heights and every height between them", "why_tests_cant": "rounding bias terms depend on sign and remainder of 64-bit products", "anchors": ["src/slicer.cpp: interpolate, Slicer::interpolate, project2D"]}
{"id": "C07", "title": "A closed oriented mesh is sliced to closed contours only", "statement": "If every edge of the mesh is shared by exactly two faces with opposite orientation and no vertex lies exactly on the slicing plane, then joining the segments of a layer produces closed polygons only: there are no open polylines left over.", "quantifier": "all closed oriented triangle meshes of any size, all slicing heights", "why_tests_cant": "global topological property of meshes of unbounded size", "anchors": ["src/slicer.cpp: SlicerLayer::makeBasicPolygonLoops, makeBasicPolygonLoop, tryFaceNextSegmentIdx, getNextSegmentIdx, Slicer::buildSegments"]}
{"id": "C08", "title": "Joining segments loses and duplicates nothing", "statement": "For every list of layer segments with any (even broken) adjacency information, the joining terminates, every segment is used exactly once in exactly one resulting closed polygon or open polyline, each result lists where its first segment starts followed by where each of its segments ends, and only segments whose ends meet within 10 micron are joined.", "quantifier": "all segment lists, adjacency maps and face links", "why_tests_cant": "mutable visited flags make the result depend on all earlier loops", "anchors": ["src/slicer.cpp: SlicerLayer::makeBasicPolygonLoops, makeBasicPolygonLoop"]}
{"id": "C09", "title": "Stitching open polylines conserves every point", "statement": "connectOpenPolylines and the wider stitching pass always complete, for every order in which stitches of the same distance are taken: each input line is afterwards exactly one piece of one remaining line or one new polygon (backwards only where that is allowed), pieces and the ends of polygons meet over gaps smaller than the permitted gap, the smallest gap is closed first, no two joinable ends closer than the permitted gap remain, and earlier polygons are unchanged. Extensive stitching terminates after at most one round per line, adds only vertices of polygons within 0.1 mm of which both ends lie, along the shorter way, always the shortest gap first, until none can be closed. (Not true of the code: that the queue's comparison is an order, and that extensive stitching always attaches a line by the end at the gap.)", "quantifier": "all sets of open polylines and all gap distances", "why_tests_cant": "the greedy priority queue re-plans after every join; states depend on the full history of joins", "anchors": ["src/slicer.cpp: SlicerLayer::connectOpenPolylinesImpl, findPossibleStitches, planPolylineStitch, joinPolylines, TerminusTrackingMap, stitch_extensive, findPolygonGapCloser, findPolygonPointClosestTo; src/slicer.h: PossibleStitch, Terminus"]}
{"id": "C10", "title": "Adaptive layers cover the model with allowed heights", "statement": "The adaptive layer table has strictly increasing z positions, each position is the previous one plus that layer's height, every height after the first is one of the allowed heights, the table reaches above the top of the model, and the computation terminates whenever the step size is positive.", "quantifier": "all base heights, variations, steps, thresholds and meshes", "why_tests_cant": "loop length depends on the mesh; data dependent choice at each layer", "anchors": ["src/settings/AdaptiveLayerHeights.cpp: AdaptiveLayerHeights::calculateAllowedLayerHeights, calculateLayers"]}
{"id": "C11", "title": "Path ordering prints every path exactly once", "statement": "Without ordering constraints the path optimizer outputs a permutation of the paths it was given, whatever the geometry, seam settings and start point. Every path starts in one of its vertices, an open one at one of its two ends; the next path is one that can be entered closest to where the previous ended (among those near the nozzle if there are any), and reversing the direction prints the same paths in the opposite order from their other ends.", "quantifier": "all finite sets of paths, seam configurations and start points", "why_tests_cant": "greedy selection over unbounded sets with neighbour grid shortcuts", "anchors": ["include/PathOrderOptimizer.h: PathOrderOptimizer::optimize, getOptimizedOrder, findClosestPath"]}
{"id": "C12", "title": "Path ordering respects order requirements", "statement": "With an acyclic set of order requirements (a before b) the optimizer prints every path exactly once and never prints b before a, in each of its three grouping modes.", "quantifier": "all finite acyclic requirement graphs over any set of paths and all grouping flags", "why_tests_cant": "number of graphs is unbounded; the traversal is a stateful depth-first search", "anchors": ["include/PathOrderOptimizer.h: getOptimizerOrderWithConstraints", "include/utils/views/dfs.h: dfs"]}
{"id": "C13", "title": "Greedy nearest ordering visits all items, nearest first", "statement": "OrderOptimizer returns every item index exactly once, and each next item is at minimal distance from the previous one among those not visited yet.", "quantifier": "all finite item lists and start points", "why_tests_cant": "unbounded lists", "anchors": ["include/utils/orderOptimizer.h: OrderOptimizer::optimize"]}
{"id": "C14", "title": "Inset ordering constraints match the requested wall order", "statement": "When walls are packed by inset, the ordering constraints relate exactly the walls of adjacent insets in the configured direction (outer to inner or inner to outer) and put gap fillers after the walls of the inset around them. When walls are ordered by region, every constraint relates a line to the line directly around or within it that is one nesting step nearer to an outer wall, in the configured direction, and every line reached from an outer wall has exactly one. Neither contains a cycle. Every non-empty wall is handed to exactly one extruder.", "quantifier": "all sets of walls with inset indices and nesting", "why_tests_cant": "unbounded wall sets; acyclicity is a global property", "anchors": ["src/InsetOrderOptimizer.cpp: InsetOrderOptimizer::getInsetOrder, getRegionOrder, getWallsToBeAdded, shouldReversePath", "include/utils/views/dfs.h: actions::dfs"]}
{"id": "C15", "title": "Seam candidate selection returns a best candidate", "statement": "Given at least one candidate and one criterion, the selected candidate is one of the candidates and no other candidate scores higher by more than twice the pass threshold in the first pass (once the threshold is what the interface documents, and does not hold); with a single pass it has maximal score.", "quantifier": "all candidate lists, score functions, weights and pass lists", "why_tests_cant": "arbitrary score functions and list lengths", "anchors": ["src/utils/scoring/BestElementFinder.cpp: BestElementFinder::findBestElement"]}
{"id": "C16", "title": "Closest point on a segment lies on the segment", "statement": "getClosestOnLineSegment returns a point inside the bounding box of the segment, returns an end point when the projection falls outside, and no end point of the segment is closer than the result (up to rounding).", "quantifier": "all integer points and segments", "why_tests_cant": "three integer coordinates pairs with rounding division", "anchors": ["include/utils/linearAlg2D.h: LinearAlg2D::getClosestOnLineSegment", "src/utils/linearAlg2D.cpp: getClosestConnection, getDist2FromLineSegment"]}
{"id": "C17", "title": "Closest connection between two segments", "statement": "getClosestConnection returns a point of the first segment and a point of the second, one of them an end point of its segment, whose distance is (up to rounding to the grid) not larger than the distances of both end points of the second segment to the first and of the start of the first segment to the second. (The same for the end of the first segment is false: the code projects the start twice.)", "quantifier": "all pairs of integer segments", "why_tests_cant": "eight coordinates", "anchors": ["src/utils/linearAlg2D.cpp: LinearAlg2D::getClosestConnection"]}
{"id": "C18", "title": "Point-in-polygon test is the crossing parity", "statement": "inside() reports the boundary as configured, and for points off the boundary reports exactly the even-odd (crossing parity) rule; it is invariant under rotating the vertex list and under reversing it.", "quantifier": "all polygons of any size and all points", "why_tests_cant": "unbounded vertex lists with degenerate edges", "anchors": ["src/geometry/ClosedPolyline.cpp: ClosedPolyline::inside", "src/geometry/Shape.cpp: Shape::inside", "include/utils/linearAlg2D.h: pointLiesOnTheRightOfLine"]}
{"id": "C19", "title": "Nearby queries on sparse grids are complete", "statement": "After any sequence of insertions, a radius query on a sparse point grid visits every inserted element whose location is within the radius, and getNearest returns an element at minimal distance among those within the radius.", "quantifier": "all insertion sequences, cell sizes, query points (including negative coordinates) and radii", "why_tests_cant": "division rounding around zero and cell boundaries for unbounded data", "anchors": ["include/utils/SparseGrid.h: SparseGrid::processNearby, getNearby, getNearest", "include/utils/SparsePointGrid.h", "src/utils/SquareGrid.cpp: SquareGrid::toGridCoord, processNearby, processFromCell"]}
{"id": "C20", "title": "Cells along a line are all visited", "statement": "processLineCells visits every grid cell that the line passes through, visits no cell twice per row, and stops as soon as the callback returns false.", "quantifier": "all integer segments and cell sizes", "why_tests_cant": "unbounded number of cells, four direction cases", "anchors": ["src/utils/SquareGrid.cpp: SquareGrid::processLineCells"]}
{"id": "C21", "title": "Simplification keeps end points and size limits", "statement": "Simplifying terminates; unless the result is empty it arises from the input by removing vertices one at a time, each within the permitted deviation of the line through its neighbours at that time and only where the resolution permits; it keeps the two end points of an open line (which never vanishes if they are five units apart); it is empty or has at least the minimum number of vertices; every output vertex comes from the input or is an intersection within the permitted deviation. (Not: that the result stays within the permitted deviation of the input, nor that a polygon of visible size is kept.)", "quantifier": "all polygons and polylines, all maximum resolution/deviation settings", "why_tests_cant": "data-dependent priority queue over unbounded vertex lists", "anchors": ["src/utils/Simplify.cpp, include/utils/Simplify.h: Simplify::polygon, polyline, simplify, remove, importance"]}
{"id": "C22", "title": "Polyline stitching conserves lines", "statement": "The polyline stitcher places each non-empty input line into exactly one output line or closed polygon, whatever the order of the elements in its grid. It joins only ends within the stitch distance (rounded), always to the closest usable end or one within the snap distance, drops a point only when it joins ends within the snap distance, never reverses even walls and never mixes odd with even walls. A closed result has at least three points and a gap of less than the stitch and snap distances together; an open result can neither be joined to a later one nor be closed. The gap may exceed the stitch distance, and closing is preferred for odd walls although a comment says for even ones.", "quantifier": "all line sets without empty lines, distances and iteration orders of the grid", "why_tests_cant": "greedy and history dependent", "anchors": ["include/utils/PolylineStitcher.h, src/utils/PolylineStitcher.cpp: PolylineStitcher::stitch"]}
{"id": "C23", "title": "Minimum spanning tree spans with minimal total length", "statement": "For any set of distinct points the computed tree connects all of them without cycles and has minimal total squared-length weight among all connecting sets of edges, whatever the iteration order of the hash maps; the neighbours, leaves and points it reports are those of that tree. If a point is given twice the construction is undefined behaviour.", "quantifier": "all finite sets of distinct points", "why_tests_cant": "exponentially many spanning trees; unbounded set size", "anchors": ["src/utils/MinimumSpanningTree.cpp: MinimumSpanningTree::prim, adjacentNodes"]}
{"id": "C24", "title": "Bounding boxes are exact", "statement": "A bounding box built by including points contains exactly the points it must: it contains every included point, is contained in any box that contains them, and hit() is true exactly when two non-empty boxes share a point.", "quantifier": "all finite point sequences", "why_tests_cant": "unbounded inputs", "anchors": ["src/utils/AABB.cpp: AABB::include, contains, hit, expand", "src/utils/AABB3D.cpp: AABB3D::hit, include"]}
{"id": "C25", "title": "Layer vectors map layer numbers to slots bijectively", "statement": "A layer vector initialised with or without a raft maps each layer number from the lowest raft layer up to a distinct slot, iteration order equals layer order, and out-of-range access is reported rather than returning another layer's data.", "quantifier": "all raft sizes, pushes and layer numbers including negatives", "why_tests_cant": "unbounded histories of push_back", "anchors": ["include/utils/LayerVector.h: LayerVector::init, push_back, iterator_at, getLayer, get"]}
{"id": "C26", "title": "Nozzle position in G-code tracks the requested moves", "statement": "Running the emitted commands on a printer model leaves the nozzle at the last requested position, after any sequence of export calls including z-hops, retractions, wipes and tool changes: exactly in x and y, and in z up to the 1 micron that each tool change adds on purpose. (Refuted without these provisos: a prime that is split over the end of a z-hop leaves the printing move too high.)", "quantifier": "all sequences of G-code export calls", "why_tests_cant": "the exporter omits unchanged coordinates; correctness depends on the whole command history", "anchors": ["src/gcode_export/gcodeExport.cpp: GCodeExport::writeTravel, writeExtrusion, writeFXYZE, writeZhopStart, writeZhopEnd"]}
{"id": "C27", "title": "Extruded amounts in G-code match the request", "statement": "On the printer model the net filament advanced over any sequence of export calls, plus what is retracted, equals the sum of the requested volumes converted to filament length less what is still to be primed, in absolute and in relative extrusion mode, including across E resets and tool changes, when flow compensation is off; so does the reported usage. Printing E values with an error of at most eps changes it by at most eps per E reset or tool change plus one (absolute), or eps per E word (relative).", "quantifier": "all sequences of export calls, both extrusion modes", "why_tests_cant": "running offsets accumulate over the entire print", "anchors": ["src/gcode_export/gcodeExport.cpp: GCodeExport::writeExtrusion, resetExtrusionValue, setFlowRateExtrusionSettings, writeRetraction"]}
{"id": "C28", "title": "Retractions and unretractions balance", "statement": "After any sequence of retract, unretract, extrude and travel calls the printer's filament is exactly as far retracted as the exporter believes; extrusion moves never start while retracted; and, if all retraction settings in use allow at least N retractions per window, an unforced retraction allowed N per window is at least the window of extruded filament after the Nth retraction before it.", "quantifier": "all call sequences and retraction configurations", "why_tests_cant": "history dependent: sliding window of previous retractions", "anchors": ["src/gcode_export/gcodeExport.cpp: GCodeExport::writeRetraction, writeUnretractionAndPrime"]}
{"id": "C29", "title": "Redundant temperature and fan commands are suppressed safely", "statement": "After any sequence of tool-change, temperature, fan, acceleration and jerk calls the printer's target temperatures, accelerations and jerk equal the last requested values up to half of the last printed digit, and fan speeds up to two of it (a fan asked to stop is off), although repeated requests emit nothing; after a call that waits for a nozzle, the nozzle has reached that temperature; and the active tool is the selected one.", "quantifier": "all call sequences, any number of extruders and fans", "why_tests_cant": "caching makes the output depend on history", "anchors": ["src/gcode_export/gcodeExport.cpp: writeTemperatureCommand, writeBedTemperatureCommand, writeFanCommand, writeBuildVolumeTemperatureCommand"]}
{"id": "C30", "title": "Integers in microns are written as exact decimal millimetres", "statement": "writeInt2mm prints a decimal number that denotes exactly the coordinate divided by 1000, with no superfluous trailing zeros, for every nonzero 32-bit coordinate (for 0 it reads outside its buffer); a floating-point value printed with p decimals reads back within half a unit of the last decimal, without trailing zeros.", "quantifier": "all coordinates of either sign", "why_tests_cant": "string buffer manipulation over all lengths and signs", "anchors": ["include/utils/string.h: writeInt2mm, MMtoStream, PrecisionedDouble, writeDoubleToStream"]}
{"id": "C31", "title": "Comments cannot inject commands", "statement": "Whatever text is passed as a comment, every line that is emitted starts with a semicolon and contains ASCII only, so no command can be injected by a line feed (refuted for a carriage return); plain text is kept as it is.", "quantifier": "all strings", "why_tests_cant": "unbounded strings", "anchors": ["src/gcode_export/gcodeExport.cpp: GCodeExport::writeComment, writeTypeComment, writeCode"]}
{"id": "C32", "title": "Layer plans are written once, in order, with bounded look-ahead", "statement": "Every layer plan given to the buffer is written exactly once, in the order received; at any moment the last five plans handed over (or fewer, after a flush) are pending and all others written; flushing writes all of them. Layers are produced in parallel and a layer may wait for the finished plan of one up to five layers below: that plan is still in the buffer when it is asked for, no schedule deadlocks or runs forever, and in the end all layers are written in order. (Waiting for a plan six layers below can wait forever.)", "quantifier": "all sequences of layer plans and flushes; all layer counts, numbers of threads and schedules", "why_tests_cant": "unbounded histories", "anchors": ["src/LayerPlanBuffer.cpp: LayerPlanBuffer::handle, processBuffer, flush"]}
{"id": "C33", "title": "Planned temperature inserts are emitted exactly once, in order", "statement": "Every temperature insert attached to an extruder plan is written exactly once, ordered by path index and time (in the order of insertion for equal ones), whatever the insertion order; not after a move of a later path or a move of its own path later than its time; not before a move of an earlier path; and not before its own time within the path unless the iteration before took at least that long. (That it is never before its time is refuted: at the start of a path the time of the previous path is compared.)", "quantifier": "all sets of inserts and path lists", "why_tests_cant": "unbounded lists; sorted-list merge with time offsets", "anchors": ["src/ExtruderPlan.cpp: ExtruderPlan::insertCommand, handleInserts, handleAllRemainingInserts", "include/ExtruderPlan.h"]}
{"id": "C34", "title": "Preheat times are consistent with the heating model", "statement": "With positive rates, the time predicted to heat or cool between two temperatures is that of the rate, never negative, and additive over intermediate temperatures. The warm-up time after cooling down lies within the window and, if the window allows it at all, brings the nozzle to exactly the wanted temperature with exactly the predicted lowest temperature on the way. The cool-down time after warming up lies within the window. (That the latter also brings the nozzle to the wanted temperature is refuted: the heating and cooling rates are swapped.)", "quantifier": "all start/end temperatures, windows and heating/cooling rates", "why_tests_cant": "continuous parameters", "anchors": ["src/Preheat.cpp: Preheat::getWarmUpPointAfterCoolDown, getCoolDownPointAfterWarmUp, getTimeToGoFromTempToTemp"]}
{"id": "C35", "title": "Flow-temperature graph interpolates its data", "statement": "For data sorted by flow without repetition, the temperature for a flow is the linear interpolation of the two bracketing data points (hence the data at the data points), is constant outside the graph's range and never leaves the range of the data. (With a repeated flow at the start it can be not a number.)", "quantifier": "all graphs (sorted data of any size) and flows", "why_tests_cant": "unbounded data lists", "anchors": ["src/settings/FlowTempGraph.cpp: FlowTempGraph::getTemp"]}
{"id": "C36", "title": "Minimum layer time is reached by slowing down", "statement": "Slowing down for the minimum layer time never speeds a path up, never changes travels, and does nothing if the layer takes long enough. If printing all at the slowest path's speed is not enough, the new speeds and the waiting time together reach the minimum to within a hundredth of a second, and exactly if the minimum speed is not needed; otherwise the layer does not exceed its minimum time. If all paths were at least as fast as the minimum speed they remain so, provided printing at the minimum speed takes as long as, or at least 0.01 s longer than, at the slowest speed. Only the last plan of the extruder with the highest number is slowed down. (Refuted: that the minimum is reached in the other case; that speeds remain positive without that proviso; that a path is only slowed below the minimum speed if it was below it before; that a layer that takes long enough is left alone if an extruder has several plans.)", "quantifier": "all lists of paths with any speeds and lengths, all minimum times and speeds", "why_tests_cant": "continuous parameters over unbounded path lists", "anchors": ["src/LayerPlan.cpp: ExtruderPlan::forceMinimalLayerTime, computeNaiveTimeEstimates, LayerPlan::processFanSpeedAndMinimalLayerTime"]}
{"id": "C37", "title": "Fan speed stays within the configured limits", "statement": "The fan speed chosen for a layer always lies within the initial, regular and maximum speeds, and within the latter two from the full-speed layer on and on a raft. Before the layer time is considered it ramps monotonically from the initial to the regular speed over the first layers and equals the regular speed from the full-speed layer on. It is the maximum speed for a layer that takes no longer than its minimum time, the regular speed for one that takes at least the set time, and monotone in the layer's time in between.", "quantifier": "all layer numbers, layer times and fan settings", "why_tests_cant": "continuous parameters", "anchors": ["src/LayerPlan.cpp: ExtruderPlan::processFanSpeedForFirstLayers, processFanSpeedForMinimalLayerTime"]}
{"id": "C38", "title": "Gradual flow keeps the toolpath and limits flow steps", "statement": "Splitting paths to limit flow changes never changes the geometry: every path comes out, in order, as one or more parts with the same attributes that are never faster than the path, travels unchanged; for every number of first paths the points of their parts are the original points with extra points inserted only on original segments. From one extruding part to the next the flow rises by at most acceleration times step (unless a retraction or a long travel in between resets it) and falls by at most that, and the last flow is at most that above the first. (The rise is per step, not per time: after a path shorter than the rest of a step the next rise can come after less than the step time. A step of zero never ends.)", "quantifier": "all path lists with positive speeds, all positive accelerations and step sizes", "why_tests_cant": "two stateful passes over unbounded lists", "anchors": ["include/gradual_flow/FlowLimitedPath.h: FlowLimitedPath::partition, GCodeState::processGcodePath, processGcodePaths", "include/gradual_flow/Processor.h"]}
{"id": "C39", "title": "Extruder order per layer uses each needed extruder once and saves switches", "statement": "For each layer the planned extruder list has no duplicates, contains every extruder that prints on the layer, and starts with the extruder active at the end of the previous layer if that is used, so a tool change between layers happens only when the previous extruder is not needed (except on raft base layers, which start with the base extruder; and the support of filler layers below the model is only counted for the general support infill extruder).", "quantifier": "all layer counts, usage tables, prime tower answers and start extruders", "why_tests_cant": "quantifies over unbounded layer histories", "anchors": ["src/FffGcodeWriter.cpp: getUsedExtrudersOnLayer, calculateExtruderOrderPerLayer, calculatePrimeLayerPerExtruder"]}
{"id": "C40", "title": "Prime tower layers are supported from below", "statement": "In the interleaved prime tower the printed shell never gets thinner from one layer to the layer below it, the tower has every layer up to the highest one on which priming takes place, each with something to print provided no line is wider than the shell, every primed extruder gets its volume unless there is no room left, and rings of different extruders, of the base (unless exactly one extruder is primed on the layer) and of the first layer's disc do not overlap.", "quantifier": "all extruder-use tables and tower sizes", "why_tests_cant": "reverse sweep with running maximum over unbounded layers", "anchors": ["src/PrimeTower/PrimeTowerInterleaved.cpp: generateToolPaths, polishExtrudersUses", "src/PrimeTower/PrimeTower.cpp: generatePrimeToolpaths, generateSupportToolpaths"]}
{"id": "C41", "title": "Overlapping volumes are carved disjoint", "statement": "If every area lies within the bounding box of its mesh, then after carving each point of a layer belongs, among the printed models containing it, to exactly the one with the lowest order, or of those with the same order to the first (on every second layer to the last, if the order alternates); so the areas of any two are disjoint and their union is unchanged, and other meshes keep their areas. (Refuted: disjointness when areas exceed the bounding boxes, as after making overhangs printable.)", "quantifier": "all numbers of meshes, layers and areas", "why_tests_cant": "pairwise sweep whose later steps change earlier results", "anchors": ["src/multiVolumes.cpp: carveMultipleVolumes"]}
{"id": "C42", "title": "parallel_for runs each index exactly once and waits for all", "statement": "In every schedule each loop index is executed exactly once, the call returns only after every execution has finished, and it cannot deadlock, also when called from within a worker.", "quantifier": "all interleavings, worker counts, range lengths and chunk sizes", "why_tests_cant": "thread schedules", "anchors": ["include/utils/ThreadPool.h: parallel_for", "src/utils/ThreadPool.cpp: ThreadPool::worker, work_while"]}
{"id": "C43", "title": "Ordered producer/consumer delivers every item once in order", "statement": "In every schedule the produced items are consumed in index order, each at most once, by one consumer at a time, and a ring slot is never overwritten before it is consumed. If the first item number is no smaller than minus the ring size and the caller is not woken up for no reason while it waits for the other workers, every item is consumed before run() returns, and every run terminates without deadlock. (A spurious wake-up of the caller makes run() return early, because that wait is not in a loop; a first item number below minus the ring size indexes the ring negatively: both are proved as refutations.)", "quantifier": "all interleavings, item counts, ring sizes and worker counts", "why_tests_cant": "thread schedules", "anchors": ["include/utils/ThreadPool.h: MultipleProducersOrderedConsumer, run_multiple_producers_ordered_consumer"]}
{"id": "C44", "title": "Setting lookup follows the inheritance chain", "statement": "A setting's value is the one stored in the container itself, else, for a key limited to an extruder, the value stored in that extruder or in its parent, else that of the nearest ancestor that stores it; every lookup of an unlimited key ends; setting a key changes lookups only of that container and those that inherit from it, and the flattened settings give every key of the outermost container the value that a lookup gives. (Three stronger claims are refuted: a key limited to an extruder where neither it nor its parent stores the key is looked up forever; has() with parent lookup may say no to a key that get() finds; the flattened settings lack keys stored only in a container in between.)", "quantifier": "all container trees, keys and histories of add calls", "why_tests_cant": "unbounded hierarchies", "anchors": ["src/settings/Settings.cpp: Settings::add, get, has, setParent, getWithoutLimiting"]}
{"id": "C45", "title": "Command line settings apply to the object last mentioned", "statement": "Each -s on the command line changes exactly the scene, extruder, mesh group or model last named before it, and later values override earlier ones; a model inherits from the extruder last named before it; a JSON file changes only the container last named and extruders, its overrides going over its settings and those over what it inherits; there is no undefined behaviour while there are no more extruders than half the arguments. (Refuted: that last bound cannot be dropped; an extruder's number may be wrong after -e skips extruders; a null in a JSON array takes the text of the element before it.)", "quantifier": "all argument lists", "why_tests_cant": "unbounded argument sequences", "anchors": ["src/communication/CommandLine.cpp: CommandLine::sliceNext, loadJSON, loadJSONSettings"]}
{"id": "C46", "title": "Reported progress is monotone and bounded", "statement": "The overall progress sent always lies in [0,1], is exactly 1 at the end of a slice, and never falls from one stage to a later one nor within the slicing, parts and export stages; within the inset-and-skin stage it falls by no more than a hundredth of that stage. (That it never falls at all is refuted: with three meshes it does.)", "quantifier": "all layer counts and progress histories", "why_tests_cant": "unbounded histories", "anchors": ["src/progress/Progress.cpp: Progress::calcOverallProgress, messageProgress"]}
{"id": "C47", "title": "Bead widths and positions fit the wall thickness", "statement": "For every thickness and every number of walls up to the maximum the walls fill the thickness: widths and left-over add up to it, the left-over is at most a micrometre per wall, the widths are the same from both sides, the first wall touches the outline, in the outer half each wall lies beside the one before, each lies opposite to its counterpart and no more walls than asked for are made (plus a marker of width zero at the maximum). With the number of walls chosen for the thickness no width is negative. Thicknesses below the minimum get no walls; thin ones, when these are printed, get one wall in the middle of at least the minimum width. Beyond the maximum both sides get their half of the maximum with the preferred widths, markers border the gap, and the gap is left over. Insets keep the widths, move the first wall by the outer offset but not past the middle and the others by the inner one. The chosen number of walls changes at the reported transition thicknesses. (Refuted: non-negative widths for every number of walls; symmetry and order with insets; defined behaviour with thin walls when an inner wall is wider than two outer ones, and with a maximum of zero; the name and the non-linear thicknesses of a strategy.)", "quantifier": "all thicknesses, bead counts and strategy stacks", "why_tests_cant": "stack of strategies over all parameters", "anchors": ["src/BeadingStrategy/BeadingStrategyFactory.cpp: makeStrategy", "src/BeadingStrategy/DistributedBeadingStrategy.cpp, LimitedBeadingStrategy.cpp, OuterWallInsetBeadingStrategy.cpp, InnerWallInsetBeadingStrategy.cpp, RedistributeBeadingStrategy.cpp, WideningBeadingStrategy.cpp: compute, getOptimalBeadCount, getTransitionThickness, getOptimalThickness"]}
{"id": "C48", "title": "Time estimator plans feasible motions", "statement": "After any sequence of moves, position, acceleration and jerk changes, waits and resets, the estimate per feature is at least the length of its moves over the requested speed, with waiting times counted for no feature. A move is planned at most at the requested speed and at what each axis allows, and, if it moves no more filament than the head moves, at most with the set acceleration and what each axis allows. If no junction is slower than the minimum speed of the planner, the planned motion can be made: phases fit within each move, every move runs with its acceleration and starts with the speed the one before ends with, the last one ends with the minimum speed, and the estimate is the time of this motion. (Refuted: that the set acceleration also limits moves with more filament than way, and that moves slower than the minimum speed are planned within their length.)", "quantifier": "all machine limits and all sequences of calls since the last reset", "why_tests_cant": "two passes over unbounded sequences with real arithmetic", "anchors": ["src/timeEstimate.cpp: TimeEstimateCalculator::plan, reversePass, forwardPass, recalculateTrapezoids, calculate"]}
{"id": "C49", "title": "Template conditions select the right branch", "statement": "Resolving a G-code template outputs exactly its texts outside conditions, the values of its expressions, and of each if/elif/else/endif the branch of the first condition that is true, in order, without evaluating anything else; the template is returned unchanged if such a value cannot be had, if elif/else/endif comes outside a condition or if an if comes inside one; an expression sees the settings of the extruder named after its last comma. (Refuted: that a missing endif is noticed, that a condition which is no truth value counts as true, and that expressions with a comma or a name starting like a keyword are evaluated.)", "quantifier": "all templates and variable environments", "why_tests_cant": "unbounded token sequences through a state machine", "anchors": ["src/gcode_export/GcodeTemplateResolver.cpp: resolveGCodeTemplate, GcodeConditionState"]}
{"id": "C50", "title": "Mesh building drops no valid face and links neighbours", "statement": "Loading triangles keeps exactly those whose three corners are distinct after merging, in order; every corner is represented by one vertex, itself a corner of the input and at most 30 micrometres away, and equal corners by the same vertex. Each edge of a face is linked to another face with both end points if there is one, and turning around the edge from the continuation of the face one meets no other face before it; if every edge is used once in each direction the link is the face on the other side, so slicing where no corner lies gives closed contours only. The bounding box is exact. (Refuted: that corners within the merge distance are always merged; that where four faces meet at an edge the link is via the outside; that clearing a mesh forgets its bounding box.)", "quantifier": "all face sequences", "why_tests_cant": "hash-bucket state depends on the whole history", "anchors": ["src/mesh.cpp: Mesh::addFace, findIndexOfVertex, finish, getFaceIdxWithPoints"]}
{"id": "C51", "title": "Anti-ooze retraction and priming amounts agree", "statement": "For any travel with retraction, material is retracted at a constant rate from the start and primed at a constant rate up to the end, without overlap; the amount retracted where retracting ends equals the amount from which priming starts and is at most the configured distance. If the travel is long enough, exactly the configured distance, shares and speeds are used; otherwise the times shrink in proportion and the amounts keep the configured ratio. Every travel point is visited exactly once in order, with one additional point where retracting ends and one where priming starts, each on the segment being travelled, up to a millisecond past its end. (Refuted: that the additional points never lie past the end of the segment; that they are at the height of the travel; that the amount retracted before the travel starts is never negative.)", "quantifier": "all travel paths, speeds and retraction settings", "why_tests_cant": "continuous parameters; unbounded paths", "anchors": ["src/LayerPlan.cpp: computeAntiOozeAmounts, computeAntiOozeTravelSplit, writeTravelSegment"]}
{"id": "C52", "title": "Coasting keeps the nozzle path", "statement": "For every sequence of extruded paths between two travels, writing with coasting visits every point of the paths in order with at most one extra point, first only extruding and then only travelling. A sequence that does not end in a wall, or whose planned volume is below the minimum, is written as without coasting; otherwise the planned volume after the coasting start is exactly the coasting volume (or the whole sequence, if it has less), and the coasting start lies on the piece it splits up to rounding. The printed volume left out is at most the coasting volume when no line is wider than nominal. (Refuted: that bound for wider lines; a coasting start at the height of the layer when the first path of a plan is not a travel; a defined result with a coasting volume of zero or after a path without points.)", "quantifier": "all lists of paths with points, all coasting settings with a positive volume, all positions", "why_tests_cant": "unbounded numbers of paths and points; the accumulation runs backwards across paths and stops early", "anchors": ["src/LayerPlan.cpp: LayerPlan::writePathWithCoasting, LayerPlan::calculatePathsCoasting"]}
{"id": "C53", "title": "Geometric predicates do not overflow on printable volumes", "statement": "The 64-bit integer computations of the geometric primitives (sizes, dot and cross products, side and distance tests, foot points, bisectors, slicing of edges, rounding division) do not overflow and equal the mathematical values for all points within a kilometre of each other; the projection of a point on a segment, which multiplies three coordinates, only for points within 1.66451 m of each other, and this is sharp (one micron more can overflow). The length of a polyline is right if below 2147 m (the total is kept in 32 bits and wraps beyond), the hash of a point is defined for |x| up to 69 m, the area deviation of simplification for points within 10 m.", "quantifier": "all points within the bounds", "why_tests_cant": "2^62-size domains", "anchors": ["include/geometry/Point2LL.h: vSize2, shorterThen, dot, cross", "src/slicer.cpp: interpolate", "include/utils/linearAlg2D.h"]}
{"id": "C54", "title": "The layer count covers the model", "statement": "If anything is sliced, the number of layers is such that a further layer would be sliced at or above the top of every model mesh (nothing at the top is lost), whatever the slicing tolerance of each mesh, and (from two layers on) the last layer of some mesh is not above its top.", "quantifier": "all mesh heights, slicing tolerances, layer heights and numbers of meshes", "why_tests_cant": "unbounded heights; three rounding modes mixed between meshes", "anchors": ["src/FffPolygonGenerator.cpp: FffPolygonGenerator::sliceModel", "src/slicer.cpp: Slicer::buildLayersWithHeight"]}
{"id": "C55", "title": "Layers are printed at strictly increasing heights", "statement": "With a raft, the raft layers, air-gap filler layers and model layers form one gap-free sequence of layer numbers, each printed strictly higher than the one before (for positive thicknesses and a first-layer overlap smaller than the layer height), and no layer that is printed divides by a zero filler count.", "quantifier": "all raft settings and numbers of layers", "why_tests_cant": "the three kinds of layers compute their height by three different formulas with rounding", "anchors": ["src/FffGcodeWriter.cpp: FffGcodeWriter::processRaft, processLayer", "src/FffPolygonGenerator.cpp: sliceModel (printZ)", "src/raft.cpp: Raft::getTotalThickness, getFillerLayerHeight"]}
{"id": "C56", "title": "Every move is made at its requested speed", "statement": "Although the exporter leaves the F word out of a move when the speed did not change, after any sequence of calls each travel and each printing move is executed by the printer at the feed rate that belongs to the speed it was requested with (provided the printer starts at the speed the exporter assumes, 1 mm/s).", "quantifier": "all call sequences of moves, retractions, z hops, tool changes and wipes, and all speeds", "why_tests_cant": "history dependent: the F word is omitted depending on what all previous calls wrote", "anchors": ["src/gcode_export/gcodeExport.cpp: GCodeExport::writeFXYZE, writeRetraction, writeUnretractionAndPrime, writeZhop"]}
{"id": "C57", "title": "An extruder is primed at most once, before it is first used", "statement": "Over a whole print no extruder is primed more than once, it is primed on the lowest layer it is used on, and (without a raft and without a normal prime tower) an extruder that is selected for the first time after another one on the same layer is primed as soon as it is selected.", "quantifier": "all layer counts, usage tables, prime tower answers and start extruders", "why_tests_cant": "quantifies over unbounded layer histories", "anchors": ["src/FffGcodeWriter.cpp: calculatePrimeLayerPerExtruder, setExtruder_addPrime, processLayer"]}
{"id": "C58", "title": "Cutting meshes take what they cut", "statement": "After cutting, each point that was in a printed mesh belongs to the first plain cutting mesh containing it, or, if there is none, to the last cutting mesh with an extruder of its own containing it, or, if there is none, to the meshes it belonged to; no point outside of the printed meshes belongs to a cutting mesh, and cutting meshes are disjoint from the meshes they cut and from each other (although the interface warns of overlapping cutting meshes).", "quantifier": "all lists of meshes with any mixture of plain and extruder-changing cutting meshes, all layers and points", "why_tests_cant": "sequence of in-place updates, in which cutting meshes with an extruder become meshes to be cut", "anchors": ["src/multiVolumes.cpp: MultiVolumes::carveCuttingMeshes"]}
{"id": "C59", "title": "Overlaps of volumes only grow where another volume is near", "statement": "Making volumes overlap gives each volume exactly its own area and those points of it widened by half its overlap that are within 20 micrometres of another printed model whose box touches its box; volumes without overlap, and other kinds of meshes, stay as they are.", "quantifier": "all lists of meshes, overlaps, layers and points; all ways to offset an area", "why_tests_cant": "volumes are updated in place, so later ones see earlier ones grown", "anchors": ["src/multiVolumes.cpp: generateMultipleVolumesOverlap"]}
{"id": "C60", "title": "Meshes are placed and scaled as the settings ask", "statement": "Finalising a group of meshes moves every mesh rigidly to its position relative to the centre of the build plate (a mesh to be centred with the middle of its box there and its bottom at the given height) and then scales all of them away from the middle of the printed models in the plane, and from the build plate upwards, truncating to whole micrometres; without shrinkage compensation nothing is scaled, heights of zero stay zero, nothing gets below the plate, and every bounding box stays exact. (Refuted for a group without printed models, which is scaled away from a point far outside the machine.)", "quantifier": "all groups of meshes, positions and shrinkage factors", "why_tests_cant": "every combination of meshes, settings and rounding", "anchors": ["src/MeshGroup.cpp: MeshGroup::finalize, scaleFromBottom, min, max", "src/mesh.cpp: Mesh::transform", "include/mesh.h: Mesh::translate", "src/utils/Matrix4x3D.cpp"]}
{"id": "C61", "title": "A wall is printed as one connected line through all its corners", "statement": "With positive distances between changes of height and speed, printing a wall ends and gives one travel to the chosen corner followed by sub-segments that each start exactly where the previous one ended, go forwards along the wall in the chosen direction, stop at every corner of a wall of constant width (a line of varying width is only approximately covered, up to half a micrometre per piece) and end at its end. With a scarf seam the height rises monotonically from the start offset to the layer height over the length of the scarf, and a second pass covers exactly that length again at layer height. Speeds stay between the product of the start and end ratios and the full speed, and line widths between those of the two corners. Alternating the direction reverses an open wall exactly. Not promised (refuted): with a distance of zero between changes of speed the planning never ends, a line of varying width can miss its corner, the line named for bridging is the wrong one on walls printed backwards, and a closed wall whose direction alternates starts at another corner than the chosen seam.", "quantifier": "all walls, start corners, directions, settings and numbers of corners", "why_tests_cant": "the sub-segments depend on the accumulated distance over arbitrarily many lines and on five interacting settings", "anchors": ["src/LayerPlan.cpp: LayerPlan::addSplitWall, LayerPlan::addWallWithScarfSeam", "src/InsetOrderOptimizer.cpp: InsetOrderOptimizer::addToLayer", "src/PathAdapter.cpp"]}
{"id": "C62", "title": "Lines ordered monotonically are printed once each and in the direction asked", "statement": "Ordering ends however the lines touch, each line is begun at one of its two ends, and contours come after the lines, in the order given and as they were. If no three ends of lines meet (within 10 micrometres), every line is printed. If no two ends meet, every line is printed exactly once, and of two neighbouring lines (the distance between them in and across the direction within the adjacency distance) the one that begins earlier in the direction by 10 micrometres or more is printed first. In interlaced mode each of the two passes has this order for twice the distance, and of lines in rows, successive rows are printed in different passes, the first row in the later pass. Not promised (refuted): a line touching another can be printed twice, lines are lost where three ends meet around a triangle, and lines that begin within 10 micrometres of each other can be printed in the opposite order.", "quantifier": "all sets of lines, directions, adjacency distances, start positions, and all iteration orders of the hash tables used", "why_tests_cant": "the order results from a graph over all lines whose construction depends on the iteration order of hash tables", "anchors": ["src/PathOrderMonotonic.cpp: PathOrderMonotonic::optimize, findPolylineString, getOverlappingLines, makeOrderedPath", "include/PathOrderMonotonic.h", "include/PathOrder.h: PathOrder::detectLoops"]}
{"id": "C63", "title": "Places near the surface become skin, the others infill", "statement": "For each part of a layer, what is inside its walls is divided into skin and infill with nothing left over and nothing in both (only infill areas smaller than 0.16 square millimetres may be dropped). Without expansion, the skin is exactly what is not enclosed (solid on all the layers within the number of top and bottom layers, or on the farthest ones only with the gaps heuristic, and above the initial bottom layers), without areas counted as small, and with gaps in it narrower than four line widths closed. If the skin is not asked to shrink, all that is exposed becomes skin. Skin stays inside of the walls, up to the tolerance around closed gaps. The topmost surface is what has nothing directly above. Not promised (refuted): the bottommost surface above the first layer is what has nothing above rather than below; with the heuristic, places with air directly above can become infill; initial bottom layers are left out on a mesh without infill, top and bottom layers.", "quantifier": "all meshes as stacks of layers of parts, layers, parts, settings and points; all ways to offset an area and to remove small areas", "why_tests_cant": "depends on arbitrarily many layers above and below and on their areas", "anchors": ["src/skin.cpp: SkinInfillAreaComputation::generateSkinAndInfillAreas, calculateBottomSkin, calculateTopSkin, applySkinExpansion, generateTopAndBottomMostSurfaces"]}
{"id": "C64", "title": "All of the skin is filled, once, as roofing, flooring or plain skin", "statement": "Roofing and flooring never overlap. Without expansion, merging and overlap, skin is roofing exactly if roofing is asked for and it is seen from above (air within the roofing layers above, and something directly below) but not from below, flooring exactly if it is seen from below (air within the flooring layers below) but not from above, and plain skin exactly if it is neither. With any non-negative overlap, expansion and merging distance, every place of the skin is in one of the three, unless it is seen from both sides. Not promised (refuted): places seen from both sides, such as the upper layer of a plate two layers thick with two layers of flooring, are not filled at all.", "quantifier": "all meshes, layers, parts, settings, skin areas and points; all ways to offset an area", "why_tests_cant": "combination of areas of arbitrarily many layers under several interacting settings", "anchors": ["src/skin.cpp: SkinInfillAreaComputation::generateSkinRoofingFlooringFill, generateFilledAreaAbove, generateFilledAreaBelow", "src/utils/polygonUtils.cpp: PolygonUtils::mergeThinOverlap"]}
{"id": "C65", "title": "Gradual infill gets denser towards the top", "statement": "For patterns that are not connected, every place with infill (on the layers that are to have infill) is filled with the full density divided by two to the number of steps the infill goes on above it, counted up to the number of steps asked for. Without the gaps heuristic a step counts if there is infill on each of its layers, and the number of steps never increases on the way up. The division into areas is: for connected patterns, exactly one area per place; for the others, all areas from the number of steps on. Not promised (refuted): connected patterns other than cross get a smaller density; with skin edge support everything is filled with full density; a step of less than half a layer makes the computation endless; infill on top and initial bottom layers is not printed at all.", "quantifier": "all stacks of layers of parts, layers, places, step heights and numbers of steps; all ways to simplify areas that keep them", "why_tests_cant": "depends on the areas of arbitrarily many layers above and on arbitrarily many steps", "anchors": ["src/skin.cpp: SkinInfillAreaComputation::generateGradualInfill", "src/FffGcodeWriter.cpp: FffGcodeWriter::processSingleLayerInfill"]}
{"id": "C66", "title": "Combining infill layers neither loses infill nor prints it twice", "statement": "Combining is defined on every mesh. Afterwards no place of a part and density has infill of two thicknesses, and none without infill before gets any. Infill that disappears from a layer is part of thicker infill of the same density, or of the densest infill there, on a layer above from which it reaches down to it. Infill several layers thick has an area for infill in each of the layers it reaches down to, where infill of the same density is not printed again. Thick infill is only on layers whose number is divisible by the number of layers combined, clear of the bottom and top layers, and there it has the full thickness wherever the layers below have an area for infill (slivers apart). Not promised (refuted): that the layers below had infill of their own to be replaced.", "quantifier": "all meshes, numbers of layers combined, of bottom and top layers, parts, densities and places; all ways to remove slivers from areas", "why_tests_cant": "areas of several layers are updated in place, layer by layer, part by part and density by density", "anchors": ["src/skin.cpp: SkinInfillAreaComputation::combineInfillLayers"]}
{"id": "C67", "title": "Lines of infill are inside of the outline, evenly spaced, and leave nothing out", "statement": "Lines of infill are parallel, at multiples of the line distance plus the shift, and come ordered from left to right and from bottom to top without overlapping. Each is inside of the outline by the even-odd rule, ends within one unit of its boundary on both sides, and is at least a fifth of the line width long. Every place on one of these scanlines inside of the outline is on a line, or within a unit of the boundary, or in a piece between boundaries that is shorter than a fifth of the line width. Not promised (refuted): a scanline exactly on the rightmost side of the outline gets no line.", "quantifier": "all outlines of any number of polygons, line distances, shifts, rotations and line widths", "why_tests_cant": "crossings of arbitrarily many edges with arbitrarily many scanlines, with corners on scanlines and rounding", "anchors": ["src/infill.cpp: Infill::generateLineInfill, Infill::generateLinearBasedInfill, Infill::addLineInfill, computeScanSegmentIdx"]}
{"id": "C68", "title": "Zigzag infill connects the lines along the outline, one connection per line end", "statement": "Zigzag infill consists of exactly the lines of line infill, and of polylines along the outline. The walk around each polygon, cut at all its crossings with scanlines, gives stretches that lead to a neighbouring scanline (connections) or back to the same one (end pieces), between ends of lines (except on the rightmost scanline of the outline). A connection is printed, complete, exactly if it begins on an even scanline in the direction of the walk and is not skipped; connections between scanline k and the next one are skipped exactly if the skip count divides k. So of the two connections at a line end at most one is printed, and exactly one without skipping. End pieces are printed only if asked for, without their last piece unless they are to be connected, and if they go a quarter of the line distance away from the scanline. Polygons without a crossing count as one end piece. Not promised (refuted): the end piece where the polygon begins is printed even if it stays closer, so the result depends on the first corner.", "quantifier": "all outlines, line distances, shifts, rotations, line widths, and settings for end pieces and skipping", "why_tests_cant": "state is carried along a walk around arbitrarily many corners and crossings, and the first stretch is completed only at the end", "anchors": ["src/infill/ZigzagConnectorProcessor.cpp: ZigzagConnectorProcessor", "src/infill.cpp: Infill::generateZigZagInfill, Infill::generateLinearBasedInfill"]}
{"id": "C69", "title": "Connecting infill lines keeps every line, once, and connects along the outline", "statement": "Given lines with different ends on two edges of the outline, connecting them always succeeds and gives polylines. Every line is in exactly one polyline, once, and every polyline has a line; each piece of a polyline (a line or a connection) begins where the one before it ends and has different ends. This holds also where intersecting lines near the outline are bent apart. Where a line is bent, each bend is printed next to the end of the line that was found together with it. Where there are none, every line is printed straight between its own two ends, every connection follows one edge of the outline, between line ends on it and its corners, and, if no line ends in the corner its edge leads to, of the lines that end on one polygon of the outline at most one is left without being connected to another. Not promised (refuted): a polyline need not begin and end with a line, as the last connection begun on a polygon is printed although it leads nowhere; and where bending lines apart is given up, points that were computed on the way are printed.", "quantifier": "all outlines of any number of polygons, sets of lines, orders of the lines on an edge, and ways to bend lines apart", "why_tests_cant": "linked segments are joined in either direction, in an order given by a walk around the outline, while groups are merged; which lines share a polyline depends on all of them", "anchors": ["src/infill.cpp: Infill::connectLines, Infill::resolveIntersection, Infill::InfillLineSegment::swapDirection, Infill::InfillLineSegment::appendTo", "include/infill.h: InfillLineSegment"]}
{"id": "C70", "title": "Infill patterns made of connected lines print every line of every direction once, joined along the outline", "statement": "For a pattern that lays parallel lines in one or more directions (lines, grid, triangles, tri-hexagon, cubic, tetrahedral, quarter cubic) with its lines connected, generating succeeds and gives polylines made of infill lines and connections, each beginning where the one before ends and none of length zero. For each direction the lines are exactly the parts of the scanlines, at whole multiples of the line distance from the shift, that are inside of the outline by the even-odd rule up to less than a unit at the ends, including the scanline on the far side of the outline; turned back, those of non-zero length are each in the polylines exactly once. Where no lines cross near the outline each line is straight between its two ends, and each connection goes along one edge of the outline, between corners of that edge and crossings of scanlines with it. If moreover no scanline meets a corner, then of any two lines in an outline of one polygon at least one is connected with another line. In the tetrahedral patterns the two sets of parallel lines are at least a line width less one unit apart whatever the height, if the line distance is at least the line width.", "quantifier": "all outlines of non-empty polygons, all lists of directions with their rotations, positive line distances and shifts, all ways in which crossing lines are resolved that keep lines from collapsing", "why_tests_cant": "The crossings depend on every edge, direction and rounding, and how lines are chained depends on the order of all crossings around all polygons; a test sees a few outlines.", "anchors": ["src/infill.cpp: Infill::generateLinearBasedInfill, Infill::generateLineInfill, Infill::generateGridInfill, Infill::generateHalfTetrahedralInfill, Infill::connectLines"]}
{"id": "C71", "title": "Combing paths lead from start to end by hops that are free or go around obstacles the shorter way", "statement": "The search for a combing path always terminates. If it returns the direct way, then this is shorter than the distance given, or no edge of the boundary meets it farther than a unit from its ends; or the direct way results like any other path below. Otherwise all crossings of the boundary with the direct way are found, each once, in order. If it is asked to fail on unavoidable obstacles, it fails exactly if some polygon is crossed an odd number of times. Else the basic path goes from each crossing around the polygon to its next crossing, skipping the crossings in between and crossings without a partner: along all corners in between, moved off the boundary, in the direction that is shorter. The path returned begins in the start, ends in the end, and each of its hops either was tested not to collide with the boundary, or is a hop of the basic path, or a part of such a hop (up to rounding) from one of its ends.", "quantifier": "all boundaries of non-empty polygons, starts and ends, distances, ways to move corners off the boundary and tests for collisions", "why_tests_cant": "the path depends on all crossings with all polygons, in order; shortcuts remove points already in the path, and the search in one direction stops early", "anchors": ["src/pathPlanning/LinePolygonsCrossings.cpp: LinePolygonsCrossings::generateCombingPath, calcScanlineCrossings, lineSegmentCollidesWithBoundary, generateBasicCombingPath, optimizePath"]}
{"id": "C72", "title": "Lightning trees carried to the layer below lose only what is near the tips or outside", "statement": "Carrying a tree to the next layer adds trees behind those already there and leaves these alone. Without outlines nothing is added. Otherwise there are a pruned and a straightened tree such that: in the pruned one, each branch is kept if it is at least the pruning distance from some tip above it, cut at the point that is the pruning distance from the farthest tip if that is inside of it, and gone otherwise; straightening moves each node by at most the given magnitude, up to rounding, keeps the root and all tips, and leaves out only nodes with a single child; of the straightened tree exactly the nodes inside of the outlines are left, and exactly the branches both ends of which are inside and which do not meet the outlines. The roots of the new trees are the old root, if inside, and the upper ends of the branches that broke; where the lower end was outside, it is remembered as the place to connect to.", "quantifier": "all trees, outlines (as any inside test and any collision test), positive pruning distances and magnitudes", "why_tests_cant": "trees of any depth and branching; the three passes recurse over them and each changes what the next one sees", "anchors": ["src/infill/LightningTreeNode.cpp: LightningTreeNode::propagateToNextLayer, deepCopy, prune, straighten, realign"]}
{"id": "C73", "title": "Lightning lines print every branch once and stop short of the junctions", "statement": "Converting a tree to lines first gives lines such that every branch of the tree is in exactly one of them once, from child to parent, and each line begins in a tip, each tip beginning one line. Then every line is printed without the last half line width of its length, measured along the line, or left out exactly if it has no length or is shorter than that; no other lines are printed.", "quantifier": "all trees, all random choices of the child that continues the line, line widths of at least two units", "why_tests_cant": "the tree is of any shape, and the child that continues the line is chosen at random", "anchors": ["src/infill/LightningTreeNode.cpp: LightningTreeNode::convertToPolylines, removeJunctionOverlap"]}
{"id": "C74", "title": "Choosing another root keeps a lightning tree", "statement": "Making any node of a tree its root gives a tree with this node as root, with the same nodes, and the same branches, some of them in the opposite direction. The node found closest to a place is a node of the tree, and no node of it is closer.", "quantifier": "all trees, nodes of them, and places", "why_tests_cant": "recursion over trees of any depth, changing pointers to parents and children", "anchors": ["src/infill/LightningTreeNode.cpp: LightningTreeNode::reroot, closestNode"]}
{"id": "C75", "title": "Lightning infill supports every point of the overhang", "statement": "The points to support in an area filled with vertical lines at multiples of the cell size are exactly the points of these lines at multiples of the cell size. Growing trees for them terminates, in whatever order they are handled, after at most as many rounds as there are points. Then every point to support is at most the supporting radius from a leaf that was added; the leaves are points to support, and no leaf is within the supporting radius of an earlier one. All old nodes and branches are still there; nodes are added for each leaf and for each new root only, and one branch per leaf: to a new root at the closest point of the outlines, or to a node to which the way does not meet the outlines. There is one more tree per new root.", "quantifier": "all supporting radii of at least six units, sets of vertical lines that do not overlap, orders of the points, outlines (closest points and collisions), existing trees, and choices of nodes that the locator returns", "why_tests_cant": "the set of remaining points shrinks depending on all earlier ones through a grid with cells of different size around zero; termination depends on every point being found in its cell", "anchors": ["src/infill/LightningLayer.cpp: LightningLayer::generateNewTrees, attach", "src/infill/LightningDistanceField.cpp: LightningDistanceField::LightningDistanceField, tryGetNextPoint, update", "src/utils/polygonUtils.cpp: PolygonUtils::spreadDotsArea"]}
{"id": "C76", "title": "Lightning branches are grounded at the node that counts as nearest, or the outline", "statement": "A point is grounded at the closest point of the outlines if this is closer than the wall supporting radius, or if no nearby node to which the way is free counts as nearer. Otherwise it is grounded at such a node, and no other one counts as nearer; nodes of the excluded tree are not chosen. Nodes in which one to three branches meet count as four supporting radii nearer than they are.", "quantifier": "all trees, points, outlines, and sets of nearby nodes", "why_tests_cant": "minimum over any number of nodes, with exclusions", "anchors": ["src/infill/LightningLayer.cpp: LightningLayer::getBestGroundingLocation", "src/infill/LightningTreeNode.cpp: LightningTreeNode::getWeightedDistance"]}
{"id": "C77", "title": "Lightning trees that lost their root are connected again", "statement": "Reconnecting the trees that came from the layer above succeeds. No node is lost, the nodes added are new roots and are on the outlines. All branches are still there, up to their direction; apart from those there is exactly one new branch for each tree to be reconnected the root of which is not on the outline already, leading to a new root or to a node to which the way from the old root does not meet the outlines. Afterwards each root is one that was not to be reconnected, or one that was found to be on the outlines, or a new one.", "quantifier": "all lists of trees, the first of which are to be reconnected, all outlines (closest points, intersections and collisions) and choices of nodes that the locator returns", "why_tests_cant": "trees are attached to each other and change their roots while others still have to be reconnected; the list of roots changes meanwhile", "anchors": ["src/infill/LightningLayer.cpp: LightningLayer::reconnectRoots", "src/infill/LightningTreeNode.cpp: LightningTreeNode::reroot, addChild, closestNode"]}
{"id": "C78", "title": "Travel moves go to their destination and retract when they should", "statement": "A travel move ends at its destination, and the plan continues from there. The first move of a layer is direct, and retracts (with a hop) only on layer 0 if retraction and hops are on. Any other move that is not longer than the minimum travel distance neither retracts nor hops. A longer one for which no combing path is used retracts if retraction is on, and hops if hops are on as well. One for which a combing path was found follows its points, leaving out only those within the travel resolution of the last one kept; it does not hop, and retracts exactly if it was asked to, or if retraction is on and the path has several parts, or is to be retracted, or goes through air or across a boundary, or is longer than the maximum combing distance, and it was not asked not to retract. False: that asking not to retract is heeded when there is no combing path; that nothing retracts when retraction is off; that the nozzle is moved inside before the retraction.", "quantifier": "all settings, positions, combing results, and states of the plan", "why_tests_cant": "the decision depends on the combing result, six settings, the state of the plan and the request, with later steps overriding earlier ones", "anchors": ["src/LayerPlan.cpp: LayerPlan::addTravel, LayerPlan::addTravel_simple, LayerPlan::moveInsideCombBoundary"]}
{"id": "C79", "title": "Reading an STL file gives the triangles in it", "statement": "Reading an STL file never goes wrong. If, after white space, it says solid, and the text in it has a face, the mesh is that of the vertices of the text, three at a time. Otherwise, the mesh is that of all triangles of 50 bytes that fit in the file after the first 84 bytes, whatever number of triangles it reports; reading fails if there are fewer bytes. Only lines of at most 1023 characters that end are read as text. False: that a last vertex line without a line end is read; that lines after one that is too long are read; that a text with triangles is never read as a binary file.", "quantifier": "all files of less than 2^63 bytes, whatever lines are vertices and whatever points the bytes stand for", "why_tests_cant": "files of any length and content, including ones that are cut off or report a wrong number of triangles", "anchors": ["src/MeshGroup.cpp: loadMeshSTL, loadMeshSTL_ascii, loadMeshSTL_binary, fgets_", "include/utils/string.h: stringcasecompare"]}
{"id": "C80", "title": "Reading an OBJ file gives the faces in it", "statement": "The mesh read from an OBJ file consists of the triangles described: a face with n corners gives the n - 2 triangles around its first corner, in order. A triangle with a vertex number that is 0 or higher than the number of vertices given before is left out. What is said about textures and normals does not matter. Reading succeeds exactly if a face is left. The last line need not end. False: that vertex numbers may be counted backwards from the last vertex.", "quantifier": "all files of vertex, face and other lines with any number of corners", "why_tests_cant": "any number of vertices and faces, and numbers that wrap around in the arithmetic used", "anchors": ["src/MeshGroup.cpp: loadMeshOBJ"]}
{"id": "C81", "title": "Fuzzy skin moves points of outer walls by at most the thickness, at the distances asked for", "statement": "Fuzzy skin replaces each outer wall of at least two points (with the setting for the outside only, each that has no point in a hole) by one with new points along it: the first one at most 3/8 of the point distance from the start, each other one 3/4 to 5/4 of it after the one before, up to the end. Each is moved at right angles to the wall by at most the thickness, up to rounding; straight pieces without a new point keep their middle. There are at least three points, closed walls stay closed, and nothing is undefined if the thickness is at least 1 and the point distance at least 6 micrometres. Other walls are not changed. False: that widths are interpolated (the width of the farther end counts more); that open walls end where they did; that no point of a very short piece is moved farther than the thickness; that a thickness of zero is allowed.", "quantifier": "all walls, settings and sequences of random numbers", "why_tests_cant": "random numbers, and distances that carry over from one piece of the wall to the next", "anchors": ["src/FffPolygonGenerator.cpp: FffPolygonGenerator::processFuzzyWalls"]}
{"id": "C82", "title": "Walking over voxels along lines and polygons visits all voxels that are crossed", "statement": "Walking along a line in space ends, and visits voxels from one that has the start to one that has the end, each sharing a face with the one before, and none twice. All are met by the line. Every point of the line is in one of them, and each voxel the line goes through the inside of is among them. If the callback says to stop, no more are visited and the result says so. Walking over polygons does this for each side in order; with a kernel, all voxels of the kernel around each of them are visited; the polygons are moved by half a voxel if the kernel has an even size in both X and Y, and likewise in Z. False: that the voxel in which the end is put by rounding is always visited; that polygons without points are allowed; that a kernel of an even size in X and odd size in Y is centred.", "quantifier": "all lines, polygons, voxel sizes, kernels, and callbacks", "why_tests_cant": "lines of any length and direction, including ones that go exactly through corners of voxels", "anchors": ["src/utils/VoxelUtils.cpp: VoxelUtils::walkLine, walkPolygons, walkDilatedPolygons, dilate", "include/utils/VoxelUtils.h: VoxelUtils::toGridCoord, toLowerCoord"]}
{"id": "C83", "title": "Dilation kernels have exactly the cells of their shape", "statement": "A kernel has each of its cells once. A cube has all cells of its size around the middle; a diamond those whose distances from the middle in X, Y and Z, as fractions of the size of the kernel on that side, are at most 1 together; a prism those for which this holds for X and Y. The integer divisions by which this is decided never round so that a cell is wrongly included or left out.", "quantifier": "all kernel sizes of at least 1 and all types", "why_tests_cant": "the claim about rounding is about all sizes", "anchors": ["src/utils/VoxelUtils.cpp: DilationKernel::DilationKernel"]}
{"id": "C84", "title": "Interlocking beams join two meshes without overlap", "statement": "Generating interlocking beams between two meshes with the same number of layers succeeds. The voxels changed are those near the surfaces of both meshes and, with boundary avoidance, not near air. Outside of them no layer changes. In them, each point belongs to a beam of one mesh, beams taking turns along X on some layers and along Y on the layers above; the mesh of the beam gets there all that either mesh has (with the small gaps between them), and the other one gets nothing. So in the voxels the meshes never overlap and nothing inside is lost, and meshes that did not overlap before do not afterwards. Voxels must not be below the lowest layer. False: that this is always so (with an even interface depth and without boundary avoidance it is not, and memory is written out of bounds); that on layers which only the second mesh has, the mesh counts as inside.", "quantifier": "all meshes, sets of voxels, beam widths and layer counts of at least 1, rotations, and ways in which thin areas are handled", "why_tests_cant": "any number of voxels and layers; the structures of both meshes are built separately", "anchors": ["src/InterlockingGenerator.cpp: InterlockingGenerator::generateInterlockingStructure, generateMicrostructure, applyMicrostructureToOutlines, computeUnionedVolumeRegions"]}
{"id": "C85", "title": "Empty layers at the bottom are removed and the rest is lowered", "statement": "Removing empty first layers removes exactly the layers below the first one that has something to print: an outline, an open line of a mesh whose surface is printed, or generated support. Nothing that is printed is removed, and no other layer. All other layers of meshes and support keep what they have, in order, and meshes are lowered by the height of the highest removed layer; the numbers of the highest filled layers go down with them. The new first layer gets the thickness of the old one. With evenly spaced layers, if any was removed the first layer is then one layer height above the bed and the others follow. Meshes and support must have as many layers as there are in all. False: that the first layer is then as high as it is thick (with an initial layer height other than the layer height it is not); that support with fewer layers is allowed.", "quantifier": "all meshes, layers and support", "why_tests_cant": "any number of meshes and layers, empty or not in any order", "anchors": ["src/FffPolygonGenerator.cpp: FffPolygonGenerator::removeEmptyFirstLayers, isEmptyLayer"]}
{"id": "C86", "title": "The print information names the extruder that prints first and the box of what the first layer prints", "statement": "After all layers are reported, the initial extruder is the one of the first extruder plan, in the order of layers and plans, that prints a line; there is none if nothing is printed. The bounding box of the initial layer is the smallest box around all points of printed lines on layers with number 0 and the points at which these lines start, the start being the end of the last path before in the same plan; it is the empty box if there are none. Travel moves and other layers do not count. False: that this includes the start of a line with which an extruder plan begins.", "quantifier": "all sequences of layers, extruder plans and paths, empty or not", "why_tests_cant": "any number of layers, plans and paths; where a line starts depends on the paths before it", "anchors": ["src/PrintInformation.cpp: PrintInformation::updateWithLayer", "src/ExtruderPlan.cpp: ExtruderPlan::hasExtrusion, calculateExtrusionBoundingBox", "src/LayerPlan.cpp: LayerPlan::findInitialExtruderNr, calculateExtrusionBoundingBox"]}
{"id": "C87", "title": "Flow equalisation slows wide lines and speeds up narrow ones in proportion", "statement": "Back pressure compensation changes nothing but the speed factor of lines with some width that are not bridges, and nothing for extruders with a setting of 0. With full compensation, speed times width is that of the nominal width for lines up to 1000 times as wide; with a setting from 0 to 1, narrower lines are printed faster and wider ones slower, but not by more than that. The factor is never less than a thousandth. False: that the flow is constant for lines wider than that.", "quantifier": "all layers, paths, widths and settings", "why_tests_cant": "about all real widths and settings, and all paths of a layer", "anchors": ["src/ExtruderPlan.cpp: ExtruderPlan::applyBackPressureCompensation", "src/LayerPlan.cpp: LayerPlan::applyBackPressureCompensation"]}
{"id": "C88", "title": "With infill as support only, infill is kept exactly where it supports something", "statement": "Going down from the top layer, which is not changed, each part keeps infill exactly where it had infill and the layer above has infill after the change, or where there is an overhang: places too far from the border of the infill area and not inside the layer above, enlarged, without what is inside above. So infill is only ever taken away, where a part had infill and there is infill above it stays, and it stays under every place that is too far from the border and has nothing above. Parts without infill area are not changed. False: that there is infill below all infill (parts whose own infill was reduced before do not get it back).", "quantifier": "all meshes, layers, parts, and ways to enlarge and shrink areas", "why_tests_cant": "any number of layers; what stays on a layer depends on all layers above", "anchors": ["src/skin.cpp: SkinInfillAreaComputation::generateInfillSupport", "src/sliceDataStorage.cpp: SliceLayerPart::getOwnInfillArea"]}
