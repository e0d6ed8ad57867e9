# Formal model of CuraEngine in Rocq (Coq 8.16.1)

Source: `/repo` (Ultimaker/CuraEngine at the pinned commit). Nothing in `/repo` is built or run; the model is
written by reading the C++ text, one function at a time. Every definition of the model cites the file and lines
it models and says where it simplifies.

## Layout

`rocq/theories/<Area>_Model.v`   definitions that mirror the C++ (no proofs)
`rocq/theories/<Area>_Spec.v`    small independent specification (when the statement needs vocabulary)
`rocq/theories/<Area>_Proofs.v`  lemmas
`rocq/theories/<Area>_Props.v`   the property theorems, non-vacuity examples, `Print Assumptions`

## Conventions

* `coord_t` (int64) is `Z`; C++ `/` and `%` on signed integers are `Z.quot` / `Z.rem` (truncation). Signed overflow
  is undefined behaviour in C++; the overflow-sensitive primitives have a checked variant (property C53) that
  yields undefined behaviour (`UB`) on overflow and is proved equal to the unbounded one within a coordinate bound.
* `double` is modelled by exact `Q` or `R` where the property concerns the algorithm, not the rounding; each such
  definition says so.
* `size_t` is `nat` (or `Z`/`N` when wrap-around matters); reads out of bounds, division by zero, null
  dereference and unbounded recursion are explicit outcomes (`option`/error constructors), never silent defaults.
* Loops are structural recursion, folds, or fuel recursion with a distinct out-of-fuel result and a theorem that
  the fuel supplied suffices.
* Threads are a labelled transition system; theorems quantify over all reachable states / all schedules.
* External geometry (Clipper boolean operations, offsets, trigonometry) is not modelled; where a property depends
  on it, the operation is a Section variable with the stated law, discharged by a concrete instance in an Example.

## Plan per property

(See MANIFEST.json for the current status and exact theorem names.)

* C01 union-find: forest in lists; refinement to the equivalence closure of the performed unions; invariant by
  induction over operation lists; refutation for handles that are not set representatives.
* C02 division helpers: `Z.quot` arithmetic; compare with `Z.div`-based floor/ceil and nearest-integer spec.
* C03 raft layers: settings record; counting theorem over the index interval; division by zero outcome when the
  air gap rounds to no layers.
* C04 layer heights: list of z; strict monotonicity and spacing by induction.
* C05/C06 triangle slicing and interpolation: arithmetic over `Z`; case analysis of the six vertex orders.
* C07 closed contours: combinatorial mesh + segments produced per face; functional graph of next-segments is a
  permutation; loop joining returns to the start.
* C08 segment conservation: visited-flag state machine; permutation theorem with fuel = number of segments.
* C09 stitching: polyline soup with terminus tracking; multiset of points invariant; join precondition.
* C10 adaptive layers: fuel loop; invariants on z, heights, coverage.
* C11/C12 path ordering: greedy selection with oracle for distances; permutation; DFS with in-degree counters gives
  topological order; three modes.
* C13 order optimizer: greedy nearest neighbour over `Z` distances.
* C14 inset order: constraint generation over wall lists.
* C15 best element finder: multi-pass elimination over rational scores.
* C16/C17 closest point / connection: integer arithmetic; refutation of C17 (a1 used where a2 is meant).
* C18 point in polygon: crossing parity vs independent specification with rational crossing point.
* C19/C20 grids: cells by truncating division; completeness proofs.
* C21 simplify: abstract geometry oracle for importance, concrete control flow; endpoints and size invariants.
* C22 polyline stitcher: conservation invariant.
* C23 Prim: list-based model; cut property proof of minimality.
* C24/C25 bounding boxes, layer vectors: direct refinement.
* C26-C29 G-code exporter: state record + emitted commands; independent printer interpreter as specification;
  simulation invariant over arbitrary operation lists.
* C30/C31 text output: lists of ascii characters; independent decimal parser as specification.
* C32/C33 plan buffer and inserts: queue refinement.
* C34/C35 preheat / flow graph: rational arithmetic.
* C36/C37 minimum layer time, fan speed: rational arithmetic; exact in one branch, refuted in another.
* C38 gradual flow: splitting preserves polyline (subsequence/insertion relation).
* C39/C40 extruder order and prime tower: list recursion over layers.
* C41 carving: areas as sets of points; difference as set operation.
* C42/C43 concurrency: labelled transition systems, inductive invariants, progress by a decreasing measure.
* C44/C45 settings and command line: finite maps and state machine.
* C46 progress: rational arithmetic over stages.
* C47 beading: integer arithmetic over lists of widths.
* C48 time estimator: real arithmetic, two-pass induction.
* C49 templates: token state machine vs structured-syntax semantics.
* C50 mesh building: hash buckets; adjacency.
* C51/C52 anti-ooze, coasting: rational arithmetic and point sequence preservation.
* C53 overflow freedom: checked integer arithmetic.
* C54/C55 layer count and print heights: the formulas of the three kinds of layers over `Z`, monotone in the layer number.
* C56 feed rates: the printer of C26 extended with the modal F word; simulation invariant.
* C57 priming: usage tables over all layers; first layer of use by induction over the layers.
* C58/C59 cutting meshes, overlaps: areas as sets of points, in-place updates as folds; offsets are arbitrary functions.
* C60 placement: exact rational matrices, rounding as in the code.
* C61 walls: the loops over lines, pieces and sub-segments with fuel; an expected place, height and speed for every
  distance along the wall as the specification; invariant over the accumulated distance.
* C62 monotonic ordering: the graph of connections as finite maps; reachability of every line from a starting line; the
  blocks printed together are paths of the graph; hash table orders are arbitrary permutations.
* C63, C64 skin, roofing and flooring: areas as sets of points, the geometry library's offsets as arguments; what the outlines
  on the layers looked at have in common by induction over the layers, then case analysis on the membership of one point.
* C65 gradual infill: the loop over steps and layers by induction, following one point; the densities of the lines printed for
  the areas add up to a power of two.
* C66 combining infill layers: induction over parts, densities, rounds and layers; the invariant of the rounds of a layer
  follows the thickness of one point on it and the thin infill it replaces below.
* C67 lines of infill: the cuts of each edge in closed form, the rows of the cut list by induction over edges; the parity of
  the cuts of a closed polygon with a vertical line, so that pairs of sorted cuts are the inside by the even-odd rule.
* C68 zigzag infill: the processor as a fold over the stops of a walk; the walk in closed form edge by edge; the slot between
  scanlines the walk is in shows that successive crossings are neighbours.
* C69 connecting infill lines: the linked segments as a heap, the walk around the outline as a fold; invariant: the heap is a set of disjoint
  paths, each line in one, groups = paths, ends still to be visited are free. Then printing a path visits and removes exactly its segments.
* C70 connected line patterns: the crossings of a scanline with their edges in closed form, so that the two ends of a line are on different edges; an
* C71 combing paths: crossings of the boundary with the direct way as a sorted duplicate-free list characterised by the edges; the plan of detours by recursion on it; the ways around a polygon in closed form (indices modulo the number of corners); the optimized path by an invariant on its hops: tested free, in the basic path, or a part of such a hop.
* C72 lightning trees to the next layer: trees as an inductive type; pruning, straightening and realigning by induction over trees, the specification as inductive relations (pruned, straightened) and as multisets of nodes, branches and roots.
* C73 lightning lines: the conversion by induction over trees with a statement on what is put at the end of the current line and behind the others; the shortening by recursion on the line backwards.
* C74 changing the root: induction over the path to the node, with what is above as an argument.
* C75 growing lightning trees: the field of points as a list and a map from cells; each update removes exactly the points within the radius (over C19 and C20); induction on the number of points left.
* C76 grounding: fold over the candidates with the minimum as invariant.
* C77 reconnecting roots: trees carry numbers instead of pointers; multisets of nodes, of branches without direction, and of roots are followed through the list of trees to be reconnected, over C74.
* C78 travel moves: addTravel step by step, on a record of the path; the retraction is decided by cases, the points that are kept by an inductive relation.
* C79 STL files: bytes to triangles, for text and binary files, over C50; the lines and facets are specified by offsets and line ends, the loops are shown to give the same by induction.
* C80 OBJ files: the scanner for corners, the fan of triangles and the wrapping arithmetic on vertex numbers, over C50.
* C81 fuzzy skin: random numbers as an arbitrary sequence; the places of new points along the wall are an inductive relation, proved by induction over the wall.
  invariant of the gathering says which lines are listed with which edge; it gives the hypotheses of C69 for every outline and list of directions.
* C82 walking over voxels (Voxel_Model, Voxel_Spec, Voxel_Props): the loop is modelled with exact fractions; the invariant is that the line, at the fraction reached, is in the current voxel, and the number of steps left in each direction goes down. The cells are a list on which every callback is run.
* C83 dilation kernels (same files): the constructor is modelled as it is; the rounding errors of the three divisions together are less than the smallest amount by which the sum can be above the limit.
* C84 interlocking beams (Interlock_Model, Interlock_Spec, Interlock_Props): the structures are lists of areas; the invariant of the loop over the voxels says which points the area of each beam layer has. The theorem gives each point of the result by the voxel and beam it is in.
* C85 empty first layers (EmptyFirst_Model, EmptyFirst_Spec, EmptyFirst_Props): layers are records of height, thickness and sizes of what is printed. Proved by induction on the loop that counts empty layers; the relation between old and new meshes is given layer by layer.
* C86 print information (PrintInfo_Model, PrintInfo_Spec, PrintInfo_Props): boxes are those of Box_Model. Proved by induction over paths, plans and layers that each box is the smallest one around the points printed so far.
* C87 back pressure compensation (PrintInfo_Model, PrintInfo_Spec, PrintInfo_Props): the formula over the rationals; the claims about flow follow by field arithmetic.
* C88 infill support (InfillSupport_Model, InfillSupport_Spec, InfillSupport_Props): areas are sets of points, offsets are arguments. The loop is a recursion from the top layer down; each layer is related to the one above as it is after the change.
## What is modelled, per property

* **C01 Union-find maintains a partition** (proved). Code: include/utils/UnionFind.h: UnionFind::add, find, findByHandle, unite; src/infill.cpp: Infill::connectLines. Model: UnionFind_*.v. Full for the calling idiom of the only caller (handles obtained from find). The refutation shows that passing handles returned by add that are no longer representatives splits sets.
* **C02 Integer division helpers round as documented** (proved). Code: include/utils/math.h: round_divide_signed, ceil_divide_signed, floor_divide_signed, round_divide, round_up_divide. Model: Math_*.v. Mathematical integers; 64-bit ranges are treated under C53.
* **C03 Raft layer classification tiles the layer stack** (proved). Code: src/raft.cpp: Raft::getLayerType, getTotalExtraLayers, getFillerLayerCount, getFillerLayerHeight. Model: Layers_*.v. The refutation records that getFillerLayerHeight divides by zero when the air gap rounds to no layer; C55 shows printed layers never ask for it.
* **C04 Sliced layer heights are strictly increasing and evenly spaced** (proved). Code: src/slicer.cpp: Slicer::buildLayersWithHeight. Model: Layers_*.v. 
* **C05 A triangle crossing a layer gives exactly one segment on its edges** (proved). Code: src/slicer.cpp: Slicer::buildSegments, project2D, interpolate. Model: Slicer_*.v. Direction is stated for the exact rational crossing points; the emitted integer points are within 5/4 micron of them per coordinate.
* **C06 Interpolation along an edge stays on the edge** (proved). Code: src/slicer.cpp: interpolate, Slicer::interpolate, project2D. Model: Math_*.v. Refuted stronger claims: exactness at the far end of a downward edge, direction independence, one-unit accuracy.
* **C07 A closed oriented mesh is sliced to closed contours only** (proved). Code: src/slicer.cpp: SlicerLayer::makeBasicPolygonLoops, makeBasicPolygonLoop, tryFaceNextSegmentIdx, getNextSegmentIdx, Slicer::buildSegments. Model: Slicer_*.v. 
* **C08 Joining segments loses and duplicates nothing** (proved). Code: src/slicer.cpp: SlicerLayer::makeBasicPolygonLoops, makeBasicPolygonLoop. Model: Slicer_*.v. The face map is only assumed to name existing segments.
* **C09 Stitching open polylines conserves every point** (proved). Code: src/slicer.cpp: SlicerLayer::connectOpenPolylinesImpl, findPossibleStitches, planPolylineStitch, joinPolylines, TerminusTrackingMap, stitch_extensive, findPolygonGapCloser, findPolygonPointClosestTo; src/slicer.h: PossibleStitch, Terminus. Model: OpenStitch_*.v. The order in which the priority queue gives stitches is any order (C09_stitch) or any order by distance (C09_smallest_first); the order of grid cells is any. Extensive stitching is stated for layers without empty polygons. Refuted: that the queue's operator< is an order, and that extensive stitching attaches a line by the end at the gap.
* **C10 Adaptive layers cover the model with allowed heights** (proved). Code: src/settings/AdaptiveLayerHeights.cpp: AdaptiveLayerHeights::calculateAllowedLayerHeights, calculateLayers. Model: Adaptive_*.v. tan is an arbitrary function; angles are inputs. Refuted: consecutive layers differ by at most the step (thinning may take two steps).
* **C11 Path ordering prints every path exactly once** (proved). Code: include/PathOrderOptimizer.h: PathOrderOptimizer::optimize, getOptimizedOrder, findClosestPath. Model: PathOrder_*.v. Seam choice on closed paths, combing distances and the contents of the grid are arbitrary functions. Coordinates below 2^30 micron. The refutation records that a path without vertices gets start vertex 2^64-1 in reverse direction.
* **C12 Path ordering respects order requirements** (proved). Code: include/PathOrderOptimizer.h: getOptimizerOrderWithConstraints; include/utils/views/dfs.h: dfs. Model: PathGraph_*.v. Which candidate is printed next is an arbitrary choice function, so all geometry and hash orders are covered. Requirements must be between given paths. The refutation records that cyclic requirements silently drop paths.
* **C13 Greedy nearest ordering visits all items, nearest first** (proved). Code: include/utils/orderOptimizer.h: OrderOptimizer::optimize. Model: Order_*.v. Distances are the rounded distances the code compares (vSize, proved to be within one half of the exact distance); they must be below INT64_MAX.
* **C14 Inset ordering constraints match the requested wall order** (proved). Code: src/InsetOrderOptimizer.cpp: InsetOrderOptimizer::getInsetOrder, getRegionOrder, getWallsToBeAdded, shouldReversePath; include/utils/views/dfs.h: actions::dfs. Model: Inset_*.v. Point-in-polygon tests and areas of bounding boxes are arbitrary functions, the iteration order of the hash maps any permutation; the nesting is defined from them in Inset_Spec.v.
* **C15 Seam candidate selection returns a best candidate** (proved). Code: src/utils/scoring/BestElementFinder.cpp: BestElementFinder::findBestElement. Model: Order_*.v. Refuted: that survivors of a pass are within the threshold of the best. std::remove_if overwrites the candidate its predicate compares with, so only twice the threshold holds.
* **C16 Closest point on a segment lies on the segment** (proved). Code: include/utils/linearAlg2D.h: LinearAlg2D::getClosestOnLineSegment; src/utils/linearAlg2D.cpp: getClosestConnection, getDist2FromLineSegment. Model: LinearAlg_*.v. 
* **C17 Closest connection between two segments** (proved). Code: src/utils/linearAlg2D.cpp: LinearAlg2D::getClosestConnection. Model: LinearAlg_*.v. Amended: the end of the first segment is excluded, because the code computes its projection from the start of that segment; the refutation shows a returned connection 11 times longer than the distance of that end to the other segment.
* **C18 Point-in-polygon test is the crossing parity** (proved). Code: src/geometry/ClosedPolyline.cpp: ClosedPolyline::inside; src/geometry/Shape.cpp: Shape::inside; include/utils/linearAlg2D.h: pointLiesOnTheRightOfLine. Model: LinearAlg_*.v. Shape::inside and SingleShape::inside are proved against Clipper's documented contract for PointInPolygon (a hypothesis); findInside is proved outright. Two refutations record border cases that do not honour border_result.
* **C19 Nearby queries on sparse grids are complete** (proved). Code: include/utils/SparseGrid.h: SparseGrid::processNearby, getNearby, getNearest; include/utils/SparsePointGrid.h; src/utils/SquareGrid.cpp: SquareGrid::toGridCoord, processNearby, processFromCell. Model: Grid_*.v. The multimap's order inside a cell is arbitrary. Refuted: the header's promise that elements further than radius + cell_size are never visited (the cell at zero is twice as wide); getNearest finding an element exactly at the radius.
* **C20 Cells along a line are all visited** (proved). Code: src/utils/SquareGrid.cpp: SquareGrid::processLineCells. Model: Grid_*.v. Also: no cell outside the closed cells touched by the line is visited, the first and last cells are those of the ends, and the assertion at the end of the function is never reached.
* **C21 Simplification keeps end points and size limits** (proved). Code: src/utils/Simplify.cpp, include/utils/Simplify.h: Simplify::polygon, polyline, simplify, remove, importance. Model: Simplify_*.v. For points and junctions alike; the intersection of two lines is a parameter. Refuted: staying within the deviation of the input (a spike on the line through its neighbours is cut off), and keeping three vertices of a polygon (the limit is per round).
* **C22 Polyline stitching conserves lines** (proved). Code: include/utils/PolylineStitcher.h, src/utils/PolylineStitcher.cpp: PolylineStitcher::stitch. Model: PolyStitch_*.v. Over the model of the grid of C19, its element order any permutation. Input lines are open. Refuted: gaps of closed polygons within the stitch distance; the preference the comment states.
* **C23 Minimum spanning tree spans with minimal total length** (proved). Code: src/utils/MinimumSpanningTree.cpp: MinimumSpanningTree::prim, adjacentNodes. Model: MST_*.v. The iteration order of the hash maps is universally quantified. Squared lengths without overflow. Refuted for repeated points: always undefined behaviour.
* **C24 Bounding boxes are exact** (proved). Code: src/utils/AABB.cpp: AABB::include, contains, hit, expand; src/utils/AABB3D.cpp: AABB3D::hit, include. Model: Box_*.v. The two refutations record how 2D hit differs from open/closed intersection in edge cases.
* **C25 Layer vectors map layer numbers to slots bijectively** (proved). Code: include/utils/LayerVector.h: LayerVector::init, push_back, iterator_at, getLayer, get. Model: LayerVector_*.v. 
* **C26 Nozzle position in G-code tracks the requested moves** (proved). Code: src/gcode_export/gcodeExport.cpp: GCodeExport::writeTravel, writeExtrusion, writeFXYZE, writeZhopStart, writeZhopEnd. Model: GCode_*.v. Any rounding of E values, either extrusion mode, volumetric or not. Flavors BFB, MACH3 and MAKERBOT and custom tool-change G-code are not modelled. Coordinates in commands are the exact micron values (C30 covers their printing).
* **C27 Extruded amounts in G-code match the request** (proved). Code: src/gcode_export/gcodeExport.cpp: GCodeExport::writeExtrusion, resetExtrusionValue, setFlowRateExtrusionSettings, writeRetraction. Model: GCode_*.v. Doubles are exact rationals; the two rounding theorems bound the effect of printing E values. Flow compensation must be off: with relative E values it is refuted.
* **C28 Retractions and unretractions balance** (proved). Code: src/gcode_export/gcodeExport.cpp: GCodeExport::writeRetraction, writeUnretractionAndPrime. Model: GCode_*.v. Distances and prime volumes are not negative; with firmware retraction no retraction distances during travels. The refutation records that a retraction setting with a smaller limit makes the exporter forget retractions.
* **C29 Redundant temperature and fan commands are suppressed safely** (proved). Code: src/gcode_export/gcodeExport.cpp: writeTemperatureCommand, writeBedTemperatureCommand, writeFanCommand, writeBuildVolumeTemperatureCommand. Model: Heat_*.v. Starting with a cold printer. Refuted stronger claims: that a waiting bed request always waits (nothing is written if the temperature was set before), that the fan has exactly the printed speed (a fan switched off at 0.03% stays off at 0.04%), and that two fan numbers work in Makerbot's flavor.
* **C30 Integers in microns are written as exact decimal millimetres** (proved). Code: include/utils/string.h: writeInt2mm, MMtoStream, PrecisionedDouble, writeDoubleToStream. Model: TextNum_*.v. snprintf is specified (digits; correct rounding, ties to even); the buffer manipulation is modelled slot by slot with uninitialised slots and bounds. Refuted: coordinate 0 reads buffer[-1]; the zero test disagrees with what is printed.
* **C31 Comments cannot inject commands** (proved). Code: src/gcode_export/gcodeExport.cpp: GCodeExport::writeComment, writeTypeComment, writeCode. Model: TextNum_*.v. For both line endings that the exporter uses. char is signed, as on x86.
* **C32 Layer plans are written once, in order, with bounded look-ahead** (proved). Code: src/LayerPlanBuffer.cpp: LayerPlanBuffer::handle, processBuffer, flush. Model: LayerBuffer_*.v. The temperature planning done on the pending plans is not modelled here. Schedules as in C43.
* **C33 Planned temperature inserts are emitted exactly once, in order** (proved). Code: src/ExtruderPlan.cpp: ExtruderPlan::insertCommand, handleInserts, handleAllRemainingInserts; include/ExtruderPlan.h. Model: TempInsert_*.v. The times within a path are given by arbitrary ticks between its moves.
* **C34 Preheat times are consistent with the heating model** (proved). Code: src/Preheat.cpp: Preheat::getWarmUpPointAfterCoolDown, getCoolDownPointAfterWarmUp, getTimeToGoFromTempToTemp. Model: Preheat_*.v. Rates are exact rationals. Refuted: the cool-down point reaches the final temperature (rates swapped); heating time is set aside when the window is too short; a time of 0 is predicted when extrusion cools faster than the heater heats.
* **C35 Flow-temperature graph interpolates its data** (proved). Code: src/settings/FlowTempGraph.cpp: FlowTempGraph::getTemp. Model: Preheat_*.v. Exact rationals.
* **C36 Minimum layer time is reached by slowing down** (proved). Code: src/LayerPlan.cpp: ExtruderPlan::forceMinimalLayerTime, computeNaiveTimeEstimates, LayerPlan::processFanSpeedAndMinimalLayerTime. Model: Cool_*.v. Exact rationals; segment lengths are given. Refuted: reaching the minimum when speeds differ and slowing to the slowest speed would be more than enough; positive speeds and the minimum speed without the provisos; leaving long layers alone when one extruder has several plans.
* **C37 Fan speed stays within the configured limits** (proved). Code: src/LayerPlan.cpp: ExtruderPlan::processFanSpeedForFirstLayers, processFanSpeedForMinimalLayerTime. Model: Cool_*.v. Exact rationals.
* **C38 Gradual flow keeps the toolpath and limits flow steps** (proved). Code: include/gradual_flow/FlowLimitedPath.h: FlowLimitedPath::partition, GCodeState::processGcodePath, processGcodePaths; include/gradual_flow/Processor.h. Model: GradFlow_*.v. Doubles are exact rationals; the length function is any non-negative even function of the coordinate differences. The flow limits are stated on the output read back as paths. Refuted: a limit per time; termination with a step of zero.
* **C39 Extruder order per layer uses each needed extruder once and saves switches** (proved). Code: src/FffGcodeWriter.cpp: getUsedExtrudersOnLayer, calculateExtruderOrderPerLayer, calculatePrimeLayerPerExtruder. Model: ExtruderOrder_*.v. The areas of the layers are given as which extruder uses them. Refuted: completeness on filler layers when the first-layer support extruder differs; continuity on raft base layers.
* **C40 Prime tower layers are supported from below** (proved). Code: src/PrimeTower/PrimeTowerInterleaved.cpp: generateToolPaths, polishExtrudersUses; src/PrimeTower/PrimeTower.cpp: generatePrimeToolpaths, generateSupportToolpaths. Model: PrimeTower_*.v. Rings are radii, ring lengths a parameter, volumes exact. Refuted: a printed line on every layer without the line width condition; the base not overlapping the tower when one extruder is primed on the layer.
* **C41 Overlapping volumes are carved disjoint** (proved). Code: src/multiVolumes.cpp: carveMultipleVolumes. Model: Carve_*.v. Areas are sets of points and Clipper's operations are set operations. Refuted without the bounding boxes: neighbours whose areas exceed the boxes remain overlapping.
* **C42 parallel_for runs each index exactly once and waits for all** (proved). Code: include/utils/ThreadPool.h: parallel_for; src/utils/ThreadPool.cpp: ThreadPool::worker, work_while. Model: Par_*.v. For every program of calls, nested to any depth, every pool size, every schedule with spurious wake-ups. Loop bodies do not wait for each other or hold other locks; they do not throw. Termination bounds the steps of a run by the size of the program plus the number of spurious wake-ups.
* **C43 Ordered producer/consumer delivers every item once in order** (proved). Code: include/utils/ThreadPool.h: MultipleProducersOrderedConsumer, run_multiple_producers_ordered_consumer. Model: Pipe_*.v. All schedules, ring sizes and worker counts, produce and consume that do not throw. Refuted: run() may return before all is consumed after a spurious wake-up of its un-looped wait; a first item below minus the ring size reads the ring out of bounds.
* **C44 Setting lookup follows the inheritance chain** (proved). Code: src/settings/Settings.cpp: Settings::add, get, has, setParent, getWithoutLimiting. Model: Settings_*.v. Containers form a tree; keys limited to extruders as the scene does it.
* **C45 Command line settings apply to the object last mentioned** (proved). Code: src/communication/CommandLine.cpp: CommandLine::sliceNext, loadJSON, loadJSONSettings. Model: CmdLine_*.v. Without -r; JSON parsing itself and the file system are parameters.
* **C46 Reported progress is monotone and bounded** (proved). Code: src/progress/Progress.cpp: Progress::calcOverallProgress, messageProgress. Model: Progress_*.v. The reports of the painting splitter and of support generation are arbitrary. Refuted: that progress never falls; that zero out of zero is a number; that the log names the stage that starts.
* **C47 Bead widths and positions fit the wall thickness** (proved). Code: src/BeadingStrategy/BeadingStrategyFactory.cpp: makeStrategy; src/BeadingStrategy/DistributedBeadingStrategy.cpp, LimitedBeadingStrategy.cpp, OuterWallInsetBeadingStrategy.cpp, InnerWallInsetBeadingStrategy.cpp, RedistributeBeadingStrategy.cpp, WideningBeadingStrategy.cpp: compute, getOptimalBeadCount, getTransitionThickness, getOptimalThickness. Model: Beading_*.v. Any stack of strategies made by the factory with positive widths, thresholds in (0,1] and an even positive maximum. Ratios are exact rationals; up to rounding of each width to whole micrometres. Refuted: non-negative widths for any number of walls, symmetry and order with insets, defined behaviour with thin walls and very wide inner walls or a maximum of 0, the name of a strategy, the reported non-linear thicknesses.
* **C48 Time estimator plans feasible motions** (proved). Code: src/timeEstimate.cpp: TimeEstimateCalculator::plan, reversePass, forwardPass, recalculateTrapezoids, calculate. Model: Estimate_*.v. Doubles and floats are real numbers (the standard library's Reals, with their three axioms), so rounding is not modelled. Machine limits and accelerations are positive, jerks not negative, and each requested speed or the minimum speed is positive.
* **C49 Template conditions select the right branch** (proved). Code: src/gcode_export/GcodeTemplateResolver.cpp: resolveGCodeTemplate, GcodeConditionState. Model: Template_*.v. The formula engine is a parameter; the regular expression is modelled by a scanner.
* **C50 Mesh building drops no valid face and links neighbours** (proved). Code: src/mesh.cpp: Mesh::addFace, findIndexOfVertex, finish, getFaceIdxWithPoints. Model: Mesh_*.v. Angles are compared exactly instead of through atan2. Refuted: close corners are always merged, the link over an edge of four faces is via the outside, clearing a mesh resets its box.
* **C51 Anti-ooze retraction and priming amounts agree** (proved). Code: src/LayerPlan.cpp: computeAntiOozeAmounts, computeAntiOozeTravelSplit, writeTravelSegment. Model: Ooze_*.v. Times are exact rationals, lengths the rounded integer lengths of the code. Refuted: split points never past the end of a segment, split points at the height of the travel, and a non-negative amount retracted before the travel starts.
* **C52 Coasting keeps the nozzle path** (proved). Code: src/LayerPlan.cpp: LayerPlan::writePathWithCoasting, LayerPlan::calculatePathsCoasting. Model: Coast_*.v. Lengths are the rounded integer lengths the planner uses. The planner leaves the line width out of its volumes, so the volume bound needs widths of at most nominal (refuted otherwise).
* **C53 Geometric predicates do not overflow on printable volumes** (proved). Code: include/geometry/Point2LL.h: vSize2, shorterThen, dot, cross; src/slicer.cpp: interpolate; include/utils/linearAlg2D.h. Model: Overflow_*.v. Every function is modelled operation by operation over an integer type; with 64-bit integers it gives the same defined result as with unbounded ones. Conversions between integers and doubles (square roots, one quotient) are exact. Refutations record the sharp bounds: projections on segments overflow for points 1.66 m apart, lengths of polylines wrap at 2147 m, hashes of points overflow at 69 m.
* **C54 The layer count covers the model** (proved). Code: src/FffPolygonGenerator.cpp: FffPolygonGenerator::sliceModel; src/slicer.cpp: Slicer::buildLayersWithHeight. Model: Layers_*.v. Adaptive layers are under C10.
* **C55 Layers are printed at strictly increasing heights** (proved). Code: src/FffGcodeWriter.cpp: FffGcodeWriter::processRaft, processLayer; src/FffPolygonGenerator.cpp: sliceModel (printZ); src/raft.cpp: Raft::getTotalThickness, getFillerLayerHeight. Model: Layers_*.v. Fixed layer heights.
* **C56 Every move is made at its requested speed** (proved). Code: src/gcode_export/gcodeExport.cpp: GCodeExport::writeFXYZE, writeRetraction, writeUnretractionAndPrime, writeZhop. Model: GCode_*.v. Refuted without the proviso: a first move at exactly 1 mm/s carries no F word, so it runs at whatever feed rate the printer had.
* **C57 An extruder is primed at most once, before it is first used** (proved). Code: src/FffGcodeWriter.cpp: calculatePrimeLayerPerExtruder, setExtruder_addPrime, processLayer. Model: ExtruderOrder_*.v. Refuted: that every extruder is primed before it prints (the one a layer starts with is not), and priming before printing in the normal tower.
* **C58 Cutting meshes take what they cut** (proved). Code: src/multiVolumes.cpp: MultiVolumes::carveCuttingMeshes. Model: Carve_*.v. Cutting meshes with the surface mode NORMAL; areas are sets of points.
* **C59 Overlaps of volumes only grow where another volume is near** (proved). Code: src/multiVolumes.cpp: generateMultipleVolumesOverlap. Model: Carve_*.v. The offset of areas is a parameter.
* **C60 Meshes are placed and scaled as the settings ask** (proved). Code: src/MeshGroup.cpp: MeshGroup::finalize, scaleFromBottom, min, max; src/mesh.cpp: Mesh::transform; include/mesh.h: Mesh::translate; src/utils/Matrix4x3D.cpp. Model: Mesh_*.v. Scaling in exact rationals, truncated. Coordinates after placing within 32 bits. Refuted for a group without printed models.
* **C61 A wall is printed as one connected line through all its corners** (proved). Code: src/LayerPlan.cpp: LayerPlan::addSplitWall, LayerPlan::addWallWithScarfSeam; src/InsetOrderOptimizer.cpp: InsetOrderOptimizer::addToLayer; src/PathAdapter.cpp. Model: Wall_*.v. Doubles are exact rationals; what is done with a sub-segment (bridging, flow) is not modelled. Distances along a wall and the expected places, heights and speeds at them are defined in Wall_Spec.v.
* **C62 Lines ordered monotonically are printed once each and in the direction asked** (proved). Code: src/PathOrderMonotonic.cpp: PathOrderMonotonic::optimize, findPolylineString, getOverlappingLines, makeOrderedPath; include/PathOrderMonotonic.h; include/PathOrder.h: PathOrder::detectLoops. Model: Mono_*.v. Over the model of the grid of C19, its element order and the order of the set of starting lines any permutation. Doubles are exact rationals; coordinates within a kilometre of the origin (so that squared distances stay below the initial maximum). Refuted: a line printed twice where two lines lead to a string of touching lines; lines lost where three ends meet at a corner of a triangle; the order of lines that begin within 10 micrometres.
* **C63 Places near the surface become skin, the others infill** (proved). Code: src/skin.cpp: SkinInfillAreaComputation::generateSkinAndInfillAreas, calculateBottomSkin, calculateTopSkin, applySkinExpansion, generateTopAndBottomMostSurfaces. Model: Skin_*.v. Areas are sets of points; offsets and the removal of small areas are arguments of the model, with the properties a theorem needs stated in it. Splitting the skin into parts, and the walls around skin, are not modelled. Refuted: the bottommost surface, exposure directly above with the heuristic, initial bottom layers without infill and top and bottom layers.
* **C64 All of the skin is filled, once, as roofing, flooring or plain skin** (proved). Code: src/skin.cpp: SkinInfillAreaComputation::generateSkinRoofingFlooringFill, generateFilledAreaAbove, generateFilledAreaBelow; src/utils/polygonUtils.cpp: PolygonUtils::mergeThinOverlap. Model: Skin_*.v. Areas are sets of points; offsets are arguments of the model, non-negative ones contain the area; the emptiness test only has to be right when it says empty. Refuted: that places seen from above and from below are filled.
* **C65 Gradual infill gets denser towards the top** (proved). Code: src/skin.cpp: SkinInfillAreaComputation::generateGradualInfill; src/FffGcodeWriter.cpp: FffGcodeWriter::processSingleLayerInfill. Model: Gradual_*.v. Areas are sets of points; the density of a pattern is one over its line distance per set of lines. The step height is rounded to whole layers, at least one. Simplification of areas is taken to keep their points. Refuted: densities of connected patterns and with skin edge support, termination for steps below half a layer, infill on top and initial bottom layers.
* **C66 Combining infill layers neither loses infill nor prints it twice** (proved). Code: src/skin.cpp: SkinInfillAreaComputation::combineInfillLayers. Model: Combine_*.v. Areas are sets of points; opening (offset inwards and outwards) is an argument that only has to stay within the area. Rounding the thickness to a number of layers is not modelled: the number is an argument. Refuted: that thick infill only replaces infill the lower layers had.
* **C67 Lines of infill are inside of the outline, evenly spaced, and leave nothing out** (proved). Code: src/infill.cpp: Infill::generateLineInfill, Infill::generateLinearBasedInfill, Infill::addLineInfill, computeScanSegmentIdx. Model: LineInfill_*.v. In the rotated frame; the rotation and its inverse are arguments. Polygons are not empty and the line distance is positive. Coordinates are unbounded integers (32-bit ones in the code for distances). The line processing afterwards (connecting, multiplying lines) is not part of it.
* **C68 Zigzag infill connects the lines along the outline, one connection per line end** (proved). Code: src/infill/ZigzagConnectorProcessor.cpp: ZigzagConnectorProcessor; src/infill.cpp: Infill::generateZigZagInfill, Infill::generateLinearBasedInfill. Model: Zigzag_*.v. In the rotated frame, over the model of C67; the walk and the rule for printing are in Zigzag_Spec.v. Line width not negative. Refuted: independence of the first corner for short end pieces.
* **C69 Connecting infill lines keeps every line, once, and connects along the outline** (proved). Code: src/infill.cpp: Infill::connectLines, Infill::resolveIntersection, Infill::InfillLineSegment::swapDirection, Infill::InfillLineSegment::appendTo; include/infill.h: InfillLineSegment. Model: Connect_*.v. What resolveIntersection computes is an argument of the model; assumed of it where it succeeds: the new ends differ from each other and from the other ends of their lines. Successive corners are assumed to differ for the last clause. The union-find structure is taken as the partition it stands for (C01). Coordinates are unbounded integers.
* **C70 Infill patterns made of connected lines print every line of every direction once, joined along the outline** (proved). Code: src/infill.cpp: Infill::generateLinearBasedInfill, Infill::generateLineInfill, Infill::generateGridInfill, Infill::generateHalfTetrahedralInfill, Infill::connectLines. Model: Pattern_*.v. For all outlines of non-empty polygons, all lists of directions and all fuel from some point on. Rotations and their inverses, and the shifts computed from the height in floating point, are arguments; what is done where lines cross near the outline is an argument, constrained as in C69. The partition of lines into polylines is the one of C69.
* **C71 Combing paths lead from start to end by hops that are free or go around obstacles the shorter way** (proved). Code: src/pathPlanning/LinePolygonsCrossings.cpp: LinePolygonsCrossings::generateCombingPath, calcScanlineCrossings, lineSegmentCollidesWithBoundary, generateBasicCombingPath, optimizePath. Model: Combing_*.v. For all boundaries of non-empty polygons and all fuel from some point on. The matrix that turns the direct way along the X axis and its inverse, the collision test over the grid, and the way corners are moved off the boundary are arguments. Coordinates are unbounded integers.
* **C72 Lightning trees carried to the layer below lose only what is near the tips or outside** (proved). Code: src/infill/LightningTreeNode.cpp: LightningTreeNode::propagateToNextLayer, deepCopy, prune, straighten, realign. Model: Lightning_*.v. The test whether a place is inside of the outlines, the collision test, and the distance from a line segment are arguments. Coordinates are unbounded integers, lengths are rounded as in the code. Pruning distance positive, magnitude not negative.
* **C73 Lightning lines print every branch once and stop short of the junctions** (proved). Code: src/infill/LightningTreeNode.cpp: LightningTreeNode::convertToPolylines, removeJunctionOverlap. Model: Lightning_*.v. For line widths of at least 2 units and all fuel from some point on; below that the code divides by zero where successive nodes coincide. The random numbers are an argument.
* **C74 Choosing another root keeps a lightning tree** (proved). Code: src/infill/LightningTreeNode.cpp: LightningTreeNode::reroot, closestNode. Model: Lightning_*.v. Trees are inductive structures; the pointer to the parent is given by the place in the tree.
* **C75 Lightning infill supports every point of the overhang** (proved). Code: src/infill/LightningLayer.cpp: LightningLayer::generateNewTrees, attach; src/infill/LightningDistanceField.cpp: LightningDistanceField::LightningDistanceField, tryGetNextPoint, update; src/utils/polygonUtils.cpp: PolygonUtils::spreadDotsArea. Model: Grow_*.v. The lines of the area are taken to be vertical, at multiples of the cell size, and not to overlap (C67 gives such lines). The closest point of the outlines, the collision test and the nodes returned by the locator are arguments. Coordinates are unbounded integers. Refuted: that the points are sorted by an order; the comparison used has circles.
* **C76 Lightning branches are grounded at the node that counts as nearest, or the outline** (proved). Code: src/infill/LightningLayer.cpp: LightningLayer::getBestGroundingLocation; src/infill/LightningTreeNode.cpp: LightningTreeNode::getWeightedDistance. Model: Grow_*.v. Which nodes are nearby is an argument. A node whose weak pointer expired is one that is not in the trees.
* **C77 Lightning trees that lost their root are connected again** (proved). Code: src/infill/LightningLayer.cpp: LightningLayer::reconnectRoots; src/infill/LightningTreeNode.cpp: LightningTreeNode::reroot, addChild, closestNode. Model: Grow_*.v. The trees to be reconnected are the first ones of the list, as the generator has them. Closest points, intersections, collisions and the nodes returned by the locator are arguments.
* **C78 Travel moves go to their destination and retract when they should** (proved). Code: src/LayerPlan.cpp: LayerPlan::addTravel, LayerPlan::addTravel_simple, LayerPlan::moveInsideCombBoundary. Model: Travel_*.v. The result of combing (C71 in part) and the place inside of the boundary are arguments. Heights, extruder and the speed configuration of the path are not modelled. The three claims refuted are listed in the property.
* **C79 Reading an STL file gives the triangles in it** (proved). Code: src/MeshGroup.cpp: loadMeshSTL, loadMeshSTL_ascii, loadMeshSTL_binary, fgets_; include/utils/string.h: stringcasecompare. Model: Stl_*.v. Which lines sscanf reads as vertices, and the points that floats and the matrix give, are arguments. What the mesh of a list of triangles is, is C50. UV coordinates are left out. Three claims one might expect are refuted.
* **C80 Reading an OBJ file gives the faces in it** (proved). Code: src/MeshGroup.cpp: loadMeshOBJ. Model: Obj_*.v. The regular expressions that tell which lines are vertices or faces are an argument; the one for corners is modelled. A number of 2^64 or more ends the program by an exception and is excluded. UV coordinates are left out.
* **C81 Fuzzy skin moves points of outer walls by at most the thickness, at the distances asked for** (proved). Code: src/FffPolygonGenerator.cpp: FffPolygonGenerator::processFuzzyWalls. Model: Fuzzy_*.v. The random numbers and which points are in holes are arguments. The points of a very short piece are refuted to be within the thickness as a distance, since lengths are rounded; the theorem states the rounding.
* **C82 Walking over voxels along lines and polygons visits all voxels that are crossed** (proved). Code: src/utils/VoxelUtils.cpp: VoxelUtils::walkLine, walkPolygons, walkDilatedPolygons, dilate; include/utils/VoxelUtils.h: VoxelUtils::toGridCoord, toLowerCoord. Model: Voxel_*.v. doubles are exact rationals; walkAreas is not modelled
* **C83 Dilation kernels have exactly the cells of their shape** (proved). Code: src/utils/VoxelUtils.cpp: DilationKernel::DilationKernel. Model: Voxel_*.v. all of the constructor
* **C84 Interlocking beams join two meshes without overlap** (proved). Code: src/InterlockingGenerator.cpp: InterlockingGenerator::generateInterlockingStructure, generateMicrostructure, applyMicrostructureToOutlines, computeUnionedVolumeRegions. Model: Interlock_*.v. areas are sets of points; the voxels near surfaces, the closing of gaps and handleThinAreas are arguments
* **C85 Empty layers at the bottom are removed and the rest is lowered** (proved). Code: src/FffPolygonGenerator.cpp: FffPolygonGenerator::removeEmptyFirstLayers, isEmptyLayer. Model: EmptyFirst_*.v. of what layers hold, only whether there is something to print is modelled
* **C86 The print information names the extruder that prints first and the box of what the first layer prints** (proved). Code: src/PrintInformation.cpp: PrintInformation::updateWithLayer; src/ExtruderPlan.cpp: ExtruderPlan::hasExtrusion, calculateExtrusionBoundingBox; src/LayerPlan.cpp: LayerPlan::findInitialExtruderNr, calculateExtrusionBoundingBox. Model: PrintInfo_*.v. points are X and Y only
* **C87 Flow equalisation slows wide lines and speeds up narrow ones in proportion** (proved). Code: src/ExtruderPlan.cpp: ExtruderPlan::applyBackPressureCompensation; src/LayerPlan.cpp: LayerPlan::applyBackPressureCompensation. Model: PrintInfo_*.v. doubles are exact rationals
* **C88 With infill as support only, infill is kept exactly where it supports something** (proved). Code: src/skin.cpp: SkinInfillAreaComputation::generateInfillSupport; src/sliceDataStorage.cpp: SliceLayerPart::getOwnInfillArea. Model: InfillSupport_*.v. areas are sets of points; offsets, and so the support angle, and the test for empty areas are arguments

## Trusted base

* Coq 8.16.1 kernel (and `coqchk`).
* The reading of the C++ text into the model definitions (cited line by line).
* Axioms: `Print Assumptions` says "Closed under the global context" for every theorem named in MANIFEST.json except those of
  C48, which use the real numbers of the standard library (for square roots) and list exactly its three axioms:
  `ClassicalDedekindReals.sig_forall_dec`, `ClassicalDedekindReals.sig_not_dec` and
  `FunctionalExtensionality.functional_extensionality_dep`. Libraries used for lemmas and tactics: the standard library
  (ZArith, QArith, Reals, Lia, Lqa, Lra, Psatz) and std++ (lists, finite maps, multisets).
  `coqchk -o` also names the module fields behind the opaque definitions of `Reals` (`RbaseSymbolsImpl.*`, `RinvImpl.*`) and of
  `ssrunder`, and `Classical_Prop.classic`, since the libraries loaded contain them; no theorem of MANIFEST.json depends on
  `classic`.
* Simplifications that hold throughout: integers do not overflow (except in the model of C53), `double` and `float` are exact rationals (in C48 real numbers; so no NaN,
  infinity or rounding of floating-point operations; conversions to integers round as in the code), memory allocation does
  not fail, logging is left out. A loop that does not end and undefined behaviour (reads out of bounds, division by zero)
  are explicit results.
* Choices that the code leaves open (order of hash tables, unstable sorts, schedules of threads, answers of the geometry
  library) are universally quantified arguments of the model.

## What is not modelled

The geometry library (Clipper boolean operations and offsets), Voronoi-based wall generation (Arachne skeleton), infill
patterns other than straight lines, zigzag and the lightning trees, support and tree support generation, bridge detection, combing other than the path finding of C71 (which boundaries are combed, moving inside, crossing between parts), the number syntax and UV coordinates of mesh files, the
Cap'n Proto/protobuf communication, plugins, and floating-point rounding. Within the modelled areas the notes above and the
comments at each definition name what is left out.
