{"id": "C01", "title": "Placing a point and un-placing it is the identity", "statement": "Transforming any point by a placement (offset plus one of the eight DEF orientations) and then by the placement's revert() yields the original point; the orientation part of every placement preserves distances and never merges two points.", "quantifier": "every point, every offset, all eight orientations", "why_tests_cant": "the coordinate space is unbounded and every orientation has its own hand-written case; a sample hits a handful of points of one or two cases", "anchors": ["src/db/infra/frPoint.cpp:frPoint::transform", "src/db/infra/frTransform.h:frTransform::revert"]}
{"id": "C02", "title": "Boxes stay normalised and transform exactly as point sets", "statement": "A box built from any two corners is normalised (lower-left <= upper-right) and covers both corners; transforming a box gives a normalised box that contains exactly the images of the points of the original box, with the same width and length.", "quantifier": "every pair of corner points, every placement, every point of the plane", "why_tests_cant": "point-set equality quantifies over infinitely many points", "anchors": ["src/db/infra/frBox.h:frBox::set", "src/db/infra/frBox.cpp:frBox::transform", "src/db/infra/frBox.h:width/length"]}
{"id": "C03", "title": "Box overlap, containment and distance tests are geometrically exact", "statement": "contains(box/point) with edges is point-set inclusion, overlaps with edges is 'some point is shared', overlaps without edges is 'the open interiors share a (half-integral) point'; the squared box distance is the minimum squared distance over all pairs of points and is 0 exactly when the boxes touch.", "quantifier": "every pair of boxes and every point", "why_tests_cant": "set-level specification; off-by-one or swapped-edge bugs only show for touching, nested or degenerate boxes", "anchors": ["src/db/infra/frBox.h:contains,overlaps", "src/dr/FlexDR_maze.cpp:box2boxDistSquare,pt2boxDistSquare"]}
{"id": "C04", "title": "A placed cell has its lower-left corner at the placement location", "statement": "For a cell whose box starts at the origin, the placed bounding box of an instance starts exactly at the DEF placement location for each of the eight orientations, and its dimensions are the cell dimensions (swapped for the 90-degree orientations).", "quantifier": "every cell size, every location, all eight orientations (and: which cells with a non-zero box origin keep the law)", "why_tests_cant": "eight cases times unbounded sizes; a wrong correction term only shows for asymmetric cells in one orientation", "anchors": ["src/db/obj/frInst.cpp:frInst::getBBox,getUpdatedXform", "src/db/infra/frTransform.h:updateXform"]}
{"id": "C05", "title": "Orientation names round-trip", "statement": "Reading the LEF/DEF name printed for an orientation gives the orientation back, printed names are pairwise different, and an unknown name reads as R0.", "quantifier": "all eight orientations and every string", "why_tests_cant": "the domain of names is all strings", "anchors": ["src/db/infra/frOrient.h:frOrient::set,getName"]}
{"id": "C06", "title": "Ordering of points, boxes and search keys is a strict total order", "statement": "The comparison operators used as keys of ordered sets and maps (points, boxes, maze positions) are irreflexive, transitive and total, so two keys are identified exactly when they are equal.", "quantifier": "every pair and triple of keys", "why_tests_cant": "order axioms quantify over all triples; a violation silently loses routing shapes stored in ordered containers", "anchors": ["src/db/infra/frPoint.h:operator<", "src/db/infra/frBox.cpp:operator<", "src/dr/FlexMazeTypes.h:operator<"]}
{"id": "C07", "title": "Global cells tile the die", "statement": "For every point of the die the global-cell index returned for it is in range and the box of that cell contains the point; boxes of distinct cells have disjoint interiors; the union of all boxes is the whole die.", "quantifier": "every die, every uniform gcell grid whose first and last lines are inside the die, every point", "why_tests_cant": "boundary rows are special-cased, so random interior points never meet the failing cases", "anchors": ["src/db/obj/frBlock.h:getGCellIdx,getGCellBox"]}
{"id": "C08", "title": "The centre of a global cell maps back to that cell", "statement": "Taking the centre point of the global cell with a given in-range index and asking for the index of that point returns the same index, for every die with non-negative coordinates and for every die whose cells are at least two units wide.", "quantifier": "every uniform gcell grid with positive spacing and every in-range index", "why_tests_cant": "guides are stored by centre point and read back by index; the property must hold for each of millions of cells, including the stretched boundary cells", "anchors": ["src/db/obj/frBlock.h:getGCellCenter,getGCellIdx"]}
{"id": "C09", "title": "Spacing tables return the row/column prescribed by LEF", "statement": "A table lookup returns the entry of the last row (column) whose header is strictly less than the query value (the first if none), is monotone in the query when the table is, never exceeds the table maximum nor undercuts the minimum.", "quantifier": "every table with increasing headers and every query value", "why_tests_cant": "tables and queries are unbounded; the header-equality boundary is where the semantics differ", "anchors": ["src/db/tech/frLookupTbl.h:fr1DLookupTbl::find,fr2DLookupTbl::find,findMin,findMax"]}
{"id": "C10", "title": "Forbidden-length queries answer membership in the stored ranges", "statement": "A length is reported forbidden exactly when it lies in one of the closed intervals stored for that combination of via/turn/direction flags, and distinct combinations never share a table slot.", "quantifier": "every interval list, every length, every flag combination", "why_tests_cant": "slot packing must be collision free for all flag combinations and the interval test exact at both ends", "anchors": ["src/db/tech/frTechObject.h:isIncluded,getTableEntryIdx,isVia2ViaForbiddenLen"]}
{"id": "C11", "title": "Distinct routing grid points occupy distinct storage cells", "statement": "For every grid size the storage index of an in-range grid point is in range of the storage array, and two in-range grid points share an index only if they are the same point, whatever mix of horizontal and vertical layers is used.", "quantifier": "every grid size, every layer-direction map, every pair of grid points", "why_tests_cant": "aliasing would corrupt an unrelated routing location; collisions are size dependent", "anchors": ["src/dr/FlexGridGraph.h:getIdx"]}
{"id": "C12", "title": "Writing one attribute of a grid point changes no other attribute", "statement": "Setting, clearing, incrementing or decrementing one packed attribute (edge, blockage, grid cost, DRC, shape or marker counter, guide/source/destination flag) of one grid point leaves every other attribute of that point and every attribute of all other points unchanged.", "quantifier": "every sequence of attribute updates on every grid", "why_tests_cant": "attributes share one 64-bit word; isolation must hold for all words, fields and histories", "anchors": ["src/dr/FlexGridGraph.h:setBit,resetBit,setBits,addToBits,subToBits,bits layout"]}
{"id": "C13", "title": "Edges are the same seen from both ends", "statement": "After any history of edge, blockage and cost updates, asking about the edge from a grid point in a direction gives the same answer as asking from the neighbouring grid point in the opposite direction.", "quantifier": "every history of updates, every grid point and direction", "why_tests_cant": "the update may be issued from either end; the invariant is over histories", "anchors": ["src/dr/FlexGridGraph.h:hasEdge,addEdge,removeEdge,correct,reverse,setBlocked"]}
{"id": "C14", "title": "Rip-up restores the cost map", "statement": "Adding the cost contribution of a set of shapes and later removing it leaves every DRC and shape counter as before, for any interleaving with other additions and removals, as long as no counter reaches its 8-bit limit or zero floor.", "quantifier": "every multiset of shapes, every interleaving of additions and removals", "why_tests_cant": "depends on history; the counters are saturating bit fields", "anchors": ["src/dr/FlexGridGraph.h:addDRCCostPlanar,subDRCCostPlanar,addShapeCostPlanar", "src/dr/FlexDR_maze.cpp:addPathCost,subPathCost"]}
{"id": "C15", "title": "Cost counters saturate instead of wrapping", "statement": "Increasing a saturating cost counter never makes it smaller.", "quantifier": "every counter value and every increment", "why_tests_cant": "needs the boundary value 255 to be hit; the code comments claim saturation", "anchors": ["src/dr/FlexGridGraph.h:addToBits"]}
{"id": "C16", "title": "Routing grid coordinates and indices are inverse", "statement": "For every grid whose coordinate lists are strictly increasing, looking up the index of the coordinate of an index returns the index, looking up the coordinate of the index of a grid coordinate returns the coordinate, and the index box computed for a rectangle contains exactly the grid lines inside it.", "quantifier": "every strictly increasing coordinate list, every index, coordinate and rectangle", "why_tests_cant": "binary search correctness for all lists and all probes, including probes between and outside the grid lines", "anchors": ["src/dr/FlexGridGraph.h:getMazeXIdx,getMazeYIdx,getIdxBox,getPoint"]}
{"id": "C17", "title": "A path returned by the maze search is a real route", "statement": "When the search reports success, consecutive points of the returned path are joined by straight runs of existing grid edges, the path starts at the destination grid point and ends at a point of the already connected component, and no intermediate point is another source point.", "quantifier": "every grid, edge set, cost assignment, tie-breaking order, source set and destination", "why_tests_cant": "the search keeps only a bounded direction history per wavefront entry and commits it late, so validity is a global invariant of all executions", "anchors": ["src/dr/FlexGridGraph_maze.cpp:search,expand,expandWavefront,traceBackPath", "src/dr/FlexWavefront.h"]}
{"id": "C18", "title": "The maze search always terminates", "statement": "For every finite grid the search stops after finitely many steps: with success, or with an empty wavefront.", "quantifier": "every finite grid, edge set, cost function (even inconsistent or negative estimates) and source set", "why_tests_cant": "non-termination cannot be observed by a test; entries can be re-inserted for the same grid point", "anchors": ["src/dr/FlexGridGraph_maze.cpp:search,expandWavefront"]}
{"id": "C19", "title": "The maze search fails only if there is no route", "statement": "If the wavefront becomes empty, no destination grid point is reachable from the connected component along existing edges through non-source grid points.", "quantifier": "every finite grid, edge set, cost function, source and destination set", "why_tests_cant": "the search drops entries whose late commit conflicts with an earlier one; that this never loses the last route needs a proof over all interleavings", "anchors": ["src/dr/FlexGridGraph_maze.cpp:search,expandWavefront,isExpandable"]}
{"id": "C20", "title": "Traceback always reaches the connected component", "statement": "Following the stored back-pointers from a found destination always terminates at a source grid point and never runs out of the grid or meets an unset pointer.", "quantifier": "every state of the search reachable from any start configuration", "why_tests_cant": "the code loops until a source is met without any bound or check", "anchors": ["src/dr/FlexGridGraph_maze.cpp:traceBackPath"]}
{"id": "C21", "title": "The reported path box and bend list describe the path", "statement": "The path is reported as its end points and bends only; the box updated along with it covers every grid point of the path and is the smallest such box extending the previous one.", "quantifier": "every grid and every successful search", "why_tests_cant": "later routing steps restrict themselves to the box", "anchors": ["src/dr/FlexGridGraph_maze.cpp:traceBackPath", "src/dr/FlexGridGraph_maze.cpp:search"]}
{"id": "C22", "title": "A net reported routed is electrically connected", "statement": "When routing a net reports success, the wires and vias written for the net connect at least one access point of every pin of the net into one connected component.", "quantifier": "every net, pin set, access-point set, grid and search outcome sequence", "why_tests_cant": "composition of source/destination flag bookkeeping with search over any number of pins", "anchors": ["src/dr/FlexDR_maze.cpp:routeNet,routeNet_prep,routeNet_setSrc,routeNet_getNextDst,routeNet_postAstarUpdate"]}
{"id": "C23", "title": "Routing a net takes one search per pin at most", "statement": "The pin-connection loop terminates: every successful search connects at least one new pin, so at most (number of pins - 1) searches are made.", "quantifier": "every net and every sequence of successful searches", "why_tests_cant": "the loop is bounded only by this argument", "anchors": ["src/dr/FlexDR_maze.cpp:routeNet,routeNet_postAstarUpdate"]}
{"id": "C24", "title": "Wires and vias written for a path cover exactly the path", "statement": "The segments and vias generated for a returned path cover every unit step of the path, cover nothing else, every segment is normalised (begin before end) and lies on one layer, and every layer step gets exactly one via on the right cut layer.", "quantifier": "every bend-list path", "why_tests_cant": "paths of any length and shape", "anchors": ["src/dr/FlexDR_maze.cpp:routeNet_postAstarWritePath"]}
{"id": "C25", "title": "The final connectivity check accepts exactly connected nets", "statement": "For a net with at least two pins that a truncated wire end or a via touches, the checker reports success if and only if all these pins are connected through the net's wires and vias, where two objects connect at an end of some object lying on both.", "quantifier": "every net with any number of shapes and pins, any connection topology", "why_tests_cant": "graph property over unbounded graphs", "anchors": ["src/dr/FlexDR_conn.cpp:checkConnectivity_astar"]}
{"id": "C26", "title": "Clean-up keeps the net connected", "statement": "After the clean-up of a net that passed the check (objects not needed deleted, wires split at pins and shrunk) all touched pins are still joined through the remaining wires and vias; the clean-up adds no metal and no via.", "quantifier": "every connected net", "why_tests_cant": "a missed object would open a net after it was verified", "anchors": ["src/dr/FlexDR_conn.cpp:checkConnectivity_astar,checkConnectivity_final"]}
{"id": "C27", "title": "Clean-up keeps no dangling object", "statement": "Every end of every wire that remains after the clean-up is at a pin or on another remaining object, and an object is kept only if it meets kept neighbours at two different places.", "quantifier": "every connected net", "why_tests_cant": "depends on the minimality of the found tree for every graph", "anchors": ["src/dr/FlexDR_conn.cpp:checkConnectivity_astar,checkConnectivity_final"]}
{"id": "C28", "title": "Nets with a single pin pass the connectivity check", "statement": "A net with exactly one pin is trivially connected and must not be reported as broken.", "quantifier": "every net with one pin", "why_tests_cant": "corner case of the search loop bounds", "anchors": ["src/dr/FlexDR_conn.cpp:checkConnectivity_astar", "src/io/io_guide.cpp:genGuides_astar"]}
{"id": "C29", "title": "Overlapping wires are merged without changing the covered metal", "statement": "Merging overlapping collinear wire segments of a net on one track leaves the set of covered points unchanged, leaves no two segments overlapping in more than a point, never produces more segments than it consumes and touches only segments that overlapped another one.", "quantifier": "every multiset of segments on a track", "why_tests_cant": "interval lists of any length and nesting", "anchors": ["src/dr/FlexDR_conn.cpp:checkConnectivity_merge1,merge_perform,merge_commit"]}
{"id": "C30", "title": "Connected-component labels are right", "statement": "When the existing routing of a net inside a clip is split into sub-nets, two routing objects get the same sub-net exactly when they are connected through shared end points, and every object gets a label.", "quantifier": "every set of routing objects and every connection topology", "why_tests_cant": "graph property over unbounded graphs", "anchors": ["src/dr/FlexDR_init.cpp:initNets_searchRepair_connComp"]}
{"id": "C31", "title": "Wire crossing points become connection points", "statement": "After overlapping wires are merged, two objects are seen as connected at a location exactly when both lie on it and some object ends there; in particular a wire end or via inside another wire of the layer connects to it.", "quantifier": "every set of wires on a track and every split point", "why_tests_cant": "sorted-map based search considers one candidate wire only", "anchors": ["src/dr/FlexDR_conn.cpp:checkConnectivity_pin2epMap,nodeMap_routeObjSplit"]}
{"id": "C32", "title": "Clipping a wire to a routing clip loses nothing", "statement": "When a wire is loaded into a clip it is split into pieces whose union is exactly the wire; pieces inside the clip are marked routable, pieces outside fixed, and no piece crosses the clip boundary.", "quantifier": "every axis-parallel wire of positive length and every clip box", "why_tests_cant": "boundary coincidences (wire ends on the clip edge, wire along the edge)", "anchors": ["src/dr/FlexDR_init.cpp:initNetObjs_pathSeg"]}
{"id": "C33", "title": "Write-back changes nothing outside the clip", "statement": "Removing the old routing of a net before writing back a clip keeps exactly the part of every wire outside the clip and every via and patch outside it; wires that do not cross the clip are kept unchanged.", "quantifier": "every wire of positive length, via, patch and clip box, and every net of a design", "why_tests_cant": "frame property over all geometric configurations, including wires along the clip edge", "anchors": ["src/dr/FlexDR_end.cpp:endRemoveNets_pathSeg,endRemoveNets_via,endRemoveNets_patchWire"]}
{"id": "C34", "title": "An unchanged clip is written back unchanged", "statement": "Loading a wire into a clip and writing the loaded routable pieces back reproduces a set of wires covering exactly the original metal.", "quantifier": "every wire and clip box", "why_tests_cant": "composition of two independently written case analyses", "anchors": ["src/dr/FlexDR_init.cpp:initNetObjs_pathSeg", "src/dr/FlexDR_end.cpp:endRemoveNets_pathSeg,endAddNets_pathSeg"]}
{"id": "C35", "title": "Search-and-repair never keeps a worse clip", "statement": "In conservative rip-up mode a clip is written back only if it has no more violations than before; within a clip the best routing seen so far is the one written.", "quantifier": "every sequence of intermediate violation counts", "why_tests_cant": "depends on the whole history of rip-up rounds inside the clip", "anchors": ["src/dr/FlexDR_end.cpp:FlexDRWorker::end", "src/dr/FlexDR_maze.cpp:route"]}
{"id": "C36", "title": "Joining wires at a clip boundary preserves metal and connectivity", "statement": "Where exactly two collinear wires meet end-to-end at a clip boundary point they are replaced by one wire covering exactly both; otherwise nothing changes.", "quantifier": "every pair of wires meeting at a boundary point", "why_tests_cant": "end-style and ordering corner cases", "anchors": ["src/dr/FlexDR_end.cpp:endAddNets_merge"]}
{"id": "C37", "title": "Every clip of the die is processed exactly once per iteration", "statement": "In one search-and-repair pass every global cell belongs to exactly one clip and every clip is scheduled in exactly one batch.", "quantifier": "every gcell grid size, clip size and offset between 1 - clip size and 0 (all passes detailed routing runs)", "why_tests_cant": "divisibility and offset corner cases for all grid sizes", "anchors": ["src/dr/FlexDR.cpp:searchRepair,getBatchInfo"]}
{"id": "C38", "title": "Clips processed in parallel never overlap", "statement": "Two different clips in the same parallel batch are separated by at least one full clip in x or in y, so the areas they may modify are disjoint.", "quantifier": "every grid size, clip size, offset and pair of clips", "why_tests_cant": "data-race freedom for all schedules rests on it", "anchors": ["src/dr/FlexDR.cpp:searchRepair,getBatchInfo", "src/global.cpp:MTSAFEDIST"]}
{"id": "C39", "title": "The result of a pass does not depend on the thread schedule", "statement": "Because workers of one batch only read the design while routing and write in a fixed sequential order, every interleaving of the parallel phase gives the same design.", "quantifier": "every interleaving of any number of workers", "why_tests_cant": "schedules cannot be enumerated", "anchors": ["src/dr/FlexDR.cpp:searchRepair", "src/dr/FlexDR.cpp:FlexDRWorker::main_mt"]}
{"id": "C40", "title": "Exactly the tracks inside a region are used", "statement": "The track coordinates computed for a region are exactly the coordinates of the track pattern that lie in the region, in increasing order and without duplicates.", "quantifier": "every track pattern (start, count, step) and every region, including regions left of the pattern", "why_tests_cant": "C integer division truncates toward zero; negative quotients need care for all values", "anchors": ["src/ta/FlexTA_init.cpp:initTracks", "src/dr/FlexDR_init.cpp:getTrackLocs,initTrackCoords"]}
{"id": "C41", "title": "Routing guides mark exactly their own cells", "statement": "After loading the guides of a net exactly the grid points inside the guide rectangles on their layers are flagged as guided; clearing them afterwards restores the previous flags.", "quantifier": "every set of guide rectangles", "why_tests_cant": "row-wise bit writes over unbounded rectangles", "anchors": ["src/dr/FlexGridGraph.h:setGuide,resetGuide", "src/dr/FlexDR_init.cpp:initMazeCost_guide_helper"]}
{"id": "C42", "title": "Guide merging preserves coverage per track", "statement": "Converting guide rectangles into per-track gcell intervals and merging touching or overlapping ones covers exactly the gcells the rectangles overlap and leaves disjoint, non-adjacent intervals; the only gcells added are those of the bridges between touching parallel guides that nothing else joins.", "quantifier": "every list of guide rectangles", "why_tests_cant": "interval lists of any length", "anchors": ["src/io/io_guide.cpp:genGuides_merge"]}
{"id": "C43", "title": "Guide processing keeps the pins connected", "statement": "If the guide search reports success, the kept guides connect all the pins of the net; if all pins are connected through the guides, it reports success.", "quantifier": "every guide graph", "why_tests_cant": "graph property over unbounded graphs", "anchors": ["src/io/io_guide.cpp:genGuides_astar"]}
{"id": "C44", "title": "Track assignment picks an allowed track, and a clean one if there is one", "statement": "When the gcell of a guide contains a track of its layer, the track chosen lies in the gcell; when violations are being repaired and some candidate track is violation free, the chosen track is violation free, otherwise the chosen one has the least violation cost of all candidates.", "quantifier": "every candidate range, cost function and search-order hint", "why_tests_cant": "three different visiting orders with early exit; all cost functions", "anchors": ["src/ta/FlexTA_assign.cpp:assignIroute_bestTrack,assignIroute_bestTrack_helper"]}
{"id": "C45", "title": "The recorded violation cost is the cost of the chosen track", "statement": "After a guide is assigned to a track, the cost stored for it (which decides whether it is repaired later) is the violation cost of the chosen track.", "quantifier": "every candidate range and cost function", "why_tests_cant": "needs a cost profile where the best track is not the last visited", "anchors": ["src/ta/FlexTA_assign.cpp:assignIroute_bestTrack"]}
{"id": "C46", "title": "Track assignment terminates", "statement": "The re-assignment loop ends for every design: each guide is assigned at most a fixed number of times.", "quantifier": "every set of guides and every interaction between their costs", "why_tests_cant": "two guides may push each other around; termination is a property of all executions", "anchors": ["src/ta/FlexTA_assign.cpp:assign,assignIroute_updateOthers"]}
{"id": "C47", "title": "Spacing costs are charged where a wire would violate spacing", "statement": "For a shape and a neighbouring track, the charged interval on the track is exactly the set of positions where a default wire would be closer than the required spacing.", "quantifier": "every shape, track list and spacing value", "why_tests_cant": "accumulating geometry in a loop over tracks", "anchors": ["src/ta/FlexTA_assign.cpp:modMinSpacingCostPlanar"]}
{"id": "C48", "title": "Pin access patterns are optimal", "statement": "Among all choices of one access point per pin, the pattern chosen by the dynamic program has the least total cost, for fixed pairwise costs.", "quantifier": "every number of pins and access points, every cost function", "why_tests_cant": "exponentially many patterns", "anchors": ["src/pa/FlexPA_prep.cpp:genPatterns_perform,genPatterns_commit,genInstPattern_perform"]}
{"id": "C49", "title": "Dynamic-program tables never alias", "statement": "Distinct (pin, access point) pairs and distinct (pin, access point, next access point) edges occupy distinct in-range table entries, and the stored index decodes to the same pair.", "quantifier": "every number of pins and access points", "why_tests_cant": "index packing for all sizes", "anchors": ["src/pa/FlexPA_prep.cpp:getFlatIdx,getNestedIdx,getFlatEdgeIdx"]}
{"id": "C50", "title": "Pairwise access-point conflicts are judged the same way every time", "statement": "The cost charged for a pair of neighbouring access points does not depend on how often it was looked up before.", "quantifier": "every sequence of lookups", "why_tests_cant": "cached verdicts differ from fresh ones only in later rounds", "anchors": ["src/pa/FlexPA_prep.cpp:getEdgeCost"]}
{"id": "C51", "title": "Spacing checks look far enough", "statement": "Every pair of shapes of different nets closer than the spacing required for their widths and parallel run length is found by the neighbourhood query of either shape.", "quantifier": "every pair of rectangles and every spacing table", "why_tests_cant": "depends on the relation between the search window and all table entries", "anchors": ["src/gc/FlexGC_main.cpp:checkMetalSpacing_main,checkMetalSpacing_getMaxSpcVal,checkMetalSpacing_prl_getReqSpcVal"]}
{"id": "C52", "title": "Parallel run length and distance of two shapes are symmetric and exact", "statement": "The run length and distances computed for two rectangles do not depend on their order; the pair is treated as a short exactly when they touch, and otherwise the squared distance is the Euclidean one.", "quantifier": "every pair of rectangles", "why_tests_cant": "sign conventions for overlapping, diagonal and touching configurations", "anchors": ["src/gc/FlexGC_main.cpp:checkMetalSpacing_main"]}
{"id": "C53", "title": "The global-cell grid is inferred from the guides", "statement": "The pitch used for the global-cell grid is a most frequent guide width; the grid lines are aligned with a most frequent guide offset, start at most one pitch left of the die and give at least one cell, so the grid meets the preconditions of the tiling laws. Guides left of or below the origin are the exception.", "quantifier": "every multiset of guide widths and guide edges, every die at least one pitch wide with non-negative coordinates", "why_tests_cant": "ranges over all guide files; the sign and rounding errors only show for particular die positions", "anchors": ["src/io/io_parser_helper.cpp:buildGCellPatterns,buildGCellPatterns_getWidth,buildGCellPatterns_getOffset"]}
{"id": "C54", "title": "A routed net has no loop and no wire laid twice", "statement": "When routing a net of two or more pins succeeds, the wires and vias created form a tree: every two points they touch are connected, no unit piece is covered twice, and there is exactly one unit piece less than there are touched points.", "quantifier": "every routing grid, every set of pins, every cost function and queue order of the searches", "why_tests_cant": "a loop only arises from an interaction of a later search with the wires of earlier ones", "anchors": ["src/dr/FlexDR_maze.cpp:routeNet,routeNet_postAstarUpdate,routeNet_postAstarWritePath"]}
{"id": "C55", "title": "An unrouted pin is noticed by the connectivity check", "statement": "A net that passes the connectivity check has all its pins connected, also those that no wire or via reaches.", "quantifier": "every net, including nets with pins left unrouted", "why_tests_cant": "the check only sees pins found at wire ends, so a pin missed entirely is never tested", "anchors": ["src/dr/FlexDR_conn.cpp:checkConnectivity_pin2epMap,checkConnectivity_astar"]}
{"id": "C56", "title": "The clean-up leaves no wire of length zero", "statement": "Every wire that remains after the clean-up of a net is axis-parallel, runs from lower left to upper right and has positive length.", "quantifier": "every net that passes the connectivity check", "why_tests_cant": "needs a particular combination of a pin inside a wire and a removed stub", "anchors": ["src/dr/FlexDR_conn.cpp:checkConnectivity_final"]}
{"id": "C57", "title": "Access patterns recorded for a cell are complete, clean and distinct", "statement": "Pattern generation always finishes; every pattern it records picks exactly one existing access point for every pin, has been accepted by the design-rule checker as a whole, differs from every other recorded pattern, and at most five are recorded, so the row optimiser's table is large enough.", "quantifier": "every set of pins with at least one access point each, every behaviour of the design-rule checker", "why_tests_cant": "depends on what several rounds with growing penalty sets pick", "anchors": ["src/pa/FlexPA_prep.cpp:genPatterns,genPatterns_commit"]}
{"id": "C58", "title": "Via spacing costs are charged exactly where a via would violate spacing", "statement": "For a shape and the default via on a neighbouring layer, the positions charged on every track are exactly those where the via would be closer to the shape than the spacing required for their longest possible parallel run.", "quantifier": "every shape, via, track list and spacing rule that does not decrease with the run length", "why_tests_cant": "an off-by-one at the exact spacing distance only shows for particular distances (Pythagorean ones)", "anchors": ["src/ta/FlexTA_assign.cpp:modMinSpacingCostVia"]}
{"id": "C59", "title": "A guide without a track is reported", "statement": "If no track of the layer lies in the gcell of a guide, track assignment stops with an error instead of placing the guide elsewhere.", "quantifier": "every track list, gcell and search-order hint", "why_tests_cant": "needs a gcell narrower than the track pitch", "anchors": ["src/ta/FlexTA_assign.cpp:assignIroute_bestTrack,assignIroute_availTracks"]}
{"id": "C60", "title": "Ripping up a guide restores the cost map", "statement": "Removing a guide takes exactly the costs it added out of the cost map, also when other guides added equal costs in between.", "quantifier": "every set of charges and every history in between", "why_tests_cant": "multisets of coinciding charges", "anchors": ["src/ta/FlexTA_rq.cpp:addCost,removeCost", "src/ta/FlexTA_assign.cpp:addCost,subCost"]}
{"id": "C61", "title": "The first track assignment gives every guide a track exactly once", "statement": "In the first iteration every guide of a panel is assigned exactly once, in whatever order the costs put them.", "quantifier": "every set of guides and every cost", "why_tests_cant": "the loop skips recently assigned guides; no test covers every order", "anchors": ["src/ta/FlexTA_assign.cpp:assign", "src/ta/FlexTA_init.cpp:sortIroutes"]}
{"id": "C62", "title": "A repair iteration of track assignment leaves no violating guide untried", "statement": "When a repair iteration ends, every guide whose recorded violation cost is not zero has been re-assigned in that iteration, and none was re-assigned twice.", "quantifier": "every set of guides and every interaction of their costs", "why_tests_cant": "guides enter and leave the work list as others move", "anchors": ["src/ta/FlexTA_assign.cpp:assign,assignIroute_updateOthers"]}
{"id": "C63", "title": "Same-net spacing violations are found", "statement": "Two routed shapes of the same net closer than the layer's same-net spacing are reported.", "quantifier": "every pair of shapes of a net, every same-net rule and spacing table", "why_tests_cant": "the search window is computed from another rule than the one that decides", "anchors": ["src/gc/FlexGC_main.cpp:checkMetalSpacing_main,checkMetalSpacing_getMaxSpcVal,checkMetalSpacing_prl_getReqSpcVal"]}
{"id": "C64", "title": "Every close pair of separate wires is reported", "statement": "If two separate rectangles of metal of different nets, at least one of them routed, do not touch and are closer than the spacing the layer's rule requires for their widths and run length, the check reports a spacing violation between the two nets at the gap between them.", "quantifier": "every set of shapes on the layer, every spacing table, every processing order", "why_tests_cant": "the report passes four filters (window, distance, outline, routed metal) that must all let it through for every relative position", "anchors": ["src/gc/FlexGC_main.cpp:checkMetalSpacing,checkMetalSpacing_main,checkMetalSpacing_prl,checkMetalSpacing_prl_hasPolyEdge", "src/gc/FlexGC.cpp:addMarker", "src/io/io.cpp"]}
{"id": "C65", "title": "No false spacing or short alarm", "statement": "Every reported short is a pair of touching shapes of different nets, every reported spacing violation a pair that does not touch and is closer than required, never both fixed, and the reported place is their common part or gap.", "quantifier": "every set of shapes and every rule", "why_tests_cant": "absence of false reports over all layouts", "anchors": ["src/gc/FlexGC_main.cpp:checkMetalSpacing,checkMetalSpacing_main,checkMetalSpacing_prl,checkMetalSpacing_short"]}
{"id": "C66", "title": "Every short with routed metal is reported", "statement": "Touching or overlapping shapes of different nets, one of them routed metal, are reported as a short unless one is an obstruction and the common part lies inside a pin of the other net.", "quantifier": "every pair of rectangles, also when they only share an edge or a corner", "why_tests_cant": "degenerate overlaps (edge, corner) for all positions", "anchors": ["src/gc/FlexGC_main.cpp:checkMetalSpacing_short,checkMetalSpacing_short_skipOBSPin"]}
{"id": "C67", "title": "Each violation is listed once and none is lost", "statement": "The list of violations never holds two entries for the same place, layer, rule and pair of nets in either order, and an entry is withheld only if an equal one is listed.", "quantifier": "every sequence of reports", "why_tests_cant": "pairs are visited from both sides in an order that depends on the layout", "anchors": ["src/gc/FlexGC.cpp:addMarker"]}
{"id": "C68", "title": "Two-width spacing tables select the prescribed row", "statement": "A lookup in a two-width spacing table uses for each wire the last row whose width and run length are both exceeded.", "quantifier": "every sorted two-width table, widths and run length", "why_tests_cant": "the comparison used by the search is not an order", "anchors": ["src/db/tech/frConstraint.h:frSpacingTableTwRowType,frSpacingTableTwConstraint", "src/db/tech/frLookupTbl.h"]}
{"id": "C69", "title": "Layers with a two-width table are checked for spacing", "statement": "On a layer whose spacing is given by a two-width table, shapes closer than the table requires are reported.", "quantifier": "every layout on such a layer", "why_tests_cant": "requires knowledge of every rule kind the reader can produce", "anchors": ["src/gc/FlexGC_main.cpp:checkMetalSpacing_prl_getReqSpcVal", "src/io/io.cpp"]}
{"id": "C70", "title": "The routing grid of a clip has exactly the edges tracks and rules allow", "statement": "A wire edge exists between neighbouring grid points exactly when both lie in the route box, the layer is in the routing range, and the line carries a track of the layer (a track of the design if the layer is restricted to them) or wrong-way tracks are enabled; a via edge exists exactly when a track of the lower layer crosses one of the layer above.", "quantifier": "every technology, track pattern, box and set of existing shapes", "why_tests_cant": "the grid mixes tracks of the design with coordinates of existing shapes; all combinations matter", "anchors": ["src/dr/FlexGridGraph.cpp:initTracks,initGrids,initEdges", "src/dr/FlexDR_init.cpp:initTrackCoords,initGridGraph"]}
{"id": "C71", "title": "Off-track and wrong-way edges are charged, others are not", "statement": "An existing edge carries the grid cost exactly when it is not on a track of the design (for a via: on either layer) or runs across its layer.", "quantifier": "every grid the construction can produce", "why_tests_cant": "same combinations as the edge set", "anchors": ["src/dr/FlexGridGraph.cpp:initEdges"]}
{"id": "C72", "title": "Existing routing can be represented on the grid", "statement": "Wire ends (clipped to the extended box), vias and access points are grid points; a wire along its layer keeps all grid edges on its line inside the route box, and a via or access point keeps its via edge, even when off all tracks.", "quantifier": "every set of existing wires, vias and access points on unrestricted layers of the routing range", "why_tests_cant": "needs all positions relative to tracks and box sides", "anchors": ["src/dr/FlexDR_init.cpp:initTrackCoords_route,initTrackCoords_pin,initMazeIdx_connFig", "src/dr/FlexGridGraph.cpp:initEdges"]}
{"id": "C73", "title": "Track-assignment panels tile the die and each runs once", "statement": "The horizontal panels cover the die without overlapping, so do the vertical ones, and in a pass every panel is run exactly once in groups of at most eight.", "quantifier": "every gcell grid, panel size and admissible offset", "why_tests_cant": "divisibility and clamping corner cases for all grid sizes", "anchors": ["src/ta/FlexTA.cpp:initTA_helper"]}
{"id": "C74", "title": "Track assignment does not depend on the number of threads", "statement": "Running with one thread and running with several threads assign the same tracks.", "quantifier": "every set of panels and thread count", "why_tests_cant": "with one thread a panel sees the results of the panels before it, with several it does not", "anchors": ["src/ta/FlexTA.cpp:initTA_helper"]}
{"id": "C75", "title": "All parts of a re-routed net are written back", "statement": "If any part of a net in a clip was re-routed, the clip's routing of all parts of that net is in the design after the write-back.", "quantifier": "every set of sub-nets, every routing and every clip box", "why_tests_cant": "a part dropped by the write-back shows only for particular combinations of changed and unchanged parts", "anchors": ["src/dr/FlexDR_end.cpp:endGetModNets,endRemoveNets,endAddNets"]}
{"id": "C76", "title": "Touching parallel guides are bridged", "statement": "Where two parallel guides of a layer touch side by side, after guide processing a guide on a neighbouring routing layer covers the gcells of both somewhere on the stretch they share; adding bridges never stops the program if there are at least two routing layers.", "quantifier": "every list of guide rectangles and gcell grid", "why_tests_cant": "all overlap patterns of intervals on adjacent tracks", "anchors": ["src/io/io_guide.cpp:genGuides_merge"]}
{"id": "C77", "title": "Guides that connect the pins are accepted", "statement": "If the guide rectangles of a net connect all its pins (through neighbouring gcells of a layer above the access layer, and up and down between layers) and no guide is isolated from every pin and other guide, guide processing ends normally.", "quantifier": "every net, guide set, gcell grid, order of equal-cost candidates and pin order", "why_tests_cant": "end-to-end connectivity through interval merging, cutting, graph search and trimming", "anchors": ["src/io/io_guide.cpp:genGuides,genGuides_merge,genGuides_split,genGuides_buildNodeMap,genGuides_astar,genGuides_final"]}
{"id": "C78", "title": "The guides written for a net connect its pins", "statement": "When guide processing ends normally, the guides stored in the net run over guided gcells only, are all connected to the first pin, reach every pin at one of the pin's own gcells, and no guide longer than a gcell has a loose end.", "quantifier": "every net, guide set, gcell grid, order of equal-cost candidates and pin order", "why_tests_cant": "trimming dangling ends could cut a connection for some topology", "anchors": ["src/io/io_guide.cpp:genGuides,genGuides_split,genGuides_final"]}
{"id": "C79", "title": "Pin shapes are mapped to all gcells they touch", "statement": "For guide processing a pin belongs to every gcell that contains a point of one of its shapes, and to no gcell more than one database unit away from all of them; merely abutting gcells are left out diagonally and where the layer cannot be routed that way.", "quantifier": "every shape, gcell grid and layer direction", "why_tests_cant": "all alignments of shapes with gcell edges and the clamped grid border", "anchors": ["src/io/io_guide.cpp:genGuides_gCell2TermMap,genGuides_gCell2InstTermMap", "src/db/obj/frBlock.h:getGCellIdx,getGCellBox"]}
{"id": "C80", "title": "Pins do not join guides when feed-through is off", "statement": "With feed-through disallowed and guides that connect all pins, the guides written for a net are connected without passing through a pin.", "quantifier": "every net and guide set", "why_tests_cant": "depends on which pin happens to be first and where its shapes lie", "anchors": ["src/io/io_guide.cpp:genGuides_astar"]}
{"id": "C81", "title": "Splitting a net inside a clip loses nothing", "statement": "When the routing of a net inside a clip is split into sub-nets, every routing object goes to exactly one sub-net, for routing if it lies inside the clip and as fixed if it is a wire that reaches outside; the objects outside the clip go to the first sub-net; every pin of the net found at a truncated wire end or via inside the clip is in exactly one sub-net; no sub-net is empty unless the net has no object there.", "quantifier": "every set of non-overlapping axis-parallel wires, vias and patches, every clip, every pin geometry, every queue order", "why_tests_cant": "a partition property over unbounded object lists; a lost or doubled object shows only as a later open or short", "anchors": ["src/dr/FlexDR_init.cpp:initNets_searchRepair"]}
{"id": "C82", "title": "The rip-up and reroute loop of a clip ends", "statement": "Repairing a clip ends after finitely many steps whatever the router produces and whatever violations the checks report, and no part of a net is routed more often than the iteration limit given for the repair (at least once where everything is rerouted from scratch).", "quantifier": "every clip content, every behaviour of router and checker, every iteration order of pointer sets, every rip-up mode and limit", "why_tests_cant": "non-termination would need an adversarial sequence of violations; tests cannot enumerate them", "anchors": ["src/dr/FlexDR_maze.cpp:route_queue,route_queue_main", "src/dr/FlexDR_init.cpp:route_queue_init_queue,route_queue_update_queue,route_queue_update_from_marker"]}
{"id": "C83", "title": "Every violation found during repair is followed up", "statement": "For every violation that a clip repair starts from or finds on the way: if an aggressor can still be rerouted, every part of every such aggressor in the clip below its limit is rerouted afterwards and all other parties are checked again; if no aggressor can, the same holds with all parties that can be rerouted. When a clip is rerouted from scratch every net part is routed.", "quantifier": "every clip content, every behaviour of router and checker, every iteration order of pointer sets", "why_tests_cant": "a dropped queue entry leaves a violation in the result only for particular histories", "anchors": ["src/dr/FlexDR_maze.cpp:route_queue_main", "src/dr/FlexDR_init.cpp:route_queue_init_queue,route_queue_update_from_marker"]}
{"id": "C84", "title": "Nothing is rerouted without cause", "statement": "When a clip repair starts from violations, every rerouting of a net part answers a violation, given or found earlier in this repair, in which the net is a party that has to move, and it is the first rerouting of that part after that violation.", "quantifier": "every clip content, every behaviour of router and checker, every iteration order of pointer sets", "why_tests_cant": "redundant reroutes only show as changed results in particular histories", "anchors": ["src/dr/FlexDR_maze.cpp:route_queue_main", "src/dr/FlexDR_init.cpp:route_queue_init_queue,route_queue_update_from_marker"]}
{"id": "C85", "title": "The DEF written describes exactly the routing", "statement": "For every net whose wires have the default width of their layer and extended, truncated or explicit ends, the wiring printed in DEF, read by the rules of the DEF language, has one shape per wire, via and patch and covers exactly the points of exactly the layers the net's routing covers; loading wires into a clip and writing a clip back keeps wires of this kind.", "quantifier": "every net, every list of axis-parallel wires, vias and patches, every technology whose names can be looked up", "why_tests_cant": "equality of two infinite point sets for every routing; a wrong extension or a lost figure shows only for particular styles", "anchors": ["src/io/defw.cpp:netf", "src/io/io.cpp:fillConnFigs_net"]}
{"id": "C86", "title": "Reading a routed net gives the metal of the file", "statement": "Reading the wiring of a net from DEF gives wires and vias that cover exactly the points of exactly the layers that the file describes.", "quantifier": "every wiring with known layers and vias", "why_tests_cant": "the DEF language allows unboundedly many path forms", "anchors": ["src/io/io.cpp:getDefNets"]}
{"id": "C87", "title": "Writing DEF and reading it again gives the same routing", "statement": "Reading the DEF written for a net gives the same wires, vias and patches up to their order (an explicit extension of 0 becomes a truncated end).", "quantifier": "every net of default-width wires, vias and patches", "why_tests_cant": "a round trip over all routings", "anchors": ["src/io/defw.cpp:netf", "src/io/io.cpp:getDefNets,fillConnFigs_net"]}
{"id": "C88", "title": "Vias defined in DEF get the shapes the file gives", "statement": "A via made from a rule has the given number of rows and columns of cuts of the given size and spacing, centred at the given origin up to half a database unit, and two metal boxes that exceed the cuts by the given enclosures, moved by the given offsets. A via given by rectangles is accepted exactly when its layers are three consecutive known layers, keeps exactly the given rectangles per layer, and is skipped exactly when a layer is unknown.", "quantifier": "every via definition", "why_tests_cant": "the number of cuts and all distances are unbounded", "anchors": ["src/io/io.cpp:getDefVias"]}
{"id": "C89", "title": "A shape makes wires costly exactly where they would be too close", "statement": "Placing a shape on a layer raises the wire cost counter by one at exactly those routing grid points of the layer where the end of a default-width wire would be nearer to the shape than the spacing rule requires for their widths and run length, changes nothing else, and removing it takes exactly that back; this holds for shapes at least as wide as a wire. A shape is never charged where it is far enough away.", "quantifier": "every technology, sorted grid, shape, layer and grid point", "why_tests_cant": "exactness of a scanned window against Euclidean distance for all coordinates; a boundary off by one shows only at particular distances", "anchors": ["src/dr/FlexDR_maze.cpp:modMinSpacingCostPlaner"]}
{"id": "C90", "title": "A shape makes vias costly exactly where they would be too close", "statement": "Placing a shape raises the via cost counter at a grid point by one if the via there (the default via of the layer pair, with its minimum-area patch) would be nearer to the shape than the rule requires, and by one for every end-of-line region of the via the shape enters, and changes nothing else; at points with a special access via never by more than that.", "quantifier": "every technology, sorted grid, shape, layer and grid point", "why_tests_cant": "exactness of a scanned window for all via shapes, patch lengths and rules", "anchors": ["src/dr/FlexDR_maze.cpp:modMinSpacingCostVia,modMinSpacingCostVia_eol"]}
{"id": "C91", "title": "End-of-line regions are charged exactly", "statement": "Placing a shape raises the wire and via counters at a grid point by the number of end-of-line regions of the shape that a wire end or the via there would enter.", "quantifier": "every technology, sorted grid, shape, layer and grid point", "why_tests_cant": "regions depend on rule, width and side for all coordinates", "anchors": ["src/dr/FlexDR_maze.cpp:modEolSpacingCost,modEolSpacingCost_helper"]}
{"id": "C92", "title": "Cuts are charged exactly where cut spacing would be violated", "statement": "Placing a cut raises the via counter at every via position by the number of cuts of the default via there that would violate a spacing rule of the cut layer (rules without AREA), and by one at every position of a neighbouring cut layer where the via would violate the rule between the two layers.", "quantifier": "every technology without AREA cut rules, sorted grid, cut and grid point", "why_tests_cant": "edge-to-edge and centre-to-centre distances over all positions", "anchors": ["src/dr/FlexDR_maze.cpp:modCutSpacingCost,modInterLayerCutSpacingCost", "src/db/tech/frConstraint.h:frCutSpacingConstraint"]}
{"id": "C93", "title": "Costs depend only on the routing present", "statement": "After any sequence of placing and removing wires, vias and patches in a clip, every cost counter of the grid is determined by the figures present alone: it is the number of their conflicts with a wire or via at the grid point, and when everything placed was removed the grid is as before, as long as no counter reached its limit.", "quantifier": "every history of additions and removals, every grid and technology", "why_tests_cant": "histories are unbounded; one missed decrement shows only after particular histories", "anchors": ["src/dr/FlexDR_maze.cpp:addPathCost,subPathCost,modPathCost"]}
{"id": "C94", "title": "A route found is nearly the cheapest", "statement": "When routing a connection inside a clip succeeds, the fare of the route (edge lengths times their cost markings, bends, vias and turns at forbidden distances) exceeds the plain edge price of no other route from the connected part to the pin by more than 2K+2 for each step of that other route and 2 in total, where K bounds the surcharge of one step (K = 1 without forbidden lengths).", "quantifier": "every grid, cost marking, forbidden-length table, set of start points and destinations, and every order of equal entries in the queue", "why_tests_cant": "the route is chosen by a best-first search that commits directions early; its distance from the optimum has to be bounded over all grids and all alternatives", "anchors": ["src/dr/FlexGridGraph_maze.cpp:search,expand,getNextPathCost,getEstCost,expandWavefront", "src/dr/FlexWavefront.h:FlexWavefrontGrid"]}
{"id": "C95", "title": "The estimate never exceeds the remaining cost", "statement": "The estimated remaining cost used to guide the search is never larger than the edge price plus the number of bends of any way from the point to any access point of the pin, outside the special late mode of one process.", "quantifier": "every grid, cost marking, point, direction of arrival, set of access points and way to one of them", "why_tests_cant": "a lower bound has to hold against every way through every grid", "anchors": ["src/dr/FlexGridGraph_maze.cpp:getEstCost,search"]}
{"id": "C96", "title": "Forbidden distances are paid for", "statement": "The cost of a partial route is its edge lengths times their markings plus one per bend plus a surcharge for every via at a forbidden distance from the previous via, every turn at a forbidden distance after a via, and every via at a forbidden distance after a turn.", "quantifier": "every partial route without repeated points in every grid, every table of forbidden distances", "why_tests_cant": "the cost is accumulated incrementally from lengths since the last via or turn; whether it equals the sum over the route is a statement about all routes", "anchors": ["src/dr/FlexGridGraph_maze.cpp:getNextPathCost,expand", "src/db/tech/frTechObject.h:isVia2ViaForbiddenLen,isViaForbiddenTurnLen"]}
{"id": "C97", "title": "Vias too close to each other are at a forbidden distance", "statement": "For every technology whose default vias are centred, every routing layer and every pair of sides on which two vias leave that layer: if the two vias, a straight stretch of wire apart, have cuts closer than the cut spacing rule that applies to them, or pads (both wider than the wire, or at their far ends) closer than the spacing table asks, or a cut at metal that needs more cuts, then the length of that stretch is reported as forbidden, and the router is charged for it.", "quantifier": "all technologies (layers, rules, default vias), layers, sides, directions and distances", "why_tests_cant": "The tables are computed once per technology from many rules; tests see the distances of a few technologies.", "anchors": ["src/rp/FlexRP_prep.cpp: prep_via2viaForbiddenLen, prep_via2viaForbiddenLen_minSpc, prep_via2viaForbiddenLen_minimumCut, prep_via2viaForbiddenLen_cutSpc", "src/db/tech/frTechObject.h: isVia2ViaForbiddenLen", "src/dr/FlexGridGraph_maze.cpp: getNextPathCost"]}
{"id": "C98", "title": "Turns too close to a via are at a forbidden distance", "statement": "For every technology, routing layer, via side, direction and distance: the distance between a via and a turn is reported as forbidden exactly when the pad of the via is wider than the wire and the wire after the turn would be closer to it than the spacing table asks.", "quantifier": "all technologies, layers, sides, directions, distances and lengths of the wire after the turn", "why_tests_cant": "Depends on the interplay of pad size, wire width and table entries; off-by-one errors show at single distances only.", "anchors": ["src/rp/FlexRP_prep.cpp: prep_viaForbiddenTurnLen, prep_viaForbiddenTurnLen_minSpc", "src/db/tech/frTechObject.h: isViaForbiddenTurnLen"]}
{"id": "C99", "title": "A distance is forbidden for a reason", "statement": "Whenever a distance between two vias is reported as forbidden, some rule of the technology is violated, or met with equality, by two default vias that far apart.", "quantifier": "all technologies, layers, sides, directions and distances", "why_tests_cant": "A wrongly forbidden distance only shows as a detour in some design.", "anchors": ["src/rp/FlexRP_prep.cpp: prep_via2viaForbiddenLen_helper", "src/db/tech/frTechObject.h: isVia2ViaForbiddenLen"]}
{"id": "C100", "title": "Cuts too close to each other are reported", "statement": "After the design-rule check of a region, every two cuts of one layer, not both fixed, of which one belongs to the checked nets, are reported if they break a spacing rule of the LEF layer (plain, CENTERTOCENTER, SAMENET, ADJACENTCUTS with EXCEPTSAMEPGNET, PARALLELOVERLAP or AREA), with that rule and the place between them; touching cuts are reported as a short when some rule of the layer binds them. Earlier reports stay.", "quantifier": "all layouts of rectangles of all nets, all lists of cut rules, all sets of checked cuts and earlier reports", "why_tests_cant": "Rule forms combine with nets, obstructions and neighbouring cuts; a missed combination or a query window one unit too small only shows in particular layouts.", "anchors": ["src/gc/FlexGC_main.cpp: checkCutSpacing, checkCutSpacing_main, checkCutSpacing_main_hasAdjCuts, checkCutSpacing_spc, checkCutSpacing_short", "src/io/io.cpp: getLefCutLayers", "src/db/tech/frLayer.h: addCutSpacingConstraint"]}
{"id": "C101", "title": "Only real cut violations are reported", "statement": "Every report the cut check adds is about two touching cuts of one layer, two cuts of one layer that break a rule of the LEF file, or two cuts of different layers that break the rule between the layers; its place is the area between the two cuts.", "quantifier": "all layouts, rule lists, sets of checked cuts and earlier reports", "why_tests_cant": "A false report sends the router on endless repair; no finite set of layouts excludes it.", "anchors": ["src/gc/FlexGC_main.cpp: checkCutSpacing_main, checkCutSpacing_spc, checkCutSpacing_spc_diff_layer", "src/db/tech/frConstraint.h: frCutSpacingConstraint"]}
{"id": "C102", "title": "Cuts of neighbouring cut layers too close to each other are reported", "statement": "A cut of a checked net closer to a cut of another layer than the rule between the two layers allows is reported; for two cuts of one net the same-net rule of the layer pair decides, and STACK allows one on top of the other.", "quantifier": "all layouts, rule lists, sets of checked cuts and earlier reports", "why_tests_cant": "The rule tables are assembled from the LEF order of rules and looked up from either layer; tests cover a few technologies.", "anchors": ["src/gc/FlexGC_main.cpp: checkCutSpacing_main, checkCutSpacing_spc_diff_layer", "src/io/io_parser_helper.cpp: initConstraintLayerIdx", "src/db/tech/frLayer.h: addCutSpacingConstraint, getInterLayerCutSpacing"]}
{"id": "C103", "title": "What the cut check reports the router pays for", "statement": "After any history of placed and removed routing in a clip, a via position at which a cut of the default via would be reported against a cut of a via present of another net, on the same or the next cut layer, carries a higher design-rule cost than without that routing.", "quantifier": "all technologies without AREA rules, grids, histories of a clip, vias and positions", "why_tests_cant": "Checker and router evaluate the rules in separate code; that one covers the other is a statement about all rules and positions.", "anchors": ["src/gc/FlexGC_main.cpp: checkCutSpacing_spc, checkCutSpacing_spc_diff_layer", "src/dr/FlexDR_maze.cpp: modCutSpacingCost, modInterLayerCutSpacingCost, modPathCost"]}
{"id": "C104", "title": "End-of-line violations are reported", "statement": "After the end-of-line check of a region, every end of a shape of the checked nets that is narrower than the width of an end-of-line rule (with the neighbours PARALLELEDGE asks for), and faces an edge of another shape closer than the rule allows with no metal in between, is reported with the rule and the place between them, if metal the router made is involved. Earlier reports stay.", "quantifier": "all outlines of the metal of all nets, rule lists of a layer, checked nets and earlier reports", "why_tests_cant": "Outlines have any number of edges in four directions; windows around each edge are built case by case and an error of one unit or one direction shows only in particular layouts.", "anchors": ["src/gc/FlexGC_main.cpp: checkMetalEndOfLine, checkMetalEndOfLine_main, checkMetalEndOfLine_eol, checkMetalEndOfLine_eol_hasParallelEdge, checkMetalEndOfLine_eol_isEolEdge", "src/io/io.cpp: getLefRoutingLayers"]}
{"id": "C105", "title": "Only real end-of-line violations are reported", "statement": "Every report the end-of-line check adds is about the end of a shape narrower than the width of a rule of the LEF file, with the neighbours the rule asks for, and an edge that faces it closer than the rule allows with no metal in between; metal made by the router is at that end or at an edge that faces it.", "quantifier": "all outlines, rule lists, checked nets and earlier reports", "why_tests_cant": "A false report sends the router on endless repair; no finite set of layouts excludes it.", "anchors": ["src/gc/FlexGC_main.cpp: checkMetalEndOfLine_eol_helper, checkMetalEndOfLine_eol"]}
{"id": "C106", "title": "A wire end too close to another wire is reported", "statement": "When the end of a routed wire, narrower than the width of a plain end-of-line rule, has another shape nearer than the rule allows in front of it, counting the sidewards margin of the rule, and nothing lies between them, the check reports both nets and the area between them.", "quantifier": "all pairs of rectangles in all layouts and all plain end-of-line rules", "why_tests_cant": "Positions of two rectangles are unbounded; four directions and the margins are separate code paths.", "anchors": ["src/gc/FlexGC_main.cpp: checkMetalEndOfLine_main"]}
{"id": "C107", "title": "End-of-line conflicts are paid for", "statement": "After any history of placed and removed routing in a clip, a grid point at which a wire, or the metal of the default via, would lie in front of the end of a shape of that routing within an end-of-line rule, or at which that via would have such a shape in front of its own end, carries a higher design-rule cost than without that routing.", "quantifier": "all technologies without special vias at the point, grids, histories of a clip, shapes and points", "why_tests_cant": "Checker and router evaluate the rules in separate code; that one covers the other is a statement about all rules and positions.", "anchors": ["src/dr/FlexDR_maze.cpp: modEolSpacingCost, modEolSpacingCost_helper, modPathCost", "src/gc/FlexGC_main.cpp: checkMetalEndOfLine"]}
{"id": "C108", "title": "Metal narrower than the minimum width is reported", "statement": "After the shape check of a layer, every unit of routed metal whose shape extends over less than the minimum width of the layer, across or along, lies in a rectangle reported as a width violation of its net. Earlier reports stay.", "quantifier": "all polygons, fixed and routed metal, rules and earlier reports", "why_tests_cant": "Polygons have any number of corners; a missed direction or comparison shows only for particular shapes.", "anchors": ["src/gc/FlexGC_main.cpp: checkMetalShape_minWidth, checkMetalShape_main"]}
{"id": "C109", "title": "More short steps in a row than MINSTEP allows are reported", "statement": "On an outline with at least two long edges, a row of more edges shorter than the MINSTEP length than MAXEDGES allows, not all of them of fixed metal, is reported with the MINSTEP rule of the layer, and the reported box contains the row; it is the smallest box around its corners.", "quantifier": "all outlines of any length, start points of the walk around them, and MINSTEP statements with MAXEDGES", "why_tests_cant": "The walk starts at an arbitrary edge and goes around the outline once more until it is back; rows across the start are the hard case, for every length.", "anchors": ["src/gc/FlexGC_main.cpp: checkMetalShape_minStep, checkMetalShape_minStep_helper", "src/io/io.cpp: getLefRoutingLayers"]}
{"id": "C110", "title": "Only real shape violations are reported", "statement": "Every report the shape check adds is one of: a rectangle all of which is thinner than the minimum width and not all fixed; the box of a row of too many short edges, not all fixed; the box of a wire end between short edges; metal near an inner corner of a shape of a RECTONLY layer; a rectangle of routed metal with a border off the manufacturing grid; the box of a hole that encloses less than the minimum area. It names the net of the polygon and the rule that is broken.", "quantifier": "all polygons, fixed and routed metal, rules and earlier reports", "why_tests_cant": "A false report sends the router on endless repair; no finite set of shapes excludes it.", "anchors": ["src/gc/FlexGC_main.cpp: checkMetalShape, checkMetalShape_main and the checks it calls"]}
{"id": "C111", "title": "Wire ends between short steps are reported", "statement": "Where a LEF58_MINSTEP rule has NOBETWEENEOL, every end of a shape narrower than that width, between two edges shorter than the minimum step, not all of fixed metal, is reported with that rule at the smallest box around the three edges.", "quantifier": "all outlines, edges and rule lists", "why_tests_cant": "The three edges can be anywhere around the outline, in four directions.", "anchors": ["src/gc/FlexGC_main.cpp: checkMetalShape_lef58MinStep, checkMetalShape_lef58MinStep_noBetweenEol"]}
{"id": "C112", "title": "Shapes that are not rectangles are reported on RECTONLY layers", "statement": "On a layer with LEF58_RECTONLY, around every inner corner of a shape, all metal of the shape within the minimum width of the corner lies in reported rectangles, if metal there is not fixed.", "quantifier": "all polygons with all inner corners", "why_tests_cant": "Which corners are inner ones depends on the direction of the outline; all shapes must be covered.", "anchors": ["src/gc/FlexGC_main.cpp: checkMetalShape_rectOnly"]}
{"id": "C113", "title": "Metal off the manufacturing grid is reported", "statement": "Routed metal along an edge of a shape that is not on the manufacturing grid lies in a rectangle reported as off-grid.", "quantifier": "all polygons, edges and grid steps", "why_tests_cant": "Coordinates may be negative, and the grid step arbitrary; the check sees only maximal rectangles, not edges.", "anchors": ["src/gc/FlexGC_main.cpp: checkMetalShape_offGrid"]}
{"id": "C114", "title": "Holes smaller than the minimum enclosed area are reported", "statement": "A hole of a shape with routed metal that encloses less area than a MINENCLOSEDAREA rule of the layer asks for is reported with that rule, at the smallest box around the hole.", "quantifier": "all holes: closed lines of any number of corners that do not cross themselves", "why_tests_cant": "Holes have arbitrary outlines; that the computed area is the number of enclosed unit squares is a statement about all of them.", "anchors": ["src/gc/FlexGC_main.cpp: checkMetalShape_minEnclosedArea"]}
{"id": "C115", "title": "Corners too close to other metal are reported", "statement": "For every CORNERSPACING statement of a layer and every corner of a shape it applies to (outer corners, or inner ones for CONCAVECORNER, without the ends EXCEPTEOL spares), metal whose nearest point lies outside the corner and nearer than the spacing for the width of the shape, in both directions, is reported with that statement, if not both are fixed. The report is the box between the corner and the metal, and earlier reports stay.", "quantifier": "all outlines, corners, rectangles, rule lists and earlier reports", "why_tests_cant": "Corners come in four directions and two kinds, at any place of an outline of any length; the search window depends on all rules of the layer.", "anchors": ["src/gc/FlexGC_main.cpp: checkMetalCornerSpacing, checkMetalCornerSpacing_main, isCornerOverlap", "src/gc/FlexGC_init.cpp: initNet_pins_polygonCorners_helper", "src/io/io.cpp: getLef58CornerSpacing"]}
{"id": "C116", "title": "Only real corner spacing violations are reported", "statement": "Every report the corner check adds names a statement of the layer, a corner it applies to and metal nearer to the corner than the statement asks for, not exempt by EXCEPTEOL, EXCEPTSAMENET or a common run length, and not all of it fixed.", "quantifier": "all outlines, rectangles, rule lists and earlier reports", "why_tests_cant": "A false report sends the router on endless repair; no finite set of shapes excludes it.", "anchors": ["src/gc/FlexGC_main.cpp: checkMetalCornerSpacing_main, checkMetalCornerSpacing_getQueryBox"]}
{"id": "C117", "title": "Two rectangles that face each other diagonally too closely are reported", "statement": "Two rectangles whose gaps in x and in y are both below the corner spacing for the width of one of them, a routed one at least as wide as the EXCEPTEOL width, give a corner spacing report: the box between the two, with both nets and the rule.", "quantifier": "all pairs of rectangles in all four relative positions, all widths, gaps and tables", "why_tests_cant": "Four positions, gaps from zero to the spacing, and tables of any length.", "anchors": ["src/gc/FlexGC_main.cpp: checkMetalCornerSpacing", "src/gc/FlexGC_init.cpp: initNet_pins_polygonCorners"]}
{"id": "C118", "title": "Routed connections get the minimum area of each layer", "statement": "After the minimum-area patches of a routed connection are added, the metal of every straight stretch of it between two changes of layer (or between a change of layer and an end where no pin area is recorded), that is its wires, the vias at its ends and its patch, covers at least the minimum area of the layer.", "quantifier": "all grids, routes, straight stretches in and across the preferred direction, widths, via shapes at least as wide as the wire, minimum areas and costs", "why_tests_cant": "The patch may sit at either end, on either side, overlapping via and wire in ways that depend on lengths and shapes; the area must hold for each.", "anchors": ["src/dr/FlexDR_maze.cpp: routeNet_postAstarPatchMinAreaVio, routeNet_postAstarAddPatchMetal, routeNet_postAstarAddPatchMetal_addPWire", "src/dr/FlexDR.cpp: init_halfViaEncArea"]}
{"id": "C119", "title": "One patch for each stretch with too little area, and no other", "statement": "The patches of a connection correspond one by one to its stretches whose counted area (wires, half of the via metal at each end, the area recorded at pins) is below the minimum area. Each is a rectangle of the width of the layer at the first or last point of the stretch, pointing away from the wire in the preferred direction, and as long as the smallest multiple of the manufacturing grid that makes up for the missing area.", "quantifier": "all grids, routes, recorded areas, layers and via shapes", "why_tests_cant": "Routes have any number of points, turns and stacked vias; the area is counted only until it suffices.", "anchors": ["src/dr/FlexDR_maze.cpp: routeNet_prepAreaMap, routeNet_postAstarPatchMinAreaVio, routeNet_postAstarAddPatchMetal"]}
{"id": "C120", "title": "A patch goes to the better of its two places", "statement": "Of the two places a patch can have, the one taken ends inside the route box if one of them does; and if one of them ends inside the box and lies over no grid point charged for violations, shapes of other nets or markers, the one taken does so too.", "quantifier": "all grids, cost maps, routes and route boxes with costs below the largest int", "why_tests_cant": "Cost maps and grids are arbitrary; a patch over a charged point is a new violation.", "anchors": ["src/dr/FlexDR_maze.cpp: routeNet_postAstarAddPathMetal_isClean, routeNet_postAstarAddPatchMetal"]}
{"id": "C121", "title": "Access points lie on the pin, each place once", "statement": "Every access point recorded for a pin lies in a rectangle of the pin's metal on the point's layer that is at least as wide as the minimum width of the layer, and no place is recorded twice on a layer.", "quantifier": "all pins, shapes, tracks, vias, layer rules and checker answers", "why_tests_cant": "Shapes overlap and candidates of different kinds coincide; every combination must be filtered.", "anchors": ["src/pa/FlexPA_prep.cpp: prepPoint_pin, prepPoint_pin_genPoints_rect, prepPoint_pin_genPoints_rect_ap_helper"]}
{"id": "C122", "title": "The type of an access point tells the tracks", "statement": "For tracks on the manufacturing grid, the type recorded for an access point is 0 exactly if it is on a track and 1 exactly if it is half-way between two neighbouring tracks (2: middle of the shape, 3: a via there is flush with the shape), along the wires with respect to the next layer and across them with respect to its own layer; for pins of macros and of the design, 0 across the wires may also mean the centre line of a thin rectangle.", "quantifier": "all pins, shapes, track patterns, vias and checker answers", "why_tests_cant": "Track patterns overlap and half-way coordinates are rounded; later stages trust the type.", "anchors": ["src/pa/FlexPA_init.cpp: initTrackCoords", "src/pa/FlexPA_prep.cpp: prepPoint_pin_genPoints_rect_genGrid, genCenter, genEnc"]}
{"id": "C123", "title": "The best access points come first and none is missed", "statement": "Access points are recorded by increasing cost, and one of some cost only if fewer than the wanted number are cheaper. A place of the pin with a legal access that is not recorded is more expensive than the wanted number of recorded ones; in particular every legal crossing of two tracks on a wide enough rectangle of the pin is recorded.", "quantifier": "all pins, shapes, tracks, vias, layer rules and checker answers", "why_tests_cant": "Twelve rounds of generation share a set of places already tried; a place rejected early is never tried again.", "anchors": ["src/pa/FlexPA_prep.cpp: prepPoint_pin, prepPoint_pin_helper, prepPoint_pin_genPoints"]}
{"id": "C124", "title": "Recorded accesses are exactly the legal ones", "statement": "A recorded access point has an access in a direction exactly if the layer rules and the kind of pin allow it, the wire leaves the pin (cells) and the checker accepts it; it lists exactly those of the two preferred vias that stay inside the cell, stay inside the extents of the pin where required and are accepted by the checker, the ones that reach least beyond the pin first; every recorded point has a legal access.", "quantifier": "all pins, shapes, layer rules, vias and checker answers", "why_tests_cant": "Accesses are set, cleared and set again in several places for each direction.", "anchors": ["src/pa/FlexPA_prep.cpp: prepPoint_pin_checkPoint_planar, prepPoint_pin_checkPoint_via, prepPoint_pin_genPoints_rect_ap_helper", "src/db/obj/frAccess.h: frAccessPoint"]}
{"id": "C125", "title": "A via that must be inside the pin is inside it", "statement": "On layers where vias must be inside the pin, and at access points chosen for via enclosure, the lower metal of every recorded via is covered by the pin.", "quantifier": "all pins, shapes, vias and access points", "why_tests_cant": "Pin shapes are arbitrary unions of rectangles.", "anchors": ["src/pa/FlexPA_prep.cpp: prepPoint_pin_checkPoint_via"]}
{"id": "C126", "title": "Instances share access points exactly if they see the same tracks", "statement": "Two instances of a cell placed at non-negative coordinates get the same access points exactly if they have the same orientation and, for every pattern of tracks in preferred direction on the layers of the cell's pins and the routing layer above, either the pattern reaches neither or it reaches both and they are a multiple of its pitch apart. Every instance gets access points, if no pin shape is above the top routing layer.", "quantifier": "all designs, cells, placements, orientations and track patterns", "why_tests_cant": "Sharing is decided by a vector of remainders per instance; every combination of patterns and placements counts.", "anchors": ["src/pa/FlexPA_init.cpp: initUniqueInstance_main, initUniqueInstance_refBlock2PinLayerRange, hasTrackPattern, initPinAccess"]}
{"id": "C127", "title": "Shared access points stay on the pin and on the tracks", "statement": "Moved from the instance they were computed for to another that shares them, access points stay on the same shapes of the cell and, on the layers of the pin and the routing layer above, on a track exactly if they were, for non-negative placements and patterns that do not end inside one of the instances.", "quantifier": "all designs, cells, placements, orientations, track patterns and places", "why_tests_cant": "A place is checked for one instance only and used for thousands.", "anchors": ["src/pa/FlexPA_prep.cpp: revertAccessPoints", "src/dr/FlexDR_init.cpp: initNet_term_new", "src/pa/FlexPA_init.cpp: initUniqueInstance_main"]}
{"id": "C128", "title": "Rows of instances", "statement": "Instances are divided into rows, each in exactly one: within a row every instance is at the height of its predecessor and starts no later than where that ends, and rows end only where the next instance does not continue them. In a legal placement, abutting instances are neighbours in a row, however ties are sorted.", "quantifier": "all lists of instances and placements", "why_tests_cant": "Whether neighbours are seen depends on the order of all instances.", "anchors": ["src/pa/FlexPA_prep.cpp: prepPattern"]}
{"id": "C129", "title": "Boundary pins of the first pass", "statement": "In the first detailed-routing pass a clip gets a boundary pin exactly where, on its edge, a track-assigned wire reaches a line between global cells of the clip: a wire crossing the common edge of two neighbouring clips gives both the same pin (place, layer and net), and neighbours agree on every pin of the common edge unless a wire runs along that edge.", "quantifier": "all gcell grids, dies, clip sizes, clips and lists of track-assigned wires", "why_tests_cant": "The pieces of a net meet at the seam only if two independently computed sets of pins agree for every wire and every grid.", "anchors": ["src/dr/FlexDR.cpp: initGCell2BoundaryPin, initDR_mergeBoundaryPin, searchRepair"]}
{"id": "C130", "title": "Boundary pins of later passes", "statement": "In later passes a clip gets a boundary pin exactly where the routing that is kept outside meets the closed clip box, on the layer of that routing: where a wire of the net passes through an edge of the box, or comes from outside and ends on it.", "quantifier": "all clip boxes, layer widths and lists of wires, vias and patches of a net", "why_tests_cant": "A missed meeting point cuts a net open when the clip is rerouted; all positions of wires against the box count.", "anchors": ["src/dr/FlexDR_init.cpp: initNet_boundary, initNetObjs_pathSeg"]}
{"id": "C131", "title": "Rerouting a clip keeps a net connected", "statement": "If two pins of a net are connected before a later pass through wires and vias that meet at wire or via ends, then after a clip has loaded the net, split it into sub-nets, rerouted each of them so that its boundary pins and its pins are connected, and written the result back, the two pins are still connected.", "quantifier": "all clip boxes, layer widths, pin positions, nets of straight non-overlapping wires, vias and patches, search orders of the splitting, new routings of the sub-nets and write-back merges", "why_tests_cant": "The connection survives only if the split at the box, the sub-nets, the boundary pins and the write-back agree at every meeting point; a test sees one position of the wires against the box.", "anchors": ["src/dr/FlexDR_init.cpp: initNetObjs, initNets_searchRepair, initNet, initNet_boundary", "src/dr/FlexDR_end.cpp: endRemoveNets, endAddNets, endRemoveNets_pathSeg", "src/dr/FlexDR_maze.cpp: routeNet"]}
{"id": "C132", "title": "The DEF after track assignment holds the assigned wires", "statement": "The DEF written after track assignment has, for every net of wires with the default style and vias, exactly the metal of the assigned wires and vias: overlapping and touching wires of a track are merged, every piece of wire and every via is written once, no wire of length 0 is written, and no two written wires cross in the middle of both.", "quantifier": "all layer widths, names, via definitions and nets of straight wires (any number, any overlap) and vias", "why_tests_cant": "The sweep over a track and the splitting at crossings depend on the order of all wire ends; a test covers a few arrangements.", "anchors": ["src/io/io.cpp: Writer::mergeSplitConnFigs, Writer::splitVia_helper, Writer::fillConnFigs_net, Writer::writeDef"]}
{"id": "C133", "title": "Every routing cut layer gets its best single-cut via as default", "statement": "After the technology has been read, every cut layer from the bottom routing layer on has as default via its best single-cut via (LEF default first, then narrower lower metal, narrower upper metal, upper metal along its layer, smaller metal), the last one of equally good ones; if its metal lies across a layer, a new via with the same cut and the metal mirrored is added and used, so that the metal of every default via lies along its layers. Reading stops with an error exactly if a via has no shape on one of its layers or such a layer has no single-cut via. Vias for pin access are tried in the same order.", "quantifier": "all technologies: any layers, directions, numbers and shapes of vias", "why_tests_cant": "The choice is the minimum of a seven-part order over all vias of the LEF with a map that drops equal entries; a test sees one technology.", "anchors": ["src/io/io_parser_helper.cpp: initDefaultVias, getViaRawPriority, initCutLayerWidth", "src/pa/FlexPA_init.cpp: initViaRawPriority, getViaRawPriority", "src/pa/FlexPA_prep.cpp: prepPoint_pin_checkPoint_via"]}
{"id": "C134", "title": "A guide file is read completely or refused", "statement": "A guide file (for each net its name, an opening parenthesis, one line with two corners and a layer per guide, a closing parenthesis; empty lines in between) whose nets and layers are known and whose layers may be routed is read completely: every net gets exactly the guides listed for it, in that order, each with its layer and the box spanned by its corners. A file that names an unknown net, an unknown layer or a layer outside the routing layers stops the program with an error. Whatever the file contains, a guide that has been read lies on a routing layer of the technology.", "quantifier": "all guide files: any text, any number of nets and guides, any spacing, names and 32-bit coordinates", "why_tests_cant": "The reader splits lines with a stream whose behaviour depends on every character, above all the last; tests cover a few files.", "anchors": ["src/io/io.cpp: Reader::readGuide", "src/frBaseTypes.h, src/db/infra/frBox.h: frBox::set", "src/global.cpp: BOTTOM_ROUTING_LAYER, TOP_ROUTING_LAYER, VIA_ACCESS_LAYERNUM"]}
{"id": "C135", "title": "The reference DEF is the input DEF plus the vias made by the router", "statement": "The reference DEF that is written at the start has every line of the input DEF in its order; only the opening line of the VIAS section is replaced by one whose number also counts the vias made by the router, and these vias follow it in DEF syntax with their names, layers and boxes. If the input has no VIAS section, a complete one with the made vias is put before the components.", "quantifier": "all input DEF files with one section line each for VIAS (or none) and COMPONENTS, any other text, any number of made vias with any boxes", "why_tests_cant": "The file is edited as text, guided by the first two words of each line; tests cover a few files.", "anchors": ["src/io/io_parser_helper.cpp: Parser::writeRefDef"]}
{"id": "C136", "title": "Track assignment stretches a guide's wire to the wires it must meet", "statement": "When track assignment sets up a guide, its wire lies along a track on the guide's layer, has positive length and reaches the track of every guide of the same net on the next routing layers that it meets at its ends; it ends at such a track or at the guide's own end. It gets exactly one via place for each such guide, on the cut layer between the two, and if at each end all or none of these guides have a track, every via lies on the wire. Two tracks in the gcell differ in wire length cost exactly by the difference in length of the wires that cross the guide (twice this for a guide in a single gcell).", "quantifier": "all guides of all nets, layers and directions, any state of the other guides (with or without a track), in any order", "why_tests_cant": "What a wire must reach depends on the tracks chosen for its neighbours before; tests see one order of assignment.", "anchors": ["src/ta/FlexTA_init.cpp: initIroute, initIroute_helper_generic", "src/ta/FlexTA_assign.cpp: assignIroute_getWlenCost", "src/ta/FlexTA_end.cpp: saveToGuides"]}
{"id": "C137", "title": "A guide at a cell pin is placed at the pin's access point", "statement": "A guide in a single gcell whose net has a cell pin there with an access point on the guide's layer in the panel is placed at such an access point, wants the track through it and has a via there to each next layer on which a guide of the net meets it. The pin cost of a track is zero exactly on the wanted track and grows with the distance from it.", "quantifier": "all guides, terminals, numbers of pins and access points", "why_tests_cant": "Which access point is used depends on all terminals and pins before it; tests see single-pin cells.", "anchors": ["src/ta/FlexTA_init.cpp: initIroute_helper_pin, initIroute_helper_generic_helper", "src/ta/FlexTA_assign.cpp: assignIroute_getPinCost, assignIroute_getCost"]}
{"id": "C138", "title": "Track assignment sees exactly the fixed metal that is too close", "statement": "In track assignment the cost of fixed shapes for a wire on a track is zero exactly if the wire's metal keeps its distance from every fixed wire, via, pin and blockage of another net: for wires, vias and blockages the spacing the rules require by the shape's width and its length along the layer, for pins the width of the layer. Otherwise the cost is at least two pitches. The cost never ends the program. Shapes outside the worker's extended box cannot matter if the box reaches the required spacing beyond its wires.", "quantifier": "all sets of fixed shapes, spacing tables, tracks, directions, nets and wires", "why_tests_cant": "Which shapes are too close depends on every size and table; tests see a few pairs of shapes.", "anchors": ["src/ta/FlexTA_init.cpp: initFixedObjs, initFixedObjs_helper, initFixedObjs_calcBloatDist", "src/ta/FlexTA_assign.cpp: assignIroute_getDRCCost, assignIroute_getDRCCost_helper"]}
{"id": "C139", "title": "Places of violations become dearer and the surcharge fades", "statement": "After a check of a clip, each wire that meets a violation marker and lies in the clip becomes dearer at its grid points within one wire width of the marker (in up to six steps of a width until two points are found), each patch at its grid points, and of each net one via that has no surcharge yet; nothing else changes. The router pays the surcharge for steps and vias at these places. Every reroute lowers each surcharge to four fifths, and after any course of checks and reroutes 22 reroutes without new violations leave no surcharge on wires, and none on vias if no patch was at a violation.", "quantifier": "all clips, shapes, markers and courses of checks and reroutes", "why_tests_cant": "Surcharges are the result of the whole course of checks and reroutes of a clip; tests see short courses.", "anchors": ["src/dr/FlexDR_init.cpp: initMazeCost_marker_route_queue_addHistoryCost, route_queue_addMarkerCost, route_queue_markerCostDecay", "src/dr/FlexGridGraph.h: addMarkerCostPlanar, addMarkerCostVia, addMarkerCost, decayMarkerCostPlanar, decayMarkerCostVia, hasMarkerCost"]}
{"id": "C140", "title": "A clip starts with exactly the forbidden edges blocked", "statement": "When a clip is set up, a step between two neighbouring grid points is marked as blocked exactly if it is forbidden: a step that leaves a top-level (IO) pin other than along the pin's longer side; otherwise a step that the last access point at one of its ends does not allow; otherwise, for a wire, a step from or to a point on an obstruction that carries no cell pin, or on a power or ground wire with no cell pin found after it, and for a via, a step from or to a point on an obstruction or a power or ground wire, or beside a power or ground cut that is too close to another. The nets' own wires and vias never block. A grid point uses the special via of its last access point that has one, and only then.", "quantifier": "all grids, technologies, fixed shapes, access points, wires and vias of nets, and all steps of the grid", "why_tests_cant": "The marks are the result of thousands of overlapping writes whose order decides; tests see a few arrangements of shapes.", "anchors": ["src/dr/FlexDR_init.cpp: initMazeCost, initMazeCost_fixedObj, initMazeCost_terms, initMazeCost_ap, initMazeCost_planarTerm, initMazeCost_connFig", "src/dr/FlexDR_maze.cpp: modBlockedPlanar, modBlockedVia, modAdjCutSpacingCost_fixedObj, modMinimumcutCostVia", "src/dr/FlexGridGraph.h: setBlocked, resetBlocked, isBlocked, setSVia"]}
{"id": "C141", "title": "The net being routed does not pay for its own pins and outside wires", "statement": "After set-up of a clip and after any number of nets have been routed in it, when a net begins, a step of its wire costs extra for fixed shapes exactly if the wire's end at the target of the step would be too close to a fixed shape (obstruction, special net, cell pin on the lowest layer of the grid) or to a pin of another net, or in an end-of-line region of one; its own pins cost it nothing. Its wires and vias outside the clip are taken out of the conflict counters when it begins and put back when it ends. A via up from an access point that may be left upwards costs nothing for fixed shapes while the net is routed, and only there and then; the edges of the lines from its access points carry no off-track penalty then. After every net the fixed-shape costs of wires are again what they were after set-up.", "quantifier": "all grids, technologies, fixed shapes, access points, wires, and all sequences of nets routed before", "why_tests_cant": "Costs are taken out and put back in 8-bit counters over a whole sequence of nets; a single cost forgotten shows up only as a worse route many nets later.", "anchors": ["src/dr/FlexDR_maze.cpp: mazeNetInit, mazeNetEnd, route_queue_main", "src/dr/FlexDR_init.cpp: initMazeCost_terms, initMazeCost_ap_helper, initMazeCost_ap_planarGrid_helper, initMazeCost_minCut_helper, initMazeCost_guide_helper", "src/dr/FlexGridGraph.h: hasShapeCost, hasGridCost, getEdgeLength, setOverrideShapeCostVia, resetOverrideShapeCostVia"]}
{"id": "C142", "title": "Rectangles of pins, obstructions, blockages and special nets are found where they are on the die", "statement": "After reading LEF macros and DEF components, pins, blockages and special nets, a query of the fixed shapes of a layer in a box finds exactly these, each with its owner, if it touches the box: the rectangles of cell pins and obstructions, moved with the component (its rotated or mirrored cell, LEF ORIGIN included, has its lower-left corner at the DEF location); the rectangles of DEF pins moved and rotated to their location; the wires of special nets with width and extensions; the figures of their vias on all three layers; the rectangles of routing blockages without attributes. The files are refused exactly if a pin's USE is unknown, a component's macro is missing, two components have the same name, or a DEF pin has several ports or a shape on an unknown layer.", "quantifier": "all lists of macros, components, pins, special nets and blockages, all eight orientations, all query boxes", "why_tests_cant": "An obstruction lost or shifted for one orientation shows only as a short in the routed layout of a design that uses it.", "anchors": ["src/io/io.cpp: getLefMacros, getLefPins, getLefObs, getDefComponents, getDefTerminals, getDefBlockages", "src/frRegionQuery.cpp: init, add, query", "src/db/obj/frInst.cpp: getUpdatedXform", "src/db/obj/frShape.h: frPathSeg::getBBox"]}
{"id": "C143", "title": "The design rule checker of a clip works on exactly the current metal, however often nets were rerouted", "statement": "The checker is set up with exactly the metal of the design around the clip (each shape under its net; floating power pins together, floating ground pins together, any other pin or obstruction alone) and the wires, vias and patches of the clip's nets; for pin access with only the chosen instance or IO pin. After any sequence of reroutes and checks its incrementally updated state holds exactly the metal that a new set-up from the clip as it is now would give: one entry for each owner, shapes made from that metal, an index with exactly these shapes. It never fails on the way, each net of the clip has the route it was given last, and only the special process node adds patches. Set-up exits exactly if a wire without a net is looked at.", "quantifier": "all surroundings, clips, sets of nets and figures, all sequences of reroutes, checks and patches, any function from metal to checked shapes", "why_tests_cant": "A stale or lost shape after an incremental update makes the checker miss a violation only in the particular order of reroutes that left it behind.", "anchors": ["src/gc/FlexGC_init.cpp: getNet, initObj, initDesign, initDesign_skipObj, initDRObj, initDRWorker, initNet, init, updateGCWorker", "src/gc/FlexGC_rq.cpp: addToRegionQuery, removeFromRegionQuery", "src/gc/FlexGC_main.cpp: main", "src/dr/FlexDR_maze.cpp: route_queue, route_queue_main"]}
{"id": "C144", "title": "Queries of routed metal and of violations always deliver what is in the design", "statement": "From the design as read, through any history of clips written back (or not) and connectivity clean-ups, a query of the routed metal (of a layer or of all layers) and a query of the violations deliver exactly the objects of the design that touch the box, each once; writing back a clip never uses a deleted object; it replaces the violations that touch the checked area by exactly those found in it.", "quantifier": "all designs, all histories of clips and clean-ups, all query boxes, all orders in which the index delivers", "why_tests_cant": "A stale or lost index entry shows only after a particular sequence of rip-ups, as a use-after-free or a short that is never seen.", "anchors": ["src/frRegionQuery.cpp: initDRObj, addDRObj, removeDRObj, addMarker, removeMarker, queryDRObj, queryMarker", "src/dr/FlexDR_end.cpp: endRemoveNets, endAddNets, endAddNets_merge, endRemoveMarkers, endAddMarkers, end", "src/dr/FlexDR_conn.cpp: checkConnectivity_final, merge_commit, addMarker"]}
{"id": "C145", "title": "A net changed by a clip is looked at by the next connectivity check", "statement": "Through any history of clips, each net of which any routed object was added, removed or changed is flagged; the connectivity check cleans up exactly the flagged nets, leaves every object of the other nets as it is, and takes all flags back.", "quantifier": "all designs, all histories before, all sequences of clips, all nets", "why_tests_cant": "A changed net that is not flagged keeps loops and dead ends only in the particular history that missed it.", "anchors": ["src/dr/FlexDR_end.cpp: endGetModNets, endRemoveNets, endAddNets", "src/dr/FlexDR_maze.cpp: route_2 (setModified)", "src/dr/FlexDR_conn.cpp: checkConnectivity"]}
{"id": "C146", "title": "LEF 5.8 spacing rules of layers are read as written", "statement": "The rules in a LEF58_SPACINGTABLE or LEF58_SPACING property of a layer, written by the LEF 5.8 grammar, give exactly the spacing tables by parallel run length (with their widths, lengths, values, exceptions and conditions) and the end-of-line rules (with all their clauses) that are written, in order; rules of other kinds give none, and an end-of-line rule with a clause the router does not know is left out.", "quantifier": "all properties: every list of rules, every choice of optional clauses, every number of rows and columns", "why_tests_cant": "The readers are loops over words with state left from the words before; each combination and order of clauses is another input.", "anchors": ["src/io/io.cpp: getLef58SpacingTable, getLef58SpacingTable_parallelRunLength, getLef58Spacing, getLef58Spacing_endOfLineWithin", "src/db/tech/frConstraint.h: frLef58SpacingEndOfLineConstraint"]}
{"id": "C147", "title": "LEF 5.8 minimum step, cut class and corner rules are read as written", "statement": "The rules in a LEF58_MINSTEP, LEF58_CUTCLASS or LEF58_CORNERSPACING property, written by the LEF 5.8 grammar, give exactly the minimum steps, cut classes and corner spacing that are written, each with its own clauses.", "quantifier": "all properties: every list of rules, every choice of optional clauses, every number of rows", "why_tests_cant": "Values left from one rule to the next show only for particular sequences of rules in one property.", "anchors": ["src/io/io.cpp: getLef58MinStep, getLef58CutClass, getLef58CornerSpacing"]}
{"id": "C148", "title": "The netlist read from DEF is what the file says", "statement": "A DEF is accepted exactly if its components are library cells with names that differ and each connection names a component pin or IO pin that is there; then the components, IO pins and nets are those of the file, in order, a net has exactly the pins its connections name (a wildcard names that pin of every component), each pin knows the last net naming it, and if no pin is in two nets, a net lists a pin exactly if the pin knows the net.", "quantifier": "all DEF files: every order and number of components, IO pins and nets, every list of connections with wildcards, every library", "why_tests_cant": "Connections are joined one by one to objects found by name; an error shows only for particular combinations of names, wildcards and earlier nets.", "anchors": ["src/io/io.cpp: getDefComponents, getDefTerminals, getDefNets", "src/db/obj/frBlock.h: addInst, addTerm, addNet"]}
{"id": "C149", "title": "The settings of a run are those of the parameter file or the command line", "statement": "A parameter file with at least five lines of known fields (verbose not counted) starts a run in which each setting has the value of the last line for its field, and every setting without a line is as before; lines starting with # and unknown fields change nothing; a file with fewer, or that cannot be read, ends the program with code 2. On the command line each option's last value holds; no argument or an unknown option ends the program with code 2.", "quantifier": "all parameter files (every number and order of lines, every text) and all command lines", "why_tests_cant": "Files and command lines are unbounded; repeated, commented and unknown lines combine in any order.", "anchors": ["src/main.cpp: readParams, main", "src/global.h: LEF_FILE, DEF_FILE, GUIDE_FILE, OUT_FILE, MAX_THREADS"]}
{"id": "C150", "title": "Vias of LEF are read as written, whatever the order of their layers", "statement": "A via of LEF with three layers that differ is taken exactly if the layers are one above the other and it has a cut; it then has the shapes of the lowest layer as its lower metal, of the highest as its upper metal, and of the middle one as cuts, and the cut class of its first cut that has the size of a class. It is skipped exactly if a layer is unknown; otherwise the program ends. The order of the layers in the file does not matter, and the vias come in the order of the file.", "quantifier": "all LEF vias: every order of layers, every number of rectangles and polygons, every list of cut classes; all files", "why_tests_cant": "Orders of layers, numbers of shapes and classes combine without bound.", "anchors": ["src/io/io.cpp: getLefVias", "src/db/tech/frLayer.h: getCutClassIdx", "src/db/tech/frViaDef.h: frViaDef"]}
{"id": "C151", "title": "LEF 5.8 cut spacing rules are read as written", "statement": "Every cut spacing rule of a LEF58_SPACING property of a cut layer, to another cut layer or by adjacent cuts, becomes a constraint of that layer with exactly the values and conditions written, in the order of the file; rules for cut classes the layer does not have, and rules of other kinds, are left out. Reading a property ends.", "quantifier": "all properties: every list of rules, every combination of clauses, all numbers and names, all cut classes; for the end of reading, every text", "why_tests_cant": "The optional clauses combine to thousands of forms, and the rules of a property without bound.", "anchors": ["src/io/io.cpp: getLef58CutSpacing, getLef58CutSpacing_helper, getLef58CutSpacing_layer, getLef58CutSpacing_adjacentCuts", "src/db/tech/frConstraint.h: frLef58CutSpacingConstraint", "src/db/tech/frLayer.h: getCutClassIdx"]}
{"id": "C152", "title": "Minimum-cut rules make vias near wide macro pins costly", "statement": "For each minimum-cut rule of a layer that a macro pin is wide (and long) enough for, and for the side of vias the rule is about, every via position whose cuts lie on the pin or within the distance of the rule costs one unit more, once per rule; no other cost changes, and taking the cost away restores every counter.", "quantifier": "all pins, rules, pitches, via definitions and grids; every grid point and every counter", "why_tests_cant": "Which positions a pin of some size touches depends on all the track positions and rules together.", "anchors": ["src/dr/FlexDR_maze.cpp: modMinimumcutCostVia", "src/db/tech/frConstraint.h: frMinimumcutConstraint", "src/dr/FlexDR_maze.cpp: initMazeCost_terms"]}
{"id": "C153", "title": "Units, die area and tracks are those of the DEF file", "statement": "After a DEF file is read, the units are those of its UNITS statement, the die box is the smallest box around the points of DIEAREA, and the design has exactly the tracks of the TRACKS statements: every track on every layer named, and no other; so the tracks track assignment and routing use in a region are those of the file. A statement for an unknown layer ends the run.", "quantifier": "all heads of DEF files: any number and order of statements, all coordinates, counts, steps and layer names; all regions", "why_tests_cant": "The tracks of a design are arithmetic progressions without bound, on any layers, and their combinations cannot be enumerated.", "anchors": ["src/io/io.cpp: getDefUnits, getDefDieArea, getDefTracks, getDefString", "module/def/5.8-p029/def/defiSite.cpp: defiBox::addPoint", "src/db/obj/frBlock.h: getBoundaryBBox, getTrackPatterns", "src/io/io_parser_helper.cpp: buildGCellPatterns"]}
{"id": "C154", "title": "Cuts that break a LEF 5.8 adjacent-cut rule are reported", "statement": "When the checker looks at cuts, every pair of cuts of a layer that breaks an ADJACENTCUTS rule of its LEF58_SPACING properties is reported with that rule at the place between the cuts: both cuts are of the rule's class, the first has the given number of other cuts of the class nearer than WITHIN (or, with TWOCUTS, both have that many), and they are nearer than the spacing. Nothing else is reported for these rules, and the older rules of the layer are checked as well.", "quantifier": "all layouts of cuts, classes, nets and fixed flags; all rules of the layer in any number and order", "why_tests_cant": "Whether a rule binds a cut depends on how many others lie around it in any direction; layouts cannot be enumerated.", "anchors": ["src/gc/FlexGC_main.cpp: checkCutSpacing_main, checkLef58CutSpacing_main, checkLef58CutSpacing_spc_adjCut, checkLef58CutSpacing_spc_hasAdjCuts, checkLef58CutSpacing_spc_hasTwoCuts, checkLef58CutSpacing_spc_getReqSpcVal", "src/db/tech/frLayer.h: getCutClassIdx, addLef58CutSpacingConstraint"]}
{"id": "C155", "title": "Cuts near corners of the metal that covers them are reported", "statement": "For a LEF 5.8 cut spacing rule with CUTCLASS, LAYER and CONCAVECORNER or NONEOLCONVEXCORNER, a cut of that class inside a rectangle of its net's metal on that layer is reported when it is nearer than the spacing to a concave corner on the rectangle's border, respectively when a point of it lies in the triangle, with legs along the two edges and no longer than the spacing, of a convex corner that does not belong to a line end. The report lies between the corner and the cut, and nothing else is reported for these rules.", "quantifier": "all cuts, metal shapes with any outline, classes, nets, fixed flags and rules", "why_tests_cant": "Outlines have any number of corners at any distances; the condition is about every pair of a cut and a corner.", "anchors": ["src/gc/FlexGC_main.cpp: checkLef58CutSpacing_spc_layer, checkLef58CutSpacing_main", "src/gc/FlexGC_init.cpp: initNet_pins_polygonCorners_helper"]}
{"id": "C156", "title": "The guide file that is written can be read again", "statement": "When an output guide file is asked for, the file lists every net with its name and, between brackets, one line per guide: the area of the global cells the guide covers, and the layer. Reading that file for the same design gives every net the same rectangles of cells on the same layers in the same order: the lower left corner of each area is in the first cell of the guide and its upper right corner, one unit inside, in the last; no area leaves the die. (Guides made by the router never change the layer; one that did would be written with the name of the layer followed by .5, and the file would then be refused.)", "quantifier": "all dies and grids of global cells that start inside the die, all lists of nets with any number of guides, all layer names and numbers", "why_tests_cant": "the round trip must hold for every grid, including the larger cells at the border of the die, and for all guides", "anchors": ["src/io/io_parser_helper.cpp: writeGuideFile", "src/io/io_guide.cpp: genGuides_final", "src/db/obj/frBlock.h: getGCellIdx, getGCellBox, getGCellCenter", "src/io/io.cpp: readGuide"]}
{"id": "C157", "title": "The DRC report lists every violation", "statement": "When a report file is asked for, it has three lines for every violation left at the end, in order: the kind of the rule by name, the nets, pins and obstructions it lies between, and the box in micrometres with the layer, for cuts the metal layer below. Coordinates are printed with six significant digits: exact if six digits suffice, otherwise off by at most half a unit of the sixth digit. Refuted for: places (violations a few steps apart on a large die have the same entry), layers with a two-width spacing table and marks for rechecking (called unknown), floating power shapes (not listed as sources).", "quantifier": "all lists of violations of all kinds, all sources, boxes, layers and database units, however doubles half way between two numbers of six digits are rounded", "why_tests_cant": "a test sees some violations at some places; the names and the precision must hold for all kinds and coordinates", "anchors": ["src/dr/FlexDR.cpp: reportDRC, main", "src/db/obj/frMarker.h: frMarker", "src/frBaseTypes.h: frConstraintTypeEnum"]}
{"id": "C158", "title": "The order in which the nets of a clip are routed depends only on their pins", "statement": "In every clip each net is routed once per pass. Nets whose smallest box around their own pins holds fewer pins of the clip come first, then those with the smaller box, then those numbered first; a net without pins comes after all that have them. The order depends neither on the order in which the nets were listed nor on the sorting algorithm of the library. With a seed, neighbours are exchanged but each net still comes once. Refuted for boxes of 2^31 square units or more: the area is computed in 32 bits and wraps, so a larger net can come first.", "quantifier": "all clips, all lists of nets with any pins and access points inside the clip, all sorting algorithms, all numbers drawn with a seed", "why_tests_cant": "the result of a parallel run must be repeatable for every clip; tests see some orders of some clips", "anchors": ["src/dr/FlexDR_init.cpp: initNets_numPinsIn", "src/dr/FlexDR_maze.cpp: mazeIterInit_sortRerouteNets, route_queue_init_queue"]}
{"id": "C159", "title": "A query of a clip's shapes finds exactly what is there", "statement": "While a clip is routed, wires, vias and patches are put into its shape index and taken out again. Whatever the history, a query for a box on a layer finds exactly the shapes on that layer, of the figures there at that time, that have a point in common with the box (edges included), each as often as an index built anew would find it. Putting a figure in and taking it out again changes nothing.", "quantifier": "all initial figures of a clip, all histories of putting in and taking out, all layers and query boxes, all via definitions with any number of rectangles", "why_tests_cant": "the index is changed thousands of times per clip and a stale or lost shape only shows later as a short or an open", "anchors": ["src/dr/FlexDR_rq.cpp: FlexDRWorkerRegionQuery::add, remove, query, init", "src/db/drObj/drShape.h: getBBox"]}
{"id": "C160", "title": "The area a wire brings to the border of a clip is its own", "statement": "At a pin where a net crosses the border of a clip, the metal area assumed for the minimum area rule is the sum of length times width of the net's wires on that layer that end at the pin and leave the clip, never less. Shapes of other nets and shapes that do not cover the pin never count. Refuted: the metal of a via or patch at the far end of such a wire is meant to be added, but the loop searches the shapes at the pin instead of those at the far end, so it is missing unless it covers the pin.", "quantifier": "all clips, all figures in them, all pins in the clip, in whatever order the index finds shapes", "why_tests_cant": "which shapes are counted depends on every arrangement of wires across a border", "anchors": ["src/dr/FlexDR_init.cpp: initNets_boundaryArea", "src/dr/FlexDR_rq.cpp: query"]}
{"id": "C161", "title": "Every pin of a placed cell is given an access point of its own", "statement": "Access patterns are prepared for the core, tie and antenna cells that have a signal or clock terminal, and for no others. The pins of a cell are searched from left to right by the mean x of their access points. When every signal pin of the cell has an access point, each pin of the placed cell is given exactly one point: one of its own, the one the pattern chose for it, whatever the order of the terminals. The left and right boundary points of a pattern are the first with the least and the greatest x. Refuted for cells where some signal pin has no access point: its place is taken by the point of the next pin, all later pins shift, and for the last one memory behind the pattern is read.", "quantifier": "all lists of placed cells, all orders of terminals and pins, all sets of access points, all patterns found by the search", "why_tests_cant": "the points are handed out by position, so one pin left out anywhere changes all later ones; tests with complete cells never see it", "anchors": ["src/pa/FlexPA_prep.cpp: getInsts, isSkipTerm, prepPattern_inst, genPatterns_commit, genInstPattern_commit"]}
{"id": "C162", "title": "The floor plan in the routed DEF file is that of the input, up to six digits", "statement": "The rows, tracks and gcell grids of the input DEF are copied to the routed DEF in their order. When no row has a property, the copy can be read again and has the same rows, tracks and grids, with the same names, sites, origins, orientations, layers and masks. Counts and steps of rows, starts, counts and steps of tracks and steps of gcell grids are printed with six significant digits: the copy is the input exactly if each of these numbers has no more than six, and no number is off by more than five parts in a million. Refuted for longer numbers: a track that starts at 1234567 starts at 1234570 in the output. Refuted for rows with properties: the property is printed behind the semicolon and the file cannot be read.", "quantifier": "all lists of rows, tracks and gcell grids with all names and integers, all property types", "why_tests_cant": "the loss depends on the size of the coordinates and on optional statements; small test designs have short numbers and no row properties", "anchors": ["src/io/defw.cpp: rowCbk cls, tracks, gcell grid", "module/def/5.8-p029/def/def.y: row, tracks, gcellgrid"]}
{"id": "C163", "title": "The components of the routed DEF file are those of the input", "statement": "A component without COVER placement and without properties is copied to the routed DEF with its name, master, nets, source, placement, orientation, generator, weight, region, halo and routing halo and is read back unchanged. The section is read back unchanged exactly if its count is the number of its components and there is at least one (one component survives a count of 0). A count that is too small drops the components after it. Refuted: a component with COVER placement or with any property makes the file unreadable, and so does a section without components, which is never ended.", "quantifier": "all lists of components with all combinations of options, all declared counts, all that follows the section", "why_tests_cant": "each option has its own printing code and the end of the section is found by counting down; tests exercise a few combinations", "anchors": ["src/io/defw.cpp: compf, cs, endfunc", "module/def/5.8-p029/def/def.y: comps_section, comp, comp_option"]}
{"id": "C164", "title": "The special nets of the routed DEF file are those of the input", "statement": "A special net is copied to the routed DEF with its connections, its wires (status, shielded net, layers, widths, shapes, styles, points with extensions and masks, vias with rotation, mask and array) and its FIXEDBUMP, WEIGHT, SOURCE, PATTERN, ORIGINAL and USE options, and is read back unchanged, whatever the declared count and the number of nets, when it has no VIA, RECT or POLYGON statement, no style of its own, no synthesized pin, and no virtual point or rectangle inside a wire. Refuted for the others: VIA statements and the style are dropped without a word; virtual points and rectangles inside wires are dropped, so that parts joined only virtually become wire and the mask of a dropped rectangle moves to the next point; a RECT or POLYGON statement or a synthesized pin makes the file unreadable.", "quantifier": "all lists of special nets with any number of connections, wires, paths and path elements, all combinations of options, all that follows the section", "why_tests_cant": "path elements can follow each other in unboundedly many ways and each has its own printing code; test power grids use only stripes and plain vias", "anchors": ["src/io/defw.cpp: snetf, netNamef, cs, endfunc", "module/def/5.8-p029/def/def.y: snets_section, snet_rule, snet_other_option, spath, path_item, net_connection"]}
{"id": "C165", "title": "The pins of the routed DEF file are those of the input", "statement": "A pin is copied to the routed DEF with its net, direction, use, supply and ground sensitivity, layers with bounds, mask and spacing rule, ports with polygons, vias and placement, its own placement and SPECIAL, and is read back unchanged, whatever the declared count and the number of pins, when it has no polygon, via or antenna statement of its own, no port has a layer, and it is not placed itself while its last port is unplaced. Refuted for the others: vias of a pin without layers are dropped without a word; the placement of a pin whose last port is unplaced becomes the placement of that port; a polygon, a via of a pin with layers, a port with a layer (the only way to give a port a shape besides polygons and vias) or an antenna statement makes the whole section unreadable.", "quantifier": "all lists of pins with any number of layers, polygons, vias and ports, all combinations of options, all that follows the section", "why_tests_cant": "the options of a pin combine freely and the meaning of a placement depends on the ports before it; test designs have one layer per pin and no ports", "anchors": ["src/io/defw.cpp: cls (case defrPinCbkType), cs, endfunc", "module/def/5.8-p029/def/def.y: pin_cap_rule, pin_options, pin_option, pin_layer_mask_opt", "module/def/5.8-p029/def/defiPinCap.cpp: defiPin::hasLayer, addPort, addPortLayer, setPlacement"]}
{"id": "C166", "title": "The vias of the routed DEF file are those of the input", "statement": "A via of rectangles with masks, or one made by a via rule with cut size, layers, spacing, enclosure, rows and columns, origin and offset, is copied to the routed DEF and read back unchanged; the section is read back unchanged exactly if its declared count is the number of its vias and there is at least one (a lone via survives a count of 0). Refuted for the rest: a cut pattern comes back with quotation marks around it; a via with a polygon, a section without vias or a count that is too large makes the section unreadable; a count that is too small drops the vias behind it.", "quantifier": "all lists of vias with any number of rectangles and polygons, all numbers in their rules, all declared counts, all that follows the section", "why_tests_cant": "whether a statement is printed depends on which of its numbers are 0, and the end of the section on the count declared; test designs declare the right count and use no patterns", "anchors": ["src/io/defw.cpp: cls (case defrViaCbkType), cs, endfunc", "module/def/5.8-p029/def/def.y: via_declaration, layer_stmt, layer_viarule_opts", "module/def/5.8-p029/def/defiVia.cpp: defiVia::hasRowCol, hasOrigin, hasOffset, clear"]}
{"id": "C167", "title": "The blockages of the routed DEF file are those of the input", "statement": "A blockage of rectangles, on a layer with component, slots or fills, pushdown, except-PG-net, mask and spacing or design rule width, or for placement with soft or partial density of at most six digits, is copied to the routed DEF and read back unchanged; the section is read back unchanged exactly if its declared count is the number of its blockages and there is at least one. Refuted for the rest: a blockage with a polygon, a section without blockages or a count that is too large makes the section unreadable; a count that is too small drops the blockages behind it.", "quantifier": "all lists of blockages with any number of rectangles and polygons, all combinations of options, all declared counts, all that follows the section", "why_tests_cant": "options exclude each other and combine freely, and the end of the section depends on the count declared; test designs have none or a few blockages", "anchors": ["src/io/defw.cpp: cls (case defrBlockageCbkType), cs, endfunc", "module/def/5.8-p029/def/def.y: blockage_def, blockage_rule, layer_blockage_rule, placement_comp_rule, rectPoly_blockage", "module/def/5.8-p029/def/defiBlockage.cpp: defiBlockage::hasSpacing, hasPartial, hasMask"]}
{"id": "C168", "title": "The regions of the routed DEF file are those of the input", "statement": "A region of one or more rectangles, with or without a type, is copied to the routed DEF and read back unchanged; the section is read back unchanged exactly if its declared count is the number of its regions and there is at least one (a lone region survives a count of 0). Refuted for the rest: a region with a property, a section without regions or a count that is too large makes the section unreadable; a count that is too small drops the regions behind it.", "quantifier": "all lists of regions with any number of rectangles and properties, all declared counts, all types of properties, all that follows the section", "why_tests_cant": "the end of the section depends on the count declared, and properties are printed with a word the reader takes for another name; test designs have no regions with properties", "anchors": ["src/io/defw.cpp: cls (case defrRegionCbkType), cs, endfunc", "module/def/5.8-p029/def/def.y: regions_section, regions_stmt, rect_list, region_option, region_prop", "module/def/5.8-p029/def/defiRegion.cpp: defiRegion::setup, addRect, addProperty"]}
{"id": "C169", "title": "The nondefault rules of the routed DEF file are those of the input", "statement": "A nondefault rule, with hard spacing, layers with width, diagonal width, spacing and wire extension, vias, via rules and minimum numbers of cuts, is copied to the routed DEF and read back unchanged; the section is read back unchanged exactly if its declared count is the number of its rules and there is at least one (a lone rule survives a count of 0). Refuted for the rest: a rule with a property, a section without rules or a count that is too large makes the section unreadable; a count that is too small drops the rules behind it.", "quantifier": "all lists of rules with any number of layers, vias, via rules, cuts and properties, all declared counts, all that follows the section", "why_tests_cant": "every combination of options and every declared count has to be right; test designs have a few rules without properties", "anchors": ["src/io/defw.cpp: ndr, cs, endfunc", "module/def/5.8-p029/def/def.y: nondefaultrule_section, nondefault_def, nondefault_option, nondefault_layer_option, nondefault_prop", "module/def/5.8-p029/def/defiNonDefault.cpp: defiNonDefault::addLayer, addVia, addMinCuts"]}
{"id": "C170", "title": "The die area of the routed DEF file is the outline of the input", "statement": "The die area of the routed DEF is given by the first two points of the outline in the input, so it is the outline exactly if that had two points, and the router reading the routed DEF sees the die it saw in the input. Refuted for the rest: an outline of more points, such as the four corners of a rectangle or a rectilinear die, is cut down to its first two.", "quantifier": "all outlines of two or more points, all die areas read before", "why_tests_cant": "it has to hold for outlines of any number of points; test designs give the die by two corners", "anchors": ["src/io/defw.cpp: cls (case defrDieAreaCbkType)", "module/def/5.8-p029/def/def.y: die_area", "module/def/5.8-p029/def/defiSite.cpp: defiBox::addPoint"]}
{"id": "C171", "title": "The groups of the routed DEF file are those of the input", "statement": "The parser reads groups as a DEF file gives them; a group with its members and region is copied to the routed DEF and read back unchanged, and the section is read back unchanged exactly if its declared count is the number of its groups and there is at least one (a lone group survives a count of 0). Refuted for the rest: a group with a property, a section without groups or a count that is too large makes the section unreadable; a count that is too small drops the groups behind it.", "quantifier": "all lists of groups with any number of members and properties, all declared counts, all types of properties, all that follows the section", "why_tests_cant": "the end of the section depends on the count declared, and properties are printed with a word the reader takes for another name; test designs have no groups with properties", "anchors": ["src/io/defw.cpp: cls (cases defrGroupNameCbkType, defrGroupMemberCbkType, defrGroupCbkType), cs, endfunc", "module/def/5.8-p029/def/def.y: groups_section, group_rule, group_members, group_option, group_region, group_prop, group_soft_option", "module/def/5.8-p029/def/defiGroup.cpp: defiGroup::setup, clear"]}
{"id": "C172", "title": "The pin properties of the routed DEF file are those of the input", "statement": "The parser reads the properties of pins as a DEF file gives them, and an entry without properties is copied to the routed DEF and read back with its component and pin. Refuted for the rest: the writer ends an entry before its properties, so a section with a property before its count is used up cannot be read.", "quantifier": "all lists of entries for pins of components and of the design, with any number of properties, all declared counts, all that follows the section", "why_tests_cant": "every entry of a realistic section has properties, and the loss shows only when another tool reads the routed DEF", "anchors": ["src/io/defw.cpp: cls (case defrPinPropCbkType), cs, endfunc", "module/def/5.8-p029/def/def.y: pin_props_section, pin_prop_terminal, pin_prop, pin_prop_name_value", "module/def/5.8-p029/def/defiPinProp.cpp: defiPinProp::setName, clear"]}
{"id": "C173", "title": "The slots and fills of the routed DEF file are those of the input", "statement": "The parser reads slots and fills as a DEF file gives them: layers with masks and OPC flags, rectangles, polygons, vias and their points. Refuted for the copy: the writer leaves out the parentheses around points, so no section of slots or fills, whatever it holds, can be read back from the routed DEF.", "quantifier": "all lists of slots and fills with any rectangles, polygons, vias, masks and flags, all declared counts, all that follows the section", "why_tests_cant": "it has to hold for every shape; test designs have no slots and fills", "anchors": ["src/io/defw.cpp: cls (cases defrSlotCbkType, defrFillCbkType), cs, endfunc", "module/def/5.8-p029/def/def.y: slot_section, slot_def, geom_slot, fill_section, fill_def, geom_fill, fill_via_pt", "module/def/5.8-p029/def/defiFill.cpp: defiFill::setVia, addPts, clear"]}
{"id": "C174", "title": "The property definitions of the routed DEF file are those of the input", "statement": "The parser reads the definitions of properties as a DEF file gives them: object, name, type, range and default. Their copy in the routed DEF is read back with numbers rounded to six significant digits (off by at most one part in 200000) and with an empty default string forgotten, so a section without name maps, of any length, is read back unchanged exactly if no number has more than six digits and no default is empty. Refuted for the rest: a definition of type NAMEMAPSTRING is printed without its type, so a section with one is an error.", "quantifier": "all lists of definitions for all nine kinds of object, all types, ranges and defaults, all that follows the section", "why_tests_cant": "the rounding shows only for long numbers, and the types are too many to list with all ranges and defaults; test designs define no name maps", "anchors": ["src/io/defw.cpp: prop, propstart, propend", "module/def/5.8-p029/def/def.y: prop_def_section, property_def, property_type_and_val, opt_range, opt_num_val", "module/def/5.8-p029/def/defiProp.cpp: defiProp::hasString, setPropQString, setPropNameMapString, clear"]}
