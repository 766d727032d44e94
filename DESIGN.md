# Formal model of TritonRoute – design

The code is read as text; nothing in /repo is built or run.  The model is a set of total,
computable Gallina functions over `Z`, `nat`, `list`, `option` and records.  Every definition
in a `*Model.v` file carries a comment citing the file and lines it models, and says where it
simplifies.  Proofs live in `*Proofs.v`, the property theorems (statement, `exact`, and
`Print Assumptions`) in `*Props.v`; small specifications independent of the model are in the
Props files or `*Spec.v`.

## Method per property (written before the proofs; kept current)

| id | what is modelled | how it is proved |
|----|------------------|------------------|
| C01–C03, C06 | frPoint/frBox/frTransform case analysis over Z | case split on the orientation, linear arithmetic; point-set specifications |
| C04 | frInst::getBBox + updateXform | same; counterexample for cells whose box does not start at the origin |
| C05 | frOrient name table | finite case split + string equality |
| C07–C08 | frBlock::getGCellIdx/Box/Center with C truncating division | non-linear integer arithmetic lemmas on Z.quot |
| C09–C10 | lookup tables as lists with lower_bound | induction over the sorted header list |
| C11–C16 | FlexGridGraph words as Z with shifts/masks, map from index to word | bit lemmas (Z.testbit), lower_bound induction |
| C17–C21 | maze search as a transition system whose pop order and costs are arbitrary | invariant over committed back-pointers; finite measure for termination; maximal-committed-prefix argument for completeness |
| C22–C24 | routeNet loop over an arbitrary sound search oracle, path writing | invariant: connected component of source points; list induction |
| C25–C28, C43 | A*-like tree search on an arbitrary graph with any pop order | loop invariant (path tree, visited set) |
| C29 | sorted-span merge helper | induction over the sorted span list with point-set semantics |
| C30 | repeated BFS labelling | invariant: labelled = reachable |
| C31 | map-based splitting helper | counterexample / conditional theorem |
| C32–C36 | wire clipping case analysis in init and end | case analysis, point-set semantics |
| C37–C39 | clip enumeration and batch assignment, parallel phase as interleavings of local steps | arithmetic; commutation of steps with disjoint write sets |
| C40–C42 | track loops with truncating division; guide bit rows; interval merge | arithmetic and list induction |
| C44–C47 | TA track choice, queue loop, spacing interval | list induction, measure, counterexamples |
| C48–C50 | PA dynamic program and edge-cost cache | Bellman argument by induction over layers; counterexample for the cache |
| C51–C52 | GC metal-spacing pair enumeration | geometry over Z, table maximum lemma |
| C53 | buildGCellPatterns: histogram of guide widths and offsets | list induction, arithmetic |
| C54 | routeNet's tree of paths | invariant: acyclic and edge-disjoint |
| C55–C56 | pin map of the connectivity check, clean-up of a net | counterexample + conditional theorem |
| C57 | genPatterns: enumeration of access patterns | invariant of the commit loop |
| C58–C62 | TA via spacing window, track choice, cost map, assignment queue | arithmetic, multiset semantics of the cost map, loop measure |
| C63–C69 | GC metal spacing and shorts, marker list, two-width tables | exact characterisation of the reported pairs; counterexamples |
| C70–C72 | construction of the grid graph of a clip | exact edge-set characterisation by induction over the coordinate loops |
| C73–C75 | TA panels, threads, write-back of modified nets | tiling arithmetic, commutation, list induction |
| C76–C80 | guide processing from rectangles to written guides | interval semantics, graph search invariants, refinement to gcell connectivity |
| C81 | splitting a net's routing in a clip into sub-nets | permutation and reachability |
| C82–C84 | the rip-up and reroute queue; router and checker are arbitrary functions | termination measure, trace invariants |
| C85–C88 | DEF wiring writer and reader, vias defined in DEF; the meaning of DEF wiring is specified separately (IoSpec) | induction over paths and figures; metal as point sets |
| C89–C93 | cost marking of a clip: the grid operations every placed wire, via, patch and cut performs; conflicts specified by distances between point sets (CostSpec) | window covers every point in range; net effect of an operation list; induction over histories |
| C94–C96 | the cost and estimate functions of the maze search and the order of its queue (FareModel); fares of trips (FareSpec) | search refined to a cost machine on walks (FareAbs): invariant relating settled points, committed directions and queued walks; consistency of the estimate |
| C97–C99 | the forbidden-length tables of rp/FlexRP_prep.cpp and their look-up (RpModel); placed vias, pads and wires against LEF rules (RpSpec) | interval-set lemmas, range per rule; composition with C96 |
| C100–C103 | cut spacing and cut shorts of the checker, and the cut rules it gets from LEF (CutModel); LEF's demands on two cuts (CutSpec) | equivalence of the two-cut check and the rule, window completeness, count of adjacent cuts; composition with C93 |
| C104–C107 | end-of-line check over the outlines of the metal, and the rules it gets from LEF (EolModel); windows in the frame of an edge (EolSpec) | one lemma per direction reduced to the frame, invariants of the marker list over contours, rules and query results; composition with C93 |
| C108–C114 | shape check of the polygons of a layer (StepModel): width, MINSTEP, NOBETWEENEOL, RECTONLY, grid, holes; boost::polygon is a parameter with the contract good_poly (StepSpec) | loop invariant of the walk around an outline, marker-list invariants, winding number = signed strip sum for holes |
| C115–C117 | corner spacing check of a layer and the reader of its rules (CornModel); maximal rectangles and outlines are given | coordinates along the two edges of a corner turn four directions into one; marker-list invariants; four relative positions of two rectangles |
| C118–C120 | minimum-area patches of a path (PatchModel), costs read from the grid | the loop is a fold over the stretches of the route; counting disjoint boxes of unit squares in a frame with flipped and swapped axes; sums of edge costs |
| C121–C125 | generation, check and selection of the access points of a pin (ApModel); checker and maximal rectangles are parameters | sorted maps against the specified coordinate types; extensions of the set of places tried; invariant over the twelve rounds |
| C126–C128 | grouping of instances, indices, stored places, rows (UiModel) | groups as an invariant of insertion; remainders against divisibility; rows as runs of continuing neighbours |
| C129, C130 | boundary pins of clips, first pass and later passes (BpModel) | index of a coordinate against the lines of the grid, per axis; case analysis on the pieces of a loaded wire |
| C131 | the way of a net through a later-pass clip, from loading to write-back (KeepModel) | locations that stand for an old object afterwards; one step of a chain at a time; conduction depends only on centre lines and vias |
| C132 | merging and splitting of the wires of a net before the DEF is written after track assignment (TwModel) | sweep invariant of one track; the split at vias is the identity; invariant of the tracks over the splits; metal is the dilation of the centre lines |
| C133 | choice of default vias, made vias, cut layer widths, order of the vias for pin access (ViaModel) | the map is the sorted set of priorities with the last via of each; loop invariant over the layers |
| C134 | reading guide files: splitting lines, numbers, nets, layers, boxes (GfModel) | lines and numerals are specified as inductive formats; induction over the file with the reader's state |
| C135 | rewriting of the input DEF with the made vias (RefModel) | line-wise; DEF lines are specified as words with blanks between them and decimal numerals |
| C136, C137 | set-up of the wire and vias of a guide in track assignment, wire length and pin cost (IrModel) | folds over the neighbours give minimum, maximum, sets and sums; region queries as filters in any order |
| C138 | intervals charged on tracks for fixed shapes and the cost of a wire (FixModel) | interval arithmetic: a charge meets the wire iff the boxes are closer than the spacing in both directions |
| C139 | history costs of a clip and their decay (HistModel) | grid operations as writes to independent counters (C11–C16); invariant: every place with a price is noted |
| C140 | set-up of a clip's grid: fixed shapes, access points, wires of nets, IO pins (SetupModel) | a flag has the value of the last operation on its edge; the last operation is found part by part (IO pins, access points, shapes by layer) |
| C141 | begin and end of a net: own terms, guides, access points, outside wires (NcModel) | each counter is the sum of conflicts of shapes; own pins are subtracted and added back; flags by the last operation on the edge |
| C142 | LEF/DEF readers of fixed metal and the index of fixed shapes (FmModel) | reading is a map over the files; placement by the geometry of C01; the index holds exactly the relation `metal` |
| C143 | Set-up of the checker of a clip and its incremental update (GiModel) | invariant with a set of nets whose pins are being remade; induction on the history |
| C144, C145 | index of routed objects and markers with object identity (RqModel) | index is a permutation of the entries of the database, invariant under add, remove, change; frames per net |
| C146, C147 | readers of LEF 5.8 properties as loops over words (L58Model); grammar and meaning of rules (L58Spec) | per-clause lemmas (the words of a clause change the values as the clause says, in every stage), chained; induction over rules; refutations by example |
| C148 | entries of a DEF read one by one (NlModel); what a connection names among the entries before it (NlSpec) | invariant by induction over the entries from the end: the database is the netlist of the entries read; acceptance iff complete |
| C149 | main and readParams over texts (CliModel); what lines say, last value (CliSpec) | split of the text by induction; invariant of the fold over lines from the end, per setting; same for options |
| C150 | getLefVias with its map of layer numbers (LvModel); a via as bottom, cut, top in any order (LvSpec) | case analysis of the sorted map of three layers; cut class by induction over classes and cuts; file by induction |
| C151 | getLef58CutSpacing with its helper and the two readers as stream programs (CspModel); grammar and meaning of the rules (CspSpec) | each clause as a step of the loop with its turns, then composition; induction over the rules of a property; end of reading by an invariant on the words left |
| C152 | modMinimumcutCostVia (SetupModel mod_mincut); which rules charge a via, by boxes (MciSpec) | net effect of the operations of a window at one point; induction over the rules |
| C153 | callbacks for UNITS, DIEAREA, TRACKS; the parser's box; bounding box of the boundary; end loop of buildGCellPatterns (DhModel) | induction over the statements: the patterns of each layer; composition with C40 |
| C154, C155 | the LEF58 part of checkCutSpacing_main: adjacent cuts, corners (Cs8Model) | what one pair adds, lifted over the loops (as for C100); counting by distinct cuts; nearest point of a box for the triangle |
| C156 | writeGuideFile and the guides of genGuides_final; the reader of C134 | round trip: the written text has the format of C134, whose reader theorem then applies; index arithmetic of C07/C08 |
| C157 | reportDRC: names, sources, six-digit numbers, layer | induction over the violations; integer arithmetic for the six digits; witnesses for the lost places |
| C158 | initNets_numPinsIn and mazeIterInit_sortRerouteNets at the first iteration | sortedness and uniqueness of sorted permutations under a total order on keys; box as a fold invariant |
| C159 | FlexDRWorkerRegionQuery: add, remove, init, query | invariant over histories: the index is a permutation of the shapes of the live figures |
| C160 | initNets_boundaryArea | induction over the figures found; permutation invariance; witness for the far via |
| C161 | getInsts, prepPattern_inst, the reordering in genPatterns_commit and the hand-out in genInstPattern_commit | insertion sort gives a sorted permutation; the map from pin to point is an association list; boundary points as a fold invariant |
| C162, C163 | the copying callbacks of the DEF writer for rows, tracks, gcell grids and components, and the grammar of the DEF parser for the same statements | printing and parsing as functions on tokens; round trip by induction on the list; printf %g as rounding half-even to six digits |
| C164 | snetf of the DEF writer and the grammar of special nets in the DEF parser | printing and parsing as functions on tokens; round trip by induction on path elements, paths, wires, options and nets |
| C165 | case defrPinCbkType of cls in the DEF writer and the grammar of pins in the DEF parser | printing and parsing as functions on tokens; round trip by induction on layers, polygons, vias, ports and pins |
| C166, C167 | cases defrViaCbkType and defrBlockageCbkType of cls in the DEF writer and the grammar of vias and blockages in the DEF parser | printing and parsing as functions on tokens; sections with a count proved once for both; round trip by induction on rectangles and objects |
| C168, C169, C170 | cases defrRegionCbkType and defrDieAreaCbkType of cls and ndr in the DEF writer, and the grammar of regions, nondefault rules and the die area in the DEF parser | printing and parsing as functions on tokens, with the counted sections of C166; round trip by induction on rectangles, layers, vias and rules |
| C171, C172, C173 | cases for groups, pin properties, slots and fills of cls in the DEF writer, and their grammar in the DEF parser | printing and parsing as functions on tokens, with the counted sections of C166; a separate specification of the text of the input; induction on members, properties, shapes and entries |
| C174 | prop, propstart and propend of the DEF writer, and the grammar of property definitions in the DEF parser | printing and parsing as functions on tokens, with the %g of C162; a separate specification of the text of the input; induction on the definitions |
| C82 on | appended as the model grows; the Props file of each family states method and specification | |

## Layout of the model

| files (rocq/theories) | code modelled |
|------|------|
| GeomModel, GCellModel | db/infra frPoint/frBox/frTransform/frOrient, db/obj frInst, frBlock gcell functions, io_parser_helper buildGCellPatterns |
| TechModel | db/tech frLookupTbl, frConstraint tables, frTechObject forbidden-length tables |
| GridModel | dr/FlexGridGraph.h bit fields, counters, index conversions, costs |
| MazeModel | dr/FlexGridGraph_maze.cpp search and expansion, FlexWavefront |
| NetModel | dr/FlexDR_maze.cpp routeNet and path writing |
| TreeModel, ConnModel | dr/FlexDR_conn.cpp: merge, node map, search, final clean-up |
| GraphModel | ta/FlexTA_init, dr/FlexDR_init track coordinates, dr/FlexGridGraph.cpp construction |
| BatchModel | dr/FlexDR.cpp clips, batches, threads; ta/FlexTA.cpp panels |
| ClipModel | dr/FlexDR_init.cpp loading, dr/FlexDR_end.cpp write-back, route/route_queue selection |
| SubnetModel | dr/FlexDR_init.cpp initNets_searchRepair |
| QueueModel | dr/FlexDR_maze.cpp route_queue, route_queue_main; dr/FlexDR_init.cpp route_queue_init_queue, route_queue_update_* |
| IoModel | io/defw.cpp netf (wires of a net); io/io.cpp getDefNets (wires), fillConnFigs_net, getDefVias |
| CostModel | dr/FlexDR_maze.cpp 61-1510: modViaForbiddenThrough, modMinSpacingCostPlaner, modMinSpacingCostVia(_eol), modEolSpacingCost, modCutSpacingCost, modInterLayerCutSpacingCost, modPathCost |
| FareModel | dr/FlexGridGraph_maze.cpp 35-113, 233-298, 357-476, 591-640; dr/FlexGridGraph.h 291-310; dr/FlexWavefront.h: getEstCost, getNextPathCost, entry fields, operator< |
| CutModel | gc/FlexGC_main.cpp 2346-2719, 3351-3616 (cut spacing, without LEF58); db/tech/frLayer.h addCutSpacingConstraint; io/io_parser_helper.cpp initConstraintLayerIdx |
| EolModel | gc/FlexGC_main.cpp checkMetalEndOfLine and helpers; gc/FlexGC_init.cpp (edges of outlines); io/io.cpp (ENDOFLINE rules) |
| StepModel | gc/FlexGC_main.cpp checkMetalShape and the checks it calls; io/io.cpp (MINSTEP) |
| CornModel | gc/FlexGC_main.cpp checkMetalCornerSpacing; gc/FlexGC_init.cpp corners; io/io.cpp LEF58_CORNERSPACING |
| PatchModel | dr/FlexDR_maze.cpp minimum-area patches; dr/FlexDR.cpp half via areas |
| ApModel | pa/FlexPA_prep.cpp access points of a pin; pa/FlexPA_init.cpp track coordinates |
| UiModel | pa/FlexPA_init.cpp unique instances; pa/FlexPA_prep.cpp rows and stored places |
| BpModel | dr/FlexDR.cpp initGCell2BoundaryPin, initDR_mergeBoundaryPin; dr/FlexDR_init.cpp initNet_boundary |
| KeepModel | composition: dr/FlexDR_init.cpp initNetObjs, initNets_searchRepair, initNet_boundary; dr/FlexDR_end.cpp end |
| TwModel | io/io.cpp mergeSplitConnFigs, splitVia_helper |
| ViaModel | io/io_parser_helper.cpp initDefaultVias, getViaRawPriority, initCutLayerWidth; pa/FlexPA_init.cpp initViaRawPriority |
| GfModel | io/io.cpp Reader::readGuide, with the word splitting of istringstream and std::stoi |
| RefModel | io/io_parser_helper.cpp writeRefDef |
| IrModel | ta/FlexTA_init.cpp initIroute and helpers; ta/FlexTA_assign.cpp getWlenCost, getPinCost; ta/FlexTA_end.cpp |
| FixModel | ta/FlexTA_init.cpp initFixedObjs and helpers; ta/FlexTA_assign.cpp getDRCCost |
| HistModel | dr/FlexDR_init.cpp initMazeCost_marker_route_queue_addHistoryCost, route_queue_addMarkerCost, route_queue_markerCostDecay |
| SetupModel | dr/FlexDR_init.cpp initMazeCost, _fixedObj, _terms, _ap, _connFig, _planarTerm; dr/FlexDR_maze.cpp modBlockedPlanar, modBlockedVia, modAdjCutSpacingCost_fixedObj, modMinimumcutCostVia |
| NcModel | dr/FlexDR_maze.cpp mazeNetInit, mazeNetEnd; dr/FlexDR_init.cpp initMazeCost_ap_helper, _ap_planarGrid_helper, _minCut_helper |
| FmModel | io/io.cpp getLefMacros, getLefPins, getLefObs, getDefComponents, getDefTerminals, getDefBlockages; frRegionQuery.cpp init, add, query |
| GiModel | gc/FlexGC_init.cpp, FlexGC_rq.cpp, FlexGC_main.cpp main up to the checks; its calls in dr/FlexDR_maze.cpp route_queue, route_queue_main |
| RqModel | frRegionQuery.cpp routed objects and markers; FlexDR_end.cpp; commits of FlexDR_conn.cpp |
| L58Model | io.cpp getLef58SpacingTable, getLef58Spacing, getLef58MinStep, getLef58CutClass, getLef58CornerSpacing |
| NlModel | io.cpp getDefComponents, getDefTerminals (names), getDefNets (connections) |
| CliModel | main.cpp readParams, main (up to the router) |
| LvModel | io.cpp getLefVias; frLayer.h getCutClassIdx |
| CspModel | io.cpp getLef58CutSpacing, _helper, _layer, _adjacentCuts |
| MciSpec | specification of minimum-cut costs; the model is in SetupModel |
| DhModel | io/io.cpp getDefUnits, getDefDieArea, getDefTracks, getDefString; defiBox::addPoint; frBlock getBoundaryBBox, getTrackPatterns |
| Cs8Model | gc/FlexGC_main.cpp checkLef58CutSpacing_*; frLayer getCutClassIdx by size |
| GwModel, GwSpec, GwProofs, GwProps | writing the guide file |
| RptModel, RptSpec, RptProofs, RptProps | the DRC report |
| OrdModel, OrdSpec, OrdProofs, OrdProps | the order of the nets of a clip |
| BaModel, BaSpec, BaProofs, BaProps | the shapes of a clip and the area of wires that leave it |
| PiModel, PiSpec, PiProofs, PiProofs2, PiProps | access points of the pins of placed cells |
| DwModel, DwSpec, DwProofs, DwProofs2, DwProofs3, DwProps | copying rows, tracks, gcell grids and components to the routed DEF |
| SnModel, SnSpec, SnProofs, SnProofs2, SnProps | copying special nets to the routed DEF |
| DpModel, DpSpec, DpProofs, DpProps | copying pins to the routed DEF |
| DvModel, DvSpec, DvProofs, DvProps | copying vias and blockages to the routed DEF |
| DnModel, DnSpec, DnProofs, DnProps | copying regions, nondefault rules and the die area to the routed DEF |
| DgModel, DgSpec, DgProofs, DgProps | copying groups, pin properties, slots and fills to the routed DEF |
| DdModel, DdSpec, DdProofs, DdProps | copying property definitions to the routed DEF |
| RpModel | rp/FlexRP_init.cpp, rp/FlexRP_prep.cpp (via-to-via and via-to-turn tables) |
| GuideModel | io/io_guide.cpp |
| TaModel | ta/FlexTA_assign.cpp, FlexTA_rq.cpp |
| PaModel | pa/FlexPA_prep.cpp dynamic programs over access points and patterns |
| GcModel | gc/FlexGC_main.cpp metal spacing and shorts, gc/FlexGC.cpp addMarker |

## Trusted base

* Coq 8.16.1 kernel (and its `vm_compute` reduction machine for closed computations).
* `Print Assumptions` is run under each property theorem; the output is
  "Closed under the global context" for every one of them: no theorem depends on an axiom.
* The development loads parts of the standard library that declare axioms which no theorem uses:
  the seven parameters of `Coq.ssr.ssrunder` (loaded through `ZifyBool`), as `vcheck` lists them.
* The faithfulness of the hand-written model to the cited C++ lines, including what each file's
  header comment says is a parameter (region queries, queue orders, thread schedules, cost functions).

## How the theorems were tested

`seeded/LOG.jsonl` records edits of the model that imitate realistic bugs, the theorems that failed to
prove afterwards, and the theorems that were tightened because an edit went unnoticed.

## Not modelled

* The lexers of LEF, DEF and guide files (the DEF copy is modelled from tokens on, in DwModel, SnModel, DpModel,
  DvModel, DnModel, DgModel and DdModel) and the remaining sections of the DEF copy: scan chains,
  IO timings, floor plan constraints, timing disables, partitions, styles, constraints and extensions.
* Boost geometry/polygon/R-tree containers (region queries are parameters), floating point, timing, memory
  management, progress messages.
* Integer overflow, except where a property is about fixed-width fields (grid-graph words):
  coordinates are unbounded `Z`.
* Of the checker: LEF58 end-of-line (never called), LEF58 cut spacing, the minimum-area check (never called)
  in the properties; of pin access: merging of pin shapes and the checker (parameters); of the router: the
  path area carried by wavefront entries (left out of FareModel; no cost reads it); of the
  forbidden-length tables: via overlap, line-to-line, planar and through tables (no caller reads the
  first three) and the LEF58 cut spacing of one process node.

## Findings

Found while modelling.  Those with a theorem name are proved of the model (`_refuted`); the others were
read in the code and are not covered by a theorem.

* Grid counters wrap instead of saturating (C15_counter_wraps_refuted).
* A placed cell whose box does not start at the origin gets a wrong box (C04 note).
* A net with exactly one touched pin is always reported broken (C28_single_pin_refuted); an untouched
  pin is never noticed (C55_unrouted_pin_noticed_refuted).
* The clean-up can leave wires of length zero (C56_no_zero_length_wire_refuted).
* Loading and writing back a clip changes end extensions at a pin on the clip edge
  (C34_metal_refuted); joining wires at the boundary can lose metal or width (C36_metal_lost_refuted,
  C36_width_refuted); zero-length wires on the clip edge are dropped (C32).
* route_queue writes the last routing, not the best one (C35_queue_best_refuted); aggressive passes may
  write more violations (C35_aggressive_refuted).
* Track assignment stores the cost of the track tried last (C45_stored_cost_refuted), accumulates box
  offsets over tracks (C47_planar_exact_refuted), may use a guide without any track silently
  (C59_no_candidate_reported_refuted), and gives different results with one and several threads
  (C74_thread_count_refuted).
* Pin access judges the same pair differently when the verdict comes from the cache
  (C50_pair_judged_the_same_refuted).
* Same-net spacing larger than the table is missed (C63_same_net_reported_refuted); two-width tables
  select a wrong row and their layers are never checked (C68_two_width_row_refuted,
  C69_two_width_checked_refuted).
* One stray guide makes the program stop although the pins are connected (C77_stray_guide_refuted); the
  first pin can act as feed-through (C80_first_pin_refuted).
* Wires crossing in the middle of both are not seen as connected (SubnetProps.ex_subs).
* The order of the reroute queue follows sets of pointers, so it depends on memory addresses (`ord` in QueueModel).
* Read in the code: `decayMarkerCost` falls through from z to the planar case; `getEstCost` reads past
  the coordinate vectors; marker and DRC costs are swapped for later iterations in `getNextPathCost`; the
  via-turn branch there is dead; `minSpc` uses a stale width; 2-D table lookup below the first header
  entry steps before the beginning; `initNets_boundaryArea` queries the wrong list; `getTrackLocs`
  ignores its direction argument; the cut-to-cut exactness check of TA uses dy for both axes; the
  quick DRC count of vertical wires uses direction E; corner spacing compares a y coordinate with the
  x coordinates of an edge.
* The DEF reader keeps only the first and the last point of a wiring path (C86_long_path_refuted), drops every path with a RECT, reads VIRTUAL points as wires and silently drops unknown vias (C86_rect_virtual_via_refuted). As the writer prints minimum-area patches as RECT, a second run loses them (C87_patch_lost_refuted).
* The DEF writer does not print wire widths (C85_default_width_needed).
* `frCutSpacingConstraint::getCutArea` is declared `bool` (db/tech/frConstraint.h:1199), so `AREA` rules compare a cut's area with 0 or 1: the rule is applied to cuts of every size in dr/FlexDR_maze.cpp:1268, ta/FlexTA_assign.cpp:485 and gc/FlexGC_main.cpp:2526 (C92_area_rule_refuted).
* Wire costs are measured from the four corners of a wire end, so a shape narrower than a wire that runs through its middle can cost nothing (C89_narrow_refuted).
* The points examined for via costs are those in range of the default via; a larger special access via in conflict further away costs nothing (C90_special_via_refuted).
* The maze search can return a route that is not a cheapest one even without forbidden lengths (C94_cheapest_refuted): directions are committed before the cheaper way with fewer bends is expanded. The excess is bounded (C94_nearly_cheapest).
* A via at a forbidden distance after a turn is never charged: `getNextPathCost` tests its own local `tLength`, which still holds the maximum, instead of the entry's (C96_via_after_turn_refuted).
* `prep_via2viaForbiddenLen_minSpc` reads `viaBox2.right() - viaBox2.left()` where the y extent of `viaBox1` is meant (rp/FlexRP_prep.cpp:861): for two vias on the same side a y distance at which the far pads violate spacing is allowed and a harmless one forbidden (C97_far_pads_y_refuted, C99_no_cause_refuted). It also keeps the width of the near pad.
* Inter-layer cut spacing with STACK is ignored at every distance (C97_stack_rule_refuted); minimum-cut ranges follow the layer's direction instead of the requested one, and `continue` skips the second half of a rule (C97_wide_metal_other_axis_refuted, C97_wide_metal_skipped_refuted).
* Read in the code: `getEstCost` and TA ask for vias on the upper side where they mean the lower one (`isVia2ViaForbiddenLen(z, false, false, ...) || layerNum - 2 < BOTTOM_ROUTING_LAYER`).
* Cut rules: a same-layer SAMENET rule is also applied to cuts of different nets (C101_samenet_refuted); `getCutArea` returns `bool`, so AREA never spares a cut (C101_area_refuted); STACK counts only together with SAMENET (C101_stack_refuted); a cut layer without SPACING has no short check (C100_short_without_rule_refuted).
* Cut rules between layers: the search window is that of the general rule, so a larger same-net spacing is missed (C102_larger_same_net_refuted); a same-net rule without a general one is dropped (C102_same_net_only_refuted); checks of a single net, which the router runs while rerouting, miss conflicts whose rule belongs to the other cut's layer (C102_one_net_refuted).
* End-of-line: whether a conflict between two fixed shapes is reported depends on the order of the search results, because `hasRoute` is not reset between them (C105_fixed_pairs_refuted). LEF58 end-of-line rules are read and then never checked.
* The router does not price the ends of wires against the preferred direction of their layer (C107_wrong_way_refuted), although the checker reports them.
* Minimum step: the corner flags of an edge are never set, so INSIDECORNER, OUTSIDECORNER, STEP and LENGTHSUM rules are read and never enforced (C109_other_types_refuted); an outline with fewer than two edges of at least the minimum step is skipped (C109_small_shape_refuted); each MINSTEP statement replaces the one before (C109_earlier_statement_refuted).
* The minimum-area check exists and is never called; MINENCLOSEDAREA rules with WIDTH are dropped at reading. `patchMetalShape` runs for one process node only.
* Corner spacing: statements with two spacings per width are read and never enforced, or with the horizontal one only (C115_two_spacings_refuted, C115_one_row_two_spacings_refuted); CONCAVECORNER rules see only corners that a maximal rectangle shares (C115_concave_refuted); EXCEPTSAMENET, CORNERONLY, EXCEPTJOGLENGTH, MINLENGTH, EXCEPTNOTCH and EXCEPTSAMEMETAL are stored and never read (C116_same_net_refuted); wires in line are reported although they have a common run length (C116_aligned_refuted). The search window is that of the last row of each table, not of its largest entry. The check of a corner against edges is never called, and the router does not price corner spacing.
* Minimum-area patches: the area of a stretch is the sum over its wires, so a stretch that folds back is taken for larger than it is and stays below the minimum area (C118_folded_refuted). When neither place of a patch ends inside the route box both cost INT_MAX and the patch is put outside the box (C120_outside_refuted). A first stretch that does not start at a recorded pin counts as large enough. The half areas are those of the default vias also where the path uses another via of a pin. For odd widths the patch is one unit narrower than the width its length is computed for.
* Pin access: the centre line of a thin macro pin is recorded as on track (C122_macro_refuted). "Via in pin" compares the extents of the overlap, so a via over the inner corner of an L-shaped pin passes (C125_corner_refuted). Read in the code: the checker looks at 3000 database units around the point whatever the unit; cells of classes other than CORE (and its tie and antenna variants), BLOCK, PAD and RING get no access points and no message.
* Unique instances: `origin % pitch` is taken of an unsigned number, so instances at negative coordinates are grouped with wrong ones (C127_negative_placement_refuted); ends of track patterns inside an instance (C127_pattern_end_refuted) and the layer below a pin on the top layer (C127_top_layer_refuted) are not compared; a cell with a pin shape above the top layer is left out of the table and then looked up (undefined behaviour).
* Boundary pins: a track-assigned wire that runs along a clip edge gives the clip above or to the right of the edge pins at every global-cell line inside the edge, and the neighbour none (C129_one_sided_pins_refuted).
* Sub-nets: two wires of a net that cross away from their ends are separate sub-nets of a clip, so a connection through the crossing alone can be lost when the clip is rerouted (C131_crossing_refuted).
* DEF after track assignment: splitVia_helper compares the coordinate across the wire, so no wire is ever split at a via (C132_vias_do_not_split); wires of length 0 are dropped (C132_zero_length_refuted); a crossing may break only one of the wires, and wires are also broken where nothing crosses (C132_both_split_refuted, C132_nonvacuous).
* Default vias: of single-cut vias with equal priority all but the last are ignored, also for pin access (C133_all_vias_tried_refuted); a via made by the router mirrors its metal but not its cut (C133_cut_covered_refuted) and loses the cut class (C133_cut_class_refuted).
* Guide files: a blank or carriage return at the end of a line stops the program (C134_blank_at_line_end_stops), so files with Windows line ends are refused; coordinates such as 10.5 are silently cut (C134_numbers_checked_refuted); guides before the first net are kept for no net (C134_net_known_refuted).
* Reference DEF: vias declared on the line of `VIAS n ;` are dropped from the reference DEF (C135_same_line_text_refuted); with `COMPONENTS` and its number on different lines the made vias are never declared (C135_vias_written_refuted).
* Track assignment: a guide that ends at IO pins prefers the track nearest coordinate 0, whatever the pins' place (C137_io_pins_want_zero: wlen2 = 0); after a pin without access point the other pins of the terminal are never used (C137_other_pins_used_refuted); guides in one gcell count crossing wires twice (C136_wire_length).
* Track assignment: pins are kept at one layer width whatever spacing they need; wide pins are missed (C138_pins_spacing_refuted).
* History costs: via costs added for patches are not in viaHistoryMarkers and never decay (C139_patch_via_stays_refuted); the 26th marker at a place resets its cost to 0 (C139_price_lost_refuted); patches beyond the last grid line write to other points (C139_patch_off_grid_refuted).
* Set-up of a clip: whether wires may use a cell pin that overlaps a power wire depends on the order of the region query (C140_order_free_refuted); an access point can block the direction in which a neighbouring access point may be left (C140_access_kept_refuted).
* Routing one net: the off-track penalties on the lines from its access points are set when it ends although some were not there before (C141_grid_costs_restored_refuted); the walk along such a line reads outside the grid near the clip's border (C141_walk_outside_refuted); minimum-cut costs drift where an access point's via differs from the default (C141_via_costs_restored_refuted).
* Polygons of cell pins and obstructions are read but left out of the index of fixed shapes (C142_polygons_refuted); a DEF blockage with any attribute is skipped without effect (C142_blockage_attributes_refuted).
* For the process node GF14 the check at the begin of a clip leaves patches in the checker that the clip does not get (C143_recheck_patches_refuted).
* (C146, C147) Some LEF 5.8 clauses are dropped or misread: WRONGDIRECTION and EXCEPTEOL of spacing tables, WRONGDIRSPACING (becomes 1), WITHCUT, EXCEPTJOGLENGTH; EXTENSION with one value before OTHERENDWIDTH throws; state is kept from one rule of a property to the next (keyword2 in getLef58Spacing, MAXEDGES in getLef58MinStep, all of getLef58CornerSpacing).
* (C149) The parameter file is checked only by the number of known lines: five times lef is accepted; a field with a space before the colon is dropped silently. A last command-line option without its value dereferences a null pointer.
* (C150) A LEF via that names one metal layer twice and the metal above it passes the check of consecutive layers and is read with that metal as its cut.
* (C151) LEF58 cut spacing rules with ADJACENTCUTS are lost unless the rule ends in `CUTCLASS name ;`: in the loop after ADJACENTCUTS the `;` falls into the branch of unknown words, which skips the rule. `LAYER l CUTCLASS c ;` and `... ABOVEWIDTH w ;` are lost the same way. A missing number after TWOCUTSSPACING makes the reader loop for ever.
* (C152) modMinimumcutCostVia charges, for a rule with a LENGTH, only vias whose cuts are apart from the pin in x and in y; vias on the pin or straight beside it go free.
* (C153) DIEAREA with more than two points: getDefDieArea uses xl/yl/xh/yh, which the parser fills with the first two points only; a rectilinear die, or a rectangle given by four corners, gets a wrong, possibly flat, die box. TRACKS with several layers: only layer(0) is used; without LAYER a null pointer is made a string. buildGCellPatterns loops to `layerNum <= size` and throws when the number of layers is even (cut layer on top). UNITS of the DEF are stored but never compared with, or scaled to, those of the LEF.
* (C154) checkCutSpacing_main sets skipDiffNet when a LEF58 SAMENET rule exists (its comment says skipSameNet), so cuts of different nets escape every LEF58 cut rule of that layer. Neither cut of a pair is tested for the rule's class, and a cut of another class does not count itself, so the count of its neighbours is one too low.
* The DRC report prints micrometres with six significant digits, so on a die larger than 1 mm the place of a violation is only known to 0.01 um; spacing violations on layers with a two-width table are called `unknown`, as are the recheck marks the connectivity check adds after the last iteration. (C157)
* The area that orders the nets of a clip is a product of 32-bit numbers: for a box of 60000 by 60000 units it is negative, so that net is routed before smaller ones. (C158)
* `initNets_boundaryArea` queries the shapes at the far end of a wire into `results2` but loops over `results`, the shapes at the pin; a via or patch outside the clip is therefore not counted for the minimum area rule. (C160)
* A pin without access point only causes a message. In the hand-out it takes the point of the following pin, and the last pin reads memory behind the pattern. (C161)
* The routed DEF is unreadable when the input has a row property, a component property, a component with COVER placement or no component at all; track starts beyond a million units are rounded to six digits. (C162, C163)
* The routed DEF loses VIA statements of special nets and the virtual points inside their wires, and cannot be read when a special net has a RECT or POLYGON statement or a synthesized pin. (C164)
* The routed DEF cannot be read when a pin has a POLYGON statement, a via beside a layer, a PORT with a LAYER, or an antenna statement; the placement of a pin can move to its last port. (C165)
* The routed DEF cannot be read when a via or a blockage has a polygon, or when a VIAS or BLOCKAGES section is empty; the cut pattern of a via gains quotation marks with every pass. (C166, C167)
* The routed DEF cannot be read when a region or a nondefault rule has a property, or when one of these sections is empty; a die given by more than two points is cut down to its first two. (C168, C169, C170)
* The routed DEF cannot be read when a group or a pin of PINPROPERTIES has a property, or when the design has slots or fills. (C171, C172, C173)
* The copy of property definitions rounds ranges and defaults to six digits, drops empty default strings and loses the type of name maps. (C174)
