n("C04", "Proved for cells whose box starts at the origin, as stated; C04_nonzero_origin_refuted shows the law fails otherwise.")
n("C07", "For every grid meeting grid_ok; C53 shows the grids built from guides meet it.")
n("C08", "For dies right of and above the origin, or pitch >= 2 with a first cell at least 2 wide; C08_center_to_index_refuted shows the remaining case (pitch 1, negative coordinates) fails.")
n("C53", "Stated for non-negative guide and die coordinates; the two _refuted theorems record where the code deviates (negative guides, dies narrower than a pitch).")
n("C09", "C09_2d_undefined_at_first_header: the 2-D lookup used for spacing tables steps before the first row when the query does not exceed the first header; the lookup theorems assume it does.")
n("C14", "As stated, away from the limits; C14_limit_refuted shows that the law fails at the 8-bit limit.")
n("C15", "REFUTED: C15_counter_wraps_refuted (255 + 1 becomes 0, a marker counter at 250 becomes 0). Proved part: exact growth below the limit.")
n("C22", "The pins' access points, the cost functions and the order of the wavefront queue are arbitrary; RHang (search fuel exhausted) is excluded by C23 with the fuel bound of C18.")
n("C23", "Number of searches at most pins - 1; the routing loop never needs a further round and never dereferences a missing pin.")
n("C25", "Exact for nets with at least two touched pins; nets with fewer are C28. The wires are axis-parallel and run from lower left to upper right (wire_ok).")
n("C26", "Covers the deletion, the splitting at pins and the shrinking of checkConnectivity_final; patch wires and markers are not modelled.")
n("C27", "C27_no_dangling_end holds for every queue order; C27_kept_meets_two_places needs the contract of std::priority_queue (pick_min).")
n("C28", "REFUTED: C28_single_pin_refuted. Proved part: a net with no touched pin always passes, a net with exactly one touched pin is always reported as broken.", status="partial")
n("C31", "After the merge step, as in the code; the lower_bound lookup is exact because merged wires do not overlap.")
n("C55", "REFUTED: C55_unrouted_pin_noticed_refuted (the pin map only holds pins found at wire ends and vias). Proved part: if every pin is touched, passing the check means connected.", status="partial")
n("C56", "REFUTED: C56_no_zero_length_wire_refuted. Proved part: axis-parallel and ordered, possibly of length zero.", status="partial")
n("C48", "Rows of cells: unconditional. Pins of a cell: every iteration after the first; the first one too if the three-via look-back changes no verdict (otherwise the pair costs are not fixed, see C50). Totals must fit an int.")
n("C50", "REFUTED: C50_pair_judged_the_same_refuted (only the two-via verdict is cached, the look-back verdict is not). Proved part: every lookup after the first iteration.", status="partial")
n("C57", "The reversed attempt records patterns in reversed pin order, hence the disjunction.")
n("C44", "The cost of a track is an arbitrary function below the unsigned maximum. C44_initial_candidate states what the first iteration guarantees (least total cost up to the first clean track).")
n("C45", "REFUTED: C45_stored_cost_refuted (the cost of the track tried last is stored; in the first iteration 0 can be stored for a track with violations). Proved part: in repair iterations the stored cost is zero exactly when the chosen track is clean, and never too small.", status="partial")
n("C46", "The interaction between guides is an arbitrary function; U is the finite set of guides of the worker including neighbours.")
n("C47", "REFUTED: C47_planar_exact_refuted (the wire box accumulates the offsets of all tracks tried before; from the second track on the interval is wrong or the square root is negative). Proved part: exact when at most one track is within reach.", status="partial")
n("C59", "REFUTED: C59_no_candidate_reported_refuted. Proved part: four of the six search orders report it.", status="partial")
n("C60", "The charges of a guide are the same values when added and removed (they are computed from its position, which does not change in between).")
n("C51", "Run-length tables (a plain SPACING rule is read as one, C64_plain_spacing); same-net pairs are C63.")
n("C63", "REFUTED: C63_same_net_reported_refuted (the search window ignores the same-net rule). Proved part: reported if the same-net value does not exceed the largest table entry.", status="partial")
n("C64", "Separate rectangle: its outline is part of the polygon edges; routed: not fixed and not overlapped by a fixed shape of its net. C64_check_defined: the check reads nothing out of range.")
n("C67", "The null owner (floating metal) is not distinguished from no second owner, hence same_reported.")
n("C68", "REFUTED: C68_two_width_row_refuted (rows are compared by width OR run length). Proved part: the spacing is never smaller than prescribed, and equal when width and run length select the same row.", status="partial")
n("C69", "REFUTED: C69_two_width_checked_refuted holds for every layout: no spacing violation is ever reported on such a layer.", status="partial")
n("C40", "Track step positive (a zero step is a division by zero, modelled as failure).")
n("C70", "A* costs and layer heights of the grid are not part of the model. C70_grid_defined: coordinates.")
n("C71", "For edges that exist; for absent edges the mark may be set and is never read.")
n("C72", "C72_wrong_way_wire_limit: with the default setting a wire across its layer has no edges although its ends are grid points.")
n("C37", "Offsets between 1 - size and 0; C37_main_passes_admissible: every pass of FlexDR::main uses one; C37_positive_offset_refuted: with a positive offset cells are missed.")
n("C38", "Route boxes (the areas written) unconditionally; the extended boxes (areas read) when a clip is wider than 2 * MTSAFEDIST, with C38_extended_boxes_refuted for narrower clips.")
n("C39", "Workers are arbitrary step functions that read the design and change only their private state; that main_mt writes nothing shared is read off the code, not proved.")
n("C74", "REFUTED: C74_thread_count_refuted, for workers of the shape of the code (with one thread end() of a panel precedes the next panel's init). Proved part: equal results when no panel reads what another panel of the pass writes.")
n("C32", "Proper wires (axis-parallel, positive length); C32_zero_length_refuted: a wire of length zero on the clip edge is dropped. Metal is never lost; C32_metal_added_refuted: an end extension at the cut can stick out if the wire leaves the clip by less than half a default width.")
n("C33", "The region query is a parameter that returns at least what meets the closed clip; the merge step at boundary points is included in C33_frame.")
n("C34", "REFUTED: C34_metal_refuted (at a pin on the clip edge the pieces stay separate and carry end extensions). Proved part: centre lines, vias and patches are always reproduced; the very same wires when each wire is alone at the clip edge.", status="partial")
n("C35", "REFUTED: C35_queue_best_refuted (the router used by main keeps the last routing), C35_aggressive_refuted. Proved part: conservative passes never write a worse clip; route() keeps the first routing with the fewest violations.", status="partial")
n("C36", "REFUTED: C36_metal_lost_refuted, C36_width_refuted. Proved part: centre lines, vias and patches are preserved by every join; metal exactly when widths agree and the inner end extensions fit in the other wire.", status="partial")
n("C75", "Centre lines of the wires (a join at the clip edge may replace the wire itself).")
n("C42", "Rectangles with area on layers of the technology; routing directions alternate.")
n("C43", "leads is reachability from the first pin over guides sharing an end gcell (stacked guides included); without feed-through paths do not continue through other pins. A net with one pin succeeds and keeps no guide.")
n("C77", "C77_stray_guide_refuted: one isolated guide stops the program although the pins are connected, hence the hypothesis no_stray. Bound on the number of search steps exists and depends on the net only.")
n("C78", "The order in which the node map is walked and ties are broken is arbitrary. Writing the guides in database units is not modelled.")
n("C80", "REFUTED for the first pin: C80_first_pin_refuted. Proved part: every other pin is joined to a gcell of the first pin through guided gcells alone.")
n("C30", "Wires do not overlap on a track (hypothesis wires_ok); two wires crossing in the middle of both are not joined there, as in the code (ex_subs); a patch is joined at its origin only.")
n("C82", "route_net, gc_net and gc_obj are arbitrary functions of an arbitrary state; the clip has finitely many net parts (dnets).")
n("C83", "For runs that end normally (the program exits when a net cannot be routed at all).")
n("C84", "Rip-up mode 0 (repair from violations).")
n("C85", "C85_default_width_needed: widths are not written, hence the default-width hypothesis (fig_std); C85_wires_stay_standard shows that clips keep it. DEF text formatting is not modelled; the metal of a via is a parameter.")
n("C86", "REFUTED: C86_long_path_refuted (only the first and last point of a path are kept), C86_rect_virtual_via_refuted (RECT paths dropped, VIRTUAL read as a wire, unknown vias dropped). Proved part: paths of at most two points with known names.", status="partial")
n("C87", "REFUTED for patches: C87_patch_lost_refuted. Proved part: all wires and vias come back, and nothing else; same metal if there are no patches.", status="partial")
n("C88", "Sizes, spacings and enclosures not negative, at least one row and column.")
n("C89", "C89_narrow_refuted: only the corners of the wire end are measured, so a shape narrower than a wire can be missed; hence the hypothesis wide_enough, and C89_no_false_cost without it. no_limit: no counter reaches 0 or 255.")
n("C90", "C90_special_via_refuted: at points with a special access via the scanned window is that of the default via; there only an upper bound is proved. The patch length is the one the code computes (rounded up to the manufacturing grid).")
n("C91", "The wire bound for solid shapes; at points with a special access via an upper bound.")
n("C92", "C92_area_rule_refuted: getCutArea returns bool, so an AREA rule applies to cuts of any size; hence no AREA.")
n("C93", "C93_removal_restores and C93_history_independent need no assumption on the rules; no_limit excludes saturation (C07).")
n("C94", "C94_cheapest_refuted: a cheapest route is not guaranteed (8 found where 7 exists in a 3x3 grid). fare_ok: sorted tracks, layer heights in order, costs not negative, not the late mode of one process; lengths_fit: the forbidden tables do not contain INT_MAX and no simple route runs that far in a layer; heap_pick: the queue delivers an entry not less than any other.")
n("C95", "C95_penalty_overestimates: in the late mode of the one process the estimate can be larger.")
n("C96", "REFUTED: C96_via_after_turn_refuted (a via at a forbidden distance after a turn is charged like any bend: the branch tests a local variable that always holds the maximum). Proved part: all other terms, exactly (C96_cost_is_the_fare, C96_clashes_are_charged).", status="partial")
n("C97", "REFUTED in four cases: C97_far_pads_y_refuted (y direction: the x extent of the wrong pad is read), C97_stack_rule_refuted (a STACK rule is dropped for all distances), C97_wide_metal_other_axis_refuted and C97_wide_metal_skipped_refuted (minimum-cut rules). Proved part: cuts of one or two layers, pads on the layer of the wire, far pads in x, minimum cuts along the preferred direction, and that the router pays (C97_close_cuts_are_paid_for). good_tech: alternating layers, default vias centred, as the code assumes.", status="partial")
n("C98", "C98_only_close_turns_are_forbidden is an equivalence for even wire widths and a wire that passes the whole pad; C98_close_turns_are_forbidden covers every length of that wire.")
n("C99", "REFUTED: C99_no_cause_refuted (two vias on the same side, y direction). Proved part: all other cases. At the far pads the width used is the larger one of both pads of the via (far_pads_near).", status="partial")
n("C100", "C100_short_without_rule_refuted: touching cuts of a layer without a cut SPACING rule are not reported; hence the condition that a rule of the layer binds. good_worker: rectangles are normalised and distinct objects; rules_from: the layer's rules are built from the LEF list by the modelled reader. LEF58_SPACING is not modelled.")
n("C101", "REFUTED: C101_samenet_refuted (same-layer SAMENET rules are applied to different nets), C101_area_refuted (AREA is ignored), C101_stack_refuted (STACK without SAMENET is ignored). Proved part: all other rules; C101_reported_shapes describes every report without these exclusions.", status="partial")
n("C102", "REFUTED: C102_larger_same_net_refuted (search window of the general rule), C102_same_net_only_refuted (same-net rule dropped without a general one), C102_one_net_refuted (a check of one net sees the pair only from the layer with the rule). Proved part: C102_different_nets_reported, and same net when its rule asks for no more.", status="partial")
n("C103", "Composes the cut rules (CutModel) with C93. breaks/breaks_inter are the conditions of C100 and C102. No special via at the position, no saturation of counters (no_limit).")
n("C104", "good_env: the outlines are closed rectilinear contours. Faithful to the region query: an edge lies in the window when its 1-unit strip does. LEF58_SPACING ENDOFLINE is read but never checked, and not modelled.")
n("C105", "C105_fixed_pairs_refuted: whether a pair of fixed shapes is reported depends on the order in which the search returns edges; hence the statement asks for routed metal at the end or at any edge facing it, not at the reported pair.")
n("C106", "Composes C104 with the outline of a rectangle; PARALLELEDGE rules are covered by C104.")
n("C107", "REFUTED: C107_wrong_way_refuted (the ends of a wire against the preferred direction of its layer are not priced). Proved part: all other shapes (C107_eol_wire_priced, C107_eol_via_priced). No special via at the position, no saturation of counters (no_limit).", status="partial")
n("C108", "good_poly (StepSpec): what is relied on of boost::polygon (slabs, maximal rectangles, outlines, holes); stub_good and ring_good show polygons that meet it.")
n("C109", "REFUTED: C109_small_shape_refuted (an outline with fewer than two long edges is skipped), C109_earlier_statement_refuted (only the last MINSTEP statement of a layer is kept), C109_other_types_refuted (statements without MAXEDGES are never enforced: the corner flags they test are never set). Proved part: MAXEDGES of the last statement, on outlines with two long edges.", status="partial")
n("C110", "For every kind of report of the shape check. The rules are those of the LEF list (layer_step).")
n("C111", "Other LEF58_MINSTEP options are not enforced by the code.")
n("C112", "Relies on good_poly; that a shape with an inner corner is not one rectangle is proved from its outline.")
n("C113", "The reported rectangle is a maximal rectangle of the polygon; that it touches the off-grid edge is proved.")
n("C114", "The area formula is proved equal to the number of unit squares the hole goes around (hole_area). MINENCLOSEDAREA rules with WIDTH are dropped at reading, and not part of sv_holes.")
n("C115", "REFUTED: C115_two_spacings_refuted (statements with a horizontal and a vertical spacing for two or more widths are never enforced), C115_one_row_two_spacings_refuted (with one width the horizontal spacing is used in both directions), C115_concave_refuted (CONCAVECORNER at the inner corner of an L: only a maximal rectangle that has its own corner there counts). Proved part: statements with one spacing per width, widths and spacings growing, where a maximal rectangle of the shape has its corner at the corner.", status="partial")
n("C116", "REFUTED: C116_same_net_refuted (EXCEPTSAMENET is stored and never read), C116_aligned_refuted (a common run length that ends exactly at the corner does not exempt). Proved part: every report is a corner the statement applies to with metal nearer than asked for, EXCEPTEOL honoured, not all fixed.", status="partial")
n("C117", "The outline of the routed rectangle is that of the rectangle alone. The statement has one spacing per width (good_cstmt).")
n("C118", "For straight stretches that start at a via; default vias are centred and at least as wide as the wire, widths are even. The first stretch of a connection relies on the recorded pin area. C118_folded_refuted: a stretch that turns back on itself can fall short, because overlapping metal is counted twice.")
n("C119", "The quotient that the code computes with doubles is exact in the model.")
n("C120", "C120_outside_refuted: when both places leave the route box, the patch leaves it. The cost at grid line 0 is never read.")
n("C121", "The pin shape is given by its maximal rectangles (boost polygon is trusted).")
n("C122", "C122_macro_refuted: the centre line of a thin macro pin has type 0 although it is off track, so RIGHTWAYONGRIDONLY does not hold it back.")
n("C123", "The wanted number is positive (3, 3 and 1 in the code) and tracks are on the manufacturing grid.")
n("C124", "The checker is an oracle. Near the left and right sides of the cell only the overhang to the left and right counts in the order.")
n("C125", "REFUTED: C125_corner_refuted (the extents of the overlap are compared, so a via over the inner corner of an L-shaped pin is taken). Proved part: a via over a single rectangle of the pin is inside it. Missing: other pins.")
n("C126", "The order of groups (only numbers them) is simplified. A cell with a pin shape above the top layer is undefined behaviour.")
n("C127", "Refuted without the hypotheses: C127_negative_placement_refuted (remainder of an unsigned number), C127_pattern_end_refuted, C127_top_layer_refuted (tracks of the layer below a top-layer pin are not compared).")
n("C128", "For masters whose boundary starts at the origin.")
n("C129", "Refuted without the exception: C129_one_sided_pins_refuted (a wire along the common edge gives pins inside the edge to one clip only). Wires are orthogonal, inside the die and longer than one unit (shorter ones are dummies).")
n("C130", "For wires of positive length; with the pieces of ClipModel.")
n("C131", "Composition of the loading (ClipModel), the sub-nets (SubnetModel), the boundary pins (BpModel) and the write-back (ClipModel). C131_clip_keeps_connection assumes that the router connects each sub-net; C131_routed_clip_keeps_connection takes the routing from the model of the router (NetModel, by C22) and assumes only that its grid is ordered and its pins stand for the boundary pins and pins of the sub-net. Connections through a crossing in the middle of both wires are not kept: C131_crossing_refuted.")
n("C132", "Assigned wires have a length. The metal of a wire of length 0 is lost (C132_zero_length_refuted). Merged wires lose their width in memory, which the DEF does not show. The splitting of wires at vias has no effect (C132_vias_do_not_split). At a crossing one of the two wires may be written unbroken (C132_both_split_refuted).")
n("C133", "Not all single-cut vias are tried at pins: of equally good ones only the last (C133_all_vias_tried_refuted). A made via covers its cut if the cut is symmetric about the diagonal (C133_cut_stays_covered), not otherwise (C133_cut_covered_refuted), and has no cut class (C133_cut_class_refuted). The node-specific choices of N16 and GF14 are not modelled.")
n("C134", "A blank or carriage return at the end of a net or guide line stops the program (C134_blank_at_line_end_stops: the last word is counted twice). Text after the digits of a coordinate is ignored (C134_numbers_checked_refuted). Guides before the first net name are accepted and belong to no net (C134_net_known_refuted). Coordinates outside 32 bits throw an exception, modelled as an error.")
n("C135", "Text after the number on the line that opens the VIAS section is lost (C135_same_line_text_refuted); if the numbers of the sections are on the next line, the made vias are not written (C135_vias_written_refuted). The boxes of the made vias are those of C133.")
n("C136", "A via to a guide without a track can be off the wire if another guide at the same end has one (C136_vias_on_wire_refuted). The tracks of guides that meet different ends are taken to lie in different gcell columns (separated). Only the wire is stored in the guide, the vias are not (save_guide).")
n("C137", "Proved for terminals all of whose pins have an access point: after a pin without one the counter of access points is not advanced and those of the other pins are not used (C137_other_pins_used_refuted). A guide at IO pins wants the track at coordinate 0 (C137_io_pins_want_zero). The GF14 part of the pin cost is not modelled.")
n("C138", "Shapes are at least two units wide (smaller ones do not survive the shrinking by one unit). Pins are given one width of the layer whatever spacing they need (C138_pins_spacing_refuted). The via part of blockages (initFixedObjs_calcOBSBloatDistVia) and GF14 are not modelled here.")
n("C139", "Increases are stated below the limit of the 8-bit counter; at the limit the price falls to nothing (C139_price_lost_refuted). The surcharge that a patch puts on vias is not noted and never fades (C139_patch_via_stays_refuted). A patch that reaches beyond the last grid line is written without a check of the index (C139_patch_off_grid_refuted), so patches are taken to lie on the grid. Only fixMode 9 is modelled, the only one the router uses. The product with 0.8 in float is taken as 4c/5 cut.")
n("C140", "Order-dependence shown: the region query's order decides between a power wire and a cell pin on it (C140_order_free_refuted), and an access point blocks a direction its neighbour allows (C140_access_kept_refuted). The region query is a parameter, the sets of terms ordered by address are in order of first meeting (no effect on blocked edges). The layers of the grid are taken to be the routing layers of the range with a cut layer above each but the last. The cost counters written by the same calls are covered by C89-C93.")
n("C141", "At most 255 conflicts per grid point, rectangles at least a wire wide. The search between begin and end of a net is any sequence of grid operations that leaves the fixed-shape counters of wires alone. REFUTED parts, not claimed in the statement: the off-track penalties are not restored after a net (C141_grid_costs_restored_refuted), the fixed-shape costs of vias drift because set-up uses the default via and begin/end the access point's (C141_via_costs_restored_refuted), and the walk along the line of an access point reads an edge outside the grid near the border of the clip (C141_walk_outside_refuted). Only fixMode 9.")
n("C142", "ORIGIN not beyond SIZE (otherwise misplaced: C142_origin_refuted); layer numbers in range. Not in the statement because false: polygons of pins and obstructions are not in the index (C142_polygons_refuted); blockages with SPACING, EXCEPTPGNET, COMPONENT, ... are skipped (C142_blockage_attributes_refuted). Rotation of via figures of special nets is not modelled (the DEF reader never sets it).")
n("C143", "Merging of rectangles to polygons, edges, corners and maximal rectangles is a parameter (a function of the metal). With the special process node GF14 the check at the begin of a clip must not make patches: it puts them in the checker and not in the clip (C143_recheck_patches_refuted); hence the hypothesis step_ok.")
n("C144", "the design as read has no patches (the DEF reader makes none; initDRObj would leave them out of the index). What a clean-up decides to delete, move or split is arbitrary (a clean-up that uses an object not of the net is the outcome None); constraint and sources of markers are not modelled.")
n("C145", "what the clean-up does to a flagged net is arbitrary here (see C26, C27, C56 for what it does)")
n("C146", "REFUTED for some clauses: WRONGDIRECTION and EXCEPTEOL of a table are dropped (the table then holds in every direction), WRONGDIRSPACING becomes 1 database unit (the setter takes a bool), WITHCUT is dropped (the rule then holds without a cut), one EXTENSION value with OTHERENDWIDTH throws, a table of another kind after one by parallel run length throws, and end-of-line rules after one TOCONCAVECORNER or TONOTCHLENGTH are lost. Proved part: every list of rules without these, with every other combination of clauses. Numbers are read as such (rounding to database units is a parameter).")
n("C147", "REFUTED for some lists: a minimum step takes MAXEDGES, MINADJACENTLENGTH or NOBETWEENEOL from an earlier rule if it has none; of one row with two spacings in a corner rule the second is lost; EXCEPTJOGLENGTH of a convex corner is never read; two corner rules in one property become one. Proved part: every list of cut classes; minimum steps where each rule gives what the ones before gave; one corner rule without a jog length, with one spacing per row or at least two rows with two.")
n("C148", "Names of the pins of one library cell and of IO pins are taken to differ (distinct). A pin named by two nets is listed by both while knowing only the second (C148_two_nets_ex).")
n("C149", "atoi, atof and sscanf are parameters. What the file does not guarantee is refuted: five lines of lef are accepted without a DEF, guide or output (C149_accepted_incomplete_refuted), and a last option without a value reads the null pointer (C149_missing_value_refuted). A field with a space before its colon is unknown and dropped without a word (C149_space_ex).")
n("C150", "Needs layers that differ: a via with a metal layer twice and the metal two above is taken with that metal as its cut (C150_same_layer_refuted). Via rules (VIARULE GENERATE) are read but never used by the router and are not modelled.")
n("C151", "REFUTED: a rule by adjacent cuts is lost unless it ends in the name of a cut class (C151_adjacent_lost: the closing semicolon counts as an unknown clause); so is a rule to another layer for a cut class alone or above a width alone (C151_layer_lost); SAMEMASK and MAXXY before LAYER are dropped, so the rule holds for all masks (C151_mask_lost); TWOCUTSSPACING without a number makes the reader loop for ever (C151_ends_refuted). Proved part: all other forms are read as written (C151_read_partial), and reading ends if each TWOCUTSSPACING has its number (C151_ends_partial).")
n("C152", "REFUTED: under a rule with a length, vias on the pin and vias straight beside it cost nothing, only those beyond a corner do (C152_beside_refuted). Proved part: exactly the vias with cuts on the pin (rules without a length) or beyond a corner nearer than distance plus pitch (rules with one) are charged, once per rule (C152_mincut_cost_partial; at points without a special access via), and taking the cost away undoes it (C152_undone).")
n("C153", "REFUTED: of a die area given by more than two points the first two count alone, so a square die given by its four corners has no width (C153_die_refuted, C153_die_first_two); of a TRACKS statement with several layers only the first gets tracks (C153_tracks_refuted, C153_tracks_first_layer); a step that is not whole is cut (C153_step_refuted); with a cut layer on top the layout of global cells ends in an exception (C153_top_layer_refuted). Proved part: units (C153_units), die areas by two points (C153_die_partial), statements with one layer and whole steps, with the tracks of regions (C153_tracks_partial, C153_region_tracks_partial), unknown layers (C153_unknown_layer), and exactly when the layout of global cells ends normally (C153_top_layer_partial).")
n("C154", "REFUTED: with one LEF58 rule for SAMENET on the layer, no other LEF58 rule is checked between different nets (C154_samenet_rule_hides_refuted); a rule for one class is applied to cuts of other classes (C154_other_class_refuted); a rule without CUTCLASS counts only cuts of no class, so on a layer with classes it never binds (C154_rule_without_class_refuted). Proved part: pairs of one net, or layers without SAMENET rules, are reported (C154_adjacent_cuts_reported_partial); if all cuts of the layer are of the rules' class every report is a real one (C154_reports_real_partial); older rules and earlier reports stay (C154_older_rules_still_checked, C154_earlier_reports_stay). Rules with EXACTALIGNED, EXCEPTSAMEPGNET, EXCEPTALLWITHIN, TO ALL, NOPRL, ENCLOSURE, SIDEPARALLELOVERLAP or SAMEMASK are not checked by the code (adj_rule leaves them out).")
n("C155", "Both directions, for metal and cut of one net (C155_cut_near_corner_reported) and for any report (C155_reports_real). Rules with STACK, ORTHOGONALSPACING, SHORTEDGEONLY or EXTENSION are not checked by the code and are outside corner_rule; WIDTH, PARALLEL and EDGELENGTH after CONCAVECORNER are ignored by it, so such a rule is checked as if it had no such condition. The fixed flags of corners are inputs of the model.")
n("C156", "Round trip: reader model (C134) applied to the text the writer model produces. Grids that start inside the die with non-negative coordinates, as in C08.")
n("C157", "The characters of the coordinates are not modelled, only their decimal value; ties of the rounding are a parameter. REFUTED parts: six digits lose the place on large dies, two-width spacing violations and recheck marks are called unknown, floating power is not listed as a source.")
n("C158", "The sort is modelled by insertion; C158_any_sort shows any arrangement no comparison contradicts is the same. 'after all that have them' assumes fewer than 99999 pins in a box. REFUTED for boxes of 2^31 square units or more (C158_area_wraps_refuted); the order theorem assumes a smaller clip.")
n("C159", "An R-tree is a list of its values. Figures have distinct addresses and are unchanged while in the index (setOffsetBox at FlexDR_maze.cpp:1866 takes the figure out first).")
n("C160", "Areas are unbounded numbers. REFUTED part: the far via is missing (C160_far_via_missing_refuted); the exact theorem assumes that no via or patch at the far end covers the pin.")
n("C161", "C161_own_point is the main theorem; C161_missing_pin_out_of_bounds and C161_shift_refuted describe cells with a pin without access points, which the code only reports on the screen. The search itself is C48 and C57.")
n("C162", "C162_plan_kept is the exact condition. C162_long_numbers_refuted and C162_row_property_refuted give the two ways in which the copy differs.")
n("C163", "C163_section_kept is the exact condition. C163_cover_or_property_refuted and C163_no_components_refuted give the designs whose output cannot be read.")
n("C164", "C164_net_kept and C164_section_kept are the round trip; C164_vias_dropped and C164_virtual_dropped say exactly what is read back of nets with VIA statements, style, virtual points and unmasked rectangles; C164_rect_polygon_refuted and C164_synthesized_refuted hold for every such net. Subnets, properties, VOLTAGE, FREQUENCY and SPACING are not modelled.")
n("C165", "C165_pin_kept and C165_section_kept are the round trip; C165_vias_dropped and C165_placement_moved say exactly what is read back otherwise; C165_shapes_refuted and C165_section_refuted hold for every pin with one of the unreadable statements. NETEXPR and ANTENNAMODEL are not modelled.")
n("C166", "C166_via_kept and C166_section_kept are the round trip; C166_cut_pattern_refuted says what is read back of a pattern; C166_polygon_refuted, C166_small_count_drops and C166_section_refuted cover the rest. PATTERNNAME (ignored from version 5.6 on) is not modelled.")
n("C167", "C167_blockage_kept and C167_section_kept are the round trip; C167_polygon_refuted, C167_small_count_drops and C167_section_refuted cover the rest. Densities that are not whole are not modelled.")
n("C168", "C168_region_kept and C168_section_kept are the round trip; C168_property_refuted, C168_small_count_drops and C168_section_refuted cover the rest. Values of properties are single words.")
n("C169", "C169_rule_kept and C169_section_kept are the round trip; C169_property_refuted, C169_small_count_drops and C169_section_refuted cover the rest. Widths are whole numbers.")
n("C170", "C170_die_two_points says what is read back of every outline, C170_die_kept when that is the outline, C170_die_same_box what the router makes of it.")
n("C171", "C171_input_read is the reading of the input, C171_group_kept and C171_section_kept the round trip; C171_property_refuted, C171_small_count_drops and C171_section_refuted cover the rest. Values of properties are single words.")
n("C172", "REFUTED: entries with properties are ended before them, so the copy cannot be read; proved part: C172_input_read is the reading of the input, C172_pin_kept and C172_section_kept what is kept; C172_property_refuted covers entries with properties.", "partial")
n("C173", "REFUTED: the copy of slots and fills can never be read; proved part: C173_slots_input_read and C173_fills_input_read are the reading of the input; C173_slot_refuted, C173_fill_refuted, C173_slots_refuted and C173_fills_refuted show that no copy can be read.", "partial")
n("C174", "C174_input_read is the reading of the input; C174_section_copied says what is read back, C174_section_kept when that is the input, C174_error how far it is off; C174_name_map_refuted covers name maps. Numbers are whole.")
