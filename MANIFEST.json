{
 "claims": [
  {
   "property": "C01",
   "status": "proved",
   "theorems": [
    "C01_transform_is_named_map",
    "C01_transform_revert_inverse",
    "C01_transform_isometry"
   ],
   "note": ""
  },
  {
   "property": "C02",
   "status": "proved",
   "theorems": [
    "C02_box_of_corners",
    "C02_box_transform_exact"
   ],
   "note": ""
  },
  {
   "property": "C03",
   "status": "proved",
   "theorems": [
    "C03_contains_exact",
    "C03_overlaps_exact",
    "C03_distance_exact",
    "C03_bloat_exact"
   ],
   "note": ""
  },
  {
   "property": "C04",
   "status": "proved",
   "theorems": [
    "C04_placed_at_location",
    "C04_nonzero_origin_refuted"
   ],
   "note": "Proved for cells whose box starts at the origin, as stated; C04_nonzero_origin_refuted shows the law fails otherwise."
  },
  {
   "property": "C05",
   "status": "proved",
   "theorems": [
    "C05_orient_names"
   ],
   "note": ""
  },
  {
   "property": "C06",
   "status": "proved",
   "theorems": [
    "C06_key_orders"
   ],
   "note": ""
  },
  {
   "property": "C07",
   "status": "proved",
   "theorems": [
    "C07_point_in_its_cell",
    "C07_cells_inside_die",
    "C07_cells_disjoint"
   ],
   "note": "For every grid meeting grid_ok; C53 shows the grids built from guides meet it."
  },
  {
   "property": "C08",
   "status": "proved",
   "theorems": [
    "C08_center_to_index",
    "C08_center_to_index_any_sign",
    "C08_center_to_index_refuted"
   ],
   "note": "For dies right of and above the origin, or pitch >= 2 with a first cell at least 2 wide; C08_center_to_index_refuted shows the remaining case (pitch 1, negative coordinates) fails."
  },
  {
   "property": "C09",
   "status": "proved",
   "theorems": [
    "C09_1d_lookup",
    "C09_1d_monotone_bounded",
    "C09_2d_lookup",
    "C09_2d_monotone_bounded",
    "C09_position_unique",
    "C09_2d_undefined_at_first_header"
   ],
   "note": "C09_2d_undefined_at_first_header: the 2-D lookup used for spacing tables steps before the first row when the query does not exceed the first header; the lookup theorems assume it does."
  },
  {
   "property": "C10",
   "status": "proved",
   "theorems": [
    "C10_via2via_membership",
    "C10_via_turn_membership",
    "C10_slots_distinct"
   ],
   "note": ""
  },
  {
   "property": "C11",
   "status": "proved",
   "theorems": [
    "C11_index_in_range",
    "C11_index_injective"
   ],
   "note": ""
  },
  {
   "property": "C12",
   "status": "proved",
   "theorems": [
    "C12_operation_effect",
    "C12_queries_read_attributes",
    "C12_words_stay_64bit",
    "C12_backpointers_and_flags"
   ],
   "note": ""
  },
  {
   "property": "C13",
   "status": "proved",
   "theorems": [
    "C13_same_from_both_ends",
    "C13_via_costs_same_from_both_ends",
    "C13_add_remove_visible",
    "C13_edges_stay_inside"
   ],
   "note": ""
  },
  {
   "property": "C14",
   "status": "proved",
   "theorems": [
    "C14_ripup_restores",
    "C14_limit_refuted"
   ],
   "note": "As stated, away from the limits; C14_limit_refuted shows that the law fails at the 8-bit limit."
  },
  {
   "property": "C15",
   "status": "partial",
   "theorems": [
    "C15_counter_wraps_refuted",
    "C15_counter_exact_below_limit_partial"
   ],
   "note": "REFUTED: C15_counter_wraps_refuted (255 + 1 becomes 0, a marker counter at 250 becomes 0). Proved part: exact growth below the limit."
  },
  {
   "property": "C16",
   "status": "proved",
   "theorems": [
    "C16_index_of_coordinate",
    "C16_coordinate_of_index",
    "C16_membership",
    "C16_index_box_exact"
   ],
   "note": ""
  },
  {
   "property": "C17",
   "status": "proved",
   "theorems": [
    "C17_found_path_is_a_route",
    "C17_search_changes_only_pointers"
   ],
   "note": ""
  },
  {
   "property": "C18",
   "status": "proved",
   "theorems": [
    "C18_search_terminates"
   ],
   "note": ""
  },
  {
   "property": "C19",
   "status": "proved",
   "theorems": [
    "C19_failure_means_unreachable",
    "C19_reachable_is_found"
   ],
   "note": ""
  },
  {
   "property": "C20",
   "status": "proved",
   "theorems": [
    "C20_traceback_never_stuck"
   ],
   "note": ""
  },
  {
   "property": "C21",
   "status": "proved",
   "theorems": [
    "C21_bends_and_box"
   ],
   "note": ""
  },
  {
   "property": "C22",
   "status": "proved",
   "theorems": [
    "C22_routed_net_connected"
   ],
   "note": "The pins' access points, the cost functions and the order of the wavefront queue are arbitrary; RHang (search fuel exhausted) is excluded by C23 with the fuel bound of C18."
  },
  {
   "property": "C23",
   "status": "proved",
   "theorems": [
    "C23_one_search_per_pin"
   ],
   "note": "Number of searches at most pins - 1; the routing loop never needs a further round and never dereferences a missing pin."
  },
  {
   "property": "C24",
   "status": "proved",
   "theorems": [
    "C24_wires_cover_path_exactly",
    "C24_routed_objects_well_formed"
   ],
   "note": ""
  },
  {
   "property": "C25",
   "status": "proved",
   "theorems": [
    "C25_check_exact"
   ],
   "note": "Exact for nets with at least two touched pins; nets with fewer are C28. The wires are axis-parallel and run from lower left to upper right (wire_ok)."
  },
  {
   "property": "C26",
   "status": "proved",
   "theorems": [
    "C26_cleanup_keeps_connected",
    "C26_cleanup_adds_no_metal"
   ],
   "note": "Covers the deletion, the splitting at pins and the shrinking of checkConnectivity_final; patch wires and markers are not modelled."
  },
  {
   "property": "C27",
   "status": "proved",
   "theorems": [
    "C27_no_dangling_end",
    "C27_kept_meets_two_places"
   ],
   "note": "C27_no_dangling_end holds for every queue order; C27_kept_meets_two_places needs the contract of std::priority_queue (pick_min)."
  },
  {
   "property": "C28",
   "status": "partial",
   "theorems": [
    "C28_single_pin_partial",
    "C28_single_pin_refuted"
   ],
   "note": "REFUTED: C28_single_pin_refuted. Proved part: a net with no touched pin always passes, a net with exactly one touched pin is always reported as broken."
  },
  {
   "property": "C29",
   "status": "proved",
   "theorems": [
    "C29_merge_preserves_metal",
    "C29_merge_touches_only_overlapping"
   ],
   "note": ""
  },
  {
   "property": "C30",
   "status": "proved",
   "theorems": [
    "C30_component_labels",
    "C30_sub_nets"
   ],
   "note": "Wires do not overlap on a track (hypothesis wires_ok); two wires crossing in the middle of both are not joined there, as in the code (ex_subs); a patch is joined at its origin only."
  },
  {
   "property": "C31",
   "status": "proved",
   "theorems": [
    "C31_crossing_points"
   ],
   "note": "After the merge step, as in the code; the lower_bound lookup is exact because merged wires do not overlap."
  },
  {
   "property": "C32",
   "status": "proved",
   "theorems": [
    "C32_pieces_are_the_wire",
    "C32_no_piece_crosses",
    "C32_metal",
    "C32_vias_patches",
    "C32_zero_length_refuted",
    "C32_metal_added_refuted"
   ],
   "note": "Proper wires (axis-parallel, positive length); C32_zero_length_refuted: a wire of length zero on the clip edge is dropped. Metal is never lost; C32_metal_added_refuted: an end extension at the cut can stick out if the wire leaves the clip by less than half a default width."
  },
  {
   "property": "C33",
   "status": "proved",
   "theorems": [
    "C33_wire_outside_kept",
    "C33_vias_patches",
    "C33_other_nets_untouched",
    "C33_frame"
   ],
   "note": "The region query is a parameter that returns at least what meets the closed clip; the merge step at boundary points is included in C33_frame."
  },
  {
   "property": "C34",
   "status": "partial",
   "theorems": [
    "C34_unchanged_clip_lines",
    "C34_unchanged_clip_restored_partial",
    "C34_metal_refuted"
   ],
   "note": "REFUTED: C34_metal_refuted (at a pin on the clip edge the pieces stay separate and carry end extensions). Proved part: centre lines, vias and patches are always reproduced; the very same wires when each wire is alone at the clip edge."
  },
  {
   "property": "C35",
   "status": "partial",
   "theorems": [
    "C35_never_worse",
    "C35_routed_exactly",
    "C35_written_exactly",
    "C35_best_kept",
    "C35_queue_best_refuted",
    "C35_aggressive_partial",
    "C35_aggressive_refuted"
   ],
   "note": "REFUTED: C35_queue_best_refuted (the router used by main keeps the last routing), C35_aggressive_refuted. Proved part: conservative passes never write a worse clip; route() keeps the first routing with the fewest violations."
  },
  {
   "property": "C36",
   "status": "partial",
   "theorems": [
    "C36_joined_partial",
    "C36_lines_preserved",
    "C36_otherwise_unchanged",
    "C36_metal_lost_refuted",
    "C36_width_refuted"
   ],
   "note": "REFUTED: C36_metal_lost_refuted, C36_width_refuted. Proved part: centre lines, vias and patches are preserved by every join; metal exactly when widths agree and the inner end extensions fit in the other wire."
  },
  {
   "property": "C37",
   "status": "proved",
   "theorems": [
    "C37_clips_tile_die",
    "C37_gcell_in_one_clip",
    "C37_each_clip_run_once",
    "C37_announced_total",
    "C37_main_passes_admissible",
    "C37_positive_offset_refuted"
   ],
   "note": "Offsets between 1 - size and 0; C37_main_passes_admissible: every pass of FlexDR::main uses one; C37_positive_offset_refuted: with a positive offset cells are missed."
  },
  {
   "property": "C38",
   "status": "proved",
   "theorems": [
    "C38_parallel_clips_apart",
    "C38_extended_boxes_apart",
    "C38_extended_boxes_refuted"
   ],
   "note": "Route boxes (the areas written) unconditionally; the extended boxes (areas read) when a clip is wider than 2 * MTSAFEDIST, with C38_extended_boxes_refuted for narrower clips."
  },
  {
   "property": "C39",
   "status": "proved",
   "theorems": [
    "C39_schedule_independent",
    "C39_workers_as_if_alone",
    "C39_schedules_finish"
   ],
   "note": "Workers are arbitrary step functions that read the design and change only their private state; that main_mt writes nothing shared is read off the code, not proved."
  },
  {
   "property": "C40",
   "status": "proved",
   "theorems": [
    "C40_region_tracks",
    "C40_track_locations",
    "C40_regions_split_tracks"
   ],
   "note": "Track step positive (a zero step is a division by zero, modelled as failure)."
  },
  {
   "property": "C41",
   "status": "proved",
   "theorems": [
    "C41_guides_mark_exactly",
    "C41_guides_cleared",
    "C41_guides_touch_nothing_else"
   ],
   "note": ""
  },
  {
   "property": "C42",
   "status": "proved",
   "theorems": [
    "C42_rectangles_to_intervals",
    "C42_merge_coverage"
   ],
   "note": "Rectangles with area on layers of the technology; routing directions alternate."
  },
  {
   "property": "C43",
   "status": "proved",
   "theorems": [
    "C43_search"
   ],
   "note": "leads is reachability from the first pin over guides sharing an end gcell (stacked guides included); without feed-through paths do not continue through other pins. A net with one pin succeeds and keeps no guide."
  },
  {
   "property": "C44",
   "status": "proved",
   "theorems": [
    "C44_best_candidate",
    "C44_initial_candidate"
   ],
   "note": "The cost of a track is an arbitrary function below the unsigned maximum. C44_initial_candidate states what the first iteration guarantees (least total cost up to the first clean track)."
  },
  {
   "property": "C45",
   "status": "partial",
   "theorems": [
    "C45_stored_cost_refuted",
    "C45_stored_cost_partial"
   ],
   "note": "REFUTED: C45_stored_cost_refuted (the cost of the track tried last is stored; in the first iteration 0 can be stored for a track with violations). Proved part: in repair iterations the stored cost is zero exactly when the chosen track is clean, and never too small."
  },
  {
   "property": "C46",
   "status": "proved",
   "theorems": [
    "C46_terminates"
   ],
   "note": "The interaction between guides is an arbitrary function; U is the finite set of guides of the worker including neighbours."
  },
  {
   "property": "C47",
   "status": "partial",
   "theorems": [
    "C47_planar_exact_refuted",
    "C47_planar_exact_partial"
   ],
   "note": "REFUTED: C47_planar_exact_refuted (the wire box accumulates the offsets of all tracks tried before; from the second track on the interval is wrong or the square root is negative). Proved part: exact when at most one track is within reach."
  },
  {
   "property": "C48",
   "status": "proved",
   "theorems": [
    "C48_row_choice_cheapest",
    "C48_cell_choice_cheapest"
   ],
   "note": "Rows of cells: unconditional. Pins of a cell: every iteration after the first; the first one too if the three-via look-back changes no verdict (otherwise the pair costs are not fixed, see C50). Totals must fit an int."
  },
  {
   "property": "C49",
   "status": "proved",
   "theorems": [
    "C49_tables_never_alias"
   ],
   "note": ""
  },
  {
   "property": "C50",
   "status": "partial",
   "theorems": [
    "C50_pair_judged_the_same_refuted",
    "C50_pair_judged_the_same_partial"
   ],
   "note": "REFUTED: C50_pair_judged_the_same_refuted (only the two-via verdict is cached, the look-back verdict is not). Proved part: every lookup after the first iteration."
  },
  {
   "property": "C51",
   "status": "proved",
   "theorems": [
    "C51_window_far_enough"
   ],
   "note": "Run-length tables (a plain SPACING rule is read as one, C64_plain_spacing); same-net pairs are C63."
  },
  {
   "property": "C52",
   "status": "proved",
   "theorems": [
    "C52_symmetric",
    "C52_short_iff_touching",
    "C52_distance_exact",
    "C52_run_length_exact"
   ],
   "note": ""
  },
  {
   "property": "C53",
   "status": "proved",
   "theorems": [
    "C53_inferred_grid",
    "C53_inference_succeeds",
    "C53_negative_guides_refuted",
    "C53_empty_grid_refuted"
   ],
   "note": "Stated for non-negative guide and die coordinates; the two _refuted theorems record where the code deviates (negative guides, dies narrower than a pitch)."
  },
  {
   "property": "C54",
   "status": "proved",
   "theorems": [
    "C54_routed_net_is_a_tree"
   ],
   "note": ""
  },
  {
   "property": "C55",
   "status": "partial",
   "theorems": [
    "C55_unrouted_pin_noticed_refuted",
    "C55_unrouted_pin_noticed_partial"
   ],
   "note": "REFUTED: C55_unrouted_pin_noticed_refuted (the pin map only holds pins found at wire ends and vias). Proved part: if every pin is touched, passing the check means connected."
  },
  {
   "property": "C56",
   "status": "partial",
   "theorems": [
    "C56_no_zero_length_wire_refuted",
    "C56_no_zero_length_wire_partial"
   ],
   "note": "REFUTED: C56_no_zero_length_wire_refuted. Proved part: axis-parallel and ordered, possibly of length zero."
  },
  {
   "property": "C57",
   "status": "proved",
   "theorems": [
    "C57_recorded_patterns_good"
   ],
   "note": "The reversed attempt records patterns in reversed pin order, hence the disjunction."
  },
  {
   "property": "C58",
   "status": "proved",
   "theorems": [
    "C58_via_exact"
   ],
   "note": ""
  },
  {
   "property": "C59",
   "status": "partial",
   "theorems": [
    "C59_no_candidate_reported_refuted",
    "C59_no_candidate_reported_partial"
   ],
   "note": "REFUTED: C59_no_candidate_reported_refuted. Proved part: four of the six search orders report it."
  },
  {
   "property": "C60",
   "status": "proved",
   "theorems": [
    "C60_ripup_restores"
   ],
   "note": "The charges of a guide are the same values when added and removed (they are computed from its position, which does not change in between)."
  },
  {
   "property": "C61",
   "status": "proved",
   "theorems": [
    "C61_initial_assigns_all"
   ],
   "note": ""
  },
  {
   "property": "C62",
   "status": "proved",
   "theorems": [
    "C62_violations_tried"
   ],
   "note": ""
  },
  {
   "property": "C63",
   "status": "partial",
   "theorems": [
    "C63_same_net_reported_refuted",
    "C63_same_net_reported_partial"
   ],
   "note": "REFUTED: C63_same_net_reported_refuted (the search window ignores the same-net rule). Proved part: reported if the same-net value does not exceed the largest table entry."
  },
  {
   "property": "C64",
   "status": "proved",
   "theorems": [
    "C64_close_pair_reported",
    "C64_plain_spacing",
    "C64_check_defined"
   ],
   "note": "Separate rectangle: its outline is part of the polygon edges; routed: not fixed and not overlapped by a fixed shape of its net. C64_check_defined: the check reads nothing out of range."
  },
  {
   "property": "C65",
   "status": "proved",
   "theorems": [
    "C65_no_false_alarm",
    "C65_same_net_thin"
   ],
   "note": ""
  },
  {
   "property": "C66",
   "status": "proved",
   "theorems": [
    "C66_short_reported"
   ],
   "note": ""
  },
  {
   "property": "C67",
   "status": "proved",
   "theorems": [
    "C67_reported_once",
    "C67_nothing_lost"
   ],
   "note": "The null owner (floating metal) is not distinguished from no second owner, hence same_reported."
  },
  {
   "property": "C68",
   "status": "partial",
   "theorems": [
    "C68_two_width_row_refuted",
    "C68_two_width_safe_partial"
   ],
   "note": "REFUTED: C68_two_width_row_refuted (rows are compared by width OR run length). Proved part: the spacing is never smaller than prescribed, and equal when width and run length select the same row."
  },
  {
   "property": "C69",
   "status": "partial",
   "theorems": [
    "C69_two_width_checked_refuted"
   ],
   "note": "REFUTED: C69_two_width_checked_refuted holds for every layout: no spacing violation is ever reported on such a layer."
  },
  {
   "property": "C70",
   "status": "proved",
   "theorems": [
    "C70_grid_defined",
    "C70_edges_exact",
    "C70_routing_range"
   ],
   "note": "A* costs and layer heights of the grid are not part of the model. C70_grid_defined: coordinates."
  },
  {
   "property": "C71",
   "status": "proved",
   "theorems": [
    "C71_off_track_cost"
   ],
   "note": "For edges that exist; for absent edges the mark may be set and is never read."
  },
  {
   "property": "C72",
   "status": "proved",
   "theorems": [
    "C72_wire_kept",
    "C72_via_kept",
    "C72_shapes_on_grid",
    "C72_wrong_way_wire_limit"
   ],
   "note": "C72_wrong_way_wire_limit: with the default setting a wire across its layer has no edges although its ends are grid points."
  },
  {
   "property": "C73",
   "status": "proved",
   "theorems": [
    "C73_panels_tile_die",
    "C73_each_panel_run_once"
   ],
   "note": ""
  },
  {
   "property": "C74",
   "status": "partial",
   "theorems": [
    "C74_thread_count_partial",
    "C74_thread_count_refuted"
   ],
   "note": "REFUTED: C74_thread_count_refuted, for workers of the shape of the code (with one thread end() of a panel precedes the next panel's init). Proved part: equal results when no panel reads what another panel of the pass writes."
  },
  {
   "property": "C75",
   "status": "proved",
   "theorems": [
    "C75_all_subnets_written"
   ],
   "note": "Centre lines of the wires (a join at the clip edge may replace the wire itself)."
  },
  {
   "property": "C76",
   "status": "proved",
   "theorems": [
    "C76_touching_guides_are_bridged",
    "C76_merge_never_stops"
   ],
   "note": ""
  },
  {
   "property": "C77",
   "status": "proved",
   "theorems": [
    "C77_connected_guides_are_accepted",
    "C77_stray_guide_refuted"
   ],
   "note": "C77_stray_guide_refuted: one isolated guide stops the program although the pins are connected, hence the hypothesis no_stray. Bound on the number of search steps exists and depends on the net only."
  },
  {
   "property": "C78",
   "status": "proved",
   "theorems": [
    "C78_written_guides"
   ],
   "note": "The order in which the node map is walked and ties are broken is arbitrary. Writing the guides in database units is not modelled."
  },
  {
   "property": "C79",
   "status": "proved",
   "theorems": [
    "C79_pin_shape_gcells"
   ],
   "note": ""
  },
  {
   "property": "C80",
   "status": "partial",
   "theorems": [
    "C80_no_feed_through_partial",
    "C80_first_pin_refuted"
   ],
   "note": "REFUTED for the first pin: C80_first_pin_refuted. Proved part: every other pin is joined to a gcell of the first pin through guided gcells alone."
  },
  {
   "property": "C81",
   "status": "proved",
   "theorems": [
    "C81_nothing_lost"
   ],
   "note": ""
  },
  {
   "property": "C82",
   "status": "proved",
   "theorems": [
    "C82_loop_ends",
    "C82_reroute_bound"
   ],
   "note": "route_net, gc_net and gc_obj are arbitrary functions of an arbitrary state; the clip has finitely many net parts (dnets)."
  },
  {
   "property": "C83",
   "status": "proved",
   "theorems": [
    "C83_followed_up"
   ],
   "note": "For runs that end normally (the program exits when a net cannot be routed at all)."
  },
  {
   "property": "C84",
   "status": "proved",
   "theorems": [
    "C84_only_for_cause"
   ],
   "note": "Rip-up mode 0 (repair from violations)."
  },
  {
   "property": "C85",
   "status": "proved",
   "theorems": [
    "C85_file_describes_routing",
    "C85_wires_stay_standard",
    "C85_default_width_needed"
   ],
   "note": "C85_default_width_needed: widths are not written, hence the default-width hypothesis (fig_std); C85_wires_stay_standard shows that clips keep it. DEF text formatting is not modelled; the metal of a via is a parameter."
  },
  {
   "property": "C86",
   "status": "partial",
   "theorems": [
    "C86_read_is_the_file_partial",
    "C86_long_path_refuted",
    "C86_rect_virtual_via_refuted"
   ],
   "note": "REFUTED: C86_long_path_refuted (only the first and last point of a path are kept), C86_rect_virtual_via_refuted (RECT paths dropped, VIRTUAL read as a wire, unknown vias dropped). Proved part: paths of at most two points with known names."
  },
  {
   "property": "C87",
   "status": "partial",
   "theorems": [
    "C87_round_trip_partial",
    "C87_patch_lost_refuted"
   ],
   "note": "REFUTED for patches: C87_patch_lost_refuted. Proved part: all wires and vias come back, and nothing else; same metal if there are no patches."
  },
  {
   "property": "C88",
   "status": "proved",
   "theorems": [
    "C88_rule_via",
    "C88_rect_via"
   ],
   "note": "Sizes, spacings and enclosures not negative, at least one row and column."
  },
  {
   "property": "C89",
   "status": "proved",
   "theorems": [
    "C89_wire_cost",
    "C89_no_false_cost",
    "C89_narrow_refuted"
   ],
   "note": "C89_narrow_refuted: only the corners of the wire end are measured, so a shape narrower than a wire can be missed; hence the hypothesis wide_enough, and C89_no_false_cost without it. no_limit: no counter reaches 0 or 255."
  },
  {
   "property": "C90",
   "status": "proved",
   "theorems": [
    "C90_via_cost",
    "C90_special_via_refuted"
   ],
   "note": "C90_special_via_refuted: at points with a special access via the scanned window is that of the default via; there only an upper bound is proved. The patch length is the one the code computes (rounded up to the manufacturing grid)."
  },
  {
   "property": "C91",
   "status": "proved",
   "theorems": [
    "C91_eol_cost"
   ],
   "note": "The wire bound for solid shapes; at points with a special access via an upper bound."
  },
  {
   "property": "C92",
   "status": "proved",
   "theorems": [
    "C92_cut_cost",
    "C92_inter_layer_cost",
    "C92_area_rule_refuted"
   ],
   "note": "C92_area_rule_refuted: getCutArea returns bool, so an AREA rule applies to cuts of any size; hence no AREA."
  },
  {
   "property": "C93",
   "status": "proved",
   "theorems": [
    "C93_history_independent",
    "C93_removal_restores",
    "C93_counters_count_conflicts"
   ],
   "note": "C93_removal_restores and C93_history_independent need no assumption on the rules; no_limit excludes saturation (C07)."
  },
  {
   "property": "C94",
   "status": "proved",
   "theorems": [
    "C94_nearly_cheapest",
    "C94_cheapest_refuted"
   ],
   "note": "C94_cheapest_refuted: a cheapest route is not guaranteed (8 found where 7 exists in a 3x3 grid). fare_ok: sorted tracks, layer heights in order, costs not negative, not the late mode of one process; lengths_fit: the forbidden tables do not contain INT_MAX and no simple route runs that far in a layer; heap_pick: the queue delivers an entry not less than any other."
  },
  {
   "property": "C95",
   "status": "proved",
   "theorems": [
    "C95_estimate_is_a_lower_bound",
    "C95_penalty_overestimates"
   ],
   "note": "C95_penalty_overestimates: in the late mode of the one process the estimate can be larger."
  },
  {
   "property": "C96",
   "status": "partial",
   "theorems": [
    "C96_cost_is_the_fare",
    "C96_clashes_are_charged",
    "C96_via_after_turn_refuted"
   ],
   "note": "REFUTED: C96_via_after_turn_refuted (a via at a forbidden distance after a turn is charged like any bend: the branch tests a local variable that always holds the maximum). Proved part: all other terms, exactly (C96_cost_is_the_fare, C96_clashes_are_charged)."
  },
  {
   "property": "C97",
   "status": "partial",
   "theorems": [
    "C97_close_cuts_are_forbidden",
    "C97_close_pads_are_forbidden",
    "C97_close_far_pads_are_forbidden_partial",
    "C97_cuts_at_wide_metal_partial",
    "C97_wide_metal_reach",
    "C97_close_cuts_are_paid_for",
    "C97_far_pads_y_refuted",
    "C97_stack_rule_refuted",
    "C97_wide_metal_other_axis_refuted",
    "C97_wide_metal_skipped_refuted"
   ],
   "note": "REFUTED in four cases: C97_far_pads_y_refuted (y direction: the x extent of the wrong pad is read), C97_stack_rule_refuted (a STACK rule is dropped for all distances), C97_wide_metal_other_axis_refuted and C97_wide_metal_skipped_refuted (minimum-cut rules). Proved part: cuts of one or two layers, pads on the layer of the wire, far pads in x, minimum cuts along the preferred direction, and that the router pays (C97_close_cuts_are_paid_for). good_tech: alternating layers, default vias centred, as the code assumes."
  },
  {
   "property": "C98",
   "status": "proved",
   "theorems": [
    "C98_close_turns_are_forbidden",
    "C98_only_close_turns_are_forbidden",
    "C98_no_via_no_rule"
   ],
   "note": "C98_only_close_turns_are_forbidden is an equivalence for even wire widths and a wire that passes the whole pad; C98_close_turns_are_forbidden covers every length of that wire."
  },
  {
   "property": "C99",
   "status": "partial",
   "theorems": [
    "C99_forbidden_has_a_cause_partial",
    "C99_no_cause_refuted"
   ],
   "note": "REFUTED: C99_no_cause_refuted (two vias on the same side, y direction). Proved part: all other cases. At the far pads the width used is the larger one of both pads of the via (far_pads_near)."
  },
  {
   "property": "C100",
   "status": "proved",
   "theorems": [
    "C100_close_cuts_reported",
    "C100_touching_cuts_reported",
    "C100_earlier_reports_stay",
    "C100_short_without_rule_refuted"
   ],
   "note": "C100_short_without_rule_refuted: touching cuts of a layer without a cut SPACING rule are not reported; hence the condition that a rule of the layer binds. good_worker: rectangles are normalised and distinct objects; rules_from: the layer's rules are built from the LEF list by the modelled reader. LEF58_SPACING is not modelled."
  },
  {
   "property": "C101",
   "status": "partial",
   "theorems": [
    "C101_reported_shapes",
    "C101_no_false_reports_partial",
    "C101_samenet_refuted",
    "C101_area_refuted",
    "C101_stack_refuted"
   ],
   "note": "REFUTED: C101_samenet_refuted (same-layer SAMENET rules are applied to different nets), C101_area_refuted (AREA is ignored), C101_stack_refuted (STACK without SAMENET is ignored). Proved part: all other rules; C101_reported_shapes describes every report without these exclusions."
  },
  {
   "property": "C102",
   "status": "partial",
   "theorems": [
    "C102_inter_layer_reported_partial",
    "C102_different_nets_reported",
    "C102_larger_same_net_refuted",
    "C102_same_net_only_refuted",
    "C102_one_net_refuted"
   ],
   "note": "REFUTED: C102_larger_same_net_refuted (search window of the general rule), C102_same_net_only_refuted (same-net rule dropped without a general one), C102_one_net_refuted (a check of one net sees the pair only from the layer with the rule). Proved part: C102_different_nets_reported, and same net when its rule asks for no more."
  },
  {
   "property": "C103",
   "status": "proved",
   "theorems": [
    "C103_cut_conflict_priced",
    "C103_inter_layer_priced"
   ],
   "note": "Composes the cut rules (CutModel) with C93. breaks/breaks_inter are the conditions of C100 and C102. No special via at the position, no saturation of counters (no_limit)."
  },
  {
   "property": "C104",
   "status": "proved",
   "theorems": [
    "C104_eol_reported"
   ],
   "note": "good_env: the outlines are closed rectilinear contours. Faithful to the region query: an edge lies in the window when its 1-unit strip does. LEF58_SPACING ENDOFLINE is read but never checked, and not modelled."
  },
  {
   "property": "C105",
   "status": "proved",
   "theorems": [
    "C105_eol_reports_real",
    "C105_fixed_pairs_refuted"
   ],
   "note": "C105_fixed_pairs_refuted: whether a pair of fixed shapes is reported depends on the order in which the search returns edges; hence the statement asks for routed metal at the end or at any edge facing it, not at the reported pair."
  },
  {
   "property": "C106",
   "status": "proved",
   "theorems": [
    "C106_wire_end_reported"
   ],
   "note": "Composes C104 with the outline of a rectangle; PARALLELEDGE rules are covered by C104."
  },
  {
   "property": "C107",
   "status": "partial",
   "theorems": [
    "C107_eol_wire_priced",
    "C107_eol_via_priced",
    "C107_wrong_way_refuted"
   ],
   "note": "REFUTED: C107_wrong_way_refuted (the ends of a wire against the preferred direction of its layer are not priced). Proved part: all other shapes (C107_eol_wire_priced, C107_eol_via_priced). No special via at the position, no saturation of counters (no_limit)."
  },
  {
   "property": "C108",
   "status": "proved",
   "theorems": [
    "C108_thin_metal_reported"
   ],
   "note": "good_poly (StepSpec): what is relied on of boost::polygon (slabs, maximal rectangles, outlines, holes); stub_good and ring_good show polygons that meet it."
  },
  {
   "property": "C109",
   "status": "partial",
   "theorems": [
    "C109_row_reported",
    "C109_short_steps_reported",
    "C109_other_types_refuted",
    "C109_small_shape_refuted",
    "C109_earlier_statement_refuted"
   ],
   "note": "REFUTED: C109_small_shape_refuted (an outline with fewer than two long edges is skipped), C109_earlier_statement_refuted (only the last MINSTEP statement of a layer is kept), C109_other_types_refuted (statements without MAXEDGES are never enforced: the corner flags they test are never set). Proved part: MAXEDGES of the last statement, on outlines with two long edges."
  },
  {
   "property": "C110",
   "status": "proved",
   "theorems": [
    "C110_shape_reports_real"
   ],
   "note": "For every kind of report of the shape check. The rules are those of the LEF list (layer_step)."
  },
  {
   "property": "C111",
   "status": "proved",
   "theorems": [
    "C111_end_between_steps_reported"
   ],
   "note": "Other LEF58_MINSTEP options are not enforced by the code."
  },
  {
   "property": "C112",
   "status": "proved",
   "theorems": [
    "C112_inner_corner_reported"
   ],
   "note": "Relies on good_poly; that a shape with an inner corner is not one rectangle is proved from its outline."
  },
  {
   "property": "C113",
   "status": "proved",
   "theorems": [
    "C113_off_grid_reported"
   ],
   "note": "The reported rectangle is a maximal rectangle of the polygon; that it touches the off-grid edge is proved."
  },
  {
   "property": "C114",
   "status": "proved",
   "theorems": [
    "C114_small_hole_reported"
   ],
   "note": "The area formula is proved equal to the number of unit squares the hole goes around (hole_area). MINENCLOSEDAREA rules with WIDTH are dropped at reading, and not part of sv_holes."
  },
  {
   "property": "C115",
   "status": "partial",
   "theorems": [
    "C115_corner_reported",
    "C115_two_spacings_refuted",
    "C115_one_row_two_spacings_refuted",
    "C115_concave_refuted",
    "C115_ragged_refuted"
   ],
   "note": "REFUTED: C115_two_spacings_refuted (statements with a horizontal and a vertical spacing for two or more widths are never enforced), C115_one_row_two_spacings_refuted (with one width the horizontal spacing is used in both directions), C115_concave_refuted (CONCAVECORNER at the inner corner of an L: only a maximal rectangle that has its own corner there counts). Proved part: statements with one spacing per width, widths and spacings growing, where a maximal rectangle of the shape has its corner at the corner."
  },
  {
   "property": "C116",
   "status": "partial",
   "theorems": [
    "C116_corner_reports_real",
    "C116_same_net_refuted",
    "C116_aligned_refuted"
   ],
   "note": "REFUTED: C116_same_net_refuted (EXCEPTSAMENET is stored and never read), C116_aligned_refuted (a common run length that ends exactly at the corner does not exempt). Proved part: every report is a corner the statement applies to with metal nearer than asked for, EXCEPTEOL honoured, not all fixed."
  },
  {
   "property": "C117",
   "status": "proved",
   "theorems": [
    "C117_diagonal_pair_reported"
   ],
   "note": "The outline of the routed rectangle is that of the rectangle alone. The statement has one spacing per width (good_cstmt)."
  },
  {
   "property": "C118",
   "status": "proved",
   "theorems": [
    "C118_minimum_area",
    "C118_folded_refuted"
   ],
   "note": "For straight stretches that start at a via; default vias are centred and at least as wide as the wire, widths are even. The first stretch of a connection relies on the recorded pin area. C118_folded_refuted: a stretch that turns back on itself can fall short, because overlapping metal is counted twice."
  },
  {
   "property": "C119",
   "status": "proved",
   "theorems": [
    "C119_one_patch_per_short_stretch"
   ],
   "note": "The quotient that the code computes with doubles is exact in the model."
  },
  {
   "property": "C120",
   "status": "proved",
   "theorems": [
    "C120_better_place_taken",
    "C120_outside_refuted"
   ],
   "note": "C120_outside_refuted: when both places leave the route box, the patch leaves it. The cost at grid line 0 is never read."
  },
  {
   "property": "C121",
   "status": "proved",
   "theorems": [
    "C121_on_the_pin",
    "C121_each_once"
   ],
   "note": "The pin shape is given by its maximal rectangles (boost polygon is trusted)."
  },
  {
   "property": "C122",
   "status": "proved",
   "theorems": [
    "C122_types_tell_the_tracks",
    "C122_macro_refuted"
   ],
   "note": "C122_macro_refuted: the centre line of a thin macro pin has type 0 although it is off track, so RIGHTWAYONGRIDONLY does not hold it back."
  },
  {
   "property": "C123",
   "status": "proved",
   "theorems": [
    "C123_best_first",
    "C123_none_missed",
    "C123_crossings_never_missed"
   ],
   "note": "The wanted number is positive (3, 3 and 1 in the code) and tracks are on the manufacturing grid."
  },
  {
   "property": "C124",
   "status": "proved",
   "theorems": [
    "C124_exactly_the_legal_accesses",
    "C124_vias_by_overhang"
   ],
   "note": "The checker is an oracle. Near the left and right sides of the cell only the overhang to the left and right counts in the order."
  },
  {
   "property": "C125",
   "status": "partial",
   "theorems": [
    "C125_inside_the_pin_partial",
    "C125_corner_refuted"
   ],
   "note": "REFUTED: C125_corner_refuted (the extents of the overlap are compared, so a via over the inner corner of an L-shaped pin is taken). Proved part: a via over a single rectangle of the pin is inside it. Missing: other pins."
  },
  {
   "property": "C126",
   "status": "proved",
   "theorems": [
    "C126_shared_exactly_if_same_view",
    "C126_every_instance"
   ],
   "note": "The order of groups (only numbers them) is simplified. A cell with a pin shape above the top layer is undefined behaviour."
  },
  {
   "property": "C127",
   "status": "proved",
   "theorems": [
    "C127_on_the_same_shape",
    "C127_on_the_same_tracks",
    "C127_negative_placement_refuted",
    "C127_pattern_end_refuted",
    "C127_top_layer_refuted"
   ],
   "note": "Refuted without the hypotheses: C127_negative_placement_refuted (remainder of an unsigned number), C127_pattern_end_refuted, C127_top_layer_refuted (tracks of the layer below a top-layer pin are not compared)."
  },
  {
   "property": "C128",
   "status": "proved",
   "theorems": [
    "C128_rows",
    "C128_abutting_neighbours",
    "C128_order"
   ],
   "note": "For masters whose boundary starts at the origin."
  },
  {
   "property": "C129",
   "status": "proved",
   "theorems": [
    "C129_first_pass_pins_exact",
    "C129_clip_edges",
    "C129_crossing_in_both",
    "C129_neighbours_agree",
    "C129_one_sided_pins_refuted"
   ],
   "note": "Refuted without the exception: C129_one_sided_pins_refuted (a wire along the common edge gives pins inside the edge to one clip only). Wires are orthogonal, inside the die and longer than one unit (shorter ones are dummies)."
  },
  {
   "property": "C130",
   "status": "proved",
   "theorems": [
    "C130_pins_where_kept_routing_meets",
    "C130_every_meeting_has_pin",
    "C130_pins_of_wires_exact"
   ],
   "note": "For wires of positive length; with the pieces of ClipModel."
  },
  {
   "property": "C131",
   "status": "proved",
   "theorems": [
    "C131_clip_keeps_connection",
    "C131_crossing_refuted",
    "C131_routed_clip_keeps_connection"
   ],
   "note": "Composition of the loading (ClipModel), the sub-nets (SubnetModel), the boundary pins (BpModel) and the write-back (ClipModel). C131_clip_keeps_connection assumes that the router connects each sub-net; C131_routed_clip_keeps_connection takes the routing from the model of the router (NetModel, by C22) and assumes only that its grid is ordered and its pins stand for the boundary pins and pins of the sub-net. Connections through a crossing in the middle of both wires are not kept: C131_crossing_refuted."
  },
  {
   "property": "C132",
   "status": "proved",
   "theorems": [
    "C132_same_lines",
    "C132_wires_once",
    "C132_no_crossing",
    "C132_vias_once",
    "C132_file_has_the_metal",
    "C132_vias_do_not_split",
    "C132_zero_length_refuted",
    "C132_both_split_refuted"
   ],
   "note": "Assigned wires have a length. The metal of a wire of length 0 is lost (C132_zero_length_refuted). Merged wires lose their width in memory, which the DEF does not show. The splitting of wires at vias has no effect (C132_vias_do_not_split). At a crossing one of the two wires may be written unbroken (C132_both_split_refuted)."
  },
  {
   "property": "C133",
   "status": "proved",
   "theorems": [
    "C133_default_is_best",
    "C133_stops_exactly",
    "C133_default_lies_along",
    "C133_added_vias",
    "C133_cut_stays_covered",
    "C133_access_vias",
    "C133_cut_width",
    "C133_all_vias_tried_refuted",
    "C133_cut_covered_refuted",
    "C133_cut_class_refuted"
   ],
   "note": "Not all single-cut vias are tried at pins: of equally good ones only the last (C133_all_vias_tried_refuted). A made via covers its cut if the cut is symmetric about the diagonal (C133_cut_stays_covered), not otherwise (C133_cut_covered_refuted), and has no cut class (C133_cut_class_refuted). The node-specific choices of N16 and GF14 are not modelled."
  },
  {
   "property": "C134",
   "status": "proved",
   "theorems": [
    "C134_reads_the_file",
    "C134_refuses_unknown",
    "C134_only_allowed_layers",
    "C134_refuses_overflow",
    "C134_coordinates_fit",
    "C134_blank_at_line_end_stops",
    "C134_guides_of_a_net",
    "C134_numbers_checked_refuted",
    "C134_net_known_refuted"
   ],
   "note": "A blank or carriage return at the end of a net or guide line stops the program (C134_blank_at_line_end_stops: the last word is counted twice). Text after the digits of a coordinate is ignored (C134_numbers_checked_refuted). Guides before the first net name are accepted and belong to no net (C134_net_known_refuted). Coordinates outside 32 bits throw an exception, modelled as an error."
  },
  {
   "property": "C135",
   "status": "proved",
   "theorems": [
    "C135_adds_to_the_section",
    "C135_adds_a_section",
    "C135_lines_kept",
    "C135_same_line_text_refuted",
    "C135_vias_written_refuted"
   ],
   "note": "Text after the number on the line that opens the VIAS section is lost (C135_same_line_text_refuted); if the numbers of the sections are on the next line, the made vias are not written (C135_vias_written_refuted). The boxes of the made vias are those of C133."
  },
  {
   "property": "C136",
   "status": "proved",
   "theorems": [
    "C136_reaches_neighbours",
    "C136_no_longer_than_needed",
    "C136_vias",
    "C136_vias_on_wire",
    "C136_wire_length",
    "C136_assigned",
    "C136_vias_on_wire_refuted"
   ],
   "note": "A via to a guide without a track can be off the wire if another guide at the same end has one (C136_vias_on_wire_refuted). The tracks of guides that meet different ends are taken to lie in different gcell columns (separated). Only the wire is stored in the guide, the vias are not (save_guide)."
  },
  {
   "property": "C137",
   "status": "proved",
   "theorems": [
    "C137_at_access_point",
    "C137_pin_is_used",
    "C137_pin_cost",
    "C137_io_pins_want_zero",
    "C137_wants_access_point",
    "C137_other_pins_used_refuted"
   ],
   "note": "Proved for terminals all of whose pins have an access point: after a pin without one the counter of access points is not advanced and those of the other pins are not used (C137_other_pins_used_refuted). A guide at IO pins wants the track at coordinate 0 (C137_io_pins_want_zero). The GF14 part of the pin cost is not modelled."
  },
  {
   "property": "C138",
   "status": "proved",
   "theorems": [
    "C138_cost_exact",
    "C138_owners",
    "C138_far_shapes",
    "C138_pins_spacing_refuted"
   ],
   "note": "Shapes are at least two units wide (smaller ones do not survive the shrinking by one unit). Pins are given one width of the layer whatever spacing they need (C138_pins_spacing_refuted). The via part of blockages (initFixedObjs_calcOBSBloatDistVia) and GF14 are not modelled here."
  },
  {
   "property": "C139",
   "status": "proved",
   "theorems": [
    "C139_wires_marked",
    "C139_patches_marked",
    "C139_only_near",
    "C139_vias_marked",
    "C139_price",
    "C139_fades",
    "C139_patch_via_stays_refuted",
    "C139_price_lost_refuted",
    "C139_patch_off_grid_refuted"
   ],
   "note": "Increases are stated below the limit of the 8-bit counter; at the limit the price falls to nothing (C139_price_lost_refuted). The surcharge that a patch puts on vias is not noted and never fades (C139_patch_via_stays_refuted). A patch that reaches beyond the last grid line is written without a check of the index (C139_patch_off_grid_refuted), so patches are taken to lie on the grid. Only fixMode 9 is modelled, the only one the router uses. The product with 0.8 in float is taken as 4c/5 cut."
  },
  {
   "property": "C140",
   "status": "proved",
   "theorems": [
    "C140_blocked",
    "C140_special_vias",
    "C140_wires_do_not_block",
    "C140_order_free_refuted",
    "C140_access_kept_refuted"
   ],
   "note": "Order-dependence shown: the region query's order decides between a power wire and a cell pin on it (C140_order_free_refuted), and an access point blocks a direction its neighbour allows (C140_access_kept_refuted). The region query is a parameter, the sets of terms ordered by address are in order of first meeting (no effect on blocked edges). The layers of the grid are taken to be the routing layers of the range with a cut layer above each but the last. The cost counters written by the same calls are covered by C89-C93."
  },
  {
   "property": "C141",
   "status": "proved",
   "theorems": [
    "C141_own_pins_free",
    "C141_pins_restored",
    "C141_outside_wires",
    "C141_access_vias",
    "C141_access_lines",
    "C141_grid_costs_restored_refuted",
    "C141_walk_outside_refuted",
    "C141_via_costs_restored_refuted",
    "C141_outside_vias"
   ],
   "note": "At most 255 conflicts per grid point, rectangles at least a wire wide. The search between begin and end of a net is any sequence of grid operations that leaves the fixed-shape counters of wires alone. REFUTED parts, not claimed in the statement: the off-track penalties are not restored after a net (C141_grid_costs_restored_refuted), the fixed-shape costs of vias drift because set-up uses the default via and begin/end the access point's (C141_via_costs_restored_refuted), and the walk along the line of an access point reads an edge outside the grid near the border of the clip (C141_walk_outside_refuted). Only fixMode 9."
  },
  {
   "property": "C142",
   "status": "proved",
   "theorems": [
    "C142_index_exact",
    "C142_index_built",
    "C142_refuses",
    "C142_polygons_refuted",
    "C142_origin_refuted",
    "C142_blockage_attributes_refuted"
   ],
   "note": "ORIGIN not beyond SIZE (otherwise misplaced: C142_origin_refuted); layer numbers in range. Not in the statement because false: polygons of pins and obstructions are not in the index (C142_polygons_refuted); blockages with SPACING, EXCEPTPGNET, COMPONENT, ... are skipped (C142_blockage_attributes_refuted). Rotation of via figures of special nets is not modelled (the DEF reader never sets it)."
  },
  {
   "property": "C143",
   "status": "proved",
   "theorems": [
    "C143_setup",
    "C143_setup_refuses",
    "C143_history",
    "C143_recheck_patches_refuted"
   ],
   "note": "Merging of rectangles to polygons, edges, corners and maximal rectangles is a parameter (a function of the metal). With the special process node GF14 the check at the begin of a clip must not make patches: it puts them in the checker and not in the clip (C143_recheck_patches_refuted); hence the hypothesis step_ok."
  },
  {
   "property": "C144",
   "status": "proved",
   "theorems": [
    "C144_in_step",
    "C144_write_back_safe",
    "C144_violations_replaced",
    "C144_removed_wires",
    "C144_removed_vias"
   ],
   "note": "the design as read has no patches (the DEF reader makes none; initDRObj would leave them out of the index). What a clean-up decides to delete, move or split is arbitrary (a clean-up that uses an object not of the net is the outcome None); constraint and sources of markers are not modelled."
  },
  {
   "property": "C145",
   "status": "proved",
   "theorems": [
    "C145_changed_is_flagged",
    "C145_check"
   ],
   "note": "what the clean-up does to a flagged net is arbitrary here (see C26, C27, C56 for what it does)"
  },
  {
   "property": "C146",
   "status": "partial",
   "theorems": [
    "C146_spacing_tables_partial",
    "C146_end_of_line_partial",
    "C146_wrong_direction_refuted",
    "C146_except_eol_refuted",
    "C146_later_table_refuted",
    "C146_wrong_spacing_refuted",
    "C146_extension_refuted",
    "C146_after_concave_refuted",
    "C146_with_cut_refuted",
    "C146_wrong_spacing_any_refuted"
   ],
   "note": "REFUTED for some clauses: WRONGDIRECTION and EXCEPTEOL of a table are dropped (the table then holds in every direction), WRONGDIRSPACING becomes 1 database unit (the setter takes a bool), WITHCUT is dropped (the rule then holds without a cut), one EXTENSION value with OTHERENDWIDTH throws, a table of another kind after one by parallel run length throws, and end-of-line rules after one TOCONCAVECORNER or TONOTCHLENGTH are lost. Proved part: every list of rules without these, with every other combination of clauses. Numbers are read as such (rounding to database units is a parameter)."
  },
  {
   "property": "C147",
   "status": "partial",
   "theorems": [
    "C147_min_step_partial",
    "C147_cut_classes",
    "C147_corner_partial",
    "C147_min_step_refuted",
    "C147_corner_row_refuted",
    "C147_corner_jog_refuted",
    "C147_two_corners_refuted",
    "C147_right_way_only",
    "C147_rect_only"
   ],
   "note": "REFUTED for some lists: a minimum step takes MAXEDGES, MINADJACENTLENGTH or NOBETWEENEOL from an earlier rule if it has none; of one row with two spacings in a corner rule the second is lost; EXCEPTJOGLENGTH of a convex corner is never read; two corner rules in one property become one. Proved part: every list of cut classes; minimum steps where each rule gives what the ones before gave; one corner rule without a jog length, with one spacing per row or at least two rows with two."
  },
  {
   "property": "C148",
   "status": "proved",
   "theorems": [
    "C148_accepted_iff_complete",
    "C148_netlist",
    "C148_both_ways"
   ],
   "note": "Names of the pins of one library cell and of IO pins are taken to differ (distinct). A pin named by two nets is listed by both while knowing only the second (C148_two_nets_ex)."
  },
  {
   "property": "C149",
   "status": "proved",
   "theorems": [
    "C149_parameter_file",
    "C149_counted",
    "C149_no_file",
    "C149_command_line",
    "C149_refused",
    "C149_missing_value_refuted",
    "C149_accepted_incomplete_refuted"
   ],
   "note": "atoi, atof and sscanf are parameters. What the file does not guarantee is refuted: five lines of lef are accepted without a DEF, guide or output (C149_accepted_incomplete_refuted), and a last option without a value reads the null pointer (C149_missing_value_refuted). A field with a space before its colon is unknown and dropped without a word (C149_space_ex)."
  },
  {
   "property": "C150",
   "status": "proved",
   "theorems": [
    "C150_via",
    "C150_any_order",
    "C150_file",
    "C150_same_layer_refuted"
   ],
   "note": "Needs layers that differ: a via with a metal layer twice and the metal two above is taken with that metal as its cut (C150_same_layer_refuted). Via rules (VIARULE GENERATE) are read but never used by the router and are not modelled."
  },
  {
   "property": "C151",
   "status": "partial",
   "theorems": [
    "C151_read_partial",
    "C151_adjacent_lost",
    "C151_layer_lost",
    "C151_mask_lost",
    "C151_read_refuted",
    "C151_ends_partial",
    "C151_ends_refuted"
   ],
   "note": "REFUTED: a rule by adjacent cuts is lost unless it ends in the name of a cut class (C151_adjacent_lost: the closing semicolon counts as an unknown clause); so is a rule to another layer for a cut class alone or above a width alone (C151_layer_lost); SAMEMASK and MAXXY before LAYER are dropped, so the rule holds for all masks (C151_mask_lost); TWOCUTSSPACING without a number makes the reader loop for ever (C151_ends_refuted). Proved part: all other forms are read as written (C151_read_partial), and reading ends if each TWOCUTSSPACING has its number (C151_ends_partial)."
  },
  {
   "property": "C152",
   "status": "partial",
   "theorems": [
    "C152_mincut_cost_partial",
    "C152_undone",
    "C152_beside_refuted"
   ],
   "note": "REFUTED: under a rule with a length, vias on the pin and vias straight beside it cost nothing, only those beyond a corner do (C152_beside_refuted). Proved part: exactly the vias with cuts on the pin (rules without a length) or beyond a corner nearer than distance plus pitch (rules with one) are charged, once per rule (C152_mincut_cost_partial; at points without a special access via), and taking the cost away undoes it (C152_undone)."
  },
  {
   "property": "C153",
   "status": "partial",
   "theorems": [
    "C153_units",
    "C153_die_partial",
    "C153_die_first_two",
    "C153_die_outline",
    "C153_die_refuted",
    "C153_tracks_partial",
    "C153_region_tracks_partial",
    "C153_tracks_first_layer",
    "C153_tracks_refuted",
    "C153_step_refuted",
    "C153_unknown_layer",
    "C153_top_layer_partial",
    "C153_top_layer_refuted",
    "C153_no_units",
    "C153_no_die"
   ],
   "note": "REFUTED: of a die area given by more than two points the first two count alone, so a square die given by its four corners has no width (C153_die_refuted, C153_die_first_two); of a TRACKS statement with several layers only the first gets tracks (C153_tracks_refuted, C153_tracks_first_layer); a step that is not whole is cut (C153_step_refuted); with a cut layer on top the layout of global cells ends in an exception (C153_top_layer_refuted). Proved part: units (C153_units), die areas by two points (C153_die_partial), statements with one layer and whole steps, with the tracks of regions (C153_tracks_partial, C153_region_tracks_partial), unknown layers (C153_unknown_layer), and exactly when the layout of global cells ends normally (C153_top_layer_partial)."
  },
  {
   "property": "C154",
   "status": "partial",
   "theorems": [
    "C154_adjacent_cuts_reported_partial",
    "C154_reports_real_partial",
    "C154_earlier_reports_stay",
    "C154_older_rules_still_checked",
    "C154_samenet_rule_hides_refuted",
    "C154_other_class_refuted",
    "C154_rule_without_class_refuted"
   ],
   "note": "REFUTED: with one LEF58 rule for SAMENET on the layer, no other LEF58 rule is checked between different nets (C154_samenet_rule_hides_refuted); a rule for one class is applied to cuts of other classes (C154_other_class_refuted); a rule without CUTCLASS counts only cuts of no class, so on a layer with classes it never binds (C154_rule_without_class_refuted). Proved part: pairs of one net, or layers without SAMENET rules, are reported (C154_adjacent_cuts_reported_partial); if all cuts of the layer are of the rules' class every report is a real one (C154_reports_real_partial); older rules and earlier reports stay (C154_older_rules_still_checked, C154_earlier_reports_stay). Rules with EXACTALIGNED, EXCEPTSAMEPGNET, EXCEPTALLWITHIN, TO ALL, NOPRL, ENCLOSURE, SIDEPARALLELOVERLAP or SAMEMASK are not checked by the code (adj_rule leaves them out)."
  },
  {
   "property": "C155",
   "status": "proved",
   "theorems": [
    "C155_cut_near_corner_reported",
    "C155_reports_real"
   ],
   "note": "Both directions, for metal and cut of one net (C155_cut_near_corner_reported) and for any report (C155_reports_real). Rules with STACK, ORTHOGONALSPACING, SHORTEDGEONLY or EXTENSION are not checked by the code and are outside corner_rule; WIDTH, PARALLEL and EDGELENGTH after CONCAVECORNER are ignored by it, so such a rule is checked as if it had no such condition. The fixed flags of corners are inputs of the model."
  },
  {
   "property": "C156",
   "status": "proved",
   "theorems": [
    "C156_written_guides_are_read",
    "C156_same_cells",
    "C156_areas_on_die",
    "C156_guide_between_layers_not_read"
   ],
   "note": "Round trip: reader model (C134) applied to the text the writer model produces. Grids that start inside the die with non-negative coordinates, as in C08."
  },
  {
   "property": "C157",
   "status": "proved",
   "theorems": [
    "C157_every_violation_listed",
    "C157_no_name_no_report",
    "C157_other_kinds_unknown",
    "C157_place_lost_refuted",
    "C157_spacing_unknown_refuted",
    "C157_floating_source_refuted"
   ],
   "note": "The characters of the coordinates are not modelled, only their decimal value; ties of the rounding are a parameter. REFUTED parts: six digits lose the place on large dies, two-width spacing violations and recheck marks are called unknown, floating power is not listed as a source."
  },
  {
   "property": "C158",
   "status": "proved",
   "theorems": [
    "C158_routing_order",
    "C158_listing_irrelevant",
    "C158_any_sort",
    "C158_seed_keeps_nets",
    "C158_exchange",
    "C158_by_distance",
    "C158_pin_without_access",
    "C158_area_wraps_refuted"
   ],
   "note": "The sort is modelled by insertion; C158_any_sort shows any arrangement no comparison contradicts is the same. 'after all that have them' assumes fewer than 99999 pins in a box. REFUTED for boxes of 2^31 square units or more (C158_area_wraps_refuted); the order theorem assumes a smaller clip."
  },
  {
   "property": "C159",
   "status": "proved",
   "theorems": [
    "C159_query_finds_what_is_there",
    "C159_as_if_rebuilt",
    "C159_add_remove"
   ],
   "note": "An R-tree is a list of its values. Figures have distinct addresses and are unchanged while in the index (setOffsetBox at FlexDR_maze.cpp:1866 takes the figure out first)."
  },
  {
   "property": "C160",
   "status": "proved",
   "theorems": [
    "C160_area_is_wire_area",
    "C160_never_less",
    "C160_far_shapes_ignored",
    "C160_far_via_missing_refuted",
    "C160_near_patch_counted",
    "C160_near_via_counted"
   ],
   "note": "Areas are unbounded numbers. REFUTED part: the far via is missing (C160_far_via_missing_refuted); the exact theorem assumes that no via or patch at the far end covers the pin."
  },
  {
   "property": "C161",
   "status": "proved",
   "theorems": [
    "C161_selected",
    "C161_left_to_right",
    "C161_own_point",
    "C161_missing_pin_out_of_bounds",
    "C161_boundary",
    "C161_shift_refuted"
   ],
   "note": "C161_own_point is the main theorem; C161_missing_pin_out_of_bounds and C161_shift_refuted describe cells with a pin without access points, which the code only reports on the screen. The search itself is C48 and C57."
  },
  {
   "property": "C162",
   "status": "proved",
   "theorems": [
    "C162_number_kept",
    "C162_number_error",
    "C162_plan_kept",
    "C162_names_kept",
    "C162_long_numbers_refuted",
    "C162_row_property_refuted"
   ],
   "note": "C162_plan_kept is the exact condition. C162_long_numbers_refuted and C162_row_property_refuted give the two ways in which the copy differs."
  },
  {
   "property": "C163",
   "status": "proved",
   "theorems": [
    "C163_component_kept",
    "C163_section_kept",
    "C163_small_count_drops",
    "C163_no_components_refuted",
    "C163_cover_or_property_refuted"
   ],
   "note": "C163_section_kept is the exact condition. C163_cover_or_property_refuted and C163_no_components_refuted give the designs whose output cannot be read."
  },
  {
   "property": "C164",
   "status": "proved",
   "theorems": [
    "C164_net_kept",
    "C164_vias_dropped",
    "C164_virtual_dropped",
    "C164_rect_polygon_refuted",
    "C164_synthesized_refuted",
    "C164_section_kept",
    "C164_virtual_refuted",
    "C164_rect_mask_refuted"
   ],
   "note": "C164_net_kept and C164_section_kept are the round trip; C164_vias_dropped and C164_virtual_dropped say exactly what is read back of nets with VIA statements, style, virtual points and unmasked rectangles; C164_rect_polygon_refuted and C164_synthesized_refuted hold for every such net. Subnets, properties, VOLTAGE, FREQUENCY and SPACING are not modelled."
  },
  {
   "property": "C165",
   "status": "proved",
   "theorems": [
    "C165_pin_kept",
    "C165_vias_dropped",
    "C165_placement_moved",
    "C165_shapes_refuted",
    "C165_section_kept",
    "C165_section_refuted"
   ],
   "note": "C165_pin_kept and C165_section_kept are the round trip; C165_vias_dropped and C165_placement_moved say exactly what is read back otherwise; C165_shapes_refuted and C165_section_refuted hold for every pin with one of the unreadable statements. NETEXPR and ANTENNAMODEL are not modelled."
  },
  {
   "property": "C166",
   "status": "proved",
   "theorems": [
    "C166_via_kept",
    "C166_cut_pattern_refuted",
    "C166_polygon_refuted",
    "C166_section_kept",
    "C166_small_count_drops",
    "C166_section_refuted"
   ],
   "note": "C166_via_kept and C166_section_kept are the round trip; C166_cut_pattern_refuted says what is read back of a pattern; C166_polygon_refuted, C166_small_count_drops and C166_section_refuted cover the rest. PATTERNNAME (ignored from version 5.6 on) is not modelled."
  },
  {
   "property": "C167",
   "status": "proved",
   "theorems": [
    "C167_blockage_kept",
    "C167_polygon_refuted",
    "C167_section_kept",
    "C167_small_count_drops",
    "C167_section_refuted"
   ],
   "note": "C167_blockage_kept and C167_section_kept are the round trip; C167_polygon_refuted, C167_small_count_drops and C167_section_refuted cover the rest. Densities that are not whole are not modelled."
  },
  {
   "property": "C168",
   "status": "proved",
   "theorems": [
    "C168_region_kept",
    "C168_property_refuted",
    "C168_section_kept",
    "C168_small_count_drops",
    "C168_section_refuted"
   ],
   "note": "C168_region_kept and C168_section_kept are the round trip; C168_property_refuted, C168_small_count_drops and C168_section_refuted cover the rest. Values of properties are single words."
  },
  {
   "property": "C169",
   "status": "proved",
   "theorems": [
    "C169_rule_kept",
    "C169_property_refuted",
    "C169_section_kept",
    "C169_small_count_drops",
    "C169_section_refuted"
   ],
   "note": "C169_rule_kept and C169_section_kept are the round trip; C169_property_refuted, C169_small_count_drops and C169_section_refuted cover the rest. Widths are whole numbers."
  },
  {
   "property": "C170",
   "status": "proved",
   "theorems": [
    "C170_die_two_points",
    "C170_die_kept",
    "C170_die_same_box"
   ],
   "note": "C170_die_two_points says what is read back of every outline, C170_die_kept when that is the outline, C170_die_same_box what the router makes of it."
  },
  {
   "property": "C171",
   "status": "proved",
   "theorems": [
    "C171_input_read",
    "C171_group_kept",
    "C171_property_refuted",
    "C171_section_kept",
    "C171_small_count_drops",
    "C171_section_refuted",
    "C171_soft_passed_over"
   ],
   "note": "C171_input_read is the reading of the input, C171_group_kept and C171_section_kept the round trip; C171_property_refuted, C171_small_count_drops and C171_section_refuted cover the rest. Values of properties are single words."
  },
  {
   "property": "C172",
   "status": "partial",
   "theorems": [
    "C172_input_read",
    "C172_pin_kept",
    "C172_section_kept",
    "C172_property_refuted",
    "C172_design_pin"
   ],
   "note": "REFUTED: entries with properties are ended before them, so the copy cannot be read; proved part: C172_input_read is the reading of the input, C172_pin_kept and C172_section_kept what is kept; C172_property_refuted covers entries with properties."
  },
  {
   "property": "C173",
   "status": "partial",
   "theorems": [
    "C173_slots_input_read",
    "C173_fills_input_read",
    "C173_slots_refuted",
    "C173_fills_refuted",
    "C173_slot_refuted",
    "C173_fill_refuted",
    "C173_short_polygon"
   ],
   "note": "REFUTED: the copy of slots and fills can never be read; proved part: C173_slots_input_read and C173_fills_input_read are the reading of the input; C173_slot_refuted, C173_fill_refuted, C173_slots_refuted and C173_fills_refuted show that no copy can be read."
  },
  {
   "property": "C174",
   "status": "proved",
   "theorems": [
    "C174_input_read",
    "C174_section_copied",
    "C174_section_kept",
    "C174_error",
    "C174_name_map_refuted"
   ],
   "note": "C174_input_read is the reading of the input; C174_section_copied says what is read back, C174_section_kept when that is the input, C174_error how far it is off; C174_name_map_refuted covers name maps. Numbers are whole."
  }
 ]
}