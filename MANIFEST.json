{
 "claims": [
  {
   "property": "C01",
   "status": "proved",
   "theorems": [
    "C01_union_find_is_partition",
    "C01_unite_of_raw_handles_refuted"
   ],
   "note": "Full for the calling idiom of the only caller (handles obtained from find). The refutation shows that passing handles returned by add that are no longer representatives splits sets."
  },
  {
   "property": "C02",
   "status": "proved",
   "theorems": [
    "C02_floor_divide",
    "C02_ceil_divide",
    "C02_round_divide_signed",
    "C02_round_divide",
    "C02_round_up_divide",
    "C02_spec_unique"
   ],
   "note": "Mathematical integers; 64-bit ranges are treated under C53."
  },
  {
   "property": "C03",
   "status": "proved",
   "theorems": [
    "C03_raft_layers_tile",
    "C03_no_raft_only_model",
    "C03_filler_height_undefined_refuted"
   ],
   "note": "The refutation records that getFillerLayerHeight divides by zero when the air gap rounds to no layer; C55 shows printed layers never ask for it."
  },
  {
   "property": "C04",
   "status": "proved",
   "theorems": [
    "C04_slice_heights_fixed",
    "C04_slice_heights_adaptive"
   ],
   "note": ""
  },
  {
   "property": "C05",
   "status": "proved",
   "theorems": [
    "C05_triangle_segment",
    "C05_material_on_the_left"
   ],
   "note": "Direction is stated for the exact rational crossing points; the emitted integer points are within 5/4 micron of them per coordinate."
  },
  {
   "property": "C06",
   "status": "proved",
   "theorems": [
    "C06_interpolate_on_edge",
    "C06_interpolate_direction",
    "C06_exact_at_far_end_refuted",
    "C06_direction_independent_refuted",
    "C06_within_one_unit_refuted"
   ],
   "note": "Refuted stronger claims: exactness at the far end of a downward edge, direction independence, one-unit accuracy."
  },
  {
   "property": "C07",
   "status": "proved",
   "theorems": [
    "C07_closed_mesh_closed_contours"
   ],
   "note": ""
  },
  {
   "property": "C08",
   "status": "proved",
   "theorems": [
    "C08_joining_conserves_segments"
   ],
   "note": "The face map is only assumed to name existing segments."
  },
  {
   "property": "C09",
   "status": "proved",
   "theorems": [
    "C09_stitch",
    "C09_smallest_first",
    "C09_connect",
    "C09_stitch_10mm",
    "C09_nearer_first",
    "C09_extensive",
    "C09_extensive_round",
    "C09_order_refuted",
    "C09_extensive_turned_refuted"
   ],
   "note": "The order in which the priority queue gives stitches is any order (C09_stitch) or any order by distance (C09_smallest_first); the order of grid cells is any. Extensive stitching is stated for layers without empty polygons. Refuted: that the queue's operator< is an order, and that extensive stitching attaches a line by the end at the gap."
  },
  {
   "property": "C10",
   "status": "proved",
   "theorems": [
    "C10_adaptive_layers",
    "C10_step_bound_refuted",
    "C10_zero_step_diverges"
   ],
   "note": "tan is an arbitrary function; angles are inputs. Refuted: consecutive layers differ by at most the step (thinning may take two steps)."
  },
  {
   "property": "C11",
   "status": "proved",
   "theorems": [
    "C11_every_path_once",
    "C11_greedy_nearest",
    "C11_longest_first",
    "C11_reverse",
    "C11_seam_avoids_disallowed",
    "C11_empty_reversed_refuted"
   ],
   "note": "Seam choice on closed paths, combing distances and the contents of the grid are arbitrary functions. Coordinates below 2^30 micron. The refutation records that a path without vertices gets start vertex 2^64-1 in reverse direction."
  },
  {
   "property": "C12",
   "status": "proved",
   "theorems": [
    "C12_order_requirements",
    "C12_cycle_dropped_refuted"
   ],
   "note": "Which candidate is printed next is an arbitrary choice function, so all geometry and hash orders are covered. Requirements must be between given paths. The refutation records that cyclic requirements silently drop paths."
  },
  {
   "property": "C13",
   "status": "proved",
   "theorems": [
    "C13_greedy_nearest"
   ],
   "note": "Distances are the rounded distances the code compares (vSize, proved to be within one half of the exact distance); they must be below INT64_MAX."
  },
  {
   "property": "C14",
   "status": "proved",
   "theorems": [
    "C14_inset_order",
    "C14_region_order",
    "C14_walls_once"
   ],
   "note": "Point-in-polygon tests and areas of bounding boxes are arbitrary functions, the iteration order of the hash maps any permutation; the nesting is defined from them in Inset_Spec.v."
  },
  {
   "property": "C15",
   "status": "proved",
   "theorems": [
    "C15_best_element",
    "C15_single_pass",
    "C15_score_weighted",
    "C15_single_pass_weighted",
    "C15_no_candidates",
    "C15_threshold_refuted"
   ],
   "note": "Refuted: that survivors of a pass are within the threshold of the best. std::remove_if overwrites the candidate its predicate compares with, so only twice the threshold holds."
  },
  {
   "property": "C16",
   "status": "proved",
   "theorems": [
    "C16_closest_on_segment",
    "C16_projected_beyond"
   ],
   "note": ""
  },
  {
   "property": "C17",
   "status": "proved",
   "theorems": [
    "C17_closest_connection",
    "C17_far_end_ignored_refuted"
   ],
   "note": "Amended: the end of the first segment is excluded, because the code computes its projection from the start of that segment; the refutation shows a returned connection 11 times longer than the distance of that end to the other segment."
  },
  {
   "property": "C18",
   "status": "proved",
   "theorems": [
    "C18_edge_test",
    "C18_find_inside",
    "C18_start_and_direction",
    "C18_outside_box",
    "C18_shape_inside",
    "C18_inside_agree",
    "C18_single_shape",
    "C18_border_false_refuted",
    "C18_hole_border_refuted"
   ],
   "note": "Shape::inside and SingleShape::inside are proved against Clipper's documented contract for PointInPolygon (a hypothesis); findInside is proved outright. Two refutations record border cases that do not honour border_result."
  },
  {
   "property": "C19",
   "status": "proved",
   "theorems": [
    "C19_nearby_complete",
    "C19_get_nearest",
    "C19_any_nearby",
    "C19_line_grid_complete",
    "C19_reach_one_cell_refuted",
    "C19_nearest_at_radius_refuted"
   ],
   "note": "The multimap's order inside a cell is arbitrary. Refuted: the header's promise that elements further than radius + cell_size are never visited (the cell at zero is twice as wide); getNearest finding an element exactly at the radius."
  },
  {
   "property": "C20",
   "status": "proved",
   "theorems": [
    "C20_line_cells",
    "C20_cells_partition"
   ],
   "note": "Also: no cell outside the closed cells touched by the line is visited, the first and last cells are those of the ends, and the assertion at the end of the function is never reached."
  },
  {
   "property": "C21",
   "status": "proved",
   "theorems": [
    "C21_total",
    "C21_steps",
    "C21_size",
    "C21_endpoints",
    "C21_open_stays",
    "C21_vertices",
    "C21_distance",
    "C21_deviation_refuted",
    "C21_vanishes_refuted"
   ],
   "note": "For points and junctions alike; the intersection of two lines is a parameter. Refuted: staying within the deviation of the input (a spike on the line through its neighbours is cut off), and keeping three vertices of a polygon (the limit is per round)."
  },
  {
   "property": "C22",
   "status": "proved",
   "theorems": [
    "C22_stitch",
    "C22_next_line",
    "C22_points",
    "C22_closed",
    "C22_walls",
    "C22_empty_line_refuted",
    "C22_gap_refuted",
    "C22_prefer_closing_even_refuted"
   ],
   "note": "Over the model of the grid of C19, its element order any permutation. Input lines are open. Refuted: gaps of closed polygons within the stitch distance; the preference the comment states."
  },
  {
   "property": "C23",
   "status": "proved",
   "theorems": [
    "C23_tree",
    "C23_leaves",
    "C23_duplicates_refuted"
   ],
   "note": "The iteration order of the hash maps is universally quantified. Squared lengths without overflow. Refuted for repeated points: always undefined behaviour."
  },
  {
   "property": "C24",
   "status": "proved",
   "theorems": [
    "C24_box_is_smallest",
    "C24_shape_box",
    "C24_empty_box",
    "C24_hit",
    "C24_contains_box",
    "C24_include_box",
    "C24_expand",
    "C24_box3_is_smallest",
    "C24_hit3",
    "C24_expand3",
    "C24_hit_touching_refuted",
    "C24_hit_empty_refuted"
   ],
   "note": "The two refutations record how 2D hit differs from open/closed intersection in edge cases."
  },
  {
   "property": "C25",
   "status": "proved",
   "theorems": [
    "C25_layer_vector",
    "C25_pop_undoes_push"
   ],
   "note": ""
  },
  {
   "property": "C26",
   "status": "proved",
   "theorems": [
    "C26_nozzle_follows",
    "C26_moves_arrive",
    "C26_z_rewritten",
    "C26_wipe_returns",
    "C26_split_hop_refuted",
    "C26_z_after_tool_change_refuted",
    "C26_wipe_when_hopped_refuted"
   ],
   "note": "Any rounding of E values, either extrusion mode, volumetric or not. Flavors BFB, MACH3 and MAKERBOT and custom tool-change G-code are not modelled. Coordinates in commands are the exact micron values (C30 covers their printing)."
  },
  {
   "property": "C27",
   "status": "proved",
   "theorems": [
    "C27_filament_advanced",
    "C27_usage_reported",
    "C27_rounding_absolute",
    "C27_rounding_relative",
    "C27_flow_compensation_relative_refuted"
   ],
   "note": "Doubles are exact rationals; the two rounding theorems bound the effect of printing E values. Flow compensation must be off: with relative E values it is refuted."
  },
  {
   "property": "C28",
   "status": "proved",
   "theorems": [
    "C28_retraction_known",
    "C28_retracts_as_far",
    "C28_printing_starts_unretracted",
    "C28_retraction_limit",
    "C28_mixed_limits_refuted"
   ],
   "note": "Distances and prime volumes are not negative; with firmware retraction no retraction distances during travels. The refutation records that a retraction setting with a smaller limit makes the exporter forget retractions."
  },
  {
   "property": "C29",
   "status": "proved",
   "theorems": [
    "C29_temperatures",
    "C29_active_tool",
    "C29_waits",
    "C29_bed",
    "C29_fans",
    "C29_fan_switch",
    "C29_accelerations",
    "C29_jerk",
    "C29_repeats_silent",
    "C29_bed_wait_refuted",
    "C29_fan_exact_refuted",
    "C29_makerbot_two_fans_refuted",
    "C29_tool_switch_refuted"
   ],
   "note": "Starting with a cold printer. Refuted stronger claims: that a waiting bed request always waits (nothing is written if the temperature was set before), that the fan has exactly the printed speed (a fan switched off at 0.03% stays off at 0.04%), and that two fan numbers work in Makerbot's flavor."
  },
  {
   "property": "C30",
   "status": "proved",
   "theorems": [
    "C30_coordinate_exact",
    "C30_double_rounded",
    "C30_printed_close",
    "C30_nonzero_prints_nonzero",
    "C30_would_write_zero_refuted",
    "C30_zero_reads_outside_refuted",
    "C30_digit_before_point_refuted"
   ],
   "note": "snprintf is specified (digits; correct rounding, ties to even); the buffer manipulation is modelled slot by slot with uninitialised slots and bounds. Refuted: coordinate 0 reads buffer[-1]; the zero test disagrees with what is printed."
  },
  {
   "property": "C31",
   "status": "proved",
   "theorems": [
    "C31_every_line_is_comment",
    "C31_text_kept",
    "C31_carriage_return_refuted"
   ],
   "note": "For both line endings that the exporter uses. char is signed, as on x86."
  },
  {
   "property": "C32",
   "status": "proved",
   "theorems": [
    "C32_in_order",
    "C32_flush_writes_all",
    "C32_plan_stays",
    "C32_no_deadlock",
    "C32_terminates",
    "C32_mesh_group",
    "C32_six_below_refuted"
   ],
   "note": "The temperature planning done on the pending plans is not modelled here. Schedules as in C43."
  },
  {
   "property": "C33",
   "status": "proved",
   "theorems": [
    "C33_once_in_order",
    "C33_in_its_path",
    "C33_not_early",
    "C33_not_early_refuted"
   ],
   "note": "The times within a path are given by arbitrary ticks between its moves."
  },
  {
   "property": "C34",
   "status": "proved",
   "theorems": [
    "C34_time",
    "C34_additive",
    "C34_warm_up",
    "C34_cool_down_window",
    "C34_cool_down_refuted",
    "C34_no_time_refuted",
    "C34_overpowered_refuted"
   ],
   "note": "Rates are exact rationals. Refuted: the cool-down point reaches the final temperature (rates swapped); heating time is set aside when the window is too short; a time of 0 is predicted when extrusion cools faster than the heater heats."
  },
  {
   "property": "C35",
   "status": "proved",
   "theorems": [
    "C35_between",
    "C35_outside",
    "C35_range",
    "C35_default",
    "C35_repeated_refuted"
   ],
   "note": "Exact rationals."
  },
  {
   "property": "C36",
   "status": "proved",
   "theorems": [
    "C36_never_faster",
    "C36_long_enough",
    "C36_min_speed",
    "C36_reaches",
    "C36_exact",
    "C36_not_beyond",
    "C36_layer",
    "C36_reaches_refuted",
    "C36_negative_refuted",
    "C36_below_min_refuted",
    "C36_layer_refuted"
   ],
   "note": "Exact rationals; segment lengths are given. Refuted: reaching the minimum when speeds differ and slowing to the slowest speed would be more than enough; positive speeds and the minimum speed without the provisos; leaving long layers alone when one extruder has several plans."
  },
  {
   "property": "C37",
   "status": "proved",
   "theorems": [
    "C37_first_layers",
    "C37_ramp",
    "C37_layer_time",
    "C37_slower_layer",
    "C37_layer"
   ],
   "note": "Exact rationals."
  },
  {
   "property": "C38",
   "status": "proved",
   "theorems": [
    "C38_toolpath",
    "C38_flow_limits",
    "C38_step_time_refuted",
    "C38_zero_step_refuted"
   ],
   "note": "Doubles are exact rationals; the length function is any non-negative even function of the coordinate differences. The flow limits are stated on the output read back as paths. Refuted: a limit per time; termination with a step of zero."
  },
  {
   "property": "C39",
   "status": "proved",
   "theorems": [
    "C39_no_duplicates",
    "C39_complete",
    "C39_exact",
    "C39_normal_tower",
    "C39_start",
    "C39_primed",
    "C39_raft_base",
    "C39_filler_refuted",
    "C39_start_extruder",
    "C39_start_adhesion"
   ],
   "note": "The areas of the layers are given as which extruder uses them. Refuted: completeness on filler layers when the first-layer support extruder differs; continuity on raft base layers."
  },
  {
   "property": "C40",
   "status": "proved",
   "theorems": [
    "C40_total",
    "C40_shell",
    "C40_contiguous",
    "C40_disjoint",
    "C40_volume",
    "C40_extruders",
    "C40_printed",
    "C40_printed_refuted",
    "C40_base",
    "C40_base_refuted",
    "C40_inset"
   ],
   "note": "Rings are radii, ring lengths a parameter, volumes exact. Refuted: a printed line on every layer without the line width condition; the base not overlapping the tower when one extruder is primed on the layer."
  },
  {
   "property": "C41",
   "status": "proved",
   "theorems": [
    "C41_winner",
    "C41_disjoint",
    "C41_union",
    "C41_others",
    "C41_box_refuted"
   ],
   "note": "Areas are sets of points and Clipper's operations are set operations. Refuted without the bounding boxes: neighbours whose areas exceed the boxes remain overlapping."
  },
  {
   "property": "C42",
   "status": "proved",
   "theorems": [
    "C42_chunks",
    "C42_exactly_once",
    "C42_at_most_once",
    "C42_no_dangling",
    "C42_defined",
    "C42_no_deadlock",
    "C42_all_return",
    "C42_terminates"
   ],
   "note": "For every program of calls, nested to any depth, every pool size, every schedule with spurious wake-ups. Loop bodies do not wait for each other or hold other locks; they do not throw. Termination bounds the steps of a run by the size of the program plus the number of spurious wake-ups."
  },
  {
   "property": "C43",
   "status": "proved",
   "theorems": [
    "C43_in_order",
    "C43_defined",
    "C43_no_race",
    "C43_complete",
    "C43_no_deadlock",
    "C43_terminates",
    "C43_return_early_refuted",
    "C43_negative_first_refuted"
   ],
   "note": "All schedules, ring sizes and worker counts, produce and consume that do not throw. Refuted: run() may return before all is consumed after a spurious wake-up of its un-looped wait; a first item below minus the ring size reads the ring out of bounds."
  },
  {
   "property": "C44",
   "status": "proved",
   "theorems": [
    "C44_own",
    "C44_nearest",
    "C44_ends",
    "C44_limited",
    "C44_limited_endless",
    "C44_limited_refuted",
    "C44_add_changes_only",
    "C44_add",
    "C44_add_inherited",
    "C44_has",
    "C44_has_refuted",
    "C44_has_own",
    "C44_has_own_not",
    "C44_flattened",
    "C44_flattened_refuted"
   ],
   "note": "Containers form a tree; keys limited to extruders as the scene does it."
  },
  {
   "property": "C45",
   "status": "proved",
   "theorems": [
    "C45_values",
    "C45_mesh_extruder",
    "C45_extruders",
    "C45_json_scope",
    "C45_json",
    "C45_nondefault",
    "C45_mesh_inherits",
    "C45_inherits",
    "C45_defined",
    "C45_defined_refuted",
    "C45_extruder_nr_refuted",
    "C45_array_refuted"
   ],
   "note": "Without -r; JSON parsing itself and the file system are parameters."
  },
  {
   "property": "C46",
   "status": "proved",
   "theorems": [
    "C46_bounded",
    "C46_slice_bounded",
    "C46_monotone",
    "C46_ends",
    "C46_falls_refuted",
    "C46_zero_refuted",
    "C46_names_refuted"
   ],
   "note": "The reports of the painting splitter and of support generation are arbitrary. Refuted: that progress never falls; that zero out of zero is a number; that the log names the stage that starts."
  },
  {
   "property": "C47",
   "status": "proved",
   "theorems": [
    "C47_walls",
    "C47_none",
    "C47_inside",
    "C47_insets",
    "C47_thin",
    "C47_too_many",
    "C47_bead_count",
    "C47_chosen",
    "C47_negative_refuted",
    "C47_inset_opposite_refuted",
    "C47_inset_order_refuted",
    "C47_uninitialised_refuted",
    "C47_no_walls_refuted",
    "C47_name_refuted",
    "C47_nonlinear_refuted"
   ],
   "note": "Any stack of strategies made by the factory with positive widths, thresholds in (0,1] and an even positive maximum. Ratios are exact rationals; up to rounding of each width to whole micrometres. Refuted: non-negative widths for any number of walls, symmetry and order with insets, defined behaviour with thin walls and very wide inner walls or a maximum of 0, the name of a strategy, the reported non-linear thicknesses."
  },
  {
   "property": "C48",
   "status": "proved",
   "theorems": [
    "C48_time",
    "C48_feasible",
    "C48_axes",
    "C48_acceleration_refuted",
    "C48_slow_refuted"
   ],
   "note": "Doubles and floats are real numbers (the standard library's Reals, with their three axioms), so rounding is not modelled. Machine limits and accelerations are positive, jerks not negative, and each requested speed or the minimum speed is positive."
  },
  {
   "property": "C49",
   "status": "proved",
   "theorems": [
    "C49_cut",
    "C49_every_template_is_cut",
    "C49_block",
    "C49_resolve",
    "C49_line_end",
    "C49_not_started",
    "C49_nested",
    "C49_settings",
    "C49_unended_refuted",
    "C49_number_refuted",
    "C49_expression_refuted"
   ],
   "note": "The formula engine is a parameter; the regular expression is modelled by a scanner."
  },
  {
   "property": "C50",
   "status": "proved",
   "theorems": [
    "C50_faces",
    "C50_links",
    "C50_closed",
    "C50_watertight",
    "C50_box",
    "C50_merge_refuted",
    "C50_outside_refuted",
    "C50_clear_refuted"
   ],
   "note": "Angles are compared exactly instead of through atan2. Refuted: close corners are always merged, the link over an edge of four faces is via the outside, clearing a mesh resets its box."
  },
  {
   "property": "C51",
   "status": "proved",
   "theorems": [
    "C51_amounts",
    "C51_full",
    "C51_short",
    "C51_moves",
    "C51_plain",
    "C51_ratio",
    "C51_overshoot_refuted",
    "C51_height_refuted",
    "C51_still_refuted"
   ],
   "note": "Times are exact rationals, lengths the rounded integer lengths of the code. Refuted: split points never past the end of a segment, split points at the height of the travel, and a non-negative amount retracted before the travel starts."
  },
  {
   "property": "C52",
   "status": "proved",
   "theorems": [
    "C52_written",
    "C52_nozzle_path",
    "C52_start",
    "C52_volume",
    "C52_volume_refuted",
    "C52_height_refuted",
    "C52_zero_refuted",
    "C52_empty_refuted"
   ],
   "note": "Lengths are the rounded integer lengths the planner uses. The planner leaves the line width out of its volumes, so the volume bound needs widths of at most nominal (refuted otherwise)."
  },
  {
   "property": "C53",
   "status": "proved",
   "theorems": [
    "C53_vectors",
    "C53_vectors_refuted",
    "C53_shorter_than",
    "C53_normal",
    "C53_vectors_3d",
    "C53_right_of_line",
    "C53_projected_beyond",
    "C53_corners",
    "C53_inside_corner",
    "C53_distance_from_line",
    "C53_distance_from_segment",
    "C53_segment_distances",
    "C53_segments_collide",
    "C53_interpolate",
    "C53_round_divide",
    "C53_box_area",
    "C53_closest_on_line",
    "C53_bisector",
    "C53_point_at_distance",
    "C53_area_deviation",
    "C53_closest_on_segment",
    "C53_closest_on_segment_refuted",
    "C53_closest_connection",
    "C53_polyline_length",
    "C53_polyline_length_refuted",
    "C53_hash",
    "C53_hash_refuted"
   ],
   "note": "Every function is modelled operation by operation over an integer type; with 64-bit integers it gives the same defined result as with unbounded ones. Conversions between integers and doubles (square roots, one quotient) are exact. Refutations record the sharp bounds: projections on segments overflow for points 1.66 m apart, lengths of polylines wrap at 2147 m, hashes of points overflow at 69 m."
  },
  {
   "property": "C54",
   "status": "proved",
   "theorems": [
    "C54_layer_count_covers_model",
    "C54_layer_count_defined",
    "C54_exclusive_single_layer_refuted"
   ],
   "note": "Adaptive layers are under C10."
  },
  {
   "property": "C55",
   "status": "proved",
   "theorems": [
    "C55_print_heights_rise",
    "C55_overlap_too_large_refuted"
   ],
   "note": "Fixed layer heights."
  },
  {
   "property": "C56",
   "status": "proved",
   "theorems": [
    "C56_speed_in_force",
    "C56_first_move_refuted"
   ],
   "note": "Refuted without the proviso: a first move at exactly 1 mm/s carries no F word, so it runs at whatever feed rate the printer had."
  },
  {
   "property": "C57",
   "status": "proved",
   "theorems": [
    "C57_once",
    "C57_primed",
    "C57_every_extruder_refuted",
    "C57_normal_tower_refuted"
   ],
   "note": "Refuted: that every extruder is primed before it prints (the one a layer starts with is not), and priming before printing in the normal tower."
  },
  {
   "property": "C58",
   "status": "proved",
   "theorems": [
    "C58_cut",
    "C58_union",
    "C58_disjoint"
   ],
   "note": "Cutting meshes with the surface mode NORMAL; areas are sets of points."
  },
  {
   "property": "C59",
   "status": "proved",
   "theorems": [
    "C59_grown"
   ],
   "note": "The offset of areas is a parameter."
  },
  {
   "property": "C60",
   "status": "proved",
   "theorems": [
    "C60_placed",
    "C60_boxes",
    "C60_unscaled",
    "C60_bottom",
    "C60_no_model_refuted"
   ],
   "note": "Scaling in exact rationals, truncated. Coordinates after placing within 32 bits. Refuted for a group without printed models."
  },
  {
   "property": "C61",
   "status": "proved",
   "theorems": [
    "C61_pass",
    "C61_constant_width",
    "C61_scarf_rises",
    "C61_speed",
    "C61_segment_index",
    "C61_direction",
    "C61_alternate_open",
    "C61_small_feature",
    "C61_zero_split_refuted",
    "C61_corner_refuted",
    "C61_segment_index_refuted",
    "C61_alternate_seam_refuted"
   ],
   "note": "Doubles are exact rationals; what is done with a sub-segment (bridging, flow) is not modelled. Distances along a wall and the expected places, heights and speeds at them are defined in Wall_Spec.v."
  },
  {
   "property": "C62",
   "status": "proved",
   "theorems": [
    "C62_starts_at_an_end",
    "C62_every_line_printed",
    "C62_every_line_once",
    "C62_monotonic",
    "C62_interlaced",
    "C62_line_printed_twice_refuted",
    "C62_line_lost_refuted",
    "C62_close_rows_refuted"
   ],
   "note": "Over the model of the grid of C19, its element order and the order of the set of starting lines any permutation. Doubles are exact rationals; coordinates within a kilometre of the origin (so that squared distances stay below the initial maximum). Refuted: a line printed twice where two lines lead to a string of touching lines; lines lost where three ends meet at a corner of a triangle; the order of lines that begin within 10 micrometres."
  },
  {
   "property": "C63",
   "status": "proved",
   "theorems": [
    "C63_skin_or_infill",
    "C63_divided",
    "C63_exposed_is_skin",
    "C63_skin_exact",
    "C63_skin_inside",
    "C63_topmost",
    "C63_bottommost_refuted",
    "C63_heuristic_refuted",
    "C63_initial_bottom_refuted"
   ],
   "note": "Areas are sets of points; offsets and the removal of small areas are arguments of the model, with the properties a theorem needs stated in it. Splitting the skin into parts, and the walls around skin, are not modelled. Refuted: the bottommost surface, exposure directly above with the heuristic, initial bottom layers without infill and top and bottom layers."
  },
  {
   "property": "C64",
   "status": "proved",
   "theorems": [
    "C64_skin_is_filled",
    "C64_roofing_flooring_apart",
    "C64_exact",
    "C64_seen_from_both_sides_refuted"
   ],
   "note": "Areas are sets of points; offsets are arguments of the model, non-negative ones contain the area; the emptiness test only has to be right when it says empty. Refuted: that places seen from above and from below are filled."
  },
  {
   "property": "C65",
   "status": "proved",
   "theorems": [
    "C65_areas",
    "C65_density",
    "C65_every_layer",
    "C65_denser_above",
    "C65_connected_refuted",
    "C65_skin_support_refuted",
    "C65_endless_refuted",
    "C65_top_layers_refuted"
   ],
   "note": "Areas are sets of points; the density of a pattern is one over its line distance per set of lines. The step height is rounded to whole layers, at least one. Simplification of areas is taken to keep their points. Refuted: densities of connected patterns and with skin edge support, termination for steps below half a layer, infill on top and initial bottom layers."
  },
  {
   "property": "C66",
   "status": "proved",
   "theorems": [
    "C66_once",
    "C66_nothing_lost",
    "C66_nothing_in_air",
    "C66_not_twice",
    "C66_only_there",
    "C66_as_thick",
    "C66_own_infill_refuted"
   ],
   "note": "Areas are sets of points; opening (offset inwards and outwards) is an argument that only has to stay within the area. Rounding the thickness to a number of layers is not modelled: the number is an argument. Refuted: that thick infill only replaces infill the lower layers had."
  },
  {
   "property": "C67",
   "status": "proved",
   "theorems": [
    "C67_lines",
    "C67_right_side_refuted"
   ],
   "note": "In the rotated frame; the rotation and its inverse are arguments. Polygons are not empty and the line distance is positive. Coordinates are unbounded integers (32-bit ones in the code for distances). The line processing afterwards (connecting, multiplying lines) is not part of it."
  },
  {
   "property": "C68",
   "status": "proved",
   "theorems": [
    "C68_zigzag",
    "C68_one_connector",
    "C68_close_endpiece_refuted"
   ],
   "note": "In the rotated frame, over the model of C67; the walk and the rule for printing are in Zigzag_Spec.v. Line width not negative. Refuted: independence of the first corner for short end pieces."
  },
  {
   "property": "C69",
   "status": "proved",
   "theorems": [
    "C69_connected",
    "C69_tail_refuted",
    "C69_given_up_refuted"
   ],
   "note": "What resolveIntersection computes is an argument of the model; assumed of it where it succeeds: the new ends differ from each other and from the other ends of their lines. Successive corners are assumed to differ for the last clause. The union-find structure is taken as the partition it stands for (C01). Coordinates are unbounded integers."
  },
  {
   "property": "C70",
   "status": "proved",
   "theorems": [
    "C70_pattern",
    "C70_tetrahedral_gap"
   ],
   "note": "For all outlines of non-empty polygons, all lists of directions and all fuel from some point on. Rotations and their inverses, and the shifts computed from the height in floating point, are arguments; what is done where lines cross near the outline is an argument, constrained as in C69. The partition of lines into polylines is the one of C69."
  },
  {
   "property": "C71",
   "status": "proved",
   "theorems": [
    "C71_comb"
   ],
   "note": "For all boundaries of non-empty polygons and all fuel from some point on. The matrix that turns the direct way along the X axis and its inverse, the collision test over the grid, and the way corners are moved off the boundary are arguments. Coordinates are unbounded integers."
  },
  {
   "property": "C72",
   "status": "proved",
   "theorems": [
    "C72_propagate"
   ],
   "note": "The test whether a place is inside of the outlines, the collision test, and the distance from a line segment are arguments. Coordinates are unbounded integers, lengths are rounded as in the code. Pruning distance positive, magnitude not negative."
  },
  {
   "property": "C73",
   "status": "proved",
   "theorems": [
    "C73_lines"
   ],
   "note": "For line widths of at least 2 units and all fuel from some point on; below that the code divides by zero where successive nodes coincide. The random numbers are an argument."
  },
  {
   "property": "C74",
   "status": "proved",
   "theorems": [
    "C74_reroot",
    "C74_reroot_any"
   ],
   "note": "Trees are inductive structures; the pointer to the parent is given by the place in the tree."
  },
  {
   "property": "C75",
   "status": "proved",
   "theorems": [
    "C75_supported",
    "C75_order_refuted"
   ],
   "note": "The lines of the area are taken to be vertical, at multiples of the cell size, and not to overlap (C67 gives such lines). The closest point of the outlines, the collision test and the nodes returned by the locator are arguments. Coordinates are unbounded integers. Refuted: that the points are sorted by an order; the comparison used has circles."
  },
  {
   "property": "C76",
   "status": "proved",
   "theorems": [
    "C76_grounding"
   ],
   "note": "Which nodes are nearby is an argument. A node whose weak pointer expired is one that is not in the trees."
  },
  {
   "property": "C77",
   "status": "proved",
   "theorems": [
    "C77_reconnect"
   ],
   "note": "The trees to be reconnected are the first ones of the list, as the generator has them. Closest points, intersections, collisions and the nodes returned by the locator are arguments."
  },
  {
   "property": "C78",
   "status": "proved",
   "theorems": [
    "C78_first",
    "C78_travel",
    "C78_not_retracted_refuted",
    "C78_disabled_refuted",
    "C78_inside_refuted"
   ],
   "note": "The result of combing (C71 in part) and the place inside of the boundary are arguments. Heights, extruder and the speed configuration of the path are not modelled. The three claims refuted are listed in the property."
  },
  {
   "property": "C79",
   "status": "proved",
   "theorems": [
    "C79_stl",
    "C79_last_line_refuted",
    "C79_long_line_refuted",
    "C79_thin_text_refuted"
   ],
   "note": "Which lines sscanf reads as vertices, and the points that floats and the matrix give, are arguments. What the mesh of a list of triangles is, is C50. UV coordinates are left out. Three claims one might expect are refuted."
  },
  {
   "property": "C80",
   "status": "proved",
   "theorems": [
    "C80_obj",
    "C80_corners",
    "C80_relative_refuted"
   ],
   "note": "The regular expressions that tell which lines are vertices or faces are an argument; the one for corners is modelled. A number of 2^64 or more ends the program by an exception and is excluded. UV coordinates are left out."
  },
  {
   "property": "C81",
   "status": "proved",
   "theorems": [
    "C81_fuzzy",
    "C81_toolpath",
    "C81_width_refuted",
    "C81_open_end_refuted",
    "C81_distance_refuted",
    "C81_zero_refuted"
   ],
   "note": "The random numbers and which points are in holes are arguments. The points of a very short piece are refuted to be within the thickness as a distance, since lengths are rounded; the theorem states the rounding."
  },
  {
   "property": "C82",
   "status": "proved",
   "theorems": [
    "C82_line",
    "C82_end_voxel_refuted",
    "C82_polygons",
    "C82_no_points_refuted",
    "C82_dilated",
    "C82_mixed_kernel_refuted"
   ],
   "note": "doubles are exact rationals; walkAreas is not modelled"
  },
  {
   "property": "C83",
   "status": "proved",
   "theorems": [
    "C83_kernel"
   ],
   "note": "all of the constructor"
  },
  {
   "property": "C84",
   "status": "proved",
   "theorems": [
    "C84_interlock",
    "C84_apart",
    "C84_below_refuted",
    "C84_higher_refuted"
   ],
   "note": "areas are sets of points; the voxels near surfaces, the closing of gaps and handleThinAreas are arguments"
  },
  {
   "property": "C85",
   "status": "proved",
   "theorems": [
    "C85_empty_first",
    "C85_heights",
    "C85_thickness_refuted",
    "C85_fewer_layers_refuted"
   ],
   "note": "of what layers hold, only whether there is something to print is modelled"
  },
  {
   "property": "C86",
   "status": "proved",
   "theorems": [
    "C86_info",
    "C86_start_refuted"
   ],
   "note": "points are X and Y only"
  },
  {
   "property": "C87",
   "status": "proved",
   "theorems": [
    "C87_compensation",
    "C87_constant_flow",
    "C87_between",
    "C87_wide_refuted"
   ],
   "note": "doubles are exact rationals"
  },
  {
   "property": "C88",
   "status": "proved",
   "theorems": [
    "C88_infill_support",
    "C88_supported",
    "C88_overhang",
    "C88_in_air_refuted"
   ],
   "note": "areas are sets of points; offsets, and so the support angle, and the test for empty areas are arguments"
  }
 ]
}