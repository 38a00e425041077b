{
 "claims": [
  {
   "property": "C01",
   "status": "proved",
   "theorems": [
    "C01_jump_reports_snapshot",
    "C01_snapshots_are_stable",
    "C01_time_travel_is_snapshot"
   ],
   "note": "Refinement of a machine that stores a full snapshot per timepoint (HistSpec.v), for every permitted operation sequence."
  },
  {
   "property": "C02",
   "status": "proved",
   "theorems": [
    "C02_gc_annotations",
    "C02_gc_drops_states",
    "C02_gc_keeps_exactly",
    "C02_gc_keeps_paths",
    "C02_gc_keeps_reports"
   ],
   "note": ""
  },
  {
   "property": "C03",
   "status": "proved",
   "theorems": [
    "C03_no_dangling",
    "C03_outliving_object_refuted"
   ],
   "note": "The condition (objects do not outlive their creation timepoint) is births_alive; the refutation shows it is needed."
  },
  {
   "property": "C04",
   "status": "proved",
   "theorems": [
    "C04_redo_undo",
    "C04_undo_redo"
   ],
   "note": ""
  },
  {
   "property": "C05",
   "status": "proved",
   "theorems": [
    "C05_can_redo_exact",
    "C05_can_undo_exact",
    "C05_multi_step"
   ],
   "note": ""
  },
  {
   "property": "C06",
   "status": "proved",
   "theorems": [
    "C06_new_timepoint"
   ],
   "note": ""
  },
  {
   "property": "C07",
   "status": "proved",
   "theorems": [
    "C07_user_history_well_formed"
   ],
   "note": ""
  },
  {
   "property": "C08",
   "status": "proved",
   "theorems": [
    "C08_undo_after_jump",
    "C08_undo_after_jump_while_browsing_refuted"
   ],
   "note": "Proved when not browsing; refuted while browsing, as the statement says."
  },
  {
   "property": "C09",
   "status": "proved",
   "theorems": [
    "C09_second_write_dropped",
    "C09_second_write_kept_if_mutable",
    "C09_write_visible"
   ],
   "note": ""
  },
  {
   "property": "C10",
   "status": "proved",
   "theorems": [
    "C10_annotate_first_wins",
    "C10_annotation_lasts",
    "C10_nearest_annotated_ancestor"
   ],
   "note": ""
  },
  {
   "property": "C11",
   "status": "proved",
   "theorems": [
    "C11_ancestors_path",
    "C11_cluster",
    "C11_common_ancestor",
    "C11_erase",
    "C11_leafs",
    "C11_strict_order",
    "C11_views_agree"
   ],
   "note": ""
  },
  {
   "property": "C12",
   "status": "proved",
   "theorems": [
    "C12_index_numbers_the_steps",
    "C12_next_is_index_successor",
    "C12_run_all_in_order",
    "C12_run_from_in_order",
    "C12_run_in_order"
   ],
   "note": "The trace of executed steps is instrumentation added to the model of run."
  },
  {
   "property": "C13",
   "status": "proved",
   "theorems": [
    "C13_edition_on_finished_mesh",
    "C13_go_before",
    "C13_go_before_after_idle_step",
    "C13_go_before_refuted"
   ],
   "note": "Proved under the condition of the statement; the idle case is proved too (go_before does nothing, the edition is applied on the finished mesh) and exhibited as a refutation of the unconditional claim."
  },
  {
   "property": "C14",
   "status": "proved",
   "theorems": [
    "C14_going_back",
    "C14_going_back_repeatedly",
    "C14_idle_step_livelock",
    "C14_stepping",
    "C14_stepping_refuted"
   ],
   "note": "Proved when every step creates a timepoint; the livelock on an idle step is proved in general and exhibited."
  },
  {
   "property": "C15",
   "status": "proved",
   "theorems": [
    "C15_csx_never_overwrites",
    "C15_force_writes",
    "C15_plantuml_overwrites_refuted",
    "C15_writes_output_only"
   ],
   "note": "CSX proved; PlantUML refuted."
  },
  {
   "property": "C16",
   "status": "proved",
   "theorems": [
    "C16_find_ls_ends",
    "C16_find_ls_fuel"
   ],
   "note": "find_ls ends for every d, dmax > 0 and smoothness >= 1; the last line reaches s and no other does; no line iff no space."
  },
  {
   "property": "C17",
   "status": "proved",
   "theorems": [
    "C17_closed_form",
    "C17_more_room",
    "C17_spaces"
   ],
   "note": "closed form of every space (min of d*smoothness^(k+1) and dmax), hence positive, non decreasing, at most dmax and smoothness times the previous one."
  },
  {
   "property": "C18",
   "status": "proved",
   "theorems": [
    "C18_coincident_policies_hang",
    "C18_ends_iff",
    "C18_find_ls_hangs",
    "C18_zero_d_hangs"
   ],
   "note": "find_ls and auto_solve_d never end when d or dmax is not positive and there is space; ends iff; two policies at the same place always hang auto_solve_d."
  },
  {
   "property": "C19",
   "status": "proved",
   "theorems": [
    "C19_last_space_refuted",
    "C19_placement_valid_iff",
    "C19_valid_iff_conform"
   ],
   "note": "the check is equivalent to the documented rule up to the tolerance; exact on computed placements. The documented criterion on the last space is not checked (refuted)."
  },
  {
   "property": "C20",
   "status": "proved",
   "theorems": [
    "C20_adjust_d"
   ],
   "note": "the search ends with the first value in the sequence that fits."
  },
  {
   "property": "C21",
   "status": "proved",
   "theorems": [
    "C21_adjust_smoothness"
   ],
   "note": "ends, in [1, original], no more lines, and cannot be lowered one step further."
  },
  {
   "property": "C22",
   "status": "proved",
   "theorems": [
    "C22_auto_solve_d",
    "C22_dmax_lowered",
    "C22_mesh",
    "C22_new_interval_ready"
   ],
   "note": "from any ready interval, solving ends and the mesh is strictly increasing between the policies, contains the middle, within dmax, growth bounded by the smoothness on both halves."
  },
  {
   "property": "C23",
   "status": "proved",
   "theorems": [
    "C23_factor_refuted",
    "C23_smooth_refuted"
   ],
   "note": "the two-sided smoothness rule is refuted for every smoothness in ]1;3/2], and the factor is unbounded."
  },
  {
   "property": "C24",
   "status": "proved",
   "theorems": [
    "C24_around_policy",
    "C24_on_axis_refuted"
   ],
   "note": "for all intervals on both sides of a HALFS or THIRDS policy, both using the same d. On a whole axis the second interval may lower d after the first was meshed, so the two distances can differ (C24_on_axis_refuted). ONELINE: see C31."
  },
  {
   "property": "C25",
   "status": "proved",
   "theorems": [
    "C25_clamped",
    "C25_no_crossing"
   ],
   "note": "d is the minimum of d and the half interval, hence lines stay on their side."
  },
  {
   "property": "C26",
   "status": "proved",
   "theorems": [
    "C26_add",
    "C26_always_consistent",
    "C26_span"
   ],
   "note": "over every axis state reached by adding, fixing, merging, detecting, editing and meshing (relation reached)."
  },
  {
   "property": "C27",
   "status": "proved",
   "theorems": [
    "C27_none",
    "C27_some"
   ],
   "note": "for every sorting function with the contract of std::ranges::sort."
  },
  {
   "property": "C28",
   "status": "proved",
   "theorems": [
    "C28_ends_apart",
    "C28_frame",
    "C28_replaced",
    "C28_stuck",
    "C28_within_limit_refuted"
   ],
   "note": "ends, apart, frame; every original policy has a replacement within 5/2 of the limit, while within the limit is refuted. Livelock proved when a policy of the closest pair is enabled and already in a conflict, with a reachable case."
  },
  {
   "property": "C29",
   "status": "proved",
   "theorems": [
    "C29_merge",
    "C29_solved",
    "C29_symmetric"
   ],
   "note": "table of the merge, symmetry, and both originals disabled."
  },
  {
   "property": "C30",
   "status": "proved",
   "theorems": [
    "C30_clamped",
    "C30_nothing_inside",
    "C30_tiling"
   ],
   "note": "for every sort; also the clamping of d."
  },
  {
   "property": "C31",
   "status": "proved",
   "theorems": [
    "C31_cell_count_refuted",
    "C31_cell_number",
    "C31_detected_meshable",
    "C31_mesh",
    "C31_mesh_again",
    "C31_no_line",
    "C31_outer_policy",
    "C31_policies_lines",
    "C31_whole_run",
    "C31_zone",
    "C31_zone_frame",
    "C31_zone_outside"
   ],
   "note": "from the policies to the lines; includes what is missing: no line outside the extreme policies unless ONELINE. The reported number counts grid nodes, not cells (refuted)."
  },
  {
   "property": "C32",
   "status": "proved",
   "theorems": [
    "C32_enabled_refuted",
    "C32_frame",
    "C32_idempotent",
    "C32_once",
    "C32_requested",
    "C32_stays_refuted"
   ],
   "note": "requested lines present, added once, idempotent. That they stay where asked, and that they are enabled, is refuted."
  },
  {
   "property": "C33",
   "status": "proved",
   "theorems": [
    "C33_detected",
    "C33_fits",
    "C33_order",
    "C33_permutation",
    "C33_reversed",
    "C33_solve",
    "C33_unique"
   ],
   "note": "Classification, uniqueness, order independence, reversal; solving an axis appends exactly these policies; detected conflicts meet the hypothesis of C33_solve."
  },
  {
   "property": "C34",
   "status": "proved",
   "theorems": [
    "C34_classes",
    "C34_classes_refuted",
    "C34_conflicts",
    "C34_frame",
    "C34_grouped",
    "C34_links",
    "C34_transitive"
   ],
   "note": "For every board without conflicts of colinear edges. Being exactly the classes of colinear edges needs the tolerance equality to be transitive on the lines of the board (C34_classes, C34_transitive); refuted otherwise (C34_classes_refuted): an edge can be in two conflicts."
  },
  {
   "property": "C35",
   "status": "proved",
   "theorems": [
    "C35_common_side_refuted",
    "C35_covered",
    "C35_detected",
    "C35_dismissed",
    "C35_ends",
    "C35_frame",
    "C35_mixed_refuted",
    "C35_order_refuted"
   ],
   "note": "Sound for every list of ranges of the line. Complete when ranges go along the edge and none is shared with an edge of the same normal; refuted otherwise (C35_mixed_refuted, C35_order_refuted). C35_detected: detection gives the conflicts these theorems are about. C35_common_side_refuted: a side shared by two polygons of one priority gets no line."
  },
  {
   "property": "C36",
   "status": "proved",
   "theorems": [
    "C36_polygon",
    "C36_segment",
    "C36_sides",
    "C36_smallest"
   ],
   "note": ""
  },
  {
   "property": "C37",
   "status": "proved",
   "theorems": [
    "C37_box",
    "C37_convex",
    "C37_edges",
    "C37_reverse",
    "C37_rotation",
    "C37_shift",
    "C37_small_refuted",
    "C37_translate",
    "C37_which"
   ],
   "note": "C37_small_refuted shows why the condition on the area is needed."
  },
  {
   "property": "C38",
   "status": "proved",
   "theorems": [
    "C38_box",
    "C38_coord",
    "C38_range",
    "C38_reflexive",
    "C38_strict",
    "C38_symmetric"
   ],
   "note": ""
  },
  {
   "property": "C39",
   "status": "proved",
   "theorems": [
    "C39_crossing",
    "C39_crossing_found",
    "C39_diagonal_refuted",
    "C39_intersection",
    "C39_intersection_apart_refuted",
    "C39_line",
    "C39_merge",
    "C39_overlap",
    "C39_overlap_boxes",
    "C39_parallel",
    "C39_same",
    "C39_small_refuted",
    "C39_symmetric"
   ],
   "note": "Refutations: descending diagonals, lines that meet outside the segments, small crossing edges."
  },
  {
   "property": "C40",
   "status": "proved",
   "theorems": [
    "C40_border",
    "C40_ends",
    "C40_ends_refuted",
    "C40_location"
   ],
   "note": "C40_ends_refuted is the endless retry."
  },
  {
   "property": "C41",
   "status": "proved",
   "theorems": [
    "C41_ambient",
    "C41_deduce",
    "C41_more",
    "C41_order"
   ],
   "note": "Adding a polygon never lowers the ambient material once there is some polygon there; the background itself has no priority and is replaced by any polygon."
  },
  {
   "property": "C42",
   "status": "proved",
   "theorems": [
    "C42_cast",
    "C42_cycle",
    "C42_edge_axis",
    "C42_no_axis",
    "C42_reversals",
    "C42_views"
   ],
   "note": "Finite tables, by case analysis; the part about the coordinate of an edge is for all segments."
  },
  {
   "property": "C43",
   "status": "proved",
   "theorems": [
    "C43_all",
    "C43_runs",
    "C43_unique"
   ],
   "note": "The specification (maximal_runs) has exactly one solution, which is the one computed."
  },
  {
   "property": "C44",
   "status": "proved",
   "theorems": [
    "C44_box",
    "C44_corner_order",
    "C44_curve",
    "C44_curve_refuted",
    "C44_cylinder",
    "C44_cylinder_half",
    "C44_cylinder_refuted",
    "C44_linpoly",
    "C44_multibox",
    "C44_no_vertex_refuted",
    "C44_point",
    "C44_polygon",
    "C44_priority",
    "C44_priority_port",
    "C44_priority_refuted",
    "C44_sphere",
    "C44_transformed",
    "C44_views_agree"
   ],
   "note": "Boxes, multiboxes, spheres, polygons, linpolys, points in full; refuted: cylinders (half radius, flat), curves (flat), polygons without vertex (undefined behaviour), negative priorities."
  },
  {
   "property": "C45",
   "status": "proved",
   "theorems": [
    "C45_distinct_refuted",
    "C45_exact",
    "C45_lines",
    "C45_number",
    "C45_order"
   ],
   "note": "C45_distinct_refuted: lines closer than 1e-6 may be written as one."
  },
  {
   "property": "C46",
   "status": "proved",
   "theorems": [
    "C46_edited",
    "C46_hidden_refuted",
    "C46_shown",
    "C46_unchanged_refuted"
   ],
   "note": "C46_hidden_refuted and C46_unchanged_refuted: fields not shown are reset, and values are cut to six significant digits by opening and committing."
  },
  {
   "property": "C47",
   "status": "proved",
   "theorems": [
    "C47_null_init_refused",
    "C47_unregistered_not_reverted"
   ],
   "note": ""
  },
  {
   "property": "C48",
   "status": "proved",
   "theorems": [
    "C48_reset_starts_over"
   ],
   "note": "The surviving annotation is what lets a stale step annotation be read after a new file is parsed (see DESIGN.md)."
  },
  {
   "property": "C49",
   "status": "proved",
   "theorems": [
    "C49_edit_d_hangs",
    "C49_edit_dmax_hangs"
   ],
   "note": "refuted as stated: an accepted edit of the d of a policy or of the dmax of an interval to a non-positive value makes the next mesh run loop."
  },
  {
   "property": "C50",
   "status": "proved",
   "theorems": [
    "C50_safe",
    "C50_valid"
   ],
   "note": "for one axis; the objects are addressed by their position in vectors that only grow. Timepoints freed by the history: see C03."
  },
  {
   "property": "C51",
   "status": "proved",
   "theorems": [
    "C51_added",
    "C51_order",
    "C51_sound"
   ],
   "note": "Over every board the additions can build."
  },
  {
   "property": "C52",
   "status": "proved",
   "theorems": [
    "C52_ends",
    "C52_frame",
    "C52_null_refuted",
    "C52_reversed"
   ],
   "note": "The null material is a finding (C52_null_refuted). The priority of what is beyond is ignored by the code, and so by the statement."
  },
  {
   "property": "C53",
   "status": "proved",
   "theorems": [
    "C53_frame",
    "C53_linked",
    "C53_policies"
   ],
   "note": ""
  },
  {
   "property": "C54",
   "status": "proved",
   "theorems": [
    "C54_geometry",
    "C54_idle",
    "C54_lined",
    "C54_no_side_refuted",
    "C54_only",
    "C54_policies",
    "C54_reversed"
   ],
   "note": "For runs that end: the ray of locate_point may be retried forever (C40). Transitivity of colinearity is needed, see C34_classes_refuted. C54_no_side_refuted: meshed edges without a side and alone have no line."
  },
  {
   "property": "C55",
   "status": "proved",
   "theorems": [
    "C55_diagonal",
    "C55_edges",
    "C55_ends",
    "C55_fixed",
    "C55_frame",
    "C55_oneline",
    "C55_policies",
    "C55_spaced"
   ],
   "note": "For runs whose policies are found (see C54). Classes of colinear edges need transitivity as in C54."
  },
  {
   "property": "C56",
   "status": "proved",
   "theorems": [
    "C56_boxes",
    "C56_lines",
    "C56_policies",
    "C56_safe",
    "C56_short_refuted",
    "C56_stuck_refuted"
   ],
   "note": "C56_short_refuted and C56_stuck_refuted are findings: they show that the hypotheses on edge lengths and on vertex heights are needed. The sort is any function that sorts by the relations used when they are orders, and permutes always."
  },
  {
   "property": "C57",
   "status": "proved",
   "theorems": [
    "C57_angles",
    "C57_cover",
    "C57_crossings",
    "C57_ends",
    "C57_meshed",
    "C57_straight_refuted",
    "C57_zoned",
    "C57_zones"
   ],
   "note": "C57_straight_refuted is a finding: does_overlap_strict of the flat bounding of a straight edge is always false, so crossings of diagonal and straight sides are dismissed although the comment says any other edge."
  },
  {
   "property": "C58",
   "status": "proved",
   "theorems": [
    "C58_adjusted",
    "C58_background",
    "C58_board",
    "C58_ends",
    "C58_materials",
    "C58_no_structure"
   ],
   "note": ""
  },
  {
   "property": "C59",
   "status": "proved",
   "theorems": [
    "C59_error",
    "C59_grid",
    "C59_lines",
    "C59_options",
    "C59_params",
    "C59_space_refuted",
    "C59_unit_refuted"
   ],
   "note": "C59_space_refuted and C59_unit_refuted are findings."
  },
  {
   "property": "C60",
   "status": "proved",
   "theorems": [
    "C60_diagonal_refuted",
    "C60_lines",
    "C60_params"
   ],
   "note": "C60_diagonal_refuted is a finding. The text pugixml writes for a double is a parameter of the model: hypothesis that the text reads back as the value, met by values of six decimals."
  },
  {
   "property": "C61",
   "status": "proved",
   "theorems": [
    "C61_board",
    "C61_fixed_refuted",
    "C61_frame",
    "C61_other_refuted",
    "C61_parameters"
   ],
   "note": "C61_other_refuted and C61_fixed_refuted are findings."
  },
  {
   "property": "C62",
   "status": "proved",
   "theorems": [
    "C62_coordinate",
    "C62_error",
    "C62_line",
    "C62_lines",
    "C62_lines_read",
    "C62_missing",
    "C62_plus_refuted",
    "C62_uint"
   ],
   "note": "C62_plus_refuted is a finding. Hexadecimal numbers, infinities and NaN are left out, as in the model, by hypotheses."
  },
  {
   "property": "C63",
   "status": "proved",
   "theorems": [
    "C63_boxes",
    "C63_lines",
    "C63_options_refuted",
    "C63_written"
   ],
   "note": "C63_options_refuted is a finding."
  },
  {
   "property": "C64",
   "status": "proved",
   "theorems": [
    "C64_dismissed",
    "C64_lines",
    "C64_policy",
    "C64_shown",
    "C64_small_refuted"
   ],
   "note": "C64_small_refuted is a finding: without the spacing of coordinates, a box beside another one loses all of its sides."
  },
  {
   "property": "C65",
   "status": "proved",
   "theorems": [
    "C65_around",
    "C65_distinct_refuted",
    "C65_double",
    "C65_doubles",
    "C65_ends",
    "C65_error",
    "C65_exact",
    "C65_far_refuted",
    "C65_lines",
    "C65_meshed",
    "C65_middle",
    "C65_oneline",
    "C65_policies",
    "C65_sign",
    "C65_spaced",
    "C65_stuck_refuted",
    "C65_ties"
   ],
   "note": "C65_distinct_refuted, C65_far_refuted and C65_stuck_refuted are findings; the first holds of a tame axis, the other two show that bounds are needed. Rounding is to nearest, ties to even, operation by operation; overflow, infinities and NaN are left out by the bounds of tame."
  },
  {
   "property": "C66",
   "status": "proved",
   "theorems": [
    "C66_answer",
    "C66_beyond",
    "C66_box",
    "C66_directions",
    "C66_flipped",
    "C66_joined",
    "C66_located",
    "C66_near_refuted",
    "C66_same"
   ],
   "note": "C66_near_refuted is a finding: off a grid, a vertex at nearly the height of the point makes it wrong. C40 has boxes off their tolerance band."
  },
  {
   "property": "C67",
   "status": "proved",
   "theorems": [
    "C67_area_refuted",
    "C67_dismissed",
    "C67_lines",
    "C67_near_refuted",
    "C67_policy",
    "C67_shown"
   ],
   "note": "C67_area_refuted and C67_near_refuted are findings: a chain without signed area has no policies at its sides, and off a grid a side that shows may be dismissed. C64 is the case of boxes, without a grid."
  },
  {
   "property": "C68",
   "status": "proved",
   "theorems": [
    "C68_buttons",
    "C68_fit_refuted",
    "C68_safe",
    "C68_shown",
    "C68_undo_redo",
    "C68_undo_step_refuted"
   ],
   "note": "C68_fit_refuted and C68_undo_step_refuted are findings. The discipline assumed of boards, editions and parsers (obeys) is stated on the operations actually made in the session; what is drawn of a state is not modelled."
  },
  {
   "property": "C69",
   "status": "proved",
   "theorems": [
    "C69_close",
    "C69_close_dangling_refuted",
    "C69_close_refuted",
    "C69_export",
    "C69_open_refuted",
    "C69_opened",
    "C69_overwrites",
    "C69_right",
    "C69_right_without_document_refuted",
    "C69_save",
    "C69_save_as",
    "C69_saved",
    "C69_saved_refuted"
   ],
   "note": "C69_saved_refuted, C69_close_refuted, C69_open_refuted, C69_right_without_document_refuted and C69_close_dangling_refuted are findings."
  },
  {
   "property": "C70",
   "status": "proved",
   "theorems": [
    "C70_global",
    "C70_global_all",
    "C70_interval_refuted",
    "C70_intervals",
    "C70_run",
    "C70_stay",
    "C70_stay_policies",
    "C70_zone"
   ],
   "note": "C70_stay, C70_stay_policies, C70_interval_refuted and C70_zone are findings. Dialogs of policies, too close policies and zones are modelled, and may come before that of the global parameters."
  },
  {
   "property": "C71",
   "status": "proved",
   "theorems": [
    "C71_back_forth",
    "C71_doubled",
    "C71_restart",
    "C71_stuck",
    "C71_three_refuted"
   ],
   "note": "C71_stuck, C71_restart and C71_doubled are findings."
  },
  {
   "property": "C72",
   "status": "proved",
   "theorems": [
    "C72_frames",
    "C72_nodes",
    "C72_whole",
    "C72_wires"
   ],
   "note": "The pointers from policies, intervals and lines are any that lead to the board. C72_whole leaves out the conflict that an edge solves if the dialog of edges was used."
  },
  {
   "property": "C73",
   "status": "proved",
   "theorems": [
    "C73_chain"
   ],
   "note": ""
  },
  {
   "property": "C74",
   "status": "proved",
   "theorems": [
    "C74_columns"
   ],
   "note": "For pointers as the manager sets them (solutions_sound)."
  },
  {
   "property": "C75",
   "status": "proved",
   "theorems": [
    "C75_selection",
    "C75_shown",
    "C75_switch_refuted"
   ],
   "note": "C75_switch_refuted is a finding. Titles of nodes and the mode STRUCTURE_VIEW are not modelled."
  },
  {
   "property": "C76",
   "status": "proved",
   "theorems": [
    "C76_fixed_refuted",
    "C76_lines",
    "C76_order",
    "C76_sort_refuted"
   ],
   "note": "C76_sort_refuted and C76_fixed_refuted are findings. Exact arithmetic; the order of the polygons of a board, which decides between equal priorities, is not part of it."
  },
  {
   "property": "C77",
   "status": "proved",
   "theorems": [
    "C77_command_line",
    "C77_delivered",
    "C77_offered_refuted",
    "C77_question",
    "C77_set_up",
    "C77_window"
   ],
   "note": "C77_offered_refuted and the second part of C77_question are findings about code the program does not reach. QMessageBox::exec is any function that gives a button that is shown."
  },
  {
   "property": "C78",
   "status": "proved",
   "theorems": [
    "C78_default",
    "C78_ends",
    "C78_printed",
    "C78_saved_refuted",
    "C78_written"
   ],
   "note": "C78_saved_refuted, C78_printed and C78_default are findings. The parsing of options by CLI11 is not modelled."
  },
  {
   "property": "C79",
   "status": "proved",
   "theorems": [
    "C79_axis",
    "C79_design",
    "C79_mirror_refuted",
    "C79_scale_refuted"
   ],
   "note": "C79_mirror_refuted and C79_scale_refuted are findings. Exact arithmetic."
  },
  {
   "property": "C80",
   "status": "proved",
   "theorems": [
    "C80_arrows",
    "C80_complete",
    "C80_names_refuted",
    "C80_says",
    "C80_sorted",
    "C80_states",
    "C80_text"
   ],
   "note": "C80_names_refuted is a finding. For a run of the command line program, the only one that writes the diagram. The pointers from policies and lines are any that lead to the board (links_sound), for C80_complete as the code sets them (origins_sound)."
  },
  {
   "property": "C81",
   "status": "proved",
   "theorems": [
    "C81_colinear_refuted",
    "C81_complete",
    "C81_flat",
    "C81_more",
    "C81_places",
    "C81_policy_lines",
    "C81_shown",
    "C81_styles"
   ],
   "note": "C81_colinear_refuted and C81_flat are findings. The rectangle of the scene is a parameter; figures are those given to Qt."
  },
  {
   "property": "C82",
   "status": "proved",
   "theorems": [
    "C82_buttons",
    "C82_edit_refuted",
    "C82_frames",
    "C82_in_step",
    "C82_inherits",
    "C82_kept",
    "C82_open_refuted",
    "C82_pages",
    "C82_plane",
    "C82_shows",
    "C82_undo_refuted",
    "C82_wires"
   ],
   "note": "C82_undo_refuted, C82_edit_refuted and C82_open_refuted are findings. The timepoint that an action leads to is an input; scenes are their settings."
  },
  {
   "property": "C83",
   "status": "proved",
   "theorems": [
    "C83_agree",
    "C83_covered",
    "C83_ends",
    "C83_graph",
    "C83_hidden_refuted",
    "C83_lines",
    "C83_never",
    "C83_scene",
    "C83_shown_refuted"
   ],
   "note": "C83_shown_refuted and C83_hidden_refuted are findings. What Qt does to a selection is stated in SyncModel.v; that whatever has an item has a node (covered) is C83_covered."
  },
  {
   "property": "C84",
   "status": "proved",
   "theorems": [
    "C84_any",
    "C84_chosen",
    "C84_coherent",
    "C84_given",
    "C84_held",
    "C84_old_refuted",
    "C84_painted_refuted",
    "C84_start",
    "C84_typed",
    "C84_untouched"
   ],
   "note": "C84_painted_refuted and C84_old_refuted are findings. Which cells are painted, and when, is an input."
  },
  {
   "property": "C85",
   "status": "proved",
   "theorems": [
    "C85_axes",
    "C85_bounding",
    "C85_convex",
    "C85_count",
    "C85_diagonal",
    "C85_left",
    "C85_near",
    "C85_never",
    "C85_on",
    "C85_once",
    "C85_sense",
    "C85_sense_refuted",
    "C85_slanted",
    "C85_tiny"
   ],
   "note": "On real numbers, with the axioms of the standard library's Reals. C85_tiny and C85_sense_refuted are a finding."
  },
  {
   "property": "C86",
   "status": "proved",
   "theorems": [
    "C86_beside",
    "C86_down",
    "C86_empty",
    "C86_free",
    "C86_height",
    "C86_held",
    "C86_hidden",
    "C86_inside",
    "C86_kept",
    "C86_larger",
    "C86_max",
    "C86_placed",
    "C86_regular",
    "C86_scene",
    "C86_shown",
    "C86_under",
    "C86_up",
    "C86_width"
   ],
   "note": "The sizes of items are inputs: when Qt works out the size of nested containers is not modelled."
  },
  {
   "property": "C87",
   "status": "proved",
   "theorems": [
    "C87_angles",
    "C87_angles_refuted",
    "C87_behave",
    "C87_by_row",
    "C87_colinear",
    "C87_fixed",
    "C87_fixed_refuted",
    "C87_found",
    "C87_from_two",
    "C87_one_by_one",
    "C87_parsing",
    "C87_rounds",
    "C87_too_close",
    "C87_triangles",
    "C87_width",
    "C87_window",
    "C87_window_busy",
    "C87_window_refuted",
    "C87_zones"
   ],
   "note": "False as first stated for two steps and for the window (C87_angles_refuted, C87_fixed_refuted, C87_window_refuted; findings 86 to 88); proved for all the others. What a comparison finds is an input, except for policies too close, tied to the model of the manager (C87_rounds)."
  },
  {
   "property": "C88",
   "status": "proved",
   "theorems": [
    "C88_close_refuted",
    "C88_edge",
    "C88_edge_refuted",
    "C88_read",
    "C88_solved",
    "C88_words"
   ],
   "note": "The third heading never has a conflict under it (C88_close_refuted; finding 89), and edges closer than the sixth decimal look the same (C88_edge_refuted). Colours are left out; names of polygons are any text."
  },
  {
   "property": "C89",
   "status": "proved",
   "theorems": [
    "C89_closest_refuted",
    "C89_ends_apart",
    "C89_exact",
    "C89_far_refuted",
    "C89_frame",
    "C89_meshed",
    "C89_middle",
    "C89_none",
    "C89_replaced",
    "C89_some"
   ],
   "note": "Policies more than the limit apart may be merged (C89_far_refuted) and not the closest first (C89_closest_refuted); finding 90. C89_meshed joins the merging to the meshing of C65. A replacement is within 5/2 of the limit, as in C28, up to fourteen roundings for each conflict found (C89_replaced). No overflow, infinities nor NaN."
  },
  {
   "property": "C90",
   "status": "proved",
   "theorems": [
    "C90_collect",
    "C90_collect_safe",
    "C90_compare",
    "C90_history",
    "C90_jump",
    "C90_step",
    "C90_within_needed"
   ],
   "note": "Parts are the jump, the erasing of states, the erasing of ordered timepoints, the request of a jump and the destruction of an object; they are not split further. C90_within_needed shows that the order within one call is needed; it is not a defect of the code. Whether std::weak_ptr::lock may be called in such a loop at all (the standard excludes functions that synchronise) is not modelled."
  },
  {
   "property": "C91",
   "status": "proved",
   "theorems": [
    "C91_always_refuted",
    "C91_back",
    "C91_next",
    "C91_nothing_left",
    "C91_on",
    "C91_only",
    "C91_pinned",
    "C91_run",
    "C91_steps",
    "C91_unpin"
   ],
   "note": "C91_always_refuted: a timepoint left by a jump without having been remembered stays until the next collection, so that not only needed timepoints are there at all times; memory only, not a defect seen by the user."
  }
 ]
}