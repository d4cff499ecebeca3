{
 "claims": [
  {
   "property": "C01",
   "status": "proved",
   "theorems": [
    "C01_debounce_alternates"
   ],
   "note": ""
  },
  {
   "property": "C02",
   "status": "proved",
   "theorems": [
    "C02_debounce_needs_evidence"
   ],
   "note": ""
  },
  {
   "property": "C03",
   "status": "proved",
   "theorems": [
    "C03_debounce_latency"
   ],
   "note": ""
  },
  {
   "property": "C04",
   "status": "proved",
   "theorems": [
    "C04_debounce_byte"
   ],
   "note": ""
  },
  {
   "property": "C05",
   "status": "proved",
   "theorems": [
    "C05_switches_independent",
    "C05_scan_order"
   ],
   "note": ""
  },
  {
   "property": "C06",
   "status": "proved",
   "theorems": [
    "C06_fn_layer",
    "C06_fn_layer_events",
    "C06_default_table"
   ],
   "note": ""
  },
  {
   "property": "C07",
   "status": "proved",
   "theorems": [
    "C07_bootloader",
    "C07_default_boot_key"
   ],
   "note": ""
  },
  {
   "property": "C08",
   "status": "proved",
   "theorems": [
    "C08_no_stuck_keys",
    "C08_quiet",
    "C08_no_stuck_ops"
   ],
   "note": ""
  },
  {
   "property": "C09",
   "status": "proved",
   "theorems": [
    "C09_report_well_formed",
    "C09_add_is_insert",
    "C09_remove_is_delete",
    "C09_consumer"
   ],
   "note": ""
  },
  {
   "property": "C10",
   "status": "partial",
   "theorems": [
    "C10_changes_reach_host_refuted",
    "C10_consumer_partial",
    "C10_keyboard_partial",
    "C10_resync_partial",
    "C10_sent_is_current"
   ],
   "note": "The full property is false (C10_..._refuted: releasing a modifier that both layers contain clears isKeyboardStale before the report is sent). Partial theorems state what does hold."
  },
  {
   "property": "C11",
   "status": "partial",
   "theorems": [
    "C11_held_key_stays_refuted",
    "C11_held_key_stays_partial"
   ],
   "note": "The full property is false (two switches with the same code; C11_..._refuted). The partial theorem covers codes produced by one switch only."
  },
  {
   "property": "C12",
   "status": "proved",
   "theorems": [
    "C12_suspended_press",
    "C12_suspended_tick",
    "C12_release_unaffected"
   ],
   "note": ""
  },
  {
   "property": "C13",
   "status": "proved",
   "theorems": [
    "C13_encoder_counts_detents",
    "C13_encoder_counts_tracked"
   ],
   "note": ""
  },
  {
   "property": "C14",
   "status": "proved",
   "theorems": [
    "C14_encoder_table_safe",
    "C14_event_needs_sequence"
   ],
   "note": ""
  },
  {
   "property": "C15",
   "status": "proved",
   "theorems": [
    "C15_encoder_pulse",
    "C15_idle"
   ],
   "note": ""
  },
  {
   "property": "C16",
   "status": "proved",
   "theorems": [
    "C16_led_pattern",
    "C16_led_repeat",
    "C16_host_leds"
   ],
   "note": ""
  },
  {
   "property": "C17",
   "status": "proved",
   "theorems": [
    "C17_string_descriptors",
    "C17_null"
   ],
   "note": ""
  },
  {
   "property": "C18",
   "status": "proved",
   "theorems": [
    "C18_no_fault",
    "C18_switch_streams",
    "C18_noticed",
    "C18_press_sent"
   ],
   "note": ""
  },
  {
   "property": "C19",
   "status": "proved",
   "theorems": [
    "C19_compose",
    "C19_affine",
    "C19_builders"
   ],
   "note": ""
  },
  {
   "property": "C20",
   "status": "proved",
   "theorems": [
    "C20_every_matrix_rigid",
    "C20_rotations",
    "C20_mirrors",
    "C20_planes_and_lines"
   ],
   "note": ""
  },
  {
   "property": "C21",
   "status": "partial",
   "theorems": [
    "C21_aligns_partial",
    "C21_antiparallel_refuted"
   ],
   "note": "Refuted as stated: antiparallel directions return mirroredX, which keeps (0,0,1) and is not a rotation (C21_antiparallel_refuted). Proved for all other pairs (C21_aligns_partial)."
  },
  {
   "property": "C22",
   "status": "proved",
   "theorems": [
    "C22_order"
   ],
   "note": ""
  },
  {
   "property": "C23",
   "status": "proved",
   "theorems": [
    "C23_plane_line",
    "C23_three_planes",
    "C23_axis_projections",
    "C23_normal_projection",
    "C23_two_lines",
    "C23_distances",
    "C23_constructors",
    "C23_vertical_plane",
    "C23_axis_planes"
   ],
   "note": ""
  },
  {
   "property": "C24",
   "status": "proved",
   "theorems": [
    "C24_intersect2D"
   ],
   "note": ""
  },
  {
   "property": "C25",
   "status": "proved",
   "theorems": [
    "C25_edge_distance",
    "C25_segment_distance"
   ],
   "note": ""
  },
  {
   "property": "C26",
   "status": "proved",
   "theorems": [
    "C26_circle_line",
    "C26_circle_circle"
   ],
   "note": ""
  },
  {
   "property": "C27",
   "status": "proved",
   "theorems": [
    "C27_normal",
    "C27_mirrored_reversed",
    "C27_circumradius",
    "C27_area_heron",
    "C27_angle_between"
   ],
   "note": ""
  },
  {
   "property": "C28",
   "status": "partial",
   "theorems": [
    "C28_flatten",
    "C28_collapse_subsequence",
    "C28_collapse_gap_partial",
    "C28_collapse_keeps_short_segment_refuted"
   ],
   "note": "The last clause is false (C28_collapse_keeps_short_segment_refuted: removing short segments can leave a new short one). Construction and selection are proved; C28_collapse_gap_partial bounds how much shorter a kept segment may get."
  },
  {
   "property": "C29",
   "status": "proved",
   "theorems": [
    "C29_boundary",
    "C29_boundary_closed",
    "C29_triangles",
    "C29_total",
    "C29_crossed_pair_leaks"
   ],
   "note": "Crossed coincidences (a = c or b = d) are outside the hypothesis; C29_crossed_pair_leaks shows the mesh leaks there."
  },
  {
   "property": "C30",
   "status": "proved",
   "theorems": [
    "C30_boundary_and_count",
    "C30_boundary_closed",
    "C30_vertices",
    "C30_terminates",
    "C30_total"
   ],
   "note": ""
  },
  {
   "property": "C31",
   "status": "proved",
   "theorems": [
    "C31_even_odd",
    "C31_outside",
    "C31_inside_convex",
    "C31_start_and_orientation"
   ],
   "note": ""
  },
  {
   "property": "C32",
   "status": "proved",
   "theorems": [
    "C32_hull",
    "C32_hull_contains",
    "C32_small"
   ],
   "note": ""
  },
  {
   "property": "C33",
   "status": "proved",
   "theorems": [
    "C33_merge_boundary",
    "C33_bridges_go_right",
    "C33_merge_succeeds",
    "C33_outside_hole_raises"
   ],
   "note": ""
  },
  {
   "property": "C34",
   "status": "proved",
   "theorems": [
    "C34_cache_transparent",
    "C34_ears_boundary",
    "C34_complete_fills",
    "C34_ears_empty",
    "C34_tiles",
    "C34_triangulate_boundary",
    "C34_triangulate_boundary_real"
   ],
   "note": ""
  },
  {
   "property": "C35",
   "status": "partial",
   "theorems": [
    "C35_tiny_polygon_gets_nothing_refuted",
    "C35_tiny_square_refuted",
    "C35_convex_complete_partial"
   ],
   "note": "False as stated: with the absolute tolerance 1e-6, polygons smaller than the tolerance get no ears (C35_tiny_*_refuted). Proved for convex polygons whose vertices keep the tolerance from lines through other vertices (C35_convex_complete_partial), and for all simple polygons that keep the tolerance in C80 (C80_ears_complete); missing: polygons with collinear or nearly collinear vertices."
  },
  {
   "property": "C36",
   "status": "proved",
   "theorems": [
    "C36_flip_preserves",
    "C36_flip_never_raises",
    "C36_flip_covers"
   ],
   "note": "For any arithmetic, under the hypothesis that an edge whose two triangles share the third corner is not flipped (true over the reals and for finite floats)."
  },
  {
   "property": "C37",
   "status": "proved",
   "theorems": [
    "C37_flip_terminates",
    "C37_flip_delaunay",
    "C37_incircle_meaning"
   ],
   "note": ""
  },
  {
   "property": "C38",
   "status": "proved",
   "theorems": [
    "C38_layout",
    "C38_injective",
    "C38_raises",
    "C38_precision"
   ],
   "note": ""
  },
  {
   "property": "C39",
   "status": "proved",
   "theorems": [
    "C39_last_file_wins",
    "C39_independent_of_past",
    "C39_accepted_iff",
    "C39_group_after_value_raises"
   ],
   "note": ""
  },
  {
   "property": "C40",
   "status": "proved",
   "theorems": [
    "C40_pool_map",
    "C40_threads_irrelevant",
    "C40_no_faces"
   ],
   "note": ""
  },
  {
   "property": "C41",
   "status": "proved",
   "theorems": [
    "C41_contents",
    "C41_mirrored_mesh"
   ],
   "note": ""
  },
  {
   "property": "C42",
   "status": "proved",
   "theorems": [
    "C42_grammar",
    "C42_unambiguous",
    "C42_options_end",
    "C42_run",
    "C42_writes",
    "C42_no_slash",
    "C42_stem",
    "C42_stem_trailing"
   ],
   "note": ""
  },
  {
   "property": "C43",
   "status": "proved",
   "theorems": [
    "C43_pretty",
    "C43_error",
    "C43_reads_once"
   ],
   "note": ""
  },
  {
   "property": "C44",
   "status": "partial",
   "theorems": [
    "C44_label_partial",
    "C44_negative_refuted"
   ],
   "note": "False for negative angles: C44_negative_refuted shows the label has two minus signs and is not left out even when the angle is written as 0. C44_label_partial covers angles with positive sign."
  },
  {
   "property": "C45",
   "status": "partial",
   "theorems": [
    "C45_text",
    "C45_archive",
    "C45_failure_untouched",
    "C45_fails",
    "C45_fill_complete",
    "C45_clear_complete_partial",
    "C45_clear_again_refuted"
   ],
   "note": "Clearing is not idempotent in every text (C45_clear_again_refuted); it is where attributes are followed by white space, a slash or a bracket (C45_clear_complete_partial), as in XML. Filling is always idempotent."
  },
  {
   "property": "C46",
   "status": "proved",
   "theorems": [
    "C46_arc",
    "C46_ends",
    "C46_fewest",
    "C46_degenerate"
   ],
   "note": ""
  },
  {
   "property": "C47",
   "status": "proved",
   "theorems": [
    "C47_corner",
    "C47_degenerate"
   ],
   "note": ""
  },
  {
   "property": "C48",
   "status": "proved",
   "theorems": [
    "C48_support_closed",
    "C48_support_closed_real",
    "C48_knob_closed",
    "C48_knob_closed_real"
   ],
   "note": "For any arithmetic under weight-level exactness of faces and clean strips (C48_support_closed, C48_knob_closed); over the reals face exactness follows from a complete triangulation (C48_*_real). The examples check the hypotheses for concrete settings in fixed point arithmetic."
  },
  {
   "property": "C49",
   "status": "proved",
   "theorems": [
    "C49_malformed_rejected",
    "C49_accepted_well_formed",
    "C49_finger_places",
    "C49_thumb_chain",
    "C49_both_sides",
    "C49_symmetric",
    "C49_per_column",
    "C49_extreme_keys"
   ],
   "note": ""
  },
  {
   "property": "C50",
   "status": "proved",
   "theorems": [
    "C50_hull_distance",
    "C50_boss_fit",
    "C50_boss_fit_terminates",
    "C50_plan_bosses"
   ],
   "note": ""
  },
  {
   "property": "C51",
   "status": "proved",
   "theorems": [
    "C51_tolerance"
   ],
   "note": ""
  },
  {
   "property": "C52",
   "status": "proved",
   "theorems": [
    "C52_normal",
    "C52_start_vertex",
    "C52_translated",
    "C52_reversed",
    "C52_planar",
    "C52_triangle"
   ],
   "note": ""
  },
  {
   "property": "C53",
   "status": "proved",
   "theorems": [
    "C53_flattened_counterclockwise",
    "C53_flattened_distances",
    "C53_triangles_face_outside",
    "C53_total_area",
    "C53_flattens_iff_area"
   ],
   "note": ""
  },
  {
   "property": "C54",
   "status": "proved",
   "theorems": [
    "C54_offset"
   ],
   "note": ""
  },
  {
   "property": "C55",
   "status": "proved",
   "theorems": [
    "C55_closed_mesh",
    "C55_circulation"
   ],
   "note": ""
  },
  {
   "property": "C56",
   "status": "partial",
   "theorems": [
    "C56_bridge_choice",
    "C56_bridge_crosses_refuted"
   ],
   "note": "The choice of the bridge is proved (C56_bridge_choice). The last clause is false: C56_bridge_crosses_refuted gives a simple polygon with 12 vertices and a triangular hole where the bridge crosses a side, because the program takes the nearest reflex vertex instead of the one with the smallest angle to the ray."
  },
  {
   "property": "C57",
   "status": "proved",
   "theorems": [
    "C57_file_names",
    "C57_knob_only"
   ],
   "note": ""
  },
  {
   "property": "C58",
   "status": "partial",
   "theorems": [
    "C58_full_hole",
    "C58_round_hole",
    "C58_half_hole_partial",
    "C58_half_hole_refuted"
   ],
   "note": "Full hole proved. The half hole keeps its promise only for taper angles of at least 45 degrees (C58_half_hole_partial); for every smaller angle its straight edge cuts into the circle (C58_half_hole_refuted), because the code uses a fixed tau/8 arc."
  },
  {
   "property": "C59",
   "status": "proved",
   "theorems": [
    "C59_support_fits",
    "C59_support_keys"
   ],
   "note": ""
  },
  {
   "property": "C60",
   "status": "proved",
   "theorems": [
    "C60_wall_lines",
    "C60_plan_walls"
   ],
   "note": ""
  },
  {
   "property": "C61",
   "status": "proved",
   "theorems": [
    "C61_groups_rigid",
    "C61_crease"
   ],
   "note": ""
  },
  {
   "property": "C62",
   "status": "proved",
   "theorems": [
    "C62_roofs",
    "C62_corners",
    "C62_position"
   ],
   "note": ""
  },
  {
   "property": "C63",
   "status": "proved",
   "theorems": [
    "C63_symmetric_plans"
   ],
   "note": ""
  },
  {
   "property": "C64",
   "status": "proved",
   "theorems": [
    "C64_nearest_keys"
   ],
   "note": ""
  },
  {
   "property": "C65",
   "status": "proved",
   "theorems": [
    "C65_plan_angles",
    "C65_creases"
   ],
   "note": ""
  },
  {
   "property": "C66",
   "status": "proved",
   "theorems": [
    "C66_thumb_corner"
   ],
   "note": ""
  },
  {
   "property": "C67",
   "status": "proved",
   "theorems": [
    "C67_hitch"
   ],
   "note": ""
  },
  {
   "property": "C68",
   "status": "proved",
   "theorems": [
    "C68_boss_bounds",
    "C68_thread_below_roof"
   ],
   "note": ""
  },
  {
   "property": "C69",
   "status": "proved",
   "theorems": [
    "C69_palm_closed",
    "C69_palm_closed_real"
   ],
   "note": ""
  },
  {
   "property": "C70",
   "status": "proved",
   "theorems": [
    "C70_body_closed",
    "C70_body_closed_real"
   ],
   "note": ""
  },
  {
   "property": "C71",
   "status": "proved",
   "theorems": [
    "C71_flush_boss_raises"
   ],
   "note": ""
  },
  {
   "property": "C72",
   "status": "proved",
   "theorems": [
    "C72_floor_closed",
    "C72_floor_closed_real"
   ],
   "note": ""
  },
  {
   "property": "C73",
   "status": "proved",
   "theorems": [
    "C73_shape",
    "C73_apart",
    "C73_rounded"
   ],
   "note": ""
  },
  {
   "property": "C74",
   "status": "proved",
   "theorems": [
    "C74_inside"
   ],
   "note": ""
  },
  {
   "property": "C75",
   "status": "proved",
   "theorems": [
    "C75_constant_along_paths",
    "C75_outside"
   ],
   "note": ""
  },
  {
   "property": "C76",
   "status": "proved",
   "theorems": [
    "C76_ends",
    "C76_endless"
   ],
   "note": ""
  },
  {
   "property": "C77",
   "status": "proved",
   "theorems": [
    "C77_flat",
    "C77_bend",
    "C77_written",
    "C77_tented_thumbs_empty"
   ],
   "note": ""
  },
  {
   "property": "C78",
   "status": "proved",
   "theorems": [
    "C78_one_list",
    "C78_numbers_plain",
    "C78_switches"
   ],
   "note": ""
  },
  {
   "property": "C79",
   "status": "proved",
   "theorems": [
    "C79_scan_reads_switches",
    "C79_pins_idle",
    "C79_default_pins"
   ],
   "note": ""
  },
  {
   "property": "C80",
   "status": "proved",
   "theorems": [
    "C80_ears_complete",
    "C80_covered_once",
    "C80_face_complete"
   ],
   "note": ""
  },
  {
   "property": "C81",
   "status": "proved",
   "theorems": [
    "C81_exact",
    "C81_cut_loops"
   ],
   "note": ""
  },
  {
   "property": "C82",
   "status": "proved",
   "theorems": [
    "C82_profile"
   ],
   "note": ""
  },
  {
   "property": "C83",
   "status": "proved",
   "theorems": [
    "C83_corner_feet",
    "C83_split_feet"
   ],
   "note": ""
  },
  {
   "property": "C84",
   "status": "proved",
   "theorems": [
    "C84_head_hole",
    "C84_thread_hole"
   ],
   "note": ""
  },
  {
   "property": "C85",
   "status": "proved",
   "theorems": [
    "C85_boss_outline",
    "C85_flush_boss"
   ],
   "note": ""
  },
  {
   "property": "C86",
   "status": "proved",
   "theorems": [
    "C86_floor_bracket",
    "C86_corner_bracket",
    "C86_roof_bracket",
    "C86_sides_match"
   ],
   "note": ""
  },
  {
   "property": "C87",
   "status": "proved",
   "theorems": [
    "C87_switch_passes",
    "C87_plain_outline",
    "C87_notched_outline",
    "C87_keepout",
    "C87_nonvacuous"
   ],
   "note": ""
  },
  {
   "property": "C88",
   "status": "proved",
   "theorems": [
    "C88_ziptie_slot",
    "C88_cable_channel",
    "C88_above_lip"
   ],
   "note": ""
  },
  {
   "property": "C89",
   "status": "proved",
   "theorems": [
    "C89_encoder_fits",
    "C89_openings",
    "C89_on_ridge",
    "C89_nonvacuous"
   ],
   "note": ""
  },
  {
   "property": "C90",
   "status": "proved",
   "theorems": [
    "C90_knob_corners",
    "C90_knob_size"
   ],
   "note": ""
  },
  {
   "property": "C91",
   "status": "proved",
   "theorems": [
    "C91_grooves",
    "C91_crowded_turns_back",
    "C91_drawn"
   ],
   "note": ""
  },
  {
   "property": "C92",
   "status": "proved",
   "theorems": [
    "C92_shaft_socket",
    "C92_socket_clears_shaft",
    "C92_drawn"
   ],
   "note": ""
  },
  {
   "property": "C93",
   "status": "proved",
   "theorems": [
    "C93_palm_size"
   ],
   "note": ""
  },
  {
   "property": "C94",
   "status": "proved",
   "theorems": [
    "C94_hitch_room",
    "C94_hitch_front",
    "C94_hitch_convex"
   ],
   "note": ""
  },
  {
   "property": "C95",
   "status": "proved",
   "theorems": [
    "C95_palm_sides",
    "C95_profile_smooth",
    "C95_groove_parallel"
   ],
   "note": ""
  },
  {
   "property": "C96",
   "status": "proved",
   "theorems": [
    "C96_chamfer_point",
    "C96_outer_chamfer",
    "C96_inner_chamfer"
   ],
   "note": ""
  },
  {
   "property": "C97",
   "status": "proved",
   "theorems": [
    "C97_step"
   ],
   "note": ""
  },
  {
   "property": "C98",
   "status": "proved",
   "theorems": [
    "C98_round_corners"
   ],
   "note": ""
  },
  {
   "property": "C100",
   "status": "proved",
   "theorems": [
    "C100_walls_in_order",
    "C100_brackets_clear"
   ],
   "note": ""
  },
  {
   "property": "C101",
   "status": "proved",
   "theorems": [
    "C101_board_boss"
   ],
   "note": ""
  },
  {
   "property": "C99",
   "status": "proved",
   "theorems": [
    "C99_body_faces_flat"
   ],
   "note": ""
  },
  {
   "property": "C102",
   "status": "proved",
   "theorems": [
    "C102_knob_flat",
    "C102_support_flat",
    "C102_palm_flat"
   ],
   "note": ""
  },
  {
   "property": "C103",
   "status": "proved",
   "theorems": [
    "C103_floor_flat",
    "C103_plain_floor_flat"
   ],
   "note": ""
  }
 ]
}