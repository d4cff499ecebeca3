# Print Assumptions of every theorem

Generated by tools/assumptions.py from the compiled files.

## Closed under the global context (no axioms)

- C01 `C01_debounce_alternates` (P_Firmware.v)
- C02 `C02_debounce_needs_evidence` (P_Firmware.v)
- C03 `C03_debounce_latency` (P_Firmware.v)
- C04 `C04_debounce_byte` (P_Firmware.v)
- C05 `C05_switches_independent` (P_Firmware.v)
- C05 `C05_scan_order` (P_Firmware.v)
- C06 `C06_fn_layer` (P_Firmware.v)
- C06 `C06_fn_layer_events` (P_Firmware.v)
- C06 `C06_default_table` (P_Firmware.v)
- C07 `C07_bootloader` (P_Firmware.v)
- C07 `C07_default_boot_key` (P_Firmware.v)
- C08 `C08_no_stuck_keys` (P_Firmware.v)
- C08 `C08_quiet` (P_Firmware.v)
- C08 `C08_no_stuck_ops` (P_Firmware.v)
- C09 `C09_report_well_formed` (P_Firmware.v)
- C09 `C09_add_is_insert` (P_Firmware.v)
- C09 `C09_remove_is_delete` (P_Firmware.v)
- C09 `C09_consumer` (P_Firmware.v)
- C10 `C10_changes_reach_host_refuted` (P_Firmware.v)
- C10 `C10_consumer_partial` (P_Firmware.v)
- C10 `C10_keyboard_partial` (P_Firmware.v)
- C10 `C10_resync_partial` (P_Firmware.v)
- C10 `C10_sent_is_current` (P_Firmware.v)
- C11 `C11_held_key_stays_refuted` (P_Firmware.v)
- C11 `C11_held_key_stays_partial` (P_Firmware.v)
- C12 `C12_suspended_press` (P_Firmware.v)
- C12 `C12_suspended_tick` (P_Firmware.v)
- C12 `C12_release_unaffected` (P_Firmware.v)
- C13 `C13_encoder_counts_detents` (P_Firmware.v)
- C13 `C13_encoder_counts_tracked` (P_Firmware.v)
- C14 `C14_encoder_table_safe` (P_Firmware.v)
- C14 `C14_event_needs_sequence` (P_Firmware.v)
- C15 `C15_encoder_pulse` (P_Firmware.v)
- C15 `C15_idle` (P_Firmware.v)
- C16 `C16_led_pattern` (P_Firmware.v)
- C16 `C16_led_repeat` (P_Firmware.v)
- C16 `C16_host_leds` (P_Firmware.v)
- C17 `C17_string_descriptors` (P_Firmware.v)
- C17 `C17_null` (P_Firmware.v)
- C18 `C18_no_fault` (P_Firmware.v)
- C18 `C18_switch_streams` (P_Firmware.v)
- C18 `C18_noticed` (P_Firmware.v)
- C18 `C18_press_sent` (P_Firmware.v)
- C28 `C28_flatten` (P_Edge.v)
- C29 `C29_boundary` (P_Edge.v)
- C29 `C29_boundary_closed` (P_Edge.v)
- C29 `C29_triangles` (P_Edge.v)
- C30 `C30_boundary_and_count` (P_Edge.v)
- C30 `C30_boundary_closed` (P_Edge.v)
- C30 `C30_vertices` (P_Edge.v)
- C30 `C30_terminates` (P_Edge.v)
- C33 `C33_merge_boundary` (P_Face.v)
- C34 `C34_cache_transparent` (P_Face.v)
- C34 `C34_ears_boundary` (P_Face.v)
- C34 `C34_complete_fills` (P_Face.v)
- C34 `C34_triangulate_boundary` (P_Face.v)
- C36 `C36_flip_preserves` (P_Face.v)
- C36 `C36_flip_never_raises` (P_Face.v)
- C38 `C38_layout` (P_Stl.v)
- C38 `C38_injective` (P_Stl.v)
- C39 `C39_last_file_wins` (P_Cfg.v)
- C39 `C39_independent_of_past` (P_Cfg.v)
- C39 `C39_accepted_iff` (P_Cfg.v)
- C39 `C39_group_after_value_raises` (P_Cfg.v)
- C40 `C40_pool_map` (P_Make.v)
- C40 `C40_threads_irrelevant` (P_Make.v)
- C40 `C40_no_faces` (P_Make.v)
- C41 `C41_contents` (P_Make.v)
- C42 `C42_grammar` (P_Main.v)
- C42 `C42_unambiguous` (P_Main.v)
- C42 `C42_options_end` (P_Main.v)
- C42 `C42_run` (P_Main.v)
- C42 `C42_writes` (P_Main.v)
- C42 `C42_no_slash` (P_Main.v)
- C42 `C42_stem` (P_Main.v)
- C42 `C42_stem_trailing` (P_Main.v)
- C45 `C45_text` (P_Seam.v)
- C45 `C45_archive` (P_Seam.v)
- C45 `C45_failure_untouched` (P_Seam.v)
- C45 `C45_fails` (P_Seam.v)
- C45 `C45_fill_complete` (P_Seam.v)
- C45 `C45_clear_complete_partial` (P_Seam.v)
- C45 `C45_clear_again_refuted` (P_Seam.v)
- C48 `C48_support_closed` (P_Solid.v)
- C48 `C48_knob_closed` (P_Solid.v)
- C49 `C49_malformed_rejected` (P_Layout.v)
- C49 `C49_accepted_well_formed` (P_Layout.v)
- C49 `C49_both_sides` (P_Layout.v)
- C49 `C49_per_column` (P_Layout.v)
- C57 `C57_file_names` (P_Make.v)
- C57 `C57_knob_only` (P_Make.v)
- C59 `C59_support_keys` (P_Solid.v)
- C68 `C68_boss_bounds` (P_Palm.v)
- C69 `C69_palm_closed` (P_Palm.v)
- C71 `C71_flush_boss_raises` (P_Body.v)
- C78 `C78_one_list` (P_Pcb.v)
- C78 `C78_switches` (P_Pcb.v)
- C79 `C79_scan_reads_switches` (P_Pins.v)
- C79 `C79_pins_idle` (P_Pins.v)
- C79 `C79_default_pins` (P_Pins.v)
- C86 `C86_sides_match` (P_Bracket.v)

## `ClassicalDedekindReals.sig_forall_dec`, `FunctionalExtensionality.functional_extensionality_dep`

- C43 `C43_pretty` (P_Pretty.v)
- C43 `C43_error` (P_Pretty.v)
- C43 `C43_reads_once` (P_Pretty.v)
- C44 `C44_label_partial` (P_Pretty.v)
- C44 `C44_negative_refuted` (P_Pretty.v)
- C78 `C78_numbers_plain` (P_Pcb.v)

## `ClassicalDedekindReals.sig_forall_dec`, `ClassicalDedekindReals.sig_not_dec`, `Classical_Prop.classic`, `FunctionalExtensionality.functional_extensionality_dep`

- C19 `C19_compose` (P_Geo.v)
- C19 `C19_affine` (P_Geo.v)
- C19 `C19_builders` (P_Geo.v)
- C20 `C20_every_matrix_rigid` (P_Geo.v)
- C20 `C20_rotations` (P_Geo.v)
- C20 `C20_mirrors` (P_Geo.v)
- C20 `C20_planes_and_lines` (P_Geo.v)
- C21 `C21_aligns_partial` (P_Geo.v)
- C21 `C21_antiparallel_refuted` (P_Geo.v)
- C22 `C22_order` (P_Geo.v)
- C23 `C23_plane_line` (P_Geo.v)
- C23 `C23_three_planes` (P_Geo.v)
- C23 `C23_axis_projections` (P_Geo.v)
- C23 `C23_normal_projection` (P_Geo.v)
- C23 `C23_two_lines` (P_Geo.v)
- C23 `C23_distances` (P_Geo.v)
- C23 `C23_constructors` (P_Geo.v)
- C23 `C23_vertical_plane` (P_Normal.v)
- C23 `C23_axis_planes` (P_Normal.v)
- C24 `C24_intersect2D` (P_Geo.v)
- C25 `C25_edge_distance` (P_Edge.v)
- C25 `C25_segment_distance` (P_Geo.v)
- C26 `C26_circle_line` (P_Geo.v)
- C26 `C26_circle_circle` (P_Geo.v)
- C27 `C27_normal` (P_Geo.v)
- C27 `C27_mirrored_reversed` (P_Geo.v)
- C27 `C27_circumradius` (P_Geo.v)
- C27 `C27_area_heron` (P_Geo.v)
- C27 `C27_angle_between` (P_Geo.v)
- C28 `C28_collapse_subsequence` (P_Edge.v)
- C28 `C28_collapse_gap_partial` (P_Edge.v)
- C28 `C28_collapse_keeps_short_segment_refuted` (P_Edge.v)
- C29 `C29_total` (P_Edge.v)
- C29 `C29_crossed_pair_leaks` (P_Edge.v)
- C30 `C30_total` (P_Edge.v)
- C31 `C31_even_odd` (P_Edge.v)
- C31 `C31_outside` (P_Edge.v)
- C31 `C31_inside_convex` (P_Edge.v)
- C31 `C31_start_and_orientation` (P_Edge.v)
- C32 `C32_hull` (P_Edge.v)
- C32 `C32_hull_contains` (P_Edge.v)
- C32 `C32_small` (P_Edge.v)
- C33 `C33_bridges_go_right` (P_Face.v)
- C33 `C33_merge_succeeds` (P_Face.v)
- C33 `C33_outside_hole_raises` (P_Face.v)
- C34 `C34_ears_empty` (P_Face.v)
- C34 `C34_tiles` (P_Face.v)
- C34 `C34_triangulate_boundary_real` (P_Face.v)
- C35 `C35_tiny_polygon_gets_nothing_refuted` (P_Face.v)
- C35 `C35_tiny_square_refuted` (P_Face.v)
- C35 `C35_convex_complete_partial` (P_Face.v)
- C36 `C36_flip_covers` (P_Face.v)
- C37 `C37_flip_terminates` (P_Face.v)
- C37 `C37_flip_delaunay` (P_Face.v)
- C37 `C37_incircle_meaning` (P_Face.v)
- C38 `C38_raises` (P_Stl.v)
- C38 `C38_precision` (P_Stl.v)
- C41 `C41_mirrored_mesh` (P_Make.v)
- C46 `C46_arc` (P_Arc.v)
- C46 `C46_ends` (P_Arc.v)
- C46 `C46_fewest` (P_Arc.v)
- C46 `C46_degenerate` (P_Arc.v)
- C47 `C47_corner` (P_Arc.v)
- C47 `C47_degenerate` (P_Arc.v)
- C48 `C48_support_closed_real` (P_Solid.v)
- C48 `C48_knob_closed_real` (P_Solid.v)
- C49 `C49_finger_places` (P_Layout.v)
- C49 `C49_thumb_chain` (P_Layout.v)
- C49 `C49_symmetric` (P_Layout.v)
- C49 `C49_extreme_keys` (P_Layout.v)
- C50 `C50_hull_distance` (P_Plan.v)
- C50 `C50_boss_fit` (P_Plan.v)
- C50 `C50_boss_fit_terminates` (P_Plan.v)
- C50 `C50_plan_bosses` (P_Plan.v)
- C51 `C51_tolerance` (P_Geo.v)
- C52 `C52_normal` (P_Normal.v)
- C52 `C52_start_vertex` (P_Normal.v)
- C52 `C52_translated` (P_Normal.v)
- C52 `C52_reversed` (P_Normal.v)
- C52 `C52_planar` (P_Normal.v)
- C52 `C52_triangle` (P_Normal.v)
- C53 `C53_flattened_counterclockwise` (P_Normal.v)
- C53 `C53_flattened_distances` (P_Normal.v)
- C53 `C53_triangles_face_outside` (P_Normal.v)
- C53 `C53_total_area` (P_Normal.v)
- C53 `C53_flattens_iff_area` (P_Normal.v)
- C54 `C54_offset` (P_Normal.v)
- C55 `C55_closed_mesh` (P_Normal.v)
- C55 `C55_circulation` (P_Normal.v)
- C56 `C56_bridge_choice` (P_Bridge.v)
- C56 `C56_bridge_crosses_refuted` (P_Bridge.v)
- C58 `C58_full_hole` (P_Arc.v)
- C58 `C58_round_hole` (P_Arc.v)
- C58 `C58_half_hole_partial` (P_Arc.v)
- C58 `C58_half_hole_refuted` (P_Arc.v)
- C59 `C59_support_fits` (P_Solid.v)
- C60 `C60_wall_lines` (P_Plan.v)
- C60 `C60_plan_walls` (P_Plan.v)
- C61 `C61_groups_rigid` (P_Plan.v)
- C61 `C61_crease` (P_Plan.v)
- C62 `C62_roofs` (P_Plan.v)
- C62 `C62_corners` (P_Plan.v)
- C62 `C62_position` (P_Plan.v)
- C63 `C63_symmetric_plans` (P_Plan.v)
- C64 `C64_nearest_keys` (P_Plan.v)
- C65 `C65_plan_angles` (P_Plan2.v)
- C65 `C65_creases` (P_Plan2.v)
- C66 `C66_thumb_corner` (P_Plan2.v)
- C67 `C67_hitch` (P_Plan2.v)
- C68 `C68_thread_below_roof` (P_Palm.v)
- C69 `C69_palm_closed_real` (P_Palm.v)
- C70 `C70_body_closed` (P_Body.v)
- C70 `C70_body_closed_real` (P_Body.v)
- C72 `C72_floor_closed` (P_Floor.v)
- C72 `C72_floor_closed_real` (P_Floor.v)
- C73 `C73_shape` (P_Hex.v)
- C73 `C73_apart` (P_Hex.v)
- C73 `C73_rounded` (P_Hex.v)
- C74 `C74_inside` (P_Hex.v)
- C75 `C75_constant_along_paths` (P_Hex.v)
- C75 `C75_outside` (P_Hex.v)
- C76 `C76_ends` (P_Hex.v)
- C76 `C76_endless` (P_Hex.v)
- C77 `C77_flat` (P_Pcb.v)
- C77 `C77_bend` (P_Pcb.v)
- C77 `C77_written` (P_Pcb.v)
- C77 `C77_tented_thumbs_empty` (P_Pcb.v)
- C80 `C80_ears_complete` (P_Ears.v)
- C80 `C80_covered_once` (P_Ears.v)
- C80 `C80_face_complete` (P_Ears.v)
- C81 `C81_exact` (P_Offset.v)
- C81 `C81_cut_loops` (P_Offset.v)
- C82 `C82_profile` (P_Offset.v)
- C83 `C83_corner_feet` (P_Bumper.v)
- C83 `C83_split_feet` (P_Bumper.v)
- C84 `C84_head_hole` (P_Boss.v)
- C84 `C84_thread_hole` (P_Boss.v)
- C85 `C85_boss_outline` (P_Boss.v)
- C85 `C85_flush_boss` (P_Boss.v)
- C86 `C86_floor_bracket` (P_Bracket.v)
- C86 `C86_corner_bracket` (P_Bracket.v)
- C86 `C86_roof_bracket` (P_Bracket.v)
- C87 `C87_switch_passes` (P_Switch.v)
- C87 `C87_plain_outline` (P_Switch.v)
- C87 `C87_notched_outline` (P_Switch.v)
- C87 `C87_keepout` (P_Switch.v)
- C87 `C87_nonvacuous` (P_Switch.v)
- C88 `C88_ziptie_slot` (P_Cable.v)
- C88 `C88_cable_channel` (P_Cable.v)
- C88 `C88_above_lip` (P_Cable.v)
- C89 `C89_encoder_fits` (P_Encoder.v)
- C89 `C89_openings` (P_Encoder.v)
- C89 `C89_on_ridge` (P_Encoder.v)
- C89 `C89_nonvacuous` (P_Encoder.v)
- C90 `C90_knob_corners` (P_Knob.v)
- C90 `C90_knob_size` (P_Knob.v)
- C91 `C91_grooves` (P_Knob.v)
- C91 `C91_crowded_turns_back` (P_Knob.v)
- C91 `C91_drawn` (P_Knob.v)
- C92 `C92_shaft_socket` (P_Knob.v)
- C92 `C92_socket_clears_shaft` (P_Knob.v)
- C92 `C92_drawn` (P_Knob.v)
- C93 `C93_palm_size` (P_PalmShape.v)
- C94 `C94_hitch_room` (P_PalmShape.v)
- C94 `C94_hitch_front` (P_PalmShape.v)
- C94 `C94_hitch_convex` (P_PalmShape.v)
- C95 `C95_palm_sides` (P_PalmShape.v)
- C95 `C95_profile_smooth` (P_PalmShape.v)
- C95 `C95_groove_parallel` (P_PalmShape.v)
- C96 `C96_chamfer_point` (P_Chamfer.v)
- C96 `C96_outer_chamfer` (P_Chamfer.v)
- C96 `C96_inner_chamfer` (P_Chamfer.v)
- C97 `C97_step` (P_Chamfer.v)
- C98 `C98_round_corners` (P_Round.v)
- C100 `C100_walls_in_order` (P_Guard.v)
- C100 `C100_brackets_clear` (P_Guard.v)
- C101 `C101_board_boss` (P_Guard.v)
- C99 `C99_body_faces_flat` (P_Flat.v)
- C102 `C102_knob_flat` (P_FlatRest.v)
- C102 `C102_support_flat` (P_FlatRest.v)
- C102 `C102_palm_flat` (P_FlatRest.v)
- C103 `C103_floor_flat` (P_FlatFloor.v)
- C103 `C103_plain_floor_flat` (P_FlatFloor.v)
