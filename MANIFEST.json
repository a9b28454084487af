{
 "claims": [
  {
   "property": "C01",
   "status": "proved",
   "theorems": [
    "C01_filename_injective",
    "C01_filename_recovers_name"
   ],
   "note": ""
  },
  {
   "property": "C02",
   "status": "partial",
   "theorems": [
    "C02_case_distinct_partial",
    "C02_case_collision_exact",
    "C02_case_distinct_refuted"
   ],
   "note": "REFUTED as stated: the letter Z gets no underscore (\"Zcaron\"/\"zcaron\" collide). Exact characterisation of collisions proved; distinctness proved for names without Z."
  },
  {
   "property": "C03",
   "status": "proved",
   "theorems": [
    "C03_glif_string_exact",
    "C03_glif_string_first_control",
    "C03_len_one_exact"
   ],
   "note": ""
  },
  {
   "property": "C04",
   "status": "partial",
   "theorems": [
    "C04_to_glif_string_partial",
    "C04_to_glif_string_panics",
    "C04_to_glif_string_refuted"
   ],
   "note": "REFUTED as stated: panics when a control character follows a non-ASCII character (character index used as byte index). Exact dichotomy proved: cleaned string in the other case, panic in this one."
  },
  {
   "property": "C05",
   "status": "proved",
   "theorems": [
    "C05_width_restored",
    "C05_width_of_document"
   ],
   "note": ""
  },
  {
   "property": "C06",
   "status": "proved",
   "theorems": [
    "C06_width_mended"
   ],
   "note": ""
  },
  {
   "property": "C07",
   "status": "proved",
   "theorems": [
    "C07_code_points_restored",
    "C07_code_points_exact",
    "C07_code_points_of_document"
   ],
   "note": ""
  },
  {
   "property": "C08",
   "status": "proved",
   "theorems": [
    "C08_floats",
    "C08_color_round_trip",
    "C08_color_round_trip_value",
    "C08_color_round_trip_rust"
   ],
   "note": ""
  },
  {
   "property": "C09",
   "status": "partial",
   "theorems": [
    "C09_color_accepts_exactly",
    "C09_color_never_panics",
    "C09_four_components_refuted"
   ],
   "note": "REFUTED as stated: extra components are accepted, white space is not skipped. Exact acceptance condition proved for every number parser."
  },
  {
   "property": "C10",
   "status": "proved",
   "theorems": [
    "C10_prev_next_total",
    "C10_neighbours",
    "C10_prev_and_next"
   ],
   "note": ""
  },
  {
   "property": "C11",
   "status": "proved",
   "theorems": [
    "C11_open_neighbours",
    "C11_closed_neighbours",
    "C11_open_closed",
    "C11_which_end"
   ],
   "note": ""
  },
  {
   "property": "C12",
   "status": "partial",
   "theorems": [
    "C12_smooth_own_handles_partial",
    "C12_smooth_head_exact",
    "C12_smooth_tail_exact",
    "C12_smooth_open_end",
    "C12_smooth_own_handles_refuted"
   ],
   "note": "REFUTED as stated: the first and last points of a closed contour are judged with the handle of the other end point. Proved for all inner points and exactly characterised at the ends."
  },
  {
   "property": "C13",
   "status": "proved",
   "theorems": [
    "C13_check_smooth_frame",
    "C13_check_smooth_never_panics",
    "C13_default_tolerance"
   ],
   "note": ""
  },
  {
   "property": "C14",
   "status": "proved",
   "theorems": [
    "C14_reverse_twice_closed",
    "C14_reverse_twice_open"
   ],
   "note": "Closed contours: always. Open contours: exact condition (the last point's type is the one its handles call for), whenever reversing does not panic (C16)."
  },
  {
   "property": "C15",
   "status": "partial",
   "theorems": [
    "C15_reverse_strokes_closed",
    "C15_reverse_strokes_open",
    "C15_reverse_segments_closed_exact",
    "C15_reverse_segments_open_exact",
    "C15_reverse_shape_refuted"
   ],
   "note": "REFUTED as stated for contours mixing lines and curves (types move to the wrong segments); proved for the strokes without kinds, and with kinds exactly when all segments are of one kind."
  },
  {
   "property": "C16",
   "status": "proved",
   "theorems": [
    "C16_reverse_points",
    "C16_reverse_panics_exactly"
   ],
   "note": ""
  },
  {
   "property": "C17",
   "status": "proved",
   "theorems": [
    "C17_read_closed",
    "C17_read_open"
   ],
   "note": ""
  },
  {
   "property": "C18",
   "status": "partial",
   "theorems": [
    "C18_document_panics",
    "C18_read_panics_exactly",
    "C18_read_never_panics_refuted"
   ],
   "note": "REFUTED as stated: a contour starting with move/line/curve and containing a qcurve panics (so does an empty point list). Exact panic condition proved, also for whole documents (C91_panics_exactly)."
  },
  {
   "property": "C19",
   "status": "partial",
   "theorems": [
    "C19_read_keeps_exactly",
    "C19_unread_exactly",
    "C19_no_contour_lost_refuted"
   ],
   "note": "REFUTED as stated: a contour whose first point is off-curve is dropped (so is a lone move). Exact condition proved; all others kept in order."
  },
  {
   "property": "C20",
   "status": "partial",
   "theorems": [
    "C20_implied_points_partial",
    "C20_closing_point_exact",
    "C20_no_adjacent",
    "C20_implied_points_refuted"
   ],
   "note": "REFUTED for contours ending in an off-curve point (an extra QClose point is added); proved for the others and exactly characterised in that case."
  },
  {
   "property": "C21",
   "status": "proved",
   "theorems": [
    "C21_write_read",
    "C21_write_read_exact"
   ],
   "note": ""
  },
  {
   "property": "C22",
   "status": "proved",
   "theorems": [
    "C22_glyph_exact",
    "C22_write_terminates"
   ],
   "note": ""
  },
  {
   "property": "C23",
   "status": "partial",
   "theorems": [
    "C23_second_time_exact",
    "C23_quadratic_written_exact",
    "C23_quadratic_refuted"
   ],
   "note": "REFUTED as stated: control points are replaced by points on the curve, or writing panics (QClose). What is written is proved exactly, and what then happens: it cannot be read again, or it can be read once more and then not written (C23_second_time_exact)."
  },
  {
   "property": "C24",
   "status": "proved",
   "theorems": [
    "C24_glyph_restored",
    "C24_outline_presence",
    "C24_rust_numbers"
   ],
   "note": "Trees, not text: the XML text layer and the plist crate are external. Numbers must be legible (every i32 and every f32 except -0.0 is, with Rust's formats)."
  },
  {
   "property": "C25",
   "status": "partial",
   "theorems": [
    "C25_image_color_refuted",
    "C25_image_color_exact"
   ],
   "note": "REFUTED as stated: the color of an image is never written, so it is lost. Exact behaviour proved."
  },
  {
   "property": "C26",
   "status": "proved",
   "theorems": [
    "C26_order_of_kinds",
    "C26_swap_neighbours",
    "C26_unknown_ignored"
   ],
   "note": ""
  },
  {
   "property": "C27",
   "status": "proved",
   "theorems": [
    "C27_only_format_2"
   ],
   "note": ""
  },
  {
   "property": "C28",
   "status": "proved",
   "theorems": [
    "C28_anchor_restored",
    "C28_anchor_class"
   ],
   "note": ""
  },
  {
   "property": "C29",
   "status": "proved",
   "theorems": [
    "C29_anchor_pedantry"
   ],
   "note": ""
  },
  {
   "property": "C30",
   "status": "partial",
   "theorems": [
    "C30_lib_exact",
    "C30_malformed_lib_refuted"
   ],
   "note": "REFUTED as stated: a lib that is not a property list is dropped on reading and nothing is written for it. Exact behaviour proved."
  },
  {
   "property": "C31",
   "status": "proved",
   "theorems": [
    "C31_terminates",
    "C31_result_is_definite",
    "C31_refers_to"
   ],
   "note": ""
  },
  {
   "property": "C32",
   "status": "partial",
   "theorems": [
    "C32_read_not_seen",
    "C32_resolved_soundly",
    "C32_resolved_exactly",
    "C32_cycle_never_succeeds",
    "C32_cycle_only_if_same_name",
    "C32_cycle_only_if_cycle",
    "C32_cycle_iff",
    "C32_cycle_only_if_cycle_refuted"
   ],
   "note": "REFUTED as stated for glyph names with path separators: two different files are then reported as a cycle because the references have the same name (C32_cycle_only_if_cycle_refuted). Proved for all names: a cycle never succeeds, what is found is right, a report means that a glyph includes one of the same name. Proved exactly when no included name has a separator."
  },
  {
   "property": "C33",
   "status": "partial",
   "theorems": [
    "C33_what_is_lost",
    "C33_all_contours_partial",
    "C33_all_contours_refuted",
    "C33_third_level_refuted"
   ],
   "note": "REFUTED as stated: a glyph's own contours and those three or more levels deep are lost. Exactly what is kept and lost proved; full statement proved for two levels without own contours."
  },
  {
   "property": "C34",
   "status": "proved",
   "theorems": [
    "C34_matrices_inside_out",
    "C34_exact_product"
   ],
   "note": ""
  },
  {
   "property": "C35",
   "status": "partial",
   "theorems": [
    "C35_rect_exact",
    "C35_rect_bounds_partial",
    "C35_rect_bounds_refuted"
   ],
   "note": "REFUTED as stated: rectangles are computed from untransformed points and restarted at each part. Exact rectangle proved; bounding proved, among any number of components, for each without parts that is not moved."
  },
  {
   "property": "C36",
   "status": "proved",
   "theorems": [
    "C36_frame"
   ],
   "note": ""
  },
  {
   "property": "C37",
   "status": "partial",
   "theorems": [
    "C37_closed_from_kurbo",
    "C37_closed_there_and_back",
    "C37_closed_there_and_back_exact",
    "C37_closed_there_and_back_refuted",
    "C37_points_of_operations"
   ],
   "note": "REFUTED as stated: a non-last segment whose control points both lie on its ends makes the next segment disappear on the way back (C37_closed_there_and_back_refuted); the round trip holds exactly when there is none (C37_closed_there_and_back_exact)."
  },
  {
   "property": "C38",
   "status": "partial",
   "theorems": [
    "C38_pen_total",
    "C38_closed_draws_partial",
    "C38_leaves_refigured",
    "C38_mixed_refuted",
    "C38_closed_draws_exact"
   ],
   "note": "REFUTED for contours mixing lines and curves (C38_mixed_refuted). C38_closed_draws_exact: with neighbouring points apart, the contour is drawn exactly if all its segments are of one kind. Totality proved for all contours."
  },
  {
   "property": "C39",
   "status": "partial",
   "theorems": [
    "C39_open_draws_partial",
    "C39_line_first_refuted",
    "C39_curve_first_refuted",
    "C39_open_draws_exact"
   ],
   "note": "REFUTED: a line first loses the MoveTo, for every such contour; a curve first loses the first segment, for every such contour of three or more points. C39_open_draws_exact: with neighbouring points apart, it is drawn exactly if it is a single curve."
  },
  {
   "property": "C40",
   "status": "partial",
   "theorems": [
    "C40_from_kurbo_exact",
    "C40_from_kurbo_refuted"
   ],
   "note": "REFUTED as stated (QuadTo, or a second ClosePath); the exact condition for the panic is proved for all paths."
  },
  {
   "property": "C41",
   "status": "partial",
   "theorems": [
    "C41_refigure_types_partial",
    "C41_refigure_total",
    "C41_refigure_types_refuted"
   ],
   "note": "REFUTED at the start of a closed contour (uses the last point's handle before tidying); proved exactly otherwise."
  },
  {
   "property": "C42",
   "status": "partial",
   "theorems": [
    "C42_refigure_idempotent_exact",
    "C42_refigure_stable_after_two",
    "C42_refigure_idempotent_refuted"
   ],
   "note": "REFUTED as stated; exact condition proved, and that a third run never changes anything."
  },
  {
   "property": "C43",
   "status": "proved",
   "theorems": [
    "C43_any_points",
    "C43_read_back",
    "C43_same_curve",
    "C43_same_ends"
   ],
   "note": ""
  },
  {
   "property": "C44",
   "status": "partial",
   "theorems": [
    "C44_codec_exact",
    "C44_codec_from_prefix",
    "C44_codec_unique",
    "C44_load_records_codec",
    "C44_guess",
    "C44_short_refuted"
   ],
   "note": "REFUTED for files shorter than twelve bytes, which are always Unknown (C44_short_refuted). Exact characterisation proved: at least twelve bytes and the magic number."
  },
  {
   "property": "C45",
   "status": "partial",
   "theorems": [
    "C45_content_exact",
    "C45_content_colored",
    "C45_states",
    "C45_pixels_need_load",
    "C45_failed_load_frame",
    "C45_tint",
    "C45_data_panics_exactly",
    "C45_data_panics_refuted",
    "C45_decode_exact",
    "C45_tint_panics_exactly"
   ],
   "note": "\"No call panics\" REFUTED for data(): it panics exactly in the states Decoded and LoadedDecodeFailed. Everything else proved for all histories; the `image` crate is an arbitrary decoder that returns whole RGBA pixels."
  },
  {
   "property": "C46",
   "status": "partial",
   "theorems": [
    "C46_there_and_back",
    "C46_restored_exact",
    "C46_lib_refuted"
   ],
   "note": "REFUTED as stated: the lib is lost and an absent outline becomes an empty one. What comes back is proved for every glyph; restored exactly when there is an outline and no lib."
  },
  {
   "property": "C47",
   "status": "proved",
   "theorems": [
    "C47_restored",
    "C47_downgrade_exact",
    "C47_wrong_number",
    "C47_glyph_restored",
    "C47_glyph_wrong_number",
    "C47_glyph_left_behind"
   ],
   "note": ""
  },
  {
   "property": "C48",
   "status": "partial",
   "theorems": [
    "C48_in_step_partial",
    "C48_sub_exact",
    "C48_sub_refuted",
    "C48_insert_at_end_refuted",
    "C48_cubic_delete_refuted"
   ],
   "note": "REFUTED: a sub-range panics or keeps one handle too many, inserting after the last point panics, MFEKCubicContour::delete keeps the handle. In step for all other histories (C48_in_step_partial); the exact failure is proved."
  },
  {
   "property": "C49",
   "status": "proved",
   "theorems": [
    "C49_contents",
    "C49_merge",
    "C49_merge_panics_exactly"
   ],
   "note": ""
  },
  {
   "property": "C50",
   "status": "proved",
   "theorems": [
    "C50_round_trip",
    "C50_accepts_exactly",
    "C50_names_distinct",
    "C50_custom_name_refuted"
   ],
   "note": "Every value survives. A custom cap holds no file name, so the name in a parsed text is lost (C50_custom_name_refuted). Accepted texts characterised exactly."
  },
  {
   "property": "C51",
   "status": "partial",
   "theorems": [
    "C51_move_near",
    "C51_set_then_get",
    "C51_set_frame",
    "C51_opposite",
    "C51_point_type_text",
    "C51_any_kind_set_get",
    "C51_move_partial",
    "C51_move_refuted",
    "C51_move_without_handles",
    "C51_has_handle",
    "C51_has_neither_refuted",
    "C51_set_name",
    "C51_set_smooth",
    "C51_kind",
    "C51_new_points",
    "C51_which"
   ],
   "note": "Access laws proved for all points. Moving handles along: exact on any grid of a power of two that fits f32 (C51_move_partial); REFUTED for arbitrary floats, where rounding shifts handles by another distance; C51_move_near bounds the difference. Cubic and hyperbezier points claim to have the handle Neither (C51_has_neither_refuted)."
  },
  {
   "property": "C52",
   "status": "proved",
   "theorems": [
    "C52_combined",
    "C52_contour_drawn",
    "C52_none_exactly",
    "C52_outline",
    "C52_mfek_outline"
   ],
   "note": ""
  },
  {
   "property": "C53",
   "status": "partial",
   "theorems": [
    "C53_glif_point_valid_exact",
    "C53_point_valid_exact",
    "C53_point_valid_refuted"
   ],
   "note": "REFUTED for outline points (NaN only checked on x, subnormal only on y); exact characterisation proved; the check on file points is proved."
  },
  {
   "property": "C54",
   "status": "partial",
   "theorems": [
    "C54_append_to_nothing",
    "C54_delete",
    "C54_insert",
    "C54_append",
    "C54_reverse_refuted",
    "C54_reverse_exact"
   ],
   "note": "Proved for deleting, inserting and appending; REFUTED for reversing, which leaves the widths in the old order (exactly: points keep their widths just if these are the same forwards and backwards)."
  },
  {
   "property": "C55",
   "status": "proved",
   "theorems": [
    "C55_iterates_all_points",
    "C55_get_point",
    "C55_next_point"
   ],
   "note": ""
  },
  {
   "property": "C56",
   "status": "partial",
   "theorems": [
    "C56_set_open",
    "C56_panics_exactly",
    "C56_close_refuted"
   ],
   "note": "Proved for all contours but a single cubic point, which stays open (REFUTED there); empty cubic and quadratic contours panic. Closing gives the first point the type curve, whatever it was."
  },
  {
   "property": "C57",
   "status": "proved",
   "theorems": [
    "C57_directories_distinct",
    "C57_layerinfo"
   ],
   "note": ""
  },
  {
   "property": "C58",
   "status": "proved",
   "theorems": [
    "C58_downgrade_panics_exactly",
    "C58_restored_exact"
   ],
   "note": ""
  },
  {
   "property": "C59",
   "status": "partial",
   "theorems": [
    "C59_from_skia_exact",
    "C59_from_skia_refuted"
   ],
   "note": "REFUTED as stated: a closed subpath that is a single curve panics, and a closed one that begins with a line and ends with a curve gets a straight line instead of that curve. Everything else, and that these are the only exceptions, is proved for all paths (C59_from_skia_exact). Skia itself (path iteration, conic subdivision) is external: a model of its documentation and an oracle."
  },
  {
   "property": "C60",
   "status": "partial",
   "theorems": [
    "C60_there_and_back",
    "C60_exact",
    "C60_busy_strokes",
    "C60_there_and_back_refuted",
    "C60_single_point_refuted"
   ],
   "note": "REFUTED for closed contours that begin with a line and end with a curve, for a closed single curve (panics), and for closed contours that end in a line of no length (it is lost). Exact outcome for all contours: C60_exact."
  },
  {
   "property": "C61",
   "status": "proved",
   "theorems": [
    "C61_filename_shape",
    "C61_filename_is_sane",
    "C61_own_name"
   ],
   "note": ""
  },
  {
   "property": "C62",
   "status": "partial",
   "theorems": [
    "C62_outline_rounded",
    "C62_idempotent",
    "C62_file_points_rounded",
    "C62_integers_kept_partial",
    "C62_integers_kept_refuted"
   ],
   "note": "REFUTED for integers beyond 2^24 in file points, which go through f32 (C62_integers_kept_refuted; larger ones are also clamped to i32). Everything else proved; integers up to 2^24 kept. Handles are not rounded."
  },
  {
   "property": "C63",
   "status": "proved",
   "theorems": [
    "C63_skia_kurbo_skia",
    "C63_kurbo_skia_kurbo",
    "C63_exact_as_kurbo",
    "C63_set_and_get",
    "C63_skia_valid",
    "C63_from_kurbo"
   ],
   "note": ""
  },
  {
   "property": "C64",
   "status": "proved",
   "theorems": [
    "C64_matrix_to_skia",
    "C64_image_matrix"
   ],
   "note": ""
  },
  {
   "property": "C65",
   "status": "partial",
   "theorems": [
    "C65_guideline_entries",
    "C65_identifier_refuted"
   ],
   "note": "REFUTED as stated: the identifier is left out. Everything else proved exactly."
  },
  {
   "property": "C66",
   "status": "proved",
   "theorems": [
    "C66_conversions",
    "C66_text_restored"
   ],
   "note": ""
  },
  {
   "property": "C67",
   "status": "partial",
   "theorems": [
    "C67_saved",
    "C67_succeeds",
    "C67_disk_fails",
    "C67_unwritable_glyph",
    "C67_other_files",
    "C67_interrupted",
    "C67_old_or_new_refuted"
   ],
   "note": "\"Old or new\" REFUTED: the file is written in place and passes through the contents the operating system puts in it (empty first). All the rest proved for every crash point; exactly which contents can be seen is proved."
  },
  {
   "property": "C68",
   "status": "proved",
   "theorems": [
    "C68_mfek_flattened"
   ],
   "note": ""
  },
  {
   "property": "C69",
   "status": "proved",
   "theorems": [
    "C69_handle_named"
   ],
   "note": ""
  },
  {
   "property": "C70",
   "status": "proved",
   "theorems": [
    "C70_point_exact"
   ],
   "note": ""
  },
  {
   "property": "C71",
   "status": "proved",
   "theorems": [
    "C71_component_image_exact",
    "C71_identity_by_default"
   ],
   "note": ""
  },
  {
   "property": "C72",
   "status": "proved",
   "theorems": [
    "C72_document_exact",
    "C72_one_meaning"
   ],
   "note": ""
  },
  {
   "property": "C73",
   "status": "proved",
   "theorems": [
    "C73_file_exact",
    "C73_file_errors"
   ],
   "note": ""
  },
  {
   "property": "C74",
   "status": "proved",
   "theorems": [
    "C74_written_structure",
    "C74_image_unwritable"
   ],
   "note": ""
  },
  {
   "property": "C75",
   "status": "proved",
   "theorems": [
    "C75_settings_exact",
    "C75_default_accepts_most"
   ],
   "note": ""
  },
  {
   "property": "C76",
   "status": "partial",
   "theorems": [
    "C76_start_stable_refuted",
    "C76_cycles_of_curves_exact",
    "C76_cycles_with_line_exact",
    "C76_cycles_stable"
   ],
   "note": "REFUTED: a closed contour starting with a curve starts one point earlier after each cycle. C76_cycles_of_curves_exact, C76_cycles_with_line_exact and C76_cycles_stable give the exact behaviour for any number of cycles."
  },
  {
   "property": "C77",
   "status": "proved",
   "theorems": [
    "C77_quadratic_direct",
    "C77_quadratic_single",
    "C77_all_controls"
   ],
   "note": ""
  },
  {
   "property": "C78",
   "status": "partial",
   "theorems": [
    "C78_start_cubic",
    "C78_start_quadratic_partial",
    "C78_start_quadratic_refuted"
   ],
   "note": "REFUTED for quadratic contours that end in a control point: the extra closing point depends on where the list starts. Proved for all closed contours of lines and cubic curves, and for quadratic ones without a control point at the end."
  },
  {
   "property": "C79",
   "status": "proved",
   "theorems": [
    "C79_guideline_calls",
    "C79_guideline_default",
    "C79_guideline_data"
   ],
   "note": ""
  },
  {
   "property": "C80",
   "status": "proved",
   "theorems": [
    "C80_constructors",
    "C80_there_and_back",
    "C80_handle_as_point",
    "C80_handle_from"
   ],
   "note": ""
  },
  {
   "property": "C81",
   "status": "proved",
   "theorems": [
    "C81_implied_near",
    "C81_implied_exact"
   ],
   "note": ""
  },
  {
   "property": "C82",
   "status": "proved",
   "theorems": [
    "C82_near_curve",
    "C82_coordinates",
    "C82_file_points",
    "C82_same_for_all"
   ],
   "note": ""
  },
  {
   "property": "C83",
   "status": "proved",
   "theorems": [
    "C83_image_near",
    "C83_nested_near",
    "C83_file_matrix",
    "C83_flattened_near"
   ],
   "note": ""
  },
  {
   "property": "C84",
   "status": "proved",
   "theorems": [
    "C84_reversed_each",
    "C84_reversed_total",
    "C84_reversed_twice",
    "C84_refigured"
   ],
   "note": ""
  },
  {
   "property": "C85",
   "status": "partial",
   "theorems": [
    "C85_number_of_points",
    "C85_simplify",
    "C85_simplify_same_shape",
    "C85_split",
    "C85_one_contour",
    "C85_open_valid",
    "C85_closed_valid_refuted",
    "C85_default_valid",
    "C85_kurbo_element",
    "C85_valid_exact"
   ],
   "note": "REFUTED for the validity of the operations of closed contours, whose MoveTo always counts as invalid; asking whether a list is one contour panics exactly for a stray Close. Everything else proved."
  },
  {
   "property": "C86",
   "status": "proved",
   "theorems": [
    "C86_image_of_glyph",
    "C86_which_file",
    "C86_plain_name",
    "C86_image_of_file"
   ],
   "note": ""
  },
  {
   "property": "C87",
   "status": "proved",
   "theorems": [
    "C87_edit",
    "C87_panics_exactly",
    "C87_history",
    "C87_reverse_twice",
    "C87_sub_append"
   ],
   "note": ""
  },
  {
   "property": "C88",
   "status": "partial",
   "theorems": [
    "C88_hyper",
    "C88_first_point_stays",
    "C88_append",
    "C88_reverse_refuted",
    "C88_delete_first_refuted",
    "C88_sub_refuted"
   ],
   "note": "REFUTED for cubic and quadratic contours: reversing an open contour, deleting its first point and taking a later part always close it. Proved for hyperbezier contours and whenever the first point stays."
  },
  {
   "property": "C89",
   "status": "proved",
   "theorems": [
    "C89_only_that_point",
    "C89_in_step",
    "C89_views"
   ],
   "note": ""
  },
  {
   "property": "C90",
   "status": "proved",
   "theorems": [
    "C90_code_point_text",
    "C90_width_text",
    "C90_strict_width",
    "C90_integer_text",
    "C90_one_number",
    "C90_written_numbers"
   ],
   "note": ""
  },
  {
   "property": "C91",
   "status": "proved",
   "theorems": [
    "C91_first_failure",
    "C91_all_pass",
    "C91_panics_exactly",
    "C91_one_failure"
   ],
   "note": ""
  },
  {
   "property": "C92",
   "status": "partial",
   "theorems": [
    "C92_checked_kept",
    "C92_loaded_checked_refuted",
    "C92_loaded_exactly",
    "C92_anchor_class_refuted"
   ],
   "note": "REFUTED: deserialising does not check, so a loaded GlifString may hold control characters and a loaded GlifStringLenOne may be empty (C92_loaded_checked_refuted). The conversions do check (C03). What is loaded is exactly the text that is there."
  },
  {
   "property": "C93",
   "status": "partial",
   "theorems": [
    "C93_round_trip",
    "C93_round_trip_again",
    "C93_saving_fails_exactly",
    "C93_not_finite",
    "C93_exact",
    "C93_refuted",
    "C93_loaded_again_refuted",
    "C93_parts"
   ],
   "note": "REFUTED: the file name is lost, coordinates that are not finite are saved but cannot be loaded, point data () is lost, a lib kept as XML cannot be saved. Exactly what is loaded, and when nothing is: C93_exact; when saving fails: C93_saving_fails_exactly."
  },
  {
   "property": "C94",
   "status": "partial",
   "theorems": [
    "C94_round_trip",
    "C94_contour_round_trip",
    "C94_history_round_trip",
    "C94_saving_fails_exactly",
    "C94_contour_saved",
    "C94_refuted",
    "C94_not_finite",
    "C94_exact",
    "C94_contour_exact"
   ],
   "note": "REFUTED for the file names, which are read but not written (C94_refuted). Everything else proved for all depths; when saving fails is exact, and so is what is loaded (C94_exact, C94_contour_exact): nothing if any float at any depth is not finite, else all but the file names and point data written as null."
  },
  {
   "property": "C95",
   "status": "proved",
   "theorems": [
    "C95_points",
    "C95_glyph",
    "C95_mfek_glyph",
    "C95_operations",
    "C95_enums",
    "C95_handle",
    "C95_variants",
    "C95_values",
    "C95_written_values"
   ],
   "note": ""
  },
  {
   "property": "C96",
   "status": "proved",
   "theorems": [
    "C96_float_text",
    "C96_one_float",
    "C96_exact",
    "C96_coordinate_float",
    "C96_coordinate_nearest",
    "C96_point",
    "C96_guideline",
    "C96_written"
   ],
   "note": ""
  },
  {
   "property": "C97",
   "status": "proved",
   "theorems": [
    "C97_from_64",
    "C97_from_64_special",
    "C97_coordinate",
    "C97_serde_integer",
    "C97_implied_nearest",
    "C97_arithmetic"
   ],
   "note": ""
  },
  {
   "property": "C98",
   "status": "partial",
   "theorems": [
    "C98_which_can_be_saved",
    "C98_saved_again_refuted",
    "C98_restored",
    "C98_contours_kept",
    "C98_quadratic_once",
    "C98_which_can_be_reopened",
    "C98_how_often",
    "C98_file_how_often"
   ],
   "note": "REFUTED as stated: a contour starting with qcurve and ending in a control point can be opened but saving it panics (C98_saved_again_refuted); this is exactly when (C98_which_can_be_saved). Restored for documents of lines and cubic curves, minus zeros and libs the plist crate does not restore excepted; a document with a contour starting with qcurve survives one round at most (C98_quadratic_once); what was saved makes opening panic exactly if a contour starts with qcurve and does not end with it (C98_which_can_be_reopened), and a document can be opened and saved any number of times exactly if no contour starts with qcurve (C98_how_often; the same for the bytes of files: C98_file_how_often); its contours are covered by C23."
  },
  {
   "property": "C99",
   "status": "proved",
   "theorems": [
    "C99_others_untouched",
    "C99_last_saved_is_loaded",
    "C99_different_files",
    "C99_font_restored",
    "C99_font_flattened"
   ],
   "note": ""
  },
  {
   "property": "C100",
   "status": "proved",
   "theorems": [
    "C100_glyph",
    "C100_mfek_glyph",
    "C100_parts",
    "C100_plain_parts",
    "C100_enums",
    "C100_values"
   ],
   "note": ""
  },
  {
   "property": "C101",
   "status": "partial",
   "theorems": [
    "C101_message_tells_error",
    "C101_message_tells_error_refuted",
    "C101_numbers",
    "C101_more_than",
    "C101_texts",
    "C101_fixed",
    "C101_names"
   ],
   "note": "REFUTED for errors of reading and of writing XML, which share a message, and for cycles of glyphs whose names contain commas and blanks (C101_message_tells_error_refuted). Proved for all other pairs of errors."
  },
  {
   "property": "C102",
   "status": "partial",
   "theorems": [
    "C102_equal_exactly",
    "C102_numbers_exactly",
    "C102_reflexive_exactly",
    "C102_symmetric",
    "C102_transitive",
    "C102_saved_again",
    "C102_reflexive_refuted"
   ],
   "note": "REFUTED: a document with NaN for a number can be opened and the glyph does not equal itself (C102_reflexive_refuted); this is exactly when (C102_reflexive_exactly). Transitive for integers up to 2^24 (an integer and a float compare as floats). Equal after saving for contours written out in full that do not start with a curve, without image colors and NaN, whatever the signs of its zeros (C102_saved_again; see C25, C98 for what happens otherwise)."
  },
  {
   "property": "C103",
   "status": "partial",
   "theorems": [
    "C103_equal_exactly",
    "C103_contours_exactly",
    "C103_reflexive_exactly",
    "C103_symmetric",
    "C103_transitive",
    "C103_transitive_refuted",
    "C103_upgraded",
    "C103_downgraded",
    "C103_loaded_exactly",
    "C103_refuted"
   ],
   "note": "REFUTED: an MFEK glyph with NaN in it or in its history does not equal itself, one with a file name does not equal what is loaded after saving it (C103_refuted); exactly then (C103_reflexive_exactly, C103_loaded_exactly). Integers above 2^24 can be unequal and both equal the same float (C103_transitive_refuted); transitive otherwise (C103_transitive). Conversion to MFEK glyphs keeps equality for images placed by integers up to 2^24."
  },
  {
   "property": "C104",
   "status": "proved",
   "theorems": [
    "C104_equal_exactly",
    "C104_equal_hashed_equally",
    "C104_tells_all",
    "C104_enums"
   ],
   "note": ""
  },
  {
   "property": "C105",
   "status": "partial",
   "theorems": [
    "C105_pen_exact",
    "C105_kurbo_and_skia",
    "C105_kurbo_exact",
    "C105_refuted"
   ],
   "note": "REFUTED: closed contours with both lines and curves, and open contours but a single curve, are drawn differently or not at all by the kurbo path (C105_refuted; follows C38, C39). Exactly the others agree (C105_pen_exact, C105_kurbo_exact, for neighbouring points in different places); those agree in any case (C105_kurbo_and_skia)."
  },
  {
   "property": "C106",
   "status": "partial",
   "theorems": [
    "C106_tree",
    "C106_numbers",
    "C106_text_restored",
    "C106_blank_note",
    "C106_name_refuted",
    "C106_font"
   ],
   "note": "REFUTED: a note of nothing but blanks is lost, since text of blanks between tags is layout (C106_blank_note, C106_blank_case), and a name with a control character is written as it is, after which the file is no XML (C106_name_refuted). All other glyphs whose texts consist of characters XML can carry, without tabs in attributes and carriage returns in text, are restored. The printer and parser are a model after XML 1.0 and the documentation of xmltree and xml-rs."
  },
  {
   "property": "C107",
   "status": "proved",
   "theorems": [
    "C107_documents",
    "C107_one_meaning",
    "C107_written",
    "C107_same_glyph",
    "C107_no_document"
   ],
   "note": ""
  },
  {
   "property": "C108",
   "status": "partial",
   "theorems": [
    "C108_read_exact",
    "C108_written_back",
    "C108_restored",
    "C108_text_exact",
    "C108_text_restored",
    "C108_blank_refuted",
    "C108_unwritable_refuted"
   ],
   "note": "REFUTED: a text of nothing but blanks inside the lib comes back empty (C108_blank_refuted), and with a uid or a character XML does not have anywhere in it the whole lib is left out of the file without an error (C108_unwritable_refuted). Every other dictionary is restored (C108_text_restored), with blank texts exactly those become empty (C108_text_exact); reading is exact (C108_read_exact). Reals, dates and data enter through their text, which is assumed to be read back."
  },
  {
   "property": "C109",
   "status": "proved",
   "theorems": [
    "C109_decoded",
    "C109_encoded",
    "C109_cut_document",
    "C109_missing",
    "C109_not_utf8",
    "C109_cut",
    "C109_cut_written",
    "C109_font",
    "C109_stopped"
   ],
   "note": ""
  },
  {
   "property": "C110",
   "status": "partial",
   "theorems": [
    "C110_same_exactly",
    "C110_forever",
    "C110_settles",
    "C110_settles_exactly",
    "C110_bytes_exactly",
    "C110_rust_numbers",
    "C110_minus_zero_refuted",
    "C110_opened",
    "C110_refuted"
   ],
   "note": "REFUTED for closed contours that start and end with curves between points that differ: their start moves by one point on every save, so the file differs (C110_refuted). Exactly when the bytes are the same: C110_bytes_exactly; such contours come to rest after as many saves as they have points if they have a line, and never otherwise (C110_settles, C110_settles_exactly). Minus zero among angles, colours and matrices is written differently the second time (C110_minus_zero_refuted) and excluded."
  },
  {
   "property": "C111",
   "status": "partial",
   "theorems": [
    "C111_one_for_each",
    "C111_bound",
    "C111_bound_chain",
    "C111_limited",
    "C111_tower",
    "C111_in_proportion_refuted"
   ],
   "note": "REFUTED: nothing that was read is kept, so the same file is read again for each component that leads to it, and in a font of n + 1 files with two components each 2^(n+1) - 2 files are read (C111_tower); there is no factor c such that c times the files of the font are enough (C111_in_proportion_refuted). Exactly one read for each component found (C111_one_for_each); the limit is |components| * (1 + k + ... + k^n) for n names and at most k components in a glyph, whatever the outcome (C111_bound, C111_limited, C111_bound_chain)."
  },
  {
   "property": "C112",
   "status": "partial",
   "theorems": [
    "C112_default",
    "C112_read_exactly",
    "C112_reads_more",
    "C112_opened_and_saved",
    "C112_restored",
    "C112_kept_refuted"
   ],
   "note": "REFUTED in its last part: a build without glifserde drops the lib of every file it opens and saves, one without glifimage the images, without an error (C112_kept_refuted). Exactly that is lost (C112_opened_and_saved); reading is exactly reading the document without the elements concerned (C112_read_exactly), so all the full build reads is read, and nothing more but files with faulty images (C112_reads_more)."
  },
  {
   "property": "C113",
   "status": "partial",
   "theorems": [
    "C113_asserts",
    "C113_saving_alike",
    "C113_skia_alike",
    "C113_reversing_differs_exactly",
    "C113_alike_refuted"
   ],
   "note": "REFUTED in its last part: an open contour of a file that ends with a control point is read with a handle beyond its end, and reversing it panics in debug builds only (C113_alike_refuted); reversing differs exactly for such contours (C113_reversing_differs_exactly). Debug builds never do anything else than panic or what release builds do (C113_asserts); saving is the same in both for all glyphs (C113_saving_alike), and so is conversion from skia for paths without NaN (C113_skia_alike)."
  },
  {
   "property": "C114",
   "status": "partial",
   "theorems": [
    "C114_saved_exact",
    "C114_reversed_saved_exact",
    "C114_reversed_refigured_saved",
    "C114_reversed_saved_refuted"
   ],
   "note": "REFUTED: reversing does not move the types of the points along with the segments, so that a curve that comes after a line is saved as a line (C114_reversed_saved_refuted). Exactly those contours are drawn differently (C114_reversed_saved_exact); with the types computed anew before saving none is (C114_reversed_refigured_saved). Saving alone keeps what is drawn exactly if no line has handles away from its ends (C114_saved_exact)."
  },
  {
   "property": "C115",
   "status": "partial",
   "theorems": [
    "C115_loaded_exact",
    "C115_fails_exactly",
    "C115_message_refuted"
   ],
   "note": "REFUTED in its last part: for a file that cannot be read the error is the one for a missing file name, the same for all components, naming neither component nor file (C115_message_refuted). What is loaded, and when and how loading fails, is stated exactly (C115_loaded_exact, C115_fails_exactly)."
  },
  {
   "property": "C116",
   "status": "partial",
   "theorems": [
    "C116_reopened",
    "C116_same_bytes",
    "C116_reals",
    "C116_note_refuted"
   ],
   "note": "REFUTED for notes of nothing but blanks, spelt as references or CDATA, which are opened and lost when saved (C116_note_refuted); everything else is restored (C116_reopened, which also says what is left of such a glyph; C116_same_bytes). Not claimed for tabs in attributes and carriage returns in text, which parsers treat differently, nor for minus zero (C98) and lib texts of nothing but blanks (C108). Relative to the reference instances of XML text, UTF-8 and property lists; C116_reals shows that their hypothesis on numbers is met."
  },
  {
   "property": "C117",
   "status": "partial",
   "theorems": [
    "C117_edits_exact",
    "C117_edits_safe",
    "C117_shape",
    "C117_saved_exact",
    "C117_reopened",
    "C117_one_point_refuted",
    "C117_debug_refuted"
   ],
   "note": "REFUTED in two cases: refiguring the types of a contour of one point makes it an off-curve point and saving panics (C117_one_point_refuted); in debug builds reversing panics once a handle is placed beyond the end of an open contour (C117_debug_refuted). Exact: these are the only ways (C117_edits_exact, C117_saved_exact); otherwise the edited glyph is restored (C117_reopened), with the shape kept (C117_shape)."
  },
  {
   "property": "C118",
   "status": "partial",
   "theorems": [
    "C118_no_difference",
    "C118_restored",
    "C118_contours_kept",
    "C118_settled",
    "C118_same",
    "C118_sign_refuted",
    "C118_file_reopened",
    "C118_file_settled"
   ],
   "note": "REFUTED for the signs: a coordinate -0.0 is read as such, written as -0 and read again as the integer 0 (C118_sign_refuted). Exact: the glyph without the minus signs before zeros (all but those of the coordinates of guidelines) is restored (C118_restored), for every glyph saving makes no other difference (C118_no_difference), and a glyph without minus zeros is restored as it is (C118_same). Both without the hypothesis no_minus_zero of C98_restored and C116_reopened (for files: C118_file_reopened). The signs are lost once: what was saved and opened has no minus zeros, is restored as it is from then on, and the file stays the same exactly if no contour of curves wanders (C118_settled; bytes: C118_file_settled)."
  },
  {
   "property": "C119",
   "status": "proved",
   "theorems": [
    "C119_independent",
    "C119_opened",
    "C119_file"
   ],
   "note": "C119_opened for documents (up to the minus signs of zeros, see C118), C119_file for the bytes of files, C119_independent for glyphs: it compares with the contours alone."
  },
  {
   "property": "C120",
   "status": "proved",
   "theorems": [
    "C120_saved_exactly",
    "C120_reopened",
    "C120_again_empty",
    "C120_file_reopened"
   ],
   "note": "C120_saved_exactly says when saving panics, C120_reopened what is opened (the same for the bytes of files: C120_file_reopened, where a note of nothing but blanks is lost as in C116), C120_again_empty what flattening twice does."
  },
  {
   "property": "C121",
   "status": "proved",
   "theorems": [
    "C121_lib_only",
    "C121_saved_through",
    "C121_first_layer",
    "C121_file"
   ],
   "note": "C121_saved_through and C121_first_layer for documents, C121_lib_only what the lib is to a document, C121_file for the bytes of files."
  }
 ]
}