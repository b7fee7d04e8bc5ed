{
 "claims": [
  {
   "property": "C01",
   "status": "proved",
   "theorems": [
    "C01_pack_unpack_roundtrip"
   ],
   "note": "All formats with at least one integer and one decimal digit, every representable value. Exact rational arithmetic; the float formatting step is modelled as exact round-half-even to d decimals."
  },
  {
   "property": "C02",
   "status": "proved",
   "theorems": [
    "C02_unpack_value_and_errors",
    "C02_omitted_zero_is_irrelevant"
   ],
   "note": "Every digit string, sign, format and zero-omission mode."
  },
  {
   "property": "C03",
   "status": "partial",
   "theorems": [
    "C03_pack_faithful_partial",
    "C03_pack_faithful_refuted"
   ],
   "note": "Holds for i>=1, d>=1; refuted for d=0 (always ValueError) and i=0 (always rejected as too long)."
  },
  {
   "property": "C04",
   "status": "proved",
   "theorems": [
    "C04_modal_state_last_write"
   ],
   "note": "Every visitor subclass, every file, both settings of ignore_program_stop; 18 modal parameters."
  },
  {
   "property": "C05",
   "status": "proved",
   "theorems": [
    "C05_current_point"
   ],
   "note": "Every command history; coordinates decoded by the unpack function characterised in C02. Holds for every number type."
  },
  {
   "property": "C06",
   "status": "proved",
   "theorems": [
    "C06_d01_dispatch"
   ],
   "note": "Every command history: the sequence of draw callbacks is exactly the one prescribed by the modes."
  },
  {
   "property": "C07",
   "status": "partial",
   "theorems": [
    "C07_flash_latest_definition_partial",
    "C07_redefinition_refuted",
    "C07_block_shadowed_refuted"
   ],
   "note": "Proved for histories that never redefine the selected D-code nor define a block under the D-code of an earlier AD; both excluded situations are refuted by witnesses."
  },
  {
   "property": "C08",
   "status": "proved",
   "theorems": [
    "C08_attribute_maps",
    "C08_snapshot_isolated"
   ],
   "note": "Every history, every visitor subclass."
  },
  {
   "property": "C09",
   "status": "partial",
   "theorems": [
    "C09_flag_is_inverted",
    "C09_stop_refuted",
    "C09_stop_in_block",
    "C09_stop_in_block_refuted"
   ],
   "note": "Refuted: with the default flag the walk continues after M00/M02; inside of a block neither flag value makes it have no effect. The exact behaviour for both flag values, inside and outside of blocks, is proved."
  },
  {
   "property": "C10",
   "status": "partial",
   "theorems": [
    "C10_next_code_is_larger_partial",
    "C10_empty_storage_refuted"
   ],
   "note": "Proved whenever at least one aperture is defined; refuted for the empty storage (ValueError)."
  },
  {
   "property": "C11",
   "status": "proved",
   "theorems": [
    "C11_layer_program"
   ],
   "note": "Every tree, clock and set iteration order."
  },
  {
   "property": "C12",
   "status": "partial",
   "theorems": [
    "C12_defined_before_use",
    "C12_cycles_rejected",
    "C12_submit_order_partial",
    "C12_shared_layer_refuted",
    "C12_false_cycle_refuted",
    "C12_cycle_not_reported_refuted",
    "C12_shared_code_refuted",
    "C12_shared_code_cycle_refuted"
   ],
   "note": "Definition before use and rejection of reachable cycles hold for every file. Exactly-once and only-needed are proved when no D-code is shared by AD and AB and temporary ids are distinct; refuted otherwise (shared layers duplicated or reported as cyclic; real cycles end in RecursionError instead of the cyclic dependency error)."
  },
  {
   "property": "C13",
   "status": "partial",
   "theorems": [
    "C13_contour_partial",
    "C13_single_quadrant_refuted",
    "C13_flash_refuted",
    "C13_second_G36_refuted",
    "points_cover_files",
    "flat_file_image"
   ],
   "note": "At every point of every walk closing a contour draws one chained shape following all its strokes, arcs centred at their start plus the last offsets read, for contours without D03 and single quadrant arcs; both exclusions are refuted, and a second G36 drops the contour."
  },
  {
   "property": "C14",
   "status": "partial",
   "theorems": [
    "C14_copies_partial",
    "C14_ends_at_origin_partial",
    "C14_copy_count",
    "C14_offset_refuted"
   ],
   "note": "Exact copies for every header, body and point of every walk (real numbers): the right number, order and steps, but all moved by the current point in addition, so the property holds only for blocks ending at the origin (refuted otherwise)."
  },
  {
   "property": "C15",
   "status": "partial",
   "theorems": [
    "C15_polarity_and_place_partial",
    "flat_file_image",
    "C15_block_flash_refuted"
   ],
   "note": "Every drawing command at every point of every walk, except flashes of block apertures, which ignore LP (refuted). flat_file_image gives the whole main layer of files without blocks."
  },
  {
   "property": "C16",
   "status": "partial",
   "theorems": [
    "named_points_cover_files",
    "C16_flash_shapes_partial",
    "C16_faithful_texts",
    "C16_transformation",
    "C16_arc_direction_partial",
    "C16_arc_direction_refuted",
    "C16_redefinition_refuted",
    "C16_cached",
    "C16_first_partial",
    "C16_exact"
   ],
   "note": "At every point of every walk, for every aperture kind including macros with nested layers, when no code is defined twice and the transformations of the file have different names (as they have with faithful number texts). Over the reals the transformation is scale, then rotation, then mirroring, and arcs are reversed exactly by mirroring unless the cosine of the rotation is zero (refuted for a quarter turn with exact numbers). Refuted after redefinition: the transformed copy of the old layer is reused; C16_cached proves that this is always so, two flashes of a code with the same transformation show the same whatever is walked between them. C16_exact says for every flash what is shown, also with redefinitions: the definition that was the latest when the code was first flashed with this transformation (C16_first_partial: the latest one if this is the first such flash)."
  },
  {
   "property": "C17",
   "status": "proved",
   "theorems": [
    "C17_holes"
   ],
   "note": "All standard templates and dimensions, over the real numbers."
  },
  {
   "property": "C18",
   "status": "partial",
   "theorems": [
    "C18_offset_partial",
    "C18_region_offset_partial",
    "C18_own_offset_partial",
    "C18_offset_persists_refuted"
   ],
   "note": "Exact centre for every multi-quadrant arc: start plus the offset last given per axis. Equals the property when both I and J are given or none was given before; refuted otherwise."
  },
  {
   "property": "C19",
   "status": "partial",
   "theorems": [
    "C19_round_partial",
    "C19_thickness_refuted"
   ],
   "note": "Proved for round apertures (the whole effect of a D01 moves); refuted for rectangles and obrounds, whose stroke width depends on the absolute end point."
  },
  {
   "property": "C20",
   "status": "proved",
   "theorems": [
    "C20_expression_value",
    "C20_expression_errors"
   ],
   "note": "Every expression tree and scope, any number interpretation: value equals the arithmetic denotation, and evaluation fails exactly on an unset variable or division by zero reached in evaluation order."
  },
  {
   "property": "C21",
   "status": "partial",
   "theorems": [
    "C21_sequential_scope",
    "C21_independent_of_history_partial",
    "C21_other_layers_unchanged",
    "C21_instances_do_not_interfere_partial",
    "C21_shared_reading_refuted"
   ],
   "note": "Scoping and sequential assignment hold for every macro body, parameter list and compiler state. Independence of instances is proved when the names of nested thermal layers are distinct; refuted when two instances share a clock reading."
  },
  {
   "property": "C22",
   "status": "partial",
   "theorems": [
    "C22_distinct_timings_partial",
    "C22_equal_timings_refuted"
   ],
   "note": "Proved when the clock never repeats a reading; refuted otherwise: the layer id is the uid of the macro primitive plus a clock reading."
  },
  {
   "property": "C23",
   "status": "partial",
   "theorems": [
    "C23_layers_partial",
    "C23_pastes_partial",
    "C23_contents",
    "C23_accepts",
    "C23_pillow_accepts",
    "C23_shapely_accepts",
    "C23_undocumented_error_refuted",
    "C23_ends_open_refuted",
    "C23_paste_open_refuted"
   ],
   "note": "All streams: layer structure, completeness of pasted layers without box, exact contents, and acceptance of all streams keeping the rules. Refuted: undocumented KeyError, runs ending inside a layer, pasting an open layer with a declared box."
  },
  {
   "property": "C24",
   "status": "partial",
   "theorems": [
    "C24_declared_boxes_partial",
    "C24_nested_order_refuted",
    "C24_defined_later_refuted"
   ],
   "note": "Any subset of the boxes may be declared without changing layers and the calls on each layer (global order for unnested layers). Refuted: the global order for nested layers, and layers pasted before they are defined."
  },
  {
   "property": "C25",
   "status": "proved",
   "theorems": [
    "C25_exact_hull"
   ],
   "note": "Any run, any layer; for every number type with a total order respected by addition."
  },
  {
   "property": "C26",
   "status": "partial",
   "theorems": [
    "C26_empty_layer_partial",
    "C26_empty_layer_refuted",
    "C26_empty_main_refuted"
   ],
   "note": "Exact: an empty layer is harmless inside a layer without box or before a command that is no drawing, and breaks every other run. An empty main layer is an error."
  },
  {
   "property": "C27",
   "status": "proved",
   "theorems": [
    "C27_semilattice",
    "C27_translation",
    "C27_from_vectors",
    "C27_inclusion_of_points",
    "C27_vm_boxes",
    "C27_from_center"
   ],
   "note": "For every number type with a total order respected by addition; boxes may have infinite sides. C27_from_center over the reals."
  },
  {
   "property": "C28",
   "status": "proved",
   "theorems": [
    "C28_composition",
    "C28_actions",
    "C28_rotations",
    "C28_inverses",
    "C28_any_matrix_refuted"
   ],
   "note": "For matrices built by the constructors and @ (any matrix with last row 0 0 1). Matrix3x3 with another last row: refuted."
  },
  {
   "property": "C29",
   "status": "partial",
   "theorems": [
    "C29_counter_clockwise",
    "C29_clockwise_partial",
    "C29_clockwise_refuted"
   ],
   "note": "Real vectors of non-zero length. The clockwise angle of equal directions is 360, outside the documented range."
  },
  {
   "property": "C30",
   "status": "partial",
   "theorems": [
    "C30_closed",
    "C30_polygon_partial",
    "C30_line_refuted",
    "C30_arc_refuted"
   ],
   "note": "Circle, rectangle, obround and connected points for every number type; polygons over the reals where the loop makes all sides. new_line and the arcs leave out their caps."
  },
  {
   "property": "C31",
   "status": "partial",
   "theorems": [
    "C31_segments_partial",
    "C31_outline_partial",
    "C31_full_circle_refuted"
   ],
   "note": "All shapes whose arcs have equal radii at both ends, except full counter-clockwise turns, for which it is refuted."
  },
  {
   "property": "C32",
   "status": "partial",
   "theorems": [
    "C32_outline_partial",
    "C32_segments_partial",
    "C32_images",
    "C32_right_angle_refuted"
   ],
   "note": "Every similarity whose matrix has no zero in the upper left corner; refuted (over the reals) for rotations by exactly 90 degrees, where arcs are flipped."
  },
  {
   "property": "C33",
   "status": "partial",
   "theorems": [
    "C33_sides_partial",
    "C33_outline_partial",
    "C33_sides_refuted",
    "C33_outline_refuted"
   ],
   "note": "Exact number of sides, and the outline when at most one side is missing. Refuted for other rotations."
  },
  {
   "property": "C34",
   "status": "partial",
   "theorems": [
    "C34_samples_partial",
    "C34_resolution_partial",
    "C34_resolution_refuted",
    "C34_full_turn_refuted",
    "C34_zero_circle_refuted"
   ],
   "note": "All arcs whose ends lie in different directions: finite, monotone, from start to end, steps at most 30 (pillow) or 15 (shapely) degrees; the requested resolution when the sweep does not pass the positive x axis. Refuted: resolution otherwise, full turns and zero diameters."
  },
  {
   "property": "C35",
   "status": "partial",
   "theorems": [
    "C35_round_trip",
    "C35_accepts",
    "C35_rejects_partial",
    "C35_newline_refuted",
    "C35_channels",
    "C35_default_alpha",
    "C35_floats"
   ],
   "note": "All strings but those ending in a newline, which the regular expression tolerates (refuted)."
  },
  {
   "property": "C36",
   "status": "partial",
   "theorems": [
    "C36_contents_partial",
    "C36_nested_partial",
    "C36_finished",
    "C36_locked",
    "C36_finalize_refuted"
   ],
   "note": "All call histories without explicit calls of finalize (refuted with them)."
  },
  {
   "property": "C37",
   "status": "partial",
   "theorems": [
    "C37_runs_partial",
    "C37_shapely_partial",
    "C37_pillow_partial",
    "C37_nothing_refuted",
    "C37_empty_layer_refuted",
    "C37_two_mains_refuted",
    "C37_same_name_refuted",
    "C37_paste_open_refuted",
    "C37_outer_paste_refuted"
   ],
   "note": "Clients that nest their with blocks and keep the stated rules; each rule is needed."
  },
  {
   "property": "C38",
   "status": "partial",
   "theorems": [
    "C38_exact",
    "C38_partial",
    "C38_without_regions",
    "C38_mode_refuted",
    "C38_after_error_refuted",
    "C38_region_reuse_refuted",
    "C38_refuted"
   ],
   "note": "All histories in which no call raised for a coordinate or place and no region was extended after create: exactly what was asked for, up to the interpolation mode of traces after regions (refuted), which is described exactly."
  },
  {
   "property": "C39",
   "status": "partial",
   "theorems": [
    "C39_ids",
    "C39_attributes_partial",
    "C39_reserved_name_refuted"
   ],
   "note": "All call histories; attributes only if custom attributes do not reuse the two standard names (refuted otherwise)."
  },
  {
   "property": "C40",
   "status": "proved",
   "theorems": [
    "C40_pads",
    "C40_lines",
    "C40_arcs",
    "C40_regions",
    "C40_pads_written",
    "C40_lines_written",
    "C40_arcs_written",
    "C40_regions_written",
    "C40_read",
    "C40_exact"
   ],
   "note": "Floats are exact rationals; the call that adds the item raises."
  },
  {
   "property": "C41",
   "status": "partial",
   "theorems": [
    "C41_round_trip_partial",
    "C41_exact_round_trip_partial",
    "C41_round_trip_refuted"
   ],
   "note": "All expressions the parser yields whose numbers are written without loss by the chosen options (refuted otherwise)."
  },
  {
   "property": "C42",
   "status": "partial",
   "theorems": [
    "C42_same_value_partial",
    "C42_same_value_refuted"
   ],
   "note": "All expressions the parser yields with numbers that survive, unless a minus sign stands before a parenthesised plus sign (refuted)."
  },
  {
   "property": "C43",
   "status": "partial",
   "theorems": [
    "C43_round_trip_partial",
    "C43_other_options_partial",
    "C43_exact_round_trip_partial",
    "C43_parser_terminates",
    "C43_names",
    "C43_no_name",
    "C43_exponent_refuted",
    "C43_trimmed_integer_refuted",
    "C43_absent_field_refuted",
    "C43_macro_name_refuted",
    "C43_nothing_left_refuted",
    "C43_explicit_partial"
   ],
   "note": "All files the parser yields and all option values, for files whose values survive; the values that do not are refuted one by one. With explicit parentheses the expressions come back with the same meaning, and formatting again plainly gives the same text."
  },
  {
   "property": "C44",
   "status": "partial",
   "theorems": [
    "C44_decimals_partial",
    "C44_no_decimals_partial",
    "C44_no_decimals_refuted",
    "C44_shortest_partial",
    "C44_exponent_refuted",
    "C44_trimming_refuted"
   ],
   "note": "One or more decimals: all numbers. No decimals and shortest digits: the stated ranges, refuted beyond. Floats are exact rationals."
  },
  {
   "property": "C45",
   "status": "partial",
   "theorems": [
    "C45_step_repeat_partial",
    "C45_step_repeat_refuted",
    "C45_polygon_partial",
    "C45_polygon_refuted"
   ],
   "note": "SR exactly when all or no fields are present; ADP unless a hole comes without a rotation; refuted otherwise."
  },
  {
   "property": "C46",
   "status": "proved",
   "theorems": [
    "C46_deprecated_commands_reported",
    "C46_only_active_rules_report",
    "C46_lint_fails_only_for_unknown_rules",
    "C46_linting_again"
   ],
   "note": "Rule lists without repeated ids (subsets), in any order."
  },
  {
   "property": "C47",
   "status": "partial",
   "theorems": [
    "C47_reports_repeated_commands",
    "C47_reported_are_interpolation_commands",
    "C47_reported_commands_are_redundant_partial",
    "C47_redundant_refuted"
   ],
   "note": "Deleting any set of reported commands changes nothing for every subclass of the state tracker, unless a program stop sits inside a top level step and repeat block (refuted there)."
  },
  {
   "property": "C48",
   "status": "partial",
   "theorems": [
    "C48_finds_last_started_partial",
    "C48_one_command_per_line_partial",
    "C48_indented_refuted",
    "C48_single_command_refuted",
    "C48_before_first_refuted"
   ],
   "note": "Trees as read from a text are located (C72_finder). Holds for files of two or more commands when no enclosing command starts in a later column than the position; refuted for indented or several commands on a line, for files of one block and before the first command."
  },
  {
   "property": "C49",
   "status": "partial",
   "theorems": [
    "C49_default_style_partial",
    "C49_opaque_map",
    "C49_drillmap_refuted"
   ],
   "note": "For every way to make a file, every requested type, extension and FileFunction; the default colour map lacks DRILLMAP (refuted there), DEFAULT_COLOR_MAP is complete."
  },
  {
   "property": "C50",
   "status": "partial",
   "theorems": [
    "C50_metric_partial",
    "C50_metric_aligned",
    "C50_inside_refuted",
    "C50_no_files_refuted",
    "C50_mixed_units_refuted",
    "C50_inches_refuted"
   ],
   "note": "Metric files, exact rationals: aligned within truncation, inside up to one pixel; refuted for inches, mixed units, no files."
  },
  {
   "property": "C51",
   "status": "partial",
   "theorems": [
    "C51_views_partial",
    "C51_made_iff_readable",
    "C51_nothing_lost_partial",
    "C51_layer_order_partial",
    "C51_layer_order_refuted",
    "C51_same_type_refuted",
    "C51_other_types_refuted"
   ],
   "note": "Exact contents of every view; layer order by text (refuted from ten layers on), files of the same or other types are lost (refuted)."
  },
  {
   "property": "C52",
   "status": "partial",
   "theorems": [
    "C52_caches_transparent_partial",
    "C52_same_parser_options",
    "C52_given_type",
    "C52_parser_options_refuted",
    "C52_file_type_refuted"
   ],
   "note": "All call sequences, with parsing, compiling and rendering as parameters that may fail; refuted when parser options change a type already inferred from attributes, and for the file_type property."
  },
  {
   "property": "C53",
   "status": "proved",
   "theorems": [
    "C53_released",
    "C53_progress",
    "C53_ends",
    "C53_loop",
    "C53_suspension_refuted"
   ],
   "note": "Any number of requests and all schedules, for handlers in threads and in one event loop, with any document methods that do not suspend (those of GerberDocument do not); with suspending methods the event loop deadlocks (shown)."
  },
  {
   "property": "C54",
   "status": "proved",
   "theorems": [
    "C54_sequential",
    "C54_latest_text"
   ],
   "note": "All schedules of the event loop; parsing, finding, hover texts and state tracking are parameters that may raise."
  },
  {
   "property": "C55",
   "status": "partial",
   "theorems": [
    "C55_boxes_partial",
    "C55_stale_box",
    "C55_boxes_refuted"
   ],
   "note": "Right for every program that does not transform a shape after reading its box; otherwise the copy keeps the old box (refuted). The compiler and the virtual machines never do that."
  },
  {
   "property": "C56",
   "status": "partial",
   "theorems": [
    "C56_shapely",
    "C56_pillow",
    "C56_runs_partial",
    "C56_blank_refuted",
    "C56_empty_aperture_refuted"
   ],
   "note": "What is rendered: all files whose programs run, filling of polygons and the STRtree box test are parameters with the stated laws. Programs run if all layers are drawn on; files without drawings or with an aperture without shapes do not render (refuted)."
  },
  {
   "property": "C57",
   "status": "partial",
   "theorems": [
    "C57_points_partial",
    "C57_pixels_partial",
    "C57_pixel_of_point",
    "C57_unequal_refuted"
   ],
   "note": "Refuted: arcs whose ends are not equally far from the centre leave their box. Proved for all shapes with valid arcs."
  },
  {
   "property": "C58",
   "status": "proved",
   "theorems": [
    "C58_circle",
    "C58_rectangle",
    "C58_obround",
    "C58_line",
    "C58_arcs",
    "C58_points",
    "C58_builder"
   ],
   "note": "Over the reals."
  },
  {
   "property": "C59",
   "status": "partial",
   "theorems": [
    "C59_primitives",
    "C59_moire_partial",
    "C59_moire_hole_refuted",
    "C59_moire_used_up_refuted",
    "C59_thermal",
    "C59_polygon_partial",
    "C59_polygon_refuted"
   ],
   "note": "All primitives; polygons only without rotation (it is applied twice), moires only while their rings have room."
  },
  {
   "property": "C60",
   "status": "proved",
   "theorems": [
    "C60_hsv"
   ],
   "note": "Over the rationals."
  },
  {
   "property": "C61",
   "status": "proved",
   "theorems": [
    "C61_shapely",
    "C61_pillow"
   ],
   "note": "All streams that run and paste only closed layers. Filling of polygons and the STRtree box test of shapely, and polygon drawing of pillow, are parameters with the stated laws."
  },
  {
   "property": "C62",
   "status": "partial",
   "theorems": [
    "C62_pasted_inside",
    "C62_pixel_shift",
    "C62_same_pixel_refuted"
   ],
   "note": "Exact reals: nothing is cut off, and pixels are right up to one to the left or below (rounding happens twice); the same pixel is refuted."
  },
  {
   "property": "C63",
   "status": "partial",
   "theorems": [
    "C63_names_partial",
    "C63_library_name",
    "C63_names_refuted",
    "C63_node_names_partial",
    "C63_node_names_refuted"
   ],
   "note": "All standard and user attributes, all options; the component library name is written CLbn instead of CLbN (refuted).  The names by which attributes are set and deleted are the same but for .CMPN, which is called .CMNP (refuted)."
  },
  {
   "property": "C64",
   "status": "partial",
   "theorems": [
    "C64_picture_partial",
    "C64_redefined_partial",
    "C64_steady_partial",
    "C64_blocks_partial",
    "C64_stopped_partial"
   ],
   "note": "Shapely backend, exact reals, with D-codes that are D-codes; C64_picture_partial without AB and SR, C64_redefined_partial the same with any redefinitions (flashes show the definition of the first flash with the transformation), C64_steady_partial if codes are not defined again after a flash, C64_blocks_partial with blocks (nested too) that contain no M00 or M02, C64_stopped_partial with a stop inside of a block. Missing: redefinitions in files with blocks; outlines of regions as in C18; widths of strokes with rectangles as in C65."
  },
  {
   "property": "C65",
   "status": "partial",
   "theorems": [
    "C65_width",
    "C65_across_refuted"
   ],
   "note": "Exact formula of the width for every aperture, bounds by the sides; it is not the extent across the stroke (refuted: a horizontal stroke of a 1 x 2 rectangle is 1 high)."
  },
  {
   "property": "C66",
   "status": "partial",
   "theorems": [
    "C66_same_as_strict",
    "C66_pieces",
    "C66_pieces_alone",
    "C66_concat",
    "C66_line",
    "C66_one_line",
    "C66_line_in_block_refuted",
    "C66_accepts_partial",
    "C66_accepts_refuted"
   ],
   "note": "All texts. Missing: blank documents and texts with an attribute value that does not validate raise (refuted). Refuted as well: inside a block an unreadable line costs more than the line."
  },
  {
   "property": "C67",
   "status": "partial",
   "theorems": [
    "C67_state",
    "C67_points",
    "C67_offset",
    "C67_preview_partial",
    "C67_ccw_refuted",
    "C67_polarity_refuted",
    "C67_block_aperture_refuted",
    "C67_block_state",
    "C67_block_state_refuted",
    "C67_center_refuted"
   ],
   "note": "All files and positions; commands read from a text are in order (C72_hover). The illustration is covered for dark commands outside regions with an aperture made by AD, lines and clockwise arcs that give both offsets. Missing: counterclockwise arcs, clear polarity, block apertures, commands inside blocks and arc centres (refuted)."
  },
  {
   "property": "C68",
   "status": "partial",
   "theorems": [
    "C68_tabs",
    "C68_at_line_start",
    "C68_same_line_refuted",
    "C68_file_start_refuted",
    "C68_tab_refuted",
    "C68_refuted"
   ],
   "note": "All texts and digests. Right exactly when a line end precedes the attribute, in texts without tabs. Missing: other positions and texts with tabs (refuted)."
  },
  {
   "property": "C69",
   "status": "partial",
   "theorems": [
    "C69_place",
    "C69_order",
    "C69_editor",
    "C69_comparisons",
    "C69_le_refuted",
    "C69_ge_refuted",
    "C69_ne_refuted",
    "C69_tab_refuted",
    "C69_without_tabs"
   ],
   "note": "All texts, offsets and positions. The operators <=, >= and != are wrong (refuted), and columns are those of the text with tabs expanded, so editor positions are right only without tabs (refuted)."
  },
  {
   "property": "C70",
   "status": "partial",
   "theorems": [
    "C70_same_program_partial",
    "C70_same_program_refuted"
   ],
   "note": "All texts, all options with whitespace texts, all numbers and hooks of the compiler (clock, set order, metadata); object identities are given in the order of the file. Left out: files whose values do not survive being written (a macro named C is refuted) and minus in front of plus with explicit parentheses."
  },
  {
   "property": "C71",
   "status": "partial",
   "theorems": [
    "C71_deleted_partial",
    "C71_part_number_refuted",
    "C71_library_name_refuted"
   ],
   "note": "All TA and TO attributes and states except the manufacturer part number (refuted); the name the formatter writes for the library attribute cannot be used to delete it (refuted)."
  },
  {
   "property": "C72",
   "status": "partial",
   "theorems": [
    "C72_same",
    "C72_locations",
    "C72_resilient",
    "C72_unique",
    "C72_texts",
    "C72_coordinates",
    "C72_spots_same",
    "C72_spots_unique",
    "C72_coordinate_texts",
    "C72_expressions",
    "C72_terms_same",
    "C72_expression_texts",
    "C72_finder",
    "C72_hover",
    "C72_shown_state",
    "C72_end_refuted",
    "C72_tabs_refuted"
   ],
   "note": "All texts, for commands, block and macro headers and ends, macro primitives, assignments, the coordinates of commands and the expressions of primitives. Missing: where commands end when there is white space inside and where they are in a text with tabs (refuted)."
  },
  {
   "property": "C73",
   "status": "proved",
   "theorems": [
    "C73_report",
    "C73_fails"
   ],
   "note": "Composition of C72 (where commands are), C46 and C47 (what is reported)."
  },
  {
   "property": "C74",
   "status": "partial",
   "theorems": [
    "C74_file_type_partial",
    "C74_file_type_refuted",
    "C74_file_type_unknown",
    "C74_style",
    "C74_foreground_refuted",
    "C74_convert",
    "C74_convert_only",
    "C74_svg",
    "C74_svg_only",
    "C74_merge",
    "C74_merge_only",
    "C74_unknown_type",
    "C74_format_partial",
    "C74_format_refuses",
    "C74_format_refuted",
    "C74_rules",
    "C74_lint",
    "C74_presets_partial",
    "C74_presets_refuted"
   ],
   "note": "Refuted: NON_PLATED is taken for UNDEFINED, a bad foreground colour is blamed on the background, format empties the output before it parses. Image encoders and click are parameters."
  },
  {
   "property": "C75",
   "status": "partial",
   "theorems": [
    "C75_two_colours",
    "C75_file",
    "C75_composite_partial",
    "C75_presets",
    "C75_composite_refuted"
   ],
   "note": "Refuted for translucent colours, whose opacity a composite view squares; proved for opaque and fully transparent ones, like those of all presets."
  },
  {
   "property": "C76",
   "status": "partial",
   "theorems": [
    "C76_read_back_partial",
    "C76_drawn_partial",
    "C76_exponent_refuted",
    "C76_attribute_refuted"
   ],
   "note": "Refuted for numbers below 0.0001, which are written with an exponent the grammar does not know, and for values of custom attributes with a comma; proved for the rest, up to what C38 leaves out."
  },
  {
   "property": "C77",
   "status": "partial",
   "theorems": [
    "C77_picture_partial",
    "C77_fits",
    "C77_empty",
    "C77_save_partial",
    "C77_opacity_refuted",
    "C77_file_refuted"
   ],
   "note": "Refuted: colours are painted with 0.6 of their opacity (the default of shapely), files opened for writing are rejected. Geometry, orientation, extent and syntax are proved for all polygons with proper holes."
  },
  {
   "property": "C78",
   "status": "partial",
   "theorems": [
    "C78_lossless",
    "C78_codes",
    "C78_names_partial",
    "C78_keywords_partial",
    "C78_drawing_partial",
    "C78_signed_refuted",
    "C78_star_refuted",
    "C78_long_code_refuted",
    "C78_axis_name_refuted",
    "C78_load_refuted"
   ],
   "note": "Refuted: stars, percent signs, axes before a sign, names after codes of four digits, LP, LM, LR and LS are error tokens, and a macro named X1 is split. Splitting without loss, codes, keywords and names are proved for all texts, the tokens of whole bodies of operations (also after G codes, also with signs), codes and line ends exactly."
  },
  {
   "property": "C79",
   "status": "partial",
   "theorems": [
    "C79_nearest",
    "C79_coordinates_partial",
    "C79_unpacked_partial",
    "C79_distinct_partial",
    "C79_sixteen_digits_refuted",
    "C79_text",
    "C79_file_partial"
   ],
   "note": "Refuted for coordinate formats of 16 and more digits, which the grammar accepts. Proved up to 15 digits, and for files whose numbers need no exponent or have at most 15 digits. Infinities, NaN and negative zero are not represented."
  },
  {
   "property": "C80",
   "status": "partial",
   "theorems": [
    "C80_depicted_partial",
    "C80_seen_partial",
    "C80_rendered_partial"
   ],
   "note": "Composition of C38, C76, C64 and the outline theorems C32, C33, C58, C59 with their restrictions: documented shapes only, holes that fit, positive scales, no obrounds or thermals turned by an odd number of right angles; calls accepted by C83; the texts of the transformations used differ. Exact reals, shapely backend."
  },
  {
   "property": "C81",
   "status": "partial",
   "theorems": [
    "C81_laid_out_partial",
    "C81_one_layout",
    "C81_empty_indent_refuted",
    "C81_left_out_refuted",
    "C81_macro_refuted"
   ],
   "note": "All options and nestings, except macros, codes left out and blocks without an indent inside of indented blocks, which are refuted one by one."
  },
  {
   "property": "C82",
   "status": "partial",
   "theorems": [
    "C82_accepted_partial"
   ],
   "note": "Real numbers; AD and AB codes are different and the clock has no repeated readings."
  },
  {
   "property": "C83",
   "status": "partial",
   "theorems": [
    "C83_compiled_partial",
    "C83_two_sided_refuted"
   ],
   "note": "Restrictions of C38 and C76 on the calls; clocks without repeated readings; for polygons of two vertices it is false."
  },
  {
   "property": "C84",
   "status": "partial",
   "theorems": [
    "C84_order",
    "C84_heard",
    "C84_base_classes",
    "C84_linter",
    "C84_once_refuted"
   ],
   "note": "Proved for all files, including those with invalid texts from resilient parsing.  That each node is reported once is false: AD, TA, TF, TO, expressions, coordinates and the file are reported twice."
  },
  {
   "property": "C85",
   "status": "partial",
   "theorems": [
    "C85_layers",
    "C85_rendered_partial",
    "C85_redefined_partial",
    "C85_blocks_partial",
    "C85_stopped_partial",
    "C85_builder_partial"
   ],
   "note": "C85_layers is for all files; in terms of the commands redefined codes are left out for files with blocks (without blocks they are covered by C85_redefined_partial), and different transformations have different names (see C16). For builders also what C83 leaves out."
  },
  {
   "property": "C86",
   "status": "partial",
   "theorems": [
    "C86_pixels",
    "C86_ranks",
    "C86_backends",
    "C86_picture_partial",
    "C86_redefined_partial",
    "C86_blocks_partial"
   ],
   "note": "Arcs have their ends equally far from the centre (others leave their box, C57_unequal_refuted). Polygon filling of the image library is a parameter, right up to r pixels off the edges; pixels nearer to edges are not told. Redefined codes are left out for files with blocks only."
  },
  {
   "property": "C87",
   "status": "partial",
   "theorems": [
    "C87_again_partial",
    "C87_rounded_partial",
    "C87_rounded_again_partial",
    "C87_presets_partial",
    "C87_same_presets",
    "C87_removed_inside_refuted",
    "C87_removed_glued_refuted"
   ],
   "note": "All files the parser yields, all options. Left out: codes removed inside blocks, or anywhere when unfinished codes are kept (refuted); values that do not survive at all (see C43); negative numbers that the decimals make zero, as exact numbers have no negative zero."
  },
  {
   "property": "C88",
   "status": "partial",
   "theorems": [
    "C88_same_program",
    "C88_objects_partial",
    "C88_region",
    "C88_apertures_partial",
    "C88_sources",
    "C88_file",
    "C88_region_refuted",
    "C88_rings_refuted"
   ],
   "note": "All files and states. Left out: regions (never labelled, refuted), flashes of block apertures for the exact attributes, macros with moires and thermals (refuted). The JSON text of an attribute is left to the attribute itself."
  },
  {
   "property": "C89",
   "status": "proved",
   "theorems": [
    "C89_same_as_strict",
    "C89_longest",
    "C89_concat",
    "C89_concat_lenient",
    "C89_concat_refuted",
    "C89_stops_refuted"
   ],
   "note": "All texts. Refuted: the condition on tabs cannot be dropped, and the documented promise to stop at the first unrecognised token does not hold when nothing was read or a value is rejected."
  },
  {
   "property": "C90",
   "status": "proved",
   "theorems": [
    "C90_accepted",
    "C90_unknown_keys",
    "C90_files",
    "C90_path_unused",
    "C90_path_argument_refuted",
    "C90_extra_refuted"
   ],
   "note": "All JSON values with distinct keys; numbers written as texts are read by a parameter. Refuted: the documented use without a file on disk, and keeping of unknown keys."
  },
  {
   "property": "C91",
   "status": "partial",
   "theorems": [
    "C91_aperture_attributes",
    "C91_object_attributes",
    "C91_names",
    "C91_lists",
    "C91_different_partial",
    "C91_different_objects_partial",
    "C91_definitions",
    "C91_operations",
    "C91_states",
    "C91_in_effect",
    "C91_primitives",
    "C91_reference_refuted",
    "C91_manufacturer_refuted",
    "C91_component_refuted",
    "C91_backquote_refuted",
    "C91_line_refuted",
    "C91_flash_refuted",
    "C91_pin_refuted",
    "C91_own_attributes_refuted"
   ],
   "note": "Spans and lines for values without backquotes and line ends; differences for all fields. Texts of numbers are a parameter. Missing: different flash texts and pins without a function can look alike (refuted)."
  },
  {
   "property": "C92",
   "status": "partial",
   "theorems": [
    "C92_apertures",
    "C92_shown_partial",
    "C92_definitions",
    "C92_places",
    "C92_new_code_partial",
    "C92_new_code_read_partial",
    "C92_shown_read_partial",
    "C92_inserted",
    "C92_commands",
    "C92_document_partial",
    "C92_session_partial",
    "C92_session_refuted",
    "C92_extended",
    "C92_g_codes",
    "C92_no_aperture_refuted",
    "C92_unfinished_refuted",
    "C92_not_closed_refuted",
    "C92_after_stop_refuted"
   ],
   "note": "All files whose tracking ends, all values whose text is a number of the grammar. Left out: files that define no aperture, for which the request fails (refuted); six G codes that are inserted without their asterisk and commands without their closing percent sign (refuted), which the positive theorems add; what follows a stop command (refuted); values that do not survive formatting in the text shown (see C43)."
  }
 ]
}