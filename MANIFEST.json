{
 "claims": [
  {
   "property": "C13",
   "status": "proved",
   "theorems": [
    "merge_survivors",
    "survivors_exist_unique",
    "merge_keeps_order",
    "exclusive_last_wins",
    "last_attr_present",
    "check_accepts",
    "check_names_first"
   ],
   "note": "attr.mergeattrs and checkattrs; dynamic classes modelled as a class tag plus exclusion lists."
  },
  {
   "property": "C14",
   "status": "partial",
   "theorems": [
    "merge_incremental",
    "merge_idempotent",
    "merge_idempotent_refuted",
    "merge_sorted",
    "merge_sorted_refuted"
   ],
   "note": "Holds for attribute lists whose sort constraints are transitively closed; refuted in general with the attribute classes of text.py."
  },
  {
   "property": "C15",
   "status": "proved",
   "theorems": [
    "changelist_selects_cyclically",
    "changelist_noncyclic",
    "multichange_by_total",
    "selectattrs_in_order"
   ],
   "note": ""
  },
  {
   "property": "C36",
   "status": "proved",
   "theorems": [
    "t1_roundtrip",
    "t1_roundtrip_code",
    "encoder_is_type1",
    "t1_length"
   ],
   "note": ""
  },
  {
   "property": "C16",
   "status": "proved",
   "theorems": [
    "kwsplit_partitions",
    "kwsplit_placement",
    "kwsplit_error_iff",
    "merge_members_kwargs_last_wins"
   ],
   "note": ""
  },
  {
   "property": "C33",
   "status": "proved",
   "theorems": [
    "ascii85_roundtrip",
    "ascii85_charset"
   ],
   "note": ""
  },
  {
   "property": "C34",
   "status": "partial",
   "theorems": [
    "single_string_lines",
    "inline_lines",
    "array_lines_partial",
    "array_lines_refuted",
    "array_lines_default_refuted",
    "asciihexstream_refuted"
   ],
   "note": "Proved for single strings and inline data; false for string arrays (finding)."
  },
  {
   "property": "C35",
   "status": "proved",
   "theorems": [
    "split_join",
    "split_components",
    "imagedata_alpha_front",
    "imagedata_alpha_back",
    "imagedata_no_alpha",
    "png_scanlines_roundtrip"
   ],
   "note": ""
  },
  {
   "property": "C73",
   "status": "partial",
   "theorems": [
    "palette_hival_rgb_partial",
    "palette_hival_refuted"
   ],
   "note": "Right for rgb palettes, false for gray and cmyk palettes (finding)."
  },
  {
   "property": "C20",
   "status": "proved",
   "theorems": [
    "string_value_exact",
    "string_accepted",
    "string_without_digits_refuted"
   ],
   "note": "Strings without digits are accepted as zero (finding)."
  },
  {
   "property": "C21",
   "status": "partial",
   "theorems": [
    "compare_partial",
    "equality_exact",
    "decimal_denominator",
    "product_denominator",
    "compare_refuted"
   ],
   "note": "Proved for positive denominators, false otherwise (finding)."
  },
  {
   "property": "C22",
   "status": "partial",
   "theorems": [
    "product_exact",
    "quotient_exact",
    "quotient_by_zero_reported",
    "abs_exact",
    "inplace_exact",
    "power_exact",
    "string_power_exact",
    "inplace_division_by_zero_refuted",
    "zero_power_refuted",
    "copy_third_refuted"
   ],
   "note": "Arithmetic is exact; in-place division and negative powers of zero are not reported (finding)."
  },
  {
   "property": "C23",
   "status": "proved",
   "theorems": [
    "merge_is_sorted",
    "merge_positions",
    "merge_attributes",
    "merge_without_equal",
    "merge_keeps_inputs_refuted",
    "maxlevels_least"
   ],
   "note": "Positive denominators; tick objects of the first list are changed in place (finding)."
  },
  {
   "property": "C30",
   "status": "partial",
   "theorems": [
    "decimal_labels_denote",
    "decimal_labels_separated",
    "decimal_ticks",
    "period_separators_refuted",
    "padding_separators_refuted"
   ],
   "note": "Exact without thousandthpartsep; with it only for finite fractions without padding, false otherwise (finding)."
  },
  {
   "property": "C31",
   "status": "partial",
   "theorems": [
    "mantissa_exponent",
    "default_labels_denote",
    "mantissa_formatting_refuted"
   ],
   "note": "The decomposition is exact; labels are exact if the float formatting of the mantissas is, which it cannot always be (finding)."
  },
  {
   "property": "C32",
   "status": "partial",
   "theorems": [
    "rational_labels_partial",
    "equaldenom_fails_refuted"
   ],
   "note": "With equaldenom all ticks without label must have a label level (finding)."
  },
  {
   "property": "C01",
   "status": "proved",
   "theorems": [
    "length_arithmetic",
    "length_comparison"
   ],
   "note": ""
  },
  {
   "property": "C03",
   "status": "proved",
   "theorems": [
    "product_composes",
    "product_monoid",
    "methods_follow"
   ],
   "note": ""
  },
  {
   "property": "C04",
   "status": "proved",
   "theorems": [
    "inverse_inverts"
   ],
   "note": ""
  },
  {
   "property": "C05",
   "status": "partial",
   "theorems": [
    "rotate_is_rotation",
    "rotate_lengths",
    "rotate_isometry",
    "rotations_add",
    "scale_is_scaling",
    "scale_lengths",
    "translate_moves",
    "apply_lengths",
    "slant_pt_origin",
    "slant_pt_reference_refuted"
   ],
   "note": "Everything but the reference point of slant_pt, which is not kept (finding)."
  },
  {
   "property": "C06",
   "status": "partial",
   "theorems": [
    "mirror_reflects_negative",
    "mirror_involution",
    "mirror_line_refuted"
   ],
   "note": "mirror(angle) is the reflection at the line of direction -angle (finding)."
  },
  {
   "property": "C07",
   "status": "partial",
   "theorems": [
    "slant_origin_partial",
    "slant_reference_refuted"
   ],
   "note": "Holds at the origin only (finding)."
  },
  {
   "property": "C08",
   "status": "proved",
   "theorems": [
    "written_matrices"
   ],
   "note": ""
  },
  {
   "property": "C09",
   "status": "proved",
   "theorems": [
    "additions_smallest",
    "sum_algebra",
    "sum_permutation"
   ],
   "note": ""
  },
  {
   "property": "C10",
   "status": "proved",
   "theorems": [
    "transformed_smallest",
    "transform_inplace"
   ],
   "note": ""
  },
  {
   "property": "C11",
   "status": "partial",
   "theorems": [
    "product_common_points",
    "product_inplace",
    "intersects_iff",
    "disjoint_product_refuted"
   ],
   "note": "The product of disjoint boxes is an inverted box, not the empty box (finding)."
  },
  {
   "property": "C12",
   "status": "proved",
   "theorems": [
    "lowres_smallest",
    "enlarged_exact",
    "enlarged_contains",
    "box_measures"
   ],
   "note": ""
  },
  {
   "property": "C17",
   "status": "proved",
   "theorems": [
    "roots_low_degree",
    "roots_of_zero",
    "roots_refused"
   ],
   "note": ""
  },
  {
   "property": "C18",
   "status": "partial",
   "theorems": [
    "cubic_roots_partial",
    "cubic_double_root_refuted"
   ],
   "note": "All cubics except those with a double root below the other root, where both returned values are wrong (finding)."
  },
  {
   "property": "C19",
   "status": "partial",
   "theorems": [
    "quartic_roots_partial",
    "quartic_double_root_refuted"
   ],
   "note": "All quartics except those with a real double root at which the cofactor is positive (finding)."
  },
  {
   "property": "C42",
   "status": "partial",
   "theorems": [
    "readint_decodes",
    "readint_total",
    "fixed_size_readers",
    "readint24_partial",
    "readint24_refuted",
    "readstring_field",
    "readstring_too_long"
   ],
   "note": "All readers but readint24, which never returns negative numbers (finding)."
  },
  {
   "property": "C43",
   "status": "partial",
   "theorems": [
    "tokens_read_back",
    "token_then_bytes",
    "start_behind_first",
    "start_separator",
    "bytes_tokens_partial",
    "bytes_comments_refuted",
    "token_at_end_refuted"
   ],
   "note": "Proved for text; the bytes variant does not skip comments, and a token at the end of the data is an IndexError (findings)."
  },
  {
   "property": "C02",
   "status": "proved",
   "theorems": [
    "scales_follow_history",
    "kind_scales_alone",
    "true_lengths_fixed",
    "inch_in_units"
   ],
   "note": ""
  },
  {
   "property": "C37",
   "status": "proved",
   "theorems": [
    "registry_contents",
    "references_resolve",
    "merged_lists",
    "late_registration_refuted"
   ],
   "note": "references_resolve holds when a registry is not changed after having been merged (as PyX does); late_registration_refuted shows the hypothesis is needed."
  },
  {
   "property": "C38",
   "status": "proved",
   "theorems": [
    "xref_table"
   ],
   "note": "For files of less than 10^10 bytes, the limit of the format."
  },
  {
   "property": "C39",
   "status": "partial",
   "theorems": [
    "pdfstring_reads_back_partial",
    "pdfstring_wide_refuted"
   ],
   "note": "Code points up to 255; wider ones are written wrongly (finding)."
  },
  {
   "property": "C40",
   "status": "partial",
   "theorems": [
    "page_annotations_partial",
    "page_annotations_refuted"
   ],
   "note": "The page's own annotations are included, but so are those of all other pages (finding)."
  },
  {
   "property": "C41",
   "status": "proved",
   "theorems": [
    "ps_resources",
    "ps_payload"
   ],
   "note": ""
  },
  {
   "property": "C44",
   "status": "proved",
   "theorems": [
    "bezier_range_exact"
   ],
   "note": ""
  },
  {
   "property": "C46",
   "status": "proved",
   "theorems": [
    "item_points",
    "split_traces",
    "segments_trace"
   ],
   "note": ""
  },
  {
   "property": "C47",
   "status": "proved",
   "theorems": [
    "item_bbox_smallest",
    "item_cbox_contains"
   ],
   "note": ""
  },
  {
   "property": "C48",
   "status": "proved",
   "theorems": [
    "arclen_enclosed",
    "line_arclen_exact"
   ],
   "note": ""
  },
  {
   "property": "C50",
   "status": "proved",
   "theorems": [
    "line_intersect_sound",
    "line_intersect_complete",
    "line_intersect_exact"
   ],
   "note": "Completeness covers almost parallel lines as well; the case of this line shorter than epsilon is C51."
  },
  {
   "property": "C51",
   "status": "partial",
   "theorems": [
    "short_other_middle_partial",
    "short_self_middle_refuted"
   ],
   "note": "Proved for a short second line; refuted for a short first line, whose middle is computed from the wrong coordinate (normpath.py:228)."
  },
  {
   "property": "C74",
   "status": "proved",
   "theorems": [
    "item_trafo_frame",
    "coordinate_derivatives"
   ],
   "note": ""
  },
  {
   "property": "C75",
   "status": "proved",
   "theorems": [
    "curvature_frenet"
   ],
   "note": ""
  },
  {
   "property": "C45",
   "status": "proved",
   "theorems": [
    "arc_bbox_smallest",
    "arc_bbox_negative_refuted"
   ],
   "note": "For radii which are not negative; for a negative radius the corners are exchanged (finding)."
  },
  {
   "property": "C59",
   "status": "proved",
   "theorems": [
    "arc_curves",
    "arc_curve_tangents",
    "arc_curves_close"
   ],
   "note": ""
  },
  {
   "property": "C49",
   "status": "proved",
   "theorems": [
    "arclen_to_param",
    "param_to_arclen",
    "arclen_roundtrip",
    "arclen_monotone"
   ],
   "note": ""
  },
  {
   "property": "C53",
   "status": "partial",
   "theorems": [
    "reversed_subpath",
    "reversed_without_epsilon",
    "reversed_skipped_refuted",
    "reversed_closed_refuted",
    "reversed_path"
   ],
   "note": "Proved for subpaths of items not shorter than epsilon; the skipped line is lost and closed subpaths without epsilon get an additional line (findings)."
  },
  {
   "property": "C54",
   "status": "partial",
   "theorems": [
    "transformed_subpath",
    "transformed_ends",
    "transformed_refuted",
    "transformed_path"
   ],
   "note": "Points commute for transformations not shrinking distances, end points for all; shrinking transformations change the parametrisation (finding)."
  },
  {
   "property": "C55",
   "status": "proved",
   "theorems": [
    "queries_independent",
    "points_independent",
    "point_unique",
    "points_skipped",
    "mixed_parameters",
    "path_points_independent"
   ],
   "note": ""
  },
  {
   "property": "C77",
   "status": "proved",
   "theorems": [
    "subpath_bbox_smallest",
    "path_bbox_smallest"
   ],
   "note": ""
  },
  {
   "property": "C24",
   "status": "proved",
   "theorems": [
    "linear_partition_exact",
    "stretched_ends_are_ticks",
    "automatic_distances"
   ],
   "note": "Floats are real numbers; automatic_distances assumes that formatting a number of at most ten digits is exact."
  },
  {
   "property": "C25",
   "status": "proved",
   "theorems": [
    "log_partition_exact",
    "log_zero_refused",
    "log_fixed_end_refuted",
    "variants_in_reverse",
    "automatic_exponents"
   ],
   "note": "Floats and logarithms are real numbers. Refuted: on negative ranges the flags extendmin and extendmax are exchanged."
  },
  {
   "property": "C26",
   "status": "proved",
   "theorems": [
    "linear_convert_exact",
    "log_convert_exact",
    "linear_axis_monotone",
    "log_axis_monotone",
    "limits_in_any_order"
   ],
   "note": "Floats and logarithms are real numbers."
  },
  {
   "property": "C27",
   "status": "proved",
   "theorems": [
    "axis_range_smallest",
    "axis_range_order",
    "data_inside_axis"
   ],
   "note": "Values are real numbers or no numbers; nan is not modelled."
  },
  {
   "property": "C28",
   "status": "proved",
   "theorems": [
    "bar_history",
    "bar_regions",
    "bar_convert_inside"
   ],
   "note": "Subaxes are linear, sizedlinear and autosizedlinear axes; nested bar axes are not modelled."
  },
  {
   "property": "C29",
   "status": "proved",
   "theorems": [
    "cube_rate_exact",
    "cube_rate_monotone",
    "distance_rate_average",
    "distance_rate_symmetric",
    "rateticks_mean"
   ],
   "note": "Floats are real numbers; tick levels are taken to be non-negative."
  },
  {
   "property": "C78",
   "status": "proved",
   "theorems": [
    "best_partition_chosen",
    "best_partition_refuted",
    "partition_search",
    "search_finds_least"
   ],
   "note": "For painters which draw something; refuted for painters which draw nothing, where the loop never ends."
  },
  {
   "property": "C79",
   "status": "proved",
   "theorems": [
    "divisor_scales_once",
    "manual_ticks_scaled_refuted"
   ],
   "note": "For one layout; refuted for manual ticks, which are shared by all partitions laid out and are scaled once for each of them."
  },
  {
   "property": "C61",
   "status": "proved",
   "theorems": [
    "attrs_left_to_right",
    "single_clip_only"
   ],
   "note": "A second clip path is refused."
  },
  {
   "property": "C62",
   "status": "partial",
   "theorems": [
    "ps_draws",
    "ps_draws_fonts",
    "pdf_draws",
    "pdf_draws_strict",
    "svg_draws",
    "formats_agree",
    "ps_font_refuted",
    "fillrule_refuted",
    "pdf_strict_refuted",
    "svg_order_refuted",
    "svg_ornament_refuted",
    "svg_opacity_refuted",
    "svg_text_refuted"
   ],
   "note": "Balance and the picture drawn are proved for PostScript, PDF and SVG on the canvases described in the theorems; refuted for text in unattributed sub-canvases (PS), for fill rules given with the filling only, for PDF operators inside path objects, and for several SVG cases (findings)."
  },
  {
   "property": "C63",
   "status": "partial",
   "theorems": [
    "simple_layer_place",
    "group_layer",
    "layers_once",
    "layer_keeps_drawings",
    "layer_succeeds",
    "layer_missing_refuted",
    "layer_itself_refuted"
   ],
   "note": "Proved for histories of successful calls; a call that raises an exception can leave a layer out of the drawing (findings)."
  },
  {
   "property": "C80",
   "status": "proved",
   "theorems": [
    "canvas_bbox_contains",
    "canvas_bbox_clipped",
    "process_bbox_adds",
    "canvas_bbox_tight_refuted"
   ],
   "note": "Containment; not tightness, which is refuted for sub-canvases clipped away completely."
  },
  {
   "property": "C81",
   "status": "proved",
   "theorems": [
    "excluded_union",
    "kept_complement"
   ],
   "note": "For open paths of one subpath; closed paths are an open remark in the code (deco.py l.115)."
  },
  {
   "property": "C65",
   "status": "proved",
   "theorems": [
    "hexstring_roundtrip",
    "hexstring_accepted",
    "hexstring_normalised",
    "white_gray_refuted"
   ],
   "note": "With IEEE binary64 arithmetic; the gray value of white is written as byte 254 (finding)."
  },
  {
   "property": "C68",
   "status": "proved",
   "theorems": [
    "point_distance",
    "box_distance",
    "box_crossing"
   ],
   "note": "Edges are longer than 1e-5 or of length zero; the distance of two polygons and the detection of crossing edges are proved too."
  },
  {
   "property": "C82",
   "status": "proved",
   "theorems": [
    "align_convex",
    "extent_width",
    "tile_gap",
    "clockwise_refuted",
    "tile_direction_refuted"
   ],
   "note": "For counter clockwise polygons and unit directions; both conditions are needed (findings). Alignment at circles is not modelled."
  },
  {
   "property": "C83",
   "status": "proved",
   "theorems": [
    "svg_arc_written",
    "svg_arcn_written",
    "svg_arc_upright_refuted",
    "arc_backward_refuted"
   ],
   "note": "With the y axis inverted, as svgwriter does; without it the sweep flag is wrong (finding). Arcs going backward by whole turns are drawn as a full circle while PostScript draws none (finding)."
  },
  {
   "property": "C84",
   "status": "proved",
   "theorems": [
    "arct_tangent",
    "arct_collinear",
    "arct_coincident_refuted"
   ],
   "note": "Coincident points raise a ZeroDivisionError (finding); the case of points on a line with the direction reversed is left out as tan is evaluated next to its pole."
  },
  {
   "property": "C85",
   "status": "proved",
   "theorems": [
    "pathitems_bbox_smallest"
   ],
   "note": "Radii are not negative; arct is not covered."
  },
  {
   "property": "C57",
   "status": "proved",
   "theorems": [
    "cache_transparent",
    "cache_epsilon_refuted",
    "cache_alias_refuted"
   ],
   "note": "For all histories of append, extend, +=, join and queries. Changing the default epsilon does not invalidate cached normpaths, and the normpath returned is the cached object itself (findings)."
  },
  {
   "property": "C52",
   "status": "partial",
   "theorems": [
    "subpath_connected",
    "contiguous_items_accepted",
    "stored_items_long_partial",
    "short_item_refuted",
    "closed_subpath",
    "gap_refuted",
    "append_closed",
    "append_closed_refuted",
    "join_ends",
    "join_skipped_refuted",
    "path_join_ends",
    "split_pieces_trace"
   ],
   "note": "Contiguity, begin, end, closing and joining proved. Stored items are not shorter than epsilon except for curves where the cubic solver misses the slow point (finding); gaps below epsilon are stored as they are (finding). That the recursion for curves ends is not proved."
  },
  {
   "property": "C67",
   "status": "proved",
   "theorems": [
    "mesh_check",
    "mesh_written",
    "mesh_monotone",
    "mesh_flat_refuted"
   ],
   "note": "Floats are real numbers. Meshes without extent in one direction are accepted but raise a ZeroDivisionError when written (finding)."
  },
  {
   "property": "C87",
   "status": "proved",
   "theorems": [
    "svg_arc_center",
    "svg_arc_trafo",
    "svg_arc_ends",
    "svg_arc_drawn",
    "svg_arc_equal_ends_refuted",
    "arc_curves_speed"
   ],
   "note": "svg_arc_drawn asks that the arc of the unit circle and of the ellipse is not shorter than epsilon; svg_arc_ends needs no such condition. Equal end points divide by zero (finding)."
  },
  {
   "property": "C69",
   "status": "partial",
   "theorems": [
    "svg_trafo_composition",
    "svg_trafo_empty",
    "svg_matrix_transposed",
    "svg_matrix_refuted",
    "svg_skew_order_refuted",
    "svg_matrix_order_refuted"
   ],
   "note": "Proved for lists of translate, scale and rotate. False for matrix (rows and columns exchanged) and for matrix and skew that are not the last of a list (findings)."
  },
  {
   "property": "C70",
   "status": "partial",
   "theorems": [
    "svg_path_drawn",
    "svg_path_read_right",
    "svg_quadratic_curve",
    "svg_elevated_curve",
    "svg_smooth_after_quadratic_refuted",
    "svg_smooth_after_cubic_refuted",
    "svg_draw_after_close_refuted"
   ],
   "note": "Every path that is read draws what SVG defines, except for smooth cubic segments after quadratic ones and the reverse (findings); it is read if its pieces are not shorter than epsilon and none follows a closed subpath where the end point is asked for (finding)."
  },
  {
   "property": "C86",
   "status": "proved",
   "theorems": [
    "normpath_of_path",
    "normpath_after_close_refuted",
    "normpath_roundtrip",
    "roundtrip_skipped_refuted",
    "arc_as_curves",
    "arc_after_close",
    "normpath_subpaths",
    "path_end_point"
   ],
   "note": "For items at least as long as epsilon; what append does with shorter ones is C52. For any lengths the subpaths, whether they are closed and their end points are right (normpath_subpaths, path_end_point). Lines and curves after closepath are refused, and short ends are lost on the way back (findings)."
  },
  {
   "property": "C60",
   "status": "proved",
   "theorems": [
    "page_centered",
    "page_fitted",
    "page_turned",
    "page_margin_error",
    "page_no_room_refuted",
    "page_flat_refuted"
   ],
   "note": "Lengths in points. If the margins take exactly the whole paper there is no error but everything is scaled to a point, and boxes without width or height divide by zero (findings)."
  },
  {
   "property": "C72",
   "status": "proved",
   "theorems": [
    "char_info_fields",
    "face_letters",
    "tfm_tables",
    "tfm_accepts",
    "tfm_short_header_refuted"
   ],
   "note": "For header lengths of at least two words and counts that are not negative; that these are not checked is the refuted part (finding)."
  },
  {
   "property": "C71",
   "status": "proved",
   "theorems": [
    "dvi_page",
    "font_size_consistent",
    "magnification_refuted",
    "dvi_nop_refuted",
    "virtual_registers_refuted",
    "virtual_first_font_refuted",
    "virtual_setrule_refuted"
   ],
   "note": "For every page without no operation commands and every execution of it by the standard (a relation over abstract commands with all byte encodings), the interpreter shows the same glyphs, rules and specials at the same places; virtual fonts recursively, provided that their first font has the number 0, there is no magnification and their chunks use neither set_rule nor registers they did not set. Each of these conditions is needed: the refuted theorems give pages which PyX shows differently."
  },
  {
   "property": "C91",
   "status": "partial",
   "theorems": [
    "charstring_roundtrip_partial",
    "numbers_are_type1",
    "commands_are_type1",
    "read_then_written",
    "least_number_refuted",
    "long_lenIV_refuted"
   ],
   "note": "Round trip for all lists of commands and numbers v with -2^31 < v < 2^31 and lenIV <= 4; all numbers are written in the standard's shortest form. False for v = -2^31 (read as 2^31) and for lenIV > 4 (only four bytes are put before the commands)."
  },
  {
   "property": "C92",
   "status": "partial",
   "theorems": [
    "glyph_drawn_partial",
    "trafo_shift",
    "composite_width_refuted",
    "composite_bearing_refuted",
    "div_refuted"
   ],
   "note": "For all fonts and valid charstrings (an inductive semantics of the standard): the path draws exactly what the charstring draws. Missing, because false in the code: the width of composite glyphs, accents of composite glyphs with a left side bearing, quotients which are not integers."
  },
  {
   "property": "C94",
   "status": "proved",
   "theorems": [
    "remove_string_first",
    "remove_pattern_ok"
   ],
   "note": "remove_pattern for any search function (the regular expressions of the parsers are instances)."
  },
  {
   "property": "C95",
   "status": "proved",
   "theorems": [
    "escape_typeset"
   ],
   "note": "Against a small interpreter for the part of TeX which the replacements use (control symbols, \\string, math with four symbols, ties)."
  },
  {
   "property": "C96",
   "status": "proved",
   "theorems": [
    "nested_brackets_removed"
   ],
   "note": ""
  },
  {
   "property": "C97",
   "status": "partial",
   "theorems": [
    "load_removes_files",
    "load_messages_removed",
    "load_def_removes_files",
    "load_graphics_refuted"
   ],
   "note": "load and load_def are proved. load_graphics is false: its loop goes on with the pattern of load, so that a second graphics file is not removed (refuted by a witness)."
  },
  {
   "property": "C98",
   "status": "proved",
   "theorems": [
    "monitor_reads_outputs",
    "monitor_ends",
    "monitor_not_raised"
   ],
   "note": "A transition system with atomic queue and event operations; time-outs may happen at any time. The normalisation of newlines in read and interrupted system calls are not part of it."
  },
  {
   "property": "C99",
   "status": "partial",
   "theorems": [
    "line_is_clipped",
    "line_stays_inside",
    "line_leaves_graph_refuted"
   ],
   "note": "Proved for points of which no coordinate is outside of the graph by at most epsilon. Without this condition it is false: line_leaves_graph_refuted gives, for every epsilon > 0, three points for which the line is drawn to a point a quarter of the height of the graph below it."
  },
  {
   "property": "C58",
   "status": "partial",
   "theorems": [
    "pdf_same_as_ps",
    "pdf_same_as_ps_arcs",
    "pdf_after_close_refuted",
    "pdf_close_refuted",
    "svg_same_as_ps",
    "svg_arct_after_close_refuted",
    "svg_arct_after_arc_refuted"
   ],
   "note": "PDF: for paths in which closepath follows drawing and is followed by a move or an arc, with arcs (pdf_same_as_ps_arcs) but without tangent arcs; refuted otherwise. SVG: for all paths without arcs, and refuted for tangent arcs after closepath and after arcs. The PDF output is modelled with the epsilon None passed by outputPDF."
  },
  {
   "property": "C64",
   "status": "proved",
   "theorems": [
    "conversions_total",
    "rgb_hsb_rgb",
    "hsb_rgb_hsb",
    "rgb_cmyk_rgb",
    "undercolor_removal",
    "cmyk_rgb_cmyk",
    "gray_and_back",
    "gray_by_any_way",
    "gray_of_cmyk_refuted"
   ],
   "note": "The gray of cmyk colors with c+k>1 differs between the direct way and the way through rgb (finding)."
  },
  {
   "property": "C66",
   "status": "partial",
   "theorems": [
    "points_table",
    "points_accepted",
    "file_accepted",
    "file_rows",
    "file_names",
    "splitline_fields",
    "data_columns",
    "row_entries",
    "row_numbers",
    "conf_columns",
    "splitatvalue_section",
    "skiptail_refuted",
    "column_name_refuted",
    "empty_file_refuted",
    "conf_new_option_refuted"
   ],
   "note": "The selection of lines is exact if skiptail is a multiple of every and refuted otherwise; config-like files work if the first section has all options."
  },
  {
   "property": "C100",
   "status": "proved",
   "theorems": [
    "seen_in_same_direction",
    "zindex_order",
    "geodesic_image",
    "angle_orientation"
   ],
   "note": "Both projectors; angles are those after multiplication with anglefactor. The degenerate viewing angles are included. Points behind the viewer are excluded (the code draws them mirrored)."
  },
  {
   "property": "C101",
   "status": "partial",
   "theorems": [
    "plane_faces",
    "plane_visible",
    "axis_visible",
    "axes_order",
    "tick_directions",
    "tick_directions_xy12axesat_refuted"
   ],
   "note": "Proved for the case xy12axesat=None (the model's value 0). With xy12axesat the tick directions of the first x and y axes are refuted: they start at the bottom of the graph and end at the height of the axis."
  },
  {
   "property": "C102",
   "status": "partial",
   "theorems": [
    "bar_rectangle",
    "subvalue_innermost",
    "bar_begin",
    "bar_ends",
    "bar_valid",
    "stacked_bars",
    "stacked_valid_again",
    "stacked_valid_refuted"
   ],
   "note": "Refuted for one part: stackedbarpos determines the flag vposvalid again only if it was false before, so a stacked position outside of the graph is still marked as valid. All other parts are proved."
  },
  {
   "property": "C103",
   "status": "proved",
   "theorems": [
    "bar_sides",
    "bars_back_to_front"
   ],
   "note": "Sides narrower than epsilon are left out by the code and excluded by the hypothesis wide_side. The colors (lighting) are not modelled."
  },
  {
   "property": "C104",
   "status": "partial",
   "theorems": [
    "image_same_place",
    "image_within_bbox",
    "image_size",
    "jpeg_dpi_horizontal",
    "jpeg_dpi_refuted",
    "image_shown",
    "image_shown_refuted"
   ],
   "note": "Positions, bounding box and sizes are proved. Refuted in two parts: the vertical resolution of JPEG files given per centimetre is multiplied by 2.45 instead of 2.54, and images in PDF files with equal color data but different size, mode or alpha channel are shown as the first of them. Matrices are real numbers (the output with six digits is not modelled)."
  },
  {
   "property": "C105",
   "status": "partial",
   "theorems": [
    "grid_values",
    "density_shows",
    "density_shows_refuted",
    "density_first_refuted",
    "grid_sorted",
    "density_pixels",
    "density_bytes",
    "density_position"
   ],
   "note": "false when points without a position are in the data: density_shows_refuted (the color of the point before is overwritten) and density_first_refuted (AttributeError if it is the first point)"
  },
  {
   "property": "C106",
   "status": "partial",
   "theorems": [
    "surface_complete",
    "surface_cells_order",
    "surface_order",
    "surface_back",
    "surface_order_refuted",
    "surface_cells_order_refuted"
   ],
   "note": "the order of the cells is right if the viewer is not between the planes at the ends of the two grid directions (surface_cells_order), the order of the triangles of a cell is right in parallel projections with square cells (surface_order); both are false otherwise (surface_cells_order_refuted, surface_order_refuted)"
  },
  {
   "property": "C108",
   "status": "partial",
   "theorems": [
    "key_inside",
    "key_outside",
    "key_position_names",
    "key_columns_spec",
    "key_columns_apart",
    "key_symbols",
    "key_titles_right",
    "key_titles_apart",
    "key_columns_apart_refuted",
    "key_titles_apart_refuted"
   ],
   "note": "Titles are apart if they have the same upper edge, and columns if they begin at the same position; both are false otherwise. The texts, the symbols and the frame are not modelled."
  },
  {
   "property": "C109",
   "status": "partial",
   "theorems": [
    "styles_resolved",
    "styles_terminate",
    "styles_known",
    "styles_added_twice_refuted",
    "styles_selected",
    "points_drawn",
    "graph_steps_once",
    "key_shows_titles_partial",
    "key_shows_titles_refuted",
    "plot_refused"
   ],
   "note": "All parts are proved except two: default providers can be added twice (styles_added_twice_refuted), and the key shows the titled items if all data is plotted before the key is done (key_shows_titles_partial); a key done before is empty for ever although further data is accepted (key_shows_titles_refuted)."
  },
  {
   "property": "C110",
   "status": "partial",
   "theorems": [
    "page_content_same",
    "page_content_bbox",
    "page_content_svg",
    "page_content_again",
    "page_content_svg_refuted"
   ],
   "note": "Proved for pages without a bbox given, and for PostScript and PDF in general. False for SVG output of pages with a bbox: graphs have no processSVG and are written without what finish would add (page_content_svg says exactly when)."
  },
  {
   "property": "C111",
   "status": "partial",
   "theorems": [
    "arc_connector",
    "arc_angle",
    "curve_connector",
    "default_curve_refuted",
    "twolines_count",
    "twolines_two_angles",
    "twolines_angle_middle1",
    "twolines_angle_middle2",
    "twolines_two_sides_refuted",
    "twolines_two_lengths",
    "twolines_same_end",
    "twolines_other_end",
    "twolines_middle_length",
    "omitends_part",
    "shorten_begin_refuted",
    "shorten_begin_part"
   ],
   "note": "Proved for all connectors whose data describes a triangle. False in three places: the default curve is S-shaped and not like the default arc, two angles at different sides give lines with another angle instead of an error, and shortening at the begin raises an IndexError if the circle does not meet the connector."
  },
  {
   "property": "C88",
   "status": "proved",
   "theorems": [
    "tfm_scaled_as_tex",
    "tfm_scaled_close",
    "tfm_char_sizes"
   ],
   "note": "z is the rounded font size in DVI units."
  },
  {
   "property": "C112",
   "status": "proved",
   "theorems": [
    "range_columns",
    "range_positions",
    "range_adjusts"
   ],
   "note": "Values are arbitrary; subtraction, addition and conversion by the axis are parameters which may fail."
  },
  {
   "property": "C89",
   "status": "proved",
   "theorems": [
    "choices_are_hobbys",
    "velocity_positive",
    "smooth_knots_smooth",
    "at_least_within_triangle",
    "choices_exist_refuted",
    "reduce_angle_range_partial",
    "reduce_angle_range_refuted"
   ],
   "note": "choices_are_hobbys: for all proper knots (what the classes of path.py make, with tensions of at least 3/4 and curls not below 0) the angles satisfy all conditions and the control points follow from them; it returns None exactly for a segment with both angles 180 degrees. The velocities are positive, so smooth knots are smooth. choices_exist_refuted: the division by zero for two angles of 180 degrees, where MetaPost has the velocity 4. reduce_angle_range_partial: angles within three half turns get into one turn around zero, which covers all arguments arising from differences of two angles of atan2; reduce_angle_range_refuted: larger ones are only reduced by one turn."
  },
  {
   "property": "C90",
   "status": "partial",
   "theorems": [
    "elements_understood",
    "metapost_path",
    "closing_line_refuted",
    "smooth_before_line_refuted",
    "smooth_behind_line_refuted",
    "controls_before_line_refuted",
    "keepangles_at_end_refuted",
    "tensions_given"
   ],
   "note": "metapost_path: for sensible elements (lines only between knots which are not smooth, without keepangles) the items are exactly those the links say. The other cases are partly wrong in the code, see the refuted theorems; missing: lines with keepangles between curves with tension, where the code is right."
  },
  {
   "property": "C93",
   "status": "proved",
   "theorems": [
    "stripped_draws_same",
    "stripped_paths_same",
    "flex_subrs_kept"
   ],
   "note": "On the level of charstring commands; the text of the PFA/PFB file around them is not modelled."
  },
  {
   "property": "C113",
   "status": "partial",
   "theorems": [
    "errorbars_drawn_partial",
    "errorbar_visible",
    "errorbar_reversed_refuted",
    "rect_clipped_partial",
    "rect_leaves_graph_refuted",
    "arrow_drawn",
    "impulses_drawn"
   ],
   "note": "False in the rest: error bars on reversed axes vanish when the lower value is outside of the graph, rectangles larger than the graph are only cut at one side."
  },
  {
   "property": "C114",
   "status": "proved",
   "theorems": [
    "symbol_areas",
    "symbols_centered",
    "symbol_lengths"
   ],
   "note": "The area of polygons by the shoelace formula."
  },
  {
   "property": "C115",
   "status": "proved",
   "theorems": [
    "histogram_draws_bars",
    "histogram_draws_steps",
    "histogram_connected",
    "histogram_inside",
    "filled_steps_closed",
    "filled_bars",
    "auto_histogram"
   ],
   "note": "With fromvalue given or, for paths without filling, None."
  },
  {
   "property": "C116",
   "status": "proved",
   "theorems": [
    "lines_read",
    "lines_same",
    "bytes_read"
   ],
   "note": "For the calls with a count, as the code makes them; read without count would set the buffer to a text."
  },
  {
   "property": "C117",
   "status": "partial",
   "theorems": [
    "bbox_first",
    "bbox_found",
    "bbox_at_end_refuted",
    "eps_placed"
   ],
   "note": "Proved for bounding boxes in the header, and for the placement. Files with (atend) are refused by the code (refuted)."
  },
  {
   "property": "C118",
   "status": "partial",
   "theorems": [
    "jpeg_read_partial",
    "jpeg_cut_refuted"
   ],
   "note": "Proved for files whose other segments contain no byte pair that looks like a marker known to the code; false otherwise, as the code searches tables for markers: a quantization table with the values 255 217 truncates the image (refuted). Segments JFXX are excluded, since any APP0 segment is taken for JFIF."
  },
  {
   "property": "C119",
   "status": "proved",
   "theorems": [
    "png_read_back"
   ],
   "note": "Checksum and compression are parameters."
  },
  {
   "property": "C120",
   "status": "partial",
   "theorems": [
    "vf_read_partial",
    "vf_long_refuted"
   ],
   "note": "Proved for files with short character packets. Long packets are read wrongly by the code: their width has four bytes, of which three are read (vf_long_refuted says what results for every such file). The rescaling of sizes is a parameter (floats)."
  },
  {
   "property": "C121",
   "status": "partial",
   "theorems": [
    "corner_smooth",
    "corner_curvature_flat",
    "corner_curvature_flat_refuted",
    "smoothed_smooth",
    "smoothed_line_refuted",
    "smoothed_keeps",
    "smoothed_near"
   ],
   "note": "For subpaths of lines all of it is proved except two parts which are false: with different distances on both sides of the corner the derivative of the curvature does not vanish (corner_curvature_flat_refuted), and an open subpath with a single line loses its beginning (smoothed_line_refuted). Subpaths with curves (which need arc lengths of curves) are not modelled."
  },
  {
   "property": "C123",
   "status": "proved",
   "theorems": [
    "mapline_read",
    "fontmap_last"
   ],
   "note": "The number of SlantFont is kept as its text; which texts float accepts is a parameter of the model."
  },
  {
   "property": "C124",
   "status": "proved",
   "theorems": [
    "encoding_read"
   ],
   "note": "For files in which white space or a delimiter follows def and the closing bracket and def are separated by white space (otherwise the tokenizer fails or reads them as one token)."
  },
  {
   "property": "C125",
   "status": "proved",
   "theorems": [
    "output_name",
    "writetofile_format"
   ],
   "note": ""
  },
  {
   "property": "C126",
   "status": "proved",
   "theorems": [
    "text_glyphs",
    "texts_written",
    "text_strings",
    "text_strings_printable",
    "svg_characters",
    "svg_characters_refuted"
   ],
   "note": "Glyphs and codes for all documents; strings read by the rules of PDF and PostScript literal strings. SVG fonts: proved for glyph names and for codes separately; a font used both by names and by codes has clashes (svg_characters_refuted)."
  },
  {
   "property": "C127",
   "status": "partial",
   "theorems": [
    "text_postscript",
    "text_pdf",
    "text_svg",
    "text_path",
    "laid_unique",
    "text_box",
    "pdf_widths_partial",
    "pdf_widths_refuted",
    "svg_slant_refuted",
    "path_slant_refuted",
    "ps_slant",
    "ps_slant_refuted"
   ],
   "note": "Places proved for all formats (SVG without slant). False in the rest: PDF widths with a fraction are cut, slanted text cannot be written to SVG, text as path ignores the slant, slanted builtin fonts are 1000 times too large in PostScript. text_box needs a text with at least one glyph (an empty one raises in height_pt)."
  },
  {
   "property": "C128",
   "status": "proved",
   "theorems": [
    "ligatures_resolved"
   ],
   "note": "With uniqueness; a missing metric is a KeyError."
  },
  {
   "property": "C129",
   "status": "partial",
   "theorems": [
    "axis_ticks",
    "axis_labels",
    "axis_extent",
    "axis_title",
    "axis_title_apart",
    "axis_title_apart_refuted",
    "axis_grid_refuted"
   ],
   "note": "For convex label boxes with edges not too short; labels moved together (labelvequalize, the default) only when they all need the same shift: in general the title overlaps labels (finding)."
  },
  {
   "property": "C131",
   "status": "proved",
   "theorems": [
    "bar_names",
    "bar_ticks",
    "bar_extent",
    "subaxis_positions",
    "break_lines_placed",
    "break_extent_covers"
   ],
   "note": "Names moved together are covered by the extent only when they all need the same shift (finding of C129)."
  },
  {
   "property": "C132",
   "status": "proved",
   "theorems": [
    "arrow_position",
    "arrow_sides",
    "arrow_straight",
    "arrow_stroke"
   ],
   "note": ""
  },
  {
   "property": "C134",
   "status": "partial",
   "theorems": [
    "brace_closed",
    "brace_smooth",
    "brace_places",
    "brace_thickness_partial",
    "brace_bar_slope",
    "brace_short_refuted",
    "brace_cap_refuted",
    "brace_stretch",
    "brace_dist_partial",
    "brace_dist_refuted"
   ],
   "note": "False of the code: bars have twice the thickness given; bars are not parallel to the line between the ends for relative heights adding up to one; short braces have a straight part going backwards; with slanted strokes there is a kink at the outside of the middle; the ends of reversed braces are moved in the direction of the other end.  The rest is proved."
  },
  {
   "property": "C135",
   "status": "proved",
   "theorems": [
    "linear_gradient",
    "gradients_valid",
    "gradients_reversed",
    "jet_continuous",
    "named_ends"
   ],
   "note": "Over the reals; the conversion to cmyk is for black generation functions that stay in [0,1]."
  },
  {
   "property": "C136",
   "status": "partial",
   "theorems": [
    "svg_units",
    "svg_viewbox",
    "svg_no_viewbox",
    "svg_size_needed",
    "svg_placed",
    "svg_unparsed_placed",
    "svg_clip_refuted",
    "svg_unparsed_units_refuted",
    "svg_miterlimit_refuted"
   ],
   "note": "False for the clipping: the clip rectangle is built from points taken as user units. For unparsed files proved for resolution 96 or sizes in pixels and false otherwise; unparsed files with sizes in percent are modelled without a theorem. The miter limit is scaled like a length."
  },
  {
   "property": "C137",
   "status": "partial",
   "theorems": [
    "svg_groups_partial",
    "svg_root_color_refuted",
    "svg_nested_refuted"
   ],
   "note": "Missing: colors at the svg element itself (ignored by the code, refuted) and svg elements inside of the file (they make everything before them disappear, refuted)."
  },
  {
   "property": "C138",
   "status": "partial",
   "theorems": [
    "pattern_tiled",
    "pattern_svg_shifted",
    "hatched_lines",
    "crosshatched_lines",
    "pattern_pdf_bbox_refuted",
    "pattern_svg_refuted",
    "hatched_svg_refuted",
    "pattern_call_refuted"
   ],
   "note": "PostScript and PDF are shown to agree without an own bounding box; with one the PDF box is rounded (refuted). SVG shows the pattern shifted by the upper left corner of the box (exact shift proved, agreement refuted). hatched patterns cannot be written to SVG and called patterns not at all (refuted)."
  },
  {
   "property": "C139",
   "status": "partial",
   "theorems": [
    "pfm_header",
    "pfm_tables",
    "pfm_widths_encoded",
    "pfm_widths_ansi_partial",
    "pfm_kernings",
    "pfm_flags",
    "pfm_space_refuted",
    "pfm_negative_index_refuted"
   ],
   "note": "For the Windows encoding the widths are proved for all glyphs but space, hyphen and bullet, whose codes are wrong; glyphs below the first code get the width of another one."
  },
  {
   "property": "C140",
   "status": "proved",
   "theorems": [
    "form_flags",
    "form_selectflags",
    "form_types"
   ],
   "note": ""
  },
  {
   "property": "C142",
   "status": "partial",
   "theorems": [
    "stroke_last_wins",
    "dash_outputs",
    "dash_relative_partial",
    "dash_offset_refuted"
   ],
   "note": "The stretching of dashes is proved for patterns without offset; with an offset it is false of the code, the offset is not relative. The texts of numbers are not modelled here."
  },
  {
   "property": "C143",
   "status": "proved",
   "theorems": [
    "miter_names",
    "miter_default",
    "linewidth_names"
   ],
   "note": ""
  },
  {
   "property": "C107",
   "status": "partial",
   "theorems": [
    "graph_ratio",
    "graph_area",
    "graph_flipped",
    "graph_geodesic",
    "graph_cap",
    "graph_axis",
    "graph_axes_apart",
    "graph_axis_defined",
    "graph_axisat",
    "graph_tickpoint",
    "graph_basepath",
    "graph_autokey",
    "graphx_positions",
    "graph_axis_names_partial",
    "graph_axis_names_refuted",
    "graph_axisat_methods_refuted",
    "graph_vtickpoint_refuted",
    "graphx_grid_refuted"
   ],
   "note": "Proved for coordinates, paths, caps, positions, directions and grid lines of all axes, their distances, and the key graph. False of the code: xvtickpoint and yvtickpoint, tick points of axes moved by xaxisat/yaxisat, grids of vertical graphx, axis names like x0 and x02. The painting of axes (their extent) is arbitrary."
  },
  {
   "property": "C144",
   "status": "partial",
   "theorems": [
    "circle_align",
    "circle_equal",
    "circle_outside_refuted"
   ],
   "note": "Proved with the margins of the tolerances as hypotheses (clear_edges, a*a >= 1e-10) and the center in the shadow of the polygon; the touching point may be outside an edge by the relative tolerance 1e-10 of the code. Without the center in the shadow it is false (circle_outside_refuted)."
  },
  {
   "property": "C146",
   "status": "partial",
   "theorems": [
    "pdf_flags",
    "pdf_heights",
    "pdf_descent_refuted"
   ],
   "note": "Flags, ascent and descent as given; without a Descender the descent is the top of the bounding box."
  },
  {
   "property": "C148",
   "status": "partial",
   "theorems": [
    "marker_moves",
    "textpath_letters",
    "textpath_refuted"
   ],
   "note": "Markers: proved. Text paths: only for texts of letters without color, rules and groups; with a rule textpath is an error."
  },
  {
   "property": "C76",
   "status": "partial",
   "theorems": [
    "segments_ends",
    "segments_points",
    "segments_closed_refuted",
    "path_split_runs",
    "path_split_route",
    "split_skipped_refuted"
   ],
   "note": "Proved except for closed subpaths cut from one end to the other, where the single segment is doubled (finding). A part of a subpath has exactly the points of the subpath between the two parameters, in order, forwards or backwards (segments_points; the pieces of the items between have to be single points or to have a velocity of at least epsilon). Splitting a whole path gives pieces through the points at the parameters (path_split_runs), along the subpaths in between, forwards or backwards (path_split_route); a skipped line at the end is lost (finding)."
  },
  {
   "property": "C149",
   "status": "partial",
   "theorems": [
    "names_tried",
    "header_extension_refuted",
    "local_single",
    "local_opens_last",
    "local_late_binding_refuted",
    "open_first",
    "open_kept",
    "open_stale_refuted"
   ],
   "note": "The names and the choice among the locators are proved. False for the local locator with several names: all its openers open the last name (local_late_binding_refuted). False for PostScript headers, where the extension .pro is never tried (header_extension_refuted). A file opened once is not searched for again when it is gone (open_stale_refuted)."
  },
  {
   "property": "C150",
   "status": "partial",
   "theorems": [
    "lsr_finds",
    "lsr_no_directory_refuted",
    "recursivedir_finds",
    "recursivedir_order_refuted",
    "recursivedir_moves_refuted"
   ],
   "note": "Proved; but of several names in one directory the last one listed is taken and not the first one to be tried (recursivedir_order_refuted), and an opener may open another file of the same name after a further search (recursivedir_moves_refuted)."
  },
  {
   "property": "C151",
   "status": "partial",
   "theorems": [
    "getlist_reads",
    "getlist_words",
    "getlist_overlap_refuted"
   ],
   "note": "Proved for the default replacement string SPACE; false for other replacement strings which overlap themselves (getlist_overlap_refuted)."
  },
  {
   "property": "C152",
   "status": "partial",
   "theorems": [
    "svg_file_tree",
    "svg_xlink_refuted",
    "svg_empty_page",
    "svg_resources_once"
   ],
   "note": "Proved for pages whose elements are properly nested and, where resources use xlink names, for pages which use them as well. False in the remaining case (svg_xlink_refuted)."
  },
  {
   "property": "C122",
   "status": "partial",
   "theorems": [
    "end_curve_geometry",
    "controldists_partial",
    "controldists_linear",
    "endgeometry_refuted",
    "first_solution"
   ],
   "note": "The equations are proved to be the right ones; all their solutions are in the list if the quartic polynomials have no double root of the kind where realpolyroots fails; with parallel tangents or an end without curvature there is exactly one solution, which is found. A solution in the list is right if both control points are in the direction of the tangents; without this condition it is false (endgeometry_refuted)."
  },
  {
   "property": "C130",
   "status": "proved",
   "theorems": [
    "text_upright",
    "text_along",
    "title_along",
    "title_vertical"
   ],
   "note": "For directions and tick points which are not degenerate."
  },
  {
   "property": "C133",
   "status": "partial",
   "theorems": [
    "hatch_covers",
    "hatch_cross",
    "gradient_seen",
    "gradient_single_refuted",
    "text_beside",
    "text_curved",
    "text_place_reversed"
   ],
   "note": "A color gradient with a single step is an IndexError (gradient_single_refuted); everything else is proved."
  },
  {
   "property": "C141",
   "status": "partial",
   "theorems": [
    "form_rect",
    "form_sizes",
    "form_button",
    "form_radio_bbox",
    "form_lines",
    "form_strings_partial",
    "form_default_text",
    "form_radio_partial",
    "form_radio_off",
    "form_strings_refuted",
    "form_empty_lines_refuted",
    "form_radio_refuted",
    "form_button_mirror_refuted",
    "form_check"
   ],
   "note": "Strings are proved to be read back for balanced parentheses without backslashes and carriage returns, radio buttons for values of letters and digits; otherwise the statements are false, as are places of buttons under mirrors."
  },
  {
   "property": "C153",
   "status": "partial",
   "theorems": [
    "pfb_read",
    "pfb_segments_refuted",
    "pfa_read_refuted"
   ],
   "note": "Proved for PFB files with one segment for each clear text, which are all that are accepted. False for PFB files with several segments of clear text and for PFA files, none of which can be read."
  },
  {
   "property": "C154",
   "status": "partial",
   "theorems": [
    "pfa_written",
    "pdf_font_parts",
    "pfb_output_refuted"
   ],
   "note": "Proved for PFA without the removal of the lookup of the unique id, and for PDF. False for PFB, where writing always fails."
  },
  {
   "property": "C155",
   "status": "proved",
   "theorems": [
    "encoding_read",
    "encoding_standard"
   ],
   "note": "For texts where /Encoding is followed by white space; int of texts is an arbitrary function."
  },
  {
   "property": "C156",
   "status": "partial",
   "theorems": [
    "function_points",
    "param_points",
    "single_point_refuted",
    "param_sizes_refuted",
    "strokes_refuted"
   ],
   "note": "Proved for at least two points. Refuted: one point is a division by zero (both kinds); only the number of the last values of a parametric function is compared with the number of names, so columns may differ in length; reading the strokes of a CBD file always fails, since bytes are compared with a text."
  },
  {
   "property": "C157",
   "status": "proved",
   "theorems": [
    "join_columns"
   ],
   "note": "For data sets whose columns have equal lengths."
  },
  {
   "property": "C145",
   "status": "partial",
   "theorems": [
    "afm_read",
    "text_width",
    "pair_kerning",
    "metricssets_refuted",
    "direction_comment_refuted",
    "chars_comment_refuted"
   ],
   "note": "Proved for files with header, character metrics and kerning pairs for the first direction, with the widths of texts and the kernings between glyphs that follow from them; track kernings, composites and sections for directions are modelled but only covered by examples. False: files with a MetricsSets line cannot be read, a comment ends the section of a direction, a comment within the character metrics is an error."
  },
  {
   "property": "C147",
   "status": "partial",
   "theorems": [
    "page_read",
    "marker_twice",
    "later_value",
    "marker_lost_refuted",
    "unfinished_refuted",
    "color_exponent_refuted"
   ],
   "note": "Proved for pages with properly nested groups and different names of markers, and for names given twice in the special of an included file. False: the same name within and outside of a group is no error and the place outside is lost; of a page with a group that is not finished only the group is returned; signs and exponents of color values are dropped."
  },
  {
   "property": "C159",
   "status": "partial",
   "theorems": [
    "transforms_read",
    "transform_space_refuted"
   ],
   "note": "Proved without white space around the opening parenthesis; with white space before it the transformation is silently ignored, with white space after it there is an error. How the transformations are combined is C69."
  },
  {
   "property": "C160",
   "status": "partial",
   "theorems": [
    "color_names",
    "color_numbers",
    "color_hex",
    "color_inherited",
    "name_space_refuted",
    "color_words_refuted"
   ],
   "note": "Proved; false are names with white space around them (error), values above 255 or 100% (error instead of the largest value, second part of color_numbers), unknown words of three or six hexadecimal digits (a color instead of an error), and currentColor (no color; the source says TODO)."
  },
  {
   "property": "C161",
   "status": "partial",
   "theorems": [
    "texts_in_line",
    "stack_alignment",
    "unicode_mathmode_refuted",
    "stacked_minus_refuted"
   ],
   "note": "proved for the boxes themselves; text_pt of the engine never asks for a formula, since mathmode is refused as a text attribute (refuted), and hyphens in stacks are not minus signs (refuted)"
  },
  {
   "property": "C162",
   "status": "proved",
   "theorems": [
    "text_box"
   ],
   "note": "texts with widths and heights which are not negative"
  },
  {
   "property": "C164",
   "status": "partial",
   "theorems": [
    "smoothed_path",
    "linesmoothed_call",
    "linesmoothed_atleast_refuted"
   ],
   "note": "False for atleast: deformsubpath hands the negative tension to tensioncurve, which takes its absolute value, so the parameter has no effect (linesmoothed_atleast_refuted, for all inputs). The rest is proved; that the deformation can fail (None) is described by metapost_path, C89/C90."
  },
  {
   "property": "C165",
   "status": "partial",
   "theorems": [
    "engine_numbers",
    "texts_shown",
    "ipc_texts_shown",
    "written_lines",
    "wrong_text_refuted",
    "ipc_first_error_refuted",
    "lost_text_refuted"
   ],
   "note": "True with texipc (ipc_texts_shown), and without it as long as no call raised a TexResultError (texts_shown, for interpreters which ship out the pages they are asked for). False after an error which was caught: the next box shows the text which failed (wrong_text_refuted); with texipc an error in the first text makes all later ones fail (ipc_first_error_refuted); after an unexpected message at the end the boxes stay empty without further errors (lost_text_refuted)."
  },
  {
   "property": "C166",
   "status": "proved",
   "theorems": [
    "answer_checked",
    "end_checked",
    "pages_reported"
   ],
   "note": "end_checked is stated with the model's search_dvi; what this finds is shown by pages_reported."
  },
  {
   "property": "C168",
   "status": "partial",
   "theorems": [
    "graph_axes",
    "no_axis_refuted"
   ],
   "note": "Proved for all arguments; x=None (or y=None) alone does not switch the axis off but raises a KeyError (no_axis_refuted). graphxyz is not modelled here."
  },
  {
   "property": "C158",
   "status": "partial",
   "theorems": [
    "floats_read",
    "lengths_read",
    "percent_error",
    "path_read",
    "arc_angle_refuted",
    "point_refuted",
    "leading_space_refuted",
    "path_units_refuted"
   ],
   "note": "Proved for numbers that do not end with a point and texts that do not begin with white space; lists of lengths with the units px, pt, pc, mm, cm and in are read in points, and percentages without something to relate to are an error. Refuted: the rotation of an arc is scaled with the resolution like a length (30 degrees are read as 22.5); a number like 1. is not read to its end; white space before the first number of a list is an error; lengths in pt and pc in path data are cut within the unit."
  },
  {
   "property": "C163",
   "status": "partial",
   "theorems": [
    "cycloid_chain",
    "cycloid_halfloops",
    "cycloid_handles",
    "cycloid_end_refuted",
    "cycloid_mirror_refuted"
   ],
   "note": "proved, except that for an even number of half loops (the default is 10) the undeformed end is longer than skiplast by twice the radius times the sine of the angle (refuted), and that the handles on bent paths are scaled as if the sign was positive, so that the cycloid on the other side of the mirrored path is not the mirror image (refuted); an angle of 90 degrees, for which the code divides by a cosine that is zero but for rounding, and singular points of the path are not covered"
  },
  {
   "property": "C170",
   "status": "partial",
   "theorems": [
    "pos_multiple",
    "pos_coordinates",
    "pos_same_column_refuted"
   ],
   "note": "proved when no two axes take the values of the same column; with the same column for two axes all values are converted by the last of these axes and only this one is adjusted (refuted)"
  },
  {
   "property": "C171",
   "status": "partial",
   "theorems": [
    "curve_lengths_partial",
    "length_zero_refuted",
    "closed_half_refuted"
   ],
   "note": "Proved with an explicit bound of the error whenever the ends of every piece that is taken as straight differ and its bound of the length has no value with a double root below a simple root (a lemma shows that this is so when the middle leg of a piece is shorter than the geometric mean of the others). False otherwise: the curve (0,0),(2,0),(12,0),(54,0) gives the parameter -1/6 for the length 0, and a curve whose first half returns to its begin within epsilon raises a ZeroDivisionError."
  },
  {
   "property": "C167",
   "status": "partial",
   "theorems": [
    "late_preamble_refused",
    "restarted",
    "preambles_in_order",
    "refused_preamble_refuted"
   ],
   "note": "False in one case: a preamble which was refused by MultiEngine is executed after a restart (refused_preamble_refuted)."
  },
  {
   "property": "C169",
   "status": "partial",
   "theorems": [
    "axes_terminate",
    "axes_in_order",
    "axes_show_ranges",
    "one_positioner",
    "failed_layout_refuted",
    "linked_range_refuted"
   ],
   "note": "Order, uniqueness and termination proved for all worlds and all sequences of calls; the ranges agree if linked axes are painted and stay in one graph. False for axes linked between graphs (linked_range_refuted) and after exceptions (failed_layout_refuted). Bar axes and axes moved by xaxisat are left out."
  },
  {
   "property": "C173",
   "status": "partial",
   "theorems": [
    "subpath_lengths_partial",
    "path_lengths_partial"
   ],
   "note": "Proved for subpaths and paths of several subpaths, with lines between different points and curves for which parameters can be found (as in C171, where the other curves are refuted)."
  },
  {
   "property": "C56",
   "status": "partial",
   "theorems": [
    "parameters_ordered",
    "path_lengths_to_params",
    "path_params_to_lengths",
    "order_is_arc_length",
    "parameter_arithmetic",
    "last_subpath_short_refuted"
   ],
   "note": "Total order for all parameters; arc lengths exactly for paths of lines. If the last subpath is a single short line no parameter is found at the end of the path (finding). Curves and paths with curves are in C171, C172 and C173, with bounds of the errors; that the order of parameters is that of the computed lengths is missing for curves."
  },
  {
   "property": "C172",
   "status": "partial",
   "theorems": [
    "curve_arclens_partial",
    "subpath_arclens",
    "subpath_arclens_total",
    "path_arclens",
    "unordered_refuted"
   ],
   "note": "Curves: proved for parameters in increasing order, false for lists that are not in order: the lengths of segments that run backwards are added too (unordered_refuted), and also the total length is then wrong. Subpaths and paths of lines and curves: for one parameter, with the same bound for each item."
  },
  {
   "property": "C174",
   "status": "proved",
   "theorems": [
    "gradient_pixels",
    "gradient_fails_iff",
    "gradient_end_refuted"
   ],
   "note": "Real numbers for floats; the bytes of the colors are not part of this model. That the colors match the places is refuted (gradient_end_refuted)."
  },
  {
   "property": "C175",
   "status": "proved",
   "theorems": [
    "text_columns",
    "text_placed"
   ],
   "note": "Real numbers for floats; the selection of attributes and the typesetting are not part of this model."
  },
  {
   "property": "C176",
   "status": "proved",
   "theorems": [
    "grid_style_lines",
    "grid_no_attrs_refuted"
   ],
   "note": "Real numbers for floats; positions closer than epsilon outside the boundary are excluded as for lines (C99, line_leaves_graph_refuted). Attributes None are refuted (grid_no_attrs_refuted)."
  },
  {
   "property": "C177",
   "status": "proved",
   "theorems": [
    "fonts_loaded_once",
    "fonts_chosen",
    "encodings_chosen"
   ],
   "note": "The file system and the readers are parameters; a reader raising an EnvironmentError is not modelled."
  },
  {
   "property": "C178",
   "status": "proved",
   "theorems": [
    "kpsewhich_opens",
    "pykpathsea_opens"
   ],
   "note": "The program and the library are parameters; POSIX systems only (fix_cygwin)."
  },
  {
   "property": "C179",
   "status": "proved",
   "theorems": [
    "time_linear",
    "time_merged",
    "time_labelled"
   ],
   "note": "Datetimes are numbers of microseconds, the result is a rational number; strftime is a parameter; the construction of the axis is not modelled."
  }
 ]
}