# Verification of PyX: design

## Approach

The Python source in /repo is modelled function by function as total Gallina
functions (`*Model.v`), each definition citing file and lines.  Properties are
stated against small independent specifications (`*Spec` sections or plain
mathematics: real functions, integers, lists) in `*Props.v`; proofs live in
`*Proofs.v`.  Exceptions are modelled as values (`option`/`result`); Python
object identity is modelled where aliasing matters.

Floating point numbers are idealised as real numbers (`R` of the standard
library); rational ticks, attributes, registries, codecs, tokenizers and byte
streams are exact (`Z`, `Q`, `list`, `string`) and need no axioms.

## Trusted base

* The Coq 8.16.1 kernel.
* Axioms, as listed by `Print Assumptions` below each theorem: none for the
  discrete modules; for the modules over `R` the axioms of the standard
  library's reals: `ClassicalDedekindReals.sig_forall_dec`,
  `ClassicalDedekindReals.sig_not_dec` and
  `FunctionalExtensionality.functional_extensionality_dep` (and
  `Classical_Prop.classic` where the library's analysis uses it).
* The reading of the Python code into Gallina.



## Per property

**C01 Length arithmetic is linear and agrees with conversion.**  Modelled: UnitModel.v: unit.py length class as five real components, unit.set state, topt/tomm conversions.  Proof: linear algebra over R; conversion is a linear map.
  Status: proved.  Theorems: `length_arithmetic`, `length_comparison`.

**C02 True lengths ignore the global scales, the other kinds scale exactly with their own factor.**  Modelled: UnitModel.v: unit.set as state update of the scale record.  Proof: induction over the list of set calls.
  Status: proved.  Theorems: `scales_follow_history`, `kind_scales_alone`, `true_lengths_fixed`, `inch_in_units`.

**C03 Transformation product is composition.**  Modelled: TrafoModel.v: trafo.py matrix/vector products, modifiers.  Proof: ring identities over R.
  Status: proved.  Theorems: `product_composes`, `product_monoid`, `methods_follow`.

**C04 Inverse transformation really inverts.**  Modelled: TrafoModel.v: inverse with its determinant test.  Proof: field identities.
  Status: proved.  Theorems: `inverse_inverts`.

**C05 Rotation, scaling, slanting and translation have their documented geometric meaning.**  Modelled: TrafoModel.v: _rmatrix, scale, slant, translate with reference points.  Proof: trigonometric identities over R.
  Status: partial.  Everything but the reference point of slant_pt, which is not kept (finding).  Theorems: `rotate_is_rotation`, `rotate_lengths`, `rotate_isometry`, `rotations_add`, `scale_is_scaling`, `scale_lengths`, `translate_moves`, `apply_lengths`, `slant_pt_origin`, `slant_pt_reference_refuted`.

**C06 mirror(angle) mirrors at the line through the origin with the given direction.**  Modelled: TrafoModel.v: _mmatrix.  Proof: the documented meaning is refuted with mirror(45); the true meaning (mirror at the line of direction -angle) is proved.
  Status: partial.  mirror(angle) is the reflection at the line of direction -angle (finding).  Theorems: `mirror_reflects_negative`, `mirror_involution`, `mirror_line_refuted`.

**C07 slant keeps its reference point in every unit.**  Modelled: TrafoModel.v: slant/slant_pt with the unit conversion.  Proof: refuted for slant (reference converted twice), proved for slant_pt.
  Status: partial.  Holds at the origin only (finding).  Theorems: `slant_origin_partial`, `slant_reference_refuted`.

**C08 Matrices written to PS, PDF and SVG denote the transformation.**  Modelled: TrafoModel.v: the six numbers of outputPS/PDF/SVG.  Proof: compare with the row vector convention as independent interpreter.
  Status: proved.  Theorems: `written_matrices`.

**C09 Bounding box union is the least enclosing box.**  Modelled: BboxModel.v: bbox.py union/includepoint over option of four reals.  Proof: order theory on R.
  Status: proved.  Theorems: `additions_smallest`, `sum_algebra`, `sum_permutation`.

**C10 Transformed bounding box contains the image of the box.**  Modelled: BboxModel.v: transform via the four corners.  Proof: affine functions attain extrema at corners.
  Status: proved.  Theorems: `transformed_smallest`, `transform_inplace`.

**C11 Intersection of bounding boxes and the intersects test.**  Modelled: BboxModel.v: intersects and __mul__.  Proof: membership specification; disjoint case refuted.
  Status: partial.  The product of disjoint boxes is an inverted box, not the empty box (finding).  Theorems: `product_common_points`, `product_inplace`, `intersects_iff`, `disjoint_product_refuted`.

**C12 Low resolution tuple and enlargement enclose the box.**  Modelled: BboxModel.v: lowrestuple, enlarge.  Proof: floor/ceil facts.
  Status: proved.  Theorems: `lowres_smallest`, `enlarged_exact`, `enlarged_contains`, `box_measures`.

**C13 Exclusive attributes: the last one given wins and at most one survives.**  Modelled: AttrModel.v: attr.mergeattrs/checkattrs, exclusiveattr, sortbeforeattr, clearclass.  Proof: induction over the attribute list against a declarative survivor specification.
  Status: proved.  attr.mergeattrs and checkattrs; dynamic classes modelled as a class tag plus exclusion lists.  Theorems: `merge_survivors`, `survivors_exist_unique`, `merge_keeps_order`, `exclusive_last_wins`, `last_attr_present`, `check_accepts`, `check_names_first`.

**C14 Merging attributes is idempotent and incremental.**  Modelled: AttrModel.v.  Proof: same; refutation with the sort classes of text.py.
  Status: partial.  Holds for attribute lists whose sort constraints are transitively closed; refuted in general with the attribute classes of text.py.  Theorems: `merge_incremental`, `merge_idempotent`, `merge_idempotent_refuted`, `merge_sorted`, `merge_sorted_refuted`.

**C15 Changeable attributes select cyclically.**  Modelled: AttrModel.v: changelist, selectattrs.  Proof: list induction, modulo arithmetic.
  Status: proved.  Theorems: `changelist_selects_cyclically`, `changelist_noncyclic`, `multichange_by_total`, `selectattrs_in_order`.

**C16 Keyword splitting loses and invents nothing.**  Modelled: UtilsModel.v: kwsplit and merge_members_kwargs over association lists (PyDict.v).  Proof: loop invariant with Permutation.
  Status: proved.  Theorems: `kwsplit_partitions`, `kwsplit_placement`, `kwsplit_error_iff`, `merge_members_kwargs_last_wins`.

**C17 Returned polynomial roots are roots (degree up to two) and all real roots are returned.**  Modelled: MathutilsModel.v: realpolyroots for degree <= 2 including leading zero stripping.  Proof: field arithmetic over R.
  Status: proved.  Theorems: `roots_low_degree`, `roots_of_zero`, `roots_refused`.

**C18 Cubic roots are roots.**  Modelled: MathutilsModel.v: _realroots_cubic.  Proof: trigonometric/Cardano identities; degenerate branch refuted.
  Status: partial.  All cubics except those with a double root below the other root, where both returned values are wrong (finding).  Theorems: `cubic_roots_partial`, `cubic_double_root_refuted`.

**C19 Quartic roots are roots and all real roots are returned.**  Modelled: MathutilsModel.v: _realroots_quartic (Ferrari).  Proof: factorisation identities relative to the cubic resolvent.
  Status: partial.  All quartics except those with a real double root at which the cofactor is positive (finding).  Theorems: `quartic_roots_partial`, `quartic_double_root_refuted`.

**C20 Rational numbers parsed from strings have the written value.**  Modelled: TickModel.v: rational.initfromstring as parser over strings.  Proof: parser correctness against a grammar with Q values.
  Status: proved.  Strings without digits are accepted as zero (finding).  Theorems: `string_value_exact`, `string_accepted`, `string_without_digits_refuted`.

**C21 Comparison of rationals is the order of the numbers.**  Modelled: TickModel.v: rational comparison.  Proof: cross multiplication in Z; negative denominators refuted.
  Status: partial.  Proved for positive denominators, false otherwise (finding).  Theorems: `compare_partial`, `equality_exact`, `decimal_denominator`, `product_denominator`, `compare_refuted`.

**C22 Arithmetic of rationals is exact.**  Modelled: TickModel.v: multiplication, division, powers.  Proof: Q arithmetic.
  Status: partial.  Arithmetic is exact; in-place division and negative powers of zero are not reported (finding).  Theorems: `product_exact`, `quotient_exact`, `quotient_by_zero_reported`, `abs_exact`, `inplace_exact`, `power_exact`, `string_power_exact`, `inplace_division_by_zero_refuted`, `zero_power_refuted`, `copy_third_refuted`.

**C23 Merging tick lists keeps order and loses no tick.**  Modelled: TickModel.v: mergeticklists.  Proof: list invariant (sorted merge).
  Status: proved.  Positive denominators; tick objects of the first list are changed in place (finding).  Theorems: `merge_is_sorted`, `merge_positions`, `merge_attributes`, `merge_without_equal`, `merge_keeps_inputs_refuted`, `maxlevels_least`.

**C24 Linear partitions give exactly the multiples in the range.**  Modelled: parter.linear (levels, extendminmax, getticks, partfunction) and parter.autolinear, l.65-187, over the tick store of TickModel; tick distances are rationals, the range and epsilon are real numbers. ParterModel.v..  Proof: ParterProps.v, ParterProps2.v: ticks of a partition are exactly the multiples in the (stretched) range, sorted, with the first level they belong to; the k-th automatic partition has the distances of the k-th variant times the right power of ten..
  Status: proved.  Floats are real numbers; automatic_distances assumes that formatting a number of at most ten digits is exact.  Theorems: `linear_partition_exact`, `stretched_ends_are_ticks`, `automatic_distances`.

**C25 Logarithmic partitions give exactly the fraction times base powers in the range.**  Modelled: parter.logarithmic and parter.autologarithmic, l.190-336, with real logarithms. ParterModel.v..  Proof: ParterProps3.v: ticks are exactly the fractions times powers of the base in the stretched range, for positive and negative ranges; the stretched ends are the nearest positions outside; ranges with zero are refused; order of the automatic partitions..
  Status: proved.  Floats and logarithms are real numbers. Refuted: on negative ranges the flags extendmin and extendmax are exchanged.  Theorems: `log_partition_exact`, `log_zero_refused`, `log_fixed_end_refuted`, `variants_in_reverse`, `automatic_exponents`.

**C26 Axis conversion maps the range monotonically onto [0, 1].**  Modelled: _regularaxis.__init__ (limits), linear.convert, logarithmic.convert, axis.py l.77-81, 267-272, 308-320. AxisModel.v..  Proof: AxisProps.v: a value is converted to c exactly if it divides the range linearly (geometrically) at c; strict monotonicity; limits in falling order..
  Status: proved.  Floats and logarithms are real numbers.  Theorems: `linear_convert_exact`, `log_convert_exact`, `linear_axis_monotone`, `log_axis_monotone`, `limits_in_any_order`.

**C27 Axis range adjustment covers all data, in any order.**  Modelled: _regularaxis.createdata, adjustaxis and the range check of _create, l.91-107, 123-132. AxisModel.v..  Proof: AxisProps.v: invariant over all columns; the limits are the fixed ones or the extreme values seen; all data lies in [0, 1]..
  Status: proved.  Values are real numbers or no numbers; nan is not modelled.  Theorems: `axis_range_smallest`, `axis_range_order`, `data_inside_axis`.

**C28 Bar axis subaxes are disjoint, ordered and tile the unit interval.**  Modelled: bar.__init__ (distances), createdata, addsubaxis, adjustaxis, convert and the regions of create, l.378-485; createdata and adjustaxis of sized and autosized linear axes, l.533-567. AxisModel.v..  Proof: BarProps.v: invariant over all histories for names, ranges and the total size; explicit places of the regions by induction..
  Status: proved.  Subaxes are linear, sizedlinear and autosizedlinear axes; nested bar axes are not modelled.  Theorems: `bar_history`, `bar_regions`, `bar_convert_inside`.

**C29 Raters are optimal at the optimum and grow towards the sides.**  Modelled: cube, distance and rater.rateticks, rater.py l.39-194. AxisModel.v..  Proof: RaterProps.v: algebra on both sides of the optimum; average of deviations; counts of levels and bounds of the weighted mean..
  Status: proved.  Floats are real numbers; tick levels are taken to be non-negative.  Theorems: `cube_rate_exact`, `cube_rate_monotone`, `distance_rate_average`, `distance_rate_symmetric`, `rateticks_mean`.

**C30 Decimal labels denote exactly the tick value.**  Modelled: TexterModel.v: decimal.labels digit loop.  Proof: long division invariant, pigeonhole for termination.
  Status: partial.  Exact without thousandthpartsep; with it only for finite fractions without padding, false otherwise (finding).  Theorems: `decimal_labels_denote`, `decimal_labels_separated`, `decimal_ticks`, `period_separators_refuted`, `padding_separators_refuted`.

**C31 Exponential labels decompose the tick exactly.**  Modelled: TexterModel.v: default.labels mantissa/exponent loops.  Proof: loop invariant over positive rationals.
  Status: partial.  The decomposition is exact; labels are exact if the float formatting of the mantissas is, which it cannot always be (finding).  Theorems: `mantissa_exponent`, `default_labels_denote`, `mantissa_formatting_refuted`.

**C32 Rational labels are in lowest terms or share the least common denominator.**  Modelled: TexterModel.v: rational.labels gcd/lcm.  Proof: number theory on Z.
  Status: partial.  With equaldenom all ticks without label must have a label level (finding).  Theorems: `rational_labels_partial`, `equaldenom_fails_refuted`.

**C33 ASCII85 output decodes to the original data.**  Modelled: BitmapModel.v: ascii85stream loop with its list state.  Proof: groups of four; independent ASCII85 decoder.
  Status: proved.  Theorems: `ascii85_roundtrip`, `ascii85_charset`.

**C34 Announced number of ASCII85 lines is the number of lines written.**  Modelled: BitmapModel.v: ascii85lines, PSimagedata.output, inline data.  Proof: counting newlines; string arrays refuted.
  Status: partial.  Proved for single strings and inline data; false for string arrays (finding).  Theorems: `single_string_lines`, `inline_lines`, `array_lines_partial`, `array_lines_refuted`, `array_lines_default_refuted`, `asciihexstream_refuted`.

**C35 Image band splitting keeps the pixel data.**  Modelled: BitmapModel.v: split, imagedata alpha branches, PNG scan lines.  Proof: transposition of pixel lists.
  Status: proved.  Theorems: `split_join`, `split_components`, `imagedata_alpha_front`, `imagedata_alpha_back`, `imagedata_no_alpha`, `png_scanlines_roundtrip`.

**C36 Type 1 encryption and decryption are inverse.**  Modelled: T1codeModel.v: whole module.  Proof: induction, xor involution, modular arithmetic.
  Status: proved.  Theorems: `t1_roundtrip`, `t1_roundtrip_code`, `encoder_is_type1`, `t1_length`.

**C37 PDF objects get dense, unique object numbers and are never duplicated.**  Modelled: PdfModel.v: PDFregistry add/mergeregistry/write numbering.  Proof: invariant over operation lists.
  Status: proved.  references_resolve holds when a registry is not changed after having been merged (as PyX does); late_registration_refuted shows the hypothesis is needed.  Theorems: `registry_contents`, `references_resolve`, `merged_lists`, `late_registration_refuted`.

**C38 The PDF cross reference table is correct.**  Modelled: PdfModel.v: write loop with byte positions.  Proof: prefix sums of output lengths.
  Status: proved.  For files of less than 10^10 bytes, the limit of the format.  Theorems: `xref_table`.

**C39 PDF strings read back as the original text.**  Modelled: PdfModel.v: pdfstring.  Proof: independent PDF string parser.
  Status: partial.  Code points up to 255; wider ones are written wrongly (finding).  Theorems: `pdfstring_reads_back_partial`, `pdfstring_wide_refuted`.

**C40 Annotations appear on the page they were added to.**  Modelled: PdfModel.v: annotation registration on pages.  Proof: refuted (class level list); positive part for single pages.
  Status: partial.  The page's own annotations are included, but so are those of all other pages (finding).  Theorems: `page_annotations_partial`, `page_annotations_refuted`.

**C41 PostScript resources are emitted once, before their first dependants.**  Modelled: PsModel.v: PSregistry add/output.  Proof: invariant over operation lists.
  Status: proved.  Theorems: `ps_resources`, `ps_payload`.

**C42 Binary integers are decoded big-endian with the right sign.**  Modelled: ReaderModel.v: reader.readint and friends.  Proof: base 256 arithmetic.
  Status: partial.  All readers but readint24, which never returns negative numbers (finding).  Theorems: `readint_decodes`, `readint_total`, `fixed_size_readers`, `readint24_partial`, `readint24_refuted`, `readstring_field`, `readstring_too_long`.

**C43 PostScript tokenizer returns the tokens of the text.**  Modelled: ReaderModel.v: PStokenizer.  Proof: tokens against a declarative lexing.
  Status: partial.  Proved for text; the bytes variant does not skip comments, and a token at the end of the data is an IndexError (findings).  Theorems: `tokens_read_back`, `token_then_bytes`, `start_behind_first`, `start_separator`, `bytes_tokens_partial`, `bytes_comments_refuted`, `token_at_end_refuted`.

**C44 The bounding range of a Bezier polynomial is exact.**  Modelled: _bezierpolyrange with its roots computed by q/a and c/q (CurveModel.v).  Proof: the polynomial attains its extrema on [0,1] at the ends or at zeros of the derivative (stdlib deriv_minimum); every zero inside is q/a or c/q, unless the polynomial is constant; the candidates are parameters inside.
  Status: proved.  Theorems: `bezier_range_exact`.

**C45 The bounding box of an arc contains the arc and is tight.**  Modelled: _arcpoint and _arcbboxdata with cos, sin, pi of the real numbers (ArcModel.v).  Proof: a cosine on an interval without one of its maxima is largest at an end; the four sides are this statement for four phase shifts; periodicity for the angle increased by whole turns.
  Status: proved.  For radii which are not negative; for a negative radius the corners are exchanged (finding).  Theorems: `arc_bbox_smallest`, `arc_bbox_negative_refuted`.

**C46 Splitting a Bezier curve reproduces the curve.**  Modelled: _split at any parameter without the epsilon processing, segments of lines and curves for parameter lists (CurveModel.v).  Proof: ring identities for every point; induction over the list for neighbours.
  Status: proved.  Theorems: `item_points`, `split_traces`, `segments_trace`.

**C47 A curve lies in its control box.**  Modelled: bbox and cbox of lines and curves (CurveModel.v).  Proof: Bernstein weights are non-negative and sum to one; C44 per coordinate for the smallest box.
  Status: proved.  Theorems: `item_bbox_smallest`, `item_cbox_contains`.

**C48 Arc length computation terminates and is enclosed.**  Modelled: arclen_pt with the recursion of subcurve, upper or lower bound; recursion depth by fuel (CurveModel.v).  Proof: corner cutting never lengthens the control polygon, so every inscribed chain is bounded by it; the lower sum is an inscribed chain; second differences shrink by four per level while epsilon halves, so the recursion ends; existence of the length by completeness of the reals.
  Status: proved.  Theorems: `arclen_enclosed`, `line_arclen_exact`.

**C49 Arc length and parameter are inverse on polylines.**  Modelled: NormsubModel.v: normsubpath._arclentoparam_pt and _paramtoarclen_pt for lines..  Proof: Loop invariants relate both to the exact arc length function, which is strictly monotone..
  Status: proved.  Theorems: `arclen_to_param`, `param_to_arclen`, `arclen_roundtrip`, `arclen_monotone`.

**C50 Line intersections are sound and complete.**  Modelled: intersect of two lines including the nearly parallel branch and closepoint (CurveModel.v).  Proof: Cramer's rule; closepoint is the closest point of the segment; of two crossing nearly parallel long lines one end projects onto the other line within epsilon.
  Status: proved.  Completeness covers almost parallel lines as well; the case of this line shorter than epsilon is C51.  Theorems: `line_intersect_sound`, `line_intersect_complete`, `line_intersect_exact`.

**C51 Intersection of short lines uses their midpoints.**  Modelled: the short line branches of intersect, with the coordinate mix-up of l.228 (CurveModel.v).  Proof: closepoint lemmas; witness for the short first line.
  Status: partial.  Proved for a short second line; refuted for a short first line, whose middle is computed from the wrong coordinate (normpath.py:228).  Theorems: `short_other_middle_partial`, `short_self_middle_refuted`.

**C52 Subpaths stay contiguous.**  Modelled: NormsubModel.v: normsubpath.append, extend, flushskippedline, close, __init__, join..  Proof: Invariant `leads` (items contiguous, skipped line shorter than epsilon) kept by append through its recursion on the pieces of slow curves; stored curves are faster than epsilon since the minimum of the squared velocity is at an end or at a root of its derivative..
  Status: partial.  Contiguity, begin, end, closing and joining proved. Stored items are not shorter than epsilon except for curves where the cubic solver misses the slow point (finding); gaps below epsilon are stored as they are (finding). That the recursion for curves ends is not proved.  Theorems: `subpath_connected`, `contiguous_items_accepted`, `stored_items_long_partial`, `short_item_refuted`, `closed_subpath`, `gap_refuted`, `append_closed`, `append_closed_refuted`, `join_ends`, `join_skipped_refuted`, `path_join_ends`, `split_pieces_trace`.

**C53 Reversal is an involution and mirrors the parametrisation.**  Modelled: NormsubModel.v: normsubpath.reversed..  Proof: Fast contiguous items are stored unchanged by append; reversal mirrors the parameter item by item..
  Status: partial.  Proved for subpaths of items not shorter than epsilon; the skipped line is lost and closed subpaths without epsilon get an additional line (findings).  Theorems: `reversed_subpath`, `reversed_without_epsilon`, `reversed_skipped_refuted`, `reversed_closed_refuted`, `reversed_path`.

**C54 Transforming commutes with evaluating.**  Modelled: NormsubModel.v: normsubpath.transformed..  Proof: As C53; a transformation not shrinking distances keeps items fast..
  Status: partial.  Points commute for transformations not shrinking distances, end points for all; shrinking transformations change the parametrisation (finding).  Theorems: `transformed_subpath`, `transformed_ends`, `transformed_refuted`, `transformed_path`.

**C55 Queries with parameter lists are evaluated independently and in order.**  Modelled: NormsubModel.v: _distributeparams and the loops collecting the answers of the items..  Proof: Invariant of the dictionary of positions and parameters; every place is set exactly to the answer of its own parameter..
  Status: proved.  Theorems: `queries_independent`, `points_independent`, `point_unique`, `points_skipped`, `mixed_parameters`, `path_points_independent`.

**C56 Path parameters are totally ordered along the path.**  Modelled: `NormpathModel.v`: the comparisons of normpathparam incl. those of `total_ordering`, its arithmetic, `_arclentoparam_pt` and `_paramtoarclen_pt` for paths of lines..  Proof: The operators are shown to be one total order. Both conversions are related to the arc length function of `NormpathSpec.v`, which increases with the order; the arithmetic follows..
  Status: partial.  Total order for all parameters; arc lengths exactly for paths of lines. If the last subpath is a single short line no parameter is found at the end of the path (finding). Curves and paths with curves are in C171, C172 and C173, with bounds of the errors; that the order of parameters is that of the computed lengths is missing for curves.  Theorems: `parameters_ordered`, `path_lengths_to_params`, `path_params_to_lengths`, `order_is_arc_length`, `parameter_arithmetic`, `last_subpath_short_refuted`.

**C57 The cached normpath always reflects the current path.**  Modelled: PathNormModel.v: convert is the conversion with an epsilon, item by item, with normsubpaths as in NormsubModel.v; pathobj, get_normpath, act: a path with its cache..  Proof: Invariant: the cached normpath is the conversion of the current items; induction over histories..
  Status: proved.  For all histories of append, extend, +=, join and queries. Changing the default epsilon does not invalidate cached normpaths, and the normpath returned is the cached object itself (findings).  Theorems: `cache_transparent`, `cache_epsilon_refuted`, `cache_alias_refuted`.

**C58 PostScript and PDF output draw the same curve.**  Modelled: PathModel.v: path items, contexts, outputPS, returnSVGdata and the normpath with epsilon None created by outputPDF, which is written by normsubpath.outputPDF. PathSpec.v: an interpreter of the operators following the PostScript, PDF and SVG references..  Proof: Induction along the items with the state of the interpreter related to the context of the path and to the normsubpaths..
  Status: partial.  PDF: for paths in which closepath follows drawing and is followed by a move or an arc, with arcs (pdf_same_as_ps_arcs) but without tangent arcs; refuted otherwise. SVG: for all paths without arcs, and refuted for tangent arcs after closepath and after arcs. The PDF output is modelled with the epsilon None passed by outputPDF.  Theorems: `pdf_same_as_ps`, `pdf_same_as_ps_arcs`, `pdf_after_close_refuted`, `pdf_close_refuted`, `svg_same_as_ps`, `svg_arct_after_close_refuted`, `svg_arct_after_arc_refuted`.

**C59 Arcs begin and end on the circle with continuous pieces.**  Modelled: _arctobcurve and _arctobezierpath (ArcModel.v).  Proof: floor bounds for the number of pieces; squared radius of the curve as an explicit polynomial of t(1-t), bounded using cos(22.5 degrees).
  Status: proved.  Theorems: `arc_curves`, `arc_curve_tangents`, `arc_curves_close`.

**C60 Pages are centered and fitted.**  Modelled: PageModel.v: page._process up to the transformation of the canvas.  Proof: the transformation is computed and compared with the scaling around the centre of the paper.
  Status: proved.  Lengths in points. If the margins take exactly the whole paper there is no error but everything is scaled to a point, and boxes without width or height divide by zero (findings).  Theorems: `page_centered`, `page_fitted`, `page_turned`, `page_margin_error`, `page_no_room_refuted`, `page_flat_refuted`.

**C61 Canvas attributes act from left to right.**  Modelled: canvas.__init__ (canvas.py l.96-135): the loop over the attributes, which may be transformations, clip paths and styles..  Proof: By induction over the attribute list: the final transformation is the composition from left to right, the clip path is moved by exactly the later transformations..
  Status: proved.  A second clip path is refused.  Theorems: `attrs_left_to_right`, `single_clip_only`.

**C62 Graphics state operators are balanced and properly nested in every output.**  Modelled: canvas.processPS/processPDF/processSVG (canvas.py l.186-285), decoratedpath.processPS/processPDF/processSVG (deco.py l.131-375) and text selection of fonts (font.py l.571-600, l.700-740) as generators of operator lists. Independent interpreters for the three languages with a graphics state stack are in CanvasSpec.v..  Proof: By induction over the tree of canvases: running the operators written draws exactly the marks of the intended drawing and leaves stack and state as before..
  Status: partial.  Balance and the picture drawn are proved for PostScript, PDF and SVG on the canvases described in the theorems; refuted for text in unattributed sub-canvases (PS), for fill rules given with the filling only, for PDF operators inside path objects, and for several SVG cases (findings).  Theorems: `ps_draws`, `ps_draws_fonts`, `pdf_draws`, `pdf_draws_strict`, `svg_draws`, `formats_agree`, `ps_font_refuted`, `fillrule_refuted`, `pdf_strict_refuted`, `svg_order_refuted`, `svg_ornament_refuted`, `svg_opacity_refuted`, `svg_text_refuted`.

**C63 Layers are drawn exactly once and in the requested order.**  Modelled: canvas.layer, insert, clear (canvas.py l.157-160, 287-351), with the canvas after exceptions..  Proof: By induction over the dotted name: placement, permutation of drawings; invariant over all histories of successful calls..
  Status: partial.  Proved for histories of successful calls; a call that raises an exception can leave a layer out of the drawing (findings).  Theorems: `simple_layer_place`, `group_layer`, `layers_once`, `layer_keeps_drawings`, `layer_succeeds`, `layer_missing_refuted`, `layer_itself_refuted`.

**C64 Color conversions keep the color.**  Modelled: The conversions between gray, rgb, cmyk and hsb, color.py l.90-300, over the reals. ColorModel.v..  Proof: ColorProps.v: case distinctions on the sextant of the hue and on the minimum; field arithmetic..
  Status: proved.  The gray of cmyk colors with c+k>1 differs between the direct way and the way through rgb (finding).  Theorems: `conversions_total`, `rgb_hsb_rgb`, `hsb_rgb_hsb`, `rgb_cmyk_rgb`, `undercolor_removal`, `cmyk_rgb_cmyk`, `gray_and_back`, `gray_by_any_way`, `gray_of_cmyk_refuted`.

**C65 Hexadecimal color strings round-trip.**  Modelled: tohexstring, to8bitbytes, rgbfromhexstring and the constructors, color.py, with binary64 arithmetic (SpecFloat). HexModel.v..  Proof: HexProps.v: all 256 bytes are computed by the kernel, the rest by induction over the digits..
  Status: proved.  With IEEE binary64 arithmetic; the gray value of white is written as byte 254 (finding).  Theorems: `hexstring_roundtrip`, `hexstring_accepted`, `hexstring_normalised`, `white_gray_refuted`.

**C66 Data columns and line selection.**  Modelled: points, values, data, splitline with the default patterns, readfile of file and of conffile, splitatvalue; data.py l.30-39, 109-147, 155-226, 237-277, 289-318, 347-377. The conversion to floats and the evaluation of expressions are parameters. DataModel.v..  Proof: DataProps.v, DataProps2.v: loop invariants; counting of the multiples of every in a range; induction over the fields of a line and the options of a section..
  Status: partial.  The selection of lines is exact if skiptail is a multiple of every and refuted otherwise; config-like files work if the first section has all options.  Theorems: `points_table`, `points_accepted`, `file_accepted`, `file_rows`, `file_names`, `splitline_fields`, `data_columns`, `row_entries`, `row_numbers`, `conf_columns`, `splitatvalue_section`, `skiptail_refuted`, `column_name_refuted`, `empty_file_refuted`, `conf_new_option_refuted`.

**C67 Mesh coordinates are quantised within one step of the box.**  Modelled: MeshModel.v: check of the constructor, bounding box, coords24bit_pt, to8bitbytes, data and the entry Decode..  Proof: MeshSpec.v has a reader of shadings of type 4 as described for PDF; mesh_written shows that it gets back all nodes within one step and exactly at the limits, mesh_check that exactly the planar triangles of one color space are accepted, mesh_monotone that the order of coordinates is kept..
  Status: proved.  Floats are real numbers. Meshes without extent in one direction are accepted but raise a ZeroDivisionError when written (finding).  Theorems: `mesh_check`, `mesh_written`, `mesh_monotone`, `mesh_flat_refuted`.

**C68 Distance of a point to a polygon.**  Modelled: pointdistance_pt and boxdistance_pt, box.py l.202-244. BoxModel.v..  Proof: BoxProps.v: projection to an edge, convexity of the square of the distance; for two polygons without crossing edges the minimum is at a corner..
  Status: proved.  Edges are longer than 1e-5 or of length zero; the distance of two polygons and the detection of crossing edges are proved too.  Theorems: `point_distance`, `box_distance`, `box_crossing`.

**C69 SVG transform lists are applied in the SVG order with the SVG matrix layout.**  Modelled: SvgInModel.v: toTrafo.  Proof: composition of affine maps along the list; counterexamples for matrix and skew.
  Status: partial.  Proved for lists of translate, scale and rotate. False for matrix (rows and columns exchanged) and for matrix and skew that are not the last of a list (findings).  Theorems: `svg_trafo_composition`, `svg_trafo_empty`, `svg_matrix_transposed`, `svg_matrix_refuted`, `svg_skew_order_refuted`, `svg_matrix_order_refuted`.

**C70 SVG quadratic and smooth curves are converted exactly.**  Modelled: SvgInModel.v: toPath for all commands except arcs (C87) on the commands and numbers found by the regular expressions; PathNormModel.v for atend_pt.  Proof: invariant between the path items built and a state machine of the SVG specification (SvgInSpec.v); the end points of normpaths without any condition on lengths (PathEndProps.v).
  Status: partial.  Every path that is read draws what SVG defines, except for smooth cubic segments after quadratic ones and the reverse (findings); it is read if its pieces are not shorter than epsilon and none follows a closed subpath where the end point is asked for (finding).  Theorems: `svg_path_drawn`, `svg_path_read_right`, `svg_quadratic_curve`, `svg_elevated_curve`, `svg_smooth_after_quadratic_refuted`, `svg_smooth_after_cubic_refuted`, `svg_draw_after_close_refuted`.

**C71 DVI positions follow the DVI standard.**  Modelled: DviModel.v: DVIfile.readpage with flushtext, putchar, putrule, usefont, definefont, special, _push_dvistring and _pop_dvistring over byte lists; fonts are their size, widths and, if virtual, chunks; errors are failures.  Proof: simulation of the standard (DviSpec.v) by mutual induction over executions.
  Status: proved.  For every page without no operation commands and every execution of it by the standard (a relation over abstract commands with all byte encodings), the interpreter shows the same glyphs, rules and specials at the same places; virtual fonts recursively, provided that their first font has the number 0, there is no magnification and their chunks use neither set_rule nor registers they did not set. Each of these conditions is needed: the refuted theorems give pages which PyX shows differently.  Theorems: `dvi_page`, `font_size_consistent`, `magnification_refuted`, `dvi_nop_refuted`, `virtual_registers_refuted`, `virtual_first_font_refuted`, `virtual_setrule_refuted`.

**C72 TFM char info words are decoded field by field.**  Modelled: TfmModel.v: char_info_word and TFMfile.__init__ over byte lists.  Proof: each loop reads the words from its offset; offsets are added up along the file.
  Status: proved.  For header lengths of at least two words and counts that are not negative; that these are not checked is the refuted part (finding).  Theorems: `char_info_fields`, `face_letters`, `tfm_tables`, `tfm_accepts`, `tfm_short_header_refuted`.

**C73 Indexed color spaces announce the number of palette entries.**  Modelled: BitmapModel.v: palette size in Indexed color spaces.  Proof: integer arithmetic; gray and cmyk palettes refuted.
  Status: partial.  Right for rgb palettes, false for gray and cmyk palettes (finding).  Theorems: `palette_hival_rgb_partial`, `palette_hival_refuted`.

**C74 Frames along a path item follow point and tangent.**  Modelled: rotation and trafo of lines and curves, atan2 and degrees as real functions, the coordinate functions of curves (CurveModel.v).  Proof: cosine and sine of atan2 in all quadrants; derivatives of polynomials; uniqueness of derivatives.
  Status: proved.  Theorems: `item_trafo_frame`, `coordinate_derivatives`.

**C75 The curvature is the turning rate of the tangent.**  Modelled: curvature_pt (CurveModel.v).  Proof: derivative of the normalised tangent by quotient and chain rule.
  Status: proved.  Theorems: `curvature_frenet`.

**C76 Segments run between the points of their parameters.**  Modelled: NormsubModel.v: normsubpath.segments.  Proof: Loop invariant: finished segments run from point to point, the open one leads from the last point to the begin of the collected parameters. SegmentProps.v: each part is the extension of the empty subpath by the pieces on the way; pieces which are points are skipped and change nothing, and the linked pieces give the monotone function.
  Status: partial.  Proved except for closed subpaths cut from one end to the other, where the single segment is doubled (finding). A part of a subpath has exactly the points of the subpath between the two parameters, in order, forwards or backwards (segments_points; the pieces of the items between have to be single points or to have a velocity of at least epsilon). Splitting a whole path gives pieces through the points at the parameters (path_split_runs), along the subpaths in between, forwards or backwards (path_split_route); a skipped line at the end is lost (finding).  Theorems: `segments_ends`, `segments_points`, `segments_closed_refuted`, `path_split_runs`, `path_split_route`, `split_skipped_refuted`.

**C77 The bounding box of a subpath is the smallest one.**  Modelled: NormsubModel.v: normsubpath.bbox..  Proof: Induction with the smallest boxes of the items and of sums..
  Status: proved.  Theorems: `subpath_bbox_smallest`, `path_bbox_smallest`.

**C78 The best partition of an axis is chosen.**  Modelled: The search for variants and the choice among them in _regularaxis._create, axis.py l.191-239, with the truth value of a canvas (canvas.py l.151-152). AxisModel.v..  Proof: AxisProps2.v: the list stays sorted, with rates either of the ticks or complete; the number of variants without layout falls..
  Status: proved.  For painters which draw something; refuted for painters which draw nothing, where the loop never ends.  Theorems: `best_partition_chosen`, `best_partition_refuted`, `partition_search`, `search_finds_least`.

**C79 A divisor scales each tick of a layout once.**  Modelled: The scaling in the layout function, axis.py l.144-146, on a store of tick objects. AxisModel.v..  Proof: RaterProps.v: induction on the ticks; counterexample with mergeticklists..
  Status: proved.  For one layout; refuted for manual ticks, which are shared by all partitions laid out and are scaled once for each of them.  Theorems: `divisor_scales_once`, `manual_ticks_scaled_refuted`.

**C80 The bounding box of a canvas contains everything drawn.**  Modelled: canvas.bbox and the bounding box updates of the process methods (canvas.py l.162-180, 186-285)..  Proof: By induction over the tree with the box theorems of C10 and C11..
  Status: proved.  Containment; not tightness, which is refuted for sub-canvases clipped away completely.  Theorems: `canvas_bbox_contains`, `canvas_bbox_clipped`, `process_bbox_adds`, `canvas_bbox_tight_refuted`.

**C81 Excluded ranges of a decorated path are merged exactly.**  Modelled: decoratedpath.excluderange and strokepath (deco.py l.72-123) over the reals for a single open subpath..  Proof: By induction over the list of ranges..
  Status: proved.  For open paths of one subpath; closed paths are an open remark in the code (deco.py l.115).  Theorems: `excluded_union`, `kept_complement`.

**C82 Convex polygons are aligned at lines and put in rows without overlap.**  Modelled: linealignlinevector_pt, linealignpointvector_pt, alignvector_pt, extent_pt and tile_pt, box.py l.104-123, 139-156, 188-197, 279-290. BoxModel.v..  Proof: BoxAlign.v: a convex polygon has its lowest corner where the heights along the boundary change from falling to rising; the loops find this corner or edge..
  Status: proved.  For counter clockwise polygons and unit directions; both conditions are needed (findings). Alignment at circles is not modelled.  Theorems: `align_convex`, `extent_width`, `tile_gap`, `clockwise_refuted`, `tile_direction_refuted`.

**C83 Arcs in SVG output are the arcs of the path.**  Modelled: PathModel.v: svg_pieces, item_svg: the pieces in which an arc is written, flags and end points..  Proof: The pieces are shown to be arcs in the sense of the SVG reference, meeting at the angles in between..
  Status: proved.  With the y axis inverted, as svgwriter does; without it the sweep flag is wrong (finding). Arcs going backward by whole turns are drawn as a full circle while PostScript draws none (finding).  Theorems: `svg_arc_written`, `svg_arcn_written`, `svg_arc_upright_refuted`, `arc_backward_refuted`.

**C84 Tangent arcs touch both lines.**  Modelled: PathModel.v: arct_pathitems with atan2 and tan as real functions..  Proof: Half angle formulas; the centre is shown to be perpendicular above both tangent points..
  Status: proved.  Coincident points raise a ZeroDivisionError (finding); the case of points on a line with the direction reversed is left out as tan is evaluated next to its pole.  Theorems: `arct_tangent`, `arct_collinear`, `arct_coincident_refuted`.

**C85 The bounding box of a path is the smallest rectangle around it.**  Modelled: PathModel.v: createbbox, updatebbox for all items..  Proof: Induction along the items; the boxes of curves (C44) and arcs (C45) are the smallest ones..
  Status: proved.  Radii are not negative; arct is not covered.  Theorems: `pathitems_bbox_smallest`.

**C86 Paths are converted to normpaths exactly and back.**  Modelled: PathNormModel.v: convert, nsp_pathitems, np_pathitems..  Proof: The interpreter of PathSpec.v runs side by side with the conversion; the way back is shown to append the same items again..
  Status: proved.  For items at least as long as epsilon; what append does with shorter ones is C52. For any lengths the subpaths, whether they are closed and their end points are right (normpath_subpaths, path_end_point). Lines and curves after closepath are refused, and short ends are lost on the way back (findings).  Theorems: `normpath_of_path`, `normpath_after_close_refuted`, `normpath_roundtrip`, `roundtrip_skipped_refuted`, `arc_as_curves`, `arc_after_close`, `normpath_subpaths`, `path_end_point`.

**C87 SVG elliptic arcs are drawn as SVG defines them.**  Modelled: SvgInModel.v: endpointarc with its center parametrisation; the arc itself by ArcModel.v, PathNormModel.v and NormsubModel.v.  Proof: the parametrisation is solved explicitly; the flags by the sign of the sine of the swept angle; minimality of the scaling by the largest chord of the unit circle; the curves are fast enough to be stored unchanged (arc_curves_speed).
  Status: proved.  svg_arc_drawn asks that the arc of the unit circle and of the ellipse is not shorter than epsilon; svg_arc_ends needs no such condition. Equal end points divide by zero (finding).  Theorems: `svg_arc_center`, `svg_arc_trafo`, `svg_arc_ends`, `svg_arc_drawn`, `svg_arc_equal_ends_refuted`, `arc_curves_speed`.

**C88 TFM lengths are scaled exactly as TeX does it.**  Modelled: TfmModel.v: _convert_tfm_to_dvi.  Proof: nested floors are combined to one; the number of halvings is the same in both programs.
  Status: proved.  z is the rounded font size in DVI units.  Theorems: `tfm_scaled_as_tex`, `tfm_scaled_close`, `tfm_char_sizes`.

**C89 MetaPost: angles and control points are those of Hobby's algorithm.**  Modelled: MpModel.v: mp_make_choices, mp_solve_choices, mp_set_controls, mp_velocity, mp_curl_ratio over real numbers; knots are numbered, with their attributes in a heap; None is an exception.  Proof: the linear systems are shown to have nonzero pivots (diagonal dominance) and their solutions to satisfy the equations of mock curvature; the runs between breakpoints are put together by an invariant.
  Status: proved.  choices_are_hobbys: for all proper knots (what the classes of path.py make, with tensions of at least 3/4 and curls not below 0) the angles satisfy all conditions and the control points follow from them; it returns None exactly for a segment with both angles 180 degrees. The velocities are positive, so smooth knots are smooth. choices_exist_refuted: the division by zero for two angles of 180 degrees, where MetaPost has the velocity 4. reduce_angle_range_partial: angles within three half turns get into one turn around zero, which covers all arguments arising from differences of two angles of atan2; reduce_angle_range_refuted: larger ones are only reduced by one turn.  Theorems: `choices_are_hobbys`, `velocity_positive`, `smooth_knots_smooth`, `at_least_within_triangle`, `choices_exist_refuted`, `reduce_angle_range_partial`, `reduce_angle_range_refuted`.

**C90 MetaPost: the path goes through all knots as the links say.**  Modelled: MpModel.v: the knots and links of path.py and path.__init__.  Proof: closed form of the heap after the links were handled; then the result of C89.
  Status: partial.  metapost_path: for sensible elements (lines only between knots which are not smooth, without keepangles) the items are exactly those the links say. The other cases are partly wrong in the code, see the refuted theorems; missing: lines with keepangles between curves with tension, where the code is right.  Theorems: `elements_understood`, `metapost_path`, `closing_line_refuted`, `smooth_before_line_refuted`, `smooth_behind_line_refuted`, `controls_before_line_refuted`, `keepangles_at_end_refuted`, `tensions_given`.

**C91 Charstrings of Type 1 fonts survive decoding and encoding.**  Modelled: T1Model: cmds_loop/plain_cmds and tok_bytes/plain_code are the loops of T1File._cmds and _code; charstringdecode/-encode use T1codeModel..  Proof: T1CodeStringProps: read_tok (each token is read back from its bytes followed by anything) by the four ranges of numbers, then induction over the list, and t1_roundtrip for the encryption. numbers_are_type1 is stated with an own definition of the standard's number formats; commands_are_type1 with the standard's table..
  Status: partial.  Round trip for all lists of commands and numbers v with -2^31 < v < 2^31 and lenIV <= 4; all numbers are written in the standard's shortest form. False for v = -2^31 (read as 2^31) and for lenIV > 4 (only four bytes are put before the commands).  Theorems: `charstring_roundtrip_partial`, `numbers_are_type1`, `commands_are_type1`, `read_then_written`, `least_number_refuted`, `long_lenIV_refuted`.

**C92 The path of a Type 1 glyph is what its charstring draws.**  Modelled: T1Model: update is the method updatepath of all 25 commands and of T1File (stack as list, popped from the bottom or the top as in the code); points are integers, the transformation is a parameter with apply (shift t dx dy) x y = apply t (x+dx) (y+dy), which trafo_shift shows for TrafoModel. T1Spec: the standard as an inductive relation exec on states with stack, current point, flex state and drawn subpaths..  Proof: T1Proofs: simulation exec_ok by induction on exec; the relation says that the stacks agree, that the items painted so far are the drawn ones, and that within a flex the PostScript stack holds its points. update_S: fuel does not matter..
  Status: partial.  For all fonts and valid charstrings (an inductive semantics of the standard): the path draws exactly what the charstring draws. Missing, because false in the code: the width of composite glyphs, accents of composite glyphs with a left side bearing, quotients which are not integers.  Theorems: `glyph_drawn_partial`, `trafo_shift`, `composite_width_refuted`, `composite_bearing_refuted`, `div_refuted`.

**C93 Stripping a Type 1 font keeps what the kept glyphs draw.**  Modelled: T1Model: gather is gathercalls of all commands, selected and stripped are getstrippedfont and getdata2 on the level of commands (unused subroutines become return, the first four are kept together if they are the standard's)..  Proof: T1Proofs2: gather_ok by induction on exec: the stack of gather is some rest followed by the real stack; every subroutine and glyph which exec uses is collected, thus any font which keeps these executes the same (keeps). stripped_keeps shows that the stripped font does..
  Status: proved.  On the level of charstring commands; the text of the PFA/PFB file around them is not modelled.  Theorems: `stripped_draws_same`, `stripped_paths_same`, `flex_subrs_kept`.

**C94 Removing strings and patterns from the TeX output.**  Modelled: TexMsgModel: remove_string (str.replace with count 1), remove_pattern with the loop which counts newlines before and within the match; p.search is a parameter which returns the span of the match and its groups..  Proof: remove_string_first: decomposition around the first occurrence. remove_pattern_ok: the counting loop is followed by induction over the string in three phases (before, within, and behind the match)..
  Status: proved.  remove_pattern for any search function (the regular expressions of the parsers are instances).  Theorems: `remove_string_first`, `remove_pattern_ok`.

**C95 Escaped strings typeset the string itself.**  Modelled: TexMsgModel: escapestring as the loop over an index into the changing string, with the default replacements..  Proof: escape_typeset: the loop equals a map over the characters; an independent interpreter for the produced input (typeset) returns the string..
  Status: proved.  Against a small interpreter for the part of TeX which the replacements use (control symbols, \string, math with four symbols, ties).  Theorems: `escape_typeset`.

**C96 Nested brackets are removed.**  Modelled: TexMsgModel: index_all, pairwise, the filtering of positions by quotes, sorting of positions in reverse order, and the loop which cuts the string from its end..  Proof: TexBracketProps: a scanner from left to right says which brackets count; the filtered positions are those of the scanner (strong induction over the string); the sorted list is the reversed list of events (uniqueness of sorted permutations); the loop keeps as an invariant which parts of the rest have been cut..
  Status: proved.  Theorems: `nested_brackets_removed`.

**C97 File loading messages.**  Modelled: TexMsgModel: the four patterns as matchers (greedy and lazy repetitions are determined by the excluded characters), re.search as the first place with a match, load, load_def, load_graphics; os.path.isfile is a parameter..  Proof: TexLoadProps: the loop removes one match at a time and ends (the string gets shorter); shape lemmas say what each pattern matches; for balanced messages the result of remove_nested_brackets is computed by C96, and the loop by induction over the messages..
  Status: partial.  load and load_def are proved. load_graphics is false: its loop goes on with the pattern of load, so that a second graphics file is not removed (refuted by a witness).  Theorems: `load_removes_files`, `load_messages_removed`, `load_def_removes_files`, `load_graphics_refuted`.

**C98 The output of each TeX job is read completely.**  Modelled: TexMonitorModel: run, expect, wait, done, read and the calls in _execute as steps of a transition system; the interpreter prints given lines for each job after its input is written..  Proof: TexMonitorProps: an inductive invariant over all steps of all actors, a measure which decreases with each step, and a progress lemma..
  Status: proved.  A transition system with atomic queue and event operations; time-outs may happen at any time. The normalisation of newlines in read and interrupted system calls are not part of it.  Theorems: `monitor_reads_outputs`, `monitor_ends`, `monitor_not_raised`.

**C99 Lines in graphs are cut exactly at the boundary of the graph.**  Modelled: GraphLineModel.v: class _line (initpointstopath, addpointstopath, addpoint, donepointstopath), the availability and validity of positions of pos.drawpoint, and the order of calls of the line style. Positions are lists of reals of any length; the conversion of data by the axes and graph.vpos_pt are parameters..  Proof: GraphLineProps.v: clip says which part of a line between two points is in the graph (for all t in [0, 1], the point at t is in the graph exactly if t0 <= t <= t1; when nothing is drawn at most a single point is in the graph), lines joins the parts. line_is_clipped shows by induction over the points that the path is the one of lines with correct cuts; line_stays_inside follows. line_ex is an example with lines which leave, enter, and cross a corner..
  Status: partial.  Proved for points of which no coordinate is outside of the graph by at most epsilon. Without this condition it is false: line_leaves_graph_refuted gives, for every epsilon > 0, three points for which the line is drawn to a point a quarter of the height of the graph below it.  Theorems: `line_is_clipped`, `line_stays_inside`, `line_leaves_graph_refuted`.

**C100 Three dimensional projections show what the viewer sees.**  Modelled: central and parallel (graph.py l.687-765) and vpos_pt, vzindex, vangle, vgeodesic of graphxyz in Graph3dModel.v, with real numbers for floats.  Proof: the determinants are shown to be scalar products with the basis of the page (point_central, image_central); the order by zindex follows from the viewing ray being a line through the eye.
  Status: proved.  Both projectors; angles are those after multiplication with anglefactor. The degenerate viewing angles are included. Points behind the viewer are excluded (the code draws them mirrored).  Theorems: `seen_in_same_direction`, `zindex_order`, `geodesic_image`, `angle_orientation`.

**C101 Axes and planes of three dimensional graphs are at the right sides.**  Modelled: show of the planes, positions, hidden and tick directions of the twelve axes in Graph3dModel.v.  Proof: the sign of the angle at one corner is that of the scalar product of the outward normal with the direction to the eye, which is the same for all points of the plane; a point of a hidden side is covered by the point of the box a small step towards the viewer.
  Status: partial.  Proved for the case xy12axesat=None (the model's value 0). With xy12axesat the tick directions of the first x and y axes are refuted: they start at the bottom of the graph and end at the height of the axis.  Theorems: `plane_faces`, `plane_visible`, `axis_visible`, `axes_order`, `tick_directions`, `tick_directions_xy12axesat_refuted`.

**C102 Bars are filled from the begin to the value.**  Modelled: barpos, stackedbarpos and bar.drawpoint of style.py in GraphBarModel.v; the conversion of the axes is a parameter which may fail.  Proof: the clipping is compared with membership of a position; the stacked values by induction over the sequence of stacked styles; the filled path by the half planes of its edges.
  Status: partial.  Refuted for one part: stackedbarpos determines the flag vposvalid again only if it was false before, so a stacked position outside of the graph is still marked as valid. All other parts are proved.  Theorems: `bar_rectangle`, `subvalue_innermost`, `bar_begin`, `bar_ends`, `bar_valid`, `stacked_bars`, `stacked_valid_again`, `stacked_valid_refuted`.

**C103 Bars of three dimensional graphs are drawn as solid boxes from back to front.**  Modelled: planes, angles, zindex and the stable sort of bar.drawpoint and donedrawpoints in GraphBarModel.v, on the projections of Graph3dModel.v.  Proof: sides by the sign of the angle (as for C101); the order dimension by dimension: a point in between the eye and another point belongs to the bar whose middle is nearer.
  Status: proved.  Sides narrower than epsilon are left out by the code and excluded by the hypothesis wide_side. The colors (lighting) are not modelled.  Theorems: `bar_sides`, `bars_back_to_front`.

**C104 Images are placed the same in all output formats.**  Modelled: pstrafo, the output of the matrices, bbox, the sizes of bitmap_pt, the dpi of jpegimage and the naming of PDF images in ImagePlaceModel.v; sha1 and the compression are parameters.  Proof: positions by the inverse transformation; images by an invariant of the registry: each name belongs to the first image with these color data.
  Status: partial.  Positions, bounding box and sizes are proved. Refuted in two parts: the vertical resolution of JPEG files given per centimetre is multiplied by 2.45 instead of 2.54, and images in PDF files with equal color data but different size, mode or alpha channel are shown as the first of them. Matrices are real numbers (the output with six digits is not modelled).  Theorems: `image_same_place`, `image_within_bbox`, `image_size`, `jpeg_dpi_horizontal`, `jpeg_dpi_refuted`, `image_shown`, `image_shown_refuted`.

**C105 Density graphs show each point of the data where it is.**  Modelled: GridModel.v: gridpos.drawpoint with its epsilon comparison, density.drawpoint, and donedrawpoints (sorting, the check for equidistant values, pixels, alpha, bytes and the transformation); the checks of the third dimension and of the fourth corner, and clipping at the graph, are not modelled..  Proof: Induction over the data with the history of keys and colors (trace); a pixel is the newest key, which under the clustering of the coordinates is the last point there.  The position is a calculation with the PDF placement of images of C104..
  Status: partial.  false when points without a position are in the data: density_shows_refuted (the color of the point before is overwritten) and density_first_refuted (AttributeError if it is the first point)  Theorems: `grid_values`, `density_shows`, `density_shows_refuted`, `density_first_refuted`, `grid_sorted`, `density_pixels`, `density_bytes`, `density_position`.

**C106 Surfaces are drawn from the back to the front and with the right sides.**  Modelled: SurfaceModel.v: surface.donedrawpoints without grid lines (gridcolor None): reversal of the values, sortElements, cells with their checks, triangles, and the backcolor decision.  Gradient colors and lighting are not modelled, nor are the elements of grid lines..  Proof: A point which covers another one is on the side of the viewer in each direction (covers_side), against the order of the ranges; for the triangles of a cell the inequalities of the diagonals are compared with the values which are sorted.  The sides follow from the components of the normals..
  Status: partial.  the order of the cells is right if the viewer is not between the planes at the ends of the two grid directions (surface_cells_order), the order of the triangles of a cell is right in parallel projections with square cells (surface_order); both are false otherwise (surface_cells_order_refuted, surface_order_refuted)  Theorems: `surface_complete`, `surface_cells_order`, `surface_order`, `surface_back`, `surface_order_refuted`, `surface_cells_order_refuted`.

**C107 Two dimensional graphs place points, axes and the key graph consistently.**  Modelled: Graph2dModel: sizes, vpos, vgeodesic, vcap, grid paths, lineaxispos_pt, the positioners of all axes by recursion on their number (extents arbitrary), axisatv, autokeygraphtrafo, graphx, and which axis method each method of the graph is..  Proof: All positioners are brought to a normal form (side, offset) by induction on the number of the axis; everything else follows by real arithmetic..
  Status: partial.  Proved for coordinates, paths, caps, positions, directions and grid lines of all axes, their distances, and the key graph. False of the code: xvtickpoint and yvtickpoint, tick points of axes moved by xaxisat/yaxisat, grids of vertical graphx, axis names like x0 and x02. The painting of axes (their extent) is arbitrary.  Theorems: `graph_ratio`, `graph_area`, `graph_flipped`, `graph_geodesic`, `graph_cap`, `graph_axis`, `graph_axes_apart`, `graph_axis_defined`, `graph_axisat`, `graph_tickpoint`, `graph_basepath`, `graph_autokey`, `graphx_positions`, `graph_axis_names_partial`, `graph_axis_names_refuted`, `graph_axisat_methods_refuted`, `graph_vtickpoint_refuted`, `graphx_grid_refuted`.

**C108 Keys are laid out without overlaps and placed as requested.**  Modelled: KeyModel: names of positions, parentchildalign, the split into columns and their translations, genericalignequal_pt, paintcolumn on top of the polygons and tile_pt of BoxModel..  Proof: Arithmetic for the place; induction on the loop for columns; the alignment theorems of C82 (align_convex, tile_gap, extent_width) for titles..
  Status: partial.  Titles are apart if they have the same upper edge, and columns if they begin at the same position; both are false otherwise. The texts, the symbols and the frame are not modelled.  Theorems: `key_inside`, `key_outside`, `key_position_names`, `key_columns_spec`, `key_columns_apart`, `key_symbols`, `key_titles_right`, `key_titles_apart`, `key_columns_apart_refuted`, `key_titles_apart_refuted`.

**C109 A graph does each step once, in order, and with the right styles and points.**  Modelled: PlotModel.v: the loop which adds default providers with the tables of all styles, the counters of dostyles, the rows given to drawpoint, and a state machine of graph with did, plot, doranges, dolayout, dobackground, dostyles, doaxes, doplotitem, doplot, dokeyitem, dokey, finish, with a log of what is done. What the styles do is not part of this model..  Proof: Induction over the passes with the list of provided names; for the steps an invariant which relates the completed calls to the number of events in the log, kept by every method also while other methods are being executed..
  Status: partial.  All parts are proved except two: default providers can be added twice (styles_added_twice_refuted), and the key shows the titled items if all data is plotted before the key is done (key_shows_titles_partial); a key done before is empty for ever although further data is accepted (key_shows_titles_refuted).  Theorems: `styles_resolved`, `styles_terminate`, `styles_known`, `styles_added_twice_refuted`, `styles_selected`, `points_drawn`, `graph_steps_once`, `key_shows_titles_partial`, `key_shows_titles_refuted`, `plot_refused`.

**C110 A page has the same content in all output formats.**  Modelled: FinishModel.v: items as trees of leaves, canvases and graphs with what finish adds; which leaves are written by each format; what bbox leaves behind; page._process. Items which are inserted at several places are not modelled..  Proof: Structural induction on the trees; shows is an inductive predicate independent of the formats..
  Status: partial.  Proved for pages without a bbox given, and for PostScript and PDF in general. False for SVG output of pages with a bbox: graphs have no processSVG and are written without what finish would add (page_content_svg says exactly when).  Theorems: `page_content_same`, `page_content_bbox`, `page_content_svg`, `page_content_again`, `page_content_svg_refuted`.

**C111 Connectors go as their angles, bulges and lengths say.**  Modelled: ConnectorModel.v: the shapes before cutting (line, arc with its center and angles, curve, twolines with all combinations of arguments) over real numbers, and cutting as operations on the range of the parameters with the intersections as a parameter (their computation is modelled in C50-C51). The errors of math.sqrt, math.acos and division by zero are excluded by hypotheses..  Proof: Trigonometric identities (law of sines and cosines) by ring and nsatz; sorted lists of intersections by induction..
  Status: partial.  Proved for all connectors whose data describes a triangle. False in three places: the default curve is S-shaped and not like the default arc, two angles at different sides give lines with another angle instead of an error, and shortening at the begin raises an IndexError if the circle does not meet the connector.  Theorems: `arc_connector`, `arc_angle`, `curve_connector`, `default_curve_refuted`, `twolines_count`, `twolines_two_angles`, `twolines_angle_middle1`, `twolines_angle_middle2`, `twolines_two_sides_refuted`, `twolines_two_lengths`, `twolines_same_end`, `twolines_other_end`, `twolines_middle_length`, `omitends_part`, `shorten_begin_refuted`, `shorten_begin_part`.

**C112 Columns of ranges give the range which is drawn and the range of the axis.**  Modelled: RangeModel.v: the bit masks, columnnames of range with its lists of columns, missing indices and masks, drawpoint with the shifted indices, adjustaxis with its state, each as in the code..  Proof: The sum of the masks is a number of six digits whose digits are the columns present; the bits are computed for all 64 cases. Indices and adjustments by induction over the dimensions and the columns..
  Status: proved.  Values are arbitrary; subtraction, addition and conversion by the axis are parameters which may fail.  Theorems: `range_columns`, `range_positions`, `range_adjusts`.

**C113 Error bars, rectangles, arrows and impulses show what the data says, within the graph.**  Modelled: PointStyleModel.v: drawpoint of the styles on positions in graph coordinates; geodesics are given by their ends..  Proof: Case analysis with linear arithmetic; the strokes of all dimensions by membership in the list..
  Status: partial.  False in the rest: error bars on reversed axes vanish when the lower value is outside of the graph, rectangles larger than the graph are only cut at one side.  Theorems: `errorbars_drawn_partial`, `errorbar_visible`, `errorbar_reversed_refuted`, `rect_clipped_partial`, `rect_leaves_graph_refuted`, `arrow_drawn`, `impulses_drawn`.

**C114 Symbols of the same size have the same area and are centered.**  Modelled: PointStyleModel.v: the corners, lines and the radius as in the code, with the decimal constants..  Proof: Linear arithmetic after bounding PI by the Machin formula of the standard library and the square root of 3..
  Status: proved.  The area of polygons by the shoelace formula.  Theorems: `symbol_areas`, `symbols_centered`, `symbol_lengths`.

**C115 Histograms draw the visible part of their bars or steps.**  Modelled: HistogramModel.v: vmoveto, vposline, vvalueline, drawvalue with its state, fillable rectangles, automatic ranges, each as in the code, in coordinates of position and value..  Proof: Each primitive is shown to draw just the visible part of its line; induction on the bars with the side of the last bar still owed. The current point and the state of subpaths for filling by the same induction..
  Status: proved.  With fromvalue given or, for paths without filling, None.  Theorems: `histogram_draws_bars`, `histogram_draws_steps`, `histogram_connected`, `histogram_inside`, `filled_steps_closed`, `filled_bars`, `auto_histogram`.

**C116 EPS files are read line by line exactly.**  Modelled: EpsModel.v: the buffer and the unread part of the file as two lists; readline with the loop over blocks..  Proof: Induction on the unread bytes: the line is the shortest beginning of buffer and file that ends a line, whichever blocks were read..
  Status: proved.  For the calls with a count, as the code makes them; read without count would set the buffer to a text.  Theorems: `lines_read`, `lines_same`, `bytes_read`.

**C117 EPS files are placed by their bounding box.**  Modelled: EpsModel.v: _readbbox with bytes methods (startswith, split, int) on lists of characters; epsfile.__init__ with real numbers and the transformations of TrafoModel..  Proof: Induction on header lines; words separated by white space are found by induction; the box by case analysis of the given sizes and alignments and field arithmetic..
  Status: partial.  Proved for bounding boxes in the header, and for the placement. Files with (atend) are refused by the code (refuted).  Theorems: `bbox_first`, `bbox_found`, `bbox_at_end_refuted`, `eps_placed`.

**C118 JPEG files are taken over from begin to end.**  Modelled: JpegModel.v: the loop over positions as a scan of the list with nesting level; the file as tree of segments and embedded images is the specification..  Proof: Induction on the well-formed tree for any remaining bytes; the witness for truncation by computation..
  Status: partial.  Proved for files whose other segments contain no byte pair that looks like a marker known to the code; false otherwise, as the code searches tables for markers: a quantization table with the values 255 217 truncates the image (refuted). Segments JFXX are excluded, since any APP0 segment is taken for JFIF.  Theorems: `jpeg_read_partial`, `jpeg_cut_refuted`.

**C119 PNG files can be read back.**  Modelled: JpegModel.v: the chunks with struct.pack as in the code; crc32 and compress are parameters..  Proof: A reader written from the PNG standard (signature, chunks with checksums, filter type 0) inverts the writer; lemmas about big endian numbers and lists..
  Status: proved.  Checksum and compression are parameters.  Theorems: `png_read_back`.

**C120 Virtual fonts are read as they are written.**  Modelled: VfModel.v: the loop over commands with the readers of ReaderModel.v; dictionaries as lists of assignments..  Proof: An encoder of VF files, written from their definition, is inverted by induction on the items; the last assignment to a key is found by induction from the end..
  Status: partial.  Proved for files with short character packets. Long packets are read wrongly by the code: their width has four bytes, of which three are read (vf_long_refuted says what results for every such file). The rescaling of sizes is a parameter (floats).  Theorems: `vf_read_partial`, `vf_long_refuted`.

**C121 Smoothed corners are smooth and stay near the corners.**  Modelled: `DeformModel.v`: the points and curves of a corner (l.45-80, 599-622), the parameters where the lines are cut (l.562-581) and the loop over the lines (l.583-622), over the reals, for subpaths of lines..  Proof: Explicit formulas for the velocity, curvature and derivative of the curvature of the two curves at a corner; induction over the lines with an invariant for the runs of joined items; nearness by the convex hull of the control points..
  Status: partial.  For subpaths of lines all of it is proved except two parts which are false: with different distances on both sides of the corner the derivative of the curvature does not vanish (corner_curvature_flat_refuted), and an open subpath with a single line loses its beginning (smoothed_line_refuted). Subpaths with curves (which need arc lengths of curves) are not modelled.  Theorems: `corner_smooth`, `corner_curvature_flat`, `corner_curvature_flat_refuted`, `smoothed_smooth`, `smoothed_line_refuted`, `smoothed_keeps`, `smoothed_near`.

**C122 Curves with given ends.**  Modelled: `DeformModel.v`: controldists_from_endgeometry_pt with all its fallbacks, the sorting of the solutions, intersection and normcurve_from_endgeometry_pt (l.83-362)..  Proof: The equations by the curvature formula; completeness because the two quartics are the resultants of the equations and the nearest candidate of a candidate is itself; the counterexample has rational roots..
  Status: partial.  The equations are proved to be the right ones; all their solutions are in the list if the quartic polynomials have no double root of the kind where realpolyroots fails; with parallel tangents or an end without curvature there is exactly one solution, which is found. A solution in the list is right if both control points are in the direction of the tangents; without this condition it is false (endgeometry_refuted).  Theorems: `end_curve_geometry`, `controldists_partial`, `controldists_linear`, `endgeometry_refuted`, `first_solution`.

**C123 Lines of font map files are read as written.**  Modelled: `MapModel.v`: the tokens by the regular expression (l.44, 60-70), the loop over the tokens with the PostScript fragments (l.72-127) and readfontmap (l.162-187). Opening the fonts and encodings (l.129-158) is not modelled..  Proof: Induction over the entries of a line: each entry gives its token or tokens, and each token changes the state as its meaning in `MapSpec.v` says; the last setting counts by an accumulator argument..
  Status: proved.  The number of SlantFont is kept as its text; which texts float accepts is a parameter of the model.  Theorems: `mapline_read`, `fontmap_last`.

**C124 Encoding files are read as written.**  Modelled: `MapModel.v`: ENCfile (l.28-51) on top of the tokenizer of `ReaderModel.v`..  Proof: From tokens_read_back (C43); the cases of too few and too many names separately..
  Status: proved.  For files in which white space or a delimiter follows def and the closing bracket and def are separated by white space (otherwise the tokenizer fails or reads them as one token).  Theorems: `encoding_read`.

**C125 Documents are written to the file with the right name and format.**  Modelled: `OutputModel.v`: _outputstream and the methods of document which write files (l.140-211)..  Proof: Case analysis; the four suffixes are no suffixes of each other because of the dot..
  Status: proved.  Theorems: `output_name`, `writetofile_format`.

**C126 The glyphs of a text are those its written codes select.**  Modelled: T1text_pt.getencodingname with the encodings of a writer as dictionaries in insertion order (TextEncModel.v), writing of all texts of a document, the vectors made at the end (PSreencodefont, PDFencoding), characters of strings, SVGT1mapping with merging.  Proof: Invariant over all texts: codes of each encoding are 0, 1, 2, ... without repetition, encodings only grow, names are numbered; names of re-encoded fonts are injective. Strings: by induction with the string reader of PdfSpec.v. SVG: invariant on known and private characters.
  Status: proved.  Glyphs and codes for all documents; strings read by the rules of PDF and PostScript literal strings. SVG fonts: proved for glyph names and for codes separately; a font used both by names and by codes has clashes (svg_characters_refuted).  Theorems: `text_glyphs`, `texts_written`, `text_strings`, `text_strings_printable`, `svg_characters`, `svg_characters_refuted`.

**C127 Kerned and spaced text has its glyphs at the same places in all output formats.**  Modelled: processPS, processPDF, processSVG, textpath, bbox of T1text_pt as lists of operators (TextPosModel.v), PDFfont widths, PSchangefontmatrix; interpreters for PostScript show, PDF TJ and SVG tspan in TextPosSpec.v.  Proof: All four loops are shown to draw the same layout by induction over the entries after the first glyph with pending characters; box by induction over the layout.
  Status: partial.  Places proved for all formats (SVG without slant). False in the rest: PDF widths with a fraction are cut, slanted text cannot be written to SVG, text as path ignores the slant, slanted builtin fonts are 1000 times too large in PostScript. text_box needs a text with at least one glyph (an empty one raises in height_pt).  Theorems: `text_postscript`, `text_pdf`, `text_svg`, `text_path`, `laid_unique`, `text_box`, `pdf_widths_partial`, `pdf_widths_refuted`, `svg_slant_refuted`, `path_slant_refuted`, `ps_slant`, `ps_slant_refuted`.

**C128 Ligatures are made from left to right as often as possible.**  Modelled: AFMfile.resolveligatures as a loop over current glyph and rest (TextEncModel.v).  Proof: Induction over the rest; inductive relation of parts, uniqueness by case analysis of the first step.
  Status: proved.  With uniqueness; a missing metric is a KeyError.  Theorems: `ligatures_resolved`.

**C129 Ticks, labels and titles of axes keep their distances.**  Modelled: Texts are the convex boxes they are typeset to (BoxModel), ticks carry point, direction, ticklevel and label box; regular.paint, _title.paint, maxlevels and linealignequal_pt are modelled, attributes only by whether something is painted; layers are separate lists. Base paths and grid paths are left out..  Proof: AxisPaintProps.v and AxisPaintProps2.v: the alignment theorems of C82 give the nearest corner of every label, the loop is shown to compute the maximum of all reaches, the title is placed by the same theorem..
  Status: partial.  For convex label boxes with edges not too short; labels moved together (labelvequalize, the default) only when they all need the same shift: in general the title overlaps labels (finding).  Theorems: `axis_ticks`, `axis_labels`, `axis_extent`, `axis_title`, `axis_title_apart`, `axis_title_apart_refuted`, `axis_grid_refuted`.

**C130 Texts at axes are never upside down.**  Modelled: The while loops of rotatetext.trafo as inductive big step relations on real angles; parallel and orthogonal; the vector given by _title.paint..  Proof: AxisPaintProps3.v: the archimedean property gives termination, the relation is deterministic, the result differs by a multiple of 180 degrees from the direction and is within 90 degrees plus the tolerance..
  Status: proved.  For directions and tick points which are not degenerate.  Theorems: `text_upright`, `text_along`, `title_along`, `title_vertical`.

**C131 Bars, subaxes and breaks of axes are placed as described.**  Modelled: bar.paint with arbitrary positioners and name boxes, subaxispositioner, and the break lines of split.paint for a point and unit tangent of the base path (tangent of normpaths is the one of C14)..  Proof: AxisPaintProps4.v: names of bars are shown to be aligned like labels of ticks with the same points and directions; break lines by the addition theorems of sine and cosine..
  Status: proved.  Names moved together are covered by the extent only when they all need the same shift (finding of C129).  Theorems: `bar_names`, `bar_ticks`, `bar_extent`, `subaxis_positions`, `break_lines_placed`, `break_extent_covers`.

**C132 Arrows: position, sides, back and the rest of the stroke.**  Modelled: DecoModel: _arrowhead, the lengths and excluded ranges of arrow; paths are the functions from arc length to points, pieces of paths are parts of these functions.  Proof: turning about the tip is an isometry; both ends of the pieces are computed; for straight paths the middle of the wing ends is computed from the sum of the two turns.
  Status: proved.  Theorems: `arrow_position`, `arrow_sides`, `arrow_straight`, `arrow_stroke`.

**C133 Hatching, color gradients and texts at paths.**  Modelled: DecoModel: the lines of linehatched in their order, the strokes of colorgradient in their order, the alignment of text with BoxModel.linealign and the trafo of each letter of curvedtext; the trafo of a path at a point is a frame with the unit tangent.  Proof: hatching: coordinates turned by the angle, floor of the offset divided by the distance; gradients: the last stroke covering a point is determined by splitting the list of strokes; text: align_convex (C36) for the direction computed with atan2.
  Status: partial.  A color gradient with a single step is an IndexError (gradient_single_refuted); everything else is proved.  Theorems: `hatch_covers`, `hatch_cross`, `gradient_seen`, `gradient_single_refuted`, `text_beside`, `text_curved`, `text_place_reversed`.

**C134 Braces: outline, places, thickness and ends.**  Modelled: BraceModel: all points of _halfbracepath_pt with deformer.intersection (DeformModel), the outline as list of lines and curves, the mirrored left half, the final trafo, and the ends computed in decorate; exceptions are None.  Proof: the points of a half are characterised once (half_known) by the directions between neighbouring points; smoothness and thickness follow as trafos keep parallels and distances; the places follow from the cosine and sine of atan2.
  Status: partial.  False of the code: bars have twice the thickness given; bars are not parallel to the line between the ends for relative heights adding up to one; short braces have a straight part going backwards; with slanted strokes there is a kink at the outside of the middle; the ends of reversed braces are moved in the direction of the other end.  The rest is proved.  Theorems: `brace_closed`, `brace_smooth`, `brace_places`, `brace_thickness_partial`, `brace_bar_slope`, `brace_short_refuted`, `brace_cap_refuted`, `brace_stretch`, `brace_dist_partial`, `brace_dist_refuted`.

**C135 Gradients run through valid colors, from the first color to the last, and reversed ones run backwards.**  Modelled: color.gradient, functiongradient_*, lineargradient_*, rgbgradient, cmykgradient, gradient.select and all named gradients (color.py l.364-575) in GradientModel.v on top of ColorModel.v..  Proof: GradientProps.v: the bounds of the polynomials by Bernstein certificates (for the red component of BlackYellow in t = sqrt x, after splitting off the factor 1-t, on four intervals); validity of the conversions from conversions_total (C64)..
  Status: proved.  Over the reals; the conversion to cmyk is for black generation functions that stay in [0,1].  Theorems: `linear_gradient`, `gradients_valid`, `gradients_reversed`, `jet_continuous`, `named_ends`.

**C136 An SVG file is placed upright at the given point with the given size.**  Modelled: svgBaseHandler.toFloat, the svg element of svgHandler, svgBboxHandler and svgfile_pt.__init__ (svgfile.py) in SvgFileModel.v; attributes are numbers with units (no lexing), canvases are those of CanvasModel.v..  Proof: SvgFileProps.v: the transformations of the canvas are multiplied out (styles before them do not matter); the viewer of copied SVG is specified by its pixel sizes..
  Status: partial.  False for the clipping: the clip rectangle is built from points taken as user units. For unparsed files proved for resolution 96 or sizes in pixels and false otherwise; unparsed files with sizes in percent are modelled without a theorem. The miter limit is scaled like a length.  Theorems: `svg_units`, `svg_viewbox`, `svg_no_viewbox`, `svg_size_needed`, `svg_placed`, `svg_unparsed_placed`, `svg_clip_refuted`, `svg_unparsed_units_refuted`, `svg_miterlimit_refuted`.

**C137 Groups of an SVG file pass on colors and transformations and end where they end.**  Modelled: The handling of the tags svg, g and of shapes by svgHandler (svgfile.py l.389-487) as a state machine in SvgFileModel.v; a canvas is named by its svg element and the attributes of the canvases around; shapes and colors are abstract..  Proof: SvgFileProps.v: induction over trees of elements: the events of a tree add exactly the expected drawings and restore the state..
  Status: partial.  Missing: colors at the svg element itself (ignored by the code, refuted) and svg elements inside of the file (they make everything before them disappear, refuted).  Theorems: `svg_groups_partial`, `svg_root_color_refuted`, `svg_nested_refuted`.

**C138 Patterns fill the plane with copies of what is drawn in them, the same in all output formats.**  Modelled: pattern.__init__, __call__, processPS, processPDF, processSVGattrs, PDFpattern.write, SVGpattern.output, hatched and crosshatched (pattern.py) in PatternModel.v: the numbers written for the cell; what is drawn in the cell is any set of points covered by the bounding box..  Proof: PatternProps.v: the meaning of PostScript and PDF tiling patterns and of SVG patterns as sets of points; equivalences of these sets..
  Status: partial.  PostScript and PDF are shown to agree without an own bounding box; with one the PDF box is rounded (refuted). SVG shows the pattern shifted by the upper left corner of the box (exact shift proved, agreement refuted). hatched patterns cannot be written to SVG and called patterns not at all (refuted).  Theorems: `pattern_tiled`, `pattern_svg_shifted`, `hatched_lines`, `crosshatched_lines`, `pattern_pdf_bbox_refuted`, `pattern_svg_refuted`, `hatched_svg_refuted`, `pattern_call_refuted`.

**C139 PFM files are read by their offsets.**  Modelled: PfmModel: struct.unpack with little endian formats, the header, its extension, the metrics, widths, kerning pairs and track kernings of PFMfile.__init__, the whole dictionary ansiglyphs with its repeated keys, width_ds with Python's negative indices, resolvekernings and the flags of writePDFfontinfo. The other numbers written to the PDF font info and the search of the font bounding box are not modelled..  Proof: A general lemma gives the number at every item of a format as the little endian number at its offset; the offsets of the formats are computed and compared with the ones of the file format. The tables are treated by induction over their items, dictionaries by the last item with a key. The repeated keys are found by computation over the whole dictionary..
  Status: partial.  For the Windows encoding the widths are proved for all glyphs but space, hyphen and bullet, whose codes are wrong; glyphs below the first code get the width of another one.  Theorems: `pfm_header`, `pfm_tables`, `pfm_widths_encoded`, `pfm_widths_ansi_partial`, `pfm_kernings`, `pfm_flags`, `pfm_space_refuted`, `pfm_negative_index_refuted`.

**C140 Flags of PDF form fields.**  Modelled: FormModel: both tables of flags, flag.set, _pdfflags, selectflags and the default flags of the four kinds of fields; truth values of flags are booleans..  Proof: The bits of the collected number are a disjunction over the table, compared with the positions of the PDF reference given as inductive relations; dictionaries are treated by induction over the given flags..
  Status: proved.  Theorems: `form_flags`, `form_selectflags`, `form_types`.

**C141 Places, texts and states of PDF form fields.**  Modelled: FormModel: _sizetrafo, the rectangles of fields and buttons, radiobuttons.bbox, literal strings, _simplestring, the lines of the default text and their base lines, the states of button lists. Strings have ASCII characters only. The fonts, fill styles, glyphs of the buttons and the remaining entries of the dictionaries are not modelled..  Proof: Images of intervals under affine maps; a reader of literal strings and names after the PDF reference, with induction over balanced strings; minima and maxima of lists. The counterexamples are computed..
  Status: partial.  Strings are proved to be read back for balanced parentheses without backslashes and carriage returns, radio buttons for values of letters and digits; otherwise the statements are false, as are places of buttons under mirrors.  Theorems: `form_rect`, `form_sizes`, `form_button`, `form_radio_bbox`, `form_lines`, `form_strings_partial`, `form_default_text`, `form_radio_partial`, `form_radio_off`, `form_strings_refuted`, `form_empty_lines_refuted`, `form_radio_refuted`, `form_button_mirror_refuted`, `form_check`.

**C142 Stroke styles: the last of each kind counts, dashes are the same in all output formats.**  Modelled: StrokeModel.v: stroke styles as attributes, the merging of a list of them, their effect on the graphics state, dash patterns with relative lengths, the attributes for SVG..  Proof: `stroke_last_wins` uses the model of attr.mergeattrs and an invariant over the list; the dashes are compared as sets of places along a path, with the rule of SVG that a pattern of odd length is repeated..
  Status: partial.  The stretching of dashes is proved for patterns without offset; with an offset it is false of the code, the offset is not relative. The texts of numbers are not modelled here.  Theorems: `stroke_last_wins`, `dash_outputs`, `dash_relative_partial`, `dash_offset_refuted`.

**C143 Named miter limits and line widths are what their names say.**  Modelled: StrokeModel.v: lessthandeg, lessthan11deg, linewidths..  Proof: Monotonicity of the sine; bounds of pi and a Taylor bound of the sine for the limit 10; roots of powers of two..
  Status: proved.  Theorems: `miter_names`, `miter_default`, `linewidth_names`.

**C144 Alignment of boxes at circles.**  Modelled: circlealignlinevector_pt, circlealignpointvector_pt, alignvector_pt and circlealign_pt of box.py and circlealignequal_pt with genericalignequal_pt over real numbers, None as an error (BoxCircleModel.v).  Proof: BoxCircleProps.v: in coordinates along and across the direction each result for an edge is characterised by where the circle touches its line (circle_line_result); an edge touched separates the circle from the polygon; a corner chosen is on the circle and both of its edges lead away from it (side_pos, corner_covers), so the cone at the corner is outside; walking around the polygon a corner is always found (circle_search_finds).
  Status: partial.  Proved with the margins of the tolerances as hypotheses (clear_edges, a*a >= 1e-10) and the center in the shadow of the polygon; the touching point may be outside an edge by the relative tolerance 1e-10 of the code. Without the center in the shadow it is false (circle_outside_refuted).  Theorems: `circle_align`, `circle_equal`, `circle_outside_refuted`.

**C145 AFM files are read as they are written.**  Modelled: AfmModel.v: the line-based parser of AFM files with all its states (start, main, direction, character metrics, kerning data, track kernings, kerning pairs, composites), function by function; the reading of numbers is a parameter, so all theorems hold for any such function. Not modelled: warnings, and the names of exceptions (an exception is None)..  Proof: AfmSpec.v says which lines are those of a format (keys, white space, semicolons, any order of items). The proof goes through the file line by line with the state of the parser; a later entry replaces an earlier one, which is `latest`..
  Status: partial.  Proved for files with header, character metrics and kerning pairs for the first direction, with the widths of texts and the kernings between glyphs that follow from them; track kernings, composites and sections for directions are modelled but only covered by examples. False: files with a MetricsSets line cannot be read, a comment ends the section of a direction, a comment within the character metrics is an error.  Theorems: `afm_read`, `text_width`, `pair_kerning`, `metricssets_refuted`, `direction_comment_refuted`, `chars_comment_refuted`.

**C146 Font information for PDF follows from the AFM file.**  Modelled: AfmModel.v: flags, ascent and descent of writePDFfontinfo as numbers; the text around the numbers is not modelled..  Proof: Case distinction on the attributes; bits of a number below 128..
  Status: partial.  Flags, ascent and descent as given; without a Descender the descent is the top of the bounding box.  Theorems: `pdf_flags`, `pdf_heights`, `pdf_descent_refuted`.

**C147 Specials in DVI files: groups and markers.**  Modelled: SpecialModel.v: all PyX specials (color_begin with all color models including the pattern for pyxcolor, rotate, scale, epsinclude, marker), the stack of canvases (beginsubpage, endsubpage) and the returned page; the positions are those of DviModel.v; float and int are parameters. Not modelled: named colors (a parameter)..  Proof: SpecialSpec.v says what a page of nested groups is, how it is written in specials, and where a point within groups is (with sine and cosine, no matrices). Induction over the way the page is written, with the markers of the groups as a list..
  Status: partial.  Proved for pages with properly nested groups and different names of markers, and for names given twice in the special of an included file. False: the same name within and outside of a group is no error and the place outside is lost; of a page with a group that is not finished only the group is returned; signs and exponents of color values are dropped.  Theorems: `page_read`, `marker_twice`, `later_value`, `marker_lost_refuted`, `unfinished_refuted`, `color_exponent_refuted`.

**C148 Markers and text paths move with their text.**  Modelled: SpecialModel.v: transformation and canvas of textextbox_pt, transform, the reading of the page on demand, marker and textpath (as the list of texts). Not modelled: the box (see C82) and what the texts draw (C127)..  Proof: Invariant over any sequence of actions: the canvas, if it is there, has the transformation of the text..
  Status: partial.  Markers: proved. Text paths: only for texts of letters without color, rules and groups; with a rule textpath is an error.  Theorems: `marker_moves`, `textpath_letters`, `textpath_refuted`.

**C149 Files are searched for under the right names and the first locator wins.**  Modelled: ConfigModel.v: formats, full_filenames, local.openers with the late binding of its lambdas, open with its cache. File systems are functions from paths to contents; the processes of kpsewhich and locate, internal and pykpathsea are not modelled (they are methods in the theorem on open).  Proof: ConfigProps.v: suffixes of strings; induction over locators and openers.
  Status: partial.  The names and the choice among the locators are proved. False for the local locator with several names: all its openers open the last name (local_late_binding_refuted). False for PostScript headers, where the extension .pro is never tried (header_extension_refuted). A file opened once is not searched for again when it is gone (open_stale_refuted).  Theorems: `names_tried`, `header_extension_refuted`, `local_single`, `local_opens_last`, `local_late_binding_refuted`, `open_first`, `open_kept`, `open_stale_refuted`.

**C150 The locators for ls-R files and directories find what is there.**  Modelled: ConfigModel.v: ls_R.openers and recursivedir.openers with their caches. Links, unreadable directories and the encoding of ls-R files are not modelled.  Proof: ConfigProps2.v: what is in the cache and what is still to be read; induction over the lines; invariant of the worklist of directories, whose size decreases.
  Status: partial.  Proved; but of several names in one directory the last one listed is taken and not the first one to be tried (recursivedir_order_refuted), and an opener may open another file of the same name after a further search (recursivedir_moves_refuted).  Theorems: `lsr_finds`, `lsr_no_directory_refuted`, `recursivedir_finds`, `recursivedir_order_refuted`, `recursivedir_moves_refuted`.

**C151 Lists in the configuration.**  Modelled: ConfigModel.v: getlist with str.split and str.replace; the ConfigParser is not modelled.  Proof: ConfigProps3.v: SPACE does not overlap itself, so that no further place is found.
  Status: partial.  Proved for the default replacement string SPACE; false for other replacement strings which overlap themselves (getlist_overlap_refuted).  Theorems: `getlist_reads`, `getlist_words`, `getlist_overlap_refuted`.

**C152 SVG files are one tree of elements with the resources and the page.**  Modelled: SvgWriterModel.v: SVGGenerator (convertName, start and end of documents and elements, newline_and_tell), SVGregistry.add and output, SVGwriter.__init__. What is written is a list of tags, line ends, blanks and characters. Not modelled: escapes, the short form of empty elements, passing through of parsed SVG files, the content of viewBox..  Proof: svg_file_tree: the tokens written are the lines of the tree with the resources and the page in it, by induction on the trees with the flags newline and last_was_end as invariant; the cut out part of the separate document is the lines of the page. svg_empty_page is the case of no content. svg_resources_once by induction on the registrations..
  Status: partial.  Proved for pages whose elements are properly nested and, where resources use xlink names, for pages which use them as well. False in the remaining case (svg_xlink_refuted).  Theorems: `svg_file_tree`, `svg_xlink_refuted`, `svg_empty_page`, `svg_resources_once`.

**C153 Type 1 font files are split into their parts.**  Modelled: T1FileModel.v: from_PFB_bytes, from_PFA_bytes and from_PF_bytes of T1File with texts and bytes as different kinds of values, decode with surrogateescape. The search for name and matrix in the constructor is not modelled..  Proof: pfb_read: both directions, by induction on the binary segments and on the rounds of the loop; a length which is too large leaves no mark behind. The refutations are computed: index with a text on bytes is a TypeError..
  Status: partial.  Proved for PFB files with one segment for each clear text, which are all that are accepted. False for PFB files with several segments of clear text and for PFA files, none of which can be read.  Theorems: `pfb_read`, `pfb_segments_refuted`, `pfa_read_refuted`.

**C154 Written Type 1 fonts contain the parts of the font.**  Modelled: T1FileModel.v: outputPFA (without remove_UniqueID_lookup), outputPFB, outputPDF, writer.write and write_bytes. zlib is an arbitrary function with an inverse..  Proof: pfa_written by induction on the lines; pdf_font_parts by cases on the third part and the roundtrip of surrogateescape; pfb_output_refuted is the computation of the first write..
  Status: partial.  Proved for PFA without the removal of the lookup of the unique id, and for PDF. False for PFB, where writing always fails.  Theorems: `pfa_written`, `pdf_font_parts`, `pfb_output_refuted`.

**C155 The encoding vector of a Type 1 font is the one of the font file.**  Modelled: T1FileModel.v: T1File._encoding with the PStokenizer of ReaderModel.v. Loops are bounded by the number of tokens..  Proof: encoding_read: tokens_read_back gives the words, then induction on the words before the first dup and on the entries..
  Status: proved.  For texts where /Encoding is followed by white space; int of texts is an arbitrary function.  Theorems: `encoding_read`, `encoding_standard`.

**C156 Functions are evaluated at evenly spaced points of the axis.**  Modelled: `FunctionDataModel.v`: the points of `function` with the axis limits and the logarithm, errors of the evaluated expression as values, the loop of `paramfunction` filling a dictionary of columns, the strokes of `cbdfile`.  Proof: Induction over the points; the dictionary is followed by what a lookup gives after each appended value; `ln` and `exp` are inverse.
  Status: partial.  Proved for at least two points. Refuted: one point is a division by zero (both kinds); only the number of the last values of a parametric function is compared with the number of names, so columns may differ in length; reading the strokes of a CBD file always fails, since bytes are compared with a text.  Theorems: `function_points`, `param_points`, `single_point_refuted`, `param_sizes_refuted`, `strokes_refuted`.

**C157 Joined data keep the rows of each data set.**  Modelled: `FunctionDataModel.v`: `_mergeLists`, `_mergeDicts` of `join`, with the test on the number of columns before the row of missing values is made.  Proof: The merged names are the union without repetitions; if no row of missing values is made then the data set has all names, by counting.
  Status: proved.  For data sets whose columns have equal lengths.  Theorems: `join_columns`.

**C158 Numbers and path data of SVG files are read as written.**  Modelled: `SvgTextModel.v`: the pattern of numbers with the backtracking around the point and the exponent, units, separators, `toFloat`, `toFloats`, `toBool`, the pattern of path commands with `finditer`, the arguments of arcs. Code points as integers, floats as rational numbers.  Proof: `SvgTextSpec.v` gives the grammar of numbers with their decimal values, lists of numbers and flags with the separators that may be left out, and path data; induction over these shows that each step consumes exactly one number or flag.
  Status: partial.  Proved for numbers that do not end with a point and texts that do not begin with white space; lists of lengths with the units px, pt, pc, mm, cm and in are read in points, and percentages without something to relate to are an error. Refuted: the rotation of an arc is scaled with the resolution like a length (30 degrees are read as 22.5); a number like 1. is not read to its end; white space before the first number of a list is an error; lengths in pt and pc in path data are cut within the unit.  Theorems: `floats_read`, `lengths_read`, `percent_error`, `path_read`, `arc_angle_refuted`, `point_refuted`, `leading_space_refuted`, `path_units_refuted`.

**C159 Lists of transformations of SVG files are read as written.**  Modelled: `SvgTextModel.v`: the search for the six words with parentheses, reading of the arguments with and without units.  Proof: Induction over the list; a word is found where it begins, since between the words are only white space and commas.
  Status: partial.  Proved without white space around the opening parenthesis; with white space before it the transformation is silently ignored, with white space after it there is an error. How the transformations are combined is C69.  Theorems: `transforms_read`, `transform_space_refuted`.

**C160 Colors of SVG files have the values SVG defines.**  Modelled: `SvgTextModel.v`: `toColor` with its dictionary, both patterns, `rgbfromhexstring`, and the range check of `color.rgb`; the dictionary is copied from the source.  Proof: The names are compared by computation with the list of SVG 1.1, written down independently as hexadecimal numbers; the patterns by following each part of the text.
  Status: partial.  Proved; false are names with white space around them (error), values above 255 or 100% (error instead of the largest value, second part of color_numbers), unknown words of three or six hexadecimal digits (a color instead of an error), and currentColor (no color; the source says TODO).  Theorems: `color_names`, `color_numbers`, `color_hex`, `color_inherited`, `name_space_refuted`, `color_words_refuted`.

**C161 Texts of the Unicode engine stand one behind the other with all their letters.**  Modelled: UnicodeTextModel.v: the loop of unicodetextbox_pt over texts, fragments between hyphens and stacks, with the font as a function giving the box of a text; text_pt_attrs: the handling of attributes in UnicodeEngine.text_pt with the attribute lists of AttrModel.v.  Proof: induction over the fragments and the texts; UnicodeTextSpec.v says independently what it is to stand in line (an inductive relation), what is seen, and how stacks are aligned.
  Status: partial.  proved for the boxes themselves; text_pt of the engine never asks for a formula, since mathmode is refused as a text attribute (refuted), and hyphens in stacks are not minus signs (refuted)  Theorems: `texts_in_line`, `stack_alignment`, `unicode_mathmode_refuted`, `stacked_minus_refuted`.

**C162 The box of a text of the Unicode engine is the smallest one around it.**  Modelled: UnicodeTextModel.v: box_bbox with the boxes of BboxModel.v.  Proof: from additions_smallest of C09: the box is the result of adding the boxes of the items and two points.
  Status: proved.  texts with widths and heights which are not negative  Theorems: `text_box`.

**C163 Cycloids follow the path: smooth chain of curves, alternating half loops within the radius, undeformed ends.**  Modelled: CycloidModel.v: deformsubpath with the subpath given by its length, its local coordinate systems and its curvatures at arc lengths.  Proof: the points and handles are computed and compared with the exact cycloid and its derivative (derivable_pt_lim); induction over the list of points for the chain.
  Status: partial.  proved, except that for an even number of half loops (the default is 10) the undeformed end is longer than skiplast by twice the radius times the sine of the angle (refuted), and that the handles on bent paths are scaled as if the sign was positive, so that the cycloid on the other side of the mirrored path is not the mirror image (refuted); an angle of 90 degrees, for which the code divides by a cosine that is zero but for rounding, and singular points of the path are not covered  Theorems: `cycloid_chain`, `cycloid_halfloops`, `cycloid_handles`, `cycloid_end_refuted`, `cycloid_mirror_refuted`.

**C164 Smoothed lines go through the points of the path.**  Modelled: LineSmoothModel.v: __init__, __call__, deformsubpath on MpModel.v; the normsubpath is given by its first point, the end points of its items, the closed flag and the end tangents. deform's conversion to a normpath is not modelled here..  Proof: smoothed_path instantiates metapost_path for the elements built by deformsubpath and derives the tangents at each knot from the continuity of the directions; linesmoothed_call and linesmoothed_atleast_refuted by computation..
  Status: partial.  False for atleast: deformsubpath hands the negative tension to tensioncurve, which takes its absolute value, so the parameter has no effect (linesmoothed_atleast_refuted, for all inputs). The rest is proved; that the deformation can fail (None) is described by metapost_path, C89/C90.  Theorems: `smoothed_path`, `linesmoothed_call`, `linesmoothed_atleast_refuted`.

**C165 A text box shows its own text.**  Modelled: TexEngineModel.v: _execute, do_start, go_typeset, do_preamble, do_typeset, do_finish, text_pt, dvicanvas and the page check of dvifile.readpage; engines with exceptions which leave them changed, the interpreter is any function of the input so far. Left out: temporary directories, usefiles, copyinput, clean-up at exit, text attributes, transformations..  Proof: TexEngineProps.v, TexEngineProps2.v, TexEngineProps3.v: invariants by induction on the calls; the refuted theorems compute runs of a concrete interpreter..
  Status: partial.  True with texipc (ipc_texts_shown), and without it as long as no call raised a TexResultError (texts_shown, for interpreters which ship out the pages they are asked for). False after an error which was caught: the next box shows the text which failed (wrong_text_refuted); with texipc an error in the first text makes all later ones fail (ipc_first_error_refuted); after an unexpected message at the end the boxes stay empty without further errors (lost_text_refuted).  Theorems: `engine_numbers`, `texts_shown`, `ipc_texts_shown`, `written_lines`, `wrong_text_refuted`, `ipc_first_error_refuted`, `lost_text_refuted`.

**C166 Unexpected answers of TeX are not accepted.**  Modelled: TexEngineModel.v: inside and at_end (the checks of _execute), PyXBoxPattern and dvi_pattern as functions, remove_string and remove_pattern from TexMsgModel.v..  Proof: TexAnswerProps.v: decomposition of accepted outputs; decimals have their own specification (denotes)..
  Status: proved.  end_checked is stated with the model's search_dvi; what this finds is shown by pages_reported.  Theorems: `answer_checked`, `end_checked`, `pages_reported`.

**C167 Preambles come before texts, and survive restarts.**  Modelled: TexEngineModel.v: do_preamble, MultiEngine with preamble, text, reset and reset_for_tex_done..  Proof: TexEngineProps3.v: restarted follows the expressions through all executions; late_preamble_refused from the invariant of C165..
  Status: partial.  False in one case: a preamble which was refused by MultiEngine is executed after a restart (refused_preamble_refuted).  Theorems: `late_preamble_refused`, `restarted`, `preambles_in_order`, `refused_preamble_refuted`.

**C168 Which axes a graph has.**  Modelled: graph.py l.342-376: default axes, keywords, anchored and linked axes as dictionaries; axes and keywords are of any type (GraphAxesModel.v, section Table)..  Proof: graph_axes describes the entry of every name of the result and the exact cases of exceptions; lemmas follow the dictionary through each loop. no_axis_refuted is a witness..
  Status: partial.  Proved for all arguments; x=None (or y=None) alone does not switch the axis off but raises a KeyError (no_axis_refuted). graphxyz is not modelled here.  Theorems: `graph_axes`, `no_axis_refuted`.

**C169 Axes are created once, in order, and show the range they convert with.**  Modelled: did, doranges, doaxiscreate, doaxispositioner, dolayout, anchoredaxis and linkedaxis with their states, several graphs, and a log of events (GraphAxesModel.v, section Create); partitions and values are any functions..  Proof: An invariant of eleven parts is kept by every function (GraphAxesProofs.v): what the log says about canvases, positioners, ranges and ticks. Termination: each call marks a new axis of a finite set closed under links and dependencies..
  Status: partial.  Order, uniqueness and termination proved for all worlds and all sequences of calls; the ranges agree if linked axes are painted and stay in one graph. False for axes linked between graphs (linked_range_refuted) and after exceptions (failed_layout_refuted). Bar axes and axes moved by xaxisat are left out.  Theorems: `axes_terminate`, `axes_in_order`, `axes_show_ranges`, `one_positioner`, `failed_layout_refuted`, `linked_range_refuted`.

**C170 Points in graphs get their coordinates from the right columns and axes.**  Modelled: PosModel.v: the style pos of graph/style.py with columnnames, adjustaxis, initdrawpoints and drawpoint; the axes by their names and any functions convert, positions as rational numbers..  Proof: PosProps.v: the loops in closed form, the shift of indices by the missing dimensions by induction over the dimensions, then the loop over the columns of a point..
  Status: partial.  proved when no two axes take the values of the same column; with the same column for two axes all values are converted by the last of these axes and only this one is adjusted (refuted)  Theorems: `pos_multiple`, `pos_coordinates`, `pos_same_column_refuted`.

**C171 Points at given lengths of curves.**  Modelled: `normcurve_pt._arclentoparam_pt` for one length with `_split` at 1/2 and its replacement of halves by lines, the division of l.176, `subparamtoparam` of all four replacement classes with realpolyroots (RootsModel) and the choice of the root closest to 1/2 (CurveLenModel.v). Floats are reals; the lengths of a list are handled one by one, which is the same since none depends on another..  Proof: The bound l1(1-(1-t)^3)+l2(3t^2-2t^3)+l3t^3 is the length of the control polygons of the part before t (and its complement that behind t) by the triangle inequality, so chains of the piece before t differ from the given length by at most the excess of its polygon; induction over the recursion adds these errors to those of the left halves, which the enclosure of C48 bounds by epsilon at every level; existence of the root by the intermediate value theorem and RootsProps, the arc length as a least upper bound by completeness. Refutations by evaluation..
  Status: partial.  Proved with an explicit bound of the error whenever the ends of every piece that is taken as straight differ and its bound of the length has no value with a double root below a simple root (a lemma shows that this is so when the middle leg of a piece is shorter than the geometric mean of the others). False otherwise: the curve (0,0),(2,0),(12,0),(54,0) gives the parameter -1/6 for the length 0, and a curve whose first half returns to its begin within epsilon raises a ZeroDivisionError.  Theorems: `curve_lengths_partial`, `length_zero_refuted`, `closed_half_refuted`.

**C172 Lengths of curves up to given parameters.**  Modelled: `normcurve_pt._paramtoarclen_pt` with `segments` and `arclen_pt` (CurveModel.v), and the running sums (CurveArclenModel.v); `normsubpath._paramtoarclen_pt` and `normpath._paramtoarclen_pt` for one parameter on lines and curves (SubpathArclenModel.v). Floats are reals, all subpaths have the same epsilon..  Proof: The arc length is additive (least upper bounds of chains, a chain divided at a parameter) and that of a segment is that of the curve between its parameters; the enclosure of C48 for each segment; induction over the parameters, the items and the subpaths. The refutation evaluates both orders for every epsilon..
  Status: partial.  Curves: proved for parameters in increasing order, false for lists that are not in order: the lengths of segments that run backwards are added too (unordered_refuted), and also the total length is then wrong. Subpaths and paths of lines and curves: for one parameter, with the same bound for each item.  Theorems: `curve_arclens_partial`, `subpath_arclens`, `subpath_arclens_total`, `path_arclens`, `unordered_refuted`.

**C173 Points at given lengths of subpaths.**  Modelled: `normsubpath._arclentoparam_pt` and `normpath._arclentoparam_pt` for one length, with those of lines and curves (SubpathLenModel.v on CurveLenModel.v). Floats are reals, all subpaths have the same epsilon..  Proof: Each item contributes the error of C171 or none; induction over the items with the remaining length, where the loop goes on with later items after the result is found, and over the subpaths, where it ends one subpath later..
  Status: partial.  Proved for subpaths and paths of several subpaths, with lines between different points and curves for which parameters can be found (as in C171, where the other curves are refuted).  Theorems: `subpath_lengths_partial`, `path_lengths_partial`.

**C174 The gradient style places its pixels evenly from one end of the axis to the other.**  Modelled: The style gradient and the positions of graphx: clipping rectangle, transformation of the bitmap, and the arguments of getcolor (GradientStyleModel.v)..  Proof: Field computations for both directions; the bound on the color by i/(n-1) - i/n = i/(n(n-1))..
  Status: proved.  Real numbers for floats; the bytes of the colors are not part of this model. That the colors match the places is refuted (gradient_end_refuted).  Theorems: `gradient_pixels`, `gradient_fails_iff`, `gradient_end_refuted`.

**C175 The text style draws one text for each valid point that has one, at its offset, and needs exactly the columns it was given.**  Modelled: The style text: its column names with the exceptions, and the texts of the points (TextStyleModel.v)..  Proof: Case analysis over the given names with uniqueness of the first missing one; induction over the points against an inductive specification of the texts..
  Status: proved.  Real numbers for floats; the selection of attributes and the typesetting are not part of this model.  Theorems: `text_columns`, `text_placed`.

**C176 The grid style strokes the lines of a regular grid in both directions, whatever the order of the points.**  Modelled: The style grid on top of gridpos (GridModel.v) and the lines in graphs (GraphLineModel.v): GridStyleModel.v..  Proof: Induction over the points: on a regular grid snapping keeps the coordinates, and the stored data of a place are those of the last point there; sorted values; each line by line_is_clipped of C99..
  Status: proved.  Real numbers for floats; positions closer than epsilon outside the boundary are excluded as for lines (C99, line_leaves_graph_refuted). Attributes None are refuted (grid_no_attrs_refuted).  Theorems: `grid_style_lines`, `grid_no_attrs_refuted`.

**C177 The entries of a font map load their font and encoding once, with the first metric file that is found.**  Modelled: getfont and getencoding of MAPline with their caches and a log of the searched files (FontLoadModel.v)..  Proof: Case analysis over the files found; induction over the calls counting how often each file is searched..
  Status: proved.  The file system and the readers are parameters; a reader raising an EnvironmentError is not modelled.  Theorems: `fonts_loaded_once`, `fonts_chosen`, `encodings_chosen`.

**C178 The searches by kpsewhich and pykpathsea open the file of the first format with an answer.**  Modelled: openers of kpsewhich and pykpathsea (KpseModel.v) with open of ConfigModel.v..  Proof: Induction over the formats..
  Status: proved.  The program and the library are parameters; POSIX systems only (fix_cygwin).  Theorems: `kpsewhich_opens`, `pykpathsea_opens`.

**C179 Time axes are linear in time, and merged time ticks keep the lowest levels.**  Modelled: The differences of times as timedeltas in Python's normal form, convert, merge and labels (TimeAxisModel.v)..  Proof: Division with remainder recovers the difference; linear arithmetic over Q; induction over the merged ticks..
  Status: proved.  Datetimes are numbers of microseconds, the result is a rational number; strftime is a parameter; the construction of the axis is not modelled.  Theorems: `time_linear`, `time_merged`, `time_labelled`.


## Findings (statements refuted on the model, with witnesses)

* `merge_idempotent_refuted`, `merge_sorted_refuted`: merging `[parbox, size, vshift]` (text.py attributes) puts `size` behind `vshift`, though it asks to be sorted before; a second merge changes the list.
* `array_lines_refuted`, `array_lines_default_refuted`: `%%BeginData` announces a wrong number of lines for string arrays (bitmap.py:228-231), because `ascii85lines` uses true division.
* `asciihexstream_refuted`: `PSbinexpand=2` raises a TypeError for all data (`range` of a float, bitmap.py:91).
* `palette_hival_refuted`: the highest palette index is computed for RGB palettes only (bitmap.py:307, 470) although gray and cmyk palettes are accepted.
* `string_without_digits_refuted`: `rational("")`, `rational(".")` and `rational("+.")` are accepted as zero (tick.py:41-79).
* `compare_refuted`: `rational("1/-2")` has a negative denominator, and `<` (tick.py:160-164) then gives the inverted order.
* `inplace_division_by_zero_refuted`, `zero_power_refuted`: `a /= zero` and `rational((0, 1), power=-1)` give a zero denominator without an error (tick.py:145-151, 192-195).
* `copy_third_refuted`: `rational(r)` for a rational `r` formats the float value of `r` with ten digits (tick.py:119-121, because `rational.__add__` accepts 0), so a copy of 1/3 is not 1/3.
* `merge_keeps_inputs_refuted`: `mergeticklists` changes levels and labels of the tick objects in its first argument (tick.py:257-259).
* `period_separators_refuted`: with `thousandthpartsep=","` the label of 1/7 is `0.1` followed by the period `42,857` (texter.py:111-113 cuts the label by the number of remainders without counting the separators), another number than 1/7.
* `padding_separators_refuted`: with `equalprecision` and `thousandthpartsep=","`, 0.1 next to 0.12345 becomes `0.1000,0` (texter.py:128-131 counts from `i` instead of `i+1`).
* `mantissa_formatting_refuted`: the default texter hands mantissas over as `Tick(Fraction)`, which formats a float with ten digits (tick.py:101-105), so the mantissa of 10000/3 is rounded and never gets a period.
* `equaldenom_fails_refuted`: `rational(equaldenom=True).labels` raises an AttributeError as soon as one tick has neither label nor labellevel (texter.py:399).
* texter.py:187: the keyword arguments for the exponent texter are ignored; texter.py:348: `skinum1` is a typo, `rational.__call__` always raises an AttributeError (read in the code, not modelled).
* `mirror_line_refuted`: `mirror(angle)` reflects at the line with direction `-angle` (trafo.py:41-47), e.g. `mirror(45)` maps (1, 1) to (-1, -1).
* `slant_pt_reference_refuted`: `slant_pt` with a reference point does not keep it (trafo.py:229-234, the slant itself is done about the origin); `slant_reference_refuted`: `slant` in addition converts the vector twice (trafo.py:237-242).
* `disjoint_product_refuted`: the product of disjoint boxes is a non-empty inverted box (bbox.py:76-93); adding it to another box enlarges that box.
* `cubic_double_root_refuted`: for every cubic with a double root below its other root both returned values are wrong (mathutils.py:80-82 holds for R<0 only), e.g. x^3-3x-2 gives [-2, 1].
* `quartic_double_root_refuted`: as a consequence quartics with such a resolvent are wrong: the root of x^4+x^2 is missed, x^4-3x^3+2x^2 gives non-roots (mathutils.py:95-108).
* `readint24_refuted`: `readint24` puts a zero byte in front (reader.py:59-60), so it never returns a negative number; ff ff ff gives 16777215.
* `bytes_comments_refuted`: `PSbytes_tokenizer` never skips comments, because `data[pos]` is an integer compared with `b"%"` (reader.py:138); `token_at_end_refuted`: a token at the very end of the data raises an IndexError (reader.py:144).
* `page_annotations_refuted`: every page of a PDF file refers to one array with the annotations of all pages (pdfwriter.py:300-302 looks the singleton of l.208-216 up in the global registry).
* `pdfstring_wide_refuted`: titles with characters above 255 are written with octal escapes a PDF reader reads differently (pdfwriter.py:190).
* `late_registration_refuted`: an object added to a page registry after its merge never gets a number (pdfwriter.py:52-71); PyX itself does not do this.
* PSregistry.mergeregistry (pswriter.py:45-47) always raises AttributeError, as there is no attribute resources. Not modelled.
* PDFinfo (pdfwriter.py:175-179) writes the UTC offset with the wrong sign: time.timezone is negative east of Greenwich. Not modelled.
* normpath.py:228 computes the vertical coordinate of the middle of a short line as 0.5*(self.y0_pt + self.x1_pt) instead of y1_pt: intersecting a short line with a parallel or short one misses intersections (or finds wrong ones) and is not symmetric (theorem short_self_middle_refuted).
* path.py:122-171: for a negative radius _arcbboxdata returns exchanged corners (theorem arc_bbox_negative_refuted).
* **C52** `normsubpath.append` (normpath.py l.946-955) looks for slow points with `realpolyroots`, which returns wrong values for cubics with a double root below the other root; so a curve of length less than epsilon can be stored (`short_item_refuted`: epsilon 20400, length below 18700).
* **C52** `normsubpath.append` accepts a begin point up to epsilon away from the end and stores the item with this gap (l.881-884); without epsilon nothing is checked at all and even closed normsubpaths are extended (`gap_refuted`, `append_closed_refuted`).
* **C52** `normsubpath.join` (l.1217-1234) adds a connecting line only if there are items; if there is only a skippedline, joining fails with an AssertionError (`join_skipped_refuted`).
* **C53** `normsubpath.reversed` (l.1284-1289) loses the skippedline: the reversed subpath begins at another point or is empty (`reversed_skipped_refuted`); without epsilon, reversing a closed subpath appends a line of length zero each time (`reversed_closed_refuted`).
* **C54** `normsubpath.transformed` with a shrinking transformation drops items, so parameters of the original are not those of the result (`transformed_refuted`).
* **C76** `normsubpath.segments([0, len])` of a closed subpath extends the only segment by itself (l.1369-1374), so all items appear twice (`segments_closed_refuted`).
* C56: a path whose last subpath has no stored item (only a skipped line shorter than epsilon) has no parameter for arc lengths from its end on: `_arclentoparam_pt` stores a normpathparam with parameter None (pyx/normpath.py l.1648-1668), and all further use of it fails (`last_subpath_short_refuted`).
* C56: normpathparam defines `__div__` (l.1497), which Python 3 does not call, and no `__truediv__`: dividing a parameter by a number raises TypeError. By reading; the operators are modelled as functions.
* C76: `normpath.split` loses a skipped line at the end of a split subpath: the last piece ends at the last stored item (`split_skipped_refuted`).
* parter.logarithmic.extendminmax (l.231-264): for negative ranges min and max are exchanged and negated before the flags extendmin and extendmax are used, so each flag moves the other end (log_fixed_end_refuted).
* parter.autolinear.partfunctions (l.152-155): an empty range makes math.log raise ValueError, which is no ArithmeticError, so the intended RuntimeError is not raised (source reading; both are None in the model).
* parter (l.82, 148, 228, 311): __call__ uses utils, which is not imported, and raises NameError (source reading).
* axis.py l.227: the loop looking for the best partition tests the stored canvas for truth, and canvas.__len__ (canvas.py l.151) makes an empty canvas false. With a painter which draws nothing (for example painter.regular(basepathattrs=None, tickattrs=None, labelattrs=None) without title) and at least two partitions the loop lays out the same partition for ever (best_partition_refuted).
* axis.py l.144-146 and l.199: tick objects given as manualticks are shared by the tick lists of all partitions and by all axes created, and are multiplied by the divisor at each layout (manual_ticks_scaled_refuted).
* axis.py l.306: calling an instance of a logarithmic axis returns a linear axis (read from the code, no theorem).
* painter.py l.240: gridattrs are selected for ticks without tick level, with index None (read from the code, no theorem).
* canvas.py l.195-214, font.py l.571-575 (PostScript): a sub-canvas without attributes (layers and ornaments among them) is written without gsave/grestore but with a copy of the context. A font selected in it stays selected while the outer context still names the old one, so later text in the old font is set in the wrong font (`ps_font_refuted`).
* deco.py l.151-156, 174-179, 243-253, 262-267: a fill rule given with the filling only, as in deco.filled([fillrule.even_odd]), is stored in a copy of the context while the fill rule of the outer context is tested, so it is ignored in PostScript and PDF (`fillrule_refuted`).
* deco.py l.237-257, 260-271: in PDF the operator q and style operators are written between the construction of a path and its painting, which PDF 32000-1 (8.2, figure 9) does not allow (`pdf_strict_refuted`).
* deco.py l.320-338: SVG output strokes before it fills when ranges of the path are excluded, the other formats fill first (`svg_order_refuted`).
* deco.py l.341-342, 372: in SVG the context with the stroke and fill colors of a path is passed on to its ornaments, so they are drawn in these colors (`svg_ornament_refuted`).
* deco.py l.347-359: in SVG the opacity of a transparent stroke stays on the filling of the same path (`svg_opacity_refuted`).
* font.py l.731: `if context.fillopacity` misses opacity 0, so completely transparent text is drawn opaque in SVG (`svg_text_refuted`).
* canvas.py l.225, pdfwriter.py l.405-412, pdfextra.py l.199: the list context.fillstyles is shared by all copies of a context, so fill styles of a sub-canvas are seen by form fields of later siblings (read, not modelled).
* bbox.py (product of disjoint boxes) with canvas.py l.162-180: a sub-canvas which is clipped away completely has an inverted box which enlarges the box of its parent (`canvas_bbox_tight_refuted`).
* canvas.py l.302-319: layer(new, above=missing) raises KeyError after having registered the new layer, which is then never among the items: later successful calls return a canvas that is not drawn (`layer_missing_refuted`).
* canvas.py l.303-314: layer(name, above=name) removes the layer from the items and then fails to find it (ValueError): the layer with all its drawings is lost (`layer_itself_refuted`).
* C64: `cmyk.gray` (color.py l.260) clips the luminance of the unclipped sum c+k, whereas `cmyk.rgb` (l.266-272) clips each channel first: for c+k>1 the gray value computed directly is darker than the gray value computed through rgb (`gray_of_cmyk_refuted`).
* C65: `rgb.white.gray()` is 0.3+0.59+0.11 = 0.9999999999999999 in binary64 arithmetic and `to8bitbytes` truncates, so white converted to gray is written as byte 254 in bitmaps (`white_gray_refuted`; color.py l.105, 148).
* C82: `polygon_pt.alignvector_pt` assumes corners in counter clockwise order without saying so. A clockwise polygon (for instance one transformed by a mirror transformation) is aligned with its far side, so that it lies across the line (`clockwise_refuted`; box.py l.104-156).
* C82: `tile_pt` (box.py l.279-290) multiplies the distances, which are lengths, by the direction without normalising it, whereas `extent_pt` normalises: along a direction not of length one the boxes overlap or are too far apart (`tile_direction_refuted`).
* C66: the argument skiptail is not exact together with every: `readfile` removes skiptail//every of the selected lines (data.py l.311-313), so with every=2 and skiptail=1 the last line of the file can be used (`skiptail_refuted`).
* C66: a data file whose header names a column `title`, `points`, `self` or `addlinenumbers` can not be read: the name collides with a parameter of `points.__init__` and raises a TypeError (`column_name_refuted`; data.py l.129, 317-318). In a config-like file a column `title` is silently taken for the title of the data (l.374).
* C66: for a file without data lines a column given by its number raises a TypeError from the re module instead of being empty, since the points instance has no attribute columndata (`empty_file_refuted`; data.py l.144-145, 183-188).
* C66: a config-like file where a later section introduces a new option raises ValueError, as the rows before are not padded (`conf_new_option_refuted`; data.py l.356-374).
* path.py, normpath.py (C58): drawing after closepath without moveto is lost in PDF output: outputPDF builds a normpath with epsilon None, appends the items behind the closed subpath and writes h in place of the last item. With a default epsilon the same path raises NormpathException. PostScript and SVG start a new subpath at the current point (`pdf_after_close_refuted`).
* path.py (C58): a second closepath, or closing a later subpath which has drawn nothing, raises NormpathException in PDF output while PostScript output works (`pdf_close_refuted`).
* path.py l.314 (C58): returnSVGdata of closepath does not move the current point of the context back to the begin of the subpath, such that a following arct starts from a wrong point (`svg_arct_after_close_refuted`).
* path.py l.692-693, 782-783 (C58): returnSVGdata of arc and arcn store the mirrored y coordinate in the context, such that a following arct starts from a wrong point (`svg_arct_after_arc_refuted`).
* path.py (C83): with inverse_y=False the sweep flags of arcs are written as for inverse_y=True, i.e. the arcs are turned over (`svg_arc_upright_refuted`).
* path.py (C83): an arc backward by a whole turn, e.g. from 360 to 0 degrees, is a full circle in PDF, SVG and the bounding box, while PostScript draws nothing: it increases the second angle only until it is not smaller (`arc_backward_refuted`).
* path.py l.816, 821 (C84): arct with coincident points raises an uncaught ZeroDivisionError (`arct_coincident_refuted`).
* path.py l.1252, 1278 (by reading): rotation_pt and trafo_pt of path call rotation and trafo of the normpath, i.e. take arc lengths in user units instead of points.
* path.py l.1219, normpath.py l.37 (C57): normpath.set(epsilon=...) does not invalidate cached normpaths: a path whose normpath was used before keeps the old epsilon (`cache_epsilon_refuted`).
* path.py l.1219 (C57): normpath() returns the cached object; modifying it in place, e.g. by append, changes later answers of the path, whose items are unchanged (`cache_alias_refuted`).
* path.py (C86): lineto or curveto after closepath raises NormpathException on conversion, while arc and arcn after closepath start a new subpath (`normpath_after_close_refuted`, `arc_after_close`).
* normpath.py l.1263 (C86): normpath.path() drops the skipped line at the end of a subpath and subpaths consisting of it only (`roundtrip_skipped_refuted`).
* **mesh.py l.62-63**: a mesh all of whose nodes have the same x (or the same y) coordinate is accepted by the constructor, and its bounding box exists, but writing it divides by zero (`mesh_flat_refuted`).
* * **svgfile.py l.182-189, 209-216** (C70): the first control point of S after Q or T, and of T after C or S, is the reflection of the control point of another degree, while SVG asks for the current point (`svg_smooth_after_quadratic_refuted`, `svg_smooth_after_cubic_refuted`).
* * **svgfile.py l.198** (C70): Q, T, S, H, V after z raise an exception, as atend_pt converts the path and drawing after closepath is refused (`svg_draw_after_close_refuted`).
* * **svgfile.py l.243-281** (C69): matrix(a b c d e f) is taken as ((a, b), (c, d)) which is the transpose of the matrix SVG defines; matrix, skewX and skewY are multiplied from the other side than translate, scale and rotate, and thus are applied in the wrong order unless they are the last ones (`svg_matrix_refuted`, `svg_skew_order_refuted`, `svg_matrix_order_refuted`).
* * **svgfile.py l.57** (C87): an arc with identical end points, which SVG omits, raises a ZeroDivisionError (`svg_arc_equal_ends_refuted`).
* * **svgfile.py l.224-231** (C87, read only): the rotation angle of an arc is read with toFloat with its default units=True, that is, multiplied by 72/resolution like a length.
* * **svgfile.py l.82** (read only): the pattern for path arguments means to accept the units pt and pc, but the letters of commands are excluded by a character class and p is no command letter, so that the t of 1pt starts a command; and numbers like `1.` are not accepted.
* * **document.py l.103** (C60): margins taking exactly the whole width or height are accepted and the content is scaled to a point, with a singular transformation (`page_no_room_refuted`).
* * **document.py l.111-113** (C60): fitting a page whose box has no width or height, e.g. a line with bboxenlarge=0, raises a ZeroDivisionError (`page_flat_refuted`).
* * **dvi/tfmfile.py l.59-63** (C72): the check of the pre header accepts lh < 2 and negative counts; the rest is then read from wrong places (`tfm_short_header_refuted`). Also, header words after the 18th are printed to stdout (l.129).
* - **DVI: no operation within a page** (`dvi_nop_refuted`): dvifile.py l.448-450 raises DVIError for the command 138 within a page, the standard allows it everywhere.
* - **DVI: magnification does not reach the font size** (`magnification_refuted`): texfont.py l.62-67 computes the size in points without the magnification, while all positions are magnified; with mag other than 1000 glyphs have the wrong size (and virtual fonts the wrong scale).
* - **Virtual fonts: set_rule** (`virtual_setrule_refuted`): dvifile.py l.157 multiplies the width, which is scaled already (l.437), by the scale again, so what follows a rule in a chunk is misplaced.
* - **Virtual fonts: registers and first font** (`virtual_registers_refuted`, `virtual_first_font_refuted`): dvifile.py l.324-349 keeps w, x, y and z of the page for the chunk of a virtual character (the VF standard sets them to zero) and selects font 0 instead of the font defined first; a virtual font whose fonts are numbered from 1 gives an error.
* **metapost/mp_path.py l.433-438** (C89): mp_velocity divides by zero if both angles of a segment are 180 degrees, e.g. path([beginknot(0,0,angle=180), curve(), endknot(1,0,angle=180)]); MetaPost has the velocity 4 there (`choices_exist_refuted`).
* **metapost/path.py l.348-350** (C90): a closing line is never drawn, as the first knot has ltype mp_endpoint then and not mp_explicit; the subpath stays open (`closing_line_refuted`). For the same reason a closed path with a line in the middle gets its last curve, but no closepath.
* **metapost/path.py l.219-223, mp_path.py l.132-135** (C90): a smooth knot before a line should become a rough knot with curl 1 (manual), but raises a TypeError, None - float (`smooth_before_line_refuted`); behind a line, the curve leaves it in the direction of the next knot instead (`smooth_behind_line_refuted`).
* **metapost/path.py l.224-229** (C90): line(keepangles=True) behind a controlcurve overwrites the x coordinate of its second control point with the angle of the line (`controls_before_line_refuted`); before an endknot (or behind a beginknot) it gives the outer side of that knot an angle, so that mp_solve_choices fails or, as in `keepangles_at_end_refuted`, loops without end.
* **C91** `T1File._cmds` (pyx/font/t1file.py l.808) reads the four byte number of -2^31 as +2^31 since it tests `y > (1 << 31)` instead of `>=` (`least_number_refuted`); `_charstringencode` (l.681) writes `b"PyX!"[:lenIV]`, i.e. at most four bytes, so for lenIV > 4 the first commands are lost on reading (`long_lenIV_refuted`).
* **C92** `T1seac.updatepath` (pyx/font/t1file.py l.175-187) runs base and accent glyph in the same context, so `context.wx` is the accent's width afterwards and getglyphpath_pt returns a wrong width for every composite glyph whose accent has another width (`composite_width_refuted`). The accent is placed at adx - asb from the origin, while interpreters like FreeType and Ghostscript place it at sbx + adx - asb with the left side bearing sbx of the composite glyph (`composite_bearing_refuted`). `T1div` (l.508-519) rounds down instead of computing a quotient (`div_refuted`).
* **t1file.py, not modelled** `from_PFA_bytes` calls `bytes.index("eexec")` and `.replace(" ", "")` with str arguments on bytes: a TypeError for every PFA file.
* text.py l.334: in the loop of texmessage.load_graphics the next match is searched with quoted_file_pattern instead of the pattern p of the loop. With two graphics files `<a.eps><b.eps>` the message of the second one is left, and results in a TexResultError; and a quoted loading message `("name")` would be removed by load_graphics (load_graphics_refuted).
* text.py l.1040-1042: the warnings of _cleanup use the percent placeholder together with str.format, so that the name of the interpreter is not inserted; l.1039 calls force_done. Not modelled, found while reading.
* graph/style.py _line.addpoint (l.534-556): a point which is outside of the graph by at most epsilon counts as valid, but the line to the next point is cut as if it were inside. When the next point is further outside in the same coordinate, cut becomes negative and the line is extended backwards beyond the last point: for points (1/2, 1/2), (1+eps/2, 0), (1+5eps/2, 1) the line is drawn to (1, -1/4), outside of the graph, however small eps is (GraphLineProps.line_leaves_graph_refuted).
* graphxyz with xy12axesat (graph.py l.1031-1070, tick directions of the x and y axes): the directions of the ticks start at z=0 and end at z=xy12axesat, so the ticks of an axis which is moved up are slanted (`tick_directions_xy12axesat_refuted`); the hidden attribute of the moved axes is still computed as for axes at the edges of the graph.
* graph.py l.385 and l.852: `self.xvtickpoint = self.axes["x"].tickpoint` (should be vtickpoint, as for y): g.xvtickpoint takes an axis value instead of a position between 0 and 1; l.873: `self.zvtickpoint_pt = self.axes["z"].vtickpoint` returns lengths instead of points (read off the text, not modelled).
* stackedbarpos.drawpoint (style.py l.1471-1479) computes vposvalid again only when it was not valid before; when the bar below is within the graph but the stacked one is not, vposvalid stays 1, and e.g. a symbol or text style draws it outside of the graph (`stacked_valid_refuted`).
* bitmap.py l.203: for JPEG files with the resolution per centimetre the vertical resolution is multiplied by 2.45 instead of 2.54, so that such images are placed 3.7 percent too high (`jpeg_dpi_refuted`).
* bitmap.py l.433 and l.541: the name of an image in a PDF file is made of a hash of its color data only. Two images with the same color data but another size, mode or alpha channel (e.g. a 1x2 and a 2x1 image, or two density plots which differ only in the missing points) get the same name, the registry keeps the first one only, and the second one is shown as the first (`image_shown_refuted`).
* density and surface styles with points without a position (pyx/graph/style.py l.1929, 1747): drawpoint stores the color of every point under sharedata.value1 and value2, but gridpos.drawpoint sets these only if vposavailable.  A point with a missing or invalid coordinate thus overwrites the color of the point before it, and as the first point of the data it leads to an AttributeError (theorems density_shows_refuted, density_first_refuted).
* order of surface elements (pyx/graph/style.py l.1780, 1792): the values are drawn in increasing order unless the viewer is beyond the lower end.  When the viewer is in between both ends of a grid direction (for example phi=90 with a central projection), parts of the surface in the back cover parts in the front, since the order would have to change where the viewer is (theorem surface_cells_order_refuted).
* order of the triangles of a surface cell (pyx/graph/style.py l.1761-1774): the four triangles of each cell are sorted by the zindex of the middle of the sides of the whole graph.  The right order depends on the side of the diagonals of the cell the viewer is on, which is the same only if the cells have proportions that fit to the graph (square cells in a square graph).  With other cells, a triangle can be drawn before the one it should be covered by (theorem surface_order_refuted).
* **graph.xvtickpoint / yvtickpoint** (graph.py l.388, axis.py l.642-643). `self.xvtickpoint = self.axes["x"].tickpoint` binds the method which converts its argument, so xvtickpoint(v) is the tick point of the *value* v. yvtickpoint is bound correctly, but anchoredaxis.vtickpoint multiplies a tuple by a length, which is a TypeError. `graph_vtickpoint_refuted`.
* **Grids of vertical graphx** (graph.py l.422-427, 678-679). The x axis of a vertical graphx (the default direction) uses the positioner of y2, whose grid path is yvgridpath, which graphx overrides by raising an exception. Thus a grid works in horizontal one dimensional graphs only. `graphx_grid_refuted`.
* **xaxisat and yaxisat** (graph.py l.543-553, 582-591). Only the painted axis is moved, the positioner is not: xtickpoint, xbasepath etc. continue to give points at the side of the graph. `graph_axisat_methods_refuted`.
* **Axis names** (graph.py l.405-408). Names like x0 or y00 pass the check and give a KeyError for the axis x-2 later. `graph_axis_names_refuted`.
* **Titles in keys overlap** (key.py l.91, box.py l.279-290). The titles are moved by multiples of the largest extent, although they have their base lines, not their upper edges, at the same height. A title with a large depth followed by a title with a large height overlap. `key_titles_apart_refuted`.
* **Columns in keys** (key.py l.112-114). The position of the next column takes the width of the column before into account, but not its left edge: if columns begin at different positions the distance is not columndist. `key_columns_apart_refuted`.
* graph.py has processPS and processPDF of graphs which call finish, but no processSVG.  It works only because page._process calls bbox of the canvas, which finishes graphs, if the page has no bbox.  With page(..., bbox=...) a graph is missing in the SVG file while it is there in PS and PDF files (page_content_svg_refuted).
* graph.dokey called before the first plot paints a key without items, is marked as done, and data plotted later (which is accepted without a warning) never gets into the key (key_shows_titles_refuted).
* plotitem adds a default provider twice if two styles need different things of it in an order such as surface, symbol: pos is in the list of styles twice and evaluates all points twice (styles_added_twice_refuted).  The picture is not changed.
* * connector.curve: the comment in the code and the manual say that the defaults give a curve nearly like the default arc; relangle2=45 is the direction of the running tangent, so that the curve is S-shaped and crosses the straight line, while the arc ends at -45 degrees (default_curve_refuted).
* * connector.twolines with two angles at different sides of the straight line (the lines do not meet): abs() around the quotient of sines hides that there is no solution, and the second line has another direction than given (twolines_two_sides_refuted). The arguments bezierradius, beziersoftness and arcradius are accepted and ignored. absangle2 is the direction from the second center to the corner, while the manual says it is the direction of the running tangent (as it is for curve).
* * connector.shortenpath: at the begin of the path there is no test for an empty list of intersections (there is one for the end), so that a boxdist larger than the connector raises IndexError in split(...)[1] (shorten_begin_refuted).
* mptools `reduce_angle` takes off only one turn: 5 pi becomes 3 pi, not pi (`reduce_angle_range_refuted`); it does not matter for differences of two angles of atan2.
* Error bars on reversed axes (`errorbar_reversed_refuted`): the lower value is at the higher position, and when this one is outside of the graph (`vminpos[i] > 1+epsilon: continue`) nothing is drawn although a part of the bar is visible.
* `rect.drawpoint` cuts with `if xvmin < 0 ... elif xvmax > 1` so that a rectangle which exceeds both sides is drawn outside of the graph (`rect_leaves_graph_refuted`).
* `errorbar(errorbarattrs=None)` raises TypeError in selectstyle although drawpoint handles None (by reading).
* `histogram(fillable=1, fromvalue=None)` raises AttributeError, since vfromvaluecut is only set with a fromvalue; `histogram` and `impulses` use the name of the column as the name of the axis (`graph.axes[columnname]`) and raise KeyError with usenames of pos; an invalid position in a histogram with automatic ranges raises TypeError (by reading).
* **C117 – EPS files with `%%BoundingBox: (atend)` are refused.** `epsfile.py` l.155 compares the list of values, which are bytes, with `["(atend)"]`, a text. The comparison is always false, so the code takes the word for a number and raises. The code for the trailer below it can never be reached (and would compare bytes with texts again). `bbox_at_end_refuted` shows it for all such files. Also `linefilereader.read()` without a count sets the buffer to a text, which breaks the next read.
* **C118 – JPEG files can be truncated.** `jpegimage` (`bitmap.py` l.164-209) does not skip the segments it does not know but searches them for markers. A quantization table with the neighbouring values 255 and 217 is taken for the end of the image, and the rest of the file is left out without an error (`jpeg_cut_refuted`). Every APP0 segment is read as JFIF without looking at its identifier, so a JFXX extension overwrites the resolution.
* **C120 – long character packets of virtual fonts are misread.** In VF files the long form of a packet has a width of four bytes (`242 pl[4] cc[4] tfm[4] dvi[pl]`); `vffile.py` l.93 reads three. The width is divided by 256, the DVI program starts with a wrong byte and lacks its last one, which is then executed as the next command of the file (`vf_long_refuted`, for all characters).
* **cornersmoothed shortens a single line** (deformer.py l.572-573, `smoothed_line_refuted`): for an open subpath made of one line `params[-1]` is `params[0]`, so the beginning of the line, as long as the radius, is cut off.
* **The curvature of smoothed corners has a kink in the middle** (deformer.py l.45-80, `corner_curvature_flat_refuted`): the documentation says that the curvature has zero derivative in the middle; this is so only if both distances from the corner are the same.
* **Curves with wrong curvatures** (deformer.py l.274-278, `endgeometry_refuted`): for each candidate a the nearest candidate b is taken, even if no candidate is near, since only candidates of the right sign are kept. From (0,0) in direction (1,0) to (-13/8,-13/8) in direction (0,1) with curvatures -7/4 the list contains the right (1,1) and the wrong (11/21,11/21), and the wrong one is sorted first, so that normcurve_from_endgeometry_pt returns a curve with the curvatures -5.2.
* **A lone < makes the next word an encoding** (mapfile.py l.75-80): in `< cmr10.pfb` the file name is taken as the name of an encoding file, whatever its suffix, and the line has no font file. The model says so (`Separate` in `MapSpec.v`).
* **Errors in encoding files are NameErrors** (encfile.py l.25, 37-51): the exception class is ENFfileError, but ENCfileError is raised, and filename is not defined. A ValueError of float for SlantFont (mapfile.py l.118) is not caught by readfontmap, so that one such line stops the reading of all map files.
* **]def is one token** (reader.py l.144-148): a token is ended by a delimiter but a closing bracket does not end itself, so that an encoding file ending with `]def` is refused.
* font.py l.348-364: an SVG font used in one text by glyph names and in another by codes maps the code 65 and the glyph A to the same character although code 65 of the font may be another glyph; one of the two texts shows the wrong glyph (`svg_characters_refuted`).
* font.py l.733-734: slanted text in SVG output with fonts calls trafo.outputSVGattrs, which does not exist (trafo.py l.109 is processSVGattrs): AttributeError for every slant but 0 (`svg_slant_refuted`).
* font.py l.512-536: textpath does not use the slant, so text written as path (the default of SVG output) is upright while PostScript and PDF output with fonts is slanted (`path_slant_refuted`).
* font.py l.563-569: the matrix of a slanted builtin font (no font file) is ((1, slant), (0, 1)) instead of a thousandth of it, so PostScript output is 1000 times too large (`ps_slant_refuted`).
* font.py l.181-184: widths of PDF fonts are written with percent-i, which cuts fractions; glyphs after one with a fractional width are placed too far left by PDF viewers while PostScript output and bounding box use the exact width (`pdf_widths_refuted`).
* afmfile.py l.1436-1438: without Descender the descent of the PDF font info is taken from fontbbox[3] (top) instead of fontbbox[1] (bottom) (read, not modelled).
* font.py l.502: an encoding is extended only up to 255 glyphs; a text with 256 different glyphs gets a new encoding each time it is written (harmless, read off `find_encoding`).
* Labels moved together can be overlapped by the title (painter.py l.208-212 and 245-248, box.py l.256-264): with labelvequalize (default) or labelhequalize all labels are moved by the largest shift needed by one of them, but the extent is only increased to labeldist plus the extent of each single label. A label with a large height next to a label with a large depth reaches beyond the extent, and the title is put on top of it (axis_title_apart_refuted: heights 10 and 2, depths 2 and 10, distance 2: the labels reach to 22, the title starts at 18). The same holds for the names of bars (painter.py l.325-360).
* Grid lines are painted for all ticks, even for those with ticklevel None, where no tick line is painted (painter.py l.240-243, axis_grid_refuted); changeable grid attributes are then selected with the index None.
* axis.logarithmic.__call__ (axis.py) returns linear(...): calling a logarithmic axis to modify it gives a linear axis. Read in the source only, not modelled.
* UnicodeEngine.text_pt (text.py l.1749-1751) raises ValueError for any textattrs, and raise NotImplemented() (l.1737, l.1740) raises TypeError. Read in the source only, not modelled.
* deco.colorgradient with steps=1 (deco.py l.907) takes params[1] of a list with one element: IndexError instead of a path in one color (gradient_single_refuted).
* brace: the bars are twice as thick as barthickness, since D1, D2, E1, E2 are moved by the full thickness to each side (deco.py l.1058-1065), while the strokes use half the thickness (brace_thickness_partial).
* brace: in short braces (deco.py l.1027-1029; with the default parameters for half lengths below about 45 pt) osmoothlength_pt is computed from the already corrected ismoothlength_pt; the smooth parts are longer than the bar and the straight part of the outline goes backwards (brace_short_refuted).
* brace: the note that the main bars are parallel to the line between the ends if innerstrokesrelheight + outerstrokesrelheight == 1 is false; the difference in height is innerstrokesthickness * (1.5 - 0.5 / sin(angle)) (brace_bar_slope).
* brace: cos_slangle and sin_slangle are the same for both halves although the left one is mirrored (deco.py l.1139-1140 and 1155-1156), so the cap has a kink at the middle for slanted strokes, as with the default (brace_cap_refuted).
* brace.decorate with reverse, which is the default, and dist: the ends are exchanged, the tangents are not, so that each end is moved perpendicularly to the path at the other end (brace_dist_refuted).
* **svgfile: the clip rectangle of the view box is 28 times too large.** `canvas.clip(path.rect(inner_x, inner_y, inner_width, inner_height))` (svgfile.py l.396) gives numbers in points to `path.rect`, which takes them in the user unit (cm): nothing near the view box is clipped, and with an origin of the view box other than 0 the wrong part is kept. Witness: `svg_clip_refuted`.
* **svgfile: stroke-miterlimit is scaled like a length.** `style.miterlimit(floatAttr("stroke-miterlimit"))` (svgfile.py l.381) multiplies the ratio by 72/resolution: the limit 4 is read as 3. Witness: `svg_miterlimit_refuted`.
* **svgfile: fill and stroke of the svg element are ignored, and a nested svg element replaces the whole picture.** Only g and shapes look at the colors (svgfile.py l.418-479); `self.canvas = canvas.canvas(attrs)` (l.417) throws away everything drawn so far when an svg element is inside of the file. Witnesses: `svg_root_color_refuted`, `svg_nested_refuted`.
* **svgfile: unparsed files with another resolution than 96 and absolute units are scaled wrongly.** The copied svg element is scaled by 72/resolution (svgfile.py l.502) while its bounding box uses absolute units that do not depend on the resolution. Witness: `svg_unparsed_units_refuted`. A missing size raises ValueError with a message saying that it continues (l.415).
* **pattern.__call__ has all its conditions inverted.** `if painttype is not _marker: painttype = self.painttype` (pattern.py l.57-70): arguments that are given are thrown away and arguments that are not given stay the class `_marker`, so that a call raises ValueError or gives a pattern that cannot be written (`self.bbox` is a method, `self.trafo` the trafo of the canvas). Proved for all arguments: `pattern_call_refuted`.
* **Patterns are at another place in SVG.** SVGpattern.output (pattern.py l.370-374) writes the view box, width and height but no x and y, so that the upper left corner of the bounding box of the pattern is put at the origin: the pattern is shifted against PostScript and PDF (`pattern_svg_shifted`, `pattern_svg_refuted`). hatched patterns raise ValueError for SVG since they have steps (`hatched_svg_refuted`). PDF rounds the box of a pattern to whole points (l.323), which shows parts outside of a given bbox (`pattern_pdf_bbox_refuted`).
* **PFM metrics: space, hyphen and bullet** (pyx/font/pfmfile.py l.26-249, `pfm_space_refuted`). The dictionary `ansiglyphs` has the names space, hyphen and bullet several times; in Python the last item wins, so space is 160 instead of 32 and hyphen is 173 instead of 45. Kerning pairs with a space or hyphen, which PFM files store with the codes 32 and 45, are never applied, and the width is taken from another code or is an IndexError when the table ends before it.
* **PFM metrics: codes below the first one** (pyx/font/pfmfile.py l.349, 352, `pfm_negative_index_refuted`). The index `glyphs[name] - dfFirstChar` is not checked; when it is negative the width of another glyph from the end of the table is returned instead of an error.
* **PDF forms: strings are not escaped** (pyx/pdfextra.py l.267-271, 482-484, 689-701, `form_strings_refuted`). Names and values are written between parentheses as they are. A name like `:-)` ends the string early, an unbalanced opening parenthesis swallows the rest of the object and backslashes are lost.
* **PDF forms: values of radio buttons** (pyx/pdfextra.py l.464, 486, `form_radio_refuted`). The states of the boxes are named by the letters and digits of the value, but the value of the list is written in full: for `a b` the states are /ab and the value is /a followed by garbage. Values which differ only in other characters get the same state, and without a default the value is /None, which is no state.
* **PDF forms: default texts with empty lines** (pyx/pdfextra.py l.294, 317, `form_empty_lines_refuted`). Empty lines are dropped in the appearance of the default text though they are in the value, and a default of newlines only is an IndexError.
* **PDF forms: buttons under mirrors** (pyx/pdfextra.py l.500, `form_button_mirror_refuted`). The rectangle of a button is its transformed lower left corner plus the size, so under a mirror it is beside the image of the button, while text fields are placed right.
* style.py l.148-160: dash with rellengths scales the pattern with the line width but not the offset, so the dashes of a wide line are not the stretched ones (`dash_offset_refuted`).
* C144 (box.py l.125-137, 173): circlealignpointvector_pt returns None if the circle around the center is not hit by the corner chosen (and if the radius is below 1e-5), and circlealign_pt then calls translate_pt(*None), a TypeError; a box with a center beside it and further away than the radius cannot be aligned, although it would not have to be moved (circle_outside_refuted).
* **afmfile.py l.1033-1036: a file with a `MetricsSets` line cannot be read** (`metricssets_refuted`). The branch tests `direction is not None`, but `direction` is a local variable that is only assigned in a later branch (l.1081), so the line ends in an UnboundLocalError.
* **afmfile.py l.1137-1140: a comment ends the section of a direction** (`direction_comment_refuted`). After a `Comment` line between `StartDirection 1` and `EndDirection` the parser is back in the main section, and the italic angle that follows is stored for direction 0.
* **afmfile.py: a comment within the character metrics is an error** (`chars_comment_refuted`), although the format allows comments everywhere.
* **afmfile.py l.1437-1438: without `Descender` the PDF descent is the top of the font's bounding box** (`pdf_descent_refuted`): `fontbbox[3]` is used for the ascent and for the descent; `fontbbox[1]` is meant.
* **dvifile.py l.121-123: a marker outside of a group is overwritten by one of the same name within a group** (`marker_lost_refuted`). Within one canvas a repeated name is an error (`marker_twice`), but endsubpage copies the markers of the group without this check.
* **dvifile.py l.469: a page that ends within a group is returned without everything outside of the group** (`unfinished_refuted`): `self.actpage` is the innermost canvas, so the transformation of the text is lost, too.
* **dvifile.py l.261-262: signs and exponents of the numbers of `pyxcolor` are dropped** (`color_exponent_refuted`): of each match only the first group is taken, which is the number without sign and exponent, so `1e-1` is read as 1, and `1e1` as two numbers.
* **text.py l.887-891: textpath fails for texts with rules, colors or groups** (`textpath_refuted`): rectangles and canvases have no method textpath, so fractions, roots and colored texts end in an AttributeError.
* C149: config.local.openers (l.88-89) builds its lambdas in a list comprehension; all of them refer to the variable of the comprehension and open the last of the names. A figure fig.eps in the current directory is not found as "fig", nor is a font .pfa (`local_late_binding_refuted`).
* C149: config.format.tex_ps_header has the empty extension first, and every name ends with it, so .pro is never tried (`header_extension_refuted`).
* C149: config.open (l.372) calls a cached opener outside of the try statement and asks no other locator when the file is gone (`open_stale_refuted`). config.locate (l.277) uses the undefined name extensions and raises NameError (by reading).
* C150: config.recursivedir (l.119-140) prefers the last listed of several names in a directory to the order of the extensions (`recursivedir_order_refuted`), and its openers look up the path when they are called, after other searches may have replaced it (`recursivedir_moves_refuted`). An ls-R file with a name before its first directory raises UnboundLocalError (`lsr_no_directory_refuted`).
* C151: config.getlist with a replacement string which overlaps itself replaces the first of two overlapping places (`getlist_overlap_refuted`).
* SVG files (C152, svg_xlink_refuted): the xlink name space is enabled for the file only if the page itself has used it (svgwriter.py l.211), but resources are written afterwards by the same generator. A page which only uses a pattern with a bitmap in it therefore raises a ValueError. By reading: SVGregistry.mergeregistry (l.47-48) uses the attribute resources, which does not exist, and the deprecated arguments of SVGwriter (l.178-186) use the names logger and mash_as_bitmap_resolution, which are not bound.
* PFA fonts (C153, pfa_read_refuted): from_PFA_bytes (t1file.py l.1166-1167 and 1172) calls index and replace of bytes with texts, which is a TypeError; no PFA file can be read, neither directly nor by from_PF_bytes, which is what fonts of map files and of the unicode engine are read with.
* PFB fonts (C153, pfb_segments_refuted): clear text in more than one segment, which the format allows, is refused (t1file.py l.1208-1211).
* Writing PFB (C154, pfb_output_refuted): outputPFB (t1file.py l.1120) writes the text with the code 128, which the writer cannot encode as ASCII, and later writes bytes as text; it always fails.
* **Data of functions** (C156): `graph.data.function` and `paramfunction` with `points=1` divide by zero (data.py l.544-546, l.579-580). `paramfunction` compares only the last tuple of values with the number of names, after the loop (witness: one value at the first parameter and two at the last; the columns then have two items and one). With `points=0` the variable in that test is unbound. `cbdfile` compares bytes with a text (l.440, 444, 450), a TypeError for each stroke, so that no CBD file with data can be read.
* **Texts of SVG files** (C158, C159, C160): svgfile.py l.226 reads the x-axis-rotation of an arc with `toFloat(args)`, which multiplies by 72/resolution, so that 30 degrees are 22.5 at the usual 96 pixels per inch (arc_angle_refuted). Numbers that end with a point, which SVG 1.1 allows, are cut before the point and the rest is an error (point_refuted). `_svgFloatPattern` does not skip white space at the start, so ` 0,0 1,1` as points of a polyline is an uncaught svgValueError (leading_space_refuted), and so is `translate( 10 20)`, while `translate (10 20)` is ignored without a message (transform_space_refuted). `rgb(300, 0, 0)` is a ValueError where SVG takes the nearest color; ` red` is an error (name_space_refuted); `facade` is a color (color_words_refuted). The alternatives pt and pc of `_svgPathPattern` can never be used, since the first alternative takes the p: a path with lengths in pt or pc is cut there.
* UnicodeEngine.text_pt (text.py l.1748-1751) refuses every text attribute with a ValueError after it has looked for mathmode among the text attributes, so that mathmode, which is a text attribute, can never be used with it (unicode_mathmode_refuted).  The texters of axes have mathmode among their default labelattrs (texter.py l.50, 160, 284).
* In texts for formulas of the Unicode engine hyphens are minus signs except for those in a StackedText (text.py l.1625; stacked_minus_refuted).
* The deformer cycloid leaves more than skiplast undeformed at the end if the number of half loops is even, which is the default (deformer.py l.437, 445: the length 2*radius*sinTurn is always reserved, but used only for odd numbers; cycloid_end_refuted).
* **linesmoothed(atleast=True) has no effect** (`deformer.py` l.1731-1736, 1780, 1784; `metapost/path.py` tensioncurve). The deformer stores a negative tension for it, as MetaPost's internals do, but `tensioncurve` takes `abs(ltension)` and expects its own `latleast` argument. The two deformed paths are always identical (`linesmoothed_atleast_refuted`).
* **Wrong texts after an error** (`text.py` l.1088, 1244-1247, 1314-1317). `_execute` counts the page before TeX answers, and TeX ships it out even if there is an error message; but the boxes are numbered from 1 again in `do_finish`. If a TexResultError of `text` is caught, the box of the next text shows the failed text: the page numbers fit by accident (`wrong_text_refuted`). The first access raises `ValueError` (further pages follow), but later accesses show the wrong page silently.
* **texipc: an error in the first text is final** (`text.py` l.1304-1307). The dvi file is opened only after the first text, which is recognised by the state before it; if that text fails, `self.dvifile` stays None and all later texts fail with an AttributeError (`ipc_first_error_refuted`).
* **Texts lost at the end** (`text.py` l.1095, 1233-1248). The state is STATE_DONE before the last answer is checked. If that check raises, the pages are never read; a second access to a box returns early from `do_finish` and gives None as canvas (`lost_text_refuted`).
* **Refused preambles come back** (`text.py` l.1478-1481). `MultiEngine.preamble` appends to `self.preambles` before the instance refuses it with an AssertionError, so the preamble is executed after the next restart (`refused_preamble_refuted`).
* * **axis.py l.609-613, 687-695** (C169): adjustaxis of a linked axis tests its own canvas only. If graph 2 has an axis linked to one of graph 1 and graph 1 is laid out first (as when both are inserted in a canvas), the values of graph 2 change the range of the axis of graph 1 after it has been painted: both axes show different ranges, and data drawn later in graph 1 do not fit its axis (`linked_range_refuted`).
* * **graph.py l.174-181** (C169): did() registers a call before it is done. If an axis can not be created (for example no values for y), the first finish() or dolayout() raises an exception, but a second one succeeds silently with the axes missing (`failed_layout_refuted`).
* * **graph.py l.367-373** (C168): graphxy(x=None) does not leave out the x axis but raises a KeyError, since x2 is to be linked to it; x2=None has to be given, too (`no_axis_refuted`).
* **Cycloids with negative sign on bent paths** (`deformer.py` l.475): the handles are scaled with `(pathradius - baseY) / pathradius`, but the point of the cycloid is at `sign*baseY`; with sign -1 the handles are shortened on the outside of a bend and made longer on the inside. The cycloid on the other side of the mirrored path is thus not the mirror image (`cycloid_mirror_refuted`, on a circle of radius 10). The code calls the factor a heuristic.
* **A column cannot be used for two axes** (`graph/style.py` l.195, 211-217): `pos` remembers the axis for each column in a dictionary with the column name as key. With `usenames={"x": "t", "y": "t"}` the y axis replaces the x axis there, so that the x coordinates are converted by the y axis and the x axis is never adjusted to the data (`pos_same_column_refuted`).
* **C171 (normpath.py l.176, 740-751).** `normcurve_pt.arclentoparam_pt` divides by the distance of the ends of each straight piece without checking it: for a curve such as (0,0), (0.8 epsilon,0), (0,0), (-2.4 epsilon,0), which is longer than epsilon and so is kept in a normsubpath, it raises a ZeroDivisionError for every length (`closed_half_refuted`). And the wrong values returned by the cubic solver for a double root below the other root (C18) reach the parameters: in exact arithmetic the point at length 0 of the straight curve (0,0), (2,0), (12,0), (54,0) is at the parameter -1/6, before the curve (`length_zero_refuted`). With floats the discriminant of such equations is only nearly zero, so which branch is taken depends on rounding.
* **C172 (normpath.py l.584-588).** `normcurve_pt._paramtoarclen_pt` adds up the lengths of the segments between the parameters in the order in which they are given, without sorting them (`normsubpath._distributeparams`, l.848-869, keeps the order of the caller). For [1/2, 1/3] on the uniform line of length 6 the lengths 3 and 4 are returned instead of 3 and 2, and the total length is 8 instead of 6 (`unordered_refuted`); as the total is added to all later items of the normsubpath, `paramtoarclen` of a list out of order is wrong for these too. normlines do not have this problem.
* **Colors of the gradient style** (C174, `gradient_end_refuted`, `gradient_fails_iff`): pixel i of n is centered at the fraction i/(n-1) of the axis, but style.py l.2086 takes the color at i/n. Every pixel but the first shows the color of a lower value, and the upper end of the axis never shows the color of the upper end of the gradient. The resolution 1 fails with a ZeroDivisionError (l.2103, l.2107).
* **Attributes None of the grid style** (C176, `grid_no_attrs_refuted`): grid.selectstyle keeps None for gridattrs=None (style.py l.1677-1681), but donedrawpoints strokes without testing it (l.1701, l.1715), and canvas.stroke calls list(None). A grid with gridattrs=None raises a TypeError whenever it has a line, where other styles (e.g. line) just draw nothing.
* **Text of a font map entry**: MAPline.__str__ (mapfile.py l.163-165) formats the attributes fontfile and encodingfile, which do not exist (they are called fontfilename and encodingfilename), so it raises an AttributeError.
* **The method locate** (config.py l.273-275): locate.openers loops over the name extensions, which is not defined anywhere, so each search by this method raises a NameError, which is no EnvironmentError and ends config.open.


## Modelled and not modelled

Each definition in a `*Model.v` file cites the lines it models; code not cited
is not modelled.  Not modelled in general: file system access, TeX, zlib,
hashing, number formatting to decimal text (`%g`), logging and warnings, and the
classes of third party libraries.


### Source files

For each file of /repo/pyx: the number of functions and methods whose lines are cited by some definition of a model (which says
how much of them is modelled), the model files mentioning the source file, and the functions and methods which no definition cites;
those are not modelled.  The list is made by comparing the line numbers of the citations with the source;
the numbers are upper bounds, since a Coq file naming several source files counts its line numbers for each of them.

* `__init__.py`: at most 0 of 1 functions cited.  Not modelled: `pyxinfo`.
* `attr.py`: at most 21 of 21 functions cited (AttrModel, AxisPaintModel, StrokeModel).
* `baseclasses.py`: at most 4 of 5 functions cited (CanvasModel).  Not modelled: `canvasitem.bbox`.
* `bbox.py`: at most 35 of 35 functions cited (BboxModel).
* `bitmap.py`: at most 17 of 27 functions cited (BitmapModel, ImagePlaceModel, JpegModel).  Not modelled: `palette.__init__`, `palette.getdata`, `image.tobytes`, `image.convert`, `jpegimage.save`, `PDFimagepalettedata.__init__`, `PDFimagepalettedata.write`, `PDFimage.__init__`, `bitmap_trafo.__init__`, `bitmap.__init__`.
* `box.py`: at most 34 of 37 functions cited (AxisPaintModel, BoxCircleModel, BoxModel, KeyModel).  Not modelled: `polygon_pt.circlealignvector`, `polygon_pt.linealignvector`, `tile`.
* `canvas.py`: at most 28 of 28 functions cited (AxisModel, CanvasBoxModel, CanvasModel, FinishModel, GridStyleModel, LayerModel).
* `color.py`: at most 71 of 71 functions cited (CanvasModel, ColorModel, GradientModel, HexModel, MeshModel, SpecialModel, SvgTextModel).
* `config.py`: at most 13 of 21 functions cited (ConfigModel, KpseModel).  Not modelled: `internal.openers`, `Popen`, `locate.__init__`, `locate.openers`, `get`, `getint`, `getfloat`, `getboolean`.
* `connector.py`: at most 9 of 13 functions cited (ConnectorModel).  Not modelled: `line.__init__`, `curve.__init__`, `arc.__init__`, `twolines.__init__`.
* `deco.py`: at most 34 of 37 functions cited (AttrModel, BraceModel, CanvasModel, DecoModel, ExcludeModel, PatternModel, StrokeModel).  Not modelled: `deco.decorate`, `_stroked.__call__`, `_stroked.decorate`.
* `deformer.py`: at most 13 of 47 functions cited (CycloidModel, DeformModel, LineSmoothModel).  Not modelled: `InvalidParamException.__init__`, `cornersmoothed.__init__`, `cornersmoothed.__call__`, `cornersmoothed.deform`, `mynormpathparam.__init__`, `mynormpathparam.__str__`, `mynormpathparam.__eq__`, `mynormpathparam.__lt__`, `mynormpathparam.__hash__`, `mynormpathparam.smaller_equiv`, `mynormpathparam.larger_equiv`, `mynormpathparam.is_equiv`, `mynormpathparam.is_beg_of_nspitem`, `mynormpathparam.is_end_of_nspitem`, `mynormpathparam.is_beg_of_nsp`, `mynormpathparam.is_end_of_nsp`, `_length_pt`, `parallel.__init__`, `parallel.__call__`, `parallel.deform`, `parallel.deformsubpath`, `parallel.deformsubpathitem`, `parallel.deformnicecurve`, `parallel._path_around_corner`, `parallel._distchecked`, `parallel._distcrossingparameters`, `parallel._get_angles`, `parallel.rebuild_intersected_normpath`, `parallel.normpath_selfintersections`, `parallel.normpath_origintersections`, `parallel._can_continue`, `parallel._skip_intersection_doublet`, `parallel._elim_intersection_doublets`, `parallel._between_paths`.
* `document.py`: at most 15 of 18 functions cited (FinishModel, OutputModel, PageModel).  Not modelled: `paperformat.__init__`, `_paperformatfromstring`, `page.processSVG`.
* `dvi/dvifile.py`: at most 13 of 13 functions cited (DviModel, SpecialModel, TexEngineModel).
* `dvi/encfile.py`: at most 1 of 1 functions cited (MapModel).
* `dvi/mapfile.py`: at most 6 of 6 functions cited (FontLoadModel, MapModel).
* `dvi/texfont.py`: at most 26 of 26 functions cited (DviModel, TfmModel).
* `dvi/tfmfile.py`: at most 2 of 2 functions cited (TfmModel).
* `dvi/vffile.py`: at most 3 of 3 functions cited (VfModel).
* `epsfile.py`: at most 7 of 9 functions cited (EpsModel).  Not modelled: `epsfile.processPS`, `epsfile.processPDF`.
* `font/afmfile.py`: at most 27 of 27 functions cited (AfmModel, TextEncModel, TextPosModel).
* `font/font.py`: at most 35 of 42 functions cited (CanvasModel, SvgWriterModel, TextEncModel, TextPosModel, UnicodeTextModel).  Not modelled: `font.text`, `T1font.__init__`, `T1font.text_pt`, `T1builtinfont.__init__`, `selectedfont.__init__`, `selectedfont.__ne__`, `selectedfont.outputPS`.
* `font/metric.py`: at most 1 of 6 functions cited (TextPosModel).  Not modelled: `metric.width_ds`, `metric.width_pt`, `metric.height_pt`, `metric.depth_pt`, `metric.resolveligatures`.
* `font/pfmfile.py`: at most 7 of 9 functions cited (PfmModel).  Not modelled: `PFMfile.height_pt`, `PFMfile.depth_pt`.
* `font/t1code.py`: at most 2 of 2 functions cited (T1codeModel).
* `font/t1file.py`: at most 112 of 120 functions cited (T1FileModel, T1Model).  Not modelled: `T1File._eexecdecode`, `T1File._eexecencode`, `T1File.getglyphcmds`, `T1File.setsubrcmds`, `T1File.getdata2eexec`, `T1File.writePDFfontinfo`, `T1File.getglyphinfo`, `T1File.from_PF_filename`.
* `graph/axis/axis.py`: at most 59 of 61 functions cited (AxisModel, AxisPaintModel, Graph2dModel, GraphAxesModel).  Not modelled: `anchoredpathaxis.__init__`, `pathaxis`.
* `graph/axis/painter.py`: at most 14 of 21 functions cited (AxisPaintModel).  Not modelled: `_text.__init__`, `geometricseries.select`, `regular.__init__`, `regular.__call__`, `linkedbar.__init__`, `linkedbar.getsubaxis`, `linkedsplit.__init__`.
* `graph/axis/parter.py`: at most 20 of 22 functions cited (ParterModel).  Not modelled: `_partdata.__init__`, `_parter.partfunctions`.
* `graph/axis/positioner.py`: at most 12 of 14 functions cited (AxisPaintModel, Graph2dModel).  Not modelled: `pathpositioner.vtickpoint_pt`, `pathpositioner.vtickdirection`.
* `graph/axis/rater.py`: at most 11 of 11 functions cited (AxisModel).
* `graph/axis/texter.py`: at most 8 of 12 functions cited (TexterModel).  Not modelled: `_texter.labels`, `decimal.__call__`, `default.__call__`, `rational.__call__`.
* `graph/axis/tick.py`: at most 17 of 17 functions cited (AxisPaintModel, ParterModel, TexterModel, TickModel).
* `graph/axis/timeaxis.py`: at most 7 of 7 functions cited (TimeAxisModel).
* `graph/data.py`: at most 18 of 21 functions cited (DataModel, FunctionDataModel, GraphAxesModel).  Not modelled: `file.getcachekey`, `cbdfile.getcachekey`, `function.__init__`.
* `graph/graph.py`: at most 86 of 90 functions cited (FinishModel, GradientStyleModel, Graph2dModel, Graph3dModel, GraphAxesModel, KeyModel, PlotModel, PosModel, TextStyleModel).  Not modelled: `graphxyz.dolayout`, `graphxyz.dobackground`, `graphxyz.doaxes`, `graphxyz.dokey`.
* `graph/key.py`: at most 3 of 3 functions cited (KeyModel).
* `graph/style.py`: at most 130 of 140 functions cited (CanvasModel, GradientStyleModel, GraphBarModel, GraphLineModel, GridModel, GridStyleModel, HistogramModel, PlotModel, PointStyleModel, PosModel, RangeModel, StrokeModel, SurfaceModel, TextStyleModel).  Not modelled: `arrow.key_pt`, `bar.key_pt`, `changebar.selectstyle`, `changebar.initdrawpoints`, `changebar.drawpointfill`, `changebar.donedrawpoints`, `surface.__init__`, `surface.columnnames`, `surface.initdrawpoints`, `surface.drawpoint`.
* `mathutils.py`: at most 7 of 7 functions cited (RootsModel).
* `mesh.py`: at most 11 of 12 functions cited (MeshModel).  Not modelled: `mesh.processSVG`.
* `metapost/mp_path.py`: at most 10 of 12 functions cited (MpModel).  Not modelled: `mp_take_fraction`, `mp_pyth_add`.
* `metapost/path.py`: at most 29 of 29 functions cited (ArcModel, CurveModel, MpModel, PathModel, PathNormModel, SvgFileModel, SvgInModel, UnicodeTextModel).
* `normpath.py`: at most 157 of 179 functions cited (CurveArclenModel, CurveLenModel, CurveModel, NormpathModel, NormsubModel, PathModel, PathNormModel, SubpathArclenModel, SubpathLenModel).  Not modelled: `normsubpathitem.arclentoparam_pt`, `normsubpathitem.at_pt`, `normsubpathitem.atbegin_pt`, `normsubpathitem.atend_pt`, `normsubpathitem.bbox`, `normsubpathitem.cbox`, `normsubpathitem.curvature_pt`, `normsubpathitem.intersect`, `normsubpathitem.modifiedbegin_pt`, `normsubpathitem.modifiedend_pt`, `normsubpathitem._paramtoarclen_pt`, `normsubpathitem.pathitem`, `normsubpathitem.reversed`, `normsubpathitem.rotation`, `normsubpathitem.segments`, `normsubpathitem.trafo`, `normsubpathitem.transformed`, `normsubpathitem.outputPS`, `normsubpathitem.outputPDF`, `normsubpathitem.returnSVGdata`, `normpath.outputPS`, `normpath.returnSVGdata`.
* `path.py`: at most 150 of 157 functions cited (ArcModel, CurveModel, MpModel, PathModel, PathNormModel, SvgFileModel, SvgInModel, UnicodeTextModel).  Not modelled: `line_pt.__init__`, `curve_pt.__init__`, `circle_pt.__init__`, `ellipse_pt.__init__`, `line.__init__`, `curve.__init__`, `circle.__init__`.
* `pattern.py`: at most 13 of 13 functions cited (PatternModel).
* `pdfextra.py`: at most 30 of 35 functions cited (FormModel, PdfModel).  Not modelled: `formfield.bbox`, `formfield.processPS`, `PDFButtonState.__init__`, `PDFButtonState.write`, `PDFchoicefield.__init__`.
* `pdfwriter.py`: at most 27 of 31 functions cited (ImagePlaceModel, PdfModel, TextEncModel).  Not modelled: `PDFobject.write`, `PDFcatalog.__init__`, `PDFcatalog.write`, `PDFinfo.__init__`.
* `pswriter.py`: at most 15 of 16 functions cited (PdfModel, TextEncModel).  Not modelled: `EPSwriter.__init__`.
* `reader.py`: at most 23 of 23 functions cited (ReaderModel).
* `style.py`: at most 35 of 35 functions cited (CanvasModel, GradientStyleModel, PlotModel, StrokeModel).
* `svgfile.py`: at most 13 of 18 functions cited (SvgFileModel, SvgInModel, SvgTextModel).  Not modelled: `svgfile_pt.bbox`, `svgfile_pt.processPS`, `svgfile_pt.processPDF`, `svgfile_pt.processSVG`, `svgfile.__init__`.
* `svgwriter.py`: at most 16 of 23 functions cited (SvgWriterModel, TextEncModel).  Not modelled: `SVGregistry.__init__`, `SVGregistry.mergeregistry`, `SVGresource.__init__`, `SVGresource.output`, `SVGwriter.getfontmap`, `context.__init__`, `context.__call__`.
* `text.py`: at most 78 of 110 functions cited (AxisPaintModel, SpecialModel, TexEngineModel, TexMonitorModel, TexMsgModel, UnicodeTextModel).  Not modelled: `flushhalign.apply`, `halign.__init__`, `halign.apply`, `halign.apply_trafo`, `_phantom.apply`, `parbox_pt.apply`, `parbox.__init__`, `valign.__init__`, `valign.apply`, `_vshift.apply`, `vshift.__init__`, `vshift.setheightexpr`, `_vshiftmathaxis.setheightexpr`, `_vshiftmathaxis.apply_trafo`, `size.apply`, `textextbox_pt.processPS`, `textextbox_pt.processPDF`, `textextbox_pt.processSVG`, `TexEngine.__init__`, `LatexEngine.__init__`, `MultiEngineText.__init__`, `unicodetextbox_pt.transform`, `unicodetextbox_pt.bbox`, `unicodetextbox_pt.textpath`, `unicodetextbox_pt.processPS`, `unicodetextbox_pt.processPDF`, `unicodetextbox_pt.processSVG`, `UnicodeEngine.__init__`, `UnicodeEngine.preamble`, `UnicodeEngine.reset`, `UnicodeEngine.text`, `set`.
* `trafo.py`: at most 32 of 32 functions cited (AxisPaintModel, BraceModel, DecoModel, SpecialModel, TextPosModel, TrafoModel).
* `unit.py`: at most 16 of 17 functions cited (Graph2dModel, UnitModel).  Not modelled: `length.__str__`.
* `utils.py`: at most 2 of 2 functions cited (UtilsModel).
* `writer.py`: at most 3 of 6 functions cited (T1FileModel).  Not modelled: `writer.tell`, `writer.__enter__`, `writer.__exit__`.


## Axioms of each theorem

The output of `Print Assumptions` for the theorems of all claims, grouped by the axioms listed; all axioms are of the standard library.

**No axioms (closed under the global context)** (324 theorems)

* AfmProps: `afm_read`
* AfmProps2: `chars_comment_refuted`, `direction_comment_refuted`, `metricssets_refuted`, `pdf_descent_refuted`, `pdf_flags`, `pdf_heights`
* AfmProps3: `pair_kerning`, `text_width`
* AttrProps: `changelist_noncyclic`, `changelist_selects_cyclically`, `check_accepts`, `check_names_first`, `exclusive_last_wins`, `last_attr_present`, `merge_idempotent`, `merge_idempotent_refuted`, `merge_incremental`, `merge_keeps_order`, `merge_sorted`, `merge_sorted_refuted`, `merge_survivors`, `multichange_by_total`, `selectattrs_in_order`, `survivors_exist_unique`
* BitmapProps: `array_lines_default_refuted`, `array_lines_partial`, `array_lines_refuted`, `ascii85_charset`, `ascii85_roundtrip`, `asciihexstream_refuted`, `imagedata_alpha_back`, `imagedata_alpha_front`, `imagedata_no_alpha`, `inline_lines`, `palette_hival_refuted`, `palette_hival_rgb_partial`, `png_scanlines_roundtrip`, `single_string_lines`, `split_components`, `split_join`
* ConfigProps: `header_extension_refuted`, `local_late_binding_refuted`, `local_opens_last`, `local_single`, `names_tried`, `open_first`, `open_kept`, `open_stale_refuted`
* ConfigProps2: `lsr_finds`, `lsr_no_directory_refuted`, `recursivedir_finds`, `recursivedir_moves_refuted`, `recursivedir_order_refuted`
* ConfigProps3: `getlist_overlap_refuted`, `getlist_reads`, `getlist_words`
* DataProps: `file_accepted`, `file_names`, `file_rows`, `points_accepted`, `points_table`
* DataProps2: `column_name_refuted`, `conf_columns`, `conf_new_option_refuted`, `data_columns`, `empty_file_refuted`, `row_entries`, `row_numbers`, `skiptail_refuted`, `splitatvalue_section`, `splitline_fields`
* DecoProps2: `gradient_single_refuted`
* EncProps: `encoding_read`
* EpsProps: `bytes_read`, `lines_read`, `lines_same`
* EpsProps2: `bbox_at_end_refuted`, `bbox_first`, `bbox_found`
* FinishProps: `page_content_again`, `page_content_bbox`, `page_content_same`, `page_content_svg`, `page_content_svg_refuted`
* FontLoadProps: `encodings_chosen`, `fonts_chosen`, `fonts_loaded_once`
* FormProps: `form_check`, `form_default_text`, `form_empty_lines_refuted`, `form_flags`, `form_radio_off`, `form_radio_partial`, `form_radio_refuted`, `form_selectflags`, `form_strings_partial`, `form_strings_refuted`, `form_types`
* FunctionDataProps: `join_columns`, `strokes_refuted`
* Graph2dProps: `graph_axis_names_partial`
* GraphAxesProps: `graph_axes`, `no_axis_refuted`
* GraphAxesProps2: `axes_in_order`, `axes_show_ranges`, `axes_terminate`, `failed_layout_refuted`, `linked_range_refuted`
* GraphAxesProps3: `one_positioner`
* GraphBarProps: `subvalue_innermost`
* GridProps2: `density_bytes`
* HexProps: `hexstring_accepted`, `hexstring_normalised`, `hexstring_roundtrip`, `white_gray_refuted`
* ImagePlaceProps: `image_shown`, `image_shown_refuted`
* JpegProps: `jpeg_cut_refuted`, `jpeg_read_partial`
* KeyProps: `key_columns_spec`
* KpseProps: `kpsewhich_opens`, `pykpathsea_opens`
* LayerProps: `group_layer`, `layer_itself_refuted`, `layer_keeps_drawings`, `layer_missing_refuted`, `layer_succeeds`, `layers_once`, `simple_layer_place`
* MapProps: `fontmap_last`, `mapline_read`
* MeshProps: `mesh_check`
* NormpathProps2: `mixed_parameters`
* OutputProps: `output_name`, `writetofile_format`
* ParterProps3: `automatic_exponents`, `variants_in_reverse`
* PdfProps: `late_registration_refuted`, `merged_lists`, `page_annotations_partial`, `page_annotations_refuted`, `pdfstring_reads_back_partial`, `pdfstring_wide_refuted`, `ps_payload`, `ps_resources`, `references_resolve`, `registry_contents`, `xref_table`
* PfmProps: `pfm_flags`, `pfm_header`, `pfm_kernings`, `pfm_negative_index_refuted`, `pfm_space_refuted`, `pfm_tables`, `pfm_widths_ansi_partial`, `pfm_widths_encoded`
* PlotProps: `styles_added_twice_refuted`, `styles_known`, `styles_resolved`, `styles_selected`, `styles_terminate`
* PlotProps2: `points_drawn`
* PlotProps3: `graph_steps_once`, `key_shows_titles_partial`, `key_shows_titles_refuted`, `plot_refused`
* PngProps: `png_read_back`
* PosProps: `pos_coordinates`, `pos_multiple`, `pos_same_column_refuted`
* RangeProps: `range_columns`, `range_positions`
* RangeProps2: `range_adjusts`
* RaterProps: `divisor_scales_once`, `manual_ticks_scaled_refuted`
* ReaderProps: `bytes_comments_refuted`, `bytes_tokens_partial`, `fixed_size_readers`, `readint24_partial`, `readint24_refuted`, `readint_decodes`, `readint_total`, `readstring_field`, `readstring_too_long`, `start_behind_first`, `start_separator`, `token_at_end_refuted`, `token_then_bytes`, `tokens_read_back`
* SpecialProps2: `color_exponent_refuted`
* SpecialProps3: `later_value`
* SvgColorProps: `color_hex`, `color_inherited`, `color_names`, `color_numbers`, `color_words_refuted`, `name_space_refuted`
* SvgFileProps: `svg_groups_partial`, `svg_nested_refuted`, `svg_root_color_refuted`
* SvgTextProps: `floats_read`
* SvgTextProps2: `arc_angle_refuted`, `leading_space_refuted`, `path_read`, `path_units_refuted`, `point_refuted`, `transform_space_refuted`, `transforms_read`
* SvgUnitProps: `lengths_read`, `percent_error`
* SvgWriterProps: `svg_empty_page`, `svg_file_tree`, `svg_resources_once`, `svg_xlink_refuted`
* T1CodeStringProps: `charstring_roundtrip_partial`, `commands_are_type1`, `least_number_refuted`, `long_lenIV_refuted`, `numbers_are_type1`, `read_then_written`
* T1FileProps: `encoding_read`, `encoding_standard`, `pdf_font_parts`, `pfa_read_refuted`, `pfa_written`, `pfb_output_refuted`, `pfb_read`, `pfb_segments_refuted`
* T1Props: `composite_bearing_refuted`, `composite_width_refuted`, `glyph_drawn_partial`, `stripped_draws_same`, `stripped_paths_same`
* T1Props2: `flex_subrs_kept`
* T1codeProps: `encoder_is_type1`, `t1_length`, `t1_roundtrip`, `t1_roundtrip_code`
* TexAnswerProps: `answer_checked`, `end_checked`
* TexBracketProps: `nested_brackets_removed`
* TexEngineProps: `engine_numbers`
* TexEngineProps2: `texts_shown`
* TexEngineProps3: `ipc_first_error_refuted`, `ipc_texts_shown`, `late_preamble_refused`, `lost_text_refuted`, `refused_preamble_refuted`, `restarted`, `wrong_text_refuted`
* TexEngineProps4: `pages_reported`, `written_lines`
* TexEngineProps5: `preambles_in_order`
* TexLoadProps: `load_def_removes_files`, `load_graphics_refuted`, `load_messages_removed`, `load_removes_files`
* TexMonitorProps: `monitor_ends`, `monitor_not_raised`, `monitor_reads_outputs`
* TexMsgProps: `escape_typeset`, `remove_pattern_ok`, `remove_string_first`
* TextEncProps: `text_glyphs`, `text_strings`, `text_strings_printable`, `texts_written`
* TextEncProps2: `ligatures_resolved`, `svg_characters`, `svg_characters_refuted`
* TextStyleProps: `text_columns`
* TexterProps: `decimal_labels_denote`, `decimal_labels_separated`, `decimal_ticks`, `default_labels_denote`, `equaldenom_fails_refuted`, `mantissa_exponent`, `mantissa_formatting_refuted`, `padding_separators_refuted`, `period_separators_refuted`, `rational_labels_partial`
* TfmProps: `char_info_fields`, `face_letters`, `tfm_accepts`, `tfm_scaled_as_tex`, `tfm_scaled_close`, `tfm_short_header_refuted`, `tfm_tables`
* TfmProps2: `tfm_char_sizes`
* TickProps: `abs_exact`, `compare_partial`, `compare_refuted`, `copy_third_refuted`, `decimal_denominator`, `equality_exact`, `inplace_division_by_zero_refuted`, `inplace_exact`, `maxlevels_least`, `merge_attributes`, `merge_is_sorted`, `merge_keeps_inputs_refuted`, `merge_positions`, `merge_without_equal`, `power_exact`, `product_denominator`, `product_exact`, `quotient_by_zero_reported`, `quotient_exact`, `string_accepted`, `string_power_exact`, `string_value_exact`, `string_without_digits_refuted`, `zero_power_refuted`
* TimeAxisProps: `time_linear`, `time_merged`, `time_labelled`
* UnicodeTextProps: `unicode_mathmode_refuted`
* UtilsProps: `kwsplit_error_iff`, `kwsplit_partitions`, `kwsplit_placement`, `merge_members_kwargs_last_wins`
* VfProps: `vf_long_refuted`, `vf_read_partial`

**`ClassicalDedekindReals.sig_forall_dec`** (22 theorems)

* BboxProps: `enlarged_exact`
* CanvasProps: `fillrule_refuted`, `formats_agree`, `pdf_draws`, `pdf_draws_strict`, `pdf_strict_refuted`, `ps_draws`, `ps_draws_fonts`, `ps_font_refuted`, `single_clip_only`, `svg_draws`, `svg_opacity_refuted`, `svg_order_refuted`, `svg_ornament_refuted`, `svg_text_refuted`
* Graph2dProps: `graph_axis_defined`, `graph_axis_names_refuted`, `graph_flipped`
* PatternProps: `hatched_svg_refuted`
* TextPosProps2: `laid_unique`
* TextStyleProps: `text_placed`
* UnitProps: `scales_follow_history`

**`ClassicalDedekindReals.sig_forall_dec`, `FunctionalExtensionality.functional_extensionality_dep`** (196 theorems)

* AxisPaintProps4: `subaxis_positions`
* AxisProps: `axis_range_order`, `axis_range_smallest`, `data_inside_axis`, `linear_axis_monotone`, `linear_convert_exact`
* AxisProps2: `best_partition_chosen`, `best_partition_refuted`, `partition_search`, `search_finds_least`
* BarProps: `bar_convert_inside`, `bar_history`, `bar_regions`
* BboxProps: `additions_smallest`, `box_measures`, `disjoint_product_refuted`, `enlarged_contains`, `intersects_iff`, `lowres_smallest`, `product_common_points`, `product_inplace`, `sum_algebra`, `sum_permutation`, `transform_inplace`, `transformed_smallest`
* BraceProps2: `brace_dist_partial`, `brace_dist_refuted`, `brace_stretch`
* CanvasBoxProps: `canvas_bbox_clipped`, `canvas_bbox_contains`, `canvas_bbox_tight_refuted`, `process_bbox_adds`
* CanvasProps: `attrs_left_to_right`
* ColorProps: `cmyk_rgb_cmyk`, `conversions_total`, `gray_and_back`, `gray_by_any_way`, `gray_of_cmyk_refuted`, `hsb_rgb_hsb`, `rgb_cmyk_rgb`, `rgb_hsb_rgb`, `undercolor_removal`
* ConnectorProps3: `omitends_part`, `shorten_begin_part`, `shorten_begin_refuted`
* CurveProps: `coordinate_derivatives`, `item_points`, `segments_trace`, `split_traces`
* DecoProps2: `gradient_seen`, `text_place_reversed`
* DeformProps5: `first_solution`
* DviProps: `dvi_nop_refuted`, `dvi_page`, `font_size_consistent`, `magnification_refuted`, `virtual_first_font_refuted`, `virtual_registers_refuted`, `virtual_setrule_refuted`
* EpsProps3: `eps_placed`
* ExcludeProps: `excluded_union`, `kept_complement`
* FormProps: `form_lines`, `form_radio_bbox`, `form_rect`
* FunctionDataProps: `param_points`, `param_sizes_refuted`
* GradientProps: `jet_continuous`, `linear_gradient`
* GradientStyleProps: `gradient_end_refuted`, `gradient_fails_iff`, `gradient_pixels`
* Graph2dProps: `graph_area`, `graph_autokey`, `graph_axes_apart`, `graph_axis`, `graph_axisat`, `graph_axisat_methods_refuted`, `graph_basepath`, `graph_cap`, `graph_geodesic`, `graph_ratio`, `graph_tickpoint`, `graph_vtickpoint_refuted`, `graphx_grid_refuted`, `graphx_positions`
* GraphBarProps: `bar_begin`, `bar_ends`, `bar_rectangle`, `bar_valid`, `stacked_bars`, `stacked_valid_again`, `stacked_valid_refuted`
* GraphLineProps: `line_is_clipped`, `line_leaves_graph_refuted`, `line_stays_inside`
* GridProps: `density_first_refuted`, `density_shows`, `density_shows_refuted`, `grid_values`
* GridProps2: `density_pixels`, `density_position`, `grid_sorted`
* GridStyleProps: `grid_no_attrs_refuted`, `grid_style_lines`
* HistogramProps: `histogram_draws_bars`, `histogram_draws_steps`
* HistogramProps2: `filled_steps_closed`, `histogram_connected`, `histogram_inside`
* HistogramProps3: `auto_histogram`, `filled_bars`
* ImagePlaceProps: `image_same_place`, `image_size`, `image_within_bbox`, `jpeg_dpi_horizontal`, `jpeg_dpi_refuted`
* KeyProps: `key_columns_apart`, `key_columns_apart_refuted`, `key_inside`, `key_outside`, `key_position_names`
* LineSmoothProps: `linesmoothed_call`
* MeshProps: `mesh_flat_refuted`, `mesh_monotone`, `mesh_written`
* MpProps2: `tensions_given`
* NormpathProps: `parameters_ordered`
* NormpathProps2: `path_points_independent`
* NormsubProps2: `point_unique`, `points_independent`, `queries_independent`, `split_pieces_trace`
* ParterProps: `linear_partition_exact`, `stretched_ends_are_ticks`
* PatternProps: `crosshatched_lines`, `hatched_lines`, `pattern_call_refuted`, `pattern_pdf_bbox_refuted`, `pattern_svg_refuted`, `pattern_svg_shifted`, `pattern_tiled`
* PointStyleProps: `errorbar_reversed_refuted`, `errorbar_visible`, `errorbars_drawn_partial`, `impulses_drawn`, `rect_clipped_partial`, `rect_leaves_graph_refuted`
* RaterProps: `cube_rate_exact`, `cube_rate_monotone`, `distance_rate_average`, `distance_rate_symmetric`, `rateticks_mean`
* StrokeProps: `dash_offset_refuted`, `dash_outputs`, `dash_relative_partial`, `stroke_last_wins`
* SvgFileProps: `svg_miterlimit_refuted`, `svg_placed`, `svg_units`, `svg_unparsed_placed`, `svg_unparsed_units_refuted`
* SvgInProps2: `svg_elevated_curve`, `svg_quadratic_curve`
* SymbolProps: `symbols_centered`
* T1Props: `div_refuted`, `trafo_shift`
* TextPosProps: `text_pdf`, `text_postscript`
* TextPosProps2: `path_slant_refuted`, `pdf_widths_partial`, `pdf_widths_refuted`, `ps_slant`, `ps_slant_refuted`, `svg_slant_refuted`, `text_box`, `text_path`, `text_svg`
* TrafoProps: `apply_lengths`, `inverse_inverts`, `methods_follow`, `product_composes`, `product_monoid`, `scale_is_scaling`, `scale_lengths`, `translate_moves`, `written_matrices`
* UnicodeTextProps: `stack_alignment`, `stacked_minus_refuted`, `text_box`, `texts_in_line`
* UnitProps: `inch_in_units`, `kind_scales_alone`, `length_arithmetic`, `length_comparison`, `true_lengths_fixed`

**`ClassicalDedekindReals.sig_forall_dec`, `ClassicalDedekindReals.sig_not_dec`, `FunctionalExtensionality.functional_extensionality_dep`** (139 theorems)

* ArcProps: `arc_bbox_negative_refuted`, `arc_bbox_smallest`, `arc_curve_tangents`, `arc_curves`, `arc_curves_close`
* ArcSpeedProps: `arc_curves_speed`
* AxisPaintProps: `axis_labels`, `axis_ticks`
* AxisPaintProps2: `axis_extent`, `axis_grid_refuted`, `axis_title`, `axis_title_apart`, `axis_title_apart_refuted`
* AxisPaintProps4: `bar_extent`, `bar_names`, `bar_ticks`, `break_extent_covers`, `break_lines_placed`
* BoxAlign: `align_convex`, `clockwise_refuted`, `extent_width`, `tile_direction_refuted`, `tile_gap`
* BoxCircleProps: `circle_align`, `circle_equal`, `circle_outside_refuted`
* BoxProps: `box_crossing`, `box_distance`, `point_distance`
* BraceProps2: `brace_bar_slope`, `brace_short_refuted`
* CurveArclenProps: `curve_arclens_partial`, `unordered_refuted`
* CurveProps: `arclen_enclosed`, `curvature_frenet`, `line_arclen_exact`, `line_intersect_complete`, `line_intersect_exact`, `line_intersect_sound`, `short_other_middle_partial`, `short_self_middle_refuted`
* CycloidProps: `cycloid_chain`, `cycloid_end_refuted`, `cycloid_halfloops`
* CycloidProps2: `cycloid_handles`, `cycloid_mirror_refuted`
* DecoProps: `arrow_position`, `arrow_sides`, `arrow_straight`, `arrow_stroke`
* DecoProps2: `hatch_covers`, `hatch_cross`, `text_curved`
* DeformProps: `corner_curvature_flat`, `corner_curvature_flat_refuted`, `corner_smooth`
* DeformProps4: `end_curve_geometry`
* FormProps: `form_button`, `form_button_mirror_refuted`, `form_sizes`
* GradientProps: `gradients_reversed`, `gradients_valid`, `named_ends`
* Graph3dProps: `seen_in_same_direction`, `zindex_order`
* Graph3dProps2: `angle_orientation`, `geodesic_image`, `plane_faces`
* Graph3dProps3: `axes_order`, `axis_visible`, `plane_visible`, `tick_directions`, `tick_directions_xy12axesat_refuted`
* GraphBar3dProps: `bar_sides`, `bars_back_to_front`
* KeyProps: `key_symbols`, `key_titles_apart`, `key_titles_apart_refuted`, `key_titles_right`
* MpProps: `at_least_within_triangle`, `velocity_positive`
* MpProps2: `reduce_angle_range_partial`, `reduce_angle_range_refuted`
* NormpathProps: `last_subpath_short_refuted`, `order_is_arc_length`, `parameter_arithmetic`, `path_lengths_to_params`, `path_params_to_lengths`
* NormsubProps2: `arclen_monotone`, `arclen_roundtrip`, `arclen_to_param`, `param_to_arclen`
* PageProps: `page_centered`, `page_fitted`, `page_flat_refuted`, `page_margin_error`, `page_no_room_refuted`, `page_turned`
* PointStyleProps: `arrow_drawn`
* SpecialProps: `page_read`
* SpecialProps2: `marker_lost_refuted`, `marker_moves`, `marker_twice`, `textpath_letters`, `textpath_refuted`, `unfinished_refuted`
* StrokeProps: `linewidth_names`, `miter_names`
* SubpathArclenProps: `path_arclens`, `subpath_arclens`
* SubpathArclenProps2: `subpath_arclens_total`
* SurfaceProps: `surface_cells_order`
* SurfaceProps2: `surface_order`
* SurfaceProps3: `surface_back`
* SurfaceProps4: `surface_complete`
* SurfaceProps5: `surface_cells_order_refuted`
* SvgArcProps: `svg_arc_trafo`
* SvgFileProps: `svg_clip_refuted`, `svg_no_viewbox`, `svg_size_needed`, `svg_viewbox`
* SvgTrafoProps: `svg_matrix_order_refuted`, `svg_matrix_refuted`, `svg_matrix_transposed`, `svg_skew_order_refuted`, `svg_trafo_composition`, `svg_trafo_empty`
* SymbolProps: `symbol_lengths`
* TrafoProps: `mirror_involution`, `mirror_line_refuted`, `mirror_reflects_negative`, `rotate_is_rotation`, `rotate_isometry`, `rotate_lengths`, `rotations_add`, `slant_origin_partial`, `slant_pt_origin`, `slant_pt_reference_refuted`, `slant_reference_refuted`

**`ClassicalDedekindReals.sig_forall_dec`, `ClassicalDedekindReals.sig_not_dec`, `Classical_Prop.classic`, `FunctionalExtensionality.functional_extensionality_dep`** (134 theorems)

* AxisPaintProps3: `text_along`, `text_upright`, `title_along`, `title_vertical`
* AxisProps: `limits_in_any_order`, `log_axis_monotone`, `log_convert_exact`
* BraceProps: `brace_closed`, `brace_smooth`
* BraceProps2: `brace_cap_refuted`, `brace_places`, `brace_thickness_partial`
* ConnectorProps: `arc_angle`, `arc_connector`
* ConnectorProps2: `curve_connector`, `default_curve_refuted`, `twolines_angle_middle1`, `twolines_angle_middle2`, `twolines_count`, `twolines_two_angles`, `twolines_two_sides_refuted`
* ConnectorProps3: `twolines_middle_length`, `twolines_other_end`, `twolines_same_end`, `twolines_two_lengths`
* CurveLenProps: `closed_half_refuted`, `curve_lengths_partial`, `length_zero_refuted`
* CurveProps: `bezier_range_exact`, `item_bbox_smallest`, `item_cbox_contains`, `item_trafo_frame`
* DecoProps2: `text_beside`
* DeformProps2: `smoothed_keeps`, `smoothed_line_refuted`, `smoothed_smooth`
* DeformProps3: `smoothed_near`
* DeformProps4: `controldists_linear`, `controldists_partial`
* DeformProps5: `endgeometry_refuted`
* FunctionDataProps: `function_points`, `single_point_refuted`
* LineSmoothProps: `linesmoothed_atleast_refuted`, `smoothed_path`
* MpPathProps: `closing_line_refuted`, `controls_before_line_refuted`, `elements_understood`, `keepangles_at_end_refuted`, `metapost_path`, `smooth_before_line_refuted`, `smooth_behind_line_refuted`
* MpProps: `choices_are_hobbys`, `choices_exist_refuted`, `smooth_knots_smooth`
* NormpathProps2: `path_bbox_smallest`, `path_join_ends`, `reversed_path`, `transformed_path`
* NormpathProps3: `path_split_runs`, `split_skipped_refuted`
* NormpathSplitProps: `path_split_route`
* NormsubProps: `append_closed`, `append_closed_refuted`, `closed_subpath`, `contiguous_items_accepted`, `gap_refuted`, `join_ends`, `join_skipped_refuted`, `short_item_refuted`, `stored_items_long_partial`, `subpath_connected`
* NormsubProps2: `points_skipped`, `reversed_closed_refuted`, `reversed_skipped_refuted`, `reversed_subpath`, `reversed_without_epsilon`, `segments_closed_refuted`, `segments_ends`, `subpath_bbox_smallest`, `transformed_ends`, `transformed_refuted`, `transformed_subpath`
* ParterProps2: `automatic_distances`
* ParterProps3: `log_fixed_end_refuted`, `log_partition_exact`, `log_zero_refused`
* PathArcProps: `arc_backward_refuted`, `arct_coincident_refuted`, `arct_collinear`, `arct_tangent`, `svg_arc_upright_refuted`, `svg_arc_written`, `svg_arcn_written`, `svg_arct_after_arc_refuted`, `svg_arct_after_close_refuted`
* PathBbox: `pathitems_bbox_smallest`
* PathEndProps: `normpath_subpaths`, `path_end_point`
* PathLenProps: `path_lengths_partial`
* PathNormProps: `arc_after_close`, `arc_as_curves`, `cache_alias_refuted`, `cache_epsilon_refuted`, `cache_transparent`, `normpath_after_close_refuted`, `normpath_of_path`, `normpath_roundtrip`, `roundtrip_skipped_refuted`
* PathPdfArcProps: `pdf_same_as_ps_arcs`
* PathProps: `pdf_after_close_refuted`, `pdf_close_refuted`, `pdf_same_as_ps`, `svg_same_as_ps`
* RootsProps: `cubic_double_root_refuted`, `cubic_roots_partial`, `quartic_double_root_refuted`, `quartic_roots_partial`, `roots_low_degree`, `roots_of_zero`, `roots_refused`
* SegmentProps: `segments_points`
* StrokeProps: `miter_default`
* SubpathLenProps: `subpath_lengths_partial`
* SurfaceProps5: `surface_order_refuted`
* SvgArcProps: `svg_arc_center`, `svg_arc_equal_ends_refuted`
* SvgArcProps2: `svg_arc_ends`
* SvgArcProps3: `svg_arc_drawn`
* SvgInProps: `svg_path_drawn`
* SvgInProps2: `svg_draw_after_close_refuted`, `svg_smooth_after_cubic_refuted`, `svg_smooth_after_quadratic_refuted`
* SvgInProps3: `svg_path_read_right`
* SymbolProps: `symbol_areas`

