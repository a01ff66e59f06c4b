{"id": "C01", "title": "Length arithmetic is linear and agrees with conversion", "statement": "For every setting of the user/visual/width/text scales made with unit.set, converting a length expression built from lengths and numbers with +, -, unary -, * number and / number gives exactly the number obtained by converting the operands first and doing the arithmetic on the results; comparisons of two lengths agree with the comparison of their converted values; the quotient of two lengths is the quotient of their conversions.", "quantifier": "all length expressions (any nesting), all scale settings, all units", "why_tests_cant": "Tests fix one scale setting and a few sums; the claim is about every nesting of operations under every global scale state.", "anchors": ["pyx/unit.py:length", "pyx/unit.py:_convert_to", "pyx/unit.py:set"]}
{"id": "C02", "title": "True lengths ignore the global scales, the other kinds scale exactly with their own factor", "statement": "After any sequence of unit.set calls, a length made only of true parts converts to the same value as before, and a purely user/visual/width/text length converts to (factor of its own kind) times its unscaled value, independent of the other factors.", "quantifier": "all lengths, all histories of unit.set calls (any subset of factors changed in each call)", "why_tests_cant": "The global scale state is reached through arbitrary histories of set calls.", "anchors": ["pyx/unit.py:set", "pyx/unit.py:_convert_to", "pyx/unit.py:length.__init__"]}
{"id": "C03", "title": "Transformation product is composition", "statement": "Applying a product of transformations to a point equals applying the factors one after another from right to left; the product is associative with the identity as unit; x.rotated/.scaled/.slanted/.translated/.mirrored(...) equals x followed by that operation.", "quantifier": "all affine transformations, all chains of any length, all points", "why_tests_cant": "Only a proof covers all matrices and arbitrarily long chains.", "anchors": ["pyx/trafo.py:trafo_pt.__mul__", "pyx/trafo.py:trafo_pt.apply_pt", "pyx/trafo.py:trafo_pt.rotated"]}
{"id": "C04", "title": "Inverse transformation really inverts", "statement": "inverse() succeeds exactly for transformations with non-vanishing determinant (otherwise a division error is raised), and then applying the transformation and its inverse in either order returns every point.", "quantifier": "all affine transformations and points", "why_tests_cant": "Continuum of matrices; tests check a handful.", "anchors": ["pyx/trafo.py:trafo_pt.inverse"]}
{"id": "C05", "title": "Rotation, scaling, slanting and translation have their documented geometric meaning", "statement": "rotate(angle, x, y) keeps (x, y) fixed and preserves all distances and orientation; scale(sx, sy, x, y) keeps (x, y) fixed and scales offsets; translate moves every point by the same vector; slant_pt keeps its reference point; rotations about the same point add their angles.", "quantifier": "all angles, factors, centres and points", "why_tests_cant": "Geometric law over a continuum of parameters.", "anchors": ["pyx/trafo.py:rotate_pt", "pyx/trafo.py:scale_pt", "pyx/trafo.py:slant_pt", "pyx/trafo.py:translate_pt", "pyx/trafo.py:_rmatrix", "pyx/trafo.py:_rvector"]}
{"id": "C06", "title": "mirror(angle) mirrors at the line through the origin with the given direction", "statement": "mirror(angle) maps every point of the line through (0,0) with direction angle (in degrees) to itself, negates the perpendicular direction, and is its own inverse.", "quantifier": "all angles and points", "why_tests_cant": "Unit tests only check that mirroring twice is the identity, which holds for a reflection at any line.", "anchors": ["pyx/trafo.py:_mmatrix", "pyx/trafo.py:mirror"]}
{"id": "C07", "title": "slant keeps its reference point in every unit", "statement": "slant(a, angle, x, y) keeps the point (x, y) given as lengths fixed.", "quantifier": "all slant factors, angles and reference points", "why_tests_cant": "Holds for reference point (0,0), the only one the tests use.", "anchors": ["pyx/trafo.py:slant", "pyx/trafo.py:trafo.__init__"]}
{"id": "C08", "title": "Matrices written to PS, PDF and SVG denote the transformation", "statement": "Interpreting the six numbers written for a transformation with the row-vector convention of PostScript/PDF (and the matrix() convention of SVG) maps every point to the same point as applying the transformation.", "quantifier": "all affine transformations and points", "why_tests_cant": "A transposed matrix is invisible for symmetric matrices and pure scalings.", "anchors": ["pyx/trafo.py:trafo_pt.processPS", "pyx/trafo.py:trafo_pt.processPDF", "pyx/trafo.py:trafo_pt.processSVGattrs"]}
{"id": "C09", "title": "Bounding box union is the least enclosing box", "statement": "The sum of bounding boxes contains each summand, is contained in every box containing all summands, does not depend on order or grouping, has the empty box as unit, and in-place and functional versions agree; including points one by one gives the smallest box containing all of them.", "quantifier": "all finite collections of boxes (empty and non-empty) and points, in any order", "why_tests_cant": "Order independence and leastness over arbitrary collections.", "anchors": ["pyx/bbox.py:bbox_pt.__add__", "pyx/bbox.py:bbox_pt.__iadd__", "pyx/bbox.py:bbox_pt.includepoint_pt"]}
{"id": "C10", "title": "Transformed bounding box contains the image of the box", "statement": "transform/transformed give the smallest axis-parallel box containing the images of all points of the box; transforming the empty box gives the empty box.", "quantifier": "all boxes, all affine transformations, all points in the box", "why_tests_cant": "All interior points of a continuum of boxes under all transformations.", "anchors": ["pyx/bbox.py:bbox_pt.transform", "pyx/bbox.py:bbox_pt.transformed"]}
{"id": "C11", "title": "Intersection of bounding boxes and the intersects test", "statement": "For non-empty well-formed boxes, intersects() is true iff the boxes share a point; the product of boxes contains exactly the common points; if there are none the result should be empty.", "quantifier": "all pairs of well-formed boxes", "why_tests_cant": "Includes touching, nested and disjoint boxes in all relative positions.", "anchors": ["pyx/bbox.py:bbox_pt.__mul__", "pyx/bbox.py:bbox_pt.__imul__", "pyx/bbox.py:bbox_pt.intersects"]}
{"id": "C12", "title": "Low resolution tuple and enlargement enclose the box", "statement": "The integer box written as %%BoundingBox contains the real box and exceeds it by less than one unit on each side; enlarging by non-negative amounts contains the original box.", "quantifier": "all boxes and enlargements", "why_tests_cant": "Rounding behaviour for all reals including negatives and exact integers.", "anchors": ["pyx/bbox.py:bbox_pt.lowrestuple_pt", "pyx/bbox.py:bbox_pt.enlarge_pt"]}
{"id": "C13", "title": "Exclusive attributes: the last one given wins and at most one survives", "statement": "After merging an attribute list, of each exclusive class exactly the last occurrence given after any clear of that class remains; ordinary attributes keep their number and relative order; clear attributes remove everything of their class before them and do not appear in the result.", "quantifier": "all attribute lists over all class hierarchies (append, exclusive, sort-before, clear)", "why_tests_cant": "Quantifies over arbitrary long lists and interleavings of attribute kinds.", "anchors": ["pyx/attr.py:mergeattrs", "pyx/attr.py:exclusiveattr.merge", "pyx/attr.py:clearclass", "pyx/attr.py:sortbeforeexclusiveattr"]}
{"id": "C14", "title": "Merging attributes is idempotent and incremental", "statement": "Merging an already merged list changes nothing; merging a concatenation gives the same as merging the first part and then continuing with the second.", "quantifier": "all attribute lists", "why_tests_cant": "Arbitrary lists.", "anchors": ["pyx/attr.py:mergeattrs"]}
{"id": "C15", "title": "Changeable attributes select cyclically", "statement": "A changelist with n entries selects for data set index i the entry i modulo n (cyclic in the index, independent of the total); selection keeps the order and number of the list and drops deselected entries.", "quantifier": "all change lists, indices and totals", "why_tests_cant": "Arbitrary lists and indices.", "anchors": ["pyx/attr.py:changelist.select", "pyx/attr.py:selectattrs"]}
{"id": "C16", "title": "Keyword splitting loses and invents nothing", "statement": "kwsplit partitions the keyword dictionary: each entry lands in exactly one of the named parts (with the prefix removed) or in the rest, values are unchanged and the original dictionary can be rebuilt; with allow_only_split an error is raised exactly if the rest is non-empty.", "quantifier": "all keyword dictionaries, all part lists", "why_tests_cant": "All strings including ones with several underscores or empty parts.", "anchors": ["pyx/utils.py:kwsplit"]}
{"id": "C17", "title": "Returned polynomial roots are roots (degree up to two) and all real roots are returned", "statement": "For polynomials of degree one and two (with any number of vanishing leading coefficients) every value returned by realpolyroots is a root, and every real root is returned.", "quantifier": "all real coefficient lists", "why_tests_cant": "Continuum of coefficients including all degenerate cases.", "anchors": ["pyx/mathutils.py:realpolyroots", "pyx/mathutils.py:_realroots_quadratic"]}
{"id": "C18", "title": "Cubic roots are roots", "statement": "Every value returned for a cubic polynomial is a root of it and every real root is returned.", "quantifier": "all real cubic polynomials", "why_tests_cant": "The degenerate double-root branch is never reached by random tests.", "anchors": ["pyx/mathutils.py:_realroots_cubic"]}
{"id": "C19", "title": "Quartic roots are roots and all real roots are returned", "statement": "Every value returned for a quartic polynomial is a root and every real root is returned.", "quantifier": "all real quartic polynomials", "why_tests_cant": "Continuum of coefficients and a factorisation with sign decisions.", "anchors": ["pyx/mathutils.py:_realroots_quartic"]}
{"id": "C20", "title": "Rational numbers parsed from strings have the written value", "statement": "A decimal, exponential or fraction string accepted by the rational constructor denotes exactly the value written in the string.", "quantifier": "all strings of digits, signs, points, exponents and slashes", "why_tests_cant": "Unbounded strings.", "anchors": ["pyx/graph/axis/tick.py:rational.initfromstring", "pyx/graph/axis/tick.py:rational.__init__"]}
{"id": "C21", "title": "Comparison of rationals is the order of the numbers", "statement": "For rationals the operators <, ==, > agree with the order of the represented fractions.", "quantifier": "all pairs of rationals reachable through the constructors and arithmetic", "why_tests_cant": "Sign combinations over unbounded integers.", "anchors": ["pyx/graph/axis/tick.py:rational.__lt__", "pyx/graph/axis/tick.py:rational.__eq__"]}
{"id": "C22", "title": "Arithmetic of rationals is exact", "statement": "Products, quotients, absolute values, integer powers at construction and the in-place versions denote exactly the mathematical result, and division by zero is reported.", "quantifier": "all rationals", "why_tests_cant": "Unbounded integers, all signs.", "anchors": ["pyx/graph/axis/tick.py:rational.__mul__", "pyx/graph/axis/tick.py:rational.__truediv__", "pyx/graph/axis/tick.py:rational.__imul__"]}
{"id": "C23", "title": "Merging tick lists keeps order and loses no tick", "statement": "Merging two sorted tick lists gives a sorted list whose positions are exactly the positions of both inputs; ticks at equal positions are combined into one with the more prominent level; the input lists keep their length.", "quantifier": "all pairs of sorted tick lists", "why_tests_cant": "All interleavings of arbitrary long lists.", "anchors": ["pyx/graph/axis/tick.py:mergeticklists", "pyx/graph/axis/tick.py:tick.merge"]}
{"id": "C24", "title": "Linear partitions give exactly the multiples in the range", "statement": "The ticks of a linear partition with tick distance d on [min, max] are exactly the integer multiples of d in the range (up to the stated epsilon), sorted, without gaps or duplicates; extending the range first makes min and max ticks.", "quantifier": "all ranges and rational tick distances", "why_tests_cant": "Real ranges and arbitrary rational distances.", "anchors": ["pyx/graph/axis/parter.py:linear.getticks", "pyx/graph/axis/parter.py:linear.extendminmax"]}
{"id": "C25", "title": "Logarithmic partitions give exactly the fraction times base powers in the range", "statement": "The ticks of a logarithmic partition are exactly the numbers fraction*base^n inside the range, sorted.", "quantifier": "all positive ranges, all preexponential factors", "why_tests_cant": "Unbounded exponents.", "anchors": ["pyx/graph/axis/parter.py:logarithmic.getticks"]}
{"id": "C26", "title": "Axis conversion maps the range monotonically onto [0, 1]", "statement": "Linear and logarithmic axes map min to 0 and max to 1 (swapped for reversed axes), are strictly monotone, and are independent of whether the limits were given in swapped order with reverse toggled.", "quantifier": "all axis ranges and values", "why_tests_cant": "Continuum of ranges and values.", "anchors": ["pyx/graph/axis/axis.py:linear.convert", "pyx/graph/axis/axis.py:logarithmic.convert", "pyx/graph/axis/axis.py:_regularaxis.__init__"]}
{"id": "C27", "title": "Axis range adjustment covers all data, in any order", "statement": "After any sequence of data adjustments the axis range contains every value seen that is not hidden by a fixed limit, is the smallest such range, and does not depend on the order of the data.", "quantifier": "all sequences of data columns", "why_tests_cant": "All histories and orders of adjustments.", "anchors": ["pyx/graph/axis/axis.py:_regularaxis.adjustaxis"]}
{"id": "C28", "title": "Bar axis subaxes are disjoint, ordered and tile the unit interval", "statement": "The subaxes of a bar axis lie within [0, 1] in order, do not overlap, are separated by the configured distances relative to the total size, and the regions assigned to the bars tile [0, 1].", "quantifier": "all numbers of subaxes, all sizes and distances", "why_tests_cant": "Arbitrary numbers of subaxes with arbitrary sizes.", "anchors": ["pyx/graph/axis/axis.py:bar.create", "pyx/graph/axis/axis.py:bar.convert", "pyx/graph/axis/axis.py:bar.addsubaxis"]}
{"id": "C29", "title": "Raters are optimal at the optimum and grow towards the sides", "statement": "The rate of a cube rater is 0 at the optimum, the weight at the left and right limits, non-negative and strictly monotone on either side, growing with the cube of the distance also beyond the limits. The distance rater gives the average deviation of the ratio of distance and optimum from one, symmetric in the ratio. The rate of a list of ticks is the weighted mean over the levels.", "quantifier": "all rater parameters and densities", "why_tests_cant": "Continuum of densities.", "anchors": ["pyx/graph/axis/rater.py:cube.rate", "pyx/graph/axis/rater.py:distance.rate"]}
{"id": "C30", "title": "Decimal labels denote exactly the tick value", "statement": "The decimal label of a tick, read as a decimal number with an optional repeating part under the period mark, denotes exactly the rational number of the tick, and label creation terminates for every tick.", "quantifier": "all rationals num/denom", "why_tests_cant": "Unbounded integers; the repeating part can be arbitrarily long.", "anchors": ["pyx/graph/axis/texter.py:decimal.labels"]}
{"id": "C31", "title": "Exponential labels decompose the tick exactly", "statement": "The default texter writes a non-zero tick as sign*mantissa*base^exponent with 1 <= mantissa < base and exactly the value of the tick.", "quantifier": "all non-zero rationals, all bases above one", "why_tests_cant": "Unbounded exponents.", "anchors": ["pyx/graph/axis/texter.py:default.labels"]}
{"id": "C32", "title": "Rational labels are in lowest terms or share the least common denominator", "statement": "Numerator and denominator in a rational label represent the tick value, are coprime, and with equaldenom all labels carry the least common multiple of the reduced denominators.", "quantifier": "all lists of rationals", "why_tests_cant": "Unbounded integers and arbitrary lists.", "anchors": ["pyx/graph/axis/texter.py:rational.gcd", "pyx/graph/axis/texter.py:rational.lcm", "pyx/graph/axis/texter.py:rational.labels"]}
{"id": "C33", "title": "ASCII85 output decodes to the original data", "statement": "Decoding the ASCII85 text written for any byte string (with the PostScript/PDF ASCII85Decode rules, skipping newlines) yields the byte string.", "quantifier": "all byte strings of any length", "why_tests_cant": "All lengths modulo four and all four byte groups, including all-zero ones.", "anchors": ["pyx/bitmap.py:ascii85stream"]}
{"id": "C34", "title": "Announced number of ASCII85 lines is the number of lines written", "statement": "The line count used in %%BeginData equals the number of newline-terminated lines of the encoded data for every data length.", "quantifier": "all data lengths, also when the data is split in several strings", "why_tests_cant": "All lengths, boundary cases at the multiples of the line length.", "anchors": ["pyx/bitmap.py:ascii85lines", "pyx/bitmap.py:PSimagedata.output"]}
{"id": "C35", "title": "Image band splitting keeps the pixel data", "statement": "Splitting the interleaved image data in bands and interleaving the bands again gives the original data; PNG scan lines and alpha separation keep every pixel.", "quantifier": "all image sizes, modes and data", "why_tests_cant": "Arbitrary sizes and contents.", "anchors": ["pyx/bitmap.py:image.split", "pyx/bitmap.py:image.__init__"]}
{"id": "C36", "title": "Type 1 encryption and decryption are inverse", "statement": "Decrypting an encrypted byte string with the same key and number of random bytes returns the data, for every key and every choice of random bytes; the algorithm is the one of the Type 1 specification.", "quantifier": "all byte strings, keys and random prefixes", "why_tests_cant": "All byte strings and 65536 keys.", "anchors": ["pyx/font/t1code.py:decoder", "pyx/font/t1code.py:encoder"]}
{"id": "C37", "title": "PDF objects get dense, unique object numbers and are never duplicated", "statement": "After any sequence of registrations (including merging page registries into the global one) the objects written are numbered 1..n in order, each (type, id) pair occurs once, and a second registration of the same pair merges into the first.", "quantifier": "all histories of add and merge operations", "why_tests_cant": "All registration histories.", "anchors": ["pyx/pdfwriter.py:PDFregistry.add", "pyx/pdfwriter.py:PDFregistry.mergeregistry", "pyx/pdfwriter.py:PDFregistry.getrefno"]}
{"id": "C38", "title": "The PDF cross reference table is correct", "statement": "Every in-use xref entry is the byte offset at which that object's 'N 0 obj' header starts, all entries are exactly 20 bytes, and startxref gives the offset of the xref keyword.", "quantifier": "all sequences of objects with arbitrary byte contents", "why_tests_cant": "Arbitrary object contents shift all offsets.", "anchors": ["pyx/pdfwriter.py:PDFregistry.write"]}
{"id": "C39", "title": "PDF strings read back as the original text", "statement": "Parsing the literal string written for a text by PDF rules gives the text back.", "quantifier": "all strings", "why_tests_cant": "All characters including parentheses, backslashes, control and non-latin characters.", "anchors": ["pyx/pdfwriter.py:pdfstring"]}
{"id": "C40", "title": "Annotations appear on the page they were added to", "statement": "A hyperlink or form annotation added to one page is listed in the annotation array of that page only.", "quantifier": "all multi-page documents", "why_tests_cant": "Needs documents with several annotated pages.", "anchors": ["pyx/pdfwriter.py:PDFannotations", "pyx/pdfwriter.py:PDFpage.write"]}
{"id": "C41", "title": "PostScript resources are emitted once, before their first dependants", "statement": "After any sequence of registrations each resource identifier is emitted exactly once, in order of first registration.", "quantifier": "all histories of add operations", "why_tests_cant": "All registration histories.", "anchors": ["pyx/pswriter.py:PSregistry.add", "pyx/pswriter.py:PSregistry.output"]}
{"id": "C42", "title": "Binary integers are decoded big-endian with the right sign", "statement": "Reading an n-byte integer returns the big-endian (two's complement where signed) value for every byte pattern, consumes exactly n bytes, and fails on truncated data.", "quantifier": "all byte patterns and lengths", "why_tests_cant": "All byte patterns.", "anchors": ["pyx/reader.py:reader.readint", "pyx/reader.py:reader.readint24", "pyx/reader.py:reader.readint32"]}
{"id": "C43", "title": "PostScript tokenizer returns the tokens of the text", "statement": "Joining tokens with arbitrary white space and comments and tokenizing gives back the tokens, independent of the white space used.", "quantifier": "all token sequences and separators", "why_tests_cant": "All interleavings of white space, comments and delimiters.", "anchors": ["pyx/reader.py:PStokenizer.gettoken"]}
{"id": "C44", "title": "The bounding range of a Bezier polynomial is exact", "statement": "The range computed for a Bezier coordinate contains every value on the parameter interval [0,1] and both ends are attained.", "quantifier": "all control values", "why_tests_cant": "Extrema at interior parameters over a continuum of coefficients.", "anchors": ["pyx/path.py:_bezierpolyrange"]}
{"id": "C45", "title": "The bounding box of an arc contains the arc and is tight", "statement": "Every point of a circular arc lies in the computed box, and every side of the box is touched.", "quantifier": "all radii and angle pairs", "why_tests_cant": "Arcs through arbitrary many quadrants, angles of any size.", "anchors": ["pyx/path.py:_arcbboxdata"]}
{"id": "C46", "title": "Splitting a Bezier curve reproduces the curve", "statement": "The two halves of a midpoint split and the segments for arbitrary parameter lists trace exactly the original curve under the affine reparametrisation, adjacent segments sharing end points.", "quantifier": "all curves, all parameter lists", "why_tests_cant": "All curves, parameters and points of the curve.", "anchors": ["pyx/normpath.py:normcurve_pt._split", "pyx/normpath.py:normcurve_pt.segments", "pyx/normpath.py:normline_pt.segments"]}
{"id": "C47", "title": "A curve lies in its control box", "statement": "Every point of a path item (parameter in [0,1]) lies in its cbox, and bbox is contained in cbox.", "quantifier": "all curves and parameters", "why_tests_cant": "Continuum of parameters.", "anchors": ["pyx/normpath.py:normcurve_pt.cbox", "pyx/normpath.py:normcurve_pt.bbox"]}
{"id": "C48", "title": "Arc length computation terminates and is enclosed", "statement": "For every curve and every positive accuracy the adaptive arc length computation terminates, the inscribed polygon sum is a lower and the control polygon sum an upper bound of the length of every finer inscribed polygon chain, and the two differ by less than twice the accuracy.", "quantifier": "all curves, all positive accuracies", "why_tests_cant": "Termination for all inputs and a limit statement.", "anchors": ["pyx/normpath.py:normcurve_pt.arclen_pt", "pyx/normpath.py:normcurve_pt._split"]}
{"id": "C49", "title": "Arc length and parameter are inverse on polylines", "statement": "On normsubpaths made of lines, converting an arc length to a parameter and back returns the arc length, parameters outside are clamped or extrapolated on the end items, and the order of the query list does not matter.", "quantifier": "all polylines and query lists", "why_tests_cant": "Arbitrary number of items and queries in any order.", "anchors": ["pyx/normpath.py:normsubpath._arclentoparam_pt", "pyx/normpath.py:normsubpath._paramtoarclen_pt"]}
{"id": "C50", "title": "Line intersections are sound and complete", "statement": "For two line items which are not parallel up to the accuracy and longer than epsilon, the reported intersection parameters lie in [0,1], the points agree up to epsilon, and a common point of both segments is found.", "quantifier": "all pairs of lines and positive epsilon", "why_tests_cant": "Continuum of configurations.", "anchors": ["pyx/normpath.py:normline_pt.intersect"]}
{"id": "C51", "title": "Intersection of short lines uses their midpoints", "statement": "If a line item is shorter than epsilon, intersecting it with a parallel or short line treats it as the point in its middle.", "quantifier": "all short lines", "why_tests_cant": "A coordinate mix-up is invisible for lines near the diagonal or the origin.", "anchors": ["pyx/normpath.py:normline_pt.intersect"]}
{"id": "C52", "title": "Subpaths stay contiguous", "statement": "After any sequence of appends the items of a subpath are contiguous (each begins where the previous ended), no stored item is shorter than epsilon, the begin and end point are the first and last point appended, and closing makes the end meet the begin.", "quantifier": "all sequences of appended items, all positive epsilon", "why_tests_cant": "All histories of appends with arbitrary many too short items.", "anchors": ["pyx/normpath.py:normsubpath.append", "pyx/normpath.py:normsubpath.close", "pyx/normpath.py:normsubpath.flushskippedline"]}
{"id": "C53", "title": "Reversal is an involution and mirrors the parametrisation", "statement": "Reversing twice gives the same items; the point at parameter t of the reversed subpath is the point at n - t of the original.", "quantifier": "all subpaths and parameters", "why_tests_cant": "All item sequences and real parameters.", "anchors": ["pyx/normpath.py:normsubpath.reversed", "pyx/normpath.py:normcurve_pt.reversed"]}
{"id": "C54", "title": "Transforming commutes with evaluating", "statement": "The point at any parameter of the transformed path is the transformed point of the original path.", "quantifier": "all affine transformations, subpaths and parameters", "why_tests_cant": "Continuum.", "anchors": ["pyx/normpath.py:normcurve_pt.transformed", "pyx/normpath.py:normsubpath.transformed"]}
{"id": "C55", "title": "Queries with parameter lists are evaluated independently and in order", "statement": "Evaluating a list of parameters returns the list of individual results in the same order, whatever the order and repetition of parameters.", "quantifier": "all subpaths and parameter lists", "why_tests_cant": "All permutations and repetitions.", "anchors": ["pyx/normpath.py:normsubpath._distributeparams", "pyx/normpath.py:normsubpath.at_pt"]}
{"id": "C56", "title": "Path parameters are totally ordered along the path", "statement": "normpathparam comparison is a total order consistent with the position (subpath first, then parameter), and adding or subtracting lengths moves the arc length by that amount.", "quantifier": "all parameters on a path", "why_tests_cant": "All pairs and triples.", "anchors": ["pyx/normpath.py:normpathparam"]}
{"id": "C57", "title": "The cached normpath always reflects the current path", "statement": "After any sequence of modifications and queries of a path, normpath() returns the same as for a freshly constructed path with the same items.", "quantifier": "all histories of append, extend, join and query operations", "why_tests_cant": "All histories.", "anchors": ["pyx/path.py:path.normpath", "pyx/path.py:path.append"]}
{"id": "C58", "title": "PostScript and PDF output draw the same curve", "statement": "The moves, lines, curves and closes written to PDF for a path describe the same curve as those written to PostScript.", "quantifier": "all paths of moveto, lineto, curveto, rmoveto, rlineto, rcurveto and closepath items", "why_tests_cant": "All item sequences, including drawing after closepath.", "anchors": ["pyx/path.py:path.outputPS", "pyx/path.py:path.outputPDF", "pyx/normpath.py:normsubpath.outputPDF"]}
{"id": "C59", "title": "Arcs begin and end on the circle with continuous pieces", "statement": "The Bezier pieces approximating an arc begin and end at the arc's end points on the circle, are contiguous, have the circle's tangent directions at their ends, and each piece covers at most the configured maximal angle.", "quantifier": "all radii and angle pairs", "why_tests_cant": "Continuum of angles.", "anchors": ["pyx/path.py:_arctobezierpath", "pyx/path.py:_arctobcurve"]}
{"id": "C60", "title": "Pages are centered and fitted", "statement": "With centering, the content box is centered on the paper for both orientations; with fittosize the content lies within the margins and touches them in one direction; an error is raised exactly if the margins leave no room.", "quantifier": "all content boxes, paper formats, margins", "why_tests_cant": "Continuum of sizes and both orientations.", "anchors": ["pyx/document.py:page._process"]}
{"id": "C61", "title": "Canvas attributes act from left to right", "statement": "The total transformation of a canvas applies the transformations in its attribute list in the given order, and a clip path is transformed exactly by the transformations following it.", "quantifier": "all attribute lists", "why_tests_cant": "All interleavings of trafos and clip.", "anchors": ["pyx/canvas.py:canvas.__init__"]}
{"id": "C62", "title": "Graphics state operators are balanced and properly nested in every output", "statement": "For every nesting of canvases, the output has matching gsave/grestore (q/Q, <g>) pairs, BT/ET pairs never overlap them, and the state after a canvas equals the state before it.", "quantifier": "all canvas trees", "why_tests_cant": "All nesting depths and item orders.", "anchors": ["pyx/canvas.py:canvas.processPS", "pyx/canvas.py:canvas.processPDF", "pyx/canvas.py:canvas.processSVG"]}
{"id": "C63", "title": "Layers are drawn exactly once and in the requested order", "statement": "After any sequence of layer calls each existing layer occurs exactly once in the canvas, a layer created or repositioned above/below another one is immediately above/below it, and other items keep their order.", "quantifier": "all histories of layer and insert calls", "why_tests_cant": "All histories.", "anchors": ["pyx/canvas.py:canvas.layer"]}
{"id": "C64", "title": "Color conversions keep the color", "statement": "rgb to cmyk to rgb, gray to rgb/cmyk to gray, and rgb to hsb to rgb return the original color, and all conversions stay in the valid range so that they never raise an error.", "quantifier": "all colors in the unit cube", "why_tests_cant": "Continuum of colors with case distinctions for the hue.", "anchors": ["pyx/color.py:rgb.cmyk", "pyx/color.py:cmyk.rgb", "pyx/color.py:rgb.hsb", "pyx/color.py:hsb.rgb"]}
{"id": "C65", "title": "Hexadecimal color strings round-trip", "statement": "Parsing the hex string of a color made from bytes gives the color back, in the long and the abbreviated three digit form.", "quantifier": "all 2^24 byte triples", "why_tests_cant": "All triples, with the abbreviation rule.", "anchors": ["pyx/color.py:rgb.tohexstring", "pyx/color.py:rgbfromhexstring"]}
{"id": "C66", "title": "Data columns and line selection", "statement": "Points given as rows are available as columns in the same order; reading a file with skiphead, skiptail and every yields exactly the selected data lines, padded to equal length.", "quantifier": "all data sets and selections", "why_tests_cant": "All sizes and combinations of the three parameters.", "anchors": ["pyx/graph/data.py:points", "pyx/graph/data.py:file"]}
{"id": "C67", "title": "Mesh coordinates are quantised within one step of the box", "statement": "Decoding the 24 bit coordinate written for a point gives a value not above the coordinate and less than one quantisation step below; all coordinates of nodes fit in 24 bits.", "quantifier": "all meshes with extended bounding box", "why_tests_cant": "Continuum.", "anchors": ["pyx/mesh.py:coords24bit_pt", "pyx/mesh.py:mesh.bbox"]}
{"id": "C68", "title": "Distance of a point to a polygon", "statement": "The point distance of a polygon is the minimum over all points of its boundary edges of the Euclidean distance.", "quantifier": "all polygons (edges not degenerate) and points", "why_tests_cant": "Continuum.", "anchors": ["pyx/box.py:polygon_pt.pointdistance_pt"]}
{"id": "C69", "title": "SVG transform lists are applied in the SVG order with the SVG matrix layout", "statement": "The transformation built from an SVG transform attribute maps points as defined by the SVG specification: listed transforms are applied from right to left and matrix(a b c d e f) maps (x,y) to (ax+cy+e, bx+dy+f).", "quantifier": "all transform lists", "why_tests_cant": "All lists and all kinds of transforms in all orders.", "anchors": ["pyx/svgfile.py:svgHandler.toTrafo"]}
{"id": "C70", "title": "SVG quadratic and smooth curves are converted exactly", "statement": "The cubic curve inserted for a quadratic SVG segment traces the same quadratic curve; smooth segments reflect the previous control point.", "quantifier": "all control points", "why_tests_cant": "Continuum.", "anchors": ["pyx/svgfile.py:svgHandler.toPath"]}
{"id": "C71", "title": "DVI positions follow the DVI standard", "statement": "Interpreting a DVI page places every glyph and rule at the position given by the DVI standard, independent of how characters are collected to text runs.", "quantifier": "all command sequences", "why_tests_cant": "All interleavings of movement, push/pop, font and character commands.", "anchors": ["pyx/dvi/dvifile.py:DVIfile.readpage", "pyx/dvi/dvifile.py:DVIfile.putchar", "pyx/dvi/dvifile.py:DVIfile.flushtext"]}
{"id": "C72", "title": "TFM char info words are decoded field by field", "statement": "The fields decoded from a TFM char info word recombine to the word, lie in their bit ranges, and the header check makes the reader consume exactly the announced number of words.", "quantifier": "all 32 bit words, all header values", "why_tests_cant": "All words including those with the sign bit set.", "anchors": ["pyx/dvi/tfmfile.py:char_info_word", "pyx/dvi/tfmfile.py:TFMfile"]}
{"id": "C73", "title": "Indexed color spaces announce the number of palette entries", "statement": "The highest index written for the Indexed color space of a palette image is the number of palette entries minus one, for every palette mode accepted (gray, rgb, cmyk).", "quantifier": "all palettes", "why_tests_cant": "All palette sizes and modes.", "anchors": ["pyx/bitmap.py:PDFimage.write", "pyx/bitmap.py:bitmap_trafo.processPS"]}
{"id": "C74", "title": "Frames along a path item follow point and tangent", "statement": "The transformation attached to a parameter of a line or curve maps the origin to the point there and the coordinate axes to unit tangent and unit normal, whenever the derivative does not vanish; the coordinate functions of a curve are the coordinate and its first three derivatives.", "quantifier": "all items, all parameters with non-zero derivative", "why_tests_cant": "Continuum of directions, all quadrants of the arc tangent.", "anchors": ["pyx/normpath.py:normcurve_pt.rotation", "pyx/normpath.py:normcurve_pt.trafo", "pyx/normpath.py:normline_pt.rotation", "pyx/normpath.py:normline_pt.trafo", "pyx/normpath.py:normcurve_pt.xdot_pt"]}
{"id": "C75", "title": "The curvature is the turning rate of the tangent", "statement": "The derivative of the unit tangent is curvature times speed times the unit normal; the computation fails only where the speed is zero.", "quantifier": "all curves and parameters", "why_tests_cant": "A statement about derivatives for all curves.", "anchors": ["pyx/normpath.py:normcurve_pt.curvature_pt", "pyx/normpath.py:normline_pt.curvature_pt"]}
{"id": "C76", "title": "Segments run between the points of their parameters", "statement": "Cutting a subpath at a list of parameters gives one segment for every two successive parameters; it begins at the point of the first and ends at the point of the second parameter, and its items are contiguous.", "quantifier": "all subpaths and parameter lists of at least two members in any order", "why_tests_cant": "All parameter lists crossing any number of items forwards and backwards.", "anchors": ["pyx/normpath.py:normsubpath.segments"]}
{"id": "C77", "title": "The bounding box of a subpath is the smallest one", "statement": "The bounding box of a subpath contains all points of its items and is contained in every box doing so.", "quantifier": "all subpaths", "why_tests_cant": "Continuum of points.", "anchors": ["pyx/normpath.py:normsubpath.bbox"]}
{"id": "C78", "title": "The best partition of an axis is chosen", "statement": "Among the partitions found for an axis the one with the least sum of the rate of its ticks and the rate of its layout is chosen, without laying out each of them; the loop ends for every painter which draws something, and fails only if no partition has a valid layout. The search keeps every rated partition up to the point where the last maxworse ones brought no improvement.", "quantifier": "all lists of rates, all layout rates, all settings of maxworse", "why_tests_cant": "All orders and values of rates, arbitrarily many partitions.", "anchors": ["pyx/graph/axis/axis.py:_regularaxis._create", "pyx/canvas.py:canvas.__len__"]}
{"id": "C79", "title": "A divisor scales each tick of a layout once", "statement": "Laying out a partition on an axis with a divisor multiplies the exact position of each of its ticks by the divisor and changes no level, label or other tick.", "quantifier": "all divisors and tick lists without repeated objects", "why_tests_cant": "All exact rationals; aliasing of tick objects.", "anchors": ["pyx/graph/axis/axis.py:_regularaxis._create", "pyx/graph/axis/tick.py:rational.__imul__"]}
{"id": "C80", "title": "The bounding box of a canvas contains everything drawn", "statement": "The bounding box of a canvas contains every point drawn by its items, mapped by the transformations of the canvases around it, unless the point is clipped away; it does not exceed the box of the clip path, and drawing the canvas reports the same box.", "quantifier": "all nestings of canvases with transformations and clip paths, all contents", "why_tests_cant": "Unbounded nesting and continuous transformations.", "anchors": ["pyx/canvas.py:canvas.bbox", "pyx/canvas.py:canvas.processPS"]}
{"id": "C81", "title": "Excluded ranges of a decorated path are merged exactly", "statement": "Inserting excluded ranges in any order keeps them disjoint and increasing, a parameter is excluded afterwards exactly if it was before or is in the new range, and the segments left to be stroked are exactly the rest of the path.", "quantifier": "all sequences of ranges on an open path", "why_tests_cant": "All relative positions of arbitrarily many ranges.", "anchors": ["pyx/deco.py:decoratedpath.excluderange", "pyx/deco.py:decoratedpath.strokepath"]}
{"id": "C82", "title": "Convex polygons are aligned at lines and put in rows without overlap", "statement": "Aligning a convex polygon at a line moves it along the direction such that all its corners are on the far side of the line and one is on the line; its extent is its width in the direction; polygons put in a row along a direction of length one have at least the given distance.", "quantifier": "all convex polygons with corners in counter clockwise order, all directions and distances (edges not nearly perpendicular to the direction without being so)", "why_tests_cant": "Continuum of shapes and directions with case distinctions for edges and corners.", "anchors": ["pyx/box.py:polygon_pt.linealignvector_pt", "pyx/box.py:polygon_pt.alignvector_pt", "pyx/box.py:polygon_pt.extent_pt", "pyx/box.py:tile_pt"]}
{"id": "C83", "title": "Arcs in SVG output are the arcs of the path", "statement": "For every arc item the arc commands written to SVG (with large-arc and sweep flags) describe exactly the circle arc of the item, mirrored, from the first to the second angle as PostScript defines it.", "quantifier": "all centres, positive radii and pairs of different angles, for arc and arcn, at the begin of a path and within", "why_tests_cant": "Continuum of angles, with the flags depending on the angle modulo whole turns.", "anchors": ["pyx/path.py:arc_pt.returnSVGdata", "pyx/path.py:arcn_pt.returnSVGdata"]}
{"id": "C84", "title": "Tangent arcs touch both lines", "statement": "arct appends a line to the first tangent point and an arc of the given radius of less than half a turn which is tangent to the line from the current point to the first point and to the line from the first to the second point; for points on a line it appends a line to the first point.", "quantifier": "all current points, points and positive radii", "why_tests_cant": "Continuum of configurations.", "anchors": ["pyx/path.py:arct_pt._createarc", "pyx/path.py:arct_pt.updatebbox"]}
{"id": "C85", "title": "The bounding box of a path is the smallest rectangle around it", "statement": "path.bbox, which is calculated item by item without creating the normpath, is the smallest rectangle containing all points of the lines, curves and arcs which the PostScript output of the path draws, including its isolated points.", "quantifier": "all paths of all items except arct, radii not negative", "why_tests_cant": "All sequences of items with relative coordinates after closepath; continuum of curves and arcs.", "anchors": ["pyx/path.py:path.bbox", "pyx/path.py:pathitem.updatebbox", "pyx/path.py:pathitem.createbbox"]}
{"id": "C86", "title": "Paths are converted to normpaths exactly and back", "statement": "If everything a path draws has at least the speed epsilon, the normpath consists of exactly the subpaths, lines and curves drawn, with the closing lines added; arcs are a line and their curves; and a normpath converted to a path and back is unchanged.", "quantifier": "all paths of all items except tangent arcs in which closepath follows drawing and is followed by a move or an arc; all epsilon > 0", "why_tests_cant": "All item sequences, with merging of short items depending on epsilon.", "anchors": ["pyx/path.py:path.normpath", "pyx/path.py:pathitem.updatenormpath", "pyx/path.py:pathitem.createnormpath", "pyx/normpath.py:normsubpath.pathitems", "pyx/normpath.py:normpath.path"]}
{"id": "C87", "title": "SVG elliptic arcs are drawn as SVG defines them", "statement": "For an elliptic arc command the code finds the ellipse of the given radii (scaled up by the least factor if they are too small) and rotation through both end points and the part of it selected by the large-arc and sweep flags, and the path it returns joins the end points along it, up to a relative error of 1e-5.", "quantifier": "all end points that are different, all radii not zero, rotations and flags", "why_tests_cant": "Continuum of points, radii and angles, with the flags selecting one of four arcs.", "anchors": ["pyx/svgfile.py:endpointarc"]}
{"id": "C88", "title": "TFM lengths are scaled exactly as TeX does it", "statement": "The conversion of TFM lengths to DVI units with one long multiplication gives, for every length and every font size, the number which TeX's algorithm in 32 bit arithmetic gives, so that PyX and TeX agree on all character widths.", "quantifier": "all lengths whose first byte is 0 or 255 and all sizes below 2**27", "why_tests_cant": "Rounding differs for single pairs of widths and sizes only; the space is 2**52 pairs.", "anchors": ["pyx/dvi/texfont.py:TeXfont._convert_tfm_to_dvi", "pyx/dvi/texfont.py:TeXfont.getwidth_dvi"]}
{"id": "C89", "title": "MetaPost: angles and control points are those of Hobby's algorithm", "statement": "For knots with given directions, curls and tensions, mp_make_choices solves the equations of mock curvatures: directions and curls are as given, directions and mock curvatures are continuous at smooth knots, and the control points follow from the angles by Hobby's velocities and the \"at least\" rule. Knots in the same place and explicit control points are kept apart from this. An exception is raised exactly if both angles of a segment are 180 degrees.", "quantifier": "all numbers and positions of knots, all directions, curls not below 0, tensions of absolute value at least 3/4, all epsilon > 0", "why_tests_cant": "The system of equations couples all knots of a run, in open and cyclic form, with several special cases; wrong coefficients still give nice looking curves.", "anchors": ["pyx/metapost/mp_path.py:mp_make_choices", "pyx/metapost/mp_path.py:mp_solve_choices", "pyx/metapost/mp_path.py:mp_set_controls", "pyx/metapost/mp_path.py:mp_velocity", "pyx/metapost/mp_path.py:mp_curl_ratio"]}
{"id": "C90", "title": "MetaPost: the path goes through all knots as the links say", "statement": "A metapost path begins at the first knot and continues through all others in their order, by a line, a curve with the chosen control points, or a new subpath, as the link in between says. A last curve leads back to the first knot, and the path is closed if all links are curves.", "quantifier": "all sequences of knots and links", "why_tests_cant": "Control points, types of the knots and links are set in three passes over mutable objects; every combination of knot types and links is a case.", "anchors": ["pyx/metapost/path.py:path.__init__", "pyx/metapost/path.py:line.set_knots", "pyx/metapost/path.py:controlcurve_pt.set_knots", "pyx/metapost/path.py:tensioncurve.set_knots"]}
{"id": "C91", "title": "Charstrings of Type 1 fonts survive decoding and encoding", "statement": "For every list of Type 1 commands and 32 bit integers, T1File._code writes a charstring from which T1File._cmds reads exactly the same list, for every lenIV; the numbers are written in their shortest form by the standard, and every charstring which is read and written again means the same and does not get longer.", "quantifier": "all lists of commands and numbers, all lenIV", "why_tests_cant": "The encoding has four different forms of numbers with boundaries at 107/108, 1131/1132 and 2^31, and the encryption makes every later byte depend on all earlier ones; test fonts hardly contain numbers of four bytes.", "anchors": ["pyx/font/t1file.py:790-843", "pyx/font/t1file.py:96-107", "pyx/font/t1code.py:22-42"]}
{"id": "C92", "title": "The path of a Type 1 glyph is what its charstring draws", "statement": "For every font and every glyph whose charstring is valid by the Type 1 standard (with subroutines, flex, hint replacement, div and composite glyphs), getglyphpath_pt returns the path of the lines and curves which the standard prescribes, transformed by the given matrix, and the glyph's width.", "quantifier": "all fonts, glyphs, transformations, with and without flex", "why_tests_cant": "Charstrings are programs which call each other: the interpretation has to keep the stack, the current point, the flex state and the PostScript stack right over any nesting of calls, which no finite set of fonts exercises.", "anchors": ["pyx/font/t1file.py:74-633", "pyx/font/t1file.py:869-912"]}
{"id": "C93", "title": "Stripping a Type 1 font keeps what the kept glyphs draw", "statement": "For every set of valid glyphs, getstrippedfont finds all subroutines and component glyphs which they call (also through other subroutines and in composite glyphs), such that each of these glyphs has the same charstring and draws the same in the stripped font; without composite glyphs no other glyph but .notdef is kept.", "quantifier": "all fonts and sets of glyphs", "why_tests_cant": "The needed subroutines are found by running the charstrings on a simplified stack machine which ignores most commands; that the values on top of its stack still are the real arguments of every call is an invariant of all programs.", "anchors": ["pyx/font/t1file.py:882-892", "pyx/font/t1file.py:920-978", "pyx/font/t1file.py:1003-1019", "pyx/font/t1file.py:189-198", "pyx/font/t1file.py:582-585"]}
{"id": "C94", "title": "Removing strings and patterns from the TeX output", "statement": "remove_string removes the first occurrence of the string and nothing else; remove_pattern removes exactly the first match of the pattern, and with ignore_nl the match is that of the string without its newlines, and only newlines within the matched part are removed together with it.", "quantifier": "for all strings, and all patterns whose match is a part of the string which is searched", "why_tests_cant": "Newlines in TeX output appear at any place (lines are broken after 79 characters), so the number of ways in which newlines may lie before, within, at the borders of, and behind the match is unbounded.", "anchors": ["pyx/text.py:37-109 (remove_string, remove_pattern)"]}
{"id": "C95", "title": "Escaped strings typeset the string itself", "statement": "escapestring accepts exactly the strings of printable ASCII characters, and the TeX input it returns typesets these characters: no character of the string is interpreted by TeX, and none is lost or repeated.", "quantifier": "for all strings", "why_tests_cant": "The loop changes the string it walks over; a wrong step by the length of a replacement shows only for particular sequences of special characters.", "anchors": ["pyx/text.py:1847-1874 (escapestring)"]}
{"id": "C96", "title": "Nested brackets are removed", "statement": "remove_nested_brackets returns its argument unmodified if the brackets outside of quoted strings are not balanced; otherwise it returns the string without everything within two or more levels of brackets, and nothing else is removed. A quote directly behind an opening bracket begins a quoted string which lasts up to the next quote, if there is one.", "quantifier": "for all strings, all pairs of different bracket characters, and all quote characters different from these, or none", "why_tests_cant": "Bracket structures are unbounded in depth and length, and the code works on lists of positions from the end of the string while cutting the string.", "anchors": ["pyx/text.py:112-183 (index_all, pairwise, remove_nested_brackets)"]}
{"id": "C97", "title": "File loading messages", "statement": "texmessage.load either returns its argument or removes only brackets which begin with the name of an existing file (and brackets nested in them), until no bracket with an unquoted filename remains; text and messages without quotes, with balanced brackets, are reduced to the text if and only if all messages begin with the name of a file. texmessage.load_def does the same for .fd and .def files. texmessage.load_graphics should do the same for .eps files.", "quantifier": "for all strings, and all sets of existing files", "why_tests_cant": "The loops run until nothing is found, over strings with any number of messages, newlines within the filenames at any place, and nested brackets.", "anchors": ["pyx/text.py:258-336 (texmessage.load, load_def, load_graphics)"]}
{"id": "C98", "title": "The output of each TeX job is read completely", "statement": "In every interleaving of the TeX interpreter, the thread of MonitorOutput and the main thread: each call of read after a successful wait (or done) returns exactly the lines which the interpreter printed for that job, no wait for a marker is satisfied too early, the queue of expectations is never full, the thread does not fail, and there is no deadlock.", "quantifier": "for all greetings, all sequences of jobs whose marker is in their last line only, and all schedules", "why_tests_cant": "Races between threads are not reproducible; the number of interleavings is unbounded.", "anchors": ["pyx/text.py:623-795 (MonitorOutput)", "pyx/text.py:1060-1101 (SingleEngine._execute)"]}
{"id": "C99", "title": "Lines in graphs are cut exactly at the boundary of the graph", "statement": "The line style draws exactly those parts of the straight lines between successive data points which lie in the graph: lines which leave or enter the graph, or cross it without any of their ends in it, are cut at the boundary, parts are joined at points in the graph, and missing points interrupt the line. Nothing is drawn outside of the graph, in any number of dimensions.", "quantifier": "all lists of points of any dimension, all epsilon >= 0, coordinates which are not outside of the graph by at most epsilon", "why_tests_cant": "The number of ways a line can cross the boundary grows with the dimension and the comparison of cuts of all coordinates matters only for particular combinations; tests compare rendered examples by eye.", "anchors": ["pyx/graph/style.py:509-629", "pyx/graph/style.py:222-234", "pyx/graph/style.py:653-662"]}
{"id": "C100", "title": "Three dimensional projections show what the viewer sees", "statement": "For the central and the parallel projector, a point in front of the viewer is drawn at exactly that point of the page at which the viewer sees it (the page being upright and perpendicular to the viewing direction); of two points drawn at the same position the one with the smaller zindex is exactly the one which covers the other; a straight line of the graph is drawn as the straight line between the images of its ends; the sign of angle tells in which sense a triangle goes around on the page.", "quantifier": "for all distances, viewing angles, scales, sizes and points in front of the viewer", "why_tests_cant": "the projections are given by expanded determinants with no geometric meaning visible; a test checks some angles by eye, while the claim is about every viewing direction and distance", "anchors": ["pyx/graph/graph.py:687-765 central, parallel", "pyx/graph/graph.py:911-946 graphxyz.vpos_pt, vzindex, vangle, vgeodesic"]}
{"id": "C101", "title": "Axes and planes of three dimensional graphs are at the right sides", "statement": "graphxyz decides for each of the six sides of the box of the graph whether it faces the viewer, and hides an axis exactly when both sides meeting in it face away; then a side is shown exactly if no part of the graph covers it, and an axis is hidden exactly if the graph covers it. The axes with odd numbers are on the side of the viewer. The ticks of an axis point in the direction from the axis to the opposite side of the graph.", "quantifier": "for all projections with the viewer in front of the graph, positive scales, all axes and positions", "why_tests_cant": "the decision is taken at one corner of each side by the sign of an angle; that it is right for all points of the side and for all viewing positions cannot be seen from examples", "anchors": ["pyx/graph/graph.py:765-804 graphxyz.__init__", "pyx/graph/graph.py:960-993,1020-1113 vtickdirection, doaxispositioner"]}
{"id": "C102", "title": "Bars are filled from the begin to the value", "statement": "A bar of a two dimensional graph goes from the begin (the position of fromvalue, or the nearer border of the graph) to the position of the value, and across the place of its name; exactly that part of it is filled which is within the graph, and bars of which nothing is within the graph are left out. Stacked bars begin where the bar before ends and, with addontop, end at the sum of the values; the other dimensions are unchanged. Nested names get the subvalue as innermost part. The flag for valid positions tells whether all positions are within the graph.", "quantifier": "for all conversions of the axes (which may fail), all values, names, columns and all sequences of stacked values", "why_tests_cant": "the order of the two ends, clipping at both sides and missing values combine to many cases, and stacking is a sequence of updates of shared data", "anchors": ["pyx/graph/style.py:1327-1430 barpos", "pyx/graph/style.py:1433-1480 stackedbarpos", "pyx/graph/style.py:1516-1538 bar.drawpoint"]}
{"id": "C103", "title": "Bars of three dimensional graphs are drawn as solid boxes from back to front", "statement": "Of the six sides of a bar exactly those are drawn which face the viewer, and these are not covered by the bar itself. When a bar covers another one at any point, all its sides are painted after those of the other one.", "quantifier": "for central and parallel projections with the viewer in front of the graph, all positions and sizes of bars; for the order, bars whose positions are in a grid (in each dimension but that of the values they are at the same place or apart, with equal widths for central projections)", "why_tests_cant": "the decision is by angles at one corner and by the distance of one point in the middle of each bar; that this is right for all pairs of points of all bars is a geometric fact", "anchors": ["pyx/graph/style.py:1539-1589 bar.drawpoint, donedrawpoints"]}
{"id": "C104", "title": "Images are placed the same in all output formats", "statement": "Every position within a bitmap image is at the same position of the page in PostScript (by the ImageMatrix), PDF (by the unit square under the matrix) and SVG (by the rectangle and the transform attribute): where the transformation of the image takes it. The bounding box contains all of the image. The size of a bitmap keeps what is given, and what is missing follows from the aspect ratio of the pixels, the given ratio or the resolution. In a PDF file every image is shown as itself.", "quantifier": "for all invertible transformations, sizes, ratios, resolutions, positions within the image, and all lists of images", "why_tests_cant": "three different conventions (inverse matrix, unit square, flipped axes) are to agree for all transformations; the sharing of images depends on which images occur together in a document", "anchors": ["pyx/bitmap.py:437-443 bbox", "pyx/bitmap.py:445-573 processPS, processPDF, processSVG", "pyx/bitmap.py:576-602 bitmap_pt", "pyx/bitmap.py:197-204 jpegimage"]}
{"id": "C105", "title": "Density graphs show each point of the data where it is", "statement": "The values of the grid collected by gridpos are different by more than epsilon, and each point belongs to a value within epsilon of its coordinate.  Each pixel of the image of a density graph shows the last point at its position, or is transparent without one; the pixels are the rectangles around the positions with the size of the distance of the values, in the order and with the bytes and alpha channel needed.", "quantifier": "for all data, orders of points, epsilon, and affine graph geometries", "why_tests_cant": "Tests use a few data files on complete grids, where all points are available and no coordinates are nearly the same.", "anchors": ["pyx/graph/style.py:1618-1657", "pyx/graph/style.py:1915-2013"]}
{"id": "C106", "title": "Surfaces are drawn from the back to the front and with the right sides", "statement": "Each cell of the grid with valid data is drawn as four triangles.  No point of an element is between the viewer and a point of an element which is drawn later, and elements have the backcolor exactly if the viewer looks at their back, where the front is the side to which the third coordinate increases.", "quantifier": "for all data on grids, projections, pairs of grid directions, and pairs of points of the elements", "why_tests_cant": "Images have to be judged by eye, and the order matters only where parts of the surface hide others.", "anchors": ["pyx/graph/style.py:1736-1743", "pyx/graph/style.py:1760-1910"]}
{"id": "C107", "title": "Two dimensional graphs place points, axes and the key graph consistently", "statement": "In a graphxy, flipped or not, the unit square of the graph coordinates is exactly the rectangle of the graph; paths, caps, tick points, tick directions and grid lines of every axis (x, x2, x3, ..., y, y2, ...) lie where the coordinate says; axes at the same side never overlap; the key graph is right of all of them.", "quantifier": "all graphs (position, size, flipped), all numbers of axes, all extents of axes, all coordinates", "why_tests_cant": "Tests compare few pictures; with many axes and flipped graphs the combinations of signs and sides are not covered.", "anchors": ["pyx/graph/graph.py:312-686", "pyx/graph/axis/positioner.py:79-107", "pyx/graph/axis/axis.py:615-652"]}
{"id": "C108", "title": "Keys are laid out without overlaps and placed as requested", "statement": "A key is inside or outside of the graph at the requested side with the requested distance; its columns contain all items in order, are balanced and columndist apart; symbols are at the height of their titles, titles are to the right of the symbols and at least dist apart.", "quantifier": "all sizes, positions, numbers of items and columns, and all boxes of titles", "why_tests_cant": "Overlaps occur for unusual titles (large depth followed by large height) only.", "anchors": ["pyx/graph/key.py:28-122", "pyx/graph/graph.py:605-629", "pyx/box.py:256-290"]}
{"id": "C109", "title": "A graph does each step once, in order, and with the right styles and points", "statement": "The styles of a plot item are those given with default providers in front such that every style finds the data it needs; each item gets the number of items with the same styles before it; every row of the data is drawn once with its own values; and in whatever order the do-methods of a graph are called, after finish each item was drawn, selected and evaluated exactly once, with the axes and all styles ready before, and the key shows each titled item once.", "quantifier": "all lists of styles and default providers, all numbers of items, all columns, all sequences of calls of the methods of a graph", "why_tests_cant": "The methods may be called by a user in any order and any number of times and call each other; tests use a few sequences only.", "anchors": ["pyx/graph/graph.py:36-138 default providers, plotitem", "pyx/graph/graph.py:174-308 did, plot, do-methods", "pyx/graph/graph.py:582-616 dolayout, dobackground, doaxes, dokey", "pyx/graph/style.py needsdata and providesdata of all styles"]}
{"id": "C110", "title": "A page has the same content in all output formats", "statement": "Whatever canvases, paths and graphs (finished or not) a page contains, nested in any way: PostScript, PDF and SVG output contain the same items in the same order, which are all items including everything the graphs add when they are finished.", "quantifier": "all trees of items, with and without a bbox of the page or a transformation", "why_tests_cant": "Each format has its own processing methods in each class; tests compare files of a single format with themselves.", "anchors": ["pyx/document.py:71-128 page._process", "pyx/canvas.py:174-285 bbox, processPS, processPDF, processSVG", "pyx/graph/graph.py:183-194 bbox, processPS, processPDF"]}
{"id": "C111", "title": "Connectors go as their angles, bulges and lengths say", "statement": "A connector goes from the center of the first box to the center of the second one. An arc has the bulge given as its greatest distance from the straight line (or the angle given at both ends), a curve has the directions given at its ends and control points in the distance of the bulge, two lines have the two angles or lengths which are given, and exactly two have to be given. What remains after cutting is the part between the last point at the outline of the first box and the first point after it at the outline of the second one.", "quantifier": "all centers, angles, bulges and lengths for which the triangle exists; all outlines", "why_tests_cant": "The cases of two angles and lengths are solved by different trigonometric formulas with turns and signs; tests draw a few connectors and compare nothing.", "anchors": ["pyx/connector.py:34-74 omitends, shortenpath", "pyx/connector.py:81-150 line, arc", "pyx/connector.py:153-206 curve", "pyx/connector.py:209-323 twolines", "manual/connector.rst"]}
{"id": "C112", "title": "Columns of ranges give the range which is drawn and the range of the axis", "statement": "The range of a position is what its columns say: from the min column, or the value less dmin or d, to the max column, or the value plus dmax or d. Each side is given in at most one way, differences only together with the value, and only one axis of a dimension has a range; everything else is refused. The range of a point stands at the index of its dimension, whichever other dimensions have no range. The axis is adjusted to all lower and upper ends of the data, once each, in whatever order the columns come.", "quantifier": "all names of columns and axes, all data, all orders of the columns", "why_tests_cant": "The code uses bit masks and lists of indices of missing dimensions; there are 64 combinations of columns for each axis and dimension, and tests use two or three.", "anchors": ["pyx/graph/style.py:240-388 range"]}
{"id": "C113", "title": "Error bars, rectangles, arrows and impulses show what the data says, within the graph", "statement": "An error bar is drawn for each dimension with a range where the other coordinates are within the graph, and it covers the part of the range which is within the graph. Its ends have caps exactly where an end of the range is given and within the graph. A rectangle is cut at the graph. An arrow has the direction and length given by the data and the point divides it as told. An impulse goes from the base to the point along the value axis.", "quantifier": "all points, ranges, numbers of dimensions and tolerances", "why_tests_cant": "There are many combinations of missing, inside and outside coordinates for each of the dimensions; tests look at a few points inside of the graph.", "anchors": ["pyx/graph/style.py:666-713 impulses", "pyx/graph/style.py:722-803 errorbar", "pyx/graph/style.py:876-938 arrow", "pyx/graph/style.py:942-980 rect"]}
{"id": "C114", "title": "Symbols of the same size have the same area and are centered", "statement": "The square, triangle, diamond and circle of the same size have the same area, the square of the size, up to a few parts in a billion. All symbols are centered at the point of the data, the lines of crosses and plus signs have the same length and the triangle has equal sides.", "quantifier": "all positions and sizes", "why_tests_cant": "The constants in the code are numbers with nine digits without any derivation; a wrong digit in one of them is not visible in a test.", "anchors": ["pyx/graph/style.py:397-432 symbols"]}
{"id": "C115", "title": "Histograms draw the visible part of their bars or steps", "statement": "The lines of a histogram are exactly the sides of its bars within the graph (or, with steps, the ends of the bars, the lines between neighbouring bars and the lines to the base), each line begins at the current point and nothing leaves the graph. For filling, bars become the rectangles within the graph, without lines along the boundary of the graph where one side is cut, and steps become subpaths which begin and end at the base. Automatic ranges have equal widths without gaps, and unequal steps are refused.", "quantifier": "all bars, values, bases and tolerances, in any order and with invalid points; coordinates are in the graph or outside of the tolerance, and bars have the same boundary or a gap", "why_tests_cant": "The outline depends on the sign and size of neighbouring values, on gaps and on cuts at four boundaries; tests contain a few histograms which are looked at by eye.", "anchors": ["pyx/graph/style.py:983-1320 histogram"]}
{"id": "C116", "title": "EPS files are read line by line exactly", "statement": "The line reader for EPS files gives for every file and every block size the lines of the file, where a line ends with CR, LF, or CR LF, and the lines together are the file; the block size makes no difference. Reading a number of bytes continues where the last line ended and gives exactly that many bytes of the file if there are so many.", "quantifier": "all files (lists of bytes), all positive block sizes, all counts of bytes", "why_tests_cant": "The reader joins blocks; errors at block borders (a CR LF which is cut apart, a line which is longer than a block) appear for few files and block sizes only.", "anchors": ["pyx/epsfile.py:57-135"]}
{"id": "C117", "title": "EPS files are placed by their bounding box", "statement": "The bounding box of an EPS file is the one in the first bounding box comment of its header, whether given there or, with (atend), in the trailer. The picture is moved and scaled such that its bounding box has the wanted width, height or scale, keeps its aspect ratio if only one is given, and is at the wanted position by its left, center or right and its bottom, center or top.", "quantifier": "all files with a header of comments; all bounding boxes, positions, sizes, scales and alignments", "why_tests_cant": "Each combination of given sizes and alignments is a path of its own, and headers can be written in many ways.", "anchors": ["pyx/epsfile.py:138-223", "pyx/epsfile.py:226-320"]}
{"id": "C118", "title": "JPEG files are taken over from begin to end", "statement": "Reading a JPEG file gives the bytes from the start of image marker to the end of image marker which belongs to it, the size and color mode of its frame header and the resolution of its JFIF segment.", "quantifier": "all JPEG files built from segments, embedded images (thumbnails) and entropy coded data, with any bytes before and behind", "why_tests_cant": "Whether bytes of tables or of embedded images look like markers depends on the file.", "anchors": ["pyx/bitmap.py:164-209"]}
{"id": "C119", "title": "PNG files can be read back", "statement": "The PNG file written for an image has the signature and chunks with their lengths and checksums as in the PNG standard, and reading it back gives the size, color type, palette and the pixels of the image.", "quantifier": "all modes, sizes and pixel data, all palettes up to 256 colors, any compression with an inverse and any checksum function", "why_tests_cant": "The bytes depend on the size, the mode and the palette; a test compares few images.", "anchors": ["pyx/bitmap.py:136-162"]}
{"id": "C120", "title": "Virtual fonts are read as they are written", "statement": "Reading a VF file gives the checksum and design size of its preamble, for each font number the last font defined with it, its size scaled by the size of the virtual font, and for each character code the width and the DVI program of its last packet.", "quantifier": "all VF files made of font definitions with one to four byte numbers and of short and long character packets in any order", "why_tests_cant": "Virtual fonts with all forms of packets hardly exist as test data, and a shifted read position shows only in what follows.", "anchors": ["pyx/dvi/vffile.py:34-113"]}
{"id": "C121", "title": "Smoothed corners are smooth and stay near the corners", "statement": "The path which cornersmoothed makes of lines begins and ends where the lines do, is connected, has the same direction and the same curvature on both sides of each joint, keeps the points of the lines which are farther than the radius from a corner, and has all other points within the radius of a corner; in the middle of a corner the derivative of the curvature is zero.", "quantifier": "all subpaths of at least two lines, open or closed, all radii and all softnesses below 1.88", "why_tests_cant": "The tests compare pictures by eye; a joint with a jump in curvature is not visible there, and corners with lines shorter than the radius are rare in them.", "anchors": ["pyx/deformer.py:45-80", "pyx/deformer.py:551-682"]}
{"id": "C122", "title": "Curves with given ends", "statement": "The distances of the control points found by controldists_from_endgeometry_pt give a curve which has the given tangents and curvatures at its ends, and all such curves are found.", "quantifier": "all end points, tangents and curvatures", "why_tests_cant": "A wrong pairing of candidates shows only for special geometries, where the result is still a smooth curve with the right tangents, so a picture does not show it.", "anchors": ["pyx/deformer.py:83-362"]}
{"id": "C123", "title": "Lines of font map files are read as written", "statement": "For each line made of names, files, encodings and PostScript fragments, in any order and with any white space, MAPline takes the first name as that of TeX, the last other name as that of PostScript, and the last file, encoding or setting of each kind; lines with something unsupported are refused. readfontmap maps each name to the last supported line for it.", "quantifier": "all lists of entries, all white space between them, all lists of lines", "why_tests_cant": "The map files of TeX distributions contain only a few of the many orders and spellings of the entries, and a wrong font is not noticed without looking at the output.", "anchors": ["pyx/dvi/mapfile.py:42-127", "pyx/dvi/mapfile.py:162-187"]}
{"id": "C124", "title": "Encoding files are read as written", "statement": "An encoding file with any white space and any comments between its tokens is read just if it has 256 glyph names, and then its name and these names in their order are what is read.", "quantifier": "all names, all lists of glyph names, all comments and white space", "why_tests_cant": "The tests use the encoding files of one TeX distribution.", "anchors": ["pyx/dvi/encfile.py:25-52"]}
{"id": "C125", "title": "Documents are written to the file with the right name and format", "statement": "The name of an output file is the given name with the suffix of the format, which is added only if it is missing, or the name of the script; only files which are opened by PyX are closed; writetofile uses the format of the extension, which is unique, and does the same as the method for this format.", "quantifier": "all names, formats and kinds of file arguments", "why_tests_cant": "Names with several dots and the order in which the suffixes are tried are not tested.", "anchors": ["pyx/document.py:140-211"]}
{"id": "C126", "title": "The glyphs of a text are those its written codes select", "statement": "For every document (any list of texts given by glyph names, in any fonts and in any order, whatever order sets of names are iterated in), the font name and codes written for each text select, in the one re-encoded font of that name written at the end of the document, exactly the glyphs of the text; writing fails if and only if some text has more than 256 different glyphs. The characters written between parentheses in PostScript and PDF are read back as the codes. In an SVG font every glyph gets one character of its own, which later texts do not change.", "quantifier": "all lists of texts, all glyph names, all codes below 256, all text following a string, all iteration orders", "why_tests_cant": "Encodings are shared and extended by later texts; a wrong glyph appears only for particular sequences of texts (for instance after 256 glyphs) and only in the rendered output", "anchors": ["pyx/font/font.py:85-113", "pyx/font/font.py:288-394", "pyx/font/font.py:489-510", "pyx/font/font.py:554-598", "pyx/font/font.py:611-688"]}
{"id": "C127", "title": "Kerned and spaced text has its glyphs at the same places in all output formats", "statement": "For every text, kerning table, additional space and size: the PostScript operators, the PDF operators, the SVG elements and the text as path place each glyph of the text at the distance of width, kerning (if asked for) and space from the glyph before it; strings and elements are closed properly; the bounding box ends at the end of the last glyph; the width in a PDF file is that of the glyph; slants are applied in all formats.", "quantifier": "all texts, glyphs, codes, kerning tables, widths, sizes and spaces", "why_tests_cant": "The output formats use different units and different operators; comparing them needs rendering each for all combinations of kerning, space, decoding", "anchors": ["pyx/font/font.py:447-761", "pyx/font/font.py:150-200", "pyx/font/afmfile.py:1376-1411"]}
{"id": "C128", "title": "Ligatures are made from left to right as often as possible", "statement": "For every ligature table and every list of glyph names, the result consists of one glyph for each part of a division of the list into parts, each made by joining the glyphs of the part one after the other by the table (the first entry for a pair counting), no glyph of the result joins the first glyph of the next part, and this determines the result.", "quantifier": "all ligature tables (cyclic ones included) and all lists of glyph names", "why_tests_cant": "Chains such as f f i depend on the order of the steps and on the position staying after a replacement; tables of fonts differ", "anchors": ["pyx/font/afmfile.py:1388-1398"]}
{"id": "C129", "title": "Ticks, labels and titles of axes keep their distances", "statement": "Painting an axis draws every tick as a straight line along its direction from the inner to the outer length. Labels are moved outward only, to at least the distance wanted. The extent remembered by the canvas is the distance of the farthest tick end or label corner, and the title is put at the extent plus its distance, so that it overlaps no label and no tick of a straight axis.", "quantifier": "for all painters, lists of ticks with unit directions and convex label boxes, titles and canvases", "why_tests_cant": "Whether a title overlaps a label depends on the heights and depths of all labels together; tests use labels of equal height.", "anchors": ["pyx/graph/axis/painter.py:81-110", "pyx/graph/axis/painter.py:181-262", "pyx/box.py:256-271"]}
{"id": "C130", "title": "Texts at axes are never upside down", "statement": "The rotation of labels and titles ends its loops for every direction, turns the text by half turns only, never leaves it upside down, and puts it orthogonal to the ticks (parallel) or along the ticks (orthogonal); the title goes along the axis.", "quantifier": "for all tick directions, all requested directions and all non-negative tolerances", "why_tests_cant": "Only a few of the real valued directions are ever tried by tests; termination of loops cannot be tested at all.", "anchors": ["pyx/graph/axis/painter.py:50-70", "pyx/graph/axis/painter.py:91-110"]}
{"id": "C131", "title": "Bars, subaxes and breaks of axes are placed as described", "statement": "The names of a bar axis are placed beyond everything painted before, its ticks at the lower ends of the subaxes and at the end of the axis, and the extent covers ticks and names. Subaxes of subaxes are subaxes, with ticks within their base path. The two lines marking a break have the given length, distance and angle, are symmetric to the break, and the extent is their largest distance from the base path.", "quantifier": "for all positioners, subaxes, name boxes, lengths and angles", "why_tests_cant": "The placement depends on real parameters and on nesting of axes; images of examples are not compared by tests.", "anchors": ["pyx/graph/axis/painter.py:298-364", "pyx/graph/axis/painter.py:396-428", "pyx/graph/axis/axis.py:335-362"]}
{"id": "C132", "title": "Arrows: position, sides, back and the rest of the stroke", "statement": "The arrow decorator takes from the path the length of the constriction, and the rest of the path is divided between before and after the arrow in the ratio given by pos; the tip is the point of the path at the end of the part taken to which the arrow points.  The outline of the arrow head is a closed sequence of pieces, each starting where the one before ends; its sides are the part of the path behind the tip turned by half the angle to both sides about the tip, so all their points keep the distance from the tip, and one side is the other turned by the full angle.  On straight paths the sides are as long as the size says, and the constriction point divides the way from the tip to the middle of the ends of the sides as the constriction says.  For arrows at the ends of the path the stroke is cut exactly between tip and constriction point.", "quantifier": "for all paths, positions, directions, sizes, angles and constrictions", "why_tests_cant": "Arrows are compared by eye; an arrow a little off its end of the path or a small gap between stroke and head is not noticed, and tests can only take some paths and angles.", "anchors": ["pyx/deco.py:454-489", "pyx/deco.py:506-517", "pyx/deco.py:534-550"]}
{"id": "C133", "title": "Hatching, color gradients and texts at paths", "statement": "Line hatchings cover the whole bounding box of the path: each point is on or between two consecutive lines in the given distance, turned by the angle, and not beyond their ends; crossed hatchings have perpendicular lines.  With the color gradient decorator the k-th of the equal parts of the path is seen in the k-th color, although the strokes overlap.  The text decorator moves the text in the given direction, absolute or relative to the path, until its nearest corner has the given distance.  Curved text puts the middle of each letter's base on the path at its arc length, tangential to the path and undeformed.", "quantifier": "for all paths, boxes, angles, distances, numbers of steps from 2 and positions", "why_tests_cant": "Pictures are compared by eye; whether a hatching reaches all corners depends on angle and aspect ratio, and the overlapping strokes of gradients hide errors of order.", "anchors": ["pyx/deco.py:605-629", "pyx/deco.py:657-687", "pyx/deco.py:768-786", "pyx/deco.py:897-912"]}
{"id": "C134", "title": "Braces: outline, places, thickness and ends", "statement": "The outline of a brace is a closed sequence of sixteen pieces without kinks other than at the inside of the middle; its tips are at the two given points, its middle is at the given relative position, in the given height to the left of the line between the points; inner strokes, outer strokes and bars have the given thickness; the bars are parallel to the line between the points when the relative heights add up to one; in short braces the smooth parts are shortened to fit; stretch multiplies the distance of the ends and keeps their middle, dist moves them perpendicularly to the path.", "quantifier": "for all geometrical parameters of the brace, all end points, tangents, stretches and distances", "why_tests_cant": "The geometry is the outcome of five intersections of lines and about twenty points; tests show one brace, and a fold of half a point in a bar is not seen.", "anchors": ["pyx/deco.py:989-1119", "pyx/deco.py:1122-1167", "pyx/deco.py:1170-1186"]}
{"id": "C135", "title": "Gradients run through valid colors, from the first color to the last, and reversed ones run backwards", "statement": "A linear gradient between two valid colors of one color space gives the first color at 0, the second at 1 and in between colors whose components change evenly; selecting n colors gives the first color first and the last color last. All 28 gradients with names (Gray, BlackYellow, RedGreen, ..., Rainbow, Hue, Jet and their reversed ones) give a valid color, never an error, for each parameter from 0 to 1, also when converted to rgb and cmyk and when colors are selected by index. Gradients with opposite names have the same colors in the opposite order. The jet gradient is continuous. BlackYellow starts black, Rainbow converted to rgb is red, green, blue at 0, 1/2, 1 and Hue starts and ends red.", "quantifier": "all valid colors, all parameters in [0,1], all indices and numbers of selected colors, all named gradients", "why_tests_cant": "The red component of BlackYellow is a polynomial in x and sqrt(x) of degree 6 that stays just below 1 on a long range: a sample of parameters cannot show that no parameter raises ValueError; the reversed polynomials are written out separately in the code and could differ anywhere.", "anchors": ["pyx/color.py:364-575"]}
{"id": "C136", "title": "An SVG file is placed upright at the given point with the given size", "statement": "The view box of an SVG file fills the bounding box of the file exactly: fractions of the view box from the left and from the top are the same fractions of the bounding box, whose size is that of the attributes width and height (or of the view box); without view box one unit of the file is one unit of the picture; a file without both is an error. Numbers with units are converted like in typography (an inch is 72 pt, 2.54 cm, 25.4 mm, 6 pc, and as many px as the resolution says). The bounding box is put with its lower left corner at the given point, in its own size, with the given width and height, or with one of them and the ratio of the sides of the file or the given ratio. A file that is copied unparsed is placed in the same way. Everything outside of the view box is clipped.", "quantifier": "all attributes x, y, width, height, viewBox with all units, all resolutions, all positions and sizes, all points", "why_tests_cant": "The product of six transformations must be right at each point of the view box for all combinations of present and missing attributes and units; tests compare a few files by eye, mostly with px and resolution 96, where the wrong factors are 1.", "anchors": ["pyx/svgfile.py:97-128", "pyx/svgfile.py:389-414", "pyx/svgfile.py:486-565"]}
{"id": "C137", "title": "Groups of an SVG file pass on colors and transformations and end where they end", "statement": "Each shape of an SVG file that has a fill or stroke color is drawn exactly once, in the order of the file, inside of the canvases of all groups around it from the outermost to the innermost, with the fill and stroke colors of the innermost element around it that gives them, and black filling without stroke if there is none; after the end of a group everything is as before it.", "quantifier": "all trees of groups and shapes of any depth with any colors given, inherited or none", "why_tests_cant": "The state of the handler is changed and restored along the events of the parser; that nesting of any depth restores canvas and both colors in the right order (they are stored in another order than they are used) cannot be shown by some files.", "anchors": ["pyx/svgfile.py:131-137", "pyx/svgfile.py:283-289", "pyx/svgfile.py:389-480"]}
{"id": "C138", "title": "Patterns fill the plane with copies of what is drawn in them, the same in all output formats", "statement": "A pattern shows copies of what is drawn in it at all multiples of its steps (by default the size of what is drawn), transformed by its matrix, and nothing else; PostScript, PDF and SVG show the same. hatched and crosshatched patterns consist of infinite lines of the given width at all multiples of the given distance in one or both directions. Calling a pattern with arguments gives a pattern with these arguments changed.", "quantifier": "all things drawn, all steps, boxes and transformations, all distances and line widths, all points of the plane", "why_tests_cant": "Whether the lines of neighboring cells of a hatched pattern meet, and whether the box of the cell cuts off a part of the line, depends on how the viewer repeats cells; three output formats describe the cell in three different ways (box and steps, rounded box, view box from the origin).", "anchors": ["pyx/pattern.py:34-178", "pyx/pattern.py:185-201", "pyx/pattern.py:266-282", "pyx/pattern.py:318-380"]}
{"id": "C139", "title": "PFM files are read by their offsets", "statement": "Everything the reader of PFM files keeps (first and last code, character set, ascent, italic, weight, average and maximal width, cap height, descent, slant, widths, kerning pairs and track kernings) is the number found at its offset of the PFM file format, files of another kind are refused, a glyph has the width stored for its code, the kerning between two glyphs is that of the last pair for their codes, and the flags of the PDF font descriptor are exactly the bits for fixed pitch, serif, symbolic, nonsymbolic and italic.", "quantifier": "all byte lists, encodings, glyph names and lists of glyphs", "why_tests_cant": "The offsets result from format strings which must have the right items in the right order; a shifted field gives numbers which look plausible. A test compares a few glyphs of one font, not all possible files, tables and codes.", "anchors": ["pyx/font/pfmfile.py:26-249", "pyx/font/pfmfile.py:255-261", "pyx/font/pfmfile.py:266-346", "pyx/font/pfmfile.py:348-349", "pyx/font/pfmfile.py:366-377", "pyx/font/pfmfile.py:379-390"]}
{"id": "C140", "title": "Flags of PDF form fields", "statement": "A bit of the annotation and field flags written for a PDF form field is set exactly when a flag is given whose position in the PDF reference is that bit, the given flags replace the defaults and unknown flags are refused, and no given flags can make a field of one type carry flags of another type: text fields only common and text flags, choice fields only common and choice flags, checkboxes only common flags, radio buttons always the radio flag and never that of push buttons.", "quantifier": "all dictionaries of flags with distinct keys, all bits", "why_tests_cant": "There are 22 flags and thus millions of combinations, and a wrong bit shows up only in some PDF viewers when the field is used.", "anchors": ["pyx/pdfextra.py:45-56", "pyx/pdfextra.py:68-72", "pyx/pdfextra.py:84-105", "pyx/pdfextra.py:140-148", "pyx/pdfextra.py:164-166", "pyx/pdfextra.py:353-354", "pyx/pdfextra.py:402-403", "pyx/pdfextra.py:613-615"]}
{"id": "C141", "title": "Places, texts and states of PDF form fields", "statement": "The rectangle of a form field is the image of the field under all transformations which keep the axes, sizes are multiplied by the factor of a similarity transformation, the bounding box of radio buttons is the smallest one around all of them, the lines of a default text are placed at the leading and centered independently of their number, names and values are read back from the PDF file, and exactly the radio button of the default value is on, with the name written as value of the list.", "quantifier": "all transformations of the kinds mentioned, fields, sizes, strings, lists of values and positions", "why_tests_cant": "Positions and strings of form fields are visible only in interactive viewers, and no test opens such a file.", "anchors": ["pyx/pdfextra.py:121-131", "pyx/pdfextra.py:187-190", "pyx/pdfextra.py:233", "pyx/pdfextra.py:253-278", "pyx/pdfextra.py:293-319", "pyx/pdfextra.py:356-379", "pyx/pdfextra.py:405-440", "pyx/pdfextra.py:463-486", "pyx/pdfextra.py:500-527", "pyx/pdfextra.py:636-639", "pyx/pdfextra.py:689-701"]}
{"id": "C142", "title": "Stroke styles: the last of each kind counts, dashes are the same in all output formats", "statement": "For each list of stroke styles the graphics state when a path is stroked has, for each of line width, cap, join, miter limit and dashes, the value of the last style of this kind in the list, and the value from before if there is none; a linestyle counts both as cap and as dashes. PostScript, PDF and SVG draw the same dashes for the pattern which is written. With relative lengths and without an offset a line f times as wide has the dashes stretched by f.", "quantifier": "all lists of stroke styles, all graphics states, all dash patterns, line widths and places along the path", "why_tests_cant": "the result depends on the order of arbitrarily long lists of attributes which replace one another, and on infinitely repeated patterns of real lengths", "anchors": ["pyx/style.py:45-246", "pyx/attr.py:38-80"]}
{"id": "C143", "title": "Named miter limits and line widths are what their names say", "statement": "The miter limit with the name lessthanXdeg cuts the miters of exactly the joins with an angle smaller than X degrees; the limit 10 cuts all miters up to 11 degrees and none from 12 degrees on. The twelve named line widths grow by the factor of the square root of 2 from each to the next and the sixth is the default one.", "quantifier": "all angles between 0 and 180 degrees, all default line widths", "why_tests_cant": "the angles and widths are real numbers; tests can only try some of them and never exactly the limit", "anchors": ["pyx/style.py:98-124", "pyx/style.py:210-246"]}
{"id": "C144", "title": "Alignment of boxes at circles", "statement": "Aligning a convex polygon whose center is within its shadow at a circle of radius a around the center moves it along the direction given, such that none of its points is within the circle, that it stays so if it is moved on, and that a point of its boundary is on the circle; aligning several ones equally moves all by one vector such that this holds for each, with one of them touching its circle.", "quantifier": "for all convex polygons in counterclockwise order, centers in the shadow, radii with a*a at least 1e-10 and directions not zero, the edges facing the center not being nearly parallel to the direction", "why_tests_cant": "Tests look at a few boxes and angles; that no point of any convex box gets into the circle needs the argument for all edges and corners.", "anchors": ["pyx/box.py:82", "pyx/box.py:125", "pyx/box.py:144", "pyx/box.py:158", "pyx/box.py:172", "pyx/box.py:256", "pyx/box.py:266"]}
{"id": "C145", "title": "AFM files are read as they are written", "statement": "For an AFM file with a header, character metrics and kerning pairs, the attributes, the metrics of the characters (code, widths, vector, name, box, ligatures) and the kernings that are stored are those of the lines of the file; for a key that occurs more than once the latest line counts.", "quantifier": "all AFM files with header, character metrics and kerning pairs in the order of the format, with any white space, any functions reading the numbers", "why_tests_cant": "The lines can have any white space, any order of the items and any repetitions; tests read a few fonts of one foundry.", "anchors": ["pyx/font/afmfile.py:1033", "pyx/font/afmfile.py:1137", "pyx/font/afmfile.py:1170", "pyx/font/afmfile.py:1376"]}
{"id": "C146", "title": "Font information for PDF follows from the AFM file", "statement": "The flags of a font in PDF are those for fixed pitch, serif, symbolic or nonsymbolic (exactly one of the two) and italic as the AFM file says, no other flag is set, and ascent and descent are those of the file in whole units.", "quantifier": "all AFM files and all combinations of the arguments", "why_tests_cant": "Each flag depends on a different attribute that may be missing; tests write a few fonts and do not look at the bits.", "anchors": ["pyx/font/afmfile.py:1413"]}
{"id": "C147", "title": "Specials in DVI files: groups and markers", "statement": "For a page whose specials are properly nested groups (colors, rotations and scalings at the current point), EPS files and markers with different names, the canvas has the groups nested in the same way with the color or the rotation or scaling about the point of the special, everything is drawn in its order, and each marker is stored at its place on the page, that is with the rotations and scalings of all groups around it.", "quantifier": "all pages with any nesting of groups, any positions and angles, any white space in the specials", "why_tests_cant": "The place of a marker depends on all groups around it; tests have at most one group.", "anchors": ["pyx/dvi/dvifile.py:114", "pyx/dvi/dvifile.py:223"]}
{"id": "C148", "title": "Markers and text paths move with their text", "statement": "Whenever the page of a text is read between its transformations, the text is drawn with the scale, the position and all transformations in their order, and a marker of the text is the place on the page under these transformations. The text path is made of all letters of the text.", "quantifier": "all texts, all sequences of transformations with reading of the page at any time in between, all markers at any depth", "why_tests_cant": "The page is read lazily, so the order of reading and transforming matters; tests transform before or after, not both.", "anchors": ["pyx/text.py:840", "pyx/text.py:848", "pyx/text.py:885", "pyx/text.py:887"]}
{"id": "C149", "title": "Files are searched for under the right names and the first locator wins", "statement": "A name without a known extension is tried with the extensions of the formats in their order; the local locator opens any of these names; config.open gives the file of the first locator which finds one, and opening it again gives the same file.", "quantifier": "all names, formats, locators and file systems", "why_tests_cant": "Whether a file is found depends on closures over loop variables, which behave right for formats with one extension only.", "anchors": ["pyx/config.py:44-82", "pyx/config.py:85-91", "pyx/config.py:367-403"]}
{"id": "C150", "title": "The locators for ls-R files and directories find what is there", "statement": "With ls-R files the file opened is the one listed first under the first listed name; with directories a file is found exactly if it is there, whatever was searched for before.", "quantifier": "all ls-R files of the usual form, all directory trees and sequences of requests", "why_tests_cant": "All trees and all sequences of requests with the caches left by the earlier ones.", "anchors": ["pyx/config.py:112-140", "pyx/config.py:142-169"]}
{"id": "C151", "title": "Lists in the configuration", "statement": "Items of a list in the configuration may contain blanks, written as the replacement string, and are read back as they are.", "quantifier": "all lists of items", "why_tests_cant": "All positions of blanks next to any other characters.", "anchors": ["pyx/config.py:351-361"]}
{"id": "C152", "title": "SVG files are one tree of elements with the resources and the page", "statement": "The SVG file of a page consists of the declaration and a single element svg with the given attributes. The element contains the registered resources in an element defs (only if there are resources) and then what the page has written. Start and end tags are paired, each element is on a line of its own indented by its depth, and no white space is put into texts with tspan elements. The xlink name space is declared exactly if its names are used, and each resource is written once.", "quantifier": "for all trees of elements written by the page and by the resources, all attributes and all sequences of registrations", "why_tests_cant": "the page is written to a separate document whose inner part is cut out by file positions; whether indentation, flags for line ends and the name spaces fit together depends on the nesting of all elements", "anchors": ["pyx/svgwriter.py:28", "pyx/svgwriter.py:83", "pyx/svgwriter.py:193"]}
{"id": "C153", "title": "Type 1 font files are split into their parts", "statement": "A PFB file is accepted exactly if it consists of a segment of clear text, of at least one binary segment, of a segment of clear text and of the end mark with nothing behind it, where the lengths are four bytes with the least significant one first; the parts of the font are the data of the segments, with the binary segments joined. A PFA file is accepted if it contains the three parts as texts, with the binary part as hexadecimal digits.", "quantifier": "for all byte sequences", "why_tests_cant": "a file is refused or accepted depending on lengths in the data, which tests cover for a few fonts only; wrong splittings show up only in the printed result", "anchors": ["pyx/font/t1file.py:1163", "pyx/font/t1file.py:1184", "pyx/font/t1file.py:1234"]}
{"id": "C154", "title": "Written Type 1 fonts contain the parts of the font", "statement": "A font written as PFA consists of its first part, the hexadecimal digits of its binary part in lines of at most 64 characters and its third part. A font written to a PDF file is a stream with the three parts one after the other and with the right lengths, where the third part is left out only if it is the usual 512 zeros with cleartomark. A font written as PFB is read back.", "quantifier": "for all data of fonts", "why_tests_cant": "depends on all bytes of the data, including those which are not ASCII, and on the lengths being multiples of the line length", "anchors": ["pyx/font/t1file.py:1090", "pyx/font/t1file.py:1111", "pyx/font/t1file.py:1135", "pyx/writer.py:30"]}
{"id": "C155", "title": "The encoding vector of a Type 1 font is the one of the font file", "statement": "The encoding is read from the text behind the first /Encoding with arbitrary white space and comments: it is the standard encoding if the words are StandardEncoding def, otherwise each code from 0 to 255 has the name of the last entry dup code /name put for it, and no name without an entry; entries for other codes are ignored.", "quantifier": "for all font texts with such words, with arbitrary white space and comments between them, and all lists of entries", "why_tests_cant": "font files differ in their white space, comments and order of entries; tests use a few fonts", "anchors": ["pyx/font/t1file.py:684"]}
{"id": "C156", "title": "Functions are evaluated at evenly spaced points of the axis", "statement": "function data have the requested number of points, from the minimum to the maximum of the function or else of the axis, with equal differences (of the logarithms, for a logarithmic axis); the values are those of the function, and there is none where its evaluation is an arithmetic error. paramfunction data have one column per name with the values at equally spaced parameters.", "quantifier": "all functions, ranges, numbers of points, names", "why_tests_cant": "tests plot a few functions with the default number of points; no test looks at the points, at single points or at values of different sizes", "anchors": ["pyx/graph/data.py:567", "pyx/graph/data.py:526"]}
{"id": "C157", "title": "Joined data keep the rows of each data set", "statement": "graph.data.join gives all columns of its data sets; a column contains, in order, the values of each data set that has it and as many missing values as the data set has rows otherwise, so rows of different data sets are never mixed", "quantifier": "all lists of data sets with any column names and numbers of rows", "why_tests_cant": "tests join two data sets with given columns; column sets overlap in arbitrarily many ways", "anchors": ["pyx/graph/data.py:603"]}
{"id": "C158", "title": "Numbers and path data of SVG files are read as written", "statement": "Lists of numbers (with signs, points, exponents; separated by white space, a comma or nothing where SVG allows it) are read with their values, and path data are read into exactly the commands with the numbers and flags in them", "quantifier": "all numbers, all ways to write them, all separators, all lists of commands of any length", "why_tests_cant": "the compact ways to write paths (-.5.2, flags without separators) combine without bound; tests read a few files", "anchors": ["pyx/svgfile.py:86", "pyx/svgfile.py:105", "pyx/svgfile.py:145"]}
{"id": "C159", "title": "Lists of transformations of SVG files are read as written", "statement": "A transform attribute is read into its transformations with their numbers in order; lengths are scaled by the resolution, angles, factors and the linear part of matrices are not", "quantifier": "all lists of transformations of any length and numbers written in any way", "why_tests_cant": "white space and combinations of transformations are unbounded", "anchors": ["pyx/svgfile.py:243"]}
{"id": "C160", "title": "Colors of SVG files have the values SVG defines", "statement": "Each of the 147 color names, rgb() with numbers or percentages (in any case and with any white space), and hexadecimal numbers with three or six digits give the color defined by SVG; none and inherit give no color and the inherited one", "quantifier": "all names, all numbers and all white space", "why_tests_cant": "there are 16 million colors and many ways to write each; tests use few of them", "anchors": ["pyx/svgfile.py:283", "pyx/color.py:173"]}
{"id": "C161", "title": "Texts of the Unicode engine stand one behind the other with all their letters", "statement": "In a box of the Unicode engine each text begins behind the sum of the widths of those before it; its letters are all there in order, hyphens in formulas are minus signs in the middle of their place on the axis; stacked texts are aligned within the widest of them and fraction lines have its width", "quantifier": "all lists of texts and stacks, all fonts (widths of texts), sizes, scales, shifts and alignments", "why_tests_cant": "the combinations of fragments, empty fragments, missing glyphs and stacks are unbounded; tests set a few labels", "anchors": ["pyx/text.py:1589-1638", "pyx/text.py:1742-1759"]}
{"id": "C162", "title": "The box of a text of the Unicode engine is the smallest one around it", "statement": "The box contains all texts and lines of it and both ends of the base line, and no smaller box does", "quantifier": "all lists of texts, all fonts with widths and heights which are not negative", "why_tests_cant": "extreme points may come from any part of a text", "anchors": ["pyx/text.py:1634-1638"]}
{"id": "C163", "title": "Cycloids follow the path: smooth chain of curves, alternating half loops within the radius, undeformed ends", "statement": "The deformer cycloid gives the first and last part of the path undeformed and between them a chain of halfloops*curvesperhloop curves which join without corners; the joints have the distances along and from the path of the exact cycloid and the handles its direction; half loops alternate between the sides of the path and stay within the radius", "quantifier": "all paths (lengths, local coordinate systems and curvatures), radii, numbers of half loops and of curves, signs, skipped lengths and angles", "why_tests_cant": "the formulas mix several numbers; pictures do not show small gaps or kinks and tests use one setting", "anchors": ["pyx/deformer.py:365-506"]}
{"id": "C164", "title": "Smoothed lines go through the points of the path", "statement": "The deformer linesmoothed replaces a normsubpath by curves which begin at its first point and go through the end points of its items in their order, closed exactly if the subpath is; neighbouring curves have a common tangent at every inner point (and at the joint of a closed path) unless MetaPost takes neighbouring points for the same; where a curl is None, the end has the direction of the original path; atleast limits the curves to their triangles; a call changes only the given parameters.", "quantifier": "every normsubpath with at least one item, every tension, curls >= 0 or None, every epsilon > 0", "why_tests_cant": "Smoothness is a property of the solution of a linear system in all points at once; tests compare pictures of a few paths, and none notices that the parameter atleast does nothing.", "anchors": ["pyx/deformer.py:1727-1793", "pyx/metapost/path.py:219-229", "pyx/metapost/path.py:249-300"]}
{"id": "C165", "title": "A text box shows its own text", "statement": "Whatever calls are made to a TeX engine and whatever the interpreter answers, markers and pages are numbered from 1 in the order of the input, and the page read from the dvi file for a text box is the one which was typeset for its expression; asking for it never gives nothing.", "quantifier": "every interpreter (any function from what was written so far to an answer and dvi pages), every kind of engine, every sequence of preambles, texts, accesses and ends, with and without texipc", "why_tests_cant": "The state of the engine depends on all calls before, including those which raised and were caught; a test runs one interpreter on a few texts without errors.", "anchors": ["pyx/text.py:1061-1147", "pyx/text.py:1219-1252", "pyx/text.py:1271-1317", "pyx/text.py:857-865", "pyx/dvi/dvifile.py:403-430"]}
{"id": "C166", "title": "Unexpected answers of TeX are not accepted", "statement": "A text is accepted only if the output contains the marker with the number of the execution, the sizes with the number of the page, and the page-out marker, and the message parsers leave nothing but prompts and blanks; the sizes are the printed decimals times 72/72.27. The end is accepted only with the expected number of pages.", "quantifier": "every output of the interpreter, every list of message parsers, every page and execution number", "why_tests_cant": "The output of TeX depends on the installation; tests see well-formed outputs of one version.", "anchors": ["pyx/text.py:940-941", "pyx/text.py:1100-1134"]}
{"id": "C167", "title": "Preambles come before texts, and survive restarts", "statement": "Preambles are refused once a text has been typeset, without any effect; a text after the end of the interpreter starts a new one which gets the setup, all accepted preambles in their order, and the text.", "quantifier": "every interpreter, every engine reached by calls, every list of preambles", "why_tests_cant": "Restarts happen only when output was written between texts; tests rarely combine preambles, output and further texts.", "anchors": ["pyx/text.py:1213-1217", "pyx/text.py:1254-1269", "pyx/text.py:1451-1503"]}
{"id": "C168", "title": "Which axes a graph has", "statement": "For any arguments of graphxy (axes with any names, None, keywords with an underscore, xaxisat, yaxisat): each given axis is in the graph with its keyword applied; x (and likewise y) is a linear axis if neither x nor x2 is given, and linked to x2 if only x2 is given; x2 is linked to x if it is not given and x is not placed at a value; None leaves an axis out; keywords for linked axes change their painter; there are no other axes. An exception is raised exactly if a keyword does not fit, or if x is None while x2 is not given (known defect).", "quantifier": "for all dictionaries of axes and keywords, all kinds of axes and all results of keywords", "why_tests_cant": "The combinations of given, missing and None axes with keywords and positions are too many to try", "anchors": ["pyx/graph/graph.py:342-376", "pyx/utils.py:24-70"]}
{"id": "C169", "title": "Axes are created once, in order, and show the range they convert with", "statement": "Whatever is called in which order (doranges, doaxiscreate, dolayout, conversions, with exceptions in between), the calls end; each axis gets its canvas once at most, after the ranges of its graph are complete, after the axis in front of which it is placed, and after the axis it is linked to if it is painted. If linked axes stay within one graph, an axis shows exactly the range it converts values with, and that range was chosen for all values of the graph. With axes linked between graphs the last part is false, and after an exception the layout is silently incomplete.", "quantifier": "for all graphs, links, values (also those depending on ranges), partitions and sequences of calls", "why_tests_cant": "Depends on the order of calls, on nested creations and on links between axes; tests run one order each", "anchors": ["pyx/graph/graph.py:174-181", "pyx/graph/graph.py:228-243", "pyx/graph/graph.py:556-586", "pyx/graph/axis/axis.py:580-613", "pyx/graph/axis/axis.py:661-703"]}
{"id": "C170", "title": "Points in graphs get their coordinates from the right columns and axes", "statement": "For any assignment of column names to axes, the style pos raises an error exactly if two axes of one dimension could take values from the data; otherwise each coordinate of each point is the value of the column of the axis converted by this axis, dimensions without a column are left untouched, the position is available exactly if all values can be converted and valid exactly if all are within the graph, and each used column adjusts its own axis.", "quantifier": "all dictionaries usenames, all lists of axes per dimension, all column names, all conversion functions of the axes and all points", "why_tests_cant": "Tests plot x against y in two dimensions; the shifting of indices only matters with missing dimensions between others, and the dictionary of axes only with several axes sharing a column.", "anchors": ["pyx/graph/style.py:174-235"]}
{"id": "C171", "title": "Points at given lengths of curves", "statement": "For a Bezier curve and a given length, arclentoparam ends with a parameter and the computed arc length; for lengths between zero and the computed length the parameter lies on the curve and the arc length of the curve up to it differs from the given length by less than twice epsilon, while negative and larger lengths give parameters before and behind the curve.", "quantifier": "for all control points, all positive epsilon and all lengths", "why_tests_cant": "The error of the parameter is composed over a recursive division of unknown depth and of a cubic equation for each straight piece; tests compare a few curves with their computed lengths, not with the arc length.", "anchors": ["pyx/normpath.py:488-502", "pyx/normpath.py:425-444", "pyx/normpath.py:722-790", "pyx/normpath.py:173-180"]}
{"id": "C172", "title": "Lengths of curves up to given parameters", "statement": "For parameters on a Bezier curve paramtoarclen gives for each of them a lower bound of the arc length of the curve up to it, which differs from the arc length by less than twice epsilon for each parameter up to this one, and the total arc length in the same way.", "quantifier": "for all control points, all lists of parameters and all positive epsilon", "why_tests_cant": "The returned numbers are sums over segments found by a recursive division; tests use few parameters and lists in order.", "anchors": ["pyx/normpath.py:584-588", "pyx/normpath.py:609-660", "pyx/normpath.py:504-506"]}
{"id": "C173", "title": "Points at given lengths of subpaths", "statement": "For a normsubpath of lines and curves arclentoparam gives for each length between zero and the total a parameter that names a point of one of the items, and the arc length of the subpath up to this point differs from the given length by less than twice epsilon for each item up to this one; the returned total is a lower bound of the arc length with an error less than twice epsilon for each item.", "quantifier": "for all non-empty lists of lines and curves, all positive epsilon and all lengths", "why_tests_cant": "The errors add up over an unknown number of items with recursions of unknown depth; tests compare with the lengths computed by the same code.", "anchors": ["pyx/normpath.py:986-1007", "pyx/normpath.py:173-180", "pyx/normpath.py:488-502"]}
{"id": "C174", "title": "The gradient style places its pixels evenly from one end of the axis to the other", "statement": "For each graphx and each resolution of at least 2, the gradient style clips to exactly the rectangle of the graph and maps the bitmap so that the centers of its pixels are equally spaced along the axis, the first at its lower and the last at its upper end; the color of each pixel is the color of a value at most 1/resolution below the one at its center. (The colors do not match the places exactly.)", "quantifier": "all positions, sizes, directions and resolutions", "why_tests_cant": "a test looks at one picture; the shift of the colors by up to one pixel is not visible", "anchors": ["pyx/graph/style.py:2079-2118", "pyx/graph/graph.py:634-662"]}
{"id": "C175", "title": "The text style draws one text for each valid point that has one, at its offset, and needs exactly the columns it was given", "statement": "The columns of the text style are accepted exactly when each column name it was given is a column and no position is missing; otherwise the exception names the first given name that is no column. For any sequence of points the style draws exactly one text for each valid point having one, in order, at the position of the point plus the offsets (fixed lengths, or multiples of the units by the columns), and it fails exactly when an offset of such a point is no number.", "quantifier": "all styles, column lists and sequences of points", "why_tests_cant": "tests use a few labelled points; missing columns in all combinations and invalid points between valid ones are not tried", "anchors": ["pyx/graph/style.py:805-873", "pyx/graph/style.py:434-441", "pyx/graph/graph.py:113-138"]}
{"id": "C176", "title": "The grid style strokes the lines of a regular grid in both directions, whatever the order of the points", "statement": "For points whose coordinates along the two grid directions are equal or differ by more than epsilon, given in any order, the grid style strokes for each second coordinate (in increasing order) the lines between the points along the first coordinate, and for each first coordinate the lines along the second one, clipped to the graph and interrupted at places without a point; of several points at a place the last counts, and paths without any line are not stroked. (With the attributes None, which suppress the drawing of other styles, it fails instead.)", "quantifier": "all sequences of points on a regular grid in graphs of any dimension, with clear positions", "why_tests_cant": "tests draw complete grids of functions; grids with gaps, repeated and unordered points are not tried", "anchors": ["pyx/graph/style.py:1665-1716", "pyx/graph/style.py:1621-1660", "pyx/canvas.py:378-388"]}
{"id": "C177", "title": "The entries of a font map load their font and encoding once, with the first metric file that is found", "statement": "For any file system and readers, an entry of a font map gives a Type 1 font exactly when its font file can be read and has the expected name, with the metric of the AFM file if that is found, else of the PFM file if that is found, else without metric; an entry without font file gives the builtin font with its AFM file; the encoding is that of the encoding file with the expected name, or none. In any sequence of calls all calls give the same results, and after successful loading no file is searched again.", "quantifier": "all entries, file systems, readers and sequences of calls", "why_tests_cant": "tests run with a single TeX installation where the AFM files exist", "anchors": ["pyx/dvi/mapfile.py:126-161"]}
{"id": "C178", "title": "The searches by kpsewhich and pykpathsea open the file of the first format with an answer", "statement": "With kpsewhich as the method to locate files, a file is opened with some content exactly when, asking for the formats in order, the program answers blank for the formats before and then names a file, and this file has that content; a program that cannot be run ends the search. With pykpathsea the same holds for the answers of the library, and no file is found without the extension module.", "quantifier": "all programs, file systems, file names and lists of formats", "why_tests_cant": "tests run with one TeX installation where each file has a single format", "anchors": ["pyx/config.py:172-193", "pyx/config.py:233-264", "pyx/config.py:371-403"]}
{"id": "C179", "title": "Time axes are linear in time, and merged time ticks keep the lowest levels", "statement": "For any two different times as ends, the conversion of a time axis maps them to 0 and 1, equal durations to equal distances and later times further along; it fails exactly when both ends are the same time. Merging ticks in any number and order gives the lowest tick level and the lowest label level of all. Exactly the ticks with a label level and without a label get the text of their time.", "quantifier": "all times, lists of ticks and formats", "why_tests_cant": "there are no tests of the time axis; times before the minimum have timedeltas with negative days", "anchors": ["pyx/graph/axis/timeaxis.py:42-47", "pyx/graph/axis/timeaxis.py:69-73", "pyx/graph/axis/timeaxis.py:81-84"]}
