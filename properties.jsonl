{"id": "C01", "title": "Distinct glyph names get distinct file names", "statement": "`name_to_filename` never maps two different glyph names to the same file name, with or without the extension; the name can always be recovered from the file name.", "quantifier": "all pairs of glyph names (arbitrary Unicode strings), both values of the extension flag", "why_tests_cant": "injectivity is a statement about all pairs of unbounded strings", "anchors": ["src/glif.rs: name_to_filename (L111-124)"]}
{"id": "C02", "title": "File names keep names that differ only by case apart on case-insensitive file systems", "statement": "If two different glyph names are equal up to ASCII case, the file names produced by `name_to_filename` are different even when compared without regard to ASCII case.", "quantifier": "all pairs of distinct names equal up to ASCII case", "why_tests_cant": "a statement about all pairs of unbounded strings; the failing letter has to be found among all letters", "anchors": ["src/glif.rs: name_to_filename (L111-124)"]}
{"id": "C03", "title": "GlifString accepts exactly control-free strings", "statement": "`GlifString::try_from` succeeds exactly on strings without ASCII control characters and stores the string unchanged; otherwise it reports the position and value of the first control character. `GlifStringLenOne` additionally rejects exactly the empty string.", "quantifier": "all Unicode strings", "why_tests_cant": "the string is unbounded and the reported position must be the first for every string", "anchors": ["src/string.rs: GlifString::try_from, GlifStringLenOne::try_from"]}
{"id": "C04", "title": "to_glif_string cleans any string", "statement": "`to_glif_string` terminates without panicking on every string and returns the string with exactly its ASCII control characters removed, the other characters in order.", "quantifier": "all Unicode strings", "why_tests_cant": "unbounded strings with any mixture of one-byte and multi-byte characters; the loop mutates the string while iterating", "anchors": ["src/string.rs: ToGlifString::to_glif_string (L56-63)"]}
{"id": "C05", "title": "Advance width survives write then read", "statement": "For every width w a glyph can hold, the `advance` element written for it is read back as exactly w under every pedantry setting.", "quantifier": "all 2^64 widths, all pedantry settings", "why_tests_cant": "2^64 values times all settings", "anchors": ["src/glif/xml.rs: advance_xml (L15-19)", "src/glif/read.rs (L94-119)"]}
{"id": "C06", "title": "Pedantry decides exactly when a bad advance width is mended", "statement": "An advance width that is not an integer but is a float is accepted exactly when the pedantry allows mending, and is then truncated toward zero and clamped to the range of u64; a width that is neither is always an error; a missing `width` attribute is treated the same under all settings.", "quantifier": "all width strings, all pedantry settings", "why_tests_cant": "unbounded attribute strings times all settings", "anchors": ["src/glif/read.rs (L94-119)", "src/pedantry.rs: should_mend"]}
{"id": "C07", "title": "Code points survive write then read", "statement": "Every Unicode scalar value written as a `unicode` element is read back as the same character, in order and with repetitions; hex values that are not scalar values (surrogates, above 10FFFF) are rejected with an error.", "quantifier": "all lists of Unicode scalar values; all hex strings", "why_tests_cant": "unbounded lists, 1.1 million scalars, all hex strings", "anchors": ["src/codepoint.rs (L9-19)", "src/glif/read.rs (L121-136)"]}
{"id": "C08", "title": "Color to string and back", "statement": "A color printed with `to_string` parses back to the same color, for all colors whose components print to text that the number parser reads back.", "quantifier": "all colors (four numbers each)", "why_tests_cant": "all combinations of four numbers", "anchors": ["src/color.rs: Color::to_string, FromStr for Color"]}
{"id": "C09", "title": "Color parsing accepts exactly four components", "statement": "Parsing a color succeeds only on text with exactly four comma separated numbers; white space around the components does not matter.", "quantifier": "all strings", "why_tests_cant": "unbounded strings with any number of separators", "anchors": ["src/color.rs: FromStr for Color (L34-48)"]}
{"id": "C10", "title": "Neighbour lookup is in bounds, total and invertible", "statement": "Looking up the neighbours of an index in a contour never panics; it fails exactly on an out-of-range index (out of bounds) or a one-point contour (length one); otherwise both neighbours are valid indices different from the index itself, and next and previous are inverse to each other cyclically.", "quantifier": "all contour lengths and all indices", "why_tests_cant": "unbounded lengths and indices including those out of range", "anchors": ["src/outline/contour.rs: idx_sane, prev_next (L68-88)"]}
{"id": "C11", "title": "Neighbours respect open ends", "statement": "For an open contour the first point has no previous and the last no next neighbour; in every other case of a contour with two or more points the neighbours are the cyclic ones. The end classification (first/last/neither) agrees with this.", "quantifier": "all contours and indices", "why_tests_cant": "unbounded contours, open and closed", "anchors": ["src/outline/contour.rs: idx_which_end, is_open, contour_prev_next, contour_prev_next_handles (L89-158)"]}
{"id": "C12", "title": "Smoothness of a point depends on its own two handles", "statement": "`is_point_smooth_within` for a point with both handles placed is decided by the distance of the point to the segment between its own two handles, whatever the position of the point in a closed contour.", "quantifier": "all closed contours, all indices, all tolerances", "why_tests_cant": "the first and last points of unbounded contours are treated on their own code paths", "anchors": ["src/outline/contour.rs: is_point_smooth_within (L160-197)"]}
{"id": "C13", "title": "check_smooth touches only the smooth flag", "statement": "`check_smooth` changes nothing in a contour except possibly the smooth flag of the addressed point and never panics.", "quantifier": "all contours, all indices", "why_tests_cant": "frame condition over all points of unbounded contours", "anchors": ["src/outline/contour.rs: check_smooth (L199-210)"]}
{"id": "C14", "title": "Reversing twice restores a contour", "statement": "Reversing a contour twice gives the contour back: always when the contour is closed, and for an open contour exactly when the type of its last point agrees with the handles of the last segment (if reversing does not panic).", "quantifier": "all non-empty contours", "why_tests_cant": "unbounded contours with arbitrary types and handles", "anchors": ["src/outline/contour/reverse.rs: to_reversed (L17-68)"]}
{"id": "C15", "title": "Reversing keeps the drawn shape", "statement": "Reversing a contour yields the same segments, each traversed backwards, in reverse order.", "quantifier": "all contours whose point types agree with their handles", "why_tests_cant": "unbounded contours mixing lines and curves", "anchors": ["src/outline/contour/reverse.rs: to_reversed (L17-68)", "src/outline/reverse.rs"]}
{"id": "C16", "title": "Reversing loses no points", "statement": "Reversing never loses, duplicates or moves a point: the reversed contour has the same points up to order, the same names, smooth flags and coordinates, handles swapped, and a closed contour keeps its start point. It panics exactly on an empty contour and, in debug builds, on an open contour with a handle before its first or after its last point.", "quantifier": "all contours", "why_tests_cant": "unbounded contours", "anchors": ["src/outline/contour/reverse.rs: to_reversed (L17-68)"]}
{"id": "C17", "title": "Reading a cubic contour keeps the drawn segments", "statement": "For a contour of the UFO cubic form, the outline read has one point per on-curve point, in order with the same coordinates, type, name and smooth flag, and the segments between them have exactly the control points listed in the file.", "quantifier": "all cubic contours of the UFO form (open or closed, any mixture of lines and curves)", "why_tests_cant": "unbounded point lists", "anchors": ["src/outline/create.rs: cubic_contour (L108-163), Into<Outline> for GlifOutline (L165-183)"]}
{"id": "C18", "title": "Reading an outline never panics", "statement": "Converting the points of a glif into an outline returns for every list of contours.", "quantifier": "all lists of point lists", "why_tests_cant": "all mixtures of types in unbounded lists", "anchors": ["src/outline/create.rs: cubic_contour (L108-163), Into<Outline> for GlifOutline (L165-183)"]}
{"id": "C19", "title": "No contour with an on-curve point is lost on reading", "statement": "Every contour of a glif that contains a segment appears in the outline read.", "quantifier": "all lists of point lists", "why_tests_cant": "unbounded lists, any rotation of a closed contour", "anchors": ["src/outline/create.rs: Into<Outline> for GlifOutline (L165-183), cubic_contour"]}
{"id": "C20", "title": "Reading a quadratic contour inserts exactly the implied points", "statement": "For a contour of the UFO quadratic form, the contour read contains the listed points in order with exactly one on-curve point inserted half way between each two adjacent off-curve points, so that no two off-curve points remain adjacent.", "quantifier": "all quadratic contours", "why_tests_cant": "unbounded runs of off-curve points", "anchors": ["src/outline/create.rs: quadratic_contour (L18-106), midpoint"]}
{"id": "C21", "title": "Writing then reading a cubic contour", "statement": "Converting a well-formed cubic contour to glif points and reading these gives back the contour with the same start-independent sequence of segments, names, smooth flags: exactly the same contour for open contours and contours starting with a line, and the contour starting one point earlier when it is closed and starts with a curve point.", "quantifier": "all well-formed cubic contours", "why_tests_cant": "unbounded contours mixing lines and curves, open and closed", "anchors": ["src/outline/conv.rs: into_glifpoints, cleanup_offcurves (L34-73)", "src/outline/create.rs: cubic_contour"]}
{"id": "C22", "title": "Writing a contour terminates and panics only on contours without a writable point", "statement": "Converting a contour to glif points always terminates, and panics exactly when the contour has no on-curve point or contains a point of a type that does not exist in files.", "quantifier": "all contours", "why_tests_cant": "the rotation loop has no static bound; all mixtures of types", "anchors": ["src/outline/conv.rs: into_glifpoints, cleanup_offcurves (L34-73)"]}
{"id": "C23", "title": "Writing then reading a quadratic contour", "statement": "A quadratic contour read from a glif can be written again and keeps its control points.", "quantifier": "all quadratic contours", "why_tests_cant": "unbounded contours", "anchors": ["src/outline/conv.rs: into_glifpoints, cleanup_offcurves", "src/outline/create.rs: quadratic_contour"]}
{"id": "C24", "title": "Writing then reading a glyph restores it", "statement": "For every well-formed glyph with cubic outlines, reading the tree written for it succeeds and gives back name, width, code points, anchors, guidelines, components, note, lib and images, and the outline up to the start point of closed curve contours.", "quantifier": "all well-formed glyphs, default pedantry", "why_tests_cant": "all combinations of unbounded lists of all parts", "anchors": ["src/glif/write.rs: Glif::xml (L44-119)", "src/glif/read.rs: read_ufo_glif_pedantic (L74-317)", "src/anchor/xml.rs", "src/guideline/xml.rs", "src/component/xml.rs", "src/image/xml.rs", "src/matrix/write.rs", "src/point/xml.rs"]}
{"id": "C25", "title": "Image color survives write then read", "statement": "The color of an image is restored by writing and reading the glyph.", "quantifier": "all glyphs with images", "why_tests_cant": "all colors and positions of images", "anchors": ["src/image/xml.rs (L8-22)", "src/glif/read.rs (L165-186)"]}
{"id": "C26", "title": "The order of different elements in a glif does not matter", "statement": "Two glif trees whose children of each kind are the same in the same order are read to the same result, however the kinds are interleaved, and unknown elements are ignored.", "quantifier": "all element trees and all interleavings", "why_tests_cant": "factorially many interleavings of unbounded lists", "anchors": ["src/glif/read.rs: read_ufo_glif_pedantic (L74-317)"]}
{"id": "C27", "title": "Only format 2 glyph documents are read", "statement": "Reading succeeds only if the root is `glyph`, has format exactly `2` and has a name; the name of the result is that name.", "quantifier": "all element trees, all pedantry settings", "why_tests_cant": "all trees", "anchors": ["src/glif/read.rs (L74-92)"]}
{"id": "C28", "title": "Anchor class and kind survive write then read", "statement": "An anchor with a control-free non-empty class is written and read back with the same position, class and kind, where the kind is `mark` exactly when the class starts with an underscore; an invalid class is read as no class.", "quantifier": "all anchors", "why_tests_cant": "all class strings", "anchors": ["src/anchor.rs (L25-69)", "src/anchor/xml.rs", "src/glif/read.rs (L138-163)"]}
{"id": "C29", "title": "Pedantry decides exactly when anchors are rejected or rounded", "statement": "With mending always allowed no anchor is rejected; otherwise exactly the anchors with a coordinate not given as an integer are rejected. Coordinates are rounded exactly at the two sfnt levels and kept unchanged at the others.", "quantifier": "all anchors, all pedantry settings", "why_tests_cant": "all coordinates and all settings", "anchors": ["src/anchor.rs: Anchor::from_glif (L59-69)", "src/pedantry.rs"]}
{"id": "C30", "title": "A malformed lib is kept", "statement": "If the lib element of a glif is not a valid property list, its content is kept so that writing the glyph does not lose it.", "quantifier": "all lib elements", "why_tests_cant": "all malformed trees", "anchors": ["src/glif/read.rs (L290-304)", "src/glif/lib.rs"]}
{"id": "C31", "title": "Flattening terminates on every font", "statement": "Resolving the components of a glyph terminates for every finite set of glyph files, whatever references they contain.", "quantifier": "all finite maps from file names to glyphs, all starting glyphs", "why_tests_cant": "arbitrary reference graphs with cycles and sharing", "anchors": ["src/component.rs: build_component_tree (L311-330), From<GlifComponents> (L284-298)"]}
{"id": "C32", "title": "Component cycles are detected, and only cycles", "statement": "Resolving components reports a cycle only if some glyph really includes itself, and never succeeds when a glyph reachable through components includes itself; sharing a component several times is not a cycle.", "quantifier": "all finite maps from file names to glyphs, all starting glyphs", "why_tests_cant": "arbitrary reference graphs", "anchors": ["src/component.rs: build_component_tree (L311-330)"]}
{"id": "C33", "title": "Flattening collects every contour of the component tree", "statement": "The outline of a flattened glyph consists of the glyph's own contours and all contours of all directly and indirectly included glyphs.", "quantifier": "all fonts, all glyphs", "why_tests_cant": "unbounded depth of inclusion", "anchors": ["src/component.rs: flattened (L226-256), apply_component_rect (L163-212)"]}
{"id": "C34", "title": "Flattening composes the matrices of nested components", "statement": "Each contour copied by flattening is the original contour with every point and handle transformed by its component's own matrix first and then by the matrices of the enclosing components from inside out; in exact arithmetic this is the product of the matrices.", "quantifier": "all fonts, all matrices, all points", "why_tests_cant": "all matrices and contours", "anchors": ["src/component.rs: apply_component_rect (L163-212)", "src/matrix.rs: apply_matrix (L29-45)"]}
{"id": "C35", "title": "Component rectangles bound the flattened component", "statement": "Flattening with rectangles reports for each top level component a rectangle that contains all points contributed by it.", "quantifier": "all fonts, all glyphs with components", "why_tests_cant": "all trees and coordinates", "anchors": ["src/component.rs: apply_component_rect, flattened"]}
{"id": "C36", "title": "Flattening touches only outline and components", "statement": "A flattened glyph has no components and the same name, width, code points, anchors, guidelines, images, note, lib; one rectangle is reported per top level component in order exactly when requested.", "quantifier": "all fonts and glyphs", "why_tests_cant": "frame condition for all glyphs", "anchors": ["src/component.rs: flattened (L226-256)"]}
{"id": "C37", "title": "Closed curve contours survive the trip through kurbo", "statement": "A closed path of two or more cubic segments converted from kurbo to an outline and back gives the same path, and the outline has one point per segment with the segment's control points as handles.", "quantifier": "all closed cubic paths", "why_tests_cant": "unbounded paths", "anchors": ["src/outline/kurbo.rs", "src/outline/conv/penops.rs: into_pen_operations, split_pen_operations, to_outline"]}
{"id": "C38", "title": "Closed contours of any kind convert to pen operations segment by segment", "statement": "The pen operations of a closed contour draw exactly the segments of the contour.", "quantifier": "all closed contours with line and curve segments", "why_tests_cant": "all mixtures of lines and curves", "anchors": ["src/outline/conv/penops.rs: into_pen_operations (L90-146)"]}
{"id": "C39", "title": "Open contours convert to pen operations segment by segment", "statement": "The pen operations of an open contour draw exactly the segments of the contour.", "quantifier": "all open contours", "why_tests_cant": "unbounded contours", "anchors": ["src/outline/conv/penops.rs: into_pen_operations (L90-146)"]}
{"id": "C40", "title": "Converting from kurbo never panics", "statement": "Converting a kurbo path to an outline returns for every path starting with a MoveTo.", "quantifier": "all paths", "why_tests_cant": "all sequences of path elements", "anchors": ["src/outline/conv/penops.rs: split_pen_operations, to_outline (L167-272)", "src/outline/kurbo.rs"]}
{"id": "C41", "title": "Refiguring point types keeps the contour in place", "statement": "Refiguring point types changes no position, name or smooth flag, replaces only handles lying exactly on their own point, and afterwards every type is Move exactly at an open start, Line exactly where the segment has no handles and Curve elsewhere.", "quantifier": "all contours of two or more points", "why_tests_cant": "unbounded contours with arbitrary handles", "anchors": ["src/outline/refigure.rs (L25-75)"]}
{"id": "C42", "title": "Refiguring point types is idempotent", "statement": "Refiguring point types a second time changes nothing.", "quantifier": "all contours", "why_tests_cant": "unbounded contours; the loop reads handles it has not updated yet", "anchors": ["src/outline/refigure.rs (L25-75)"]}
{"id": "C43", "title": "Quadratic to cubic conversion draws the same curve", "statement": "The cubic control points computed for a quadratic segment describe the same curve at every parameter value in exact arithmetic.", "quantifier": "all control points and all parameters", "why_tests_cant": "a continuum of points", "anchors": ["src/outline/quad_to_cubic.rs (L8-19)"]}
{"id": "C44", "title": "Image codec detection", "statement": "The codec guessed for loaded data is determined by the leading magic number alone, is Unknown for anything else, and detection never panics.", "quantifier": "all byte strings", "why_tests_cant": "unbounded byte strings", "anchors": ["src/image.rs: guess_codec (L65-82)"]}
{"id": "C45", "title": "Image loading states", "statement": "Over every history of load, decode and data calls, decoded pixels are only ever available after a successful load and decode, a failed load keeps the data read before, and no call panics.", "quantifier": "all histories of calls with arbitrary results of the file system and decoder", "why_tests_cant": "histories are unbounded", "anchors": ["src/image.rs (L84-243)"]}
{"id": "C46", "title": "Glyph to MFEK glyph and back", "statement": "Converting a glyph with cubic outline to an MFEK glyph and back restores it.", "quantifier": "all cubic glyphs", "why_tests_cant": "all combinations of parts", "anchors": ["src/glif/mfek/mod.rs: From<Glif> for MFEKGlif (L54), From<MFEKGlif> for Glif (L93)"]}
{"id": "C47", "title": "Contour operations survive downgrade and upgrade", "statement": "Taking the contour operations out of an MFEK outline and upgrading the plain outline with them restores the MFEK outline; upgrading with the wrong number of operations is an error.", "quantifier": "all MFEK outlines", "why_tests_cant": "unbounded outlines", "anchors": ["src/glif/mfek/traits.rs (L37-130)"]}
{"id": "C48", "title": "Variable width stroke handles stay in step with points", "statement": "Over every history of deleting, inserting and appending points and taking sub-ranges, the number of stroke handles of a variable-width contour equals its number of points and no call with indices in range panics.", "quantifier": "all histories of edits", "why_tests_cant": "histories are unbounded", "anchors": ["src/glif/mfek/contour.rs", "src/glif/mfek/contour_operations/vws.rs (L20-90)", "src/glif/mfek/inner/mod.rs"]}
{"id": "C49", "title": "Merging layer lists", "statement": "Merging a layer list into layercontents keeps all existing entries in order, adds each missing entry once, never adds duplicates, and merging again changes nothing.", "quantifier": "all pairs of layer lists", "why_tests_cant": "unbounded lists", "anchors": ["src/glif/mfek/layer.rs (L73-110)"]}
{"id": "C50", "title": "Stroke option names survive printing and parsing", "statement": "Every join, cap and interpolation type printed as text parses back to itself.", "quantifier": "all values of the three types", "why_tests_cant": "custom cap names are unbounded strings", "anchors": ["src/glif/mfek/contour_operations/vws.rs (L95-180)"]}
{"id": "C51", "title": "Handle access laws", "statement": "Setting a handle and getting it returns what was set and leaves the other handle unchanged; the opposite of the opposite handle is the handle; moving a point moves its handles along.", "quantifier": "all points, handles and positions", "why_tests_cant": "all float positions", "anchors": ["src/point.rs (L190-360)", "src/glif/mfek/point/*.rs"]}
{"id": "C52", "title": "Outline to skia path draws the segments", "statement": "The skia path built for a contour starts at the first point and draws exactly the contour's segments in order, closing exactly closed contours.", "quantifier": "all contours of lines and curves", "why_tests_cant": "unbounded contours", "anchors": ["src/outline/skia/to.rs (L60-150)"]}
{"id": "C53", "title": "Point validity checks", "statement": "A point with a coordinate that is not a number or is subnormal is rejected by the validity check, whichever coordinate it is.", "quantifier": "all points", "why_tests_cant": "all float values for both coordinates", "anchors": ["src/point/valid.rs (L35-96)"]}
{"id": "C54", "title": "Every point keeps its own stroke widths", "statement": "In a variable-width contour, after deleting, inserting, appending or reversing, every remaining point has the same left and right width as before; an inserted point takes the widths of the point it is put before, and appended points without stroke those of the last point.", "quantifier": "all contours with a variable-width stroke and all positions", "why_tests_cant": "unbounded contours; a test sees a few positions", "anchors": ["src/glif/mfek/contour.rs", "src/glif/mfek/contour_operations/vws.rs (L20-90)"]}
{"id": "C55", "title": "Iterating over a contour gives exactly its points", "statement": "Iterating over a contour yields every point once, in order, and then ends; indexing agrees with iteration, and the next point of a closed hyperbezier contour is the cyclic successor.", "quantifier": "all contours of the three kinds", "why_tests_cant": "unbounded contours", "anchors": ["src/glif/mfek/contour.rs (L102)", "src/glif/mfek/inner/mod.rs", "src/glif/mfek/inner/hyper.rs"]}
{"id": "C56", "title": "Opening and closing a contour", "statement": "After opening a contour it is open, after closing it is closed, and nothing but the type of the first point changes.", "quantifier": "all contours of the three kinds", "why_tests_cant": "all contours including empty and one-point ones", "anchors": ["src/glif/mfek/inner/mod.rs"]}
{"id": "C57", "title": "Layers get different directories", "statement": "Two layers other than the first have the same glyph directory exactly when they have the same name, and never that of the first layer.", "quantifier": "all layer names and positions", "why_tests_cant": "all pairs of Unicode strings", "anchors": ["src/glif/mfek/layer.rs (to_glyphs_dir)", "src/glif.rs: name_to_filename (L111-124)"]}
{"id": "C58", "title": "MFEK glyph to plain glyph and back", "statement": "Turning an MFEK glyph into a plain glyph succeeds whenever it has a layer with a cubic outline, and turning it back restores a glyph with a single default layer without operations.", "quantifier": "all MFEK glyphs", "why_tests_cant": "unbounded layers, outlines and histories", "anchors": ["src/glif/mfek/mod.rs (From impls)"]}
{"id": "C59", "title": "A skia path becomes contours that draw the same", "statement": "Reading a skia path gives one contour per subpath that draws something, open or closed as the subpath is, whose segments are the curves of the subpath in order (quadratic curves and conics as cubic ones), and never panics.", "quantifier": "all paths of any number of subpaths and verbs, without NaNs", "why_tests_cant": "unbounded paths; the special cases are in which verb is first and which is last", "anchors": ["src/outline/skia/from.rs"]}
{"id": "C60", "title": "Outline to skia path and back draws the same", "statement": "A contour turned into a skia path and read back draws the same curves in the same order and is open or closed as before.", "quantifier": "all contours of lines and curves", "why_tests_cant": "unbounded contours", "anchors": ["src/outline/skia/to.rs", "src/outline/skia/from.rs"]}
{"id": "C61", "title": "File name of a glyph and its check", "statement": "The file name of a glyph is its name with an underscore after each of the capitals A to Y, followed by .glif; the check of a glyph's file name says yes exactly if the last part of its path is that name, no if it is another, an error if there is no path, and never panics.", "quantifier": "all glyph names and all paths", "why_tests_cant": "all Unicode strings and paths", "anchors": ["src/glif.rs: name_to_filename (L111-124)", "src/glif.rs: Glif::filename_is_sane (L80-92)"]}
{"id": "C62", "title": "Rounding an outline to integers", "statement": "Rounding gives every coordinate of every point the nearest integer, halves away from zero, leaves everything else as it is, leaves coordinates alone that are integers already, and rounding twice is rounding once.", "quantifier": "all outlines of points and of file points, all floats and integers", "why_tests_cant": "all 2^32 floats and integers, unbounded outlines", "anchors": ["src/outline/refigure.rs: RoundToInt (L76-113)"]}
{"id": "C63", "title": "Positions keep their value in kurbo and skia", "statement": "A position handed to kurbo has exactly the same value; a skia point taken to kurbo and back is the same, and a kurbo point taken to skia and back is the same exactly if both coordinates fit 32-bit floats; setting a coordinate sets just that one.", "quantifier": "all points, file points, skia and kurbo points", "why_tests_cant": "all floats and integers", "anchors": ["src/point/valid.rs: PointLike (L13-27, L60-73, L99-112)", "src/point/conv/kurbo.rs", "src/point/conv/skia.rs"]}
{"id": "C64", "title": "Matrices handed to skia are rounded once", "statement": "The skia matrix of a glif matrix has its six coefficients in order, each rounded once to a 32-bit float, whichever way it is handed over; giving an image a matrix makes that its matrix and changes nothing else.", "quantifier": "all matrices of integers and floats", "why_tests_cant": "all 2^32 integers and floats per coefficient; double rounding is a rare case", "anchors": ["src/matrix/skia.rs", "src/matrix.rs (L18-23)", "src/image.rs: GlifImage::set_matrix (L146-154)"]}
{"id": "C65", "title": "Guidelines and colors as property lists", "statement": "The property list of a guideline holds exactly its position, angle, name, color and identifier, with their exact values.", "quantifier": "all guidelines", "why_tests_cant": "all strings and floats", "anchors": ["src/guideline.rs: as_plist_dict (L40-52)", "src/color.rs: as_plist_value (L22-24)"]}
{"id": "C66", "title": "Glyphs to and from text", "statement": "Converting a glyph to text and the text to a glyph restores the glyph; the conversions panic exactly when the reading or writing function returns an error.", "quantifier": "all glyphs and texts, every XML library that gives back what it is given", "why_tests_cant": "unbounded glyphs", "anchors": ["src/glif/conv.rs", "src/glif/read.rs (L69-75)", "src/glif/write.rs (L25-41)"]}
{"id": "C67", "title": "Saving a glyph is all or nothing", "statement": "Saving a glyph puts its text into that file and touches no other; if the glyph cannot be written, nothing is touched; and if the write fails or the machine stops at any moment, the file holds the old or the new glyph.", "quantifier": "all glyphs, file systems, failures and crash points", "why_tests_cant": "every crash point", "anchors": ["src/glif/write.rs: write_ufo_glif_to_filename (L13-23)"]}
{"id": "C68", "title": "Flattening an MFEK glyph", "statement": "Flattening an MFEK glyph gives the outline and rectangles that flattening the plain glyph with the same components gives, fails when that fails, and changes nothing but the flattened outline and the components.", "quantifier": "all MFEK glyphs, all file systems, all depths", "why_tests_cant": "unbounded component trees", "anchors": ["src/component.rs: impl_flattened_glif (L215-263)"]}
{"id": "C69", "title": "Handles by name", "statement": "A string names handle A or B exactly if its first character after white space is a letter a or b in any of its four forms; white space only is an error and any other string is neither; release builds never panic.", "quantifier": "all strings", "why_tests_cant": "all Unicode strings", "anchors": ["src/point.rs: FromStr and From<char> for WhichHandle (L290-310)"]}
{"id": "C70", "title": "What a point element says", "statement": "A point element is read as a point exactly if x and y are numbers; the type is that named (anything else is a control point), the name is the attribute's, and it is smooth exactly if the attribute says yes and the point is on the curve; reading never panics.", "quantifier": "all elements", "why_tests_cant": "all attribute sets and strings", "anchors": ["src/glif/read.rs (L237-276)", "src/point.rs: From<&str> for PointType"]}
{"id": "C71", "title": "What component and image elements say", "statement": "A component is read exactly if it has a base and each matrix attribute present is a number, an image exactly if it has a file name, likewise, and a well-formed color if any; absent matrix attributes are those of the identity.", "quantifier": "all elements", "why_tests_cant": "all attribute sets and strings", "anchors": ["src/glif/read.rs (L32-44, L168-183, L282-287)", "src/component.rs (L57-65)", "src/image.rs (L120-139)"]}
{"id": "C72", "title": "What a document says", "statement": "A document is read to a glyph exactly if it says that glyph: format 2, its name, its first advance, all its code points, anchors, images and guidelines in order, its first note, lib and outline; each document says at most one glyph.", "quantifier": "all documents of any size and all settings", "why_tests_cant": "unbounded documents", "anchors": ["src/glif/read.rs: read_ufo_glif_pedantic (L74-317)"]}
{"id": "C73", "title": "Reading from a file", "statement": "Reading a glyph from a file gives what the document in it says, with the path of the file, and for every component the file beside it named after its base; a missing file and an ill-formed one are the two errors of their own.", "quantifier": "all file systems, paths, documents and settings", "why_tests_cant": "unbounded documents, all paths", "anchors": ["src/glif/read.rs: read_ufo_glif_from_filename_pedantic (L54-66)", "src/component.rs: set_file_name (L118-122)"]}
{"id": "C74", "title": "Structure of a written document", "statement": "A written document has exactly one element for the width, each code point, anchor, guideline, image with a writable file name, note and lib, an outline element exactly if there is a contour or component, in this order; each with exactly the attributes of the value.", "quantifier": "all glyphs", "why_tests_cant": "unbounded glyphs", "anchors": ["src/glif/write.rs (L44-119)", "src/anchor/xml.rs", "src/guideline/xml.rs", "src/component/xml.rs", "src/image/xml.rs", "src/point/xml.rs", "src/matrix/write.rs"]}
{"id": "C75", "title": "Strictness only rejects", "statement": "A document is accepted under a setting exactly if it is under the default one, its anchors are at integers unless everything is mended, and its width is an integer if the setting is strict; the result differs only in that the anchors are rounded for OpenType and TrueType.", "quantifier": "all documents and all 16 settings", "why_tests_cant": "unbounded documents", "anchors": ["src/pedantry.rs", "src/anchor.rs (L59-69)", "src/glif/read.rs (L97-116)"]}
{"id": "C76", "title": "Repeated saving and loading is stable", "statement": "However often a contour is saved and loaded, it stays the same contour with the same starting point.", "quantifier": "all contours of lines and curves that a file can hold, any number of cycles", "why_tests_cant": "unbounded histories of save and load", "anchors": ["src/outline/conv.rs", "src/outline/create.rs"]}
{"id": "C77", "title": "Quadratic contours built from any list of points", "statement": "Building a quadratic contour from any list of two or more points gives the points with one point half way between each two adjacent control points, and one closing point exactly if the list ends in a control point; a contour of control points only comes out with one point on the curve after each.", "quantifier": "all lists of points", "why_tests_cant": "unbounded lists, all patterns of control points", "anchors": ["src/outline/create.rs: quadratic_contour"]}
{"id": "C78", "title": "The starting point of a contour does not matter", "statement": "A closed contour listed from another of its points is read to the same contour starting at that point.", "quantifier": "all closed contours and starting points", "why_tests_cant": "unbounded contours, all rotations", "anchors": ["src/outline/contour.rs", "src/outline/create.rs"]}
{"id": "C79", "title": "Guideline builders", "statement": "However the building calls are chained, a guideline has the position and angle given at the start and for every other field what was given last, and nothing if never given.", "quantifier": "all sequences of calls", "why_tests_cant": "unbounded sequences of calls", "anchors": ["src/guideline.rs: from_x_y_angle, name, color, identifier, data (L55-87)"]}
{"id": "C80", "title": "Points, file points and handles as one another", "statement": "The constructors fill in exactly what they are given, and panic exactly for control points in debug builds; a point taken to a file point and back keeps place, name, type and smoothness and loses handles and data; a handle seen as a point is where the handle is, and setting it back moves nothing.", "quantifier": "all points, handles and types", "why_tests_cant": "all floats", "anchors": ["src/point.rs (L73-101, L171-262)", "src/point/conv.rs"]}
{"id": "C81", "title": "Implied points are half way", "statement": "The point put between two adjacent control points of a quadratic contour is half way between them: exactly if both are on a grid 32-bit floats can count, and otherwise up to the rounding of 32-bit floats; never infinite or NaN for coordinates within range.", "quantifier": "all quadratic contours and all numbers, integers and floats mixed", "why_tests_cant": "all 2^64 pairs of coordinates; mixed kinds", "anchors": ["src/outline/create.rs: quadratic_contour"]}
{"id": "C82", "title": "Degree elevation stays on the curve", "statement": "The cubic computed for a quadratic curve has the same ends and stays, at every parameter, as close to it as the rounding of 32-bit floats allows.", "quantifier": "all triples of finite points, all parameters between 0 and 1", "why_tests_cant": "a continuum of parameters, all floats", "anchors": ["src/outline/quad_to_cubic.rs"]}
{"id": "C83", "title": "Component matrices put points where they should", "statement": "A point and its handles under a component's matrix are where the matrix puts them, up to the rounding of 32-bit floats relative to the terms added up; handles stay absent or present. The same holds under the matrices of nested components, applied one after the other, with one rounding for each, and so for all of a flattened outline.", "quantifier": "all matrices of finite coefficients and all finite points", "why_tests_cant": "all floats", "anchors": ["src/matrix.rs: ApplyMatrix (L29-45)"]}
{"id": "C84", "title": "Whole outlines are reversed and retyped contour by contour", "statement": "Reversing an outline gives the reversals of its contours in the same order, panicking exactly if one of them does; reversing closed contours twice gives them back. Recomputing the types of an outline never fails and acts on each contour alone.", "quantifier": "all outlines", "why_tests_cant": "unbounded outlines of unbounded contours", "anchors": ["src/outline/reverse.rs", "src/outline/refigure.rs: RefigurePointTypes for Outline (L17-23)"]}
{"id": "C85", "title": "Pen operations are well formed, split and simplified correctly", "statement": "The operations made from a contour are valid. A list of operations is split at its MoveTos into its subpaths in order, and counts as one contour exactly if it has no later MoveTo. Simplifying an operation turns curves that are straight because their control points are on their end into lines of the same shape and leaves all others.", "quantifier": "all contours, all lists of operations, all points of a curve", "why_tests_cant": "unbounded lists, all floats", "anchors": ["src/outline/conv/penops.rs: simplify, Default, IsValid, SplitPenOperations (L34-83, L147-200)", "src/outline/kurbo.rs (L14-46, L137-147)"]}
{"id": "C86", "title": "Where the image of a glyph is read from", "statement": "The image of a glyph is read from the directory images beside the directory of the glyph, under its file name; the loaded image has the bytes of that file, the recognised format and the matrix and color of the reference. A glyph without file name, an impossible file name and an unreadable file are errors, never panics.", "quantifier": "all file systems, glyphs and image references", "why_tests_cant": "arbitrary file systems", "anchors": ["src/image.rs: to_image_of, from_filename (L157-178)"]}
{"id": "C87", "title": "Editing an MFEK contour edits its list of points", "statement": "Deleting, inserting, appending, taking a part and reversing do to the points of a contour of any kind what they say and nothing else; the kind of the contour, the flag of a hyperbezier contour and the settings of its operation never change. Without variable-width stroke an edit panics exactly if an index is out of range. Reversing twice, and appending the parts a contour was cut into, give the contour back.", "quantifier": "all contours of all kinds, all operations, all histories of edits", "why_tests_cant": "unbounded histories and contours", "anchors": ["src/glif/mfek/contour.rs", "src/glif/mfek/inner/mod.rs", "src/glif/mfek/inner/cubic.rs", "src/glif/mfek/inner/quad.rs", "src/glif/mfek/inner/hyper.rs"]}
{"id": "C88", "title": "Edits keep an MFEK contour open or closed", "statement": "A contour that is open (closed) stays open (closed) when it is edited.", "quantifier": "all contours and edits", "why_tests_cant": "all contours and histories", "anchors": ["src/glif/mfek/contour.rs: sub, append, delete, reverse_points", "src/glif/mfek/inner/"]}
{"id": "C89", "title": "Changing one point of an MFEK contour", "statement": "A point changed through its contour changes as the method says; no other point, nor the kind, flag or operation of the contour changes. The typed views of a contour agree with its type and its points.", "quantifier": "all contours, indices and methods of points", "why_tests_cant": "unbounded contours", "anchors": ["src/glif/mfek/contour.rs: get_point_mut, cubic, quad, hyper", "src/glif/mfek/inner/"]}
{"id": "C90", "title": "What number texts mean", "statement": "A code point is read from hexadecimal digits, a width from decimal digits below 2^64, a coordinate is an integer exactly if its text is a decimal integer between -2^31 and 2^31-1; leading zeros and a plus sign are allowed. Code points and widths are written with the digits of the number, without sign or leading zeros.", "quantifier": "all texts and numbers", "why_tests_cant": "texts of any length", "anchors": ["src/glif/read.rs: L97-134", "src/codepoint.rs", "src/glif/xml.rs"]}
{"id": "C91", "title": "A bad document gives the error of the first failing check", "statement": "Reading makes its checks in a fixed order (root, format, name, advance, code points, anchors, images, guidelines, contours, components, and within each element attribute by attribute); it gives an error exactly if a check fails, and the error is the one of the first failing check.", "quantifier": "all documents and pedantry settings", "why_tests_cant": "unbounded documents with any number of problems", "anchors": ["src/glif/read.rs: read_ufo_glif_pedantic, load_matrix (L32-44, L74-317)", "src/anchor.rs: from_glif"]}
{"id": "C92", "title": "Checked strings stay checked", "statement": "A GlifString never contains an ASCII control character and a GlifStringLenOne is never empty, however it was made; saving one through serde and loading it gives it back.", "quantifier": "all texts and all serde documents", "why_tests_cant": "all texts", "anchors": ["src/string.rs", "src/string/serde_impl.rs"]}
{"id": "C93", "title": "A glyph saved through serde is loaded as it was", "statement": "Serialising a glyph to a serde value and deserialising that value gives the same glyph: points, handles, data, anchors, components, guidelines, images, width, code points, name, note and lib. Saving fails only where something cannot be represented.", "quantifier": "all glyphs, all types of point data, all libs", "why_tests_cant": "unbounded glyphs, all floats including infinities and NaN", "anchors": ["src/glif.rs: Glif (L40-69)", "src/point.rs", "src/anchor.rs", "src/guideline.rs", "src/component.rs", "src/image.rs", "src/color.rs", "src/glif/lib.rs"]}
{"id": "C94", "title": "An MFEK glyph saved through serde is loaded as it was", "statement": "Serialising an MFEK glyph and deserialising the result gives the same glyph with its layers, contours of all kinds, operations with patterns within patterns to any depth, and the edit history with its glyphs and their histories to any depth.", "quantifier": "all MFEK glyphs, patterns and histories nested to any depth", "why_tests_cant": "unbounded nesting", "anchors": ["src/glif/mfek/mod.rs: MFEKGlif, HistoryEntry (L33-52, L124-133)", "src/glif/mfek/layer.rs", "src/glif/mfek/contour.rs", "src/glif/mfek/contour_operations/", "src/glif/mfek/inner/", "src/glif/mfek/pointdata.rs"]}
{"id": "C95", "title": "Which fields of a saved glyph are read", "statement": "Loading a struct reads exactly its fields: other fields and the order of fields do not matter, an array gives the fields in their order, a missing required field is an error and a missing optional field means its default. Enums are read from their names and nothing else.", "quantifier": "all serde documents", "why_tests_cant": "unbounded documents", "anchors": ["serde attributes in src/point.rs, src/anchor.rs, src/guideline.rs, src/component.rs, src/image.rs, src/glif.rs, src/glif/mfek/"]}
{"id": "C96", "title": "A number in the text of a file is read as the nearest float", "statement": "A coordinate text is accepted exactly if it is a decimal number (sign, digits with a point anywhere, exponent), an infinity or a NaN; a decimal number gives the 32-bit float nearest to it, ties to even, infinite only from half a step beyond the largest float, and with the sign that is written. The text written for a float means a number nearest to which is that float.", "quantifier": "all texts and all floats", "why_tests_cant": "texts of any length, all rationals", "anchors": ["src/glif/read.rs: L104, L147, L190-222, L237-276", "src/point/xml.rs"]}
{"id": "C97", "title": "Conversions to 32 bits and single steps of arithmetic give the nearest float", "statement": "A 64-bit coordinate (kurbo, serde, matrices) or an integer coordinate becomes the 32-bit float nearest to it; the on-curve point implied between two control points is the float nearest to their midpoint.", "quantifier": "all floats, integers and contours", "why_tests_cant": "all pairs of floats", "anchors": ["src/outline/create.rs: mid, L44-50", "src/point/conv/kurbo.rs", "src/point/conv/skia.rs", "src/outline/kurbo.rs", "src/point.rs: Point"]}
{"id": "C98", "title": "What was opened can be saved, and what was saved can be opened again", "statement": "A glyph read from any document can be written; reading what was written gives the same glyph, whatever strictness it was first read with. Contours written out in full (each curve with its two control points) keep every point and handle.", "quantifier": "all documents, strictness settings and build modes", "why_tests_cant": "unbounded documents, all number texts", "anchors": ["src/glif/read.rs: read_ufo_glif_pedantic", "src/glif/write.rs: glif_to_xml", "src/outline/create.rs", "src/outline/conv.rs"]}
{"id": "C99", "title": "A font saved file by file is loaded file by file", "statement": "After any history of saving glyphs to files (also failed or interrupted savings), loading a file gives the glyph last saved there, if nothing happened to that file since; files to which nothing happened load as before. A font whose glyphs have different names is saved to different files, each loads as saved, and its components lead to the files of the glyphs they name. If all components are there, flattening any loaded glyph succeeds, unless its components lead to a glyph that includes itself, which is then reported as a cycle.", "quantifier": "all fonts, histories of savings and crash points", "why_tests_cant": "unbounded histories and fonts, crashes at every point", "anchors": ["src/glif/write.rs: write_ufo_glif_to_filename", "src/glif/read.rs: read_ufo_glif_from_filename", "src/glif.rs: name_to_filename", "src/component.rs"]}
{"id": "C100", "title": "The form of what is saved", "statement": "Everything saved through serde has one form: a struct is an object with exactly its fields under their names, in order; an enum is the name of its variant, or an object with that name and the value; lists are arrays in order; None is null; a finite float is a number of the same value, another one is null; the file name of a glyph is not saved. This is so for glyphs, MFEK glyphs with layers, contours, operations and histories nested to any depth, and all their parts.", "quantifier": "all values of all types that can be saved", "why_tests_cant": "unbounded glyphs, histories and patterns nested to any depth", "anchors": ["#[derive(Serialize)] in src/point.rs, src/anchor.rs, src/guideline.rs, src/component.rs, src/image.rs, src/color.rs, src/outline.rs, src/glif.rs, src/glif/lib.rs, src/glif/mfek/"]}
{"id": "C101", "title": "The message of an error tells which error it is", "statement": "Two errors with the same displayed message are the same error: same kind, same indices, names and texts. Each number and name stands where the message says.", "quantifier": "all errors", "why_tests_cant": "indices and names are unbounded; every pair of errors", "anchors": ["src/error.rs: Display for GlifParserError (L75-153)", "src/error/string.rs", "src/error/mfek.rs", "src/component.rs: L319-322"]}
{"id": "C102", "title": "Comparing glyphs", "statement": "Two glyphs are equal exactly if they agree field by field: numbers by value, the set of component names as a set, everything else in order. A glyph equals itself, equality does not depend on the order of the two, two glyphs equal to a third are equal; and a glyph that was opened equals what is opened after saving it.", "quantifier": "all glyphs, all documents", "why_tests_cant": "unbounded glyphs; special float values", "anchors": ["src/glif.rs: L41 derive(PartialEq) for Glif", "src/point.rs: L67, L142", "src/anchor.rs: L17, L46", "src/guideline.rs: L16, L29", "src/component.rs: L26, L40", "src/color.rs: L9", "src/image.rs: L86", "src/glif/lib.rs: L7"]}
{"id": "C103", "title": "Comparing MFEK glyphs", "statement": "Two MFEK glyphs are equal exactly if they agree field by field: layers, contours with the operations on them and the contours in their patterns, history with the glyphs in it, cached outlines; numbers by value, selected points and component names as sets. An MFEK glyph equals itself and what is loaded after saving it as JSON; equality does not depend on the order of the two, and two glyphs equal to a third are equal. Equal glyphs become equal MFEK glyphs and equal MFEK glyphs become equal glyphs.", "quantifier": "all MFEK glyphs, with patterns and histories of any depth", "why_tests_cant": "unbounded nesting; special float values", "anchors": ["src/glif/mfek/mod.rs: L33, L54-122, L124, L176 derive(PartialEq) for MFEKGlif, HistoryEntry", "src/glif/mfek/layer.rs: L15", "src/glif/mfek/contour.rs: L18", "src/glif/mfek/inner/", "src/glif/mfek/contour_operations/", "src/glif/mfek/point/", "src/component.rs: L94"]}
{"id": "C104", "title": "Hashing points, components and outlines", "statement": "Points, components and outlines as files have them, which derive both comparison and hashing, are hashed equally whenever they are equal, provided numbers are; and every field goes into the hash: values that differ in a field give the hasher different input, also when more is hashed after them. Types of points, sides of a point, ends and kinds of contours are told apart.", "quantifier": "all outlines, points, components; any hash of numbers and paths", "why_tests_cant": "unbounded outlines; any hasher", "anchors": ["src/point.rs: L19 GlifPoint, L48 PointType, L162 WhichHandle", "src/component.rs: L26 GlifComponent", "src/outline.rs: L31 GlifOutline", "src/outline/contour.rs: L13 End", "src/glif/mfek/inner/mod.rs: L172 MFEKContourInnerType"]}
{"id": "C105", "title": "Kurbo and skia are given the same drawing", "statement": "A contour whose point types are as recomputing leaves them, handed to kurbo and to skia, is drawn alike: the kurbo path draws exactly the lines and curves the skia path draws, in the same order, with the same numbers in 64 bits.", "quantifier": "all contours of any length, open and closed, of lines and curves", "why_tests_cant": "unbounded contours; two independent conversions compared", "anchors": ["src/outline/conv/penops.rs: L92-145", "src/outline/kurbo.rs: L112-122", "src/outline/skia/to.rs: L94-151", "src/outline/refigure.rs"]}
{"id": "C106", "title": "The characters of the file", "statement": "A glyph whose texts consist of characters XML can carry is restored from the characters written for it, whatever markup characters, quotes and line ends its name, note and other texts contain. Any tree of elements is there again after printing and parsing, but for runs of blanks. A font saved as characters is loaded as saved.", "quantifier": "all glyphs, trees of any depth and texts of any length; an XML printer and parser after the standard", "why_tests_cant": "unbounded texts and nesting; every placement of the characters XML sets apart", "anchors": ["src/glif/write.rs: L31-42 write_ufo_glif", "src/glif/read.rs: L75 read_ufo_glif", "src/glif/xml.rs", "src/lib.rs: xmltree"]}
{"id": "C107", "title": "However a file is spelt, the same glyph is read", "statement": "A text is read exactly if it is an XML document, and then as the one tree it says: quotes of either kind, references for characters, white space in tags and between them, comments, empty elements written in one tag or two make no difference to the glyph. What is written for a tree is a document that says it. What is no document is reported as such.", "quantifier": "all texts; an XML parser after the standard", "why_tests_cant": "unbounded texts, nesting and spellings of the same glyph", "anchors": ["src/glif/read.rs: L69-75 read_ufo_glif", "src/glif/write.rs: L31-42", "src/error.rs: XmlParseError"]}
{"id": "C108", "title": "The property list of the lib", "statement": "The dictionary a glyph carries in its lib, with texts, integers, booleans, numbers, dates, data, arrays and dictionaries inside each other, is restored by writing the glyph as the characters of a file and reading it. A lib element is read as a dictionary exactly if it holds one in the property list format; repeated keys take the last value.", "quantifier": "all dictionaries of any depth, all lib elements; a property list reader and writer after the format", "why_tests_cant": "unbounded nesting; every text and key; repeated keys, comments and blanks between the elements", "anchors": ["src/glif/write.rs: L90-116", "src/glif/read.rs: L290-304", "src/glif/lib.rs: Lib"]}
{"id": "C109", "title": "The bytes of the file, and a file cut short", "statement": "Files are read exactly if they are UTF-8, as the text they are. Glyphs saved as bytes are loaded as saved. Of the beginning of a file either the same glyph is loaded or an error reported; the beginning of a file this library wrote is always an error. So if saving is stopped at any moment, the file is as before, or loads as the new glyph, or loading reports an error: never another glyph.", "quantifier": "all byte sequences, all files, all glyphs XML can carry, all points at which saving stops", "why_tests_cant": "unbounded files, cut at every byte; crash points", "anchors": ["src/glif/read.rs: L54-66 read_ufo_glif_from_filename", "src/glif/write.rs: L13-28 write_ufo_glif_to_filename", "src/component.rs: L135", "src/error.rs: GlifFileIoError, XmlParseError"]}
{"id": "C110", "title": "Saving again what was saved changes nothing", "statement": "A file this library wrote, loaded and saved again with nothing edited, is byte for byte the same file, so that files under version control do not change by being opened and saved; and it stays the same however often that is done.", "quantifier": "all glyphs, all files written, any number of saves", "why_tests_cant": "unbounded glyphs and numbers of saves; every number format and every shape of contour", "anchors": ["src/glif/read.rs: read_ufo_glif, read_ufo_glif_from_filename", "src/glif/write.rs: write_ufo_glif", "src/outline/conv.rs", "src/outline/create.rs: FromGlifPoints", "src/matrix.rs", "src/color.rs"]}
{"id": "C111", "title": "How many files are read for the components", "statement": "Resolving the components of a glyph reads a number of files in proportion to the files of the font; however its glyphs include each other, there is a limit that depends on the font only.", "quantifier": "all fonts, all ways their glyphs include each other, successful or not", "why_tests_cant": "unbounded fonts and depth of inclusion; work, not result", "anchors": ["src/component.rs: L125-146 to_component, L226 flattened, L284-299 From<GlifComponents>, L311-330 build_component_tree"]}
{"id": "C112", "title": "Builds without images or without serde", "statement": "A build of the library without one of its default features reads every file the full build reads, as the same glyph but for the images or the lib it does not know, and opening and saving a file with it loses nothing.", "quantifier": "all documents, all glyphs, each choice of the two features, all strictness settings", "why_tests_cant": "unbounded documents; every combination of features, of which a test run compiles one", "anchors": ["Cargo.toml: features glifimage, glifserde", "src/glif/read.rs: L165-186, L290-308", "src/glif/write.rs: L72-77", "src/glif.rs: Glif::images", "src/glif/lib.rs: Lib"]}
{"id": "C113", "title": "Debug and release builds", "statement": "What was tried in a debug build holds for the release build: whatever the one does without stopping at an assertion the other does as well, and on glyphs read from files no assertion fails.", "quantifier": "all glyphs, contours, outlines, skia paths, points and names of handles", "why_tests_cant": "unbounded glyphs; two builds compared, of which a test run is one", "anchors": ["src/outline/conv.rs: L36, L49, L52", "src/point/xml.rs: L21", "src/outline/contour/reverse.rs: L62-63", "src/outline/skia/from.rs: L74, L100, L108, L181", "src/point.rs: L178-190, L255-262, L290-309"]}
{"id": "C114", "title": "Reversing and saving", "statement": "A glyph whose contours are reversed, saved and opened again draws what it drew before, backwards; saving alone changes nothing of what is drawn.", "quantifier": "all glyphs that can be stored, open and closed contours of any length", "why_tests_cant": "unbounded contours; the effect of one operation on a later one", "anchors": ["src/outline/contour/reverse.rs: L18-67", "src/outline/reverse.rs", "src/outline/refigure.rs: L17-74", "src/outline/conv.rs", "src/glif/write.rs", "src/glif/read.rs"]}
{"id": "C115", "title": "A component loaded by itself", "statement": "Loading a component gives the outline, the anchors and the components of the glyph its file holds, under the name and with the matrix of the component; it fails exactly if the file cannot be opened, and the error tells what is missing.", "quantifier": "all components, file systems and file contents", "why_tests_cant": "unbounded files and contents; exactly which failures there are", "anchors": ["src/component.rs: L116-146 GlifComponent::set_file_name, to_component", "src/glif/read.rs: L54-66"]}
{"id": "C116", "title": "Any file, opened, saved and opened again", "statement": "Whatever bytes a file of lines and cubic curves holds, whoever wrote it: if it can be opened, the glyph can be saved, and opening the saved file restores it; from then on saving leaves the bytes as they are unless a contour starts and ends with curves between points that differ.", "quantifier": "all bytes of files, all ways to spell the same document, all glyphs, file names and property lists in them", "why_tests_cant": "every spelling of every document; no set of files is representative", "anchors": ["src/glif/read.rs: L54-75 read_ufo_glif_from_filename, read_ufo_glif_pedantic", "src/glif/write.rs: L14-45 write_ufo_glif_to_filename, write_ufo_glif"]}
{"id": "C117", "title": "Histories of edits, and saving after them", "statement": "However often and in whatever order the outline of an opened glyph is reversed, refigured and rounded and its points moved, named and given handles, no edit panics, the contours keep their points and stay open or closed, and the glyph can be saved and opened again as edited.", "quantifier": "all glyphs with contours of lines and curves, all finite histories of edits at existing places, debug and release builds", "why_tests_cant": "the histories are unboundedly many and long; each edit changes the types and handles the next relies on", "anchors": ["src/outline/contour/reverse.rs: L18-67", "src/outline/reverse.rs: L5-17", "src/outline/refigure.rs: L17-98", "src/glif/mfek/point/mod.rs: L32-149", "src/glif/write.rs"]}
{"id": "C118", "title": "The minus sign of a zero", "statement": "Whatever was opened from a document of lines and cubic curves can be saved, and opening what was saved restores every number, including the sign of zeros.", "quantifier": "all glyphs for what saving and opening make of zeros; all documents of lines and cubic curves, all levels of pedantry, debug and release builds", "why_tests_cant": "a sign of zero is invisible in comparisons of numbers, may stand in any of a glyph's coordinates, and is lost in some of them only", "anchors": ["src/point/xml.rs", "src/anchor/xml.rs", "src/guideline/xml.rs", "src/matrix/write.rs", "src/glif/read.rs: L32-44, L140-276", "src/glif/write.rs", "src/pedantry.rs"]}
{"id": "C119", "title": "Contours and the rest of a glyph do not disturb each other", "statement": "Saving a glyph and opening what was saved restores its name, width, code points, anchors, guidelines, components, images, note and lib whatever its contours are, even where these are not restored; and what becomes of the contours, including panics and errors, does not depend on anything else in the glyph.", "quantifier": "all glyphs whose parts other than contours can be written; all documents opened, with contours of any kind; debug and release builds", "why_tests_cant": "contours of every kind and length next to any number of anchors, guidelines, components and images", "anchors": ["src/glif/write.rs", "src/glif/read.rs: L46-349", "src/outline/create.rs", "src/outline/conv.rs"]}
{"id": "C120", "title": "Flattened glyphs can be saved and are what is opened then", "statement": "A glyph opened from a file whose components have been flattened can be saved unless a glyph it includes, directly or through one other, has a quadratic contour that ends in a control point; if the included glyphs are made of lines and cubic curves, opening what was saved gives the flattened glyph, without components, up to the minus signs of zeros. Its own contours and the matrices make no difference to this. Flattening it a second time leaves no contours.", "quantifier": "all fonts (files and documents), all glyphs opened from them, all matrices of components, any nesting, any numbers including infinite ones; debug and release builds", "why_tests_cant": "every included glyph, every matrix and every coordinate that may result from applying it would have to be tried", "anchors": ["src/component.rs: FlattenedGlif, L213-256, L311-330", "src/matrix.rs: L29-45", "src/glif/write.rs", "src/glif/read.rs"]}
{"id": "C121", "title": "Saving a glyph through an MFEK glyph", "statement": "A glyph that is turned into an MFEK glyph and back is saved as the document it would be saved as directly, without its lib and with nothing else changed, and cannot be saved if it cannot be saved directly; for files, what is opened then is what would be opened after saving directly, without the lib. Of an MFEK glyph only its first layer and the parts outside layers are saved: its other layers, operations, history and what is kept of flattening make no difference.", "quantifier": "all glyphs, all documents and files, all MFEK glyphs with any number of layers, any history", "why_tests_cant": "every glyph, every document and every pair of MFEK glyphs with the same first layer would have to be tried", "anchors": ["src/glif/mfek/mod.rs: From<Glif> for MFEKGlif, From<MFEKGlif> for Glif, L54-122", "src/glif/write.rs", "src/glif/read.rs"]}
