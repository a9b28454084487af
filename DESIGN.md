# Formal model of glifparser: design

Target: MFEK/glifparser.rlib as checked out in `/repo` (Rust). The code is modelled
function by function in Gallina (Coq 8.16.1) under `rocq/theories`, and the properties of
`properties.jsonl` are theorems about that model.

## 1. Conventions of the model

* **Results.** A Rust function that can return `Err` or panic is modelled by
  `res A := Ok a | Err e | Panic`. Index out of range, `unwrap` on `None`, `unreachable!`,
  `panic!`, `unimplemented!` and failing `split_at`/`remove` all give `Panic`.
  `debug_assert!` gives `Panic` only if the build flag `dbg : bool` of the function is true;
  theorems quantify over `dbg`.
* **Mutation.** `&mut self` functions return the new value.
* **Loops.** Structural recursion; where Rust has an unbounded `while`, explicit fuel with a
  separate out-of-fuel outcome, and a theorem that enough fuel always exists.
* **Strings** are lists of Unicode scalar values (`list N`); byte positions use an explicit
  UTF-8 width function.
* **Floats** are `Coq.Floats.SpecFloat.spec_float` at precision (24,128) and (53,1024): IEEE
  arithmetic with a single NaN, no axioms. `f32 as f64`, `as u64`, `as i32`, `round` are
  defined on it.
* **Numbers in text.** The crate `integer_or_float` and the float printing of the Rust
  library are not in `/repo`. They are a record `numlib` of functions over which the model
  and the theorems quantify; what a theorem needs of them is a hypothesis on the values
  concerned ("this number is read back from its text"). A concrete instance is
  defined for which the hypothesis is proved.
* **XML.** The crate `xmltree` is modelled at the level of its `Element` tree
  (name, ordered attributes, child nodes; `take_child`, `get_text`, `insert`).
  Text <-> tree is external, with a reference instance (C106).
* **Files** are a map from paths to texts (external: decoding of file contents). Paths are lists
  of components as `Path::components` gives them on Unix; `push`, `parent`, `file_name` and
  `set_file_name` are modelled, with absolute paths, `.`, `..` and separators inside names.
* **Point data.** The `PD` type parameter is a Coq type variable.

## 2. Files

* `Model/*.v`: the model, definitions only, each with the `/repo` lines it models.
* `Spec/*.v`: small independent specifications (segments of a contour, reference graph, ...).
* `Facts/*.v`: lemmas and proofs.
* `Props/*.v`: the property theorems, each followed by `Print Assumptions` and a concrete
  non-trivial instance.
* `Props/RepoTests.v`: the tests of `/repo` run on the model.  They prove nothing about all
  inputs; they show that the model does what the authors of the code expect in these cases
  (all of them pass; `test_image_png` is left out, since another crate does the decoding).

## 3. Plan per property

| id | modelled | proof |
|----|----------|-------|
| C01 | `name_to_filename` on strings | decoder + induction |
| C02 | same | expected false for the letter Z (range excludes it): refute, prove without Z |
| C03 | `GlifString`, `GlifStringLenOne` | induction on the string |
| C04 | loop of `to_glif_string` with byte index `remove` | expected false after a multi-byte character: refute, give exact condition |
| C05 | u64 printing and parsing, `advance` | digit lists, induction |
| C06 | reader of `advance` with float conversion | case analysis |
| C07 | hex printing and parsing, `char::from_u32` | digit lists, induction on list |
| C08, C09 | color printing and parsing with `split(',')` | induction; C09 expected false (extra components) |
| C10, C11 | index functions of contours | arithmetic |
| C12, C13 | smoothness test with distance as parameter | case analysis; C12 expected false at the ends |
| C14-C16 | `to_reversed` | list induction; C15 expected false for mixed contours |
| C17-C20 | `cubic_contour`, `quadratic_contour`, dispatch | induction on point lists against a spec by grouping; C18, C19 expected false |
| C21-C23 | `into_glifpoints` and reading back | induction; C23 expected false |
| C24-C30 | `Glif::xml`, `read_ufo_glif_pedantic` on element trees | composition of per-element round trips; C25, C30 expected false |
| C31-C36 | component tree, flattening | well-founded bound on reference paths; C33, C35 expected false; C32 REFUTED for names with path separators, exact otherwise |
| C37-C40 | pen operations, kurbo conversion | induction; C38-C40 expected false in general |
| C41, C42 | refigure loop | loop invariant; C42 expected false for closed contours |
| C43 | degree elevation, for kurbo curves (`quad_to_cubic_coords`) and for points of files, whose sums go through `IntegerOrFloat` (`elevate`) | `field` over the rationals; rounding of the code's arithmetic bounded for points of files (`C43_any_points`, `C43_read_back`) |
| C44, C45 | `guess_codec`, loading state machine | case analysis; induction on histories |
| C46-C51 | MFEK glyph, contour operations, layers, points | induction on lists and histories |
| C52 | list of skia verbs | induction |
| C53 | validity checks | case analysis; expected false for asymmetry |
| C54 | pairs of points and stroke handles of a contour | from the list lemmas of C48; expected false for reversing |
| C55 | iterator state, `get_point`, `hyper_next_point` | induction on the points left |
| C56 | `set_open`, `set_closed`, `is_open` | case analysis; expected false for one point |
| C57 | `to_glyphs_dir` | from injectivity of file names (C01) |
| C58 | `From` impls between `Glif` and `MFEKGlif` | case analysis, induction on contours |
| C59 | `from_skia_path` and helpers of `outline/skia/from.rs` over a list of verbs; conic subdivision an oracle that keeps the ends | induction on subpaths and pieces |
| C60 | the two directions composed | C52 and C59 composed, exact exceptions |
| C61 | `name_to_filename`, `filename_is_sane` | induction on the name |
| C62 | `RoundToInt` for points, file points and vectors | exact rational values of floats; false for large integers |
| C63 | `PointLike`, conversions to kurbo and skia points | exactness of float conversions |
| C64 | `ToSkiaMatrix`, `set_matrix` | rounding depends on the value only, so i32 -> f64 -> f32 rounds once |
| C65 | `as_plist_dict`, `as_plist_value` over a list of entries | case analysis; false for the identifier |
| C66 | `From` impls of `Glif` and text; XML text layer as two functions | C24 and C26 composed |
| C67 | `write_ufo_glif_to_filename` over a file system; `fs::write` as a sequence of contents | case analysis on the crash point; false for atomicity |
| C68 | `flattened` for `MFEKGlif` | equality with the plain version |
| C69 | `FromStr`/`From<char>` for `WhichHandle` | induction on leading white space |
| C70 | `read_point`; relation `point_says` on attributes | iff, case analysis on attributes |
| C71 | `read_component`, `read_image`, `load_matrix`; relations `component_says`, `image_says` | iff; defaults as corollary |
| C72 | `read_element`; relation `document_says` built from the relations of the parts | iff via the by-kind form of the reader, induction on children |
| C73 | `read_from_filename`; file system and XML parser as arbitrary functions | iff with `found_in`; error cases |
| C74 | `glif_xml`; relation `glyph_written` on the tree | by parts, induction on the lists |
| C75 | `read_element` under two settings | from C72, exact acceptance condition |
| C76 | `into_glifpoints` and `contour_of_glif` iterated | REFUTED; exact orbit by induction on cycles |
| C77 | `quadratic_contour` called directly; spec `with_implied` | induction on the list |
| C78 | `contour_of_glif` on two rotations of a list | segment splitting; REFUTED for quadratic ends in a control point |
| C79 | guideline builders as a fold of calls; spec `last_given` | induction on the calls |
| C80 | point constructors, `GlifPoint` and `Handle` conversions | cases |
| C81 | `quadratic_contour` with the arithmetic of `rust_num` (two integers are added as `i32`, wrapping as in a release build: `sum_fits` excludes that); spec `within`, `number` | error of each float operation from the rounding of `SpecFloat` over the rationals, then linear arithmetic |
| C82 | `quad_to_cubic_coord` and `elevate` against `quad_at`, `cubic_at` over the rationals | the same, then a bound for all parameters |
| C83 | `apply_matrix`, `flattened`, `affine_of_matrix`; spec `qapply`, `qsizes`, `qmove`, `grow`, `near_point` | the same for 64-bit operations and the final conversion; lists of matrices by induction, the error growing by 2^-22 of the sizes for each; then C34 |
| C84 | `outline_to_reversed`, `refigure_outline` | induction over the contours |
| C85 | `simplify`, `penop_is_valid`, `penops_is_valid`, `split_pen_operations`; spec `subpath`, `stray_close_op` | induction over the operations; REFUTED for closed contours |
| C86 | `to_image_of`, `image_of_file` over an arbitrary disk | cases |
| C87 | `do_edit`, `run`, `mc_*`; spec `edited`, `indices_ok`, `settings` | cases on the edit and the kind; induction over histories |
| C88 | the same with `inner_is_open`; spec `opened`, `closed`, `moves_first` | as C87; REFUTED for cubic and quadratic contours |
| C89 | `inner_update`, `inner_get_type`, `inner_cubic`, `inner_quad`, `inner_hyper`; spec `change` | list lemmas |
| C90 | `read_unicode`, `read_advance`, `parse_uint`, `parse_i32`, `show_uint`; spec `denotes`, `unsigned_text`, `signed_text` (inductive, digit by digit) | induction on the digits from the right |
| C91 | `read_element`; spec `document_checks`: the list of all checks in order with what passes and what fails each | a reader follows its checks: compositional over `bind` and `mapM` |
| C92 | `en_glif_string`, `de_glif_string` | refuted with witnesses; exact |
| C93 | the derived `Serialize`/`Deserialize` of every part of a glyph as functions to and from `serde_json::Value` trees | type by type round trip lemmas, composed; failures characterised by the fields that fail; the converse by reading the fields back |
| C94 | the same for MFEK glyphs; readers of nested patterns and histories with fuel, shown never to run out (`de_mcontour_step`, `de_history_step`); specs `float_in_mfek`, `typed_mfek`, `mfek_without_null` (Spec/SerdeMfekSpec.v) | induction over contours and histories (nested induction); what is loaded is given exactly (`C94_exact`): nothing as soon as one float, at any depth, is not finite |
| C95 | spec `reads_struct`: fields, required ones, defaults, by name or by place | each reader as a chain of lookups |
| C96 | `rust_f32_read`, `rust_iof_read` (the concrete number library), `read_point`, `read_guideline`; spec `decimal_text`, `rounded32` over the rationals | the shift-and-round of `SpecFloat` is nearest-even for every location record; the grammar by induction on the digits; uniqueness from the parity of neighbouring floats |
| C97 | conversions 64 to 32 bits and integer to float, `quadratic_contour`, the four operations; the same `rounded32` | the same; halving commutes with rounding except below 2^-125, where sums are exact |
| C98 | `read_element` followed by `glif_xml` and `read_element`; spec `plain_contour`, `loose_end`, `complete_contour`, `no_minus_zero`, `one_sided`, `survives`, `lives` on the document, the glyph and the bytes of a file | invariants of what can be read: point types, validity of every number through `cubic_contour`; then C24; links between neighbouring points by induction over pieces; for opening again, that whether points can be read depends on their types alone and that every float is written as a text that can be read; induction over the rounds |
| C99 | histories of `write_to_filename` and `write_crashed`, `read_from_filename`, `to_component`, `build_forest`; spec `happening`, `history`, `home`, `font`, `mentions`, `self_contained`, `in_circles` | induction over the history; C67, C24, C26, C73, C01 for each file; references of loaded glyphs and names of the font follow each other step by step, then C32. The file system is case-sensitive (collisions on others: C02); the XML library is assumed to give back what it was given |
| C100 | all writers of Model/Serde.v; spec `form` and the description of the format type by type in Spec/SavedSpec.v | one lemma for each way of putting documents together, then type by type; induction over contours with patterns and over histories |
| C101 | `message` (Model/Message.v: `Display` of the three error types, Debug of point types and control characters); spec `made`, `from_elsewhere` | the messages begin with texts that differ at some place; after that numbers end where other characters begin. Reading and writing XML share a message, and cycles of names with commas can: refuted |
| C102 | `glif_eqb` and the derived `==` of every part (Model/Equal.v); comparisons of point data, property lists, XML elements and image file names are parameters; spec `same_glyph` | each boolean comparison decides its relation; laws field by field; after saving by C98 and what documents say (C72). NaN: refuted |
| C103 | `mfekglif_eqb` and the derived `==` of every part (Model/EqualMfek.v), nested through patterns and histories; spec `same_mfek` | each comparison decides its relation, by induction over contours in patterns and glyphs in histories; NaN, symmetry and transitivity by the same inductions; conversion (C46) and JSON (C94) on top. NaN and file names: refuted |
| C104 | derived `Hash` as the list of calls of the hasher (Model/Hash.v), hash of numbers and paths as parameters; spec `tells` | list induction with an arbitrary continuation, so that it composes |
| C105 | pen operations, kurbo elements and Skia verbs of one contour (Model/Penops.v, Kurbo.v, Skia.v); spec `kurbo_draws` beside `draws` (pen) and `draws` (Skia) | C38, C39 and C52 about the same segments; kurbo's numbers by injectivity of f32 to f64. Mixed and open contours: refuted |
| C106 | an XML printer and parser at the level of characters (Model/XmlText.v), after XML 1.0 and the documentation of xmltree and xml-rs; spec `carried` (trees XML can carry), `unblanked` | induction on the tree with an arbitrary continuation of the text and of the stack of open elements; then every tree written for a glyph is shown to be `carried`, and C24 and C99 are used. Blank notes and control characters in names: refuted |
| C107 | the parser of Model/XmlText.v; spec: the productions of XML 1.0 as inductive relations between texts and trees (Spec/GrammarSpec.v) | tokens in between: soundness and completeness of each step of the parser, both by induction; the glyph through `glyph_alike` (C26) |
| C108 | property list values as trees, the elements the crate plist writes and reads for them (Model/Plist.v), through the printer and parser of C106; reals, dates and data as texts with a codec; spec `reads_as` (the format), `held`, `blanks_lost` | nested induction on values; the lib is shown to meet the hypotheses of C24 and C106; reading by soundness and completeness against `reads_as`. Blank texts and unwritable values are findings |
| C109 | UTF-8 as the standard library encodes and strictly decodes it (Model/Utf8.v); files as bytes, read through `fs::read_to_string`; spec `utf8` (the bit layout of one to four bytes), steps of `fs::write` as beginnings of what is written | UTF-8 is a prefix code; a beginning of a document splits into a beginning of its tokens, and a tree once closed is not reopened; the last character written closes the last tag |
| C110 | nothing new: reading and writing documents, text, bytes as in C24, C106, C109; spec `wandering` (a contour that starts and ends with curves between points that look different), `settled` (a number whose text is the same after reading it), `saved_again`, `saved_times` | what a contour is written as, as a function of the contour; what is read back is written with the same list of points, rotated by one if it starts with a curve; a rotation by one is the identity only if all points are alike; the number of curves at the end of the contour decreases with every save |
| C111 | the calls that read a file, counted along the loops of `build_component_tree` and of resolving (Model/Cost.v), the outcomes being those of Model/Component.v; spec `nodes_of`, `powers`, `tower` (a font in which each glyph is the one before, twice) | success: reads = nodes of the trees, by induction on the depth; any outcome: induction on the names not yet in use; the tower by induction on its height; linear bound refuted by the tower |
| C112 | reading and writing with the two features as switches (Model/Features.v); spec `cut` (the document without the kinds of elements a build does not know), `reduced` (the glyph without images or lib) | reading by kinds of children as in C74; the kinds are independent; C24 for the reduced glyph |
| C113 | nothing new: every function with a debug assertion takes the kind of build as a parameter; spec `asserts` (the debug result is a panic or the release result) | `asserts` is kept by sequencing and loops; the panics of saving (C22), of reversing (C16) and of skia paths (C59) are known exactly for both builds |
| C114 | nothing new: reversing, recomputing types, writing and reading one after the other; spec `DrawnSpec` (the four points of the curve a segment is, `drawing`, `drawing_backwards`, `same_drawing`, `curve_after_line`) | what is drawn after saving is the drawing with every non-curve made straight; a count of bent curves shows that no other start of a closed contour can hide a difference; the kinds of a reversed contour are those of the preceding segments |
| C115 | nothing new; spec `loaded_as` (each field of what is loaded) | case analysis over the steps of loading, compared with those of opening the file |
| C116 | nothing new; spec `lasting_texts`, `file_says`, `faithful_scalars` | induction over the grammar of documents: whatever is read from a text is made of characters XML can carry; then C98, C106, C108 and C110 |
| C117 | nothing new; spec `session` runs a list of edits with the modelled methods; the result of check_smooth is covered by setting the smooth flag to any value | invariant of each contour over the history: of the form that can be stored, or one refigured off-curve point; induction on the history |
| C118 | nothing new; spec `plus_zeros` drops the minus signs of zeros | writing commutes with dropping the signs up to elements out of which the same is read; then C24 for the glyph without the signs |
| C119 | nothing new; spec `without_contours`, `only_contours` | reading proceeds kind by kind (C26); the documents of the glyph, of the glyph without contours and of the contours alone share the children of each kind; then C24 for the glyph without contours |
| C120 | nothing new; spec `document_of`, `within_two` | C34 for the contours that are placed; matrices keep types and give floats that exist (rounding from 64 bits); C22 and C98 for which can be saved; C24 and C118 for what is opened; for bytes, names of points come from characters of the files of components |
| C121 | nothing new; spec `without_lib`, `libless`, `same_front` | C46; the children of a written document by name; what a document says (C72) does not depend on its lib; C106 for bytes |

A property that turns out false of the model gets a theorem `..._refuted` with a concrete
witness, a corrected or restricted theorem, and an entry in the findings below.

## 4. Trusted base

* **Coq 8.16.1's kernel** (including `vm_compute`, used for concrete witnesses and examples).
* **Axioms: none.** Every theorem in `Props/*.v` is followed by `Print Assumptions`, and each
  prints "Closed under the global context". No axiom, parameter, admitted proof, module type or
  functor is declared; no kernel check is switched off. Facts about floats are proved over the
  integers and rationals, directly on `Coq.Floats.SpecFloat`; no other library is used. (The build check also lists seven constants of
  `Coq.ssr.ssrunder`, a module type of the standard library that is loaded through the library
  files; no theorem depends on them.)
* **The reading of the Rust code.** The model was written by reading `/repo`; nothing extracts it
  from the source. Each definition cites the lines it models.
* **The specifications** in `Spec/*.v` and the statements in `Props/*.v`.

## 5. What is modelled and what is not

Modelled, function by function (files under `/repo/src`):
`point.rs`, `point/valid.rs`, `point/conv*.rs`, `point/xml.rs`, `outline.rs`, `outline/contour.rs`,
`outline/contour/reverse.rs`, `outline/reverse.rs`, `outline/create.rs`, `outline/conv.rs`,
`outline/conv/penops.rs`, `outline/kurbo.rs`, `outline/quad_to_cubic.rs`, `outline/refigure.rs`,
`outline/skia/*.rs`, `outline/xml.rs`, `anchor.rs`, `anchor/xml.rs`, `guideline.rs`,
`guideline/xml.rs`, `codepoint.rs`, `color.rs`, `component.rs`, `component/xml.rs`, `image.rs`,
`image/xml.rs`, `matrix.rs`, `matrix/*.rs`, `pedantry.rs`, `string.rs`, `glif.rs`, `glif/read.rs`,
`glif/write.rs`, `glif/xml.rs`, `glif/lib.rs`, `glif/conv.rs`, and all of `glif/mfek/`.

Not modelled:

* **Text of XML and property lists.** The crates `xmltree`, `xml-rs` and `plist` turn text into
  trees and back. Where a statement mentions text or files, the two directions are arbitrary
  functions, and what is needed of them (printing then parsing gives the tree back) is a
  hypothesis in the statement. C106 shows that a printer and parser written after XML 1.0 and the
  documentation of the crates (`Model/XmlText.v`) meet these hypotheses, C107 that the parser reads exactly
  the documents of a grammar after the productions of the standard. That model has elements,
  attributes, text, references and CDATA; comments, processing instructions and the document type
  are skipped; it does not interpret namespaces, and does not normalise tabs in attributes and
  carriage returns, which the statements exclude. Bytes appear in C109 only
  (`Model/Utf8.v`), where a byte order mark is a character like any other and a stopped `fs::write`
  leaves a beginning of what it was to write; elsewhere files hold texts. Property
  lists are likewise a record of functions (`plistlib`), with a reference instance after the format
  (`Model/Plist.v`, C108), in which the text of reals, dates and data remains a parameter and
  hexadecimal integers are not read.
* **Numbers in text.** `integer_or_float` and Rust's float formatting are a record of functions
  (`numlib`); the reference instance `rust_num` is written from the documentation. Its `==` on
  `IntegerOrFloat` is by value; the crate is built with the feature `float-cmp` (Cargo.toml L29),
  with which nearly equal numbers may count as equal. `C102_equal_exactly`,
  `C102_reflexive_exactly` and `C102_symmetric` hold for any such comparison;
  `C102_numbers_exactly`, `C102_transitive` and `C102_saved_again` are about `==` by value, and
  transitivity would not hold for an approximate comparison.
* **`kurbo`, `skia-safe`, `image`, `trees`.** Their values are modelled as data (points, path
  elements, verbs, trees). Skia's path iterator and kurbo's affine product and nearest point
  are written from their published definitions; conic subdivision and image decoding are arbitrary
  functions.
* **The operating system.** A file system is a map from paths to contents; `fs::write` is a
  sequence of intermediate contents, over which the statements quantify.
* **`serde`**: the derives and attributes of all types of glyphs are modelled for `serde_json::Value` (`Model/Serde.v`), after the
  documentation of `serde` and `serde_json`; the text of JSON and other formats are not. The codecs of types of other
  crates (point data, `IntegerOrFloat`, `plist::Dictionary`) are parameters. The skia/kurbo-independent types that no
  glyph holds (errors, `Pedantry`) have no derives or are not modelled. Duplicate keys in an object cannot occur in a `Value`.
* `Debug` (except where messages contain it), logging, the derived `==` of types that are not part of glyphs, MFEK glyphs or outlines of files. `Hash` is modelled as the calls made on the hasher (C104), not the hasher; whether the crate integer_or_float hashes equal numbers equally is a hypothesis there, and C104 says that everything depends on it.
* **Sharing and memory.** Rust's ownership makes values independent; the model uses plain values.
* **Machine limits.** `usize` overflow and allocation failure cannot happen for data that fits in
  memory and are ignored; u64, u32, i32, f32 and f64 are modelled exactly where values of these
  types are computed.
* **NaN payloads.** A single NaN, as in `SpecFloat`.

## 6. Findings

Properties a user would expect that the code does not have. Each has a `..._refuted` theorem with
a witness, and a theorem stating exactly when the expectation holds or what happens instead.

| id | finding |
|----|---------|
| C02 | The letter Z gets no underscore in file names, so glyphs `Zcaron` and `zcaron` share a file. |
| C04 | `to_glif_string` panics when a control character follows a non-ASCII character (a character index is used as a byte index). |
| C09 | A color with more than four components is accepted; white space around components makes parsing fail although the code strips it into an unused variable. |
| C12 | At the first and last point of a closed contour smoothness is judged with a handle of another point. |
| C14 | Reversing an open contour with stray outer handles panics in debug builds. |
| C15 | Reversing a closed contour that mixes lines and curves moves the point types to the wrong segments. |
| C18 | A `qcurve` point in a contour that starts with a line or curve, or an empty contour, panics on reading. |
| C19 | A contour whose first point is off-curve is dropped on reading, so is a lone `move`. |
| C20 | A quadratic contour ending in a control point gets an extra `QClose` point, which panics when written. |
| C23 | Writing a quadratic contour replaces control points by points on the curve. What was written cannot be read (panic) if the contour ends in a point that is not `qcurve`; otherwise it can be read, but what is read cannot be written (panic). |
| C25 | The color of an image is not written. |
| C30 | A lib that is not a property list is dropped silently. |
| C33 | Flattening loses the glyph's own contours and those three or more levels deep, and reverses the order of parts. |
| C35 | Component rectangles are computed from untransformed points and restart with every part. |
| C32 | A component whose name has a path separator and whose file includes that name again, found in another directory, is reported as a cycle although no glyph includes itself. |
| C37-C40 | Pen operations and kurbo paths: a straight cubic segment loses its neighbour, mixed contours change shape, open contours lose their start, `QuadTo` and a second `ClosePath` panic. |
| C41, C42 | `refigure_point_types` judges the start of a closed contour before its last handle is tidied, so a second run may change it again. |
| C44 | Images shorter than twelve bytes are never recognised. |
| C45 | `data()` panics once an image has been decoded or failed to decode. |
| C46 | Converting to an MFEK glyph and back loses the lib. |
| C48, C54 | Stroke widths of a contour go out of step: sub-ranges keep one handle too many or panic, inserting at the end panics, `MFEKCubicContour::delete` keeps the handle, reversing keeps the old order. |
| C50 | The file name of a custom cap is lost. |
| C51 | Moving a point moves its handles by a different distance when the difference is rounded. |
| C53 | Point validity checks NaN only for x and subnormals only for y. |
| C56 | Closing a contour of one cubic point has no effect; empty cubic and quadratic contours panic. |
| C59, C60 | From Skia: a closed single curve panics; a closed subpath that begins with a line and ends with a curve gets a straight line instead. A line of no length that closes a contour is lost on the way there and back. |
| C62 | Rounding a file point changes integers above 2^24 and clamps to i32. |
| C65 | The identifier is missing from a guideline's property list. |
| C67 | Saving is not atomic: a crash leaves an empty or partial file. |
| C76 | Each save and load moves the start of a closed contour of curves by one point. |
| C78 | For a quadratic contour that ends in a control point, the result depends on which point is listed first. |
| C85 | The operations of a closed contour are never all valid: the MoveTo carries the type of the first point, which is not `Move`. `PenOperationsContour::is_valid` panics on a `Close` without a `MoveTo`. |
| C51 | `has_handle(WhichHandle::Neither)` is true for cubic and hyperbezier points although `get_handle` gives nothing. |
| C88 | `reverse_points`, `delete(0)` and `sub` turn every open cubic or quadratic MFEK contour into a closed one, since openness is the type of the first point. |
| C92 | `Deserialize` of `GlifString` and `GlifStringLenOne` does not validate: control characters and the empty string come in. Both types also derive `Default` and `DerefMut`, so an empty `GlifStringLenOne` can be made directly. |
| C93 | Serialising a glyph with a NaN or infinite coordinate succeeds (as null) but the result cannot be deserialised. A number like 1e300 is loaded as infinity, after which saving and loading fails. `Lib::Xml` cannot be serialised. `Some(())` as point data comes back as `None`. The file name is skipped. |
| C94 | `MFEKGlif::filename` is read when present but never written, also for the glyphs in the history. |
| C95 | Hyperbezier points have no serde defaults, unlike the other points: their handles and `smooth` must be there. |
| C98 | A document with a contour that starts with `qcurve` and ends in a control point is read without error, but the glyph cannot be written: saving panics. No document with a contour that starts with `qcurve` can be opened and saved twice; if such a contour does not end with `qcurve`, opening what was saved panics. Every other document that can be opened can be opened and saved any number of times. |
| C101 | `XmlParseError` and `XmlWriteError` have the same message. The message of a cycle is ambiguous if names contain commas and blanks, and says "in glif X" of the glyph that is referred to. A guideline whose `y` is not a number is reported as `x not float` (see C91). |
| C102 | A glyph with NaN among its numbers (a document may say `x="NaN"`) does not equal itself; exactly then. |
| C103 | An MFEK glyph with NaN anywhere in it, its patterns or its history does not equal itself; one with a file name does not equal what is loaded after saving it as JSON (the name is not written, C94). Exactly then. Two MFEK glyphs with integers above 2^24 can both equal a third and differ; never with smaller integers. |
| C105 | The kurbo path and the skia path of the same contour draw different things for closed contours with both lines and curves and for open contours other than a single curve (skia is right, see C38, C39, C52). |
| C106 | A note of nothing but blanks is lost by saving and loading. A glyph whose name has a control character (`Glif::name` is a plain `String`) is written without error, and the file is not XML any more (for a parser that checks characters as the standard demands). |
| C108 | The lib goes through `Element::parse` when it is written (write.rs L94), which drops text of nothing but blanks: a string `"  "` in the lib is read back as `""`. If any value in it is a uid (which the types allow and XML property lists do not have), or any string or key has a control character, the whole lib is left out of the file; only the log tells. |
| C110 | A closed contour that starts with a curve is loaded starting one point earlier (C23), so a contour that starts *and* ends with curves is written differently every time it is loaded and saved: the file changes although nothing was edited. It comes to rest when a line has arrived at the end; a contour of curves only (any round shape) never does. |
| C111 | Files are read again for every component that leads to them: 20 small glyphs, each made of the one before twice, need a million reads (and parses) for the last one. |
| C112 | A build without `glifserde` reads a file with a lib, logs a warning and saves it without the lib; the comment on `Lib::Xml` promises to keep data it cannot decode. A build without `glifimage` drops the images. |
| C113 | A file with an open contour that ends with a control point opens without an error; reversing the outline then panics in a debug build and not in a release build. |
| C114 | Reversing a contour that mixes lines and curves, and saving it, turns each curve that came after a line into a line: the types stay with the points, and the writer leaves the handles of lines out. `refigure_point_types` in between avoids it. |
| C115 | If the file of a component cannot be read, the error is `GlifFilenameNotSet("Glif filename leads to unreadable file")`, whichever component and file it is. |
| C116 | A note of nothing but blanks, spelt `&#32;` or as CDATA, is opened and, once saved, lost. |
| C117 | `refigure_point_types` gives the point of a contour with one point the type OffCurve (the default, as it has no neighbours); saving the glyph then panics, although it was opened from a file without complaint. |
| C118 | the minus sign of a zero is written for every coordinate but only read again for those of guidelines, since `-0` is taken for an integer |
| C120 | Flattening a glyph that has been flattened (or any glyph without components) removes all its contours. |
| C121 | A file opened in an MFEK editor and saved as a glif loses its lib; all layers but the first are not saved. |
