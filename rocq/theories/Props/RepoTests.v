(** The tests of /repo (tests/ and the one in src/glif/mfek/mod.rs), run on the model.  They are no
    proofs of anything about all inputs; they check the model against what the authors of the
    code expect of it.  XML files are given as the trees the XML library makes of them; at the end,
    the files themselves are parsed into these trees.  Not run:
    tests/image.rs `test_image_png` (decoding is done by another crate). *)
Require Import Coq.Strings.String Coq.Lists.List Coq.Arith.Arith Coq.NArith.NArith Coq.ZArith.ZArith Coq.Bool.Bool Coq.Floats.SpecFloat.
Require Import Verif.Model.Base Verif.Model.Text Verif.Model.Float Verif.Model.Num Verif.Model.RustNum Verif.Model.Point Verif.Model.Contour Verif.Model.Reverse
  Verif.Model.Create Verif.Model.Names Verif.Model.Pedantry Verif.Model.Color Verif.Model.Xml Verif.Model.XmlText Verif.Model.Parts Verif.Model.Read Verif.Model.Write
  Verif.Model.Component Verif.Model.Penops Verif.Model.Kurbo Verif.Model.Image Verif.Model.Mfek Verif.Model.Skia Verif.Model.Interop
  Verif.Props.PropsGlyph Verif.Props.PropsSkia.
Import ListNotations.
Local Open Scope string_scope.
Local Open Scope list_scope.
Local Open Scope nat_scope.

(** test_data/bugfixes/issue54.glif *)
Definition issue54 : element :=
  Element (lit "glyph") [(lit "name", lit "iecyrillic");
    (lit "format", lit "2")] [NElem (Element (lit "advance") [(lit "width", lit "1143.6666666666667")] []);
    NElem (Element (lit "unicode") [(lit "hex", lit "0435")] []); NElem (Element (lit "anchor") [(lit "x", lit "503.3333333333333");
    (lit "y", lit "0.0"); (lit "name", lit "bottom")] []); NElem (Element (lit "anchor") [(lit "x", lit "506.6666666666667");
    (lit "y", lit "0.0"); (lit "name", lit "cedilla")] []); NElem (Element (lit "anchor") [(lit "x", lit "972.3333333333334");
    (lit "y", lit "218.0"); (lit "name", lit "ogonek")] []); NElem (Element (lit "anchor") [(lit "x", lit "719.3333333333334");
    (lit "y", lit "1304.0"); (lit "name", lit "top")] []);
    NElem (Element (lit "outline") [] [NElem (Element (lit "component") [(lit "base", lit "e")] [])])].

(** test_data/bugfixes/Q_.glif *)
Definition q_ : element :=
  Element (lit "glyph") [(lit "name", lit "Q");
    (lit "format", lit "2")] [NElem (Element (lit "advance") [(lit "width", lit "b0rked")] []);
    NElem (Element (lit "unicode") [(lit "hex", lit "0051")] []); NElem (Element (lit "anchor") [(lit "x", lit "787.2");
    (lit "y", lit "688.0"); (lit "name", lit "_center")] []);
    NElem (Element (lit "outline") [] [NElem (Element (lit "contour") [] [NElem (Element (lit "point") [(lit "x", lit "712.0");
    (lit "y", lit "483.2"); (lit "type", lit "line")] []); NElem (Element (lit "point") [(lit "x", lit "956.8");
    (lit "y", lit "160.8"); (lit "type", lit "line")] []); NElem (Element (lit "point") [(lit "x", lit "1014.0");
    (lit "y", lit "81.6"); (lit "type", lit "line")] []); NElem (Element (lit "point") [(lit "x", lit "1179.2");
    (lit "y", lit "-134.0"); (lit "type", lit "line")] []); NElem (Element (lit "point") [(lit "x", lit "1409.2");
    (lit "y", lit "-134.0"); (lit "type", lit "line")] []); NElem (Element (lit "point") [(lit "x", lit "1160.8");
    (lit "y", lit "190.4"); (lit "type", lit "line")] []); NElem (Element (lit "point") [(lit "x", lit "1088.8");
    (lit "y", lit "280.4"); (lit "type", lit "line")] []); NElem (Element (lit "point") [(lit "x", lit "933.2");
    (lit "y", lit "483.2"); (lit "type", lit "line")] [])]); NElem (Element (lit "component") [(lit "base", lit "O")] [])])].

(** test_data/TT2020Base.ufo/glyphs/N_U_L_L_.glif *)
Definition null1 : element :=
  Element (lit "glyph") [(lit "format", lit "2"); (lit "name", lit "eight")] [NElem (Element (lit "advance") [(lit "width", lit "0")] []);
    NElem (Element (lit "unicode") [(lit "hex", lit "38")] []); NElem (Element (lit "image") [(lit "fileName", lit "turtle.webp")] []);
    NElem (Element (lit "outline") [] []); NOther].

(** test_data/TT2020Base.ufo/glyphs/N_U_L_L_2.glif *)
Definition null2 : element :=
  Element (lit "glyph") [(lit "format", lit "2"); (lit "name", lit "eight")] [NElem (Element (lit "advance") [(lit "width", lit "0")] []);
    NElem (Element (lit "unicode") [(lit "hex", lit "38")] []); NElem (Element (lit "image") [(lit "fileName", lit "turtle.webp")] []);
    NElem (Element (lit "outline") [] []); NOther].

(** test_data/TT2020Base.ufo/glyphs/acute.glif *)
Definition acute : element :=
  Element (lit "glyph") [(lit "name", lit "acute");
    (lit "format", lit "2")] [NElem (Element (lit "advance") [(lit "width", lit "547")] []);
    NElem (Element (lit "unicode") [(lit "hex", lit "b4")] []);
    NElem (Element (lit "outline") [] [NElem (Element (lit "component") [(lit "yxScale", lit "0"); (lit "xyScale", lit "0");
    (lit "yScale", lit "1"); (lit "base", lit "grave"); (lit "xScale", lit "-1"); (lit "yOffset", lit "0");
    (lit "xOffset", lit "496.285")] []); NElem (Element (lit "component") [(lit "yxScale", lit "0"); (lit "xyScale", lit "0");
    (lit "yScale", lit "1"); (lit "base", lit "grave"); (lit "xScale", lit "-1"); (lit "yOffset", lit "0");
    (lit "xOffset", lit "0")] [])])].

(** test_data/TT2020Base.ufo/glyphs/gershayim.glif *)
Definition gershayim : element :=
  Element (lit "glyph") [(lit "format", lit "2");
    (lit "name", lit "gershayim")] [NElem (Element (lit "advance") [(lit "width", lit "547")] []);
    NElem (Element (lit "unicode") [(lit "hex", lit "5f4")] []);
    NElem (Element (lit "outline") [] [NElem (Element (lit "component") [(lit "yScale", lit "1"); (lit "xOffset", lit "95");
    (lit "base", lit "acute"); (lit "xyScale", lit "0"); (lit "xScale", lit "1"); (lit "yOffset", lit "-145");
    (lit "yxScale", lit "0")] []); NElem (Element (lit "component") [(lit "yScale", lit "1"); (lit "yOffset", lit "-145");
    (lit "xyScale", lit "0"); (lit "xScale", lit "1"); (lit "base", lit "acute"); (lit "yxScale", lit "0");
    (lit "xOffset", lit "-75")] [])])].

(** test_data/TT2020Base.ufo/glyphs/grave.glif *)
Definition grave : element :=
  Element (lit "glyph") [(lit "format", lit "2");
    (lit "name", lit "grave")] [NElem (Element (lit "advance") [(lit "width", lit "547")] []);
    NElem (Element (lit "unicode") [(lit "hex", lit "60")] []);
    NElem (Element (lit "outline") [] [NElem (Element (lit "component") [(lit "yxScale", lit "0"); (lit "xyScale", lit "0");
    (lit "yScale", lit "1"); (lit "base", lit "NULL2"); (lit "xScale", lit "-1"); (lit "yOffset", lit "0");
    (lit "xOffset", lit "496.285")] []); NElem (Element (lit "component") [(lit "yxScale", lit "0"); (lit "xyScale", lit "0");
    (lit "yScale", lit "1"); (lit "base", lit "NULL"); (lit "xScale", lit "-1"); (lit "yOffset", lit "0");
    (lit "xOffset", lit "0")] []); NElem (Element (lit "contour") [] [NElem (Element (lit "point") [(lit "x", lit "330.54276");
    (lit "type", lit "curve"); (lit "y", lit "488.85776")] []); NElem (Element (lit "point") [(lit "x", lit "295.44174");
    (lit "y", lit "531.4338")] []); NElem (Element (lit "point") [(lit "x", lit "260.34073"); (lit "y", lit "574.00977")] []);
    NElem (Element (lit "point") [(lit "x", lit "225.23975"); (lit "y", lit "616.58575"); (lit "type", lit "curve")] []);
    NElem (Element (lit "point") [(lit "y", lit "623.6999"); (lit "x", lit "219.37463")] []);
    NElem (Element (lit "point") [(lit "x", lit "199.74713"); (lit "y", lit "625.1888")] []);
    NElem (Element (lit "point") [(lit "y", lit "619.04083"); (lit "x", lit "192.87599"); (lit "type", lit "curve")] []);
    NElem (Element (lit "point") [(lit "x", lit "187.11832"); (lit "y", lit "613.88916")] []);
    NElem (Element (lit "point") [(lit "x", lit "181.36066"); (lit "y", lit "608.7375")] []);
    NElem (Element (lit "point") [(lit "y", lit "603.5858"); (lit "x", lit "175.603"); (lit "type", lit "curve")] []);
    NElem (Element (lit "point") [(lit "x", lit "168.25041"); (lit "y", lit "597.0071")] []);
    NElem (Element (lit "point") [(lit "y", lit "576.89"); (lit "x", lit "168.13324")] []);
    NElem (Element (lit "point") [(lit "x", lit "175.40869"); (lit "type", lit "curve"); (lit "y", lit "570.2261")] []);
    NElem (Element (lit "point") [(lit "y", lit "532.80176"); (lit "x", lit "216.26736")] []);
    NElem (Element (lit "point") [(lit "y", lit "495.3774"); (lit "x", lit "257.12604")] []);
    NElem (Element (lit "point") [(lit "type", lit "curve"); (lit "y", lit "457.9531"); (lit "x", lit "297.9847")] []);
    NElem (Element (lit "point") [(lit "x", lit "318.56238"); (lit "y", lit "439.10504")] []);
    NElem (Element (lit "point") [(lit "x", lit "348.29373"); (lit "y", lit "467.32657")] [])]);
    NElem (Element (lit "contour") [] [NElem (Element (lit "point") [(lit "type", lit "curve"); (lit "x", lit "328.3793");
    (lit "y", lit "491.13693")] []); NElem (Element (lit "point") [(lit "y", lit "528.5613"); (lit "x", lit "287.52063")] []);
    NElem (Element (lit "point") [(lit "y", lit "565.9856"); (lit "x", lit "246.66197")] []);
    NElem (Element (lit "point") [(lit "x", lit "205.80331"); (lit "y", lit "603.4099"); (lit "type", lit "curve")] []);
    NElem (Element (lit "point") [(lit "y", lit "610.07385"); (lit "x", lit "198.52785")] []);
    NElem (Element (lit "point") [(lit "x", lit "198.25642"); (lit "y", lit "563.47144")] []);
    NElem (Element (lit "point") [(lit "y", lit "570.0502"); (lit "type", lit "curve"); (lit "x", lit "205.60901")] []);
    NElem (Element (lit "point") [(lit "x", lit "211.36668"); (lit "y", lit "575.20184")] []);
    NElem (Element (lit "point") [(lit "y", lit "580.3535"); (lit "x", lit "217.12434")] []);
    NElem (Element (lit "point") [(lit "y", lit "585.5052"); (lit "type", lit "curve"); (lit "x", lit "222.882")] []);
    NElem (Element (lit "point") [(lit "x", lit "229.75316"); (lit "y", lit "591.65314")] []);
    NElem (Element (lit "point") [(lit "y", lit "595.0744"); (lit "x", lit "184.65315")] []);
    NElem (Element (lit "point") [(lit "x", lit "190.51825"); (lit "y", lit "587.96027"); (lit "type", lit "curve")] []);
    NElem (Element (lit "point") [(lit "x", lit "225.61926"); (lit "y", lit "545.3843")] []);
    NElem (Element (lit "point") [(lit "y", lit "502.80826"); (lit "x", lit "260.72028")] []);
    NElem (Element (lit "point") [(lit "y", lit "460.23227"); (lit "type", lit "curve"); (lit "x", lit "295.82126")] []);
    NElem (Element (lit "point") [(lit "y", lit "460.23227"); (lit "x", lit "295.82126")] []);
    NElem (Element (lit "point") [(lit "x", lit "328.3793"); (lit "y", lit "491.13693")] [])])])].

(** tests/guidelines.rs L6-14 *)
Definition guidelines_glif : element :=
  Element (lit "glyph") [(lit "name", lit "guidelines");
    (lit "format", lit "2")] [NElem (Element (lit "advance") [(lit "width", lit "0")] []);
    NElem (Element (lit "unicode") [(lit "hex", lit "00")] []); NElem (Element (lit "guideline") [(lit "x", lit "5");
    (lit "y", lit "9.2432"); (lit "angle", lit "180"); (lit "name", lit "gl"); (lit "color", lit "1,0,0,1")] []);
    NElem (Element (lit "guideline") [(lit "x", lit "50.0"); (lit "y", lit "9"); (lit "angle", lit "90.0"); (lit "name", lit "gl2");
    (lit "color", lit "1,0,0,1")] []); NElem (Element (lit "outline") [] []); NOther].

(** tests/note.rs L5-12 *)
Definition note_glif : element :=
  Element (lit "glyph") [(lit "name", lit "note"); (lit "format", lit "2")] [NElem (Element (lit "advance") [(lit "width", lit "0")] []);
    NElem (Element (lit "unicode") [(lit "hex", lit "00")] []); NElem (Element (lit "note") [] [NText (lit "Hello world!")]);
    NElem (Element (lit "outline") [] []); NOther].

(** test_data/TT2020Base.ufo/images/turtle.webp: its first bytes, and the others, whatever they are. *)
Definition turtle (others : list N) : list N := [82; 73; 70; 70; 74; 173; 0; 0; 87; 69; 66; 80; 86; 80; 56; 88]%N ++ others.

(** * tests/colors.rs *)
Example test_color : color_parse rust_num (lit "0.5,0.5,1,1") = Ok (mkColor (IFloat (fl "0.5")) (IFloat (fl "0.5")) (IInt 1) (IInt 1)).
Proof. vm_compute. reflexivity. Qed.

(** * tests/components.rs *)
Definition glyphs_dir : path := [lit "test_data"; lit "TT2020Base.ufo"; lit "glyphs"].
Definition glyph_files (p : path) : option element :=
  match find (fun x => if list_eq_dec (list_eq_dec N.eq_dec) p (glyphs_dir ++ [fst x]) then true else false)
    [(lit "N_U_L_L_.glif", null1); (lit "N_U_L_L_2.glif", null2); (lit "acute.glif", acute); (lit "gershayim.glif", gershayim); (lit "grave.glif", grave)] with
  | Some (_, e) => Some e
  | None => None
  end.
Definition gershayim_glif : path := glyphs_dir ++ [lit "gershayim.glif"].
Example test_components : exists g flat x,
  read_from_filename rust_num tt no_plist element glyph_files Some pedantry_default gershayim_glif = Ok g /\
  filename_is_sane (g_name g) (Some gershayim_glif) = Ok true /\
  map c_base (cs_vec (g_components g)) = [lit "acute"; lit "acute"] /\
  flattened rust_num tt no_plist glyph_files Some 10 None g = Some (Ok (flat, None)) /\
  glif_xml rust_num no_plist true flat = Ok x /\ x <> new_element "glyph" /\
  option_map (map (@length _)) (g_outline flat) = Some (repeat 6 8).
Proof.
  eexists. eexists. eexists. split; [vm_compute; reflexivity|]. split; [vm_compute; reflexivity|]. split; [vm_compute; reflexivity|].
  split; [vm_compute; reflexivity|]. split; [vm_compute; reflexivity|]. split; [discriminate|vm_compute; reflexivity].
Qed.

(** * tests/guidelines.rs *)
Definition guidelines_fine (g : glif unit unit) : Prop :=
  length (g_guidelines g) = 2 /\
  exists l m, g_guidelines g = [l; m] /\ gl_name l = Some (lit "gl") /\ gl_x l = fl "5" /\ gl_y l = fl "9.2432" /\
    (gl_angle m = IFloat (fl "90") \/ gl_angle m = IInt 90).
Example test_guidelines : exists g x g', read_element rust_num tt no_plist pedantry_default guidelines_glif = Ok g /\ guidelines_fine g /\
  glif_xml rust_num no_plist true g = Ok x /\ read_element rust_num tt no_plist pedantry_default x = Ok g' /\ guidelines_fine g'.
Proof.
  eexists. eexists. eexists. split; [vm_compute; reflexivity|]. split.
  { split; [reflexivity|]. eexists. eexists. split; [reflexivity|]. split; [vm_compute; reflexivity|]. split; [vm_compute; reflexivity|]. split; [vm_compute; reflexivity|].
    left. vm_compute. reflexivity. }
  split; [vm_compute; reflexivity|]. split; [vm_compute; reflexivity|].
  split; [reflexivity|]. eexists. eexists. split; [reflexivity|]. split; [vm_compute; reflexivity|]. split; [vm_compute; reflexivity|]. split; [vm_compute; reflexivity|].
  solve [left; vm_compute; reflexivity | right; vm_compute; reflexivity].
Qed.

(** * tests/handle.rs *)
Example test_handles : exists p : point unit,
  from_x_y_a_b_type true (fl "0") (fl "0") (At (fl "1") (fl "0")) (At (fl "0") (fl "1")) Move = Ok p /\
  pa p = At (fl "1") (fl "0") /\ get_handle p WA = At (fl "1") (fl "0") /\ get_handle p Neither = Colocated /\
  get_handle (set_handle p WA Colocated) WA = Colocated /\
  which_opposite WA = WB /\ which_opposite (which_opposite WA) = WA.
Proof. eexists. split; [vm_compute; reflexivity|]. repeat split. Qed.
Example test_which_handle : which_of_char true 65 = Ok WA /\ which_of_char true 65313 = Ok WA /\
  which_from_str true [65313%N] = Ok (Some WA) /\ which_from_str true (lit "b") = Ok (Some WB) /\ which_of_char true 0 = Ok Neither.
Proof. repeat split. Qed.
Example test_which_handle_nonstrict : which_from_str false (lit " b ") = Ok (Some WB) /\ which_of_char false 67 = Ok Neither /\
  which_from_str false (lit "") = Ok None /\ which_from_str false (lit "   BBBB  ") = Ok (Some WB).
Proof. repeat split. Qed.

(** * tests/image.rs *)
Definition images_disk (others : list N) (p : path) : option (list N) :=
  if list_eq_dec (list_eq_dec N.eq_dec) p (glyphs_dir ++ [lit ".."; lit "images"; lit "turtle.webp"]) then Some (turtle others) else None.
Definition turtle_fine (others : list N) (g : glif unit unit) : Prop :=
  exists i im, g_images g = [i] /\ to_image_of (images_disk others) i (Some (glyphs_dir ++ [lit "N_U_L_L_.glif"])) (g_name g) = Ok im /\
    im_codec im = CWebP /\ data im = Ok (turtle others).
Example test_load_image : forall others, exists g x g', read_element rust_num tt no_plist pedantry_default null1 = Ok g /\ turtle_fine others g /\
  glif_xml rust_num no_plist true g = Ok x /\ read_element rust_num tt no_plist pedantry_default x = Ok g' /\ turtle_fine others g'.
Proof.
  intros others. eexists. eexists. eexists. split; [vm_compute; reflexivity|].
  split; [eexists; eexists; split; [reflexivity|]; split; [vm_compute; reflexivity|]; split; reflexivity|].
  split; [vm_compute; reflexivity|]. split; [vm_compute; reflexivity|].
  eexists; eexists; split; [reflexivity|]; split; [vm_compute; reflexivity|]; split; reflexivity.
Qed.

(** * tests/note.rs *)
Definition note_fine (g : glif unit unit) : Prop := g_note g = Some (lit "Hello world!") /\ g_unicode g = [0%N].
Example test_note : exists g x g', read_element rust_num tt no_plist pedantry_default note_glif = Ok g /\ note_fine g /\
  glif_xml rust_num no_plist true g = Ok x /\ read_element rust_num tt no_plist pedantry_default x = Ok g' /\ note_fine g'.
Proof.
  eexists. eexists. eexists. split; [vm_compute; reflexivity|]. split; [split; reflexivity|]. split; [vm_compute; reflexivity|]. split; [vm_compute; reflexivity|]. split; reflexivity.
Qed.

(** * tests/point.rs *)
Definition smooth_contour (a b : handle) (s : bool) : contour unit :=
  [mkPoint (fl "0") (fl "0") Colocated Colocated None Move false None; mkPoint (fl "500") (fl "500") a b None Curve s None;
   mkPoint (fl "1000") (fl "1000") Colocated Colocated None Curve false None].
Example test_smooth :
  (let c := smooth_contour (At (fl "250") (fl "250")) (At (fl "750") (fl "750")) in
   is_point_smooth_within seg_distance (c false) 1 smooth_tolerance = Ok true /\ check_smooth seg_distance (c false) 1 = Ok (c true, true)) /\
  (let c := smooth_contour (At (fl "250") (fl "550")) (At (fl "750") (fl "250")) in
   is_point_smooth_within seg_distance (c false) 1 smooth_tolerance = Ok false /\ check_smooth seg_distance (c true) 1 = Ok (c false, false)).
Proof. cbv zeta. repeat split; vm_compute; reflexivity. Qed.

(** * tests/quad_to_cubic.rs *)
Definition parabola_outline : outline unit :=
  [[mkPoint (fl "0") (fl "0") (At (fl "66.66667") (fl "333.33334")) Colocated None Move false None;
    mkPoint (fl "200") (fl "0") Colocated (At (fl "133.33333") (fl "333.33334")) None Curve false None]].
Example test_parabola : exists p0 p1 p2 p3 x,
  elevate rust_num glifpoint_like (gp_default rust_num) (gp_from_x_y_type rust_num (fl "0") (fl "0") Move)
    (gp_from_x_y_type rust_num (fl "100") (fl "500") OffCurve) (gp_from_x_y_type rust_num (fl "200") (fl "0") Curve) = (p0, p1, p2, p3) /\
  outline_of_glif rust_num [[p0; p1; p2; p3]] = Ok parabola_outline /\
  glif_xml rust_num no_plist true (mkGlif (Some parabola_outline) [] components_default [] [] None [] [] None None LNone) = (Ok x : res element).
Proof. do 5 eexists. split; [reflexivity|]. split; [vm_compute; reflexivity|vm_compute; reflexivity]. Qed.

(** * tests/kurbo_conv.rs, tests/reverse.rs *)
Definition k2 (x y : string) : f64 * f64 := (f64_of_f32 (fl x), f64_of_f32 (fl y)).
(** kurbo's circle of radius 50 around the origin, to a tolerance of 1. *)
Definition circle_path : list pathel :=
  [KMoveTo (k2 "50" "0"); KCurveTo (k2 "50" "27.59575") (k2 "27.59575" "50") (k2 "3.0616e-15" "50");
   KCurveTo (k2 "-27.59575" "50") (k2 "-50" "27.59575") (k2 "-50" "6.1232e-15"); KCurveTo (k2 "-50" "-27.59575") (k2 "-27.59575" "-50") (k2 "-9.1848e-15" "-50");
   KCurveTo (k2 "27.59575" "-50") (k2 "50" "-27.59575") (k2 "50" "0"); KClosePath].
Definition rect_path : list pathel := [KMoveTo (k2 "0" "0"); KLineTo (k2 "100" "0"); KLineTo (k2 "100" "100"); KLineTo (k2 "0" "100"); KClosePath].
Example test_kurbo_from : exists (o : outline unit) k, outline_from_kurbo rust_num (circle_path ++ rect_path) = Ok o /\
  outline_into_kurbo_vec rust_num o = Ok k /\ outline_from_kurbo rust_num k = Ok o /\ map (@length _) o = [4; 4].
Proof. eexists. eexists. split; [vm_compute; reflexivity|]. split; [vm_compute; reflexivity|]. split; vm_compute; reflexivity. Qed.

Definition again (n : N) (o : res (outline unit)) : res (outline unit) := N.iter n (fun o => let* o := o in outline_to_reversed true o) o.
Example test_rev_outline : exists o : outline unit, outline_from_kurbo rust_num circle_path = Ok o /\ again 5000 (Ok o) = Ok o /\ again 4999 (Ok o) <> Ok o.
Proof. eexists. split; [vm_compute; reflexivity|]. split; [vm_compute; reflexivity|vm_compute; discriminate]. Qed.

(** * tests/bugfixes/issue54.rs *)
Example test_bug_fixed :
  (exists g, read_element rust_num tt no_plist pedantry_default issue54 = Ok g /\ g_width g = Some 1143%N) /\
  (exists e, read_element rust_num tt no_plist (mkPedantry LevelOpenType MendNever) issue54 = Err e) /\
  (exists e, read_element rust_num tt no_plist pedantry_default q_ = Err e).
Proof.
  split; [eexists; split; [vm_compute; reflexivity|reflexivity]|]. split; eexists; vm_compute; reflexivity.
Qed.

(** * tests/skia_conv.rs *)
Definition s2 (x y : string) : skpoint := (fl x, fl y).
(** Skia draws the corners of its rounded rectangles, and its ovals, with conics. *)
Definition corner (a p : skpoint) : skverb := SkConic a p (fl "0.70710677").
Definition skia_path : skpath :=
  [SkMove (s2 "50" "50"); SkConic (s2 "50" "50") (s2 "70" "70") (fl "0.33"); SkQuad (s2 "60" "60") (s2 "50" "50"); SkClose] ++
  [SkMove (s2 "0" "80"); SkLine (s2 "0" "20"); corner (s2 "0" "0") (s2 "20" "0"); SkLine (s2 "80" "0"); corner (s2 "100" "0") (s2 "100" "20");
   SkLine (s2 "100" "80"); corner (s2 "100" "100") (s2 "80" "100"); SkLine (s2 "20" "100"); corner (s2 "0" "100") (s2 "0" "80"); SkClose] ++
  [SkMove (s2 "110" "100"); corner (s2 "110" "110") (s2 "100" "110"); corner (s2 "90" "110") (s2 "90" "100"); corner (s2 "90" "90") (s2 "100" "90");
   corner (s2 "110" "90") (s2 "110" "100"); SkClose] ++
  [SkMove (s2 "30" "95"); corner (s2 "30" "190") (s2 "15" "190"); corner (s2 "0" "190") (s2 "0" "95"); corner (s2 "0" "0") (s2 "15" "0");
   corner (s2 "30" "0") (s2 "30" "95"); SkClose] ++
  [SkMove (s2 "50" "50"); SkConic (s2 "50" "50") (s2 "150" "150") (fl "0.33")] ++
  [SkMove (s2 "50" "50"); SkQuad (s2 "50" "100") (s2 "100" "200")] ++
  [SkMove (s2 "50" "0"); SkCubic (s2 "50" "50") (s2 "50" "-50") (s2 "50" "100"); SkCubic (s2 "50" "150") (s2 "50" "-150") (s2 "50" "200")].
Example test_from_skp : exists o : outline unit, from_skia_path flat_conic true skia_path = Ok o /\ length o = 7 /\
  option_map px (hd_error (hd [] o)) = Some (fl "50").
Proof. eexists. split; [vm_compute; reflexivity|]. split; [vm_compute; reflexivity|vm_compute; reflexivity]. Qed.

(** * src/glif/mfek/mod.rs L197-201 *)
Example test_tostring : cap_show CapCircle = lit "circle".
Proof. reflexivity. Qed.

(** * The files of test_data, character by character *)
(** test_data/bugfixes/Q_.glif *)
Example text_q : parse_xml (lit "<?xml version='1.0' encoding='UTF-8'?>
<glyph name=""Q"" format=""2"">
  <advance width=""b0rked""/>
  <unicode hex=""0051""/>
  <anchor x=""787.2"" y=""688.0"" name=""_center""/>
  <outline>
    <contour>
      <point x=""712.0"" y=""483.2"" type=""line""/>
      <point x=""956.8"" y=""160.8"" type=""line""/>
      <point x=""1014.0"" y=""81.6"" type=""line""/>
      <point x=""1179.2"" y=""-134.0"" type=""line""/>
      <point x=""1409.2"" y=""-134.0"" type=""line""/>
      <point x=""1160.8"" y=""190.4"" type=""line""/>
      <point x=""1088.8"" y=""280.4"" type=""line""/>
      <point x=""933.2"" y=""483.2"" type=""line""/>
    </contour>
    <component base=""O""/>
  </outline>
</glyph>
") = Some q_.
Proof. vm_compute. reflexivity. Qed.
(** test_data/bugfixes/issue54.glif *)
Example text_issue54 : parse_xml (lit "<?xml version='1.0' encoding='UTF-8'?>
<glyph name=""iecyrillic"" format=""2"">
  <advance width=""1143.6666666666667""/>
  <unicode hex=""0435""/>
  <anchor x=""503.3333333333333"" y=""0.0"" name=""bottom""/>
  <anchor x=""506.6666666666667"" y=""0.0"" name=""cedilla""/>
  <anchor x=""972.3333333333334"" y=""218.0"" name=""ogonek""/>
  <anchor x=""719.3333333333334"" y=""1304.0"" name=""top""/>
  <outline>
    <component base=""e""/>
  </outline>
</glyph>
") = Some issue54.
Proof. vm_compute. reflexivity. Qed.
(** test_data/TT2020Base.ufo/glyphs/N_U_L_L_.glif *)
Example text_null1 : parse_xml (lit "<?xml version=""1.0"" encoding=""UTF-8""?>
<glyph format=""2"" name=""eight"">
  <advance width=""0"" />
  <unicode hex=""38"" />
  <image fileName=""turtle.webp"" />
  <outline />
  <!-- <MFEK></MFEK> -->
</glyph>
") = Some null1.
Proof. vm_compute. reflexivity. Qed.
(** test_data/TT2020Base.ufo/glyphs/N_U_L_L_2.glif *)
Example text_null2 : parse_xml (lit "<?xml version=""1.0"" encoding=""UTF-8""?>
<glyph format=""2"" name=""eight"">
  <advance width=""0"" />
  <unicode hex=""38"" />
  <image fileName=""turtle.webp"" />
  <outline />
  <!-- <MFEK></MFEK> -->
</glyph>
") = Some null2.
Proof. vm_compute. reflexivity. Qed.
(** test_data/TT2020Base.ufo/glyphs/acute.glif *)
Example text_acute : parse_xml (lit "<?xml version=""1.0"" encoding=""UTF-8""?>
<glyph name=""acute"" format=""2"">
  <advance width=""547"" />
  <unicode hex=""b4"" />
  <outline>
    <component yxScale=""0"" xyScale=""0"" yScale=""1"" base=""grave"" xScale=""-1"" yOffset=""0"" xOffset=""496.285"" />
    <component yxScale=""0"" xyScale=""0"" yScale=""1"" base=""grave"" xScale=""-1"" yOffset=""0"" xOffset=""0"" />
  </outline>
</glyph>
") = Some acute.
Proof. vm_compute. reflexivity. Qed.
(** test_data/TT2020Base.ufo/glyphs/gershayim.glif *)
Example text_gershayim : parse_xml (lit "<?xml version=""1.0"" encoding=""UTF-8""?>
<glyph format=""2"" name=""gershayim"">
  <advance width=""547"" />
  <unicode hex=""5f4"" />
  <outline>
    <component yScale=""1"" xOffset=""95"" base=""acute"" xyScale=""0"" xScale=""1"" yOffset=""-145"" yxScale=""0"" />
    <component yScale=""1"" yOffset=""-145"" xyScale=""0"" xScale=""1"" base=""acute"" yxScale=""0"" xOffset=""-75"" />
  </outline>
</glyph>") = Some gershayim.
Proof. vm_compute. reflexivity. Qed.
(** test_data/TT2020Base.ufo/glyphs/grave.glif *)
Example text_grave : parse_xml (lit "<?xml version=""1.0"" encoding=""UTF-8""?>
<glyph format=""2"" name=""grave"">
  <advance width=""547"" />
  <unicode hex=""60"" />
  <outline>
    <component yxScale=""0"" xyScale=""0"" yScale=""1"" base=""NULL2"" xScale=""-1"" yOffset=""0"" xOffset=""496.285"" />
    <component yxScale=""0"" xyScale=""0"" yScale=""1"" base=""NULL"" xScale=""-1"" yOffset=""0"" xOffset=""0"" />
    <contour>
      <point x=""330.54276"" type=""curve"" y=""488.85776"" />
      <point x=""295.44174"" y=""531.4338"" />
      <point x=""260.34073"" y=""574.00977"" />
      <point x=""225.23975"" y=""616.58575"" type=""curve"" />
      <point y=""623.6999"" x=""219.37463"" />
      <point x=""199.74713"" y=""625.1888"" />
      <point y=""619.04083"" x=""192.87599"" type=""curve"" />
      <point x=""187.11832"" y=""613.88916"" />
      <point x=""181.36066"" y=""608.7375"" />
      <point y=""603.5858"" x=""175.603"" type=""curve"" />
      <point x=""168.25041"" y=""597.0071"" />
      <point y=""576.89"" x=""168.13324"" />
      <point x=""175.40869"" type=""curve"" y=""570.2261"" />
      <point y=""532.80176"" x=""216.26736"" />
      <point y=""495.3774"" x=""257.12604"" />
      <point type=""curve"" y=""457.9531"" x=""297.9847"" />
      <point x=""318.56238"" y=""439.10504"" />
      <point x=""348.29373"" y=""467.32657"" />
    </contour>
    <contour>
      <point type=""curve"" x=""328.3793"" y=""491.13693"" />
      <point y=""528.5613"" x=""287.52063"" />
      <point y=""565.9856"" x=""246.66197"" />
      <point x=""205.80331"" y=""603.4099"" type=""curve"" />
      <point y=""610.07385"" x=""198.52785"" />
      <point x=""198.25642"" y=""563.47144"" />
      <point y=""570.0502"" type=""curve"" x=""205.60901"" />
      <point x=""211.36668"" y=""575.20184"" />
      <point y=""580.3535"" x=""217.12434"" />
      <point y=""585.5052"" type=""curve"" x=""222.882"" />
      <point x=""229.75316"" y=""591.65314"" />
      <point y=""595.0744"" x=""184.65315"" />
      <point x=""190.51825"" y=""587.96027"" type=""curve"" />
      <point x=""225.61926"" y=""545.3843"" />
      <point y=""502.80826"" x=""260.72028"" />
      <point y=""460.23227"" type=""curve"" x=""295.82126"" />
      <point y=""460.23227"" x=""295.82126"" />
      <point x=""328.3793"" y=""491.13693"" />
    </contour>
  </outline>
</glyph>
") = Some grave.
Proof. vm_compute. reflexivity. Qed.
