(** Anchors, guidelines, components, images and their XML, and the glyph record.
    src/anchor.rs, src/guideline.rs, src/component.rs, src/image.rs, src/glif.rs. *)
Require Import Coq.Lists.List Coq.NArith.NArith Coq.ZArith.ZArith Coq.Bool.Bool Coq.Strings.String.
Require Import Verif.Model.Base Verif.Model.Text Verif.Model.Float Verif.Model.Num
  Verif.Model.Point Verif.Model.Contour Verif.Model.Strings Verif.Model.Names Verif.Model.Pedantry
  Verif.Model.Color Verif.Model.Xml.
Import ListNotations.
Local Open Scope string_scope.

(** src/anchor.rs L19-23 *)
Inductive anchor_type := AMark | ABase.

(** src/anchor.rs L25-43: `From<AsRef<str>>` and `from_option` (default Base). *)
Definition anchor_type_of (s : option str) : anchor_type :=
  match s with
  | Some (95%N :: _) => AMark
  | _ => ABase
  end.

(** src/anchor.rs L47-56 *)
Record anchor {PD : Type} := mkAnchor {
  an_x : f32; an_y : f32; an_class : option str; an_data : PD; an_type : anchor_type
}.
Arguments anchor : clear implicits.
Arguments mkAnchor {PD}.

(** src/anchor.rs L72-78 *)
Record glifanchor := mkGA { ga_x : iof; ga_y : iof; ga_class : option str }.

(** src/anchor.rs L59-69 *)
Definition anchor_from_glif {PD} (pd0 : PD) (ga : glifanchor) (ped : pedantry) : res (anchor PD) :=
  let x := maybe_round (ped_level ped) (ga_x ga) FCAnchor in
  let y := maybe_round (ped_level ped) (ga_y ga) FCAnchor in
  let always := match ped_mend ped with MendAlways => true | _ => false end in
  if negb always && (negb (holding_integer (ga_x ga)) || negb (holding_integer (ga_y ga)))
  then Err (EPedantic "Anchor was a float, not an integer!")
  else Ok (mkAnchor x y (ga_class ga) pd0 (anchor_type_of (ga_class ga))).

(** src/guideline.rs L17-20, L30-37 *)
Record guideline {PD : Type} := mkGuideline {
  gl_x : f32; gl_y : f32; gl_angle : iof; gl_name : option str; gl_color : option color;
  gl_identifier : option str; gl_data : PD
}.
Arguments guideline : clear implicits.
Arguments mkGuideline {PD}.

(** src/matrix.rs L15-16; also the six matrix fields of components and images. *)
Record glifmatrix := mkMatrix {
  m_xScale : iof; m_xyScale : iof; m_yxScale : iof; m_yScale : iof; m_xOffset : iof; m_yOffset : iof
}.

(** src/component.rs L27-37 *)
Record glifcomponent := mkComponent {
  c_base : str; c_filename : option path; c_matrix : glifmatrix; c_identifier : option str
}.
(** src/component.rs L45-49; the hash set is a list without repetitions. *)
Record glifcomponents := mkComponents {
  cs_root : str; cs_vec : list glifcomponent; cs_uniques : list str
}.
(** `GlifComponents::new`, src/component.rs L51-55. *)
Definition components_default := mkComponents [] [] [].

(** src/component.rs L118-122 *)
Definition component_set_file_name (c : glifcomponent) (gliffn : path) : glifcomponent :=
  mkComponent (c_base c) (Some (path_set_file_name gliffn (name_to_filename (c_base c) true)))
              (c_matrix c) (c_identifier c).

(** src/component.rs L148-150 *)
Definition component_refers_to (c : glifcomponent) (glif_name : str) : bool := str_eqb (c_base c) glif_name.

(** Image file names may fail to be UTF-8 (src/image/xml.rs L10-14); then the text holds numbers
    that are not characters. *)
Inductive osstr := Utf8 (s : str) | NotUtf8 (s : str).
(** src/image.rs L163. *)
Definition os_text (o : osstr) : str := match o with Utf8 s => s | NotUtf8 s => s end.

(** src/image.rs L87-97 *)
Record glifimage := mkImage {
  i_filename : osstr; i_matrix : glifmatrix; i_identifier : option str; i_color : option color
}.

(** src/glif/lib.rs L8-16; [PL] is plist::Dictionary. *)
Inductive lib {PL : Type} := LNone | LPlist (d : PL) | LXml (e : element).
Arguments lib : clear implicits.

(** External crate `plist` (src/glif/read.rs L290-304, src/glif/write.rs L92-107):
    result of serialising an element and parsing it as a property list, and of writing a
    dictionary and parsing it as XML. *)
Inductive plist_outcome {PL : Type} := PlOk (d : PL) | PlBad | PlWriteError.
Arguments plist_outcome : clear implicits.
(** The crate plist, used at src/glif/read.rs L291-306 and src/glif/write.rs L90-116. *)
Record plistlib {PL : Type} := mkPlist {
  plist_of_element : element -> plist_outcome PL;
  element_of_plist : PL -> option element
}.
Arguments plistlib : clear implicits.

(** src/glif.rs L42-69 *)
Record glif {PD PL : Type} := mkGlif {
  g_outline : option (outline PD);
  g_anchors : list (anchor PD);
  g_components : glifcomponents;
  g_guidelines : list (guideline PD);
  g_images : list glifimage;
  g_width : option N;
  g_unicode : list N;
  g_name : str;
  g_note : option str;
  g_filename : option path;
  g_lib : lib PL
}.
Arguments glif : clear implicits.
Arguments mkGlif {PD PL}.

(** `#[derive(Default)]` of Glif, src/glif.rs L41-69, `Glif::new` L72-74. *)
Definition glif_default {PD PL} : glif PD PL :=
  mkGlif None [] components_default [] [] None [] [] None None LNone.

Section Xml.
Context (L : numlib) {PD : Type}.

(** src/matrix/write.rs L3-15 *)
Definition write_matrix (ident : option str) (m : glifmatrix) (e : element) : element :=
  insert "yOffset" (iof_show L (m_yOffset m))
  (insert "xOffset" (iof_show L (m_xOffset m))
  (insert "yScale" (iof_show L (m_yScale m))
  (insert "yxScale" (iof_show L (m_yxScale m))
  (insert "xyScale" (iof_show L (m_xyScale m))
  (insert "xScale" (iof_show L (m_xScale m))
  (insert_opt "identifier" ident e)))))).

(** src/glif/read.rs L35-40: one attribute of the matrix, with its present value. *)
Definition load_member (e : element) (k : string) (msg : string) (cur : iof) : res iof :=
  match get e k with
  | None => Ok cur
  | Some s => ok_or (iof_read L s) (EInput msg)
  end.
(** src/glif/read.rs L32-44 *)
Definition load_matrix (e : element) (m : glifmatrix) : res glifmatrix :=
  let* xs := load_member e "xScale" "Matrix member xScale not float" (m_xScale m) in
  let* xys := load_member e "xyScale" "Matrix member xyScale not float" (m_xyScale m) in
  let* yxs := load_member e "yxScale" "Matrix member yxScale not float" (m_yxScale m) in
  let* ys := load_member e "yScale" "Matrix member yScale not float" (m_yScale m) in
  let* xo := load_member e "xOffset" "Matrix member xOffset not float" (m_xOffset m) in
  let* yo := load_member e "yOffset" "Matrix member yOffset not float" (m_yOffset m) in
  Ok (mkMatrix xs xys yxs ys xo yo).

(** src/anchor/xml.rs L7-15 *)
Definition anchor_xml (a : anchor PD) : element :=
  insert_opt "name" (an_class a)
  (insert "y" (f32_show L (an_y a))
  (insert "x" (f32_show L (an_x a)) (new_element "anchor"))).

(** src/guideline/xml.rs L7-22 *)
Definition guideline_xml (g : guideline PD) : element :=
  insert_opt "identifier" (gl_identifier g)
  (insert_opt "name" (gl_name g)
  (insert_opt "color" (option_map (color_show L) (gl_color g))
  (insert "angle" (iof_show L (gl_angle g))
  (insert "y" (f32_show L (gl_y g))
  (insert "x" (f32_show L (gl_x g)) (new_element "guideline")))))).

(** src/component/xml.rs L7-14 *)
Definition component_xml (c : glifcomponent) : element :=
  write_matrix (c_identifier c) (c_matrix c) (insert "base" (c_base c) (new_element "component")).

(** src/image/xml.rs L8-22: the color is not written. *)
Definition image_try_xml (i : glifimage) : res element :=
  match i_filename i with
  | NotUtf8 _ => Err ENotUtf8
  | Utf8 s => Ok (write_matrix (i_identifier i) (i_matrix i) (insert "fileName" s (new_element "image")))
  end.

(** src/codepoint.rs L8-19 *)
Definition codepoint_xml (c : N) : element := insert "hex" (show_hex c) (new_element "unicode").

(** src/glif/xml.rs L15-19 (called only when the width is set) *)
Definition advance_xml (w : N) : element := insert "width" (show_dec w) (new_element "advance").

(** src/point/xml.rs L7-25 *)
Definition gp_xml (dbg : bool) (g : glifpoint) : res element :=
  let e := insert "y" (iof_show L (gy g)) (insert "x" (iof_show L (gx g)) (new_element "point")) in
  let t := ptype_show (gptype g) in
  let e := if str_eqb t (lit "offcurve") then e else insert "type" t e in
  let e := insert_opt "name" (gname g) e in
  if gsmooth g then
    if dbg && ptype_eqb (gptype g) OffCurve then Panic
    else Ok (insert "smooth" (lit "yes") e)
  else Ok e.

(** src/outline/contour/xml.rs L7-16 *)
Definition gcontour_xml (dbg : bool) (gc : list glifpoint) : res element :=
  let* ps := mapM (gp_xml dbg) gc in
  Ok (Element (lit "contour") [] (map NElem ps)).

(** src/component.rs L57-65 *)
Definition component_new : glifcomponent :=
  mkComponent [] None
    (mkMatrix (IFloat (f32_of_Z 1)) (iof_default L) (iof_default L) (IFloat (f32_of_Z 1))
              (iof_default L) (iof_default L)) None.

(** src/image.rs L120-139 *)
Definition image_from_filename (f : osstr) : glifimage :=
  mkImage f (mkMatrix (IInt 1) (IInt 0) (IInt 0) (IInt 1) (IInt 0) (IInt 0)) None None.

End Xml.
