(** The JSON documents as which the types of the crate are saved: a description of the format,
    type by type, as a relation between a value and a document. *)
Require Import Coq.Strings.String Coq.Lists.List Coq.NArith.NArith Coq.ZArith.ZArith Coq.QArith.QArith.
Require Import Verif.Model.Base Verif.Model.Text Verif.Model.Float Verif.Model.Num Verif.Model.Point
  Verif.Model.Contour Verif.Model.Names Verif.Model.Color Verif.Model.Xml Verif.Model.Parts Verif.Model.Component
  Verif.Model.Mpoint Verif.Model.Mfek Verif.Model.Serde Verif.Spec.MfekSpec Verif.Spec.SerdeSpec.
Import ListNotations.
Local Open Scope string_scope.

(** What a document must be. *)
Definition form : Type := json -> Prop.

(** An object with exactly these entries, in this order. *)
Fixpoint entries (fs : list (string * form)) (kvs : list (str * json)) : Prop :=
  match fs, kvs with
  | [], [] => True
  | (n, f) :: fs, (k, v) :: kvs => k = lit n /\ f v /\ entries fs kvs
  | _, _ => False
  end.
Definition an_object (fs : list (string * form)) : form := fun j => exists kvs, j = JObj kvs /\ entries fs kvs.

(** An array with one element for each element of a list, in order. *)
Definition each {A} (f : A -> form) : list A -> list json -> Prop :=
  fix each l js :=
  match l, js with
  | [], [] => True
  | x :: l, j :: js => f x j /\ each l js
  | _, _ => False
  end.
Definition an_array {A} (f : A -> form) (l : list A) : form := fun j => exists js, j = JArr js /\ each f l js.
(** An array with these elements. *)
Definition a_tuple (fs : list form) : form := an_array (fun f => f) fs.
(** Null, or what there is. *)
Definition optional {A} (f : A -> form) (o : option A) : form :=
  match o with Some x => f x | None => fun j => j = JNull end.
(** An object with one entry. *)
Definition tagged (n : string) (f : form) : form := an_object [(n, f)].

(** Names, texts, numbers. *)
Definition a_name (n : string) : form := fun j => j = JStr (lit n).
Definition a_text (s : str) : form := fun j => j = JStr s.
Definition a_letter (c : N) : form := fun j => j = JStr [c].
Definition a_flag (b : bool) : form := fun j => j = JBool b.
Definition an_integer (n : N) : form := fun j => j = JInt (Z.of_N n).
(** The same number, which is read back as the same f32; null for infinities and NaN. *)
Definition a_float32 (x : f32) : form := fun j =>
  (is_finite x = false -> j = JNull) /\
  (is_finite x = true -> exists d, j = JFloat d /\
     (valid32 x = true -> f32_of_f64 d = x /\ forall q, value x = Some q -> same_value d q)).
Definition a_float64 (x : f64) : form := fun j =>
  (is_finite x = false -> j = JNull) /\ (is_finite x = true -> j = JFloat x).
(** A text for the path. *)
Definition a_path_text (p : path) : form := fun j => exists s, j = JStr s /\ (a_path p -> path_of s = p).
Definition an_os_text (o : osstr) : form := fun j => exists s, o = Utf8 s /\ j = JStr s.

(** * Enumerations: their names *)

Definition form_ptype (t : ptype) : form := a_name
  match t with
  | Undefined => "Undefined" | Move => "Move" | Curve => "Curve" | QCurve => "QCurve"
  | QClose => "QClose" | Line => "Line" | OffCurve => "OffCurve"
  end.
Definition form_which (w : which) : form := a_name match w with Neither => "Neither" | WA => "A" | WB => "B" end.
Definition form_anchor_type (t : anchor_type) : form := a_name match t with AMark => "Mark" | ABase => "Base" end.
Definition form_join (t : join_type) : form := a_name
  match t with JBevel => "Bevel" | JMiter => "Miter" | JCircle => "Circle" | JRound => "Round" end.
Definition form_cap (t : cap_type) : form := a_name
  match t with CapCustom => "Custom" | CapSquare => "Square" | CapCircle => "Circle" | CapRound => "Round" end.
Definition form_interpolation (t : interpolation) : form := a_name match t with INull => "Null" | ILinear => "Linear" end.
Definition form_copies (t : pattern_copies) : form := a_name
  match t with PSingle => "Single" | PRepeated => "Repeated" end.
Definition form_stretch (t : pattern_stretch) : form := a_name
  match t with StretchOff => "Off" | StretchOn => "On" | StretchSpacing => "Spacing" end.
Definition form_layer_operation (t : layer_operation) : form := a_name
  match t with LDifference => "Difference" | LUnion => "Union" | LXOR => "XOR" | LIntersect => "Intersect" end.
Definition form_hyper_kind (t : hyper_kind) : form := a_name match t with HCurve => "Curve" | HLine => "Line" end.

(** * Points *)

Definition form_handle (h : handle) : form :=
  match h with
  | At x y => tagged "At" (a_tuple [a_float32 x; a_float32 y])
  | Colocated => a_name "Colocated"
  end.

Section Forms.
Context {PD PL : Type} (S : serdelib PD PL).

(** As the other crates write them. *)
Definition the_data (d : PD) : form := fun j => pd_en S d = Some j.
Definition a_number (i : iof) : form := fun j => j = iof_en S i.
Definition a_plist (d : PL) : form := fun j => pl_en S d = Some j.

Definition form_glifpoint (p : glifpoint) : form := an_object
  [("x", a_number (gx p)); ("y", a_number (gy p)); ("smooth", a_flag (gsmooth p));
   ("name", optional a_text (gname p)); ("ptype", form_ptype (gptype p))].
Definition form_point (p : point PD) : form := an_object
  [("x", a_float32 (px p)); ("y", a_float32 (py p)); ("a", form_handle (pa p)); ("b", form_handle (pb p));
   ("name", optional a_text (pname p)); ("ptype", form_ptype (pptype p)); ("smooth", a_flag (psmooth p));
   ("data", optional the_data (pdata p))].
Definition form_qpoint (p : qpoint PD) : form := an_object
  [("x", a_float32 (q_x p)); ("y", a_float32 (q_y p)); ("a", form_handle (q_a p));
   ("name", optional a_text (q_name p)); ("ptype", form_ptype (q_ptype p)); ("smooth", a_flag (q_smooth p));
   ("data", optional the_data (q_data p))].
Definition form_hpoint (p : hpoint PD) : form := an_object
  [("x", a_float32 (h_x p)); ("y", a_float32 (h_y p)); ("a", form_handle (h_a p)); ("b", form_handle (h_b p));
   ("kind", form_hyper_kind (h_kind p)); ("smooth", a_flag (h_smooth p)); ("data", optional the_data (h_data p))].

(** * Parts of a glyph *)

Definition form_color (c : color) : form := an_object
  [("r", a_number (cr c)); ("g", a_number (cg c)); ("b", a_number (cb c)); ("a", a_number (ca c))].
Definition form_anchor (a : anchor PD) : form := an_object
  [("x", a_float32 (an_x a)); ("y", a_float32 (an_y a)); ("class", optional a_text (an_class a));
   ("data", the_data (an_data a)); ("atype", form_anchor_type (an_type a))].
Definition form_glifanchor (a : glifanchor) : form := an_object
  [("x", a_number (ga_x a)); ("y", a_number (ga_y a)); ("class", optional a_text (ga_class a))].
Definition form_guideline (g : guideline PD) : form := an_object
  [("at", an_object [("x", a_float32 (gl_x g)); ("y", a_float32 (gl_y g))]); ("angle", a_number (gl_angle g));
   ("name", optional a_text (gl_name g)); ("color", optional form_color (gl_color g));
   ("identifier", optional a_text (gl_identifier g)); ("data", the_data (gl_data g))].
(** The six numbers of a matrix are fields of what has the matrix. *)
Definition matrix_entries (m : glifmatrix) : list (string * form) :=
  [("xScale", a_number (m_xScale m)); ("xyScale", a_number (m_xyScale m)); ("yxScale", a_number (m_yxScale m));
   ("yScale", a_number (m_yScale m)); ("xOffset", a_number (m_xOffset m)); ("yOffset", a_number (m_yOffset m))].
Definition form_glifcomponent (c : glifcomponent) : form := an_object
  ([("base", a_text (c_base c)); ("filename", optional a_path_text (c_filename c))] ++ matrix_entries (c_matrix c) ++
   [("identifier", optional a_text (c_identifier c))]).
Definition form_glifoutline (o : glifoutline) : form := an_object
  [("contours", an_array (an_array form_glifpoint) (go_contours o));
   ("components", an_array form_glifcomponent (go_components o))].
Definition form_glifcomponents (c : glifcomponents) : form := an_object
  [("root", a_text (cs_root c)); ("vec", an_array form_glifcomponent (cs_vec c));
   ("uniques", an_array a_text (cs_uniques c))].
Definition form_rect (r : comp_rect) : form := an_object
  [("minx", a_float32 (r_minx r)); ("miny", a_float32 (r_miny r)); ("maxx", a_float32 (r_maxx r));
   ("maxy", a_float32 (r_maxy r)); ("name", a_text (r_name r))].
Definition form_glifimage (i : glifimage) : form := an_object
  ([("filename", an_os_text (i_filename i))] ++ matrix_entries (i_matrix i) ++
   [("identifier", optional a_text (i_identifier i)); ("color", optional form_color (i_color i))]).
Definition form_affine (m : affine) : form :=
  a_tuple [a_float64 (c0 m); a_float64 (c1 m); a_float64 (c2 m); a_float64 (c3 m); a_float64 (c4 m); a_float64 (c5 m)].
Definition form_lib (l : lib PL) : form :=
  match l with LNone => a_name "None" | LPlist d => tagged "Plist" (a_plist d) | LXml _ => fun _ => False end.
Definition form_outline (o : outline PD) : form := an_array (an_array form_point) o.

(** A glyph. *)
Definition form_glif (g : glif PD PL) : form := an_object
  [("outline", optional form_outline (g_outline g)); ("anchors", an_array form_anchor (g_anchors g));
   ("components", form_glifcomponents (g_components g)); ("guidelines", an_array form_guideline (g_guidelines g));
   ("images", an_array form_glifimage (g_images g)); ("width", optional an_integer (g_width g));
   ("unicode", an_array a_letter (g_unicode g)); ("name", a_text (g_name g)); ("note", optional a_text (g_note g));
   ("lib", form_lib (g_lib g))].
Definition form_component (c : component PD PL) : form := an_object
  [("glif", form_glif (cp_glif c)); ("matrix", form_affine (cp_matrix c))].

(** * Contour operations *)

Definition form_vws_handle (h : vws_handle) : form := an_object
  [("left_offset", a_float64 (vh_left h)); ("right_offset", a_float64 (vh_right h));
   ("tangent_offset", a_float64 (vh_tangent h)); ("interpolation", form_interpolation (vh_interpolation h))].
Definition form_vws (v : vws) : form := an_object
  [("handles", an_array form_vws_handle (v_handles v)); ("join_type", form_join (v_join v));
   ("cap_start_type", form_cap (v_cap_start v)); ("cap_end_type", form_cap (v_cap_end v));
   ("remove_internal", a_flag (v_remove_internal v)); ("remove_external", a_flag (v_remove_external v))].
Definition form_cull (c : dash_cull) : form := an_object
  [("width", a_float32 (dc_width c)); ("area_cutoff", a_float32 (dc_area_cutoff c))].
Definition form_dash (d : dash) : form := an_object
  [("stroke_width", a_float32 (d_stroke_width d)); ("cull", optional form_cull (d_cull d));
   ("dash_desc", an_array a_float32 (d_desc d)); ("include_last_path", a_flag (d_include_last_path d));
   ("paint_join", an_integer (d_paint_join d)); ("paint_cap", an_integer (d_paint_cap d))].
Definition form_subdivide (p : pattern_subdivide) : form :=
  match p with
  | SubOff => a_name "Off" | SubSimple n => tagged "Simple" (an_integer n) | SubAngle a => tagged "Angle" (a_float64 a)
  end.
Definition form_culling (p : pattern_culling) : form :=
  match p with
  | CullOff => a_name "Off" | CullRemove => a_name "RemoveOverlapping"
  | CullErase a b => tagged "EraseOverlapping" (a_tuple [a_float64 a; a_float64 b])
  end.
Definition form_pap {C} (f : C -> form) (p : pap C) : form := an_object
  [("pattern", an_array f (pp_pattern p)); ("copies", form_copies (pp_copies p));
   ("subdivide", form_subdivide (pp_subdivide p)); ("is_vertical", a_flag (pp_is_vertical p));
   ("stretch", form_stretch (pp_stretch p)); ("spacing", a_float64 (pp_spacing p));
   ("simplify", a_flag (pp_simplify p)); ("normal_offset", a_float64 (pp_normal_offset p));
   ("tangent_offset", a_float64 (pp_tangent_offset p));
   ("pattern_scale", a_tuple [a_float64 (fst (pp_pattern_scale p)); a_float64 (snd (pp_pattern_scale p))]);
   ("center_pattern", a_flag (pp_center_pattern p)); ("prevent_overdraw", form_culling (pp_prevent_overdraw p));
   ("two_pass_culling", a_flag (pp_two_pass_culling p)); ("reverse_path", a_flag (pp_reverse_path p));
   ("reverse_culling", a_flag (pp_reverse_culling p)); ("warp_pattern", a_flag (pp_warp_pattern p));
   ("split_path", a_flag (pp_split_path p))].
Definition form_operations {C} (f : C -> form) (o : operations C) : form :=
  match o with
  | OpVws v => tagged "VariableWidthStroke" (an_object [("data", form_vws v)])
  | OpPap p => tagged "PatternAlongPath" (an_object [("data", form_pap f p)])
  | OpDash d => tagged "DashAlongPath" (an_object [("data", form_dash d)])
  end.

(** * MFEK glyphs *)

Definition form_inner (i : inner PD) : form :=
  match i with
  | Cubic l => tagged "Cubic" (an_array form_point l)
  | Quad l => tagged "Quad" (an_array form_qpoint l)
  | Hyper l o => tagged "Hyper" (an_object [("points", an_array form_hpoint l); ("open", a_flag o)])
  end.
Fixpoint form_mcontour (c : mcontour PD) : form :=
  let 'MC i o := c in
  an_object [("inner", form_inner i); ("operation", optional (form_operations form_mcontour) o)].
Definition form_layer (l : layer PD) : form := an_object
  [("name", a_text (l_name l)); ("visible", a_flag (l_visible l)); ("color", optional form_color (l_color l));
   ("outline", an_array form_mcontour (l_outline l)); ("operation", optional form_layer_operation (l_operation l));
   ("images", an_array (fun im => a_tuple [form_glifimage (fst im); form_affine (snd im)]) (l_images l))].
(** All but the file name; [f] is said of each entry of the history. *)
Definition form_mglif {H} (f : H -> form) (m : mglif PD H) : form := an_object
  [("layers", an_array form_layer (mg_layers m)); ("history", an_array f (mg_history m));
   ("anchors", an_array form_anchor (mg_anchors m)); ("components", form_glifcomponents (mg_components m));
   ("flattened", optional form_outline (mg_flattened m));
   ("component_rects", optional (an_array form_rect) (mg_component_rects m));
   ("guidelines", an_array form_guideline (mg_guidelines m)); ("width", optional an_integer (mg_width m));
   ("unicode", an_array a_letter (mg_unicode m)); ("name", a_text (mg_name m)); ("note", optional a_text (mg_note m))].
Definition form_selected (s : N * N) : form := a_tuple [an_integer (fst s); an_integer (snd s)].
Fixpoint form_history (h : history PD) : form :=
  let 'HEntry d li ci pi gl sel g := h in
  an_object
  [("description", a_text d); ("layer_idx", optional an_integer li); ("contour_idx", optional an_integer ci);
   ("point_idx", optional an_integer pi); ("guidelines", an_array form_guideline gl);
   ("selected", optional (an_array form_selected) sel); ("glyph", form_mglif form_history g)].
Definition form_mfekglif (m : mglif PD (history PD)) : form := form_mglif form_history m.

End Forms.

(** The point data that comes with MFEK glyphs. *)
Definition form_mfek_data (d : mfek_data) : form :=
  tagged "Guideline" (an_object [("fixed", a_flag (md_fixed d)); ("format", a_flag (md_format d)); ("right", a_flag (md_right d))]).

(** Whatever is saved has this form. *)
Definition saved_as {A} (en : A -> option json) (f : A -> form) : Prop :=
  forall x j, en x = Some j -> f x j.
