(** What the elements of a glyph document say, attribute by attribute. *)
Require Import Coq.Strings.String Coq.Lists.List Coq.Arith.Arith Coq.NArith.NArith Coq.ZArith.ZArith Coq.Sorting.Permutation.
Require Import Verif.Model.Base Verif.Model.Text Verif.Model.Float Verif.Model.Num Verif.Model.Point Verif.Model.Names
  Verif.Model.Pedantry Verif.Model.Color Verif.Model.Xml Verif.Model.Parts Verif.Model.Create
  Verif.Model.Contour Verif.Model.Conv Verif.Spec.TextSpec Verif.Spec.GlyphSpec.
Import ListNotations.

Section Says.
Context (L : numlib).

(** The attribute [k] is present and is the number [i]. *)
Definition number_at (e : element) (k : string) (i : iof) : Prop :=
  exists s, get e k = Some s /\ iof_read L s = Some i.
Definition float_at (e : element) (k : string) (f : f32) : Prop :=
  exists s, get e k = Some s /\ f32_read L s = Some f.
(** The number of the attribute [k]; [d] if there is no such attribute. *)
Definition number_or (d : iof) (e : element) (k : string) (i : iof) : Prop :=
  (get e k = None /\ i = d) \/ number_at e k i.

(** ** Points *)
Definition on_curve_names : list string := ["move"; "line"; "qcurve"; "curve"]%string.
(** The type of a point with the given `type` attribute. *)
Inductive type_named : option str -> ptype -> Prop :=
| names_move : type_named (Some (lit "move")) Move
| names_line : type_named (Some (lit "line")) Line
| names_qcurve : type_named (Some (lit "qcurve")) QCurve
| names_curve : type_named (Some (lit "curve")) Curve
| names_other o : (forall n, In n on_curve_names -> o <> Some (lit n)) -> type_named o OffCurve.
Definition point_says (e : element) (g : glifpoint) : Prop :=
  number_at e "x" (gx g) /\ number_at e "y" (gy g) /\ type_named (get e "type") (gptype g) /\
  gname g = get e "name" /\
  (gsmooth g = true <-> get e "smooth" = Some (lit "yes") /\ gptype g <> OffCurve).

(** ** Matrices, components, images *)
Definition matrix_says (one zero : iof) (e : element) (m : glifmatrix) : Prop :=
  number_or one e "xScale" (m_xScale m) /\ number_or zero e "xyScale" (m_xyScale m) /\
  number_or zero e "yxScale" (m_yxScale m) /\ number_or one e "yScale" (m_yScale m) /\
  number_or zero e "xOffset" (m_xOffset m) /\ number_or zero e "yOffset" (m_yOffset m).
Definition component_says (e : element) (c : glifcomponent) : Prop :=
  get e "base" = Some (c_base c) /\ matrix_says (IFloat (f32_of_Z 1)) (iof_default L) e (c_matrix c) /\
  c_identifier c = get e "identifier" /\ c_filename c = None.

(** Four numbers separated by commas, and possibly more after another comma. *)
Definition color_text (s : str) (c : color) : Prop :=
  exists tr tg tb ta,
    (forall p, In p [tr; tg; tb; ta] -> ~ In comma p) /\
    (s = tr ++ comma :: tg ++ comma :: tb ++ comma :: ta \/
     exists t, s = tr ++ comma :: tg ++ comma :: tb ++ comma :: ta ++ comma :: t) /\
    iof_read L tr = Some (cr c) /\ iof_read L tg = Some (cg c) /\ iof_read L tb = Some (cb c) /\ iof_read L ta = Some (ca c).
Definition color_says (e : element) (o : option color) : Prop :=
  match o with
  | None => get e "color" = None
  | Some c => exists s, get e "color" = Some s /\ color_text s c
  end.
Definition image_says (e : element) (i : glifimage) : Prop :=
  (exists s, get e "fileName" = Some s /\ i_filename i = Utf8 s) /\
  matrix_says (IInt 1) (IInt 0) e (i_matrix i) /\
  i_identifier i = get e "identifier" /\ color_says e (i_color i).

(** ** Guidelines, anchors *)
Definition guideline_says {PD} (pd0 : PD) (e : element) (g : guideline PD) : Prop :=
  float_at e "x" (gl_x g) /\ float_at e "y" (gl_y g) /\ number_at e "angle" (gl_angle g) /\
  gl_name g = get e "name" /\ color_says e (gl_color g) /\ gl_identifier g = get e "identifier" /\ gl_data g = pd0.

Definition sfnt (ped : pedantry) : Prop := ped_level ped = LevelOpenType \/ ped_level ped = LevelTrueType.
(** A coordinate of an anchor: rounded for OpenType and TrueType. *)
Definition anchor_coordinate (ped : pedantry) (i : iof) (f : f32) : Prop :=
  (sfnt ped -> rounded (f32_of_iof i) f) /\ (~ sfnt ped -> f = f32_of_iof i).
Definition anchor_says {PD} (pd0 : PD) (ped : pedantry) (e : element) (a : anchor PD) : Prop :=
  (exists x y, number_at e "x" x /\ number_at e "y" y /\
     anchor_coordinate ped x (an_x a) /\ anchor_coordinate ped y (an_y a) /\
     (ped_mend ped <> MendAlways -> (exists z, x = IInt z) /\ (exists z, y = IInt z))) /\
  (forall s, an_class a = Some s <-> get e "name" = Some s /\ usable_class s) /\
  (an_type a = AMark <-> exists t, an_class a = Some (95%N :: t)) /\
  an_data a = pd0.

(** ** Widths, code points *)
Definition advance_says (ped : pedantry) (e : element) (w : N) : Prop :=
  exists s, get e "width" = Some s /\
    (parse_u64 s = Some w \/
     parse_u64 s = None /\ ~ strict ped /\
       exists f, f32_read L s = Some f /\ is_subnormal f = false /\ cut_to_u64 f w).
Definition unicode_says (e : element) (c : N) : Prop :=
  exists s, get e "hex" = Some s /\ parse_hex_u32 s = Some c /\ scalar c.

(** ** Documents *)
Definition lib_says {PL} (P : plistlib PL) (ls : list element) (l : lib PL) : Prop :=
  match ls with
  | [] => l = LNone
  | x :: _ =>
      let p := Element (lit "plist") (eattrs x) (echildren x) in
      match plist_of_element P p with
      | PlOk d => l = LPlist d
      | PlWriteError => l = LXml p
      | PlBad => l = LNone
      end
  end.
(** The contours and components of the first `outline` element, contours without points left
    out. *)
Definition outline_says (os : list element) (gcs : list (list glifpoint)) (ks : list glifcomponent) : Prop :=
  match os with
  | [] => gcs = [] /\ ks = []
  | o :: _ =>
      exists all, Forall2 (fun e gc => Forall2 point_says (named "point" e) gc) (named "contour" o) all /\
        gcs = filter (fun gc => match gc with [] => false | _ => true end) all /\
        Forall2 component_says (named "component" o) ks
  end.
Definition document_says {PD PL} (pd0 : PD) (P : plistlib PL) (ped : pedantry) (root : element) (g : glif PD PL) : Prop :=
  ename root = lit "glyph" /\ get root "format" = Some (lit "2") /\ get root "name" = Some (g_name g) /\
  match named "advance" root with
  | [] => g_width g = None
  | a :: _ => exists w, g_width g = Some w /\ advance_says ped a w
  end /\
  Forall2 unicode_says (named "unicode" root) (g_unicode g) /\
  Forall2 (anchor_says pd0 ped) (named "anchor" root) (g_anchors g) /\
  Forall2 image_says (named "image" root) (g_images g) /\
  Forall2 (guideline_says pd0) (named "guideline" root) (g_guidelines g) /\
  g_note g = match named "note" root with [] => None | n :: _ => text_in n end /\
  lib_says P (named "lib" root) (g_lib g) /\
  g_filename g = None /\ cs_root (g_components g) = g_name g /\ cs_uniques (g_components g) = [] /\
  exists gcs o, outline_says (named "outline" root) gcs (cs_vec (g_components g)) /\
    outline_of_glif L gcs = Ok o /\
    g_outline g = match o, cs_vec (g_components g) with [], [] => None | _, _ => Some o end.
End Says.

(** ** Reading from a file *)
(** The path without the name of a file at its end, if there is one. *)
Definition directory_of (fn dir : path) : Prop :=
  (exists old, fn = dir ++ [old] /\ ~ In old [lit "/"; lit "."; lit ".."]) \/
  (fn = dir /\ forall d old, fn = d ++ [old] -> In old [lit "/"; lit "."; lit ".."]).
(** The file [f], seen from the directory of [fn]. *)
Definition beside (fn : path) (f : str) (p : path) : Prop :=
  exists dir, directory_of fn dir /\ p = path_push dir (path_of f).
(** [g] is the glyph [g0] as found in the file [fn]. *)
Definition found_in {PD PL} (fn : path) (g0 g : glif PD PL) : Prop :=
  g_filename g = Some fn /\
  Forall2 (fun c0 c => c_base c = c_base c0 /\ c_matrix c = c_matrix c0 /\ c_identifier c = c_identifier c0 /\
                       exists p, c_filename c = Some p /\ beside fn (name_to_filename (c_base c0) true) p)
          (cs_vec (g_components g0)) (cs_vec (g_components g)) /\
  cs_root (g_components g) = cs_root (g_components g0) /\ cs_uniques (g_components g) = cs_uniques (g_components g0) /\
  g_outline g = g_outline g0 /\ g_anchors g = g_anchors g0 /\ g_guidelines g = g_guidelines g0 /\
  g_images g = g_images g0 /\ g_width g = g_width g0 /\ g_unicode g = g_unicode g0 /\ g_name g = g_name g0 /\
  g_note g = g_note g0 /\ g_lib g = g_lib g0.

(** ** Strictness *)
(** [a] is the anchor [a0] under the setting [ped]. *)
Definition anchor_under {PD} (ped : pedantry) (a0 a : anchor PD) : Prop :=
  an_class a = an_class a0 /\ an_type a = an_type a0 /\ an_data a = an_data a0 /\
  (sfnt ped -> rounded (an_x a0) (an_x a) /\ rounded (an_y a0) (an_y a)) /\
  (~ sfnt ped -> an_x a = an_x a0 /\ an_y a = an_y a0).
Definition glyph_under {PD PL} (ped : pedantry) (g0 g : glif PD PL) : Prop :=
  Forall2 (anchor_under ped) (g_anchors g0) (g_anchors g) /\
  g_outline g = g_outline g0 /\ g_components g = g_components g0 /\ g_guidelines g = g_guidelines g0 /\
  g_images g = g_images g0 /\ g_width g = g_width g0 /\ g_unicode g = g_unicode g0 /\ g_name g = g_name g0 /\
  g_note g = g_note g0 /\ g_filename g = g_filename g0 /\ g_lib g = g_lib g0.
(** What a setting asks of a document beyond the default: anchors at integers unless everything
    is mended; a width written as an integer when strict. *)
Definition acceptable (L : numlib) (ped : pedantry) (root : element) : Prop :=
  (ped_mend ped <> MendAlways -> forall e k, In e (named "anchor" root) -> In k ["x"; "y"]%string ->
     exists z, number_at L e k (IInt z)) /\
  (strict ped -> forall e r, named "advance" root = e :: r -> exists s w, get e "width" = Some s /\ parse_u64 s = Some w).

(** ** Written documents *)
Section Written.
Context (L : numlib) {PD PL : Type} (P : plistlib PL) (dbg : bool).
(** The attributes of [e] are those given, in any order; those without a value are absent. *)
Definition attributes (e : element) (l : list (string * option str)) : Prop :=
  Permutation (eattrs e) (flat_map (fun kv => match snd kv with Some v => [(lit (fst kv), v)] | None => [] end) l).
Definition leaf (e : element) (l : list (string * option str)) : Prop := attributes e l /\ echildren e = [].
Definition matrix_attributes (m : glifmatrix) : list (string * option str) :=
  [("xScale", Some (iof_show L (m_xScale m))); ("xyScale", Some (iof_show L (m_xyScale m)));
   ("yxScale", Some (iof_show L (m_yxScale m))); ("yScale", Some (iof_show L (m_yScale m)));
   ("xOffset", Some (iof_show L (m_xOffset m))); ("yOffset", Some (iof_show L (m_yOffset m)))]%string.
Definition anchor_written (a : anchor PD) (e : element) : Prop :=
  leaf e [("x", Some (f32_show L (an_x a))); ("y", Some (f32_show L (an_y a))); ("name", an_class a)]%string.
Definition guideline_written (g : guideline PD) (e : element) : Prop :=
  leaf e [("x", Some (f32_show L (gl_x g))); ("y", Some (f32_show L (gl_y g))); ("angle", Some (iof_show L (gl_angle g)));
          ("color", option_map (color_show L) (gl_color g)); ("name", gl_name g); ("identifier", gl_identifier g)]%string.
Definition component_written (c : glifcomponent) (e : element) : Prop :=
  leaf e ([("base", Some (c_base c)); ("identifier", c_identifier c)]%string ++ matrix_attributes (c_matrix c)).
Definition image_written (i : glifimage) (e : element) : Prop :=
  exists s, i_filename i = Utf8 s /\
    leaf e ([("fileName", Some s); ("identifier", i_identifier i)]%string ++ matrix_attributes (i_matrix i)).
(** The text of a `type` attribute. *)
Definition type_text (t : ptype) : option str :=
  match t with
  | Move => Some (lit "move") | Line => Some (lit "line") | Curve => Some (lit "curve") | QCurve => Some (lit "qcurve")
  | OffCurve => None | Undefined => Some (lit "undefined") | QClose => Some (lit "qclose")
  end.
Definition point_written (g : glifpoint) (e : element) : Prop :=
  leaf e [("x", Some (iof_show L (gx g))); ("y", Some (iof_show L (gy g))); ("type", type_text (gptype g));
          ("name", gname g); ("smooth", if gsmooth g then Some (lit "yes") else None)]%string.
(** The points of the element are those listed for the contour. *)
Definition contour_written (c : contour PD) (e : element) : Prop :=
  eattrs e = [] /\ echildren e = map NElem (named "point" e) /\
  exists gps, into_glifpoints L dbg (3 * length c + 3) c = Some (Ok gps) /\
    Forall2 point_written gps (named "point" e).
Definition utf8_name (i : glifimage) : bool := match i_filename i with Utf8 _ => true | NotUtf8 _ => false end.
Definition outline_written (o : option (outline PD)) (ks : list glifcomponent) (os : list element) : Prop :=
  let cs := match o with Some cs => cs | None => [] end in
  (cs = [] /\ ks = [] /\ os = []) \/
  ((cs <> [] \/ ks <> []) /\ exists e, os = [e] /\ eattrs e = [] /\
     echildren e = map NElem (named "contour" e ++ named "component" e) /\
     Forall2 contour_written cs (named "contour" e) /\ Forall2 component_written ks (named "component" e)).
Definition lib_written (l : lib PL) (ls : list element) : Prop :=
  match (match l with LNone => None | LXml x => Some x | LPlist d => element_of_plist P d end) with
  | None => ls = []
  | Some x => ls = [Element (lit "lib") [] (echildren x)]
  end.
Definition glyph_written (g : glif PD PL) (root : element) : Prop :=
  ename root = lit "glyph" /\
  attributes root [("name", Some (g_name g)); ("format", Some (lit "2"))]%string /\
  echildren root = map NElem (named "advance" root ++ named "unicode" root ++ named "anchor" root ++ named "outline" root ++
                              named "image" root ++ named "guideline" root ++ named "note" root ++ named "lib" root) /\
  match g_width g with
  | None => named "advance" root = []
  | Some w => exists e, named "advance" root = [e] /\ leaf e [("width", Some (show_dec w))]%string
  end /\
  Forall2 (fun c e => leaf e [("hex", Some (show_hex c))]%string) (g_unicode g) (named "unicode" root) /\
  Forall2 anchor_written (g_anchors g) (named "anchor" root) /\
  outline_written (g_outline g) (cs_vec (g_components g)) (named "outline" root) /\
  Forall2 image_written (filter utf8_name (g_images g)) (named "image" root) /\
  Forall2 guideline_written (g_guidelines g) (named "guideline" root) /\
  match g_note g with
  | None => named "note" root = []
  | Some n => named "note" root = [Element (lit "note") [] [NText n]]
  end /\
  lib_written (g_lib g) (named "lib" root).
End Written.

(** ** Repeated saving and loading *)
(** Writing the contour and reading it back gives [c']. *)
Definition stored {PD} (L : numlib) (dbg : bool) (c c' : contour PD) : Prop :=
  exists gps, into_glifpoints L dbg (3 * length c + 3) c = Some (Ok gps) /\ contour_of_glif L gps = Ok c'.
(** ... [k] times. *)
Inductive stored_times {PD} (L : numlib) (dbg : bool) : nat -> contour PD -> contour PD -> Prop :=
| stored_never c : stored_times L dbg 0 c c
| stored_again k c c1 c2 : stored L dbg c c1 -> stored_times L dbg k c1 c2 -> stored_times L dbg (S k) c c2.
(** The same closed contour, starting [k] points earlier. *)
Definition starting_earlier {A} (k : nat) (l l' : list A) : Prop :=
  exists m r, l = m ++ r /\ l' = r ++ m /\ length r = k mod length l.
