(** Element trees as a user sees them, and what of a glyph a file can hold. *)
Require Import Coq.Strings.String Coq.Lists.List Coq.NArith.NArith Coq.ZArith.ZArith Coq.Floats.SpecFloat.
Require Import Verif.Model.Base Verif.Model.Text Verif.Model.Float Verif.Model.Num Verif.Model.Point Verif.Model.Names
  Verif.Model.Pedantry Verif.Model.Color Verif.Model.Xml Verif.Model.Parts Verif.Spec.TextSpec Verif.Spec.ContourSpec Verif.Spec.OutlineSpec.
Import ListNotations.

(** The child elements with a given name, in order. *)
Definition children_named (n : str) (c : list node) : list element :=
  flat_map (fun x => match x with
                     | NElem e => if list_eq_dec N.eq_dec (ename e) n then [e] else []
                     | _ => []
                     end) c.
Definition named (n : string) (e : element) : list element := children_named (lit n) (echildren e).

(** The elements a glyph is read from. *)
Definition kinds : list string :=
  ["advance"; "unicode"; "anchor"; "image"; "guideline"; "note"; "outline"; "lib"]%string.

(** The text in an element: what stands directly in it, as such or as CDATA, one after the other; none if nothing does. *)
Definition says_text (x : node) : option str := match x with NText s | NCData s => Some s | _ => None end.
Definition text_in (e : element) : option str :=
  if existsb (fun x => match says_text x with Some _ => true | None => false end) (echildren e)
  then Some (flat_map (fun x => match says_text x with Some s => s | None => [] end) (echildren e)) else None.

(** ** Trees with the same content *)
(** The same attributes, in any order. *)
Definition same_attributes (e e' : element) : Prop :=
  forall k, attr_get k (eattrs e) = attr_get k (eattrs e').
(** The children named [n] correspond one to one in order. *)
Definition each_alike (R : element -> element -> Prop) (n : string) (e e' : element) : Prop :=
  Forall2 R (named n e) (named n e').
Definition contour_alike (e e' : element) : Prop := each_alike same_attributes "point" e e'.
Definition outline_alike (e e' : element) : Prop :=
  each_alike contour_alike "contour" e e' /\ each_alike same_attributes "component" e e'.
Definition glyph_alike (e e' : element) : Prop :=
  ename e = ename e' /\ same_attributes e e' /\
  each_alike same_attributes "advance" e e' /\
  each_alike same_attributes "unicode" e e' /\
  each_alike same_attributes "anchor" e e' /\
  each_alike same_attributes "image" e e' /\
  each_alike same_attributes "guideline" e e' /\
  each_alike (fun n n' => text_in n = text_in n') "note" e e' /\
  each_alike outline_alike "outline" e e' /\
  each_alike eq "lib" e e'.

(** ** Widths *)
(** The integer part [k] of m * 2^e. *)
Definition integer_part (m : positive) (e k : Z) : Prop :=
  (k * 2 ^ Z.max 0 (- e) <= Zpos m * 2 ^ Z.max 0 e < (k + 1) * 2 ^ Z.max 0 (- e))%Z.
(** The float [f] cut to an integer and brought into the range of u64. *)
Definition cut_to_u64 (f : f32) (w : N) : Prop :=
  match f with
  | S754_finite false m e => exists k, integer_part m e k /\ Z.of_N w = Z.min k (2 ^ 64 - 1)
  | S754_infinity false => Z.of_N w = (2 ^ 64 - 1)%Z
  | _ => w = 0%N
  end.
(** Strict settings: the two sfnt levels with mending switched off. *)
Definition strict (p : pedantry) : Prop :=
  (ped_level p = LevelOpenType \/ ped_level p = LevelTrueType) /\ ped_mend p = MendNever.

(** ** Code points *)
Definition scalar (c : N) : Prop := (c < 55296 \/ 57344 <= c <= 1114111)%N.

(** ** Anchors *)
(** A usable class: not empty, no control characters. *)
Definition usable_class (s : str) : Prop := s <> [] /\ forall c, In c s -> ~ control c.
(** The nearest integer, halves away from zero, with the sign of [f]. *)
Definition rounded (f r : f32) : Prop :=
  match f with
  | S754_finite s m e =>
      if (0 <=? e)%Z then r = f
      else exists n, (0 <= n /\ (2 * n - 1) * 2 ^ (- e) <= 2 * Zpos m < (2 * n + 1) * 2 ^ (- e))%Z /\
             r = (if (n =? 0)%Z then S754_zero s else f32_of_Z (if s then - n else n)%Z)
  | _ => r = f
  end.

(** ** What reading a written glyph gives back *)
Section Restored.
Context (L : numlib) {PD PL : Type} (pd0 : PD) (P : plistlib PL).

(** Numbers that are read back with the value they were written with. *)
Definition same_number (i j : iof) : Prop :=
  match i, j with IInt y, IInt z => y = z | _, _ => f32_of_iof i = f32_of_iof j end.
Definition legible (i : iof) : Prop := exists j, iof_read L (iof_show L i) = Some j /\ same_number j i.
Definition legible_anchor_f32 (f : f32) : Prop := option_map f32_of_iof (iof_read L (f32_show L f)) = Some f.
Definition legible_f32 (f : f32) : Prop := f32_read L (f32_show L f) = Some f.

Definition legible_color (c : color) : Prop :=
  forall i, In i [cr c; cg c; cb c; ca c] -> legible i /\ ~ In comma (iof_show L i).
Definition same_color (c d : option color) : Prop :=
  match c, d with
  | Some c, Some d => Forall2 same_number [cr c; cg c; cb c; ca c] [cr d; cg d; cb d; ca d]
  | None, None => True
  | _, _ => False
  end.

Definition members (m : glifmatrix) : list iof :=
  [m_xScale m; m_xyScale m; m_yxScale m; m_yScale m; m_xOffset m; m_yOffset m].
Definition same_matrix (m m' : glifmatrix) : Prop := Forall2 same_number (members m) (members m').

Definition anchor_ok (a : anchor PD) : Prop :=
  legible_anchor_f32 (an_x a) /\ legible_anchor_f32 (an_y a) /\
  (forall s, an_class a = Some s -> usable_class s) /\
  an_type a = (match an_class a with Some (95%N :: _) => AMark | _ => ABase end).
Definition anchor_restored (a a' : anchor PD) : Prop :=
  an_x a' = an_x a /\ an_y a' = an_y a /\ an_class a' = an_class a /\ an_type a' = an_type a.

Definition guideline_ok (g : guideline PD) : Prop :=
  legible_f32 (gl_x g) /\ legible_f32 (gl_y g) /\ legible (gl_angle g) /\
  (forall c, gl_color g = Some c -> legible_color c).
Definition guideline_restored (g g' : guideline PD) : Prop :=
  gl_x g' = gl_x g /\ gl_y g' = gl_y g /\ same_number (gl_angle g') (gl_angle g) /\
  gl_name g' = gl_name g /\ same_color (gl_color g') (gl_color g) /\ gl_identifier g' = gl_identifier g.

Definition component_ok (c : glifcomponent) : Prop := Forall legible (members (c_matrix c)).
Definition component_restored (c c' : glifcomponent) : Prop :=
  c_base c' = c_base c /\ same_matrix (c_matrix c') (c_matrix c) /\ c_identifier c' = c_identifier c.

(** An image with a file name that can be written. *)
Definition image_ok (i : glifimage) : Prop := (forall s, i_filename i <> NotUtf8 s) /\ Forall legible (members (i_matrix i)).
Definition image_restored (i i' : glifimage) : Prop :=
  i_filename i' = i_filename i /\ same_matrix (i_matrix i') (i_matrix i) /\ i_identifier i' = i_identifier i.

(** The property list crate reads back what it wrote (and fails again on what it failed). *)
Definition lib_ok (l : lib PL) : Prop :=
  match l with
  | LNone => True
  | LPlist d => exists e, element_of_plist P d = Some e /\
                  plist_of_element P (Element (lit "plist") [] (echildren e)) = PlOk d
  | LXml e => plist_of_element P (Element (lit "plist") [] (echildren e)) = PlWriteError
  end.
Definition lib_restored (l l' : lib PL) : Prop :=
  match l, l' with
  | LNone, LNone => True
  | LPlist d, LPlist d' => d = d'
  | LXml e, LXml e' => echildren e = echildren e'
  | _, _ => False
  end.

Definition coordinates (p : point PD) : list f32 :=
  [px p; py p] ++ match pa p with At x y => [x; y] | Colocated => [] end
               ++ match pb p with At x y => [x; y] | Colocated => [] end.
Definition contour_ok (c : list (point PD)) : Prop :=
  cubic_contour_form c /\ forall p f, In p c -> In f (coordinates p) -> legible (iof_of_f32 L f).
Definition contour_restored (c c' : list (point PD)) : Prop :=
  (forall p t, c = p :: t -> pptype p <> Curve -> stored_as c c') /\
  (forall p t, c = p :: t -> pptype p = Curve -> exists c1, one_earlier c c1 /\ stored_as c1 c').

Definition contours (g : glif PD PL) : list (list (point PD)) :=
  match g_outline g with Some o => o | None => [] end.

Definition glyph_ok (g : glif PD PL) : Prop :=
  (forall w, g_width g = Some w -> (w < 2 ^ 64)%N) /\
  Forall scalar (g_unicode g) /\
  Forall anchor_ok (g_anchors g) /\
  Forall guideline_ok (g_guidelines g) /\
  Forall component_ok (cs_vec (g_components g)) /\
  Forall image_ok (g_images g) /\
  lib_ok (g_lib g) /\
  Forall contour_ok (contours g).

Definition glyph_restored (g g' : glif PD PL) : Prop :=
  g_name g' = g_name g /\
  g_width g' = g_width g /\
  g_unicode g' = g_unicode g /\
  Forall2 anchor_restored (g_anchors g) (g_anchors g') /\
  Forall2 guideline_restored (g_guidelines g) (g_guidelines g') /\
  Forall2 component_restored (cs_vec (g_components g)) (cs_vec (g_components g')) /\
  Forall2 image_restored (g_images g) (g_images g') /\
  g_note g' = g_note g /\
  lib_restored (g_lib g) (g_lib g') /\
  Forall2 contour_restored (contours g) (contours g').
End Restored.
