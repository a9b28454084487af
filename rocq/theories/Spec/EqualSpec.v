(** When two glyphs are equal. *)
Require Import Coq.Lists.List Coq.NArith.NArith Coq.ZArith.ZArith Coq.Floats.SpecFloat.
Require Import Verif.Model.Base Verif.Model.Text Verif.Model.Float Verif.Model.Num Verif.Model.Point
  Verif.Model.Contour Verif.Model.Names Verif.Model.Color Verif.Model.Xml Verif.Model.Parts Verif.Spec.GlyphSpec Verif.Spec.OpenSpec.
Import ListNotations.

(** Floats: no NaN equals anything, the two zeros are equal. *)
Definition same_float (a b : f32) : Prop :=
  match a, b with
  | S754_nan, _ | _, S754_nan => False
  | S754_zero _, S754_zero _ => True
  | _, _ => a = b
  end.
Definition both {A} (R : A -> A -> Prop) (a b : option A) : Prop :=
  match a, b with Some a, Some b => R a b | None, None => True | _, _ => False end.
Definition same_handle (a b : handle) : Prop :=
  match a, b with
  | At x y, At x' y' => same_float x x' /\ same_float y y'
  | Colocated, Colocated => True
  | _, _ => False
  end.

Section Same.
(** [num], [data], [pl], [el], [os]: when two numbers, users' data, property lists, XML elements and
    image file names are equal. *)
Context {PD PL : Type} (num : iof -> iof -> Prop) (data : PD -> PD -> Prop) (pl : PL -> PL -> Prop)
        (el : element -> element -> Prop) (os : osstr -> osstr -> Prop).

Definition same_point (p q : point PD) : Prop :=
  same_float (px p) (px q) /\ same_float (py p) (py q) /\ same_handle (pa p) (pa q) /\ same_handle (pb p) (pb q) /\
  pname p = pname q /\ pptype p = pptype q /\ psmooth p = psmooth q /\ both data (pdata p) (pdata q).
Definition same_anchor (a b : anchor PD) : Prop :=
  same_float (an_x a) (an_x b) /\ same_float (an_y a) (an_y b) /\ an_class a = an_class b /\
  data (an_data a) (an_data b) /\ an_type a = an_type b.
Definition color_members (c : color) : list iof := [cr c; cg c; cb c; ca c].
Definition equal_color (a b : color) : Prop := Forall2 num (color_members a) (color_members b).
Definition equal_matrix (a b : glifmatrix) : Prop := Forall2 num (members a) (members b).
Definition same_guideline (a b : guideline PD) : Prop :=
  same_float (gl_x a) (gl_x b) /\ same_float (gl_y a) (gl_y b) /\ num (gl_angle a) (gl_angle b) /\
  gl_name a = gl_name b /\ both equal_color (gl_color a) (gl_color b) /\ gl_identifier a = gl_identifier b /\
  data (gl_data a) (gl_data b).
Definition same_component (a b : glifcomponent) : Prop :=
  c_base a = c_base b /\ c_filename a = c_filename b /\ equal_matrix (c_matrix a) (c_matrix b) /\ c_identifier a = c_identifier b.
Definition same_image (a b : glifimage) : Prop :=
  os (i_filename a) (i_filename b) /\ equal_matrix (i_matrix a) (i_matrix b) /\ i_identifier a = i_identifier b /\
  both equal_color (i_color a) (i_color b).
Definition same_lib (a b : lib PL) : Prop :=
  match a, b with
  | LNone, LNone => True
  | LPlist d, LPlist d' => pl d d'
  | LXml e, LXml e' => el e e'
  | _, _ => False
  end.
Definition same_glyph (a b : glif PD PL) : Prop :=
  both (Forall2 (Forall2 same_point)) (g_outline a) (g_outline b) /\
  Forall2 same_anchor (g_anchors a) (g_anchors b) /\
  (cs_root (g_components a) = cs_root (g_components b) /\
   Forall2 same_component (cs_vec (g_components a)) (cs_vec (g_components b)) /\
   forall s, In s (cs_uniques (g_components a)) <-> In s (cs_uniques (g_components b))) /\
  Forall2 same_guideline (g_guidelines a) (g_guidelines b) /\
  Forall2 same_image (g_images a) (g_images b) /\
  g_width a = g_width b /\ g_unicode a = g_unicode b /\ g_name a = g_name b /\ g_note a = g_note b /\
  g_filename a = g_filename b /\ same_lib (g_lib a) (g_lib b).
End Same.

(** The floats of a glyph, and its numbers that may be integers. *)
Definition floats {PD PL} (g : glif PD PL) : list f32 :=
  flat_map coordinates (concat (contours g)) ++
  flat_map (fun a => [an_x a; an_y a]) (g_anchors g) ++
  flat_map (fun l => [gl_x l; gl_y l]) (g_guidelines g).
Definition mixed_numbers {PD PL} (g : glif PD PL) : list iof :=
  flat_map (fun l => gl_angle l :: numbers_of_color (gl_color l)) (g_guidelines g) ++
  flat_map (fun c => members (c_matrix c)) (cs_vec (g_components g)) ++
  flat_map (fun i => members (i_matrix i) ++ numbers_of_color (i_color i)) (g_images g).
(** A number of the glyph is NaN. *)
Definition has_nan {PD PL} (g : glif PD PL) : Prop := In S754_nan (floats g) \/ In (IFloat S754_nan) (mixed_numbers g).
(** The set of component names is a set. *)
Definition proper_set {PD PL} (g : glif PD PL) : Prop := NoDup (cs_uniques (g_components g)).
(** Numbers that may be integers: two integers as such, others as floats. *)
Definition equal_number (i j : iof) : Prop :=
  match i, j with IInt y, IInt z => y = z | _, _ => same_float (f32_of_iof i) (f32_of_iof j) end.
(** An integer that is also a 32-bit float. *)
Definition small (i : iof) : Prop := match i with IInt z => (Z.abs z <= 2 ^ 24)%Z | IFloat _ => True end.
