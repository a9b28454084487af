(** A glyph without the minus signs of its zeros. *)
Require Import Coq.Lists.List Coq.Floats.SpecFloat.
Require Import Verif.Model.Base Verif.Model.Float Verif.Model.Num Verif.Model.Point Verif.Model.Color Verif.Model.Parts.
Import ListNotations.

(** The number, without the minus sign if it is a zero. *)
Definition plus (f : f32) : f32 := match f with S754_zero _ => S754_zero false | _ => f end.
Definition plus_number (i : iof) : iof := match i with IInt z => IInt z | IFloat f => IFloat (plus f) end.

Definition plus_color (c : color) : color :=
  mkColor (plus_number (cr c)) (plus_number (cg c)) (plus_number (cb c)) (plus_number (ca c)).
Definition plus_matrix (m : glifmatrix) : glifmatrix :=
  mkMatrix (plus_number (m_xScale m)) (plus_number (m_xyScale m)) (plus_number (m_yxScale m))
           (plus_number (m_yScale m)) (plus_number (m_xOffset m)) (plus_number (m_yOffset m)).
Definition plus_handle (h : handle) : handle :=
  match h with Colocated => Colocated | At x y => At (plus x) (plus y) end.
Definition plus_component (c : glifcomponent) : glifcomponent :=
  mkComponent (c_base c) (c_filename c) (plus_matrix (c_matrix c)) (c_identifier c).
Definition plus_image (i : glifimage) : glifimage :=
  mkImage (i_filename i) (plus_matrix (i_matrix i)) (i_identifier i) (i_color i).

Section Zero.
Context {PD PL : Type}.
Definition plus_point (p : point PD) : point PD :=
  mkPoint (plus (px p)) (plus (py p)) (plus_handle (pa p)) (plus_handle (pb p)) (pname p) (pptype p) (psmooth p) (pdata p).
Definition plus_anchor (a : anchor PD) : anchor PD :=
  mkAnchor (plus (an_x a)) (plus (an_y a)) (an_class a) (an_data a) (an_type a).
(** The coordinates of a guideline keep their signs. *)
Definition plus_guideline (g : guideline PD) : guideline PD :=
  mkGuideline (gl_x g) (gl_y g) (plus_number (gl_angle g)) (gl_name g) (option_map plus_color (gl_color g)) (gl_identifier g) (gl_data g).
Definition plus_zeros (g : glif PD PL) : glif PD PL :=
  mkGlif (option_map (map (map plus_point)) (g_outline g)) (map plus_anchor (g_anchors g))
         (mkComponents (cs_root (g_components g)) (map plus_component (cs_vec (g_components g))) (cs_uniques (g_components g)))
         (map plus_guideline (g_guidelines g)) (map plus_image (g_images g))
         (g_width g) (g_unicode g) (g_name g) (g_note g) (g_filename g) (g_lib g).
End Zero.
