(** Comparing glyphs: the derived `PartialEq` of glyphs and their parts.  A derived `==` compares
    the fields in order; `Option` and `Vec` compare their elements, `HashSet` its members.
    src/glif.rs L41-69, src/point.rs L67-71, L142-157, src/anchor.rs L46-56, src/component.rs L26-49,
    src/guideline.rs L16-37, src/color.rs L9-15, src/image.rs L86-97, src/glif/lib.rs L7-16. *)
Require Import Coq.Lists.List Coq.NArith.NArith Coq.Bool.Bool Coq.Floats.SpecFloat.
Require Import Verif.Model.Base Verif.Model.Text Verif.Model.Float Verif.Model.Num Verif.Model.Point
  Verif.Model.Contour Verif.Model.Names Verif.Model.Color Verif.Model.Xml Verif.Model.Parts.
Import ListNotations.

(** `PartialEq` of `Option`, as used for src/point.rs L151. *)
Definition opt_eqb {A} (eq : A -> A -> bool) (a b : option A) : bool :=
  match a, b with Some a, Some b => eq a b | None, None => true | _, _ => false end.
(** `PartialEq` of `Vec`, as used for src/glif.rs L44. *)
Definition list_eqb {A} (eq : A -> A -> bool) : list A -> list A -> bool :=
  fix list_eqb (a b : list A) : bool :=
  match a, b with
  | [], [] => true
  | x :: a, y :: b => eq x y && list_eqb a b
  | _, _ => false
  end.
(** `PartialEq` of `HashSet<String>` (src/component.rs L48): as many members, each of them in the
    other.  The sets are lists without repetitions. *)
Definition set_eqb (a b : list str) : bool :=
  Nat.eqb (length a) (length b) && forallb (fun s => existsb (str_eqb s) b) a.

(** src/point.rs L67-71 *)
Definition handle_eqb (a b : handle) : bool :=
  match a, b with
  | At x y, At x' y' => feq x x' && feq y y'
  | Colocated, Colocated => true
  | _, _ => false
  end.
(** src/anchor.rs L17-23 *)
Definition anchor_type_eqb (a b : anchor_type) : bool :=
  match a, b with AMark, AMark | ABase, ABase => true | _, _ => false end.

Section Equal.
(** Simplification: the comparison of the user's data, of property lists, of XML elements (of other
    crates) and of file names of images are parameters. *)
Context (L : numlib) {PD PL : Type} (pd_eqb : PD -> PD -> bool) (pl_eqb : PL -> PL -> bool)
        (el_eqb : element -> element -> bool) (os_eqb : osstr -> osstr -> bool).

(** src/point.rs L142-157 *)
Definition point_eqb (p q : point PD) : bool :=
  feq (px p) (px q) && feq (py p) (py q) && handle_eqb (pa p) (pa q) && handle_eqb (pb p) (pb q) &&
  opt_eqb str_eqb (pname p) (pname q) && ptype_eqb (pptype p) (pptype q) && Bool.eqb (psmooth p) (psmooth q) &&
  opt_eqb pd_eqb (pdata p) (pdata q).
(** src/anchor.rs L46-56 *)
Definition anchor_eqb (a b : anchor PD) : bool :=
  feq (an_x a) (an_x b) && feq (an_y a) (an_y b) && opt_eqb str_eqb (an_class a) (an_class b) &&
  pd_eqb (an_data a) (an_data b) && anchor_type_eqb (an_type a) (an_type b).
(** src/color.rs L9-15 *)
Definition color_eqb (a b : color) : bool :=
  iof_eqb L (cr a) (cr b) && iof_eqb L (cg a) (cg b) && iof_eqb L (cb a) (cb b) && iof_eqb L (ca a) (ca b).
(** src/guideline.rs L16-20, L29-37 *)
Definition guideline_eqb (a b : guideline PD) : bool :=
  feq (gl_x a) (gl_x b) && feq (gl_y a) (gl_y b) && iof_eqb L (gl_angle a) (gl_angle b) &&
  opt_eqb str_eqb (gl_name a) (gl_name b) && opt_eqb color_eqb (gl_color a) (gl_color b) &&
  opt_eqb str_eqb (gl_identifier a) (gl_identifier b) && pd_eqb (gl_data a) (gl_data b).
(** The six numbers of src/component.rs L30-35 and src/image.rs L89-94. *)
Definition matrix_eqb (a b : glifmatrix) : bool :=
  iof_eqb L (m_xScale a) (m_xScale b) && iof_eqb L (m_xyScale a) (m_xyScale b) &&
  iof_eqb L (m_yxScale a) (m_yxScale b) && iof_eqb L (m_yScale a) (m_yScale b) &&
  iof_eqb L (m_xOffset a) (m_xOffset b) && iof_eqb L (m_yOffset a) (m_yOffset b).
(** src/component.rs L26-37; paths compare by their components. *)
Definition component_eqb (a b : glifcomponent) : bool :=
  str_eqb (c_base a) (c_base b) && opt_eqb (list_eqb str_eqb) (c_filename a) (c_filename b) &&
  matrix_eqb (c_matrix a) (c_matrix b) && opt_eqb str_eqb (c_identifier a) (c_identifier b).
(** src/component.rs L40-49 *)
Definition components_eqb (a b : glifcomponents) : bool :=
  str_eqb (cs_root a) (cs_root b) && list_eqb component_eqb (cs_vec a) (cs_vec b) && set_eqb (cs_uniques a) (cs_uniques b).
(** src/image.rs L86-97 *)
Definition image_eqb (a b : glifimage) : bool :=
  os_eqb (i_filename a) (i_filename b) && matrix_eqb (i_matrix a) (i_matrix b) &&
  opt_eqb str_eqb (i_identifier a) (i_identifier b) && opt_eqb color_eqb (i_color a) (i_color b).
(** src/glif/lib.rs L7-16 *)
Definition lib_eqb (a b : lib PL) : bool :=
  match a, b with
  | LNone, LNone => true
  | LPlist d, LPlist d' => pl_eqb d d'
  | LXml e, LXml e' => el_eqb e e'
  | _, _ => false
  end.
(** src/glif.rs L41-69 *)
Definition glif_eqb (a b : glif PD PL) : bool :=
  opt_eqb (list_eqb (list_eqb point_eqb)) (g_outline a) (g_outline b) &&
  list_eqb anchor_eqb (g_anchors a) (g_anchors b) &&
  components_eqb (g_components a) (g_components b) &&
  list_eqb guideline_eqb (g_guidelines a) (g_guidelines b) &&
  list_eqb image_eqb (g_images a) (g_images b) &&
  opt_eqb N.eqb (g_width a) (g_width b) &&
  list_eqb N.eqb (g_unicode a) (g_unicode b) &&
  str_eqb (g_name a) (g_name b) &&
  opt_eqb str_eqb (g_note a) (g_note b) &&
  opt_eqb (list_eqb str_eqb) (g_filename a) (g_filename b) &&
  lib_eqb (g_lib a) (g_lib b).
End Equal.
