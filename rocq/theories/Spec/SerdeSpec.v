(** What a saved glyph needs to be loaded again, and what is lost on the way. *)
Require Import Coq.Strings.String Coq.Lists.List Coq.NArith.NArith Coq.ZArith.ZArith.
Require Import Verif.Model.Base Verif.Model.Text Verif.Model.Float Verif.Model.Num Verif.Model.Point
  Verif.Model.Contour Verif.Model.Names Verif.Model.Color Verif.Model.Xml Verif.Model.Parts Verif.Model.Component
  Verif.Model.Mpoint Verif.Model.Mfek Verif.Model.Serde.
Import ListNotations.

(** A float that JSON can hold: an f32 (f64) which is neither infinite nor NaN. *)
Definition f32_ok (x : f32) : Prop := valid32 x = true /\ is_finite x = true.
Definition f64_ok (x : f64) : Prop := is_finite x = true.
Definition iof_ok (i : iof) : Prop := match i with IInt _ => True | IFloat x => f32_ok x end.
Definition handle_ok (h : handle) : Prop := match h with At x y => f32_ok x /\ f32_ok y | Colocated => True end.
Definition color_ok (c : color) : Prop := iof_ok (cr c) /\ iof_ok (cg c) /\ iof_ok (cb c) /\ iof_ok (ca c).
Definition matrix_ok (m : glifmatrix) : Prop :=
  iof_ok (m_xScale m) /\ iof_ok (m_xyScale m) /\ iof_ok (m_yxScale m) /\ iof_ok (m_yScale m) /\
  iof_ok (m_xOffset m) /\ iof_ok (m_yOffset m).
Definition affine_ok (m : affine) : Prop :=
  f64_ok (c0 m) /\ f64_ok (c1 m) /\ f64_ok (c2 m) /\ f64_ok (c3 m) /\ f64_ok (c4 m) /\ f64_ok (c5 m).
(** Something said of the value of an option, if it has one. *)
Definition if_some {A} (P : A -> Prop) (o : option A) : Prop := forall x, o = Some x -> P x.
(** Any path: what some text is as a path. *)
Definition a_path (p : path) : Prop := exists s, path_of s = p.
Definition a_u64 (n : N) : Prop := (Z.of_N n < 2 ^ 64)%Z.
Definition a_u8 (n : N) : Prop := (Z.of_N n < 2 ^ 8)%Z.

Section Spec.
Context {PD PL : Type} (S : serdelib PD PL).

(** The types of other crates keep their values. *)
Record faithful : Prop := mkFaithful {
  keeps_data : forall d j, pd_en S d = Some j -> pd_de S j = Some d;
  keeps_iof : forall i, iof_ok i -> iof_de S (iof_en S i) = Some i;
  keeps_plist : forall d j, pl_en S d = Some j -> pl_de S j = Some d
}.
(** The types of other crates can be written. *)
Definition writable : Prop := (forall d, pd_en S d <> None) /\ (forall d, pl_en S d <> None).

(** Data of a point that is not written like no data. *)
Definition data_ok (o : option PD) : Prop := if_some (fun d => pd_en S d <> Some JNull) o.

Definition point_ok (p : point PD) : Prop :=
  f32_ok (px p) /\ f32_ok (py p) /\ handle_ok (pa p) /\ handle_ok (pb p) /\ data_ok (pdata p).
Definition qpoint_ok (p : qpoint PD) : Prop :=
  f32_ok (q_x p) /\ f32_ok (q_y p) /\ handle_ok (q_a p) /\ data_ok (q_data p).
Definition hpoint_ok (p : hpoint PD) : Prop :=
  f32_ok (h_x p) /\ f32_ok (h_y p) /\ handle_ok (h_a p) /\ handle_ok (h_b p) /\ data_ok (h_data p).
Definition anchor_ok (a : anchor PD) : Prop := f32_ok (an_x a) /\ f32_ok (an_y a).
Definition guideline_ok (g : guideline PD) : Prop :=
  f32_ok (gl_x g) /\ f32_ok (gl_y g) /\ iof_ok (gl_angle g) /\ if_some color_ok (gl_color g).
Definition glifcomponent_ok (c : glifcomponent) : Prop :=
  if_some a_path (c_filename c) /\ matrix_ok (c_matrix c).
Definition glifcomponents_ok (c : glifcomponents) : Prop :=
  Forall glifcomponent_ok (cs_vec c) /\ NoDup (cs_uniques c).
Definition glifimage_ok (i : glifimage) : Prop := matrix_ok (i_matrix i) /\ if_some color_ok (i_color i).
Definition rect_ok (r : comp_rect) : Prop :=
  f32_ok (r_minx r) /\ f32_ok (r_miny r) /\ f32_ok (r_maxx r) /\ f32_ok (r_maxy r).
Definition outline_ok (o : outline PD) : Prop := Forall (Forall point_ok) o.

(** A glyph all of whose numbers JSON can hold. *)
Definition glif_ok (g : glif PD PL) : Prop :=
  if_some outline_ok (g_outline g) /\ Forall anchor_ok (g_anchors g) /\ glifcomponents_ok (g_components g) /\
  Forall guideline_ok (g_guidelines g) /\ Forall glifimage_ok (g_images g) /\ if_some a_u64 (g_width g).

(** What is left of a glyph: all but its file name. *)
Definition glif_saved (g : glif PD PL) : glif PD PL :=
  mkGlif (g_outline g) (g_anchors g) (g_components g) (g_guidelines g) (g_images g) (g_width g) (g_unicode g)
         (g_name g) (g_note g) None (g_lib g).

(** * Operations, contours, layers *)

Definition vws_handle_ok (h : vws_handle) : Prop := f64_ok (vh_left h) /\ f64_ok (vh_right h) /\ f64_ok (vh_tangent h).
Definition vws_ok (v : vws) : Prop := Forall vws_handle_ok (v_handles v).
Definition cull_ok (c : dash_cull) : Prop := f32_ok (dc_width c) /\ f32_ok (dc_area_cutoff c).
Definition dash_ok (d : dash) : Prop :=
  f32_ok (d_stroke_width d) /\ if_some cull_ok (d_cull d) /\ Forall f32_ok (d_desc d) /\
  a_u8 (d_paint_join d) /\ a_u8 (d_paint_cap d).
(** All but the pattern. *)
Definition pap_ok {C} (p : pap C) : Prop :=
  match pp_subdivide p with SubOff => True | SubSimple n => a_u64 n | SubAngle a => f64_ok a end /\
  f64_ok (pp_spacing p) /\ f64_ok (pp_normal_offset p) /\ f64_ok (pp_tangent_offset p) /\
  f64_ok (fst (pp_pattern_scale p)) /\ f64_ok (snd (pp_pattern_scale p)) /\
  match pp_prevent_overdraw p with CullErase a b => f64_ok a /\ f64_ok b | _ => True end.
Definition inner_ok (i : inner PD) : Prop :=
  match i with Cubic l => Forall point_ok l | Quad l => Forall qpoint_ok l | Hyper l _ => Forall hpoint_ok l end.
(** Patterns within patterns, to any depth. *)
Inductive mcontour_ok : mcontour PD -> Prop :=
| contour_plain i : inner_ok i -> mcontour_ok (MC i None)
| contour_vws i v : inner_ok i -> vws_ok v -> mcontour_ok (MC i (Some (OpVws v)))
| contour_dash i d : inner_ok i -> dash_ok d -> mcontour_ok (MC i (Some (OpDash d)))
| contour_pap i p : inner_ok i -> pap_ok p -> (forall c, In c (pp_pattern p) -> mcontour_ok c) ->
    mcontour_ok (MC i (Some (OpPap p))).
Definition layer_ok (l : layer PD) : Prop :=
  if_some color_ok (l_color l) /\ Forall mcontour_ok (l_outline l) /\
  Forall (fun im => glifimage_ok (fst im) /\ affine_ok (snd im)) (l_images l).

(** All of an MFEK glyph but its history. *)
Definition mglif_ok {H} (m : mglif PD H) : Prop :=
  Forall layer_ok (mg_layers m) /\ Forall anchor_ok (mg_anchors m) /\ glifcomponents_ok (mg_components m) /\
  if_some outline_ok (mg_flattened m) /\ if_some (Forall rect_ok) (mg_component_rects m) /\
  Forall guideline_ok (mg_guidelines m) /\ if_some a_u64 (mg_width m).
(** Histories within histories, to any depth. *)
Inductive history_ok : history PD -> Prop :=
| entry_ok d li ci pi gl sel m :
    if_some a_u64 li -> if_some a_u64 ci -> if_some a_u64 pi -> Forall guideline_ok gl ->
    if_some (fun l => NoDup l /\ Forall (fun s => a_u64 (fst s) /\ a_u64 (snd s)) l) sel ->
    mglif_ok m -> (forall h, In h (mg_history m) -> history_ok h) ->
    history_ok (HEntry d li ci pi gl sel m).
Definition mfekglif_ok (m : mglif PD (history PD)) : Prop := mglif_ok m /\ Forall history_ok (mg_history m).

(** What is left of an MFEK glyph: the file names are lost, its own and those of the glyphs in its
    history. *)
Definition mglif_saved {H H'} (f : H -> H') (m : mglif PD H) : mglif PD H' :=
  mkMG H' (mg_layers m) (map f (mg_history m)) (mg_anchors m) (mg_components m) (mg_flattened m)
       (mg_component_rects m) (mg_guidelines m) (mg_width m) (mg_unicode m) (mg_name m) (mg_note m) None.
Fixpoint history_saved (h : history PD) : history PD :=
  let 'HEntry d li ci pi gl sel m := h in HEntry d li ci pi gl sel (mglif_saved history_saved m).
Definition mfekglif_saved (m : mglif PD (history PD)) : mglif PD (history PD) := mglif_saved history_saved m.

End Spec.

(** An image whose file name is not Unicode, in a layer of the glyph or of a glyph of its history. *)
Inductive unwritable_image {PD : Type} : mglif PD (history PD) -> Prop :=
| image_here m l im n :
    In l (mg_layers m) -> In im (l_images l) -> i_filename (fst im) = NotUtf8 n -> unwritable_image m
| image_in_history m d li ci pi gl sel m' :
    In (HEntry d li ci pi gl sel m') (mg_history m) -> unwritable_image m' -> unwritable_image m.

(** The six numbers of a matrix. *)
Definition matrix_numbers (m : glifmatrix) : list iof :=
  [m_xScale m; m_xyScale m; m_yxScale m; m_yScale m; m_xOffset m; m_yOffset m].
(** The floats of a glyph: coordinates of points, of their control points, of anchors and guidelines. *)
Inductive coordinate {PD PL : Type} (g : glif PD PL) : f32 -> Prop :=
| point_coordinate o c p x : g_outline g = Some o -> In c o -> In p c ->
    (x = px p \/ x = py p \/ (exists y, pa p = At x y \/ pa p = At y x \/ pb p = At x y \/ pb p = At y x)) ->
    coordinate g x
| anchor_coordinate a x : In a (g_anchors g) -> x = an_x a \/ x = an_y a -> coordinate g x
| guideline_coordinate l x : In l (g_guidelines g) -> x = gl_x l \/ x = gl_y l -> coordinate g x.

(** The other numbers of a glyph, which may be integers: angles, colors, matrices of components and images. *)
Inductive file_number {PD PL : Type} (g : glif PD PL) : iof -> Prop :=
| angle_number l : In l (g_guidelines g) -> file_number g (gl_angle l)
| guideline_color_number l c i : In l (g_guidelines g) -> gl_color l = Some c -> In i [cr c; cg c; cb c; ca c] -> file_number g i
| component_number c i : In c (cs_vec (g_components g)) -> In i (matrix_numbers (c_matrix c)) -> file_number g i
| image_number m i : In m (g_images g) -> In i (matrix_numbers (i_matrix m)) -> file_number g i
| image_color_number m c i : In m (g_images g) -> i_color m = Some c -> In i [cr c; cg c; cb c; ca c] -> file_number g i.
(** What the types of the fields of a glyph allow: floats of 32 bits, paths, a set, a number of 64 bits. *)
Definition typed_glif {PD PL : Type} (g : glif PD PL) : Prop :=
  (forall x, coordinate g x -> valid32 x = true) /\ (forall x, file_number g (IFloat x) -> valid32 x = true) /\
  (forall c p, In c (cs_vec (g_components g)) -> c_filename c = Some p -> a_path p) /\ NoDup (cs_uniques (g_components g)) /\
  (forall w, g_width g = Some w -> (w < 2 ^ 64)%N).
(** A point without its data, if these are written like no data; a glyph of such points. *)
Definition without_null {PD PL : Type} (S : serdelib PD PL) (p : point PD) : point PD :=
  mkPoint (px p) (py p) (pa p) (pb p) (pname p) (pptype p) (psmooth p)
    (match pdata p with Some d => match pd_en S d with Some JNull => None | _ => Some d end | None => None end).
Definition glif_without_null {PD PL : Type} (S : serdelib PD PL) (g : glif PD PL) : glif PD PL :=
  mkGlif (option_map (map (map (without_null S))) (g_outline g)) (g_anchors g) (g_components g) (g_guidelines g) (g_images g) (g_width g)
         (g_unicode g) (g_name g) (g_note g) (g_filename g) (g_lib g).

(** An object gives the fields it is asked for: two objects that agree on these names. *)
Definition agree (names : list string) (l l' : list (str * json)) : Prop :=
  forall n, In n names -> lookup (lit n) l = lookup (lit n) l'.

(** How a struct is read: [names] are its fields in order, [required] those that must be there,
    [defaults] what the others are taken to be if they are left out, [least] how many an array must give. *)
Record reads_struct {A : Type} (de : json -> option A) (names required : list string) (defaults : list (string * json)) (least : nat) : Prop := {
  (** without a required field it is an error *)
  missing_field : forall n l, In n required -> lookup (lit n) l = None -> de (JObj l) = None;
  (** leaving out another is as writing its default *)
  default_field : forall n d l, In (n, d) defaults -> lookup (lit n) l = None -> de (JObj l) = de (JObj ((lit n, d) :: l));
  (** nothing else in the object matters, nor the order *)
  only_fields : forall l l', agree names l l' -> de (JObj l) = de (JObj l');
  (** an array gives the fields in their order, those at its end left out *)
  by_place : forall l, (least <= List.length l <= List.length names)%nat -> de (JArr l) = de (JObj (combine (map lit names) l));
  too_few : forall l, (List.length l < least)%nat -> de (JArr l) = None;
  too_many : forall l, (List.length names < List.length l)%nat -> de (JArr l) = None;
  (** anything else is an error *)
  not_a_struct : forall j, (forall l, j <> JObj l) -> (forall l, j <> JArr l) -> de j = None
}.

(** How an enum of plain names is read: a name alone or with null. *)
Definition reads_names {A : Type} (de : json -> option A) (table : list (string * A)) : Prop :=
  forall j a, de j = Some a <-> exists n, In (n, a) table /\ (j = JStr (lit n) \/ j = JObj [(lit n, JNull)]).

(** How an enum is read some of whose variants carry a value. *)
Definition reads_variants {A : Type} (de : json -> option A) (names : list (string * A)) (carrying : list (string * (json -> option A))) : Prop :=
  forall j a, de j = Some a <->
    (exists n, In (n, a) names /\ (j = JStr (lit n) \/ j = JObj [(lit n, JNull)])) \/
    (exists n f v, In (n, f) carrying /\ j = JObj [(lit n, v)] /\ f v = Some a).
(** The value of a variant with one named field. *)
Definition named_data {A B : Type} (make : A -> B) (de : json -> option A) (v : json) : option B :=
  match v with
  | JObj l => match lookup (lit "data") l with Some d => option_map make (de d) | None => None end
  | _ => None
  end.
