(** What the types of an MFEK glyph allow, and what is lost of its points' data when it is saved. *)
Require Import Coq.Lists.List Coq.NArith.NArith Coq.ZArith.ZArith Coq.Floats.SpecFloat.
Require Import Verif.Model.Base Verif.Model.Text Verif.Model.Float Verif.Model.Num Verif.Model.Point
  Verif.Model.Contour Verif.Model.Names Verif.Model.Color Verif.Model.Parts Verif.Model.Component
  Verif.Model.Mpoint Verif.Model.Mfek Verif.Model.Serde Verif.Spec.GlyphSpec Verif.Spec.OpenSpec Verif.Spec.EqualSpec
  Verif.Spec.EqualMfekSpec Verif.Spec.SerdeSpec.
Import ListNotations.

(** ** What the types allow: floats of 32 bits, paths, sets, numbers of 8 and of 64 bits. *)
Definition all32 (l : list spec_float) : Prop := forall x, In x l -> valid32 x = true.
Definition numbers32 (l : list iof) : Prop := forall x, In (IFloat x) l -> valid32 x = true.
(** Contours, with the contours of their patterns. *)
Inductive typed_contour {PD} : mcontour PD -> Prop :=
| typed_contour_intro i o : all32 (inner_floats i) ->
    (forall d, o = Some (OpDash d) -> all32 (dash_floats d) /\ a_u8 (d_paint_join d) /\ a_u8 (d_paint_cap d)) ->
    (forall p n, o = Some (OpPap p) -> pp_subdivide p = SubSimple n -> a_u64 n) ->
    (forall p c, o = Some (OpPap p) -> In c (pp_pattern p) -> typed_contour c) -> typed_contour (MC i o).
Definition typed_guideline {PD} (l : guideline PD) : Prop :=
  all32 [gl_x l; gl_y l] /\ numbers32 (gl_angle l :: numbers_of_color (gl_color l)).
Definition typed_layer {PD} (l : layer PD) : Prop :=
  numbers32 (numbers_of_color (l_color l)) /\ Forall typed_contour (l_outline l) /\
  Forall (fun im => numbers32 (members (i_matrix (fst im)) ++ numbers_of_color (i_color (fst im)))) (l_images l).
(** All of an MFEK glyph but its history. *)
Definition typed_now {PD H} (m : mglif PD H) : Prop :=
  Forall typed_layer (mg_layers m) /\ (forall a, In a (mg_anchors m) -> all32 [an_x a; an_y a]) /\
  (forall c, In c (cs_vec (mg_components m)) -> numbers32 (members (c_matrix c)) /\ if_some a_path (c_filename c)) /\
  NoDup (cs_uniques (mg_components m)) /\
  (forall o c p, mg_flattened m = Some o -> In c o -> In p c -> all32 (coordinates p)) /\
  (forall rs r, mg_component_rects m = Some rs -> In r rs -> all32 (rect_floats r)) /\
  Forall typed_guideline (mg_guidelines m) /\ if_some a_u64 (mg_width m).
Inductive typed_entry {PD} : history PD -> Prop :=
| typed_entry_intro d li ci pi gl sel m :
    if_some a_u64 li -> if_some a_u64 ci -> if_some a_u64 pi -> Forall typed_guideline gl ->
    if_some (fun l => NoDup l /\ Forall (fun s => a_u64 (fst s) /\ a_u64 (snd s)) l) sel ->
    typed_now m -> (forall h, In h (mg_history m) -> typed_entry h) -> typed_entry (HEntry d li ci pi gl sel m).
Definition typed_mfek {PD} (m : mglif PD (history PD)) : Prop := typed_now m /\ forall h, In h (mg_history m) -> typed_entry h.

(** ** Points without their data, if these are written like no data. *)
Section WithoutNull.
Context {PD PL : Type} (S : serdelib PD PL).
Definition data_without_null (o : option PD) : option PD :=
  match o with Some d => match pd_en S d with Some JNull => None | _ => Some d end | None => None end.
Definition q_without_null (p : qpoint PD) : qpoint PD :=
  mkQ (q_x p) (q_y p) (q_a p) (q_name p) (q_ptype p) (q_smooth p) (data_without_null (q_data p)).
Definition h_without_null (p : hpoint PD) : hpoint PD :=
  mkH (h_x p) (h_y p) (h_a p) (h_b p) (h_kind p) (h_smooth p) (data_without_null (h_data p)).
Definition inner_without_null (i : inner PD) : inner PD :=
  match i with
  | Cubic c => Cubic (map (without_null S) c)
  | Quad c => Quad (map q_without_null c)
  | Hyper c o => Hyper (map h_without_null c) o
  end.
(** A pattern whose contours are changed. *)
Definition pap_map {C} (f : C -> C) (p : pap C) : pap C :=
  mkPap C (map f (pp_pattern p)) (pp_copies p) (pp_subdivide p) (pp_is_vertical p) (pp_stretch p) (pp_spacing p) (pp_simplify p)
    (pp_normal_offset p) (pp_tangent_offset p) (pp_pattern_scale p) (pp_center_pattern p) (pp_prevent_overdraw p) (pp_two_pass_culling p)
    (pp_reverse_path p) (pp_reverse_culling p) (pp_warp_pattern p) (pp_split_path p).
Fixpoint contour_without_null (c : mcontour PD) : mcontour PD :=
  let 'MC i o := c in
  MC (inner_without_null i)
     (match o with Some (OpPap p) => Some (OpPap (pap_map contour_without_null p)) | o => o end).
Definition layer_without_null (l : layer PD) : layer PD :=
  mkLayer (l_name l) (l_visible l) (l_color l) (map contour_without_null (l_outline l)) (l_operation l) (l_images l).
Definition mglif_without_null {H} (f : H -> H) (m : mglif PD H) : mglif PD H :=
  mkMG H (map layer_without_null (mg_layers m)) (map f (mg_history m)) (mg_anchors m) (mg_components m)
       (option_map (map (map (without_null S))) (mg_flattened m)) (mg_component_rects m) (mg_guidelines m) (mg_width m) (mg_unicode m)
       (mg_name m) (mg_note m) (mg_filename m).
Fixpoint entry_without_null (h : history PD) : history PD :=
  let 'HEntry d li ci pi gl sel m := h in HEntry d li ci pi gl sel (mglif_without_null entry_without_null m).
Definition mfek_without_null (m : mglif PD (history PD)) : mglif PD (history PD) := mglif_without_null entry_without_null m.
End WithoutNull.
