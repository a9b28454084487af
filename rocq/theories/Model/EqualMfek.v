(** Comparing MFEK glyphs: the derived `PartialEq` of MFEK glyphs and their parts.
    src/glif/mfek/mod.rs L33-52, L124-133, L176-182, src/glif/mfek/layer.rs L15-23,
    src/glif/mfek/contour.rs L18-22, src/glif/mfek/inner/mod.rs L10-15, src/glif/mfek/inner/hyper.rs L6-10,
    src/glif/mfek/point/quad.rs L10-23, src/glif/mfek/point/hyper.rs L9-22, L141-146,
    src/glif/mfek/contour_operations/. *)
Require Import Coq.Lists.List Coq.NArith.NArith Coq.Bool.Bool Coq.Floats.SpecFloat.
Require Import Verif.Model.Base Verif.Model.Text Verif.Model.Float Verif.Model.Num Verif.Model.Point
  Verif.Model.Contour Verif.Model.Names Verif.Model.Color Verif.Model.Xml Verif.Model.Parts Verif.Model.Component
  Verif.Model.Mpoint Verif.Model.Mfek Verif.Model.Serde Verif.Model.Equal.
Import ListNotations.

(** src/glif/mfek/contour_operations/vws.rs L87-93 *)
Definition join_eqb (a b : join_type) : bool :=
  match a, b with JBevel, JBevel | JMiter, JMiter | JCircle, JCircle | JRound, JRound => true | _, _ => false end.
(** src/glif/mfek/contour_operations/vws.rs L119-125 *)
Definition cap_eqb (a b : cap_type) : bool :=
  match a, b with CapCustom, CapCustom | CapSquare, CapSquare | CapCircle, CapCircle | CapRound, CapRound => true | _, _ => false end.
(** src/glif/mfek/contour_operations/vws.rs L157-161 *)
Definition interpolation_eqb (a b : interpolation) : bool :=
  match a, b with INull, INull | ILinear, ILinear => true | _, _ => false end.
(** src/glif/mfek/contour_operations/vws.rs L79-85 *)
Definition vws_handle_eqb (a b : vws_handle) : bool :=
  feq (vh_left a) (vh_left b) && feq (vh_right a) (vh_right b) && feq (vh_tangent a) (vh_tangent b) &&
  interpolation_eqb (vh_interpolation a) (vh_interpolation b).
(** src/glif/mfek/contour_operations/vws.rs L8-16 *)
Definition vws_eqb (a b : vws) : bool :=
  list_eqb vws_handle_eqb (v_handles a) (v_handles b) && join_eqb (v_join a) (v_join b) &&
  cap_eqb (v_cap_start a) (v_cap_start b) && cap_eqb (v_cap_end a) (v_cap_end b) &&
  Bool.eqb (v_remove_internal a) (v_remove_internal b) && Bool.eqb (v_remove_external a) (v_remove_external b).
(** src/glif/mfek/contour_operations/dash.rs L5-9 *)
Definition cull_eqb (a b : dash_cull) : bool :=
  feq (dc_width a) (dc_width b) && feq (dc_area_cutoff a) (dc_area_cutoff b).
(** src/glif/mfek/contour_operations/dash.rs L11-19 *)
Definition dash_eqb (a b : dash) : bool :=
  feq (d_stroke_width a) (d_stroke_width b) && opt_eqb cull_eqb (d_cull a) (d_cull b) &&
  list_eqb feq (d_desc a) (d_desc b) && Bool.eqb (d_include_last_path a) (d_include_last_path b) &&
  N.eqb (d_paint_join a) (d_paint_join b) && N.eqb (d_paint_cap a) (d_paint_cap b).
(** src/glif/mfek/contour_operations/pap.rs L8-12 *)
Definition copies_eqb (a b : pattern_copies) : bool :=
  match a, b with PSingle, PSingle | PRepeated, PRepeated => true | _, _ => false end.
(** src/glif/mfek/contour_operations/pap.rs L14-22 *)
Definition subdivide_eqb (a b : pattern_subdivide) : bool :=
  match a, b with
  | SubOff, SubOff => true
  | SubSimple n, SubSimple m => N.eqb n m
  | SubAngle x, SubAngle y => feq x y
  | _, _ => false
  end.
(** src/glif/mfek/contour_operations/pap.rs L25-33 *)
Definition culling_eqb (a b : pattern_culling) : bool :=
  match a, b with
  | CullOff, CullOff | CullRemove, CullRemove => true
  | CullErase x y, CullErase x' y' => feq x x' && feq y y'
  | _, _ => false
  end.
(** src/glif/mfek/contour_operations/pap.rs L44-51 *)
Definition stretch_eqb (a b : pattern_stretch) : bool :=
  match a, b with
  | StretchOff, StretchOff | StretchOn, StretchOn | StretchSpacing, StretchSpacing => true
  | _, _ => false
  end.
(** src/glif/mfek/contour_operations/pap.rs L53-72; [eq] compares contours. *)
Definition pap_eqb {C} (eq : C -> C -> bool) (a b : pap C) : bool :=
  list_eqb eq (pp_pattern a) (pp_pattern b) && copies_eqb (pp_copies a) (pp_copies b) &&
  subdivide_eqb (pp_subdivide a) (pp_subdivide b) && Bool.eqb (pp_is_vertical a) (pp_is_vertical b) &&
  stretch_eqb (pp_stretch a) (pp_stretch b) && feq (pp_spacing a) (pp_spacing b) &&
  Bool.eqb (pp_simplify a) (pp_simplify b) && feq (pp_normal_offset a) (pp_normal_offset b) &&
  feq (pp_tangent_offset a) (pp_tangent_offset b) &&
  (feq (fst (pp_pattern_scale a)) (fst (pp_pattern_scale b)) && feq (snd (pp_pattern_scale a)) (snd (pp_pattern_scale b))) &&
  Bool.eqb (pp_center_pattern a) (pp_center_pattern b) && culling_eqb (pp_prevent_overdraw a) (pp_prevent_overdraw b) &&
  Bool.eqb (pp_two_pass_culling a) (pp_two_pass_culling b) && Bool.eqb (pp_reverse_path a) (pp_reverse_path b) &&
  Bool.eqb (pp_reverse_culling a) (pp_reverse_culling b) && Bool.eqb (pp_warp_pattern a) (pp_warp_pattern b) &&
  Bool.eqb (pp_split_path a) (pp_split_path b).
(** src/glif/mfek/contour_operations/mod.rs L20-26 *)
Definition operations_eqb {C} (eq : C -> C -> bool) (a b : operations C) : bool :=
  match a, b with
  | OpVws v, OpVws w => vws_eqb v w
  | OpPap p, OpPap q => pap_eqb eq p q
  | OpDash d, OpDash e => dash_eqb d e
  | _, _ => false
  end.
(** src/glif/mfek/point/hyper.rs L141-146 *)
Definition hkind_eqb (a b : hyper_kind) : bool :=
  match a, b with HCurve, HCurve | HLine, HLine => true | _, _ => false end.
(** src/component.rs L94-101 *)
Definition rect_eqb (a b : comp_rect) : bool :=
  feq (r_minx a) (r_minx b) && feq (r_miny a) (r_miny b) && feq (r_maxx a) (r_maxx b) && feq (r_maxy a) (r_maxy b) &&
  str_eqb (r_name a) (r_name b).
(** kurbo::Affine (external crate, an array of six numbers), src/glif/mfek/layer.rs L22. *)
Definition affine_eqb (a b : affine) : bool :=
  list_eqb feq [c0 a; c1 a; c2 a; c3 a; c4 a; c5 a] [c0 b; c1 b; c2 b; c3 b; c4 b; c5 b].
(** src/glif/mfek/mod.rs L176-182 *)
Definition layer_operation_eqb (a b : layer_operation) : bool :=
  match a, b with
  | LDifference, LDifference | LUnion, LUnion | LXOR, LXOR | LIntersect, LIntersect => true
  | _, _ => false
  end.
(** `PartialEq` of `HashSet<(usize, usize)>`, src/glif/mfek/mod.rs L131: as [set_eqb]. *)
Definition selected_eqb (a b : list (N * N)) : bool :=
  Nat.eqb (length a) (length b) && forallb (fun s => existsb (pair_eqb s) b) a.

Section EqualMfek.
(** Simplification: the comparison of the user's data and of file names of images are parameters. *)
Context (L : numlib) {PD : Type} (pd_eqb : PD -> PD -> bool) (os_eqb : osstr -> osstr -> bool).

(** src/glif/mfek/point/quad.rs L10-23 *)
Definition qpoint_eqb (p q : qpoint PD) : bool :=
  feq (q_x p) (q_x q) && feq (q_y p) (q_y q) && handle_eqb (q_a p) (q_a q) && opt_eqb str_eqb (q_name p) (q_name q) &&
  ptype_eqb (q_ptype p) (q_ptype q) && Bool.eqb (q_smooth p) (q_smooth q) && opt_eqb pd_eqb (q_data p) (q_data q).
(** src/glif/mfek/point/hyper.rs L9-22 *)
Definition hpoint_eqb (p q : hpoint PD) : bool :=
  feq (h_x p) (h_x q) && feq (h_y p) (h_y q) && handle_eqb (h_a p) (h_a q) && handle_eqb (h_b p) (h_b q) &&
  hkind_eqb (h_kind p) (h_kind q) && Bool.eqb (h_smooth p) (h_smooth q) && opt_eqb pd_eqb (h_data p) (h_data q).
(** src/glif/mfek/inner/mod.rs L10-15, src/glif/mfek/inner/hyper.rs L6-10 *)
Definition inner_eqb (a b : inner PD) : bool :=
  match a, b with
  | Cubic c, Cubic d => list_eqb (point_eqb pd_eqb) c d
  | Quad c, Quad d => list_eqb qpoint_eqb c d
  | Hyper h o, Hyper h' o' => list_eqb hpoint_eqb h h' && Bool.eqb o o'
  | _, _ => false
  end.
(** src/glif/mfek/contour.rs L18-22 *)
Fixpoint mcontour_eqb (a b : mcontour PD) : bool :=
  let 'MC i o := a in let 'MC i' o' := b in
  inner_eqb i i' && opt_eqb (operations_eqb mcontour_eqb) o o'.
(** src/glif/mfek/layer.rs L15-23 *)
Definition layer_eqb (a b : layer PD) : bool :=
  str_eqb (l_name a) (l_name b) && Bool.eqb (l_visible a) (l_visible b) && opt_eqb (color_eqb L) (l_color a) (l_color b) &&
  list_eqb mcontour_eqb (l_outline a) (l_outline b) && opt_eqb layer_operation_eqb (l_operation a) (l_operation b) &&
  list_eqb (fun x y => image_eqb L os_eqb (fst x) (fst y) && affine_eqb (snd x) (snd y)) (l_images a) (l_images b).
(** src/glif/mfek/mod.rs L33-52; [eq] compares entries of the history. *)
Definition mglif_eqb {H} (eq : H -> H -> bool) (a b : mglif PD H) : bool :=
  list_eqb layer_eqb (mg_layers a) (mg_layers b) &&
  list_eqb eq (mg_history a) (mg_history b) &&
  list_eqb (anchor_eqb pd_eqb) (mg_anchors a) (mg_anchors b) &&
  components_eqb L (mg_components a) (mg_components b) &&
  opt_eqb (list_eqb (list_eqb (point_eqb pd_eqb))) (mg_flattened a) (mg_flattened b) &&
  opt_eqb (list_eqb rect_eqb) (mg_component_rects a) (mg_component_rects b) &&
  list_eqb (guideline_eqb L pd_eqb) (mg_guidelines a) (mg_guidelines b) &&
  opt_eqb N.eqb (mg_width a) (mg_width b) &&
  list_eqb N.eqb (mg_unicode a) (mg_unicode b) &&
  str_eqb (mg_name a) (mg_name b) &&
  opt_eqb str_eqb (mg_note a) (mg_note b) &&
  opt_eqb (list_eqb str_eqb) (mg_filename a) (mg_filename b).
(** src/glif/mfek/mod.rs L124-133 *)
Fixpoint history_eqb (a b : history PD) : bool :=
  let 'HEntry d li ci pi gl sel g := a in let 'HEntry d' li' ci' pi' gl' sel' g' := b in
  str_eqb d d' && opt_eqb N.eqb li li' && opt_eqb N.eqb ci ci' && opt_eqb N.eqb pi pi' &&
  list_eqb (guideline_eqb L pd_eqb) gl gl' && opt_eqb selected_eqb sel sel' && mglif_eqb history_eqb g g'.
(** src/glif/mfek/mod.rs L33-52 *)
Definition mfekglif_eqb (a b : mglif PD (history PD)) : bool := mglif_eqb history_eqb a b.
End EqualMfek.
