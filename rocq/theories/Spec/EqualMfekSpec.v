(** When two MFEK glyphs are equal. *)
Require Import Coq.Lists.List Coq.NArith.NArith Coq.Floats.SpecFloat.
Require Import Verif.Model.Base Verif.Model.Text Verif.Model.Float Verif.Model.Num Verif.Model.Point
  Verif.Model.Contour Verif.Model.Names Verif.Model.Color Verif.Model.Parts Verif.Model.Component
  Verif.Model.Mpoint Verif.Model.Mfek Verif.Model.Serde Verif.Spec.GlyphSpec Verif.Spec.OpenSpec Verif.Spec.EqualSpec.
Import ListNotations.

(** ** The floats of the parts, in a fixed order. *)
Definition handle_floats (h : handle) : list f32 := match h with At x y => [x; y] | Colocated => [] end.
Definition qpoint_floats {PD} (p : qpoint PD) : list f32 := [q_x p; q_y p] ++ handle_floats (q_a p).
Definition hpoint_floats {PD} (p : hpoint PD) : list f32 := [h_x p; h_y p] ++ handle_floats (h_a p) ++ handle_floats (h_b p).
Definition inner_floats {PD} (i : inner PD) : list f32 :=
  match i with
  | Cubic c => flat_map coordinates c
  | Quad c => flat_map qpoint_floats c
  | Hyper c _ => flat_map hpoint_floats c
  end.
Definition vws_floats (v : vws) : list f64 := flat_map (fun h => [vh_left h; vh_right h; vh_tangent h]) (v_handles v).
Definition cull_floats (o : option dash_cull) : list f32 :=
  match o with Some c => [dc_width c; dc_area_cutoff c] | None => [] end.
Definition dash_floats (d : dash) : list f32 := d_stroke_width d :: cull_floats (d_cull d) ++ d_desc d.
Definition subdivide_floats (s : pattern_subdivide) : list f64 := match s with SubAngle a => [a] | _ => [] end.
Definition culling_floats (s : pattern_culling) : list f64 := match s with CullErase a b => [a; b] | _ => [] end.
(** All but those of the contours of the pattern. *)
Definition pap_floats {C} (p : pap C) : list f64 :=
  subdivide_floats (pp_subdivide p) ++
  [pp_spacing p; pp_normal_offset p; pp_tangent_offset p; fst (pp_pattern_scale p); snd (pp_pattern_scale p)] ++
  culling_floats (pp_prevent_overdraw p).
Definition operation_floats {C} (o : option (operations C)) : list f64 :=
  match o with Some (OpVws v) => vws_floats v | Some (OpPap p) => pap_floats p | Some (OpDash d) => dash_floats d | None => [] end.
Definition affine_floats (a : affine) : list f64 := [c0 a; c1 a; c2 a; c3 a; c4 a; c5 a].
Definition rect_floats (r : comp_rect) : list f32 := [r_minx r; r_miny r; r_maxx r; r_maxy r].

(** ** The parts without their floats: what has to agree as it is. *)
Definition vws_rest (v : vws) :=
  (map vh_interpolation (v_handles v), v_join v, v_cap_start v, v_cap_end v, v_remove_internal v, v_remove_external v).
Definition dash_rest (d : dash) :=
  (option_map (fun _ => tt) (d_cull d), d_include_last_path d, d_paint_join d, d_paint_cap d).
Definition subdivide_rest (s : pattern_subdivide) : pattern_subdivide := match s with SubAngle _ => SubAngle S754_nan | s => s end.
Definition culling_rest (s : pattern_culling) : pattern_culling := match s with CullErase _ _ => CullErase S754_nan S754_nan | s => s end.
Definition pap_rest {C} (p : pap C) :=
  (pp_copies p, subdivide_rest (pp_subdivide p), pp_is_vertical p, pp_stretch p, pp_simplify p, pp_center_pattern p,
   culling_rest (pp_prevent_overdraw p), (pp_two_pass_culling p, pp_reverse_path p, pp_reverse_culling p),
   (pp_warp_pattern p, pp_split_path p)).

Section Same.
(** [num], [data], [os]: when two numbers, users' data and image file names are equal. *)
Context {PD : Type} (num : iof -> iof -> Prop) (data : PD -> PD -> Prop) (os : osstr -> osstr -> Prop).

Definition same_qpoint (p q : qpoint PD) : Prop :=
  same_float (q_x p) (q_x q) /\ same_float (q_y p) (q_y q) /\ same_handle (q_a p) (q_a q) /\
  q_name p = q_name q /\ q_ptype p = q_ptype q /\ q_smooth p = q_smooth q /\ both data (q_data p) (q_data q).
Definition same_hpoint (p q : hpoint PD) : Prop :=
  same_float (h_x p) (h_x q) /\ same_float (h_y p) (h_y q) /\ same_handle (h_a p) (h_a q) /\ same_handle (h_b p) (h_b q) /\
  h_kind p = h_kind q /\ h_smooth p = h_smooth q /\ both data (h_data p) (h_data q).
Definition same_inner (a b : inner PD) : Prop :=
  match a, b with
  | Cubic c, Cubic d => Forall2 (same_point data) c d
  | Quad c, Quad d => Forall2 same_qpoint c d
  | Hyper c o, Hyper d o' => Forall2 same_hpoint c d /\ o = o'
  | _, _ => False
  end.
(** Contours, with the contours of their patterns. *)
Inductive same_mcontour : mcontour PD -> mcontour PD -> Prop :=
| same_plain i i' : same_inner i i' -> same_mcontour (MC i None) (MC i' None)
| same_vws i i' v v' : same_inner i i' -> Forall2 same_float (vws_floats v) (vws_floats v') -> vws_rest v = vws_rest v' ->
    same_mcontour (MC i (Some (OpVws v))) (MC i' (Some (OpVws v')))
| same_dash i i' d d' : same_inner i i' -> Forall2 same_float (dash_floats d) (dash_floats d') -> dash_rest d = dash_rest d' ->
    same_mcontour (MC i (Some (OpDash d))) (MC i' (Some (OpDash d')))
| same_pap i i' p p' : same_inner i i' -> Forall2 same_float (pap_floats p) (pap_floats p') -> pap_rest p = pap_rest p' ->
    Forall2 same_mcontour (pp_pattern p) (pp_pattern p') ->
    same_mcontour (MC i (Some (OpPap p))) (MC i' (Some (OpPap p'))).
Definition same_placed_image (a b : glifimage * affine) : Prop :=
  same_image num os (fst a) (fst b) /\ Forall2 same_float (affine_floats (snd a)) (affine_floats (snd b)).
Definition same_layer (a b : layer PD) : Prop :=
  l_name a = l_name b /\ l_visible a = l_visible b /\ both (equal_color num) (l_color a) (l_color b) /\
  Forall2 same_mcontour (l_outline a) (l_outline b) /\ l_operation a = l_operation b /\
  Forall2 same_placed_image (l_images a) (l_images b).
Definition same_rect (a b : comp_rect) : Prop :=
  Forall2 same_float (rect_floats a) (rect_floats b) /\ r_name a = r_name b.
(** All of two MFEK glyphs but their histories. *)
Definition same_but_history {H} (a b : mglif PD H) : Prop :=
  Forall2 same_layer (mg_layers a) (mg_layers b) /\
  Forall2 (same_anchor data) (mg_anchors a) (mg_anchors b) /\
  (cs_root (mg_components a) = cs_root (mg_components b) /\
   Forall2 (same_component num) (cs_vec (mg_components a)) (cs_vec (mg_components b)) /\
   forall s, In s (cs_uniques (mg_components a)) <-> In s (cs_uniques (mg_components b))) /\
  both (Forall2 (Forall2 (same_point data))) (mg_flattened a) (mg_flattened b) /\
  both (Forall2 same_rect) (mg_component_rects a) (mg_component_rects b) /\
  Forall2 (same_guideline num data) (mg_guidelines a) (mg_guidelines b) /\
  mg_width a = mg_width b /\ mg_unicode a = mg_unicode b /\ mg_name a = mg_name b /\ mg_note a = mg_note b /\
  mg_filename a = mg_filename b.
Inductive same_entry : history PD -> history PD -> Prop :=
| same_entry_intro d li ci pi gl gl' sel sel' m m' :
    Forall2 (same_guideline num data) gl gl' ->
    both (fun s s' => forall x, In x s <-> In x s') sel sel' ->
    same_but_history m m' -> Forall2 same_entry (mg_history m) (mg_history m') ->
    same_entry (HEntry d li ci pi gl sel m) (HEntry d li ci pi gl' sel' m').
Definition same_mfek (a b : mglif PD (history PD)) : Prop :=
  same_but_history a b /\ Forall2 same_entry (mg_history a) (mg_history b).
End Same.

(** ** A float in a contour, or in the contours of its patterns. *)
Inductive float_in_contour {PD} (x : spec_float) : mcontour PD -> Prop :=
| float_here i o : In x (inner_floats i ++ operation_floats o) -> float_in_contour x (MC i o)
| float_in_pattern i p c : In c (pp_pattern p) -> float_in_contour x c -> float_in_contour x (MC i (Some (OpPap p))).
Definition guideline_float {PD} (x : spec_float) (l : guideline PD) : Prop :=
  In x [gl_x l; gl_y l] \/ In (IFloat x) (gl_angle l :: numbers_of_color (gl_color l)).
(** A float in an MFEK glyph, or in the glyphs of its history. *)
Inductive float_in_mfek {PD} (x : spec_float) (m : mglif PD (history PD)) : Prop :=
| float_in_layer l c : In l (mg_layers m) -> In c (l_outline l) -> float_in_contour x c -> float_in_mfek x m
| float_in_layer_color l : In l (mg_layers m) -> In (IFloat x) (numbers_of_color (l_color l)) -> float_in_mfek x m
| float_in_image l im a : In l (mg_layers m) -> In (im, a) (l_images l) ->
    In (IFloat x) (members (i_matrix im) ++ numbers_of_color (i_color im)) \/ In x (affine_floats a) -> float_in_mfek x m
| float_in_anchor a : In a (mg_anchors m) -> In x [an_x a; an_y a] -> float_in_mfek x m
| float_in_component c : In c (cs_vec (mg_components m)) -> In (IFloat x) (members (c_matrix c)) -> float_in_mfek x m
| float_in_flattened o c p : mg_flattened m = Some o -> In c o -> In p c -> In x (coordinates p) -> float_in_mfek x m
| float_in_rect rs r : mg_component_rects m = Some rs -> In r rs -> In x (rect_floats r) -> float_in_mfek x m
| float_in_guideline l : In l (mg_guidelines m) -> guideline_float x l -> float_in_mfek x m
| float_in_entry d li ci pi gl sel m' l : In (HEntry d li ci pi gl sel m') (mg_history m) -> In l gl -> guideline_float x l -> float_in_mfek x m
| float_in_past d li ci pi gl sel m' : In (HEntry d li ci pi gl sel m') (mg_history m) -> float_in_mfek x m' -> float_in_mfek x m.

Definition nan_in_contour {PD} : mcontour PD -> Prop := float_in_contour S754_nan.
Definition nan_in_mfek {PD} : mglif PD (history PD) -> Prop := float_in_mfek S754_nan.

(** The sets of component names and of selected points are sets, here and in the history. *)
Inductive proper_mfek {PD} (m : mglif PD (history PD)) : Prop :=
| proper_intro : NoDup (cs_uniques (mg_components m)) ->
    (forall d li ci pi gl sel m', In (HEntry d li ci pi gl sel m') (mg_history m) ->
       (forall s, sel = Some s -> NoDup s) /\ proper_mfek m') -> proper_mfek m.
(** No file name is kept, here or in the history. *)
Inductive nameless {PD} (m : mglif PD (history PD)) : Prop :=
| nameless_intro : mg_filename m = None ->
    (forall d li ci pi gl sel m', In (HEntry d li ci pi gl sel m') (mg_history m) -> nameless m') -> nameless m.
(** The numbers that place the images of a glyph. *)
Definition placed_numbers {PD PL} (g : glif PD PL) : list iof := flat_map (fun i => members (i_matrix i)) (g_images g).
(** A number that may be an integer, in an MFEK glyph or in the glyphs of its history. *)
Inductive number_in_mfek {PD} (i : iof) (m : mglif PD (history PD)) : Prop :=
| number_in_layer_color l : In l (mg_layers m) -> In i (numbers_of_color (l_color l)) -> number_in_mfek i m
| number_in_image l im a : In l (mg_layers m) -> In (im, a) (l_images l) -> In i (members (i_matrix im) ++ numbers_of_color (i_color im)) -> number_in_mfek i m
| number_in_component c : In c (cs_vec (mg_components m)) -> In i (members (c_matrix c)) -> number_in_mfek i m
| number_in_guideline l : In l (mg_guidelines m) -> In i (gl_angle l :: numbers_of_color (gl_color l)) -> number_in_mfek i m
| number_in_entry d li ci pi gl sel m' l : In (HEntry d li ci pi gl sel m') (mg_history m) -> In l gl ->
    In i (gl_angle l :: numbers_of_color (gl_color l)) -> number_in_mfek i m
| number_in_past d li ci pi gl sel m' : In (HEntry d li ci pi gl sel m') (mg_history m) -> number_in_mfek i m' -> number_in_mfek i m.
