(** MFEK contours, their operations, layers and glyphs.  src/glif/mfek/ (except points). *)
Require Import Coq.Strings.String Coq.Lists.List Coq.NArith.NArith Coq.ZArith.ZArith Coq.Arith.Arith Coq.Bool.Bool.
Require Import Verif.Model.Base Verif.Model.Text Verif.Model.Float Verif.Model.Num Verif.Model.Point
  Verif.Model.Contour Verif.Model.Names Verif.Model.Color Verif.Model.Parts Verif.Model.Component
  Verif.Model.Mpoint.
Import ListNotations.

(** * Vectors *)

(** `Vec::remove(i)`: panics unless i < len.
    src/glif/mfek/contour_operations/vws.rs L74, src/glif/mfek/inner/cubic.rs L53. *)
Definition vec_remove {A} (l : list A) (i : nat) : res (list A) :=
  if i <? length l then Ok (firstn i l ++ skipn (S i) l) else Panic.
(** `Vec::insert(i, x)`: panics unless i <= len.
    src/glif/mfek/contour_operations/vws.rs L62. *)
Definition vec_insert {A} (l : list A) (i : nat) (x : A) : res (list A) :=
  if i <=? length l then Ok (firstn i l ++ x :: skipn i l) else Panic.
(** `v[b..e].to_vec()`: panics unless b <= e <= len.
    src/glif/mfek/inner/mod.rs L50-58. *)
Definition slice {A} (l : list A) (b e : nat) : res (list A) :=
  if (b <=? e) && (e <=? length l) then Ok (firstn (e - b) (skipn b l)) else Panic.
(** `v.split_at(i)`: panics unless i <= len.
    src/glif/mfek/contour_operations/vws.rs L21-22. *)
Definition split_at {A} (l : list A) (i : nat) : res (list A * list A) :=
  if i <=? length l then Ok (firstn i l, skipn i l) else Panic.

(** * Stroke options: src/glif/mfek/contour_operations/vws.rs *)

(** L87-93, L119-125, L157-161 *)
Inductive join_type := JBevel | JMiter | JCircle | JRound.
(** src/glif/mfek/contour_operations/vws.rs L120-125. *)
Inductive cap_type := CapCustom | CapSquare | CapCircle | CapRound.
(** src/glif/mfek/contour_operations/vws.rs L158-161. *)
Inductive interpolation := INull | ILinear.

(** L95-104 *)
Definition join_show (j : join_type) : str :=
  match j with JBevel => lit "bevel" | JMiter => lit "miter" | JCircle => lit "circle" | JRound => lit "round" end.
(** L106-117 *)
Definition join_parse (s : str) : res join_type :=
  if str_eqb s (lit "bevel") then Ok JBevel
  else if str_eqb s (lit "miter") then Ok JMiter
  else if str_eqb s (lit "circle") then Ok JCircle
  else if str_eqb s (lit "round") then Ok JRound
  else Err (ETypeConversion "JoinType" s).
(** L127-136 *)
Definition cap_show (c : cap_type) : str :=
  match c with
  | CapCustom => lit "custom" | CapSquare => lit "square" | CapCircle => lit "circle" | CapRound => lit "round"
  end.
(** L138-155 *)
Definition cap_parse (s : str) : res cap_type :=
  if str_eqb s (lit "custom") then Ok CapCustom
  else if str_eqb s (lit "square") then Ok CapSquare
  else if str_eqb s (lit "circle") then Ok CapCircle
  else if str_eqb s (lit "round") then Ok CapRound
  else if ends_with (lit ".glif") s then Ok CapCustom
  else Err (ETypeConversion "CapType" s).
(** L163-170 *)
Definition interpolation_show (i : interpolation) : str :=
  match i with INull => lit "none" | ILinear => lit "linear" end.
(** L172-181 *)
Definition interpolation_parse (s : str) : res interpolation :=
  if str_eqb s (lit "none") then Ok INull
  else if str_eqb s (lit "linear") then Ok ILinear
  else Err (ETypeConversion "InterpolationType" s).

(** * Contour operations *)

(** src/glif/mfek/contour_operations/vws.rs L79-85 *)
Record vws_handle := mkVH {
  vh_left : f64; vh_right : f64; vh_tangent : f64; vh_interpolation : interpolation
}.
(** src/glif/mfek/contour_operations/vws.rs L8-16 *)
Record vws := mkVws {
  v_handles : list vws_handle; v_join : join_type; v_cap_start : cap_type; v_cap_end : cap_type;
  v_remove_internal : bool; v_remove_external : bool
}.
(** `self.handles = ..`, src/glif/mfek/contour_operations/vws.rs L24, L58. *)
Definition v_with_handles (v : vws) (h : list vws_handle) : vws :=
  mkVws h (v_join v) (v_cap_start v) (v_cap_end v) (v_remove_internal v) (v_remove_external v).

(** src/glif/mfek/contour_operations/dash.rs L5-19 *)
Record dash_cull := mkCull { dc_width : f32; dc_area_cutoff : f32 }.
(** src/glif/mfek/contour_operations/dash.rs L11-19. *)
Record dash := mkDash {
  d_stroke_width : f32; d_cull : option dash_cull; d_desc : list f32; d_include_last_path : bool;
  d_paint_join : N; d_paint_cap : N
}.

(** src/glif/mfek/contour_operations/pap.rs L8-51 *)
Inductive pattern_copies := PSingle | PRepeated.
(** src/glif/mfek/contour_operations/pap.rs L15-22. *)
Inductive pattern_subdivide := SubOff | SubSimple (n : N) | SubAngle (a : f64).
(** src/glif/mfek/contour_operations/pap.rs L26-33. *)
Inductive pattern_culling := CullOff | CullRemove | CullErase (a b : f64).
(** src/glif/mfek/contour_operations/pap.rs L45-51. *)
Inductive pattern_stretch := StretchOff | StretchOn | StretchSpacing.
(** src/glif/mfek/contour_operations/pap.rs L53-72; [C] is the type of contours. *)
Record pap {C : Type} := mkPap {
  pp_pattern : list C; pp_copies : pattern_copies; pp_subdivide : pattern_subdivide;
  pp_is_vertical : bool; pp_stretch : pattern_stretch; pp_spacing : f64; pp_simplify : bool;
  pp_normal_offset : f64; pp_tangent_offset : f64; pp_pattern_scale : f64 * f64;
  pp_center_pattern : bool; pp_prevent_overdraw : pattern_culling; pp_two_pass_culling : bool;
  pp_reverse_path : bool; pp_reverse_culling : bool; pp_warp_pattern : bool; pp_split_path : bool
}.
Arguments pap : clear implicits.

(** src/glif/mfek/contour_operations/mod.rs L20-26 *)
Inductive operations {C : Type} := OpVws (v : vws) | OpPap (p : pap C) | OpDash (d : dash).
Arguments operations : clear implicits.

(** src/glif/mfek/inner/mod.rs L10-15, src/glif/mfek/inner/hyper.rs L6-10 *)
Inductive inner {PD : Type} :=
| Cubic (c : contour PD)
| Quad (q : list (qpoint PD))
| Hyper (h : list (hpoint PD)) (open : bool).
Arguments inner : clear implicits.

(** src/glif/mfek/contour.rs L18-22 *)
Inductive mcontour {PD : Type} := MC (i : inner PD) (o : option (operations mcontour)).
Arguments mcontour : clear implicits.
(** src/glif/mfek/mod.rs L135 *)
Definition moutline (PD : Type) := list (mcontour PD).

Section Mfek.
Context {PD : Type}.
Implicit Types i : inner PD.
Implicit Types c : mcontour PD.
Notation ops := (operations (mcontour PD)).

(** src/glif/mfek/contour.rs L32-46 *)
Definition mc_inner c : inner PD := let 'MC i _ := c in i.
(** `operation()`, src/glif/mfek/contour.rs L40-42. *)
Definition mc_op c : option ops := let 'MC _ o := c in o.
(** src/glif/mfek/contour.rs L48-50 *)
Definition set_operation c (o : option ops) : mcontour PD := MC (mc_inner c) o.
(** src/glif/mfek/contour.rs L79-95 *)
Definition mcontour_of (pts : contour PD) : mcontour PD := MC (Cubic pts) None.

(** src/glif/mfek/inner/mod.rs L101-103 with src/glif/mfek/inner/{cubic,quad,hyper}.rs `len` *)
Definition inner_len i : nat :=
  match i with Cubic l => length l | Quad l => length l | Hyper l _ => length l end.

(** The points, seen as `dyn MFEKPointCommon`.  src/glif/mfek/inner/cubic.rs L36-42, src/glif/mfek/inner/quad.rs L49-55,
    src/glif/mfek/inner/hyper.rs L66-72, through src/glif/mfek/inner/mod.rs L137-139. *)
Definition inner_get_point i (n : nat) : option (mpoint PD) :=
  match i with
  | Cubic l => option_map MCubic (nth_error l n)
  | Quad l => option_map MQuad (nth_error l n)
  | Hyper l _ => option_map MHyper (nth_error l n)
  end.

(** A change made to one point through `get_point_mut(n)`: [f] is the method called on the point.
    It cannot change the kind of the point, so the last cases do not arise.
    src/glif/mfek/inner/cubic.rs L44-50, src/glif/mfek/inner/quad.rs L57-63, src/glif/mfek/inner/hyper.rs L74-80,
    through src/glif/mfek/inner/mod.rs L133-135 and src/glif/mfek/contour.rs L190-192. *)
Definition inner_update i (n : nat) (f : mpoint PD -> mpoint PD) : inner PD :=
  match i with
  | Cubic l => Cubic (match nth_error l n with
      | Some p => match f (MCubic p) with MCubic p' => firstn n l ++ p' :: skipn (S n) l | _ => l end
      | None => l end)
  | Quad l => Quad (match nth_error l n with
      | Some p => match f (MQuad p) with MQuad p' => firstn n l ++ p' :: skipn (S n) l | _ => l end
      | None => l end)
  | Hyper l o => Hyper (match nth_error l n with
      | Some p => match f (MHyper p) with MHyper p' => firstn n l ++ p' :: skipn (S n) l | _ => l end
      | None => l end) o
  end.

(** src/glif/mfek/inner/mod.rs L172-177 *)
Inductive inner_type := TCubic | TQuad | THyper.
(** `get_type`: src/glif/mfek/inner/cubic.rs L12-14, src/glif/mfek/inner/quad.rs L25-27, src/glif/mfek/inner/hyper.rs L42-44. *)
Definition inner_get_type i : inner_type :=
  match i with Cubic _ => TCubic | Quad _ => TQuad | Hyper _ _ => THyper end.
(** `cubic`: src/glif/mfek/inner/cubic.rs L60-62, src/glif/mfek/inner/quad.rs L81-83, src/glif/mfek/inner/hyper.rs L98-100. *)
Definition inner_cubic i : option (contour PD) := match i with Cubic l => Some l | _ => None end.
(** `quad`: src/glif/mfek/inner/cubic.rs L76-78, src/glif/mfek/inner/quad.rs L73-75, src/glif/mfek/inner/hyper.rs L106-108. *)
Definition inner_quad i : option (list (qpoint PD)) := match i with Quad l => Some l | _ => None end.
(** `hyper`: src/glif/mfek/inner/cubic.rs L68-70, src/glif/mfek/inner/quad.rs L89-91, src/glif/mfek/inner/hyper.rs L82-84;
    the inner contour is its points and whether it is open. *)
Definition inner_hyper i : option (list (hpoint PD) * bool) := match i with Hyper l o => Some (l, o) | _ => None end.

(** src/glif/mfek/inner/cubic.rs L16-18, src/glif/mfek/inner/quad.rs L14-18 (`self[0]` panics on no points) and L29-31,
    src/glif/mfek/inner/hyper.rs L46-48. *)
Definition inner_is_open i : res bool :=
  match i with
  | Cubic l => Ok (is_open l)
  | Quad [] => Panic
  | Quad (q :: _) => Ok (ptype_eqb (q_ptype q) Move)
  | Hyper _ o => Ok o
  end.

(** src/glif/mfek/inner/cubic.rs L24-30, src/glif/mfek/inner/quad.rs L37-43: `self[0].ptype = ..`; src/glif/mfek/inner/hyper.rs L54-60. *)
Definition inner_set_type i (t : ptype) (open : bool) : res (inner PD) :=
  match i with
  | Cubic [] => Panic
  | Cubic (p :: l) => Ok (Cubic (with_ptype p t :: l))
  | Quad [] => Panic
  | Quad (q :: l) => Ok (Quad (mkQ (q_x q) (q_y q) (q_a q) (q_name q) t (q_smooth q) (q_data q) :: l))
  | Hyper l _ => Ok (Hyper l open)
  end.
(** src/glif/mfek/inner/mod.rs L125-127 (and the cubic, quad, hyper versions). *)
Definition inner_set_open i : res (inner PD) := inner_set_type i Move true.
(** src/glif/mfek/inner/mod.rs L129-131 (and the cubic, quad, hyper versions). *)
Definition inner_set_closed i : res (inner PD) := inner_set_type i Curve false.

(** src/glif/mfek/inner/cubic.rs L52-54, src/glif/mfek/inner/quad.rs L65-67, src/glif/mfek/inner/hyper.rs L90-92 *)
Definition inner_delete i (n : nat) : res (inner PD) :=
  match i with
  | Cubic l => let* l := vec_remove l n in Ok (Cubic l)
  | Quad l => let* l := vec_remove l n in Ok (Quad l)
  | Hyper l o => let* l := vec_remove l n in Ok (Hyper l o)
  end.

(** src/glif/mfek/inner/cubic.rs L56-58, src/glif/mfek/inner/quad.rs L69-71, src/glif/mfek/inner/hyper.rs L94-96 *)
Definition inner_reverse i : inner PD :=
  match i with Cubic l => Cubic (rev l) | Quad l => Quad (rev l) | Hyper l o => Hyper (rev l) o end.

(** src/glif/mfek/inner/mod.rs L47-62 *)
Definition inner_sub i (b e : nat) : res (inner PD) :=
  match i with
  | Cubic l => let* l := slice l b e in Ok (Cubic l)
  | Quad l => let* l := slice l b e in Ok (Quad l)
  | Hyper l o => let* l := slice l b e in let* o := inner_is_open i in Ok (Hyper l o)
  end.

(** src/glif/mfek/inner/mod.rs L64-97; [None] is `MFEKCommonMismatchError`. *)
Definition inner_append i (other : inner PD) : option (inner PD) :=
  match i, other with
  | Cubic l, Cubic l' => Some (Cubic (l ++ l'))
  | Quad l, Quad l' => Some (Quad (l ++ l'))
  | Hyper l o, Hyper l' _ => Some (Hyper (l ++ l') o)
  | _, _ => None
  end.

(** src/glif/mfek/inner/hyper.rs L28-34: `MFEKHyperInner::next_point` *)
Definition hyper_next_point (l : list (hpoint PD)) (open : bool) (n : nat) : option (hpoint PD) :=
  if (n + 1 =? length l) && negb open && (1 <? length l) then nth_error l 0 else nth_error l (n + 1).

(** src/glif/mfek/contour_operations/vws.rs L20-25; `end + 1 - begin` cannot overflow below zero where it is called. *)
Definition vws_sub (v : vws) (b e : nat) : res vws :=
  let* t := split_at (v_handles v) b in
  if e + 1 <? b then Panic else
  let* f := split_at (snd t) (e + 1 - b) in
  Ok (v_with_handles v (fst f)).

(** src/glif/mfek/contour_operations/vws.rs L36-41, L47-52: the handle given to points that have none. *)
Definition default_vws_handle : vws_handle := mkVH (f64_of_Z 10) (f64_of_Z 10) pos_zero ILinear.
(** src/glif/mfek/contour_operations/vws.rs L35-43 = L46-54 *)
Fixpoint repeat_last (h : list vws_handle) (n : nat) : list vws_handle :=
  match n with
  | O => h
  | S n => repeat_last (h ++ [last h default_vws_handle]) n
  end.
(** src/glif/mfek/contour_operations/vws.rs L27-59 *)
Definition vws_append (v : vws) (other : mcontour PD) : vws :=
  match mc_op other with
  | Some (OpVws w) => v_with_handles v (v_handles v ++ v_handles w)
  | Some _ => v_with_handles v (repeat_last (v_handles v) (inner_len (mc_inner other)))
  | None => v_with_handles v (repeat_last (v_handles v) (inner_len (mc_inner other)))
  end.
(** src/glif/mfek/contour_operations/vws.rs L61-71: the new handle is built by indexing before it is inserted. *)
Definition vws_insert (v : vws) (n : nat) : res vws :=
  let* h := idx (v_handles v) n in
  let* l := vec_insert (v_handles v) n (mkVH (vh_left h) (vh_right h) (vh_tangent h) (vh_interpolation h)) in
  Ok (v_with_handles v l).
(** src/glif/mfek/contour_operations/vws.rs L73-75 *)
Definition vws_remove (v : vws) (n : nat) : res vws :=
  let* l := vec_remove (v_handles v) n in Ok (v_with_handles v l).

(** src/glif/mfek/contour_operations/mod.rs L36-87: patterns (src/glif/mfek/contour_operations/pap.rs L74-79) and dashes
    (src/glif/mfek/contour_operations/dash.rs L21-26) are left alone. *)
Definition op_sub (o : option ops) (b e : nat) : res (option ops) :=
  match o with Some (OpVws v) => let* v := vws_sub v b e in Ok (Some (OpVws v)) | _ => Ok o end.
(** src/glif/mfek/contour_operations/mod.rs L51-63. *)
Definition op_append (o : option ops) (other : mcontour PD) : option ops :=
  match o with Some (OpVws v) => Some (OpVws (vws_append v other)) | _ => o end.
(** src/glif/mfek/contour_operations/mod.rs L65-75. *)
Definition op_insert (o : option ops) (n : nat) : res (option ops) :=
  match o with Some (OpVws v) => let* v := vws_insert v n in Ok (Some (OpVws v)) | _ => Ok o end.
(** src/glif/mfek/contour_operations/mod.rs L77-87. *)
Definition op_remove (o : option ops) (n : nat) : res (option ops) :=
  match o with Some (OpVws v) => let* v := vws_remove v n in Ok (Some (OpVws v)) | _ => Ok o end.

(** src/glif/mfek/contour.rs L52-62 *)
Definition mc_sub c (b e : nat) : res (mcontour PD) :=
  let* i := inner_sub (mc_inner c) b e in
  let* o := op_sub (mc_op c) b e in
  Ok (MC i o).
(** src/glif/mfek/contour.rs L64-72; [None] is `MFEKCommonMismatchError` and leaves the contour as it is. *)
Definition mc_append c (other : mcontour PD) : option (mcontour PD) :=
  match inner_append (mc_inner c) (mc_inner other) with
  | Some i => Some (MC i (op_append (mc_op c) other))
  | None => None
  end.
(** src/glif/mfek/contour.rs L173-176 *)
Definition mc_delete c (n : nat) : res (mcontour PD) :=
  let* i := inner_delete (mc_inner c) n in
  let* o := op_remove (mc_op c) n in
  Ok (MC i o).
(** A point changed through `get_point_mut`; the operation is left alone.
    src/glif/mfek/contour.rs L190-192, and L274-276 for `MFEKCubicContour`. *)
Definition mc_update c (n : nat) (f : mpoint PD -> mpoint PD) : mcontour PD :=
  MC (inner_update (mc_inner c) n f) (mc_op c).
(** src/glif/mfek/contour.rs L257-260: `MFEKCubicContour::delete` *)
Definition mc_cubic_delete c (n : nat) : res (mcontour PD) :=
  let* i := inner_delete (mc_inner c) n in
  Ok (MC i (mc_op c)).
(** src/glif/mfek/contour.rs L168-171 *)
Definition mc_reverse c : mcontour PD := MC (inner_reverse (mc_inner c)) (mc_op c).

(** src/glif/mfek/contour.rs L105-109: one call of the iterator over the points, from index n; collecting it
    with at most [fuel] calls, [None] when more would be needed. *)
Definition iter_next i (n : nat) : option (mpoint PD) * nat := (inner_get_point i n, n + 1).
(** `MFEKContourCommonIterator`, src/glif/mfek/contour.rs L97-115. *)
Fixpoint iter_collect (fuel : nat) i (n : nat) : option (list (mpoint PD)) :=
  match fuel with
  | O => None
  | S f =>
      match iter_next i n with
      | (None, _) => Some []
      | (Some p, n') => option_map (cons p) (iter_collect f i n')
      end
  end.

(** * Outlines: src/glif/mfek/traits.rs *)

(** L37-46 *)
Definition cleanly_downgradable (o : moutline PD) : bool :=
  forallb (fun c => match mc_inner c with Cubic _ => true | _ => false end) o
  && forallb (fun c => match mc_op c with None => true | _ => false end) o.
(** src/glif/mfek/contour.rs L313-321 and the matches in src/glif/mfek/traits.rs L51-56, src/glif/mfek/mod.rs L96-100 *)
Definition cubic_points (i : inner PD) : res (contour PD) :=
  match i with Cubic l => Ok l | _ => Panic end.
(** L48-59 *)
Definition downgrade (o : moutline PD) : res (outline PD) := mapM (fun c => cubic_points (mc_inner c)) o.
(** L63-69 *)
Definition upgrade (o : outline PD) : moutline PD := map mcontour_of o.
(** L89-95 *)
Definition downgrade_ops (o : moutline PD) : list (option ops) := map mc_op o.
(** L74-88: the outcome and the outline left behind (contours before a failure are changed). *)
Fixpoint upgrade_ops (o : moutline PD) (l : list (option ops)) : res unit * moutline PD :=
  match o with
  | [] => match l with [] => (Ok tt, []) | _ => (Err EMoreOpsThanContours, []) end
  | c :: o' =>
      match l with
      | [] => (Err EMoreContoursThanOps, o)
      | x :: l' => let '(r, o'') := upgrade_ops o' l' in (r, set_operation c x :: o'')
      end
  end.

(** * Layers: src/glif/mfek/layer.rs *)

(** src/glif/mfek/mod.rs L176-182 *)
Inductive layer_operation := LDifference | LUnion | LXOR | LIntersect.
(** src/glif/mfek/layer.rs L15-23 *)
Record layer := mkLayer {
  l_name : str; l_visible : bool; l_color : option color; l_outline : moutline PD;
  l_operation : option layer_operation; l_images : list (glifimage * affine)
}.
(** Assignment to `layer.outline`, src/glif/mfek/traits.rs L100-125. *)
Definition l_with_outline (l : layer) (o : moutline PD) : layer :=
  mkLayer (l_name l) (l_visible l) (l_color l) o (l_operation l) (l_images l).

(** src/glif/mfek/layer.rs L12: `format!("Layer {}", n)` *)
Definition default_layer_name (n : N) : str := lit "Layer " ++ show_dec n.

(** src/glif/mfek/layer.rs L26-32 *)
Definition to_glyphs_dir (l : layer) (n : nat) : str :=
  match n with O => lit "glyphs" | _ => lit "glyphs." ++ name_to_filename (l_name l) false end.

(** plist::Value (external crate).  Simplification: dates and reals are left out; they are
    never equal to the entries the code builds.
    src/glif/mfek/layer.rs L56-99. *)
Inductive pvalue :=
| PArray (l : list pvalue) | PDict (l : list (str * pvalue)) | PBool (b : bool) | PData (l : list N)
| PInt (z : Z) | PString (s : str) | PUid (n : N).

(** src/glif/mfek/layer.rs L57-69 *)
Definition to_layerinfo (L : numlib) (l : layer) : option pvalue :=
  match l_color l with
  | Some col => Some (PDict [(lit "color", PString (color_show L col))])
  | None => None
  end.

(** src/glif/mfek/layer.rs L76-84, for the layers from index n on *)
Fixpoint layercontents_from (n : nat) (ls : list layer) : list pvalue :=
  match ls with
  | [] => []
  | l :: ls =>
      if negb (l_visible l) then layercontents_from (S n) ls
      else
        let key := if str_eqb (l_name l) (default_layer_name 0) then lit "public.default" else l_name l in
        PArray [PString key; PString (to_glyphs_dir l n)] :: layercontents_from (S n) ls
  end.
(** src/glif/mfek/layer.rs L73-88 *)
Definition to_layercontents (ls : list layer) : pvalue := PArray (layercontents_from 0 ls).

(** Derived equality of plist::Value between a value and an array of two strings, the only
    comparison made (src/glif/mfek/layer.rs L94). *)
Definition is_entry (k d : str) (v : pvalue) : bool :=
  match v with PArray [PString k'; PString d'] => str_eqb k k' && str_eqb d d' | _ => false end.
(** `contains`, src/glif/mfek/layer.rs L89-99. *)
Definition pcontains (theirs : list pvalue) (e : pvalue) : bool :=
  match e with PArray [PString k; PString d] => existsb (is_entry k d) theirs | _ => false end.

(** src/glif/mfek/layer.rs L93-97 *)
Fixpoint merge_into (theirs ours : list pvalue) : list pvalue :=
  match ours with
  | [] => theirs
  | e :: ours => merge_into (if pcontains theirs e then theirs else theirs ++ [e]) ours
  end.
(** src/glif/mfek/layer.rs L89-99: `unwrap` panics when the other value is not an array. *)
Definition merge_layercontents (ls : list layer) (other : pvalue) : res pvalue :=
  match other with
  | PArray theirs => Ok (PArray (merge_into theirs (layercontents_from 0 ls)))
  | _ => Panic
  end.

(** * Glyphs: src/glif/mfek/mod.rs *)

(** L33-52.  The history (L124-133, snapshots of whole glyphs for the use of programs) is a
    list of values of any type [H]. *)
Record mglif {H : Type} := mkMG {
  mg_layers : list layer; mg_history : list H; mg_anchors : list (anchor PD);
  mg_components : glifcomponents; mg_flattened : option (outline PD);
  mg_component_rects : option (list comp_rect); mg_guidelines : list (guideline PD);
  mg_width : option N; mg_unicode : list N; mg_name : str; mg_note : option str;
  mg_filename : option path
}.
Arguments mglif : clear implicits.

(** L54-91 *)
Definition mglif_of_glif {H PL} (g : glif PD PL) : mglif H :=
  let l := mkLayer (default_layer_name 0) true None
                   (map mcontour_of (match g_outline g with Some o => o | None => [] end))
                   None (map (fun im => (im, affine_of_matrix (i_matrix im))) (g_images g)) in
  mkMG H [l] [] (g_anchors g) (g_components g) None None (g_guidelines g) (g_width g) (g_unicode g)
       (g_name g) (g_note g) (g_filename g).

(** L93-122: `layers[0]` panics on no layers, a contour that is not cubic panics. *)
Definition glif_of_mglif {H PL} (m : mglif H) : res (glif PD PL) :=
  let* l := idx (mg_layers m) 0 in
  let* o := mapM (fun c => cubic_points (mc_inner c)) (l_outline l) in
  Ok (mkGlif (Some o) (mg_anchors m) (mg_components m) (mg_guidelines m) (map fst (l_images l))
             (mg_width m) (mg_unicode m) (mg_name m) (mg_note m) (mg_filename m) (g_lib (glif_default (PD := PD)))).

(** Assignment to `layers`, src/glif/mfek/traits.rs L100-125. *)
Definition mg_with_layers {H} (m : mglif H) (ls : list layer) : mglif H :=
  mkMG H ls (mg_history m) (mg_anchors m) (mg_components m) (mg_flattened m) (mg_component_rects m)
       (mg_guidelines m) (mg_width m) (mg_unicode m) (mg_name m) (mg_note m) (mg_filename m).

(** src/glif/mfek/traits.rs L116-124 *)
Definition glif_downgrade_ops {H} (m : mglif H) : list (list (option ops)) :=
  map (fun l => downgrade_ops (l_outline l)) (mg_layers m).
(** src/glif/mfek/traits.rs L102-108 over the layers; the layers left behind. *)
Fixpoint layers_upgrade_ops (ls : list layer) (l : list (list (option ops))) : res unit * list layer :=
  match ls with
  | [] => match l with [] => (Ok tt, []) | _ => (Err EMoreVecOpsThanLayers, []) end
  | y :: ls' =>
      match l with
      | [] => (Err EMoreLayersThanVecOps, ls)
      | x :: l' =>
          match upgrade_ops (l_outline y) x with
          | (Ok _, o) => let '(r, ls'') := layers_upgrade_ops ls' l' in (r, l_with_outline y o :: ls'')
          | (Err e, o) => (Err e, l_with_outline y o :: ls')
          | (Panic, o) => (Panic, l_with_outline y o :: ls')
          end
      end
  end.
(** src/glif/mfek/traits.rs L100-115 *)
Definition glif_upgrade_ops {H} (m : mglif H) (l : list (list (option ops))) : res unit * mglif H :=
  let '(r, ls) := layers_upgrade_ops (mg_layers m) l in (r, mg_with_layers m ls).

End Mfek.
Arguments layer : clear implicits.
Arguments mglif : clear implicits.
