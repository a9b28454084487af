(** Kurbo paths.  src/outline/kurbo.rs, src/outline/quad_to_cubic.rs. *)
Require Import Coq.Lists.List Coq.Bool.Bool Coq.Arith.Arith Coq.ZArith.ZArith.
Require Import Verif.Model.Base Verif.Model.Float Verif.Model.Num Verif.Model.Point
  Verif.Model.Contour Verif.Model.Refigure Verif.Model.Penops.
Import ListNotations.

(** kurbo::PathEl (external crate)
    src/outline/kurbo.rs L14-85. *)
Inductive pathel :=
| KMoveTo (p : f64 * f64)
| KLineTo (p : f64 * f64)
| KQuadTo (a p : f64 * f64)
| KCurveTo (a b p : f64 * f64)
| KClosePath.

(** src/outline/kurbo.rs L14-24 *)
Definition ptype_of_pathel (e : pathel) : ptype :=
  match e with
  | KMoveTo _ => Move | KLineTo _ => Line | KQuadTo _ _ => QCurve | KCurveTo _ _ _ => Curve
  | KClosePath => QClose
  end.

(** src/outline/kurbo.rs L137-147 *)
Definition into_kpoint_vec (e : pathel) : list (f64 * f64) :=
  match e with
  | KMoveTo p => [p]
  | KLineTo p => [p]
  | KQuadTo a p => [p; a]
  | KCurveTo a b p => [p; b; a]
  | KClosePath => []
  end.

(** `as_kpoint` (src/point.rs via PointLike::x64, y64)
    src/point/valid.rs L21-25. *)
Definition as_kpoint (g : glifpoint) : f64 * f64 := (f64_of_iof (gx g), f64_of_iof (gy g)).

(** src/outline/kurbo.rs L48-60 *)
Definition pathel_of_penop (o : penop) : pathel :=
  match o with
  | MoveTo p => KMoveTo (as_kpoint p)
  | LineTo p => KLineTo (as_kpoint p)
  | QuadTo a p => KQuadTo (as_kpoint a) (as_kpoint p)
  | CurveTo a b p => KCurveTo (as_kpoint a) (as_kpoint b) (as_kpoint p)
  | Close => KClosePath
  end.

Section Kurbo.
Context (L : numlib) {PD : Type}.

(** `GlifPoint::from_x_y_type((gp.x as f32, gp.y as f32), t)`, src/outline/kurbo.rs L65-81. *)
Definition gp_of_kpoint (k : f64 * f64) (t : ptype) : glifpoint :=
  gp_from_x_y_type L (f32_of_f64 (fst k)) (f32_of_f64 (snd k)) t.

(** src/outline/kurbo.rs L62-85: note that the on-curve point comes first. *)
Definition penop_of_pathel (e : pathel) : penop :=
  match e with
  | KMoveTo p => MoveTo (gp_of_kpoint p Move)
  | KLineTo p => LineTo (gp_of_kpoint p Line)
  | KQuadTo a p => QuadTo (gp_of_kpoint p OffCurve) (gp_of_kpoint a QCurve)
  | KCurveTo a b p => CurveTo (gp_of_kpoint p OffCurve) (gp_of_kpoint b OffCurve) (gp_of_kpoint a Curve)
  | KClosePath => Close
  end.

(** src/outline/kurbo.rs L112-122 *)
Definition contour_into_kurbo_vec (c : contour PD) : res (list pathel) :=
  let* r := into_pen_operations L c in Ok (map pathel_of_penop (fst r)).

(** src/outline/kurbo.rs L97-109: contours that give an error are dropped. *)
Fixpoint outline_into_kurbo_vec (o : outline PD) : res (list pathel) :=
  match o with
  | [] => Ok []
  | c :: o =>
      match contour_into_kurbo_vec c with
      | Panic => Panic
      | Err _ => outline_into_kurbo_vec o
      | Ok v => let* vs := outline_into_kurbo_vec o in Ok (v ++ vs)
      end
  end.

(** src/outline/kurbo.rs L149-155 *)
Definition outline_from_kurbo (path : list pathel) : res (outline PD) :=
  let* ks := split_pen_operations (map penop_of_pathel path) in
  penops_to_outline ks.

End Kurbo.

(** src/outline/quad_to_cubic.rs L9-18: the four coordinates computed in one dimension, for any
    arithmetic (the code is generic in the point type); [scale] is `(2./3.) *`. *)
Section QuadToCubic.
Context {F : Type} (add sub : F -> F -> F) (scale : F -> F).
(** src/outline/quad_to_cubic.rs L9-18, one coordinate, over any arithmetic. *)
Definition quad_to_cubic_coords (p0 p1 p2 : F) : F * F * F * F :=
  (p0, add p0 (scale (sub p1 p0)), add p2 (scale (sub p1 p2)), p2).
End QuadToCubic.

(** src/outline/quad_to_cubic.rs L9-18 for [Point], whose coordinates are f32. *)
Definition two_thirds32 : f32 := div32 (f32_of_Z 2) (f32_of_Z 3).
(** src/outline/quad_to_cubic.rs L9-18, one coordinate. *)
Definition quad_to_cubic_coord : f32 -> f32 -> f32 -> f32 * f32 * f32 * f32 :=
  quad_to_cubic_coords add32 sub32 (mul32 two_thirds32).
(** src/outline/quad_to_cubic.rs L9-18. *)
Definition quad_to_cubic {PD} (p0 p1 p2 : point PD) : point PD * point PD * point PD * point PD :=
  let '(_, x1, x2, _) := quad_to_cubic_coord (px p0) (px p1) (px p2) in
  let '(_, y1, y2, _) := quad_to_cubic_coord (py p0) (py p1) (py p2) in
  (p0, with_xy point_default x1 y1, with_xy point_default x2 y2, p2).
