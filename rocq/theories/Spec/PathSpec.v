(** What pen operations draw; closed cubic paths; Bezier curves. *)
Require Import Coq.Lists.List Coq.Arith.Arith Coq.QArith.QArith.
Require Import Verif.Model.Base Verif.Model.Float Verif.Model.Num Verif.Model.Point Verif.Model.Penops
  Verif.Model.Kurbo Verif.Spec.ContourSpec.
Import ListNotations.
Local Open Scope nat_scope.

(** * What a pen draws *)
Definition place : Type := iof * iof.
Inductive drawn :=
| DLine (p q : place)
| DQuad (p a q : place)
| DCurve (p a b q : place).
Definition at_gp (g : glifpoint) : place := (gx g, gy g).

(** [draws start cur ops l]: with the pen at [cur] in a subpath begun at [start], the
    operations draw l.  Nothing can be drawn before a MoveTo.  Closing draws the line back to
    the start; none is needed if the pen is already there. *)
Inductive draws : option (place * place) -> list penop -> list drawn -> Prop :=
| draws_end st : draws st [] []
| draws_move st p ops l : draws (Some (at_gp p, at_gp p)) ops l -> draws st (MoveTo p :: ops) l
| draws_line s c p ops l : draws (Some (s, at_gp p)) ops l ->
    draws (Some (s, c)) (LineTo p :: ops) (DLine c (at_gp p) :: l)
| draws_quad s c a p ops l : draws (Some (s, at_gp p)) ops l ->
    draws (Some (s, c)) (QuadTo a p :: ops) (DQuad c (at_gp a) (at_gp p) :: l)
| draws_curve s c a b p ops l : draws (Some (s, at_gp p)) ops l ->
    draws (Some (s, c)) (CurveTo a b p :: ops) (DCurve c (at_gp a) (at_gp b) (at_gp p) :: l)
| draws_close s c ops l : draws (Some (s, s)) ops l ->
    draws (Some (s, c)) (Close :: ops) (DLine c s :: l)
| draws_close_there s ops l : draws (Some (s, s)) ops l -> draws (Some (s, s)) (Close :: ops) l.

(** What a segment of a contour looks like: a line or a cubic curve according to the type of the
    point it ends in; a missing handle lies on its point. *)
Section Segments.
Context (L : numlib).
Definition num_at (p : f32 * f32) : place := (iof_of_f32 L (fst p), iof_of_f32 L (snd p)).
Definition handle_at (p : f32 * f32) (h : handle) : f32 * f32 :=
  match h with At x y => (x, y) | Colocated => p end.
Definition look (s : segment) : drawn :=
  match sg_kind s with
  | Line => DLine (num_at (sg_from s)) (num_at (sg_to s))
  | _ => DCurve (num_at (sg_from s)) (num_at (handle_at (sg_from s) (sg_out s)))
                (num_at (handle_at (sg_to s) (sg_in s))) (num_at (sg_to s))
  end.
End Segments.

(** * Closed cubic paths, with coordinates that are f32 values *)
Record cubic := mkCubic { c_one : f32 * f32; c_two : f32 * f32; c_to : f32 * f32 }.
Record closed_path := mkLoop { l_start : f32 * f32; l_segs : list cubic }.

Definition wide (p : f32 * f32) : f64 * f64 := (f64_of_f32 (fst p), f64_of_f32 (snd p)).
(** The path as kurbo elements. *)
Definition elements (l : closed_path) : list pathel :=
  KMoveTo (wide (l_start l)) ::
  map (fun s => KCurveTo (wide (c_one s)) (wide (c_two s)) (wide (c_to s))) (l_segs l) ++ [KClosePath].

Definition same_place (p q : f32 * f32) : Prop :=
  feq (fst p) (fst q) = true /\ feq (snd p) (snd q) = true.
Definition end_of (start : f32 * f32) (l : list cubic) : f32 * f32 := last (map c_to l) start.
(** No segment has both its control points on its ends. *)
Fixpoint bent (start : f32 * f32) (l : list cubic) : Prop :=
  match l with
  | [] => True
  | s :: t => ~ (same_place (c_one s) start /\ same_place (c_two s) (c_to s)) /\ bent (c_to s) t
  end.
(** A number of the path: not a NaN, and kept by the numbers of glif points. *)
Definition kept (L : numlib) (x : f32) : Prop :=
  valid32 x = true /\ is_nan x = false /\ f32_of_iof (iof_of_f32 L x) = x /\
  f64_of_iof (iof_of_f32 L x) = f64_of_f32 x.
Definition kept2 L (p : f32 * f32) : Prop := kept L (fst p) /\ kept L (snd p).
Definition kept_cubic L (s : cubic) : Prop := kept2 L (c_one s) /\ kept2 L (c_two s) /\ kept2 L (c_to s).

Definition closed_cubic (L : numlib) (l : closed_path) : Prop :=
  2 <= length (l_segs l) /\ same_place (end_of (l_start l) (l_segs l)) (l_start l) /\
  kept2 L (l_start l) /\ Forall (kept_cubic L) (l_segs l).

(** One point per segment, at the start of the segment; its outgoing handle is the first
    control point of its segment, its incoming handle the second one of the segment before. *)
Fixpoint points_of {PD} (start before : f32 * f32) (l : list cubic) : list (point PD) :=
  match l with
  | [] => []
  | s :: t =>
      mkPoint (fst start) (snd start) (At (fst (c_one s)) (snd (c_one s))) (At (fst before) (snd before))
              None Curve false None
      :: points_of (c_to s) (c_two s) t
  end.
Definition contour_of {PD} (l : closed_path) : list (point PD) :=
  points_of (l_start l) (last (map c_two (l_segs l)) (l_start l)) (l_segs l).

(** Elements equal but for the sign of zeros. *)
Definition same64 (p q : f64 * f64) : Prop := feq (fst p) (fst q) = true /\ feq (snd p) (snd q) = true.
Definition same_element (e f : pathel) : Prop :=
  match e, f with
  | KMoveTo p, KMoveTo q => same64 p q
  | KLineTo p, KLineTo q => same64 p q
  | KQuadTo a p, KQuadTo b q => same64 a b /\ same64 p q
  | KCurveTo a b p, KCurveTo c d q => same64 a c /\ same64 b d /\ same64 p q
  | KClosePath, KClosePath => True
  | _, _ => False
  end.

(** * Which paths can be read *)
Definition is_quad (e : pathel) : Prop := match e with KQuadTo _ _ => True | _ => False end.
Definition neither_move_nor_close (e : pathel) : Prop :=
  match e with KMoveTo _ | KClosePath => False | _ => True end.
(** A ClosePath with no MoveTo since the last ClosePath, or since the beginning. *)
Definition stray_close (path : list pathel) : Prop :=
  exists pre mid post, path = pre ++ mid ++ KClosePath :: post /\
    Forall neither_move_nor_close mid /\ (pre = [] \/ exists pre', pre = pre' ++ [KClosePath]).

(** * Bezier curves in exact arithmetic *)
Definition quad_at (p0 p1 p2 t : Q) : Q :=
  ((1 - t) * (1 - t) * p0 + 2 * (1 - t) * t * p1 + t * t * p2)%Q.
Definition cubic_at (p0 p1 p2 p3 t : Q) : Q :=
  ((1 - t) * (1 - t) * (1 - t) * p0 + 3 * (1 - t) * (1 - t) * t * p1
   + 3 * (1 - t) * t * t * p2 + t * t * t * p3)%Q.

(** * Pen operations *)
(** No point is at the place of the next one. *)
Definition spread (L : numlib) {PD} (c : list (point PD)) : Prop :=
  forall i p q, nth_error c i = Some p -> nth_error c (S i) = Some q ->
    num_at L (px p, py p) <> num_at L (px q, py q).
(** Numbers a valid point may have. *)
Definition regular (i : iof) : Prop :=
  match i with IInt _ => True | IFloat f => is_subnormal f = false /\ is_nan f = false end.
(** All points and handles of a contour have such coordinates. *)
Definition regular_place (L : numlib) (x y : f32) : Prop := regular (iof_of_f32 L x) /\ regular (iof_of_f32 L y).
Definition regular_handle (L : numlib) (h : handle) : Prop :=
  match h with At x y => regular_place L x y | Colocated => True end.
Definition regular_contour (L : numlib) {PD} (c : list (point PD)) : Prop :=
  forall p, In p c -> regular_place L (px p) (py p) /\ regular_handle L (pa p) /\ regular_handle L (pb p).
(** A Close with no MoveTo since the last Close, or since the beginning. *)
Definition neither_move_nor_close_op (o : penop) : Prop := match o with MoveTo _ | Close => False | _ => True end.
Definition stray_close_op (ops : list penop) : Prop :=
  exists pre mid post, ops = pre ++ mid ++ Close :: post /\
    Forall neither_move_nor_close_op mid /\ (pre = [] \/ exists pre', pre = pre' ++ [Close]).
(** A subpath: a start, operations that draw, and whether it is closed. *)
Record subpath := mkSub { sub_start : glifpoint; sub_draw : list penop; sub_closed : bool }.
Definition proper_subpath (s : subpath) : Prop := Forall neither_move_nor_close_op (sub_draw s).
Definition sub_ops (s : subpath) : list penop :=
  MoveTo (sub_start s) :: sub_draw s ++ (if sub_closed s then [Close] else []).
Definition is_move (o : penop) : Prop := exists g, o = MoveTo g.
(** How it comes out of splitting: the Close is gone, and the start of a closed one has become
    a curve onto itself. *)
Definition sub_piece (s : subpath) : list penop :=
  (if sub_closed s then CurveTo (sub_start s) (sub_start s) (sub_start s) else MoveTo (sub_start s)) :: sub_draw s.
