(** What the points listed in a file mean, and what writing a contour should list. *)
Require Import Coq.Lists.List Coq.Arith.Arith Coq.ZArith.BinInt.
Require Import Verif.Model.Base Verif.Model.Text Verif.Model.Float Verif.Model.Num Verif.Model.Point Verif.Spec.ContourSpec.
Import ListNotations.

(** Off-curve points of a file. *)
Definition offcurve (g : glifpoint) : bool := match gptype g with OffCurve => true | _ => false end.
Definition oncurves (gc : list glifpoint) : list glifpoint := filter (fun g => negb (offcurve g)) gc.

Definition position (g : glifpoint) : f32 * f32 := (f32_of_iof (gx g), f32_of_iof (gy g)).
(** What a point of a file and a point of an outline have in common. *)
Definition listed (g : glifpoint) := (position g, gname g, gptype g, gsmooth g).
Definition shown {PD} (p : point PD) := ((px p, py p), pname p, pptype p, psmooth p).

Definition placed (g : glifpoint) : handle := At (fst (position g)) (snd (position g)).
(** The segment from [g] to [g'] with the control points [offs] listed between them: the first
    leaves [g], the second enters [g']. *)
Definition listed_segment (g : glifpoint) (offs : list glifpoint) (g' : glifpoint) : segment :=
  mkSeg (position g)
        (match offs with h :: _ => placed h | [] => Colocated end)
        (match offs with _ :: h :: _ => placed h | _ => Colocated end)
        (position g') (gptype g').
(** Walk along the points from on-curve point [g], having passed the off-curve points [offs]. *)
Fixpoint walk (g : glifpoint) (offs l : list glifpoint) : list segment :=
  match l with
  | [] => []
  | h :: t => if offcurve h then walk g (offs ++ [h]) t else listed_segment g offs h :: walk h [] t
  end.
(** The segments of an open and of a closed contour of a file starting with an on-curve point. *)
Definition open_listed (gc : list glifpoint) : list segment :=
  match gc with [] => [] | g :: t => walk g [] t end.
Definition closed_listed (gc : list glifpoint) : list segment :=
  match gc with [] => [] | g :: t => walk g [] (t ++ [g]) end.

(** At most two control points between on-curve points. *)
Definition short_runs (gc : list glifpoint) : Prop :=
  forall l a b c r, gc = l ++ a :: b :: c :: r ->
    ~ (offcurve a = true /\ offcurve b = true /\ offcurve c = true).
(** A cubic contour of a file: starts with an on-curve point, `move` only at the start. *)
Definition cubic_form (gc : list glifpoint) : Prop :=
  exists g t, gc = g :: t /\
    (gptype g = Move \/ gptype g = Line \/ gptype g = Curve) /\
    Forall (fun h => gptype h = OffCurve \/ gptype h = Line \/ gptype h = Curve) t /\
    short_runs gc.

(** A contour from which nothing is read: it starts with an off-curve (or undefined) point, or
    it starts with a `move` and no line or curve follows. *)
Definition unread (gc : list glifpoint) : Prop :=
  exists g t, gc = g :: t /\
   ((gptype g = OffCurve \/ gptype g = Undefined) \/
    (gptype g = Move /\ forall h, In h t -> gptype h = OffCurve \/ gptype h = Undefined \/ gptype h = QClose)).

(** A contour on which reading fails: an empty one, or a `qcurve` in a contour starting with a
    `move`, `line` or `curve`. *)
Definition unreadable (gc : list glifpoint) : Prop :=
  gc = [] \/ exists g t, gc = g :: t /\ (gptype g = Move \/ gptype g = Line \/ gptype g = Curve) /\
    exists h, In h t /\ gptype h = QCurve.

(** [m] lists, in order, what the elements of [l] other than the lost ones correspond to. *)
Inductive kept_in_order {A B} (R : A -> B -> Prop) (lost : A -> Prop) : list A -> list B -> Prop :=
| kept_nil : kept_in_order R lost [] []
| kept_one x y l m : ~ lost x -> R x y -> kept_in_order R lost l m -> kept_in_order R lost (x :: l) (y :: m)
| kept_lost x l m : lost x -> kept_in_order R lost l m -> kept_in_order R lost (x :: l) m.

(** The listed points with one point half way between each two adjacent off-curve points;
    [half] computes a point half way. *)
Section Implied.
Context {PD : Type} (half : glifpoint -> glifpoint -> point PD).
Definition copied (g : glifpoint) : point PD :=
  mkPoint (fst (position g)) (snd (position g)) Colocated Colocated (gname g) (gptype g) (gsmooth g) None.
Fixpoint with_implied (gc : list glifpoint) : list (point PD) :=
  match gc with
  | g :: ((h :: _) as t) =>
      if offcurve g then if offcurve h then copied g :: half g h :: with_implied t
                         else copied g :: with_implied t
      else copied g :: with_implied t
  | [g] => [copied g]
  | [] => []
  end.
End Implied.

(** Half way between two points; the new point takes the name of the second. *)
Definition half_way (L : numlib) (x y : iof) : f32 := f32_of_iof (iof_div_f32 L (iof_add L x y) (f32_of_Z 2%Z)).
Definition half {PD} (L : numlib) (g h : glifpoint) : point PD :=
  mkPoint (half_way L (gx g) (gx h)) (half_way L (gy g) (gy h)) Colocated Colocated (gname h) QCurve false None.
(** The point put between a last off-curve point [h] and the first point [g]. *)
Definition closing {PD} (L : numlib) (h g : glifpoint) : point PD :=
  mkPoint (half_way L (gx h) (iof_of_f32 L (fst (position g)))) (half_way L (gy h) (iof_of_f32 L (snd (position g))))
          Colocated Colocated None QClose false None.

Definition no_adjacent_off {PD} (c : list (point PD)) : Prop :=
  forall l p q r, c = l ++ p :: q :: r -> ~ (pptype p = OffCurve /\ pptype q = OffCurve).

(** Contours as they can be stored: of lines and curves, `move` only at the start. *)
Definition cubic_contour_form {PD} (c : list (point PD)) : Prop :=
  exists p t, c = p :: t /\
    (pptype p = Move /\ t <> [] \/ pptype p = Line \/ pptype p = Curve) /\
    Forall (fun q => pptype q = Line \/ pptype q = Curve) t.

(** Where a handle is. *)
Definition spot {PD} (p : point PD) (h : handle) : handle :=
  match h with At x y => At x y | Colocated => At (px p) (py p) end.

(** [c'] is [c] as a file can hold it: the points agree; the handles along a curve are placed
    (where there was none, on the point); there are none along lines and before the start of
    an open contour. *)
Definition stored_as {PD} (c c' : list (point PD)) : Prop :=
  length c' = length c /\
  forall i p q, nth_error c i = Some p -> nth_error c (next_of (length c) i) = Some q ->
    exists p', nth_error c' i = Some p' /\ shown p' = shown p /\ pdata p' = None /\
      pa p' = (match pptype q with Curve => spot p (pa p) | _ => Colocated end) /\
      pb p' = (match pptype p with Curve => spot p (pb p) | _ => Colocated end).

(** The same contour starting one point earlier. *)
Definition one_earlier {A} (l l' : list A) : Prop := exists x m, l = m ++ [x] /\ l' = x :: m.

(** What is written for a point of a quadratic contour: a `qcurve` point with a control point in
    the same place; nothing for a control point. *)
Definition off_at (L : numlib) {PD} (p : point PD) : glifpoint :=
  mkGP (iof_of_f32 L (px p)) (iof_of_f32 L (py p)) false None OffCurve.
Definition on_at (L : numlib) {PD} (p : point PD) : glifpoint :=
  mkGP (iof_of_f32 L (px p)) (iof_of_f32 L (py p)) (psmooth p) (pname p) (pptype p).
Definition quad_written (L : numlib) {PD} (p : point PD) : list glifpoint :=
  match pptype p with
  | QCurve => [off_at L p; on_at L p]
  | OffCurve => []
  | _ => [on_at L p]
  end.

(** A quadratic contour of a file. *)
Definition quadratic_form (gc : list glifpoint) : Prop :=
  exists g t, gc = g :: t /\ gptype g = QCurve /\
    Forall (fun h => gptype h = OffCurve \/ gptype h = Line \/ gptype h = QCurve) t.

(** A contour that a file can hold as it is: handles placed along curves, none along lines and
    at the ends of an open contour, no data attached to points. *)
Definition storable {PD} (c : list (point PD)) : Prop :=
  forall i p q, nth_error c i = Some p -> nth_error c (next_of (length c) i) = Some q ->
    pdata p = None /\
    (pa p = Colocated <-> pptype q <> Curve) /\
    (pb p = Colocated <-> pptype p <> Curve).
