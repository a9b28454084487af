(** What a contour draws, and what "open", "closed" and "neighbour" mean. *)
Require Import Coq.Lists.List Coq.Arith.Arith.
Require Import Verif.Model.Base Verif.Model.Float Verif.Model.Num Verif.Model.Point.
Import ListNotations.

Section Spec.
Context {PD : Type}.
Implicit Types c : list (point PD).

(** Two or more points; a first point of type Move opens the contour. *)
Definition opened c : Prop := exists p q t, c = p :: q :: t /\ pptype p = Move.
Definition closed c : Prop := exists p q t, c = p :: q :: t /\ pptype p <> Move.

(** Cyclic neighbours in a sequence of n elements. *)
Definition next_of (n i : nat) : nat := (i + 1) mod n.
Definition prev_of (n i : nat) : nat := (i + (n - 1)) mod n.

(** A segment: from where, the handle leaving the start, the handle entering the end, to
    where, and the kind given by the type of the point it ends in. *)
Record segment := mkSeg {
  sg_from : f32 * f32; sg_out : handle; sg_in : handle; sg_to : f32 * f32; sg_kind : ptype
}.
Definition seg_between (p q : point PD) : segment :=
  mkSeg (px p, py p) (pa p) (pb q) (px q, py q) (pptype q).
Fixpoint segs_from (p : point PD) (l : list (point PD)) : list segment :=
  match l with
  | [] => []
  | q :: t => seg_between p q :: segs_from q t
  end.
(** The segments of an open and of a closed contour. *)
Definition open_segments c : list segment :=
  match c with [] => [] | p :: t => segs_from p t end.
Definition closed_segments c : list segment :=
  match c with [] => [] | p :: t => segs_from p (t ++ [p]) end.

(** The same segment traversed the other way. *)
Definition flip (s : segment) : segment :=
  mkSeg (sg_to s) (sg_in s) (sg_out s) (sg_from s) (sg_kind s).
(** A segment without its kind. *)
Definition stroke (s : segment) : (f32 * f32) * handle * handle * (f32 * f32) :=
  (sg_from s, sg_out s, sg_in s, sg_to s).

(** The kind a segment has according to its handles. *)
Definition kind_of (out inn : handle) : ptype :=
  match out, inn with Colocated, Colocated => Line | _, _ => Curve end.
Definition kinds_agree (l : list segment) : Prop :=
  forall s, In s l -> sg_kind s = kind_of (sg_out s) (sg_in s).

(** The point seen from the other direction. *)
Definition swapped (p : point PD) : point PD :=
  mkPoint (px p) (py p) (pb p) (pa p) (pname p) (pptype p) (psmooth p) (pdata p).
(** A point without its type. *)
Definition untyped (p : point PD) :=
  (px p, py p, pa p, pb p, pname p, psmooth p, pdata p).

(** An open contour has nothing attached beyond its ends. *)
Definition clean_ends c : Prop :=
  forall p t, c = p :: t -> pb p = Colocated /\ pa (last c p) = Colocated.

(** [p'] is [p] except for the smooth flag. *)
Definition same_but_smooth (p p' : point PD) : Prop :=
  px p' = px p /\ py p' = py p /\ pa p' = pa p /\ pb p' = pb p /\
  pname p' = pname p /\ pptype p' = pptype p /\ pdata p' = pdata p.

End Spec.

(** Handles lying exactly on their point (IEEE equality of both coordinates). *)
Definition on_point {PD} (p : point PD) (h : handle) : Prop :=
  exists x y, h = At x y /\ feq x (px p) = true /\ feq y (py p) = true.
(** [h'] is [h], except that a handle lying on its point is removed. *)
Definition tidied {PD} (p : point PD) (h h' : handle) : Prop :=
  (on_point p h /\ h' = Colocated) \/ (~ on_point p h /\ h' = h).
(** [p'] is [p] with tidied handles and possibly another type. *)
Definition same_but_tidied {PD} (p p' : point PD) : Prop :=
  px p' = px p /\ py p' = py p /\ pname p' = pname p /\ psmooth p' = psmooth p /\ pdata p' = pdata p /\
  tidied p (pa p) (pa p') /\ tidied p (pb p) (pb p').

(** All segments are of the same kind. *)
Definition one_kind (l : list segment) : Prop := forall s s', In s l -> In s' l -> sg_kind s = sg_kind s'.

(** Whether point p is smooth as decided by two handles a and b: both placed, and p within the
    tolerance of the segment between them; [dist] is the distance of a point (last two
    arguments) to a segment. *)
Definition smooth_from {PD} (dist : f64 -> f64 -> f64 -> f64 -> f64 -> f64 -> f64)
  (p : point PD) (a b : handle) (within : f32) : bool :=
  match a, b with
  | At x1 y1, At x2 y2 =>
      fle (dist (f64_of_f32 x1) (f64_of_f32 y1) (f64_of_f32 x2) (f64_of_f32 y2)
                (f64_of_f32 (px p)) (f64_of_f32 (py p))) (f64_of_f32 within)
  | _, _ => false
  end.

(** A closed contour whose last point has its outgoing handle on itself while the first point
    has no incoming handle, or one lying on itself. *)
Definition late_start {PD} (c : list (point PD)) : Prop :=
  closed c /\ exists p l, nth_error c 0 = Some p /\ nth_error c (length c - 1) = Some l /\
    on_point l (pa l) /\ (pb p = Colocated \/ on_point p (pb p)).
