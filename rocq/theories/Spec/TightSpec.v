(** Small specifications for the theorems of PropsTight. *)
Require Import Coq.Lists.List Coq.Arith.Arith.
Require Import Verif.Model.Base Verif.Model.Float Verif.Model.Num Verif.Model.Point Verif.Model.Penops Verif.Model.Mfek.
Import ListNotations.

(** Lists of operations put into layers one after the other: a layer takes as many as it has
    contours and keeps its own when there are too few; the first layer whose number does not
    agree is the last one changed. *)
Fixpoint put_ops {A} (old new : list (list A)) : list (list A) :=
  match old, new with
  | [], _ => []
  | _, [] => old
  | o :: old', n :: new' =>
      if length n =? length o then n :: put_ops old' new'
      else (firstn (length o) n ++ skipn (length n) o) :: old'
  end.

(** The point an operation ends in, and the type it should have. *)
Definition end_type_ok (o : penop) : Prop :=
  match o with
  | MoveTo p => gptype p = Move
  | LineTo p => gptype p = Line
  | QuadTo _ p | CurveTo _ _ p => gptype p <> OffCurve
  | Close => True
  end.
Definition regular_float (i : iof) : Prop :=
  match i with IFloat f => is_nan f = false /\ is_subnormal f = false | IInt _ => True end.
Definition good_point (g : glifpoint) : Prop :=
  gptype g <> Undefined /\ regular_float (gx g) /\ regular_float (gy g).

(** The point made for a pen operation that is followed by another one: it stands at the first
    point of the operation; a line into a curve is a curve whose outgoing handle is the last point
    of that curve. *)
Definition place (g : glifpoint) : handle := At (f32_of_iof (gx g)) (f32_of_iof (gy g)).
Definition made_at {PD} (g : glifpoint) (t : ptype) (a b : handle) : point PD :=
  mkPoint (f32_of_iof (gx g)) (f32_of_iof (gy g)) a b None t false None.
Inductive makes {PD} : penop -> penop -> point PD -> Prop :=
| makes_move p n : makes (MoveTo p) n (made_at p Move Colocated Colocated)
| makes_line p n : (forall u v w, n <> CurveTo u v w) -> makes (LineTo p) n (made_at p Line Colocated Colocated)
| makes_line_to_curve p u v w : makes (LineTo p) (CurveTo u v w) (made_at p Curve (place w) Colocated)
| makes_curve p q r n : (forall u v w, n <> CurveTo u v w) -> makes (CurveTo p q r) n (made_at p Curve Colocated (place q))
| makes_curve_to_curve p q r u v w : makes (CurveTo p q r) (CurveTo u v w) (made_at p Curve (place w) (place q)).
(** Two or more points of which the last stands where the first does. *)
Definition meets {PD} (c : list (point PD)) : Prop := exists p m q, c = p :: m ++ [q] /\ feq (px q) (px p) = true /\ feq (py q) (py p) = true.
