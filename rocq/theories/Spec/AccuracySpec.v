(** Accuracy of computed coordinates. *)
Require Import Coq.Lists.List Coq.ZArith.ZArith Coq.QArith.QArith Coq.QArith.Qabs Coq.Floats.SpecFloat.
Require Import Verif.Model.Float Verif.Model.Num Verif.Model.Point Verif.Model.Component Verif.Spec.MfekSpec.
Import ListNotations.
Local Open Scope Q_scope.

(** The float is finite and its value differs from [x] by at most [err]. *)
Definition within (f : spec_float) (x err : Q) : Prop := exists q, value f = Some q /\ Qabs (q - x) <= err.

(** The exact value of a number of a file, an integer or a 32-bit float. *)
Definition number (i : iof) (x : Q) : Prop :=
  match i with IInt z => inject_Z z == x | IFloat f => valid32 f = true /\ same_value f x end.

(** A sum or difference of two numbers of a file that, if both are integers, is again an i32. *)
Definition i32 (z : Z) : Prop := (-2147483648 <= z <= 2147483647)%Z.
Definition sum_fits (a b : iof) : Prop := match a, b with IInt x, IInt y => i32 (x + y) | _, _ => True end.
Definition difference_fits (a b : iof) : Prop := match a, b with IInt x, IInt y => i32 (x - y) | _, _ => True end.

(** A 32-bit float and its exact value; likewise 64 bits. *)
Definition float32 (f : f32) (x : Q) : Prop := valid32 f = true /\ same_value f x.
Definition float64 (f : f64) (x : Q) : Prop := valid64 f = true /\ same_value f x.

(** The exact image of (x, y) under a matrix of rationals (a, b, c, d, e, f), and the sizes of
    what is added up. *)
Definition qapply (a b c d e f x y : Q) : Q * Q := (a * x + c * y + e, b * x + d * y + f).
Definition qsizes (a b c d e f x y : Q) : Q * Q :=
  (Qabs (a * x) + Qabs (c * y) + Qabs e, Qabs (b * x) + Qabs (d * y) + Qabs f).
(** A matrix of floats and its exact coefficients. *)
Definition has_coefficients (m : affine) (a b c d e f : Q) : Prop :=
  float64 (c0 m) a /\ float64 (c1 m) b /\ float64 (c2 m) c /\ float64 (c3 m) d /\ float64 (c4 m) e /\ float64 (c5 m) f.

(** A matrix of rationals, (a, b, c, d, e, f), and the exact image of a position. *)
Definition qmatrix := (Q * Q * Q * Q * Q * Q)%type.
Definition coefficients (m : affine) (q : qmatrix) : Prop := let '(a, b, c, d, e, f) := q in has_coefficients m a b c d e f.
Definition qmove (p : Q * Q) (q : qmatrix) : Q * Q := let '(a, b, c, d, e, f) := q in qapply a b c d e f (fst p) (snd p).
(** From the sizes of two coordinates, those of their images: all terms counted positive, and a
    little for the smallest floats. *)
Definition grow (s : Q * Q) (q : qmatrix) : Q * Q :=
  let '(a, b, c, d, e, f) := q in
  (Qabs a * fst s + Qabs c * snd s + Qabs e + 2 ^ (-126), Qabs b * fst s + Qabs d * snd s + Qabs f + 2 ^ (-126)).
(** On the way through the matrices nothing comes near the largest float. *)
Fixpoint sizes_fit (s : Q * Q) (qs : list qmatrix) : Prop :=
  match qs with
  | [] => True
  | q :: qs => fst (grow s q) <= 2 ^ 125 /\ snd (grow s q) <= 2 ^ 125 /\ sizes_fit (grow s q) qs
  end.

(** [gx], [gy] are where the matrices [qs], one after the other, put [fx], [fy], up to 2^-22 of
    the sizes for each matrix. *)
Definition near_image (qs : list qmatrix) (fx fy gx gy : f32) : Prop :=
  forall x y, float32 fx x -> float32 fy y -> sizes_fit (Qabs x, Qabs y) qs ->
  let p := fold_left qmove qs (x, y) in
  let s := fold_left grow qs (Qabs x, Qabs y) in
  let n := inject_Z (Z.of_nat (length qs)) in
  within gx (fst p) (n * 2 ^ (-22) * fst s) /\ within gy (snd p) (n * 2 ^ (-22) * snd s).
Definition near_handle (qs : list qmatrix) (h h' : handle) : Prop :=
  match h, h' with Colocated, Colocated => True | At x y, At x' y' => near_image qs x y x' y' | _, _ => False end.
(** A point and its handles. *)
Definition near_point {PD : Type} (qs : list qmatrix) (p q : point PD) : Prop :=
  near_image qs (px p) (py p) (px q) (py q) /\ near_handle qs (pa p) (pa q) /\ near_handle qs (pb p) (pb q) /\
  pname q = pname p /\ pptype q = pptype p /\ psmooth q = psmooth p /\ pdata q = pdata p.
