(** Which float a number is rounded to, and which number a decimal text means. *)
Require Import Coq.Strings.String Coq.Lists.List Coq.NArith.NArith Coq.ZArith.ZArith Coq.QArith.QArith Coq.QArith.Qabs Coq.Floats.SpecFloat.
Require Import Verif.Model.Base Verif.Model.Text Verif.Model.Float Verif.Model.Num Verif.Spec.TextSpec Verif.Spec.MfekSpec Verif.Spec.AccuracySpec.
Import ListNotations.
Local Open Scope Q_scope.

(** The last bit of the mantissa is zero. *)
Definition even_mantissa (f : spec_float) : Prop :=
  match f with S754_zero _ => True | S754_finite _ m _ => Z.even (Zpos m) = true | _ => False end.
(** The sign bit. *)
Definition negative (f : spec_float) : bool :=
  match f with S754_zero s | S754_infinity s | S754_finite s _ _ => s | S754_nan => false end.

(** From half a step above the greatest finite float on, numbers are rounded to infinity. *)
Definition overflows32 (x : Q) : Prop := 2 ^ 128 - 2 ^ 103 <= Qabs x.

(** [f] is the 32-bit float that [x] is rounded to: none is nearer, of two that are equally near
    it is the one with an even mantissa, and it is infinite if [x] is too large. *)
Definition rounded32 (x : Q) (f : f32) : Prop :=
  match f with
  | S754_nan => False
  | S754_infinity s => overflows32 x /\ (s = true <-> x < 0)
  | _ => ~ overflows32 x /\ exists q, float32 f q /\
      forall g v, float32 g v -> Qabs (q - x) <= Qabs (v - x) /\ (Qabs (q - x) == Qabs (v - x) -> v == q \/ even_mantissa f)
  end.

(** * Decimal texts *)
Definition sign_text (s : str) (neg : bool) : Prop :=
  (s = [] /\ neg = false) \/ (s = lit "+" /\ neg = false) \/ (s = lit "-" /\ neg = true).
(** An exponent may be missing. *)
Definition exponent_text (s : str) (k : Z) : Prop :=
  (s = [] /\ k = 0%Z) \/
  exists e sg d neg n, s = e :: sg ++ d /\ (e = 101%N \/ e = 69%N) /\ sign_text sg neg /\ denotes 10 d n /\
    k = (if neg then - Z.of_N n else Z.of_N n)%Z.
(** A sign, digits with perhaps a point among them or at an end, an exponent; [neg] tells
    whether there is a minus sign and [x] is the number meant, without the sign. *)
Definition decimal_text (t : str) (neg : bool) (x : Q) : Prop :=
  exists sg ip fp ex n k, sign_text sg neg /\ exponent_text ex k /\
    (t = sg ++ ip ++ fp ++ ex /\ fp = [] \/ t = sg ++ ip ++ lit "." ++ fp ++ ex) /\
    denotes 10 (ip ++ fp) n /\
    x == inject_Z (Z.of_N n) * 10 ^ (k - Z.of_nat (List.length fp)).
Definition signed (neg : bool) (x : Q) : Q := if neg then - x else x.
(** The other texts that are floats. *)
Definition infinite_text (t : str) (neg : bool) : Prop :=
  exists sg w, t = sg ++ w /\ sign_text sg neg /\ (same_ignoring_case w (lit "inf") \/ same_ignoring_case w (lit "infinity")).
Definition nan_text (t : str) : Prop :=
  exists sg w neg, t = sg ++ w /\ sign_text sg neg /\ same_ignoring_case w (lit "nan").

(** What a text is read as, if anything. *)
Definition text_of_float (t : str) (f : f32) : Prop :=
  (exists neg x, decimal_text t neg x /\ rounded32 (signed neg x) f /\ negative f = neg) \/
  (exists neg, infinite_text t neg /\ f = S754_infinity neg) \/
  (nan_text t /\ f = S754_nan).

(** Two coordinates of a file that are added without being rounded before: both are integers
    whose sum is an i32, or each is a float or an integer that is one. *)
Definition exact_addends (a b : iof) : Prop :=
  match a, b with
  | IInt x, IInt y => i32 (x + y)
  | IInt z, IFloat _ | IFloat _, IInt z => (Z.abs z <= 2 ^ 24)%Z
  | IFloat _, IFloat _ => True
  end.
