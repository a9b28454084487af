(** Which numbers are meant in statements about Rust's own number formats. *)
Require Import Coq.ZArith.ZArith Coq.Floats.SpecFloat.
Require Import Verif.Model.Float Verif.Model.Num.

(** An i32, or any binary32 value (infinities and NaN included) other than -0.0. *)
Definition iof_ok (i : iof) : Prop :=
  match i with
  | IInt z => (-2147483648 <= z <= 2147483647)%Z
  | IFloat g => valid32 g = true /\ g <> S754_zero true
  end.
