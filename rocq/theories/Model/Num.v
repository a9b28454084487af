(** [IntegerOrFloat] (crate `integer_or_float`, not in /repo) and the text conversions of
    numbers.  The constructors `Integer(i32)`/`Float(f32)` and the conversions to f32/f64 are
    fixed by their uses in /repo (src/outline/refigure.rs L95, src/component.rs L60,
    src/anchor.rs L62, src/point/valid.rs L79-92).  Everything else about the crate and about
    the printing and parsing of floats is a field of [numlib], over which the model
    quantifies. *)
Require Import Coq.ZArith.ZArith Coq.Floats.SpecFloat.
Require Import Verif.Model.Base Verif.Model.Float.

(** `IntegerOrFloat` (crate integer_or_float), src/point.rs L18-39. *)
Inductive iof := IInt (z : Z) | IFloat (f : f32).

(** `f32::from(iof)`, `f64::from(iof)`.
    src/point/valid.rs L19-20. *)
Definition f32_of_iof (i : iof) : f32 :=
  match i with IInt z => f32_of_Z z | IFloat f => f end.
(** src/point/valid.rs L21-22. *)
Definition f64_of_iof (i : iof) : f64 :=
  match i with IInt z => f64_of_Z z | IFloat f => f64_of_f32 f end.

(** `holding_integer().is_ok()`.
    src/anchor.rs L62. *)
Definition holding_integer (i : iof) : bool :=
  match i with IInt _ => true | IFloat _ => false end.

(** Parsing and printing at src/glif/read.rs L101-110, L147, L244, src/point/xml.rs L9-10, src/color.rs L39, L54. *)
Record numlib := {
  f32_show : f32 -> str;               (* f32::to_string *)
  f32_read : str -> option f32;        (* str::parse::<f32> *)
  iof_show : iof -> str;               (* IntegerOrFloat::to_string *)
  iof_read : str -> option iof;        (* IntegerOrFloat: FromStr / TryFrom<&str> *)
  iof_of_f32 : f32 -> iof;             (* From<f32> *)
  iof_default : iof;                   (* Default *)
  iof_add : iof -> iof -> iof;         (* + *)
  iof_sub : iof -> iof -> iof;         (* - *)
  iof_rmul : f32 -> iof -> iof;        (* f32 * IntegerOrFloat *)
  iof_div_f32 : iof -> f32 -> iof;     (* / with an f32 *)
  iof_eqb : iof -> iof -> bool         (* PartialEq *)
}.
