(** IEEE-754 binary32 / binary64 values as [spec_float] (one NaN), and the conversions of the
    Rust language used by the code (`as f32`, `as f64`, `as u64`, `as i32`, `round`). *)
Require Import Coq.ZArith.ZArith Coq.NArith.NArith Coq.Floats.SpecFloat Coq.Bool.Bool.
Local Open Scope Z_scope.

(** Rust `f32`, IEEE 754 binary32 (coordinates of src/point.rs L140-157). *)
Definition f32 := spec_float.
(** Rust `f64`, IEEE 754 binary64 (src/matrix.rs L31-43). *)
Definition f64 := spec_float.

(** binary32: parameters of `f32` (src/point.rs L140-157). *)
Definition prec32 := 24. Definition emax32 := 128.
(** binary64: parameters of `f64` (src/matrix.rs L31-43). *)
Definition prec64 := 53. Definition emax64 := 1024.

(** The bit patterns of `f32` (src/point.rs L140-157). *)
Definition valid32 (f : f32) : bool := valid_binary prec32 emax32 f.
(** The bit patterns of `f64` (src/matrix.rs L31-43). *)
Definition valid64 (f : f64) : bool := valid_binary prec64 emax64 f.

(** f32 `+` (src/outline/create.rs L15, src/outline/quad_to_cubic.rs L12-15). *)
Definition add32 := SFadd prec32 emax32.
(** f32 `-` (src/outline/quad_to_cubic.rs L12-15). *)
Definition sub32 := SFsub prec32 emax32.
(** f32 `*` (src/outline/quad_to_cubic.rs L12-15). *)
Definition mul32 := SFmul prec32 emax32.
(** f32 `/` (src/outline/create.rs L15). *)
Definition div32 := SFdiv prec32 emax32.
(** f64 `+` inside kurbo (src/matrix.rs L31, src/outline/contour.rs L160-197). *)
Definition add64 := SFadd prec64 emax64.
(** f64 `-` inside kurbo (src/outline/contour.rs L160-197). *)
Definition sub64 := SFsub prec64 emax64.
(** f64 `*` inside kurbo (src/matrix.rs L31, src/outline/contour.rs L160-197). *)
Definition mul64 := SFmul prec64 emax64.
(** f64 `/` inside kurbo (src/outline/contour.rs L160-197). *)
Definition div64 := SFdiv prec64 emax64.
(** `f64::sqrt`, src/outline/contour.rs L192. *)
Definition sqrt64 := SFsqrt prec64 emax64.

(** Rust `==`, `<`, `>`, `<=` on floats.
    src/outline/refigure.rs L29, L34; src/outline/conv/penops.rs L263. *)
Definition feq (a b : spec_float) : bool := SFeqb a b.
(** src/component.rs L188-199. *)
Definition flt (a b : spec_float) : bool := SFltb a b.
(** src/outline/contour.rs L192. *)
Definition fle (a b : spec_float) : bool := SFleb a b.

(** `z as f32`, `z as f64` for an integer.
    Integer branch of `f32::from(IntegerOrFloat)`, src/outline/refigure.rs L95. *)
Definition f32_of_Z (z : Z) : f32 := binary_normalize prec32 emax32 z 0 false.
(** Integer branch of `f64::from(IntegerOrFloat)`, src/point/valid.rs L21-22. *)
Definition f64_of_Z (z : Z) : f64 := binary_normalize prec64 emax64 z 0 false.

(** `f as f64` (exact) and `f as f32` (rounded to nearest, ties to even).
    src/matrix.rs L31-37 (both directions). *)
Definition conv (prec emax : Z) (f : spec_float) : spec_float :=
  match f with
  | S754_finite s m e => binary_normalize prec emax (cond_Zopp s (Zpos m)) e s
  | _ => f
  end.
(** src/matrix.rs L31. *)
Definition f64_of_f32 (f : f32) : f64 := conv prec64 emax64 f.
(** src/matrix.rs L32-33. *)
Definition f32_of_f64 (f : f64) : f32 := conv prec32 emax32 f.

(** `f32::is_nan`, `f32::is_subnormal`.
    src/point/valid.rs L45, L50. *)
Definition is_nan (f : spec_float) : bool :=
  match f with S754_nan => true | _ => false end.
(** src/point/valid.rs L45, L50, src/glif/read.rs L104. *)
Definition is_subnormal (f : f32) : bool :=
  match f with
  | S754_finite _ m _ => negb (Zpos (digits2_pos m) =? prec32)
  | _ => false
  end.
(** src/outline/skia/from.rs L181. *)
Definition is_finite (f : spec_float) : bool :=
  match f with S754_finite _ _ _ | S754_zero _ => true | _ => false end.

(** Integer part, truncated toward zero.
    Used by `as u64` and `as i32`, src/glif/read.rs L110, src/outline/refigure.rs L95-96. *)
Definition trunc_Z (f : spec_float) : Z :=
  match f with
  | S754_finite s m e =>
      let a := if 0 <=? e then Zpos m * 2 ^ e else Zpos m / 2 ^ (- e) in
      cond_Zopp s a
  | _ => 0
  end.

(** Range of the casts of src/glif/read.rs L110, src/outline/refigure.rs L95-96. *)
Definition clampZ (lo hi z : Z) : Z := Z.max lo (Z.min hi z).

(** `f as u64`, `f as i32`: saturating, NaN gives 0.
    src/glif/read.rs L110, src/outline/refigure.rs L95-96. *)
Definition sat_cast (lo hi : Z) (f : spec_float) : Z :=
  match f with
  | S754_nan => 0
  | S754_zero _ => clampZ lo hi 0
  | S754_infinity s => if s then lo else hi
  | S754_finite _ _ _ => clampZ lo hi (trunc_Z f)
  end.
(** src/glif/read.rs L110. *)
Definition f32_as_u64 (f : f32) : N := Z.to_N (sat_cast 0 18446744073709551615 f).
(** src/outline/refigure.rs L95-96. *)
Definition f32_as_i32 (f : f32) : Z := sat_cast (-2147483648) 2147483647 f.

(** `f32::round`: to the nearest integer, ties away from zero; the sign of zero is kept.
    src/pedantry.rs L60, src/outline/refigure.rs L88-89, L95-96. *)
Definition round32 (f : f32) : f32 :=
  match f with
  | S754_finite s m e =>
      if 0 <=? e then f
      else
        let d := 2 ^ (- e) in
        let q := Zpos m / d in
        let r := Zpos m mod d in
        let n := if d <=? 2 * r then q + 1 else q in
        binary_normalize prec32 emax32 (cond_Zopp s n) 0 s
  | _ => f
  end.

(** The literal `0.`, src/component.rs L234. *)
Definition pos_zero : spec_float := S754_zero false.
