(** One concrete [numlib], following the documented behaviour of Rust's `f32: Display`,
    `f32: FromStr` and (as far as its uses in /repo show it) of the crate
    `integer_or_float`.  The properties are proved for every [numlib] meeting the hypotheses
    they state; this instance shows that the hypotheses can be met, and carries the
    counterexamples. *)
Require Import Coq.Lists.List Coq.NArith.NArith Coq.ZArith.ZArith Coq.Bool.Bool Coq.Strings.String Coq.Floats.SpecFloat.
Require Import Verif.Model.Base Verif.Model.Text Verif.Model.Float Verif.Model.Num.
Import ListNotations.
Local Open Scope Z_scope.

(** M * 10^E correctly rounded to binary32 (`core::num::dec2flt`).
    Part of `str::parse::<f32>()` as called at src/glif/read.rs L104 and through IntegerOrFloat at L147, L244. *)
Definition f32_of_decimal (s : bool) (M : N) (E : Z) : f32 :=
  match M with
  | N0 => S754_zero s
  | Npos m =>
      if 0 <=? E then binary_normalize prec32 emax32 (cond_Zopp s (Zpos m * 10 ^ E)) 0 s
      else
        let k := - E in
        if Zpos m mod 5 ^ k =? 0
        then binary_normalize prec32 emax32 (cond_Zopp s (Zpos m / 5 ^ k)) (- k) s
        else let '(q, e, l) := SFdiv_core_binary prec32 emax32 (Zpos m) 0 (10 ^ k) 0 in
             binary_round_aux prec32 emax32 s q e l
  end.

(** Part of `str::parse::<f32>()` as called at src/glif/read.rs L104 and through IntegerOrFloat at L147, L244. *)
Definition is_digit (c : N) : bool := ((48 <=? c) && (c <=? 57))%N.

(** The longest prefix made of decimal digits, and the rest.
    Part of `str::parse::<f32>()` as called at src/glif/read.rs L104 and through IntegerOrFloat at L147, L244. *)
Fixpoint span_digits (s : str) : str * str :=
  match s with
  | c :: t => if is_digit c then let '(a, b) := span_digits t in (c :: a, b) else ([], s)
  | [] => ([], [])
  end.

(** Part of `str::parse::<f32>()` as called at src/glif/read.rs L104 and through IntegerOrFloat at L147, L244. *)
Definition dec_val (s : str) : N := match digits_val 10 s 0 with Some v => v | None => 0%N end.

(** `e`/`E`, an optional sign, at least one digit, and the end; or nothing.
    Part of `str::parse::<f32>()` as called at src/glif/read.rs L104 and through IntegerOrFloat at L147, L244. *)
Definition read_exponent (s : str) : option Z :=
  match s with
  | [] => Some 0
  | c :: t =>
      if ((c =? 101) || (c =? 69))%N then
        let '(sgn, body) := match t with
                            | 45%N :: b => (true, b)
                            | 43%N :: b => (false, b)
                            | _ => (false, t) end in
        match span_digits body with
        | ((_ :: _) as d, []) => Some (if sgn then - Z.of_N (dec_val d) else Z.of_N (dec_val d))
        | _ => None
        end
      else None
  end.

(** Unsigned part: digits, optional point and digits, optional exponent; at least one digit
    in all before the exponent.  Or inf / infinity / nan in any case.
    Part of `str::parse::<f32>()` as called at src/glif/read.rs L104 and through IntegerOrFloat at L147, L244. *)
Definition read_unsigned (s : bool) (t : str) : option f32 :=
  let low := map ascii_lower t in
  if str_eqb low (lit "inf") || str_eqb low (lit "infinity") then Some (S754_infinity s)
  else if str_eqb low (lit "nan") then Some S754_nan
  else
    let '(ip, r1) := span_digits t in
    let '(fp, r2) := match r1 with 46%N :: r => span_digits r | _ => ([], r1) end in
    match ip ++ fp with
    | [] => None
    | ds => match read_exponent r2 with
            | Some e => Some (f32_of_decimal s (dec_val ds) (e - Z.of_nat (List.length fp)))
            | None => None
            end
    end.

(** `str::parse::<f32>()`
    `str::parse::<f32>()` as called at src/glif/read.rs L104 and through IntegerOrFloat at L147, L244. *)
Definition rust_f32_read (t : str) : option f32 :=
  match t with
  | 45%N :: r => read_unsigned true r
  | 43%N :: r => read_unsigned false r
  | _ => read_unsigned false t
  end.

(** The decimal M * 10^-k (0 <= k) written without exponent.
    Part of `f32::to_string()` as called through IntegerOrFloat at src/point/xml.rs L9-10, src/color.rs L54. *)
Definition pad_left (n : nat) (s : str) : str := repeat 48%N (n - List.length s) ++ s.
(** Part of `f32::to_string()` as called through IntegerOrFloat at src/point/xml.rs L9-10, src/color.rs L54. *)
Definition show_scaled (M : N) (k : nat) : str :=
  let ds := pad_left (S k) (show_dec M) in
  match k with
  | O => ds
  | S _ => firstn (List.length ds - k) ds ++ [46%N] ++ skipn (List.length ds - k) ds
  end.

(** The value of a finite float as M * 10^-k, exactly.
    Part of `f32::to_string()` as called through IntegerOrFloat at src/point/xml.rs L9-10, src/color.rs L54. *)
Definition exact_decimal (m : positive) (e : Z) : N * nat :=
  if 0 <=? e then (Z.to_N (Zpos m * 2 ^ e), O)
  else (Z.to_N (Zpos m * 5 ^ (- e)), Z.to_nat (- e)).

(** Rounded to [n] significant decimal digits, trailing zeros after the point dropped.
    Part of `f32::to_string()` as called through IntegerOrFloat at src/point/xml.rs L9-10, src/color.rs L54. *)
Fixpoint drop_zeros (M : N) (k : nat) : N * nat :=
  match k with
  | O => (M, O)
  | S k' => if (M mod 10 =? 0)%N then drop_zeros (M / 10)%N k' else (M, k)
  end.
(** Part of `f32::to_string()` as called through IntegerOrFloat at src/point/xml.rs L9-10, src/color.rs L54. *)
Definition round_decimal (n : nat) (Mk : N * nat) : N * nat :=
  let '(M, k) := Mk in
  let len := List.length (show_dec M) in
  let drop := (len - n)%nat in
  let p := (10 ^ N.of_nat drop)%N in
  let q := ((2 * M + p) / (2 * p))%N in
  if (drop <=? k)%nat then drop_zeros q (k - drop)
  else ((q * 10 ^ N.of_nat (drop - k))%N, O).

(** `f32::to_string()`: fewest digits that read back as the same value.
    Part of `f32::to_string()` as called through IntegerOrFloat at src/point/xml.rs L9-10, src/color.rs L54. *)
Definition show_abs (s : bool) (m : positive) (e : Z) : str :=
  let ex := exact_decimal m e in
  let ok (n : nat) :=
    let '(M, k) := round_decimal n ex in
    let t := show_scaled M k in
    match read_unsigned s t with
    | Some g => feq g (S754_finite s m e)
    | None => false
    end in
  match find ok (seq 1 9) with
  | Some n => let '(M, k) := round_decimal n ex in show_scaled M k
  | None => let '(M, k) := ex in show_scaled M k
  end.
(** `f32::to_string()` as called through IntegerOrFloat at src/point/xml.rs L9-10, src/color.rs L54. *)
Definition rust_f32_show (f : f32) : str :=
  match f with
  | S754_nan => lit "NaN"
  | S754_infinity s => if s then lit "-inf" else lit "inf"
  | S754_zero s => if s then lit "-0" else lit "0"
  | S754_finite s m e => (if s then [45%N] else []) ++ show_abs s m e
  end.

(** `IntegerOrFloat`: an i32 if the text is one, otherwise an f32.
    `IntegerOrFloat::try_from`, src/glif/read.rs L147, L244, src/color.rs L39. *)
Definition rust_iof_read (t : str) : option iof :=
  match parse_i32 t with
  | Some z => Some (IInt z)
  | None => option_map IFloat (rust_f32_read t)
  end.
(** `IntegerOrFloat::to_string`, src/point/xml.rs L9-10, src/color.rs L54. *)
Definition rust_iof_show (i : iof) : str :=
  match i with IInt z => show_int z | IFloat f => rust_f32_show f end.

(** An i32 after an operation that may overflow, as in a release build (a debug build panics).
    The sums and differences at src/outline/create.rs L15, src/outline/quad_to_cubic.rs L12-15. *)
Definition wrap_i32 (z : Z) : Z := (z + 2147483648) mod 4294967296 - 2147483648.

(** The instance used in the examples for src/glif/read.rs L101-110, L147, L244. Simplified: `==` of
    two numbers is by value; the crate is built with its feature `float-cmp` (Cargo.toml L29), with
    which numbers that nearly agree may count as equal. *)
Definition rust_num : numlib := {|
  f32_show := rust_f32_show;
  f32_read := rust_f32_read;
  iof_show := rust_iof_show;
  iof_read := rust_iof_read;
  iof_of_f32 := IFloat;
  iof_default := IInt 0;
  iof_add := fun a b => match a, b with
                        | IInt x, IInt y => IInt (wrap_i32 (x + y))
                        | _, _ => IFloat (add32 (f32_of_iof a) (f32_of_iof b)) end;
  iof_sub := fun a b => match a, b with
                        | IInt x, IInt y => IInt (wrap_i32 (x - y))
                        | _, _ => IFloat (sub32 (f32_of_iof a) (f32_of_iof b)) end;
  iof_rmul := fun f i => IFloat (mul32 f (f32_of_iof i));
  iof_div_f32 := fun i f => IFloat (div32 (f32_of_iof i) f);
  iof_eqb := fun a b => match a, b with
                        | IInt x, IInt y => x =? y
                        | _, _ => feq (f32_of_iof a) (f32_of_iof b) end
|}.

(** Numbers written in the examples.
    Only for examples; a coordinate as in src/point.rs L140-157. *)
Definition fl (s : string) : f32 := match rust_f32_read (lit s) with Some x => x | None => S754_nan end.
