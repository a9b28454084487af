(** Text primitives of the Rust library used by the code: literals, equality, splitting,
    decimal and hexadecimal integers. *)
Require Import Coq.Lists.List Coq.NArith.NArith Coq.ZArith.ZArith Coq.Strings.String Coq.Strings.Ascii Coq.Bool.Bool.
Require Import Verif.Model.Base.
Import ListNotations.
Local Open Scope N_scope.

(** A Rust string literal made of ASCII characters.
    E.g. the attribute names of src/glif/read.rs L83-300. *)
Definition lit (s : string) : str := map N_of_ascii (list_ascii_of_string s).

(** `==` of strings, e.g. src/glif/read.rs L83. *)
Fixpoint str_eqb (a b : str) : bool :=
  match a, b with
  | [], [] => true
  | x :: a', y :: b' => N.eqb x y && str_eqb a' b'
  | _, _ => false
  end.

(** `char::from_u32`: Unicode scalar values, i.e. not a surrogate and at most 10FFFF.
    src/glif/read.rs L128. *)
Definition is_scalar (c : N) : bool := (c <? 55296) || ((57344 <=? c) && (c <=? 1114111)).
(** src/glif/read.rs L128. *)
Definition char_from_u32 (c : N) : option N := if is_scalar c then Some c else None.

(** `char::is_ascii_control`: 0x00-0x1F and 0x7F.
    src/string.rs L25. *)
Definition is_ascii_control (c : N) : bool := (c <=? 31) || (c =? 127).

(** UTF-8 width of a character (`char::len_utf8`).
    Byte positions of `String::remove`, src/string.rs L59. *)
Definition utf8_len (c : N) : nat :=
  if c <? 128 then 1%nat else if c <? 2048 then 2%nat else if c <? 65536 then 3%nat else 4%nat.

(** `str::split(',')`: always at least one piece.
    src/color.rs L37. *)
Fixpoint split_on (sep : N) (s : str) : list str :=
  match s with
  | [] => [[]]
  | c :: t =>
      if N.eqb c sep then [] :: split_on sep t
      else match split_on sep t with
           | p :: ps => (c :: p) :: ps
           | [] => [[c]]
           end
  end.

(** Value of a digit in the given radix (`char::to_digit`), radix at most 16.
    src/glif/read.rs L101, L129. *)
Definition digit_val (radix c : N) : option N :=
  let v := if (48 <=? c) && (c <=? 57) then Some (c - 48)
           else if (65 <=? c) && (c <=? 70) then Some (c - 55)
           else if (97 <=? c) && (c <=? 102) then Some (c - 87)
           else None in
  match v with
  | Some d => if d <? radix then Some d else None
  | None => None
  end.

(** Digits to value, most significant first, starting from [acc].
    src/glif/read.rs L101, L129. *)
Fixpoint digits_val (radix : N) (s : str) (acc : N) : option N :=
  match s with
  | [] => Some acc
  | c :: t =>
      match digit_val radix c with
      | Some d => digits_val radix t (acc * radix + d)
      | None => None
      end
  end.

(** `uN::from_str_radix`: an optional `+`, then at least one digit, value at most [maxv].
    (Rust reports overflow as soon as it happens, here the bound is checked at the end: same
    acceptance, since values only grow.)
    src/glif/read.rs L101, L129. *)
Definition parse_uint (radix maxv : N) (s : str) : option N :=
  let body := match s with
              | 43 :: t => t
              | _ => s
              end in
  match body with
  | [] => None
  | _ => match digits_val radix body 0 with
         | Some v => if v <=? maxv then Some v else None
         | None => None
         end
  end.

(** src/glif/read.rs L101. *)
Definition u64_max : N := 18446744073709551615.
(** src/glif/read.rs L129. *)
Definition u32_max : N := 4294967295.

(** `str::parse::<u64>()` and `u32::from_str_radix(_, 16)`.
    src/glif/read.rs L101. *)
Definition parse_u64 (s : str) : option N := parse_uint 10 u64_max s.
(** src/glif/read.rs L129. *)
Definition parse_hex_u32 (s : str) : option N := parse_uint 16 u32_max s.

(** `str::parse::<i32>()`: an optional sign, then at least one digit, value in range.
    Integer branch of IntegerOrFloat parsing, src/glif/read.rs L147, L244. *)
Definition parse_i32 (s : str) : option Z :=
  match s with
  | 45 :: [] => None
  | 45 :: t => match digits_val 10 t 0 with
               | Some v => if v <=? 2147483648 then Some (- Z.of_N v)%Z else None
               | None => None
               end
  | _ => match parse_uint 10 2147483647 s with
         | Some v => Some (Z.of_N v)
         | None => None
         end
  end.

(** Digit characters: decimal / upper-case hexadecimal.
    src/codepoint.rs L10, src/glif/xml.rs L17. *)
Definition digit_char (d : N) : N := if d <? 10 then 48 + d else 55 + d.

(** `to_string()` / `{:X}` of an unsigned integer: digits least significant first, at most
    [fuel] of them; [show_uint] gives it enough fuel (one more than the bit length).
    src/codepoint.rs L10, src/glif/xml.rs L17. *)
Fixpoint digits_rev (radix : N) (fuel : nat) (n : N) : str :=
  match fuel with
  | O => []
  | S f =>
      if n <? radix then [digit_char n]
      else digit_char (n mod radix) :: digits_rev radix f (n / radix)
  end.
(** src/codepoint.rs L10, src/glif/xml.rs L17. *)
Definition show_uint (radix n : N) : str := rev (digits_rev radix (S (N.to_nat (N.size n))) n).
(** src/glif/xml.rs L17. *)
Definition show_dec (n : N) : str := show_uint 10 n.
(** src/codepoint.rs L10. *)
Definition show_hex (n : N) : str := show_uint 16 n.

(** `i32::to_string()`.
    Integer branch of IntegerOrFloat printing, src/point/xml.rs L9-10. *)
Definition show_int (z : Z) : str :=
  match z with
  | Zneg p => 45 :: show_dec (Npos p)
  | _ => show_dec (Z.to_N z)
  end.

(** src/glif/mfek/contour_operations/vws.rs L147. *)
Definition ends_with (suffix s : str) : bool :=
  str_eqb (rev suffix) (firstn (List.length suffix) (rev s)).

(** `str::replace`-free helpers: ASCII lower case, used by specifications.
    Used to state facts on names (src/glif.rs L111-123). *)
Definition ascii_lower (c : N) : N := if (65 <=? c) && (c <=? 90) then c + 32 else c.
