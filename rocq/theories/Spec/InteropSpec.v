(** What rounding, handing over to other libraries and saving mean. *)
Require Import Coq.Strings.String Coq.Lists.List Coq.NArith.NArith Coq.ZArith.ZArith Coq.QArith.QArith Coq.Floats.SpecFloat.
Require Import Verif.Model.Base Verif.Model.Text Verif.Model.Float Verif.Model.Num Verif.Model.Color Verif.Model.Names Verif.Model.Parts Verif.Spec.MfekSpec.
Import ListNotations.

(** The integer nearest to q; halfway between two, the one further from zero. *)
Definition nearest (q : Q) (z : Z) : Prop :=
  (q - (1#2) <= inject_Z z <= q + (1#2) /\
   (0 < q -> q - (1#2) < inject_Z z) /\ (q < 0 -> inject_Z z < q + (1#2)))%Q.
(** Brought into the range of i32. *)
Definition into_i32 (z : Z) : Z :=
  if (z <? - 2 ^ 31)%Z then (- 2 ^ 31)%Z else if (2 ^ 31 - 1 <? z)%Z then (2 ^ 31 - 1)%Z else z.

(** A number the library can hold: an i32 or a proper f32. *)
Definition proper_iof (i : iof) : Prop :=
  match i with IInt z => (- 2 ^ 31 <= z <= 2 ^ 31 - 1)%Z | IFloat f => valid32 f = true end.
Definition proper_matrix (m : glifmatrix) : Prop :=
  proper_iof (m_xScale m) /\ proper_iof (m_xyScale m) /\ proper_iof (m_yxScale m) /\
  proper_iof (m_yScale m) /\ proper_iof (m_xOffset m) /\ proper_iof (m_yOffset m).

(** A 64-bit float whose value a 32-bit float has too. *)
Definition fits32 (d : f64) : Prop := exists f, valid32 f = true /\ f64_of_f32 f = d.

(** The file name of a glyph, letter by letter: the capitals A to Y are followed by an
    underscore. *)
Definition letter_in_filename (c : N) : list N :=
  if ((65 <=? c) && (c <=? 89))%N%bool then [c; 95%N] else [c].
Definition filename_of (name : str) : str := flat_map letter_in_filename name ++ lit ".glif".
(** The last part of a path. *)
Definition ends_in (p : path) (f : str) : Prop :=
  (exists dir, p = dir ++ [f]) /\ f <> lit "/" /\ f <> lit "." /\ f <> lit "..".

(** The characters with the Unicode property White_Space. *)
Definition blank (c : N) : Prop :=
  In c [9; 10; 11; 12; 13; 32; 133; 160; 5760; 8192; 8193; 8194; 8195; 8196; 8197; 8198; 8199; 8200; 8201; 8202;
        8232; 8233; 8239; 8287; 12288]%N.

(** White space in front of the rest of a string. *)
Definition after_blanks (blank : N -> Prop) (s t : str) : Prop :=
  exists b, s = b ++ t /\ Forall blank b /\ match t with c :: _ => ~ blank c | [] => True end.

(** The letters that name a handle: Latin and full-width, capital and small. *)
Definition names_A (c : N) : Prop := In c [65; 97; 65313; 65345]%N.
Definition names_B (c : N) : Prop := In c [66; 98; 65314; 65346]%N.

(** The value of a number the library holds. *)
Definition iof_value (i : iof) (q : Q) : Prop :=
  proper_iof i /\ match i with IInt z => (q == inject_Z z)%Q | IFloat f => same_value f q end.
