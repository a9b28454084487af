(** Colors.  src/color.rs. *)
Require Import Coq.Lists.List Coq.NArith.NArith.
Require Import Verif.Model.Base Verif.Model.Text Verif.Model.Float Verif.Model.Num.
Import ListNotations.

(** src/color.rs L10-15 *)
Record color := mkColor { cr : iof; cg : iof; cb : iof; ca : iof }.

Section Color.
Context (L : numlib).

(** src/color.rs L39: `IntegerOrFloat::try_from(c).or(Err(ColorNotRGBA))` *)
Definition color_component (s : str) : res iof := ok_or (iof_read L s) EColorNotRGBA.

(** src/color.rs L34-48.  `to_parse` (white space removed) is never used by the code: it is
    the original text that is split.  `numbers.chunks(4).next()` is the first four pieces. *)
Definition color_parse (s : str) : res color :=
  match split_on 44 s with
  | rr :: gg :: bb :: aa :: _ =>
      let* r := color_component rr in
      let* g := color_component gg in
      let* b := color_component bb in
      let* a := color_component aa in
      Ok (mkColor r g b a)
  | _ => Err EColorNotRGBA
  end.

(** src/color.rs L53-55 *)
Definition color_show (c : color) : str :=
  iof_show L (cr c) ++ [44%N] ++ iof_show L (cg c) ++ [44%N] ++ iof_show L (cb c) ++ [44%N] ++ iof_show L (ca c).

(** src/color.rs L58-68 *)
Definition color_to_f32s (c : color) : f32 * f32 * f32 * f32 :=
  (f32_of_iof (cr c), f32_of_iof (cg c), f32_of_iof (cb c), f32_of_iof (ca c)).
(** `From<[f32; 4]> for Color`, src/color.rs L64-68. *)
Definition color_of_f32s (r g b a : f32) : color :=
  mkColor (iof_of_f32 L r) (iof_of_f32 L g) (iof_of_f32 L b) (iof_of_f32 L a).

End Color.
