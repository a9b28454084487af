(** Small specifications about text, independent of the model. *)
Require Import Coq.Lists.List Coq.NArith.NArith Coq.ZArith.ZArith Coq.Bool.Bool.
Import ListNotations.
Local Open Scope N_scope.

(** ASCII control characters: U+0000..U+001F and U+007F. *)
Definition control (c : N) : Prop := c < 32 \/ c = 127.
Definition ascii (c : N) : Prop := c < 128.

(** The string without its control characters. *)
Definition without_controls (s : list N) : list N :=
  filter (fun c => negb ((c <? 32) || (c =? 127))) s.

(** Every control character comes before every non-ASCII character. *)
Definition controls_before_non_ascii (s : list N) : Prop :=
  forall pre c post, s = pre ++ c :: post -> control c -> forall d, In d pre -> ascii d.

(** The separator of color components. *)
Definition comma : N := 44.

(** The single ASCII letter c in lower case; other characters unchanged. *)
Definition lower (c : N) : N := if (65 <=? c) && (c <=? 90) then c + 32 else c.
(** Equality of strings without regard to ASCII case. *)
Definition same_ignoring_case (a b : list N) : Prop := map lower a = map lower b.
(** Only the letter Z is put in lower case. *)
Definition lower_Z (c : N) : N := if c =? 90 then 122 else c.

(** Recovers a glyph name from the stem of its file name: after each of the letters A to Y one
    character (the underscore) is dropped. *)
Fixpoint name_of_stem (s : list N) : list N :=
  match s with
  | [] => []
  | c :: t =>
      if (65 <=? c) && (c <=? 89) then
        match t with _ :: t' => c :: name_of_stem t' | [] => [c] end
      else c :: name_of_stem t
  end.
(** Drops the five characters of ".glif". *)
Definition stem_of_filename (s : list N) : list N := firstn (length s - 5) s.

(** ** Whole numbers written with digits *)
(** The digit [c] has the value [d] in the radix. *)
Definition is_digit_of (radix c d : N) : Prop :=
  d < radix /\
  (nth_error [48; 49; 50; 51; 52; 53; 54; 55; 56; 57; 97; 98; 99; 100; 101; 102] (N.to_nat d) = Some c \/
   nth_error [48; 49; 50; 51; 52; 53; 54; 55; 56; 57; 65; 66; 67; 68; 69; 70] (N.to_nat d) = Some c).
(** One digit or more, the last one the least. *)
Inductive denotes (radix : N) : list N -> N -> Prop :=
| denotes_one c d : is_digit_of radix c d -> denotes radix [c] d
| denotes_more s n c d : denotes radix s n -> is_digit_of radix c d -> denotes radix (s ++ [c]) (n * radix + d).
(** Perhaps with a plus sign. *)
Definition unsigned_text (radix : N) (s : list N) (n : N) : Prop :=
  denotes radix s n \/ exists t, s = 43 :: t /\ denotes radix t n.
(** Perhaps with a sign. *)
Definition signed_text (s : list N) (z : Z) : Prop :=
  (exists n, z = Z.of_N n /\ unsigned_text 10 s n) \/
  exists t n, s = 45 :: t /\ z = (- Z.of_N n)%Z /\ denotes 10 t n.
