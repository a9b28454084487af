(** The checks that reading makes, in order, and the message of each. *)
Require Import Coq.Strings.String Coq.Lists.List Coq.NArith.NArith Coq.ZArith.ZArith.
Require Import Verif.Model.Base Verif.Model.Text Verif.Model.Float Verif.Model.Num Verif.Model.Pedantry
  Verif.Model.Xml Verif.Spec.TextSpec Verif.Spec.GlyphSpec Verif.Spec.DocumentSpec.
Import ListNotations.
Local Open Scope string_scope.

(** A check: what it takes to pass it, and with which errors it fails. *)
Record check := Check { passes : Prop; fails : err -> Prop }.
(** All checks before the failing one pass. *)
Inductive first_failure : list check -> err -> Prop :=
| fails_here c cs e : fails c e -> first_failure (c :: cs) e
| fails_later c cs e : passes c -> first_failure cs e -> first_failure (c :: cs) e.

Section Checks.
Context (L : numlib).

Definition present (e : element) (k msg : string) : check :=
  Check (exists s, get e k = Some s) (fun x => get e k = None /\ x = EInput msg).
Definition is_number (e : element) (k msg : string) : check :=
  Check (exists i, number_at L e k i)
        (fun x => (exists s, get e k = Some s /\ iof_read L s = None) /\ x = EInput msg).
Definition is_float (e : element) (k msg : string) : check :=
  Check (exists f, float_at L e k f)
        (fun x => (exists s, get e k = Some s /\ f32_read L s = None) /\ x = EInput msg).
(** The attribute may be missing. *)
Definition number_if_present (e : element) (k msg : string) : check :=
  Check (get e k = None \/ exists i, number_at L e k i)
        (fun x => (exists s, get e k = Some s /\ iof_read L s = None) /\ x = EInput msg).

Definition matrix_checks (e : element) : list check :=
  [number_if_present e "xScale" "Matrix member xScale not float";
   number_if_present e "xyScale" "Matrix member xyScale not float";
   number_if_present e "yxScale" "Matrix member yxScale not float";
   number_if_present e "yScale" "Matrix member yScale not float";
   number_if_present e "xOffset" "Matrix member xOffset not float";
   number_if_present e "yOffset" "Matrix member yOffset not float"].
Definition color_check (e : element) : check :=
  Check (exists o, color_says L e o) (fun x => (forall o, ~ color_says L e o) /\ x = EColorNotRGBA).

Definition point_checks (e : element) : list check :=
  [present e "x" "<point> missing x"; is_number e "x" "<point> x not float";
   present e "y" "<point> missing y"; is_number e "y" "<point> y not float"].
Definition component_checks (e : element) : list check :=
  matrix_checks e ++ [present e "base" "<component> missing base"].
Definition image_checks (e : element) : list check :=
  present e "fileName" "<image> missing fileName" :: matrix_checks e ++ [color_check e].
(** The text for `y` speaks of `x`, as in the code. *)
Definition guideline_checks (e : element) : list check :=
  [present e "x" "<guideline> missing x"; is_float e "x" "<guideline> x not float";
   present e "y" "<guideline> missing y"; is_float e "y" "<guideline> x not float";
   present e "angle" "<guideline> missing angle"; is_number e "angle" "<guideline> angle not float";
   color_check e].
Definition integer_at (e : element) (k : string) : Prop := exists z, number_at L e k (IInt z).
Definition anchor_checks (ped : pedantry) (e : element) : list check :=
  [present e "x" "<anchor> missing x"; is_number e "x" "<anchor> x not integer/float";
   present e "y" "<anchor> missing y"; is_number e "y" "<anchor> y not integer/float";
   Check (ped_mend ped = MendAlways \/ integer_at e "x" /\ integer_at e "y")
         (fun x => ped_mend ped <> MendAlways /\ ~ (integer_at e "x" /\ integer_at e "y") /\
                   x = EPedantic "Anchor was a float, not an integer!")].

(** A code point: hexadecimal, below 2^32, a scalar value. *)
Definition unicode_checks (e : element) : list check :=
  [present e "hex" "<unicode> has no hex";
   Check (exists s n, get e "hex" = Some s /\ unsigned_text 16 s n /\ (n < 2 ^ 32)%N)
         (fun x => (exists s, get e "hex" = Some s /\ forall n, unsigned_text 16 s n -> (2 ^ 32 <= n)%N) /\
                   x = EInput "<unicode> hex not int");
   Check (exists s n, get e "hex" = Some s /\ unsigned_text 16 s n /\ scalar n)
         (fun x => (exists s n, get e "hex" = Some s /\ unsigned_text 16 s n /\ (n < 2 ^ 32)%N /\ ~ scalar n) /\
                   x = EInput "<unicode> char conversion failed")].
(** A width: a whole number below 2^64, or a float if that is tolerated. *)
Definition whole_width (s : str) : Prop := exists n, unsigned_text 10 s n /\ (n < 2 ^ 64)%N.
Definition usable_float (s : str) : Prop := exists f, f32_read L s = Some f /\ is_subnormal f = false.
Definition advance_checks (ped : pedantry) (e : element) : list check :=
  [present e "width" "<advance> has no width";
   Check (exists s, get e "width" = Some s /\ (whole_width s \/ usable_float s))
         (fun x => (exists s, get e "width" = Some s /\ ~ whole_width s /\ ~ usable_float s) /\
                   x = EInput "<advance> width neither int nor downgradable (not subnormal) float!");
   Check (exists s, get e "width" = Some s /\ (whole_width s \/ ~ strict ped))
         (fun x => (exists s, get e "width" = Some s /\ ~ whole_width s /\ strict ped) /\
                   x = EInput "Floating point value given as <advance> width")].

Definition outline_checks (o : element) : list check :=
  flat_map (fun c => flat_map point_checks (named "point" c)) (named "contour" o) ++
  flat_map component_checks (named "component" o).
(** Only the first `advance` and the first `outline` are looked at. *)
Definition document_checks (ped : pedantry) (root : element) : list check :=
  [Check (ename root = lit "glyph") (fun x => ename root <> lit "glyph" /\ x = EInput "Root element not <glyph>");
   present root "format" "no format in <glyph>";
   Check (get root "format" = Some (lit "2")) (fun x => get root "format" <> Some (lit "2") /\ x = EInput "<glyph> format not 2");
   present root "name" "<glyph> has no name"] ++
  flat_map (advance_checks ped) (firstn 1 (named "advance" root)) ++
  flat_map unicode_checks (named "unicode" root) ++
  flat_map (anchor_checks ped) (named "anchor" root) ++
  flat_map image_checks (named "image" root) ++
  flat_map guideline_checks (named "guideline" root) ++
  flat_map outline_checks (firstn 1 (named "outline" root)).
End Checks.
