(** C96, C97: which float a number in the text of a file is read as; conversions to 32 bits. *)
Require Import Coq.Strings.String Coq.Lists.List Coq.NArith.NArith Coq.ZArith.ZArith Coq.Bool.Bool Coq.QArith.QArith Coq.QArith.Qabs Coq.Floats.SpecFloat
  Coq.micromega.Lia Coq.micromega.Lqa.
Require Import Verif.Model.Base Verif.Model.Text Verif.Model.Float Verif.Model.Num Verif.Model.RustNum Verif.Model.Point
  Verif.Model.Pedantry Verif.Model.Color Verif.Model.Xml Verif.Model.Parts Verif.Model.Read Verif.Model.Contour Verif.Model.Create Verif.Model.Component Verif.Model.Kurbo Verif.Model.Skia Verif.Model.Interop Verif.Model.Serde
  Verif.Spec.TextSpec Verif.Spec.GlyphSpec Verif.Spec.DocumentSpec Verif.Spec.OutlineSpec Verif.Spec.MfekSpec Verif.Spec.AccuracySpec Verif.Spec.RoundSpec
  Verif.Facts.RustNumFacts Verif.Facts.DocumentFacts Verif.Facts.BuildersFacts Verif.Facts.ErrorFacts Verif.Facts.DecimalFacts Verif.Facts.ArithFacts.
Import ListNotations.
Local Open Scope Q_scope.

(** C96: a text is a float exactly if it is a decimal number, an infinity or a NaN; a decimal
    number gives the nearest float with the sign that is written. *)
Theorem C96_float_text : forall (t : str) (f : f32), f32_read rust_num t = Some f <-> text_of_float t f.
Proof. exact f32_read_iff. Qed.
Print Assumptions C96_float_text.

(** C96: the nearest float is one float: nothing is left open by ties, overflow or zero. *)
Theorem C96_one_float : forall (x y : Q) (f g : f32), x == y -> rounded32 x f -> rounded32 y g -> negative f = negative g -> f = g.
Proof. intros x y f g E H1 H2. apply (rounded32_unique y); [|assumption]. now apply (rounded32_proper x). Qed.
Print Assumptions C96_one_float.

(** C96: a decimal that is a float is read exactly. *)
Theorem C96_exact : forall (t : str) (neg : bool) (x : Q) (f g : f32),
  decimal_text t neg x -> float32 g (signed neg x) -> f32_read rust_num t = Some f -> same_value f (signed neg x).
Proof.
  intros t neg x f g Hd Hg Hf. destruct (decimal_read _ _ _ Hd) as (f' & Hf' & R & _). cbn [f32_read rust_num] in Hf.
  rewrite Hf' in Hf. injection Hf as <-. now apply (rounded_exact _ _ g).
Qed.
Print Assumptions C96_exact.

(** C96: a coordinate is kept as an integer if it is one (C90), else as a float; in either case
    the float made of it is the one nearest to the number written. *)
Theorem C96_coordinate_float : forall (t : str) (f : f32),
  iof_read rust_num t = Some (IFloat f) <-> text_of_float t f /\ ~ exists z, signed_text t z /\ (- 2 ^ 31 <= z < 2 ^ 31)%Z.
Proof. exact iof_read_float. Qed.
Print Assumptions C96_coordinate_float.

Theorem C96_coordinate_nearest : forall (t : str) (i : iof) (neg : bool) (x : Q),
  iof_read rust_num t = Some i -> decimal_text t neg x -> rounded32 (signed neg x) (f32_of_iof i).
Proof. exact iof_read_rounded. Qed.
Print Assumptions C96_coordinate_nearest.

(** C96: a point is read exactly if both coordinates are number texts and the type is one of
    those of a file; its coordinates are nearest to the numbers written. *)
Theorem C96_point : forall (e : element),
  ((exists g, read_point rust_num e = Ok g) <->
    (exists tx fx ty fy, get e "x" = Some tx /\ text_of_float tx fx /\ get e "y" = Some ty /\ text_of_float ty fy) /\ exists ty, type_named (get e "type") ty) /\
  (forall g tx ty nx ny x y, read_point rust_num e = Ok g ->
     get e "x" = Some tx -> decimal_text tx nx x -> get e "y" = Some ty -> decimal_text ty ny y ->
     rounded32 (signed nx x) (f32_of_iof (gx g)) /\ rounded32 (signed ny y) (f32_of_iof (gy g))).
Proof.
  intros e. split; [split|].
  - intros (g & H). apply read_point_says in H as ((sx & Gx & Rx) & (sy & Gy & Ry) & Ht & _).
    destruct (proj1 (iof_read_total sx) (ex_intro _ _ Rx)) as (fx & Fx). destruct (proj1 (iof_read_total sy) (ex_intro _ _ Ry)) as (fy & Fy).
    split; [exists sx, fx, sy, fy; auto|eauto].
  - intros ((tx & fx & ty & fy & Gx & Fx & Gy & Fy) & t & Ht).
    destruct (proj2 (iof_read_total tx) (ex_intro _ _ Fx)) as (x & Rx). destruct (proj2 (iof_read_total ty) (ex_intro _ _ Fy)) as (y & Ry).
    assert (exists b : bool, b = true <-> get e "smooth" = Some (lit "yes") /\ t <> OffCurve) as (b & Hb).
    { destruct (option_map (fun s => str_eqb s (lit "yes")) (get e "smooth")) as [[|]|] eqn:E.
      - destruct (get e "smooth") as [s|]; [|discriminate]. cbn in E. injection E as E. apply NamesFacts.str_eqb_eq in E as ->.
        destruct t; try (exists true; split; [intros _; split; [reflexivity|discriminate]|reflexivity]). exists false. split; [discriminate|intros [_ H]; congruence].
      - exists false. split; [discriminate|]. intros [H _]. rewrite H in E. cbn [option_map] in E. rewrite NamesFacts.str_eqb_refl in E. discriminate.
      - exists false. split; [discriminate|]. intros [H _]. rewrite H in E. discriminate. }
    exists (mkGP x y b (get e "name") t). apply read_point_says. unfold point_says. cbn [gx gy gptype gname gsmooth].
    split; [exists tx; auto|]. split; [exists ty; auto|]. auto.
  - intros g tx ty nx ny x y H Gx Dx Gy Dy. apply read_point_says in H as ((sx & Gx' & Rx) & (sy & Gy' & Ry) & _).
    rewrite Gx in Gx'. rewrite Gy in Gy'. injection Gx' as <-. injection Gy' as <-. split; eapply iof_read_rounded; eassumption.
Qed.
Print Assumptions C96_point.

(** C96: the position of a guideline. *)
Theorem C96_guideline : forall (PD : Type) (pd0 : PD) (e : element) (g : guideline PD) (tx ty : str), read_guideline rust_num pd0 e = Ok g ->
  get e "x" = Some tx -> get e "y" = Some ty -> text_of_float tx (gl_x g) /\ text_of_float ty (gl_y g).
Proof.
  intros PD pd0 e g tx ty H Gx Gy. apply read_guideline_says in H as ((sx & Gx' & Rx) & (sy & Gy' & Ry) & _).
  rewrite Gx in Gx'. rewrite Gy in Gy'. injection Gx' as <-. injection Gy' as <-. split; now apply f32_read_iff.
Qed.
Print Assumptions C96_guideline.

(** C96: the text written for a float means a number nearest to which is that float. *)
Theorem C96_written : forall (f : f32), valid32 f = true -> text_of_float (f32_show rust_num f) f.
Proof. intros f H. apply f32_read_iff. now apply rust_f32_round_trip. Qed.
Print Assumptions C96_written.

Lemma ex_decimal : decimal_text (lit "-12.50e-2") true (1 # 8).
Proof.
  exists (lit "-"), (lit "12"), (lit "50"), (lit "e-2"), 1250%N, (-2)%Z. split; [right; right; auto|]. split.
  { right. exists 101%N, (lit "-"), (lit "2"), true, 2%N. split; [reflexivity|]. split; [auto|]. split; [right; right; auto|].
    split; [|reflexivity]. apply DigitFacts.digits_val_denotes; [discriminate|discriminate|reflexivity]. }
  split; [right; reflexivity|]. split; [|reflexivity]. apply DigitFacts.digits_val_denotes; [discriminate|discriminate|reflexivity].
Qed.
(** One eighth, written with an exponent; one tenth is not a float, and the nearest one is
    13421773 / 2^27; half way between 2^24 and 2^24 + 2 the even one is taken; the first number
    that is too large. *)
Example C96_case :
  f32_read rust_num (lit "-12.50e-2") = Some (S754_finite true 8388608 (-26)) /\
  text_of_float (lit "0.1") (S754_finite false 13421773 (-27)) /\
  text_of_float (lit "16777217") (S754_finite false 8388608 1) /\
  text_of_float (lit "16777219") (S754_finite false 8388610 1) /\
  text_of_float (lit "340282356779733661637539395458142568447") (S754_finite false 16777215 104) /\
  text_of_float (lit "340282356779733661637539395458142568448") (S754_infinity false) /\
  text_of_float (lit "-0") (S754_zero true) /\ text_of_float (lit "+InFinity") (S754_infinity false) /\
  f32_read rust_num (lit ".") = None /\ f32_read rust_num (lit "1e") = None /\ f32_read rust_num (lit "--1") = None /\
  f32_read rust_num (lit ".5E+1") = Some (fl "5") /\ f32_read rust_num (lit "5.") = Some (fl "5").
Proof.
  split; [vm_compute; reflexivity|].
  do 7 (split; [apply f32_read_iff; vm_compute; reflexivity|]). do 4 (split; [vm_compute; reflexivity|]). vm_compute; reflexivity.
Qed.
Example C96_exact_case : exists g, float32 g (signed true (1 # 8)).
Proof. exists (S754_finite true 8388608 (-26)). split; [reflexivity|]. eexists. split; [vm_compute; reflexivity|reflexivity]. Qed.
Example C96_point_case : exists g,
  read_point rust_num (Element (lit "point") [(lit "x", lit "0.1"); (lit "y", lit "-7"); (lit "type", lit "line")] []) = Ok g /\
  f32_of_iof (gx g) = S754_finite false 13421773 (-27) /\ gy g = IInt (-7).
Proof. eexists. split; [vm_compute; reflexivity|]. split; vm_compute; reflexivity. Qed.

(** * C97: conversions to 32 bits *)

(** C97: 64-bit coordinates (of kurbo, of a serde value) become the nearest 32-bit ones; infinities
    and NaN stay what they are. *)
Theorem C97_from_64 : forall (d : f64) (x : Q), value d = Some x ->
  rounded32 x (fst (sk_of_kurbo (mkKP d d))) /\ rounded32 x (snd (sk_of_kurbo (mkKP d d))) /\
  (forall e t, rounded32 x (f32_of_iof (gx (gp_from_kurbo rust_num (mkKP d e) t))) /\ rounded32 x (f32_of_iof (gy (gp_from_kurbo rust_num (mkKP e d) t))) /\
     rounded32 x (f32_of_iof (gx (gp_of_kpoint rust_num (d, e) t))) /\ rounded32 x (f32_of_iof (gy (gp_of_kpoint rust_num (e, d) t)))) /\
  (exists f, de_f32 (JFloat d) = Some f /\ rounded32 x f).
Proof.
  intros d x H. pose proof (conv_rounded d x H) as R. repeat (split; [exact R|]). split; [intros e t; repeat split; exact R|].
  eexists. split; [reflexivity|exact R].
Qed.
Print Assumptions C97_from_64.
Theorem C97_from_64_special : forall d : f64, value d = None ->
  sk_of_kurbo (mkKP d d) = (d, d) /\ de_f32 (JFloat d) = Some d.
Proof. intros [s|s| |s m e] H; try discriminate; split; reflexivity. Qed.
Print Assumptions C97_from_64_special.

(** C97: a coordinate of a file becomes the nearest float; so do the integers of a serde value. *)
Theorem C97_coordinate : forall (PD : Type) (g : glifpoint) (x y : Q), number (gx g) x -> number (gy g) y ->
  rounded32 x (px (copied (PD := PD) g)) /\ rounded32 y (py (copied (PD := PD) g)).
Proof. intros PD g x y Hx Hy. split; apply number_rounded; assumption. Qed.
Print Assumptions C97_coordinate.
Theorem C97_serde_integer : forall z : Z, exists f, de_f32 (JInt z) = Some f /\ rounded32 (inject_Z z) f.
Proof. intros z. eexists. split; [reflexivity|apply int_rounded]. Qed.
Print Assumptions C97_serde_integer.

(** C97: the on-curve point implied between two control points of a quadratic contour is, in each
    coordinate, the float nearest to the midpoint (one rounding, although it is computed in two
    steps), unless the sum overflows. *)
Theorem C97_implied_nearest : forall (PD : Type) (l r : list glifpoint) (g h : glifpoint) (x y x' y' : Q),
  gptype g = OffCurve -> gptype h = OffCurve ->
  number (gx g) x -> number (gy g) y -> number (gx h) x' -> number (gy h) y' ->
  exact_addends (gx g) (gx h) -> exact_addends (gy g) (gy h) -> ~ overflows32 (x + x') -> ~ overflows32 (y + y') ->
  exists c1 p c2, quadratic_contour (PD := PD) rust_num (l ++ g :: h :: r) = c1 ++ copied g :: p :: copied h :: c2 /\
    pptype p = QCurve /\ rounded32 ((x + x') / 2) (px p) /\ rounded32 ((y + y') / 2) (py p).
Proof.
  intros PD l r g h x y x' y' Hg Hh Nx Ny Nx' Ny' Ax Ay Ox Oy.
  destruct (implied_between (PD := PD) rust_num l g h r Hg Hh) as (c1 & c2 & E). exists c1, (half rust_num g h), c2.
  split; [exact E|]. split; [reflexivity|]. split; now apply half_way_rounded.
Qed.
Print Assumptions C97_implied_nearest.

(** C97: a single sum, difference, product or quotient of 32-bit numbers is the float nearest to
    the exact one. *)
Theorem C97_arithmetic : forall (a b : f32) (x y : Q), float32 a x -> float32 b y ->
  rounded32 (x + y) (add32 a b) /\ rounded32 (x - y) (sub32 a b) /\ rounded32 (x * y) (mul32 a b) /\
  (~ y == 0 -> rounded32 (x / y) (div32 a b)).
Proof.
  intros a b x y Ha Hb. split; [now apply add_rounded|]. split; [now apply sub_rounded|]. split; [now apply mul_rounded|]. intros Hy. now apply div_rounded.
Qed.
Print Assumptions C97_arithmetic.

(** The midpoint of 16777215 and 16777216 is no float: the even neighbour is taken.  An integer
    that is no float. *)
Example C97_case : let g := mkGP (IInt 16777215) (IFloat (fl "0.5")) false None OffCurve in
  let h := mkGP (IInt 16777216) (IFloat (fl "1.5")) false None OffCurve in
  number (gx g) 16777215 /\ number (gy g) (1 # 2) /\ number (gx h) 16777216 /\ number (gy h) (3 # 2) /\
  exact_addends (gx g) (gx h) /\ exact_addends (gy g) (gy h) /\ ~ overflows32 (16777215 + 16777216) /\
  half_way rust_num (gx g) (gx h) = fl "16777216" /\ rounded32 16777217 (fl "16777216").
Proof.
  cbv zeta. split; [reflexivity|]. split; [split; [reflexivity|eexists; split; [vm_compute; reflexivity|reflexivity]]|].
  split; [reflexivity|]. split; [split; [reflexivity|eexists; split; [vm_compute; reflexivity|reflexivity]]|].
  split; [split; discriminate|]. split; [exact I|]. split; [unfold overflows32; vm_compute; intros H; now apply H|].
  split; [vm_compute; reflexivity|].
  pose proof (int_rounded 16777217) as R. assert (f32_of_Z 16777217 = fl "16777216") as E by (vm_compute; reflexivity). rewrite E in R. exact R.
Qed.
Example C97_case_64 : exists x, value (f64_of_Z 16777217) = Some x.
Proof. eexists. vm_compute. reflexivity. Qed.
