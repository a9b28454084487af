(** Facts about rounding to integers, conversions, property lists and file names. *)
Require Import Coq.Strings.String Coq.Lists.List Coq.NArith.NArith Coq.ZArith.ZArith Coq.Bool.Bool Coq.QArith.QArith
  Coq.Floats.SpecFloat Coq.micromega.Lia Coq.micromega.Lqa.
Require Import Verif.Model.Base Verif.Model.Text Verif.Model.Float Verif.Model.Num Verif.Model.Point Verif.Model.Contour
  Verif.Model.Refigure Verif.Model.Names Verif.Model.Color Verif.Model.Parts Verif.Model.Component Verif.Model.Skia Verif.Model.Interop.
Require Import Verif.Spec.MfekSpec Verif.Spec.GlyphSpec Verif.Spec.InteropSpec.
Require Import Verif.Facts.FloatFacts Verif.Facts.ExactFacts Verif.Facts.ValueFacts Verif.Facts.RoundFacts Verif.Facts.GlyphFacts.
Require Import Verif.Facts.PathFacts.
Import ListNotations.

(** * Rounding to integers *)
Lemma nearest_frac M d z u : (0 < d)%Z -> (inject_Z d * u == 1)%Q -> (2 * M - d <= 2 * (z * d) <= 2 * M + d)%Z ->
  (0 < M -> 2 * M - d < 2 * (z * d))%Z -> (M < 0 -> 2 * (z * d) < 2 * M + d)%Z -> nearest (inject_Z M * u) z.
Proof.
  intros Hd Hu HB HP HN. assert (0 < u)%Q as Up.
  { destruct (Qlt_le_dec 0 u) as [H|H]; [assumption|]. exfalso. assert (0 < inject_Z d)%Q by (change 0%Q with (inject_Z 0); rewrite <- Zlt_Qlt; lia). nra. }
  assert (inject_Z z == inject_Z (z * d) * u)%Q as Ez by (rewrite inject_Z_mult, <- Qmult_assoc, Hu; ring).
  assert ((1#2) == inject_Z d * (1#2) * u)%Q as Eh by (rewrite (Qmult_comm (inject_Z d)), <- Qmult_assoc, Hu; ring).
  assert (forall a b, (a <= b)%Z -> (inject_Z a * u <= inject_Z b * u)%Q) as LE by (intros a b H; apply Qmult_le_compat_r; [now rewrite <- Zle_Qle|lra]).
  assert (forall a b, (a < b)%Z -> (inject_Z a * u < inject_Z b * u)%Q) as LT by (intros a b H; apply Qmult_lt_compat_r; [assumption|now rewrite <- Zlt_Qlt]).
  assert (inject_Z (2 * M - d) * u == 2 * (inject_Z M * u) - 1)%Q as E1.
  { unfold Z.sub. rewrite inject_Z_plus, inject_Z_opp, inject_Z_mult. change (inject_Z 2) with 2%Q. setoid_replace (2 * (inject_Z M * u) - 1)%Q with (2 * (inject_Z M * u) - inject_Z d * u)%Q by (rewrite Hu; ring). ring. }
  assert (inject_Z (2 * M + d) * u == 2 * (inject_Z M * u) + 1)%Q as E2.
  { rewrite inject_Z_plus, inject_Z_mult. change (inject_Z 2) with 2%Q. setoid_replace (2 * (inject_Z M * u) + 1)%Q with (2 * (inject_Z M * u) + inject_Z d * u)%Q by (rewrite Hu; ring). ring. }
  assert (inject_Z (2 * (z * d)) * u == 2 * inject_Z z)%Q as E3.
  { rewrite inject_Z_mult, Ez. change (inject_Z 2) with 2%Q. ring. }
  assert (0 < inject_Z M * u -> (0 < M)%Z)%Q as S1.
  { intros H. destruct (Z_lt_le_dec 0 M) as [|C]; [assumption|]. specialize (LE M 0%Z C). change (inject_Z 0) with 0%Q in LE. lra. }
  assert (inject_Z M * u < 0 -> (M < 0)%Z)%Q as S2.
  { intros H. destruct (Z_lt_le_dec M 0) as [|C]; [assumption|]. specialize (LE 0%Z M C). change (inject_Z 0) with 0%Q in LE. lra. }
  unfold nearest. repeat split.
  - pose proof (LE _ _ (proj1 HB)). lra.
  - pose proof (LE _ _ (proj2 HB)). lra.
  - intros H. pose proof (LT _ _ (HP (S1 H))). lra.
  - intros H. pose proof (LT _ _ (HN (S2 H))). lra.
Qed.

Lemma round_nearest f q : valid32 f = true -> value f = Some q ->
  exists z, val (round32 f) z 0 /\ valid32 (round32 f) = true /\ nearest q z.
Proof.
  intros V Hq. pose proof (rounded_ok f) as R. destruct f as [s|s| |s m e]; cbn [value] in Hq; try discriminate; injection Hq as <-.
  - exists 0%Z. cbn [round32]. split; [reflexivity|]. split; [reflexivity|]. unfold nearest. change (inject_Z 0) with 0%Q. repeat split; lra.
  - unfold rounded in R. destruct (Z.leb_spec 0 e) as [He|He].
    + rewrite R. exists (cond_Zopp s (Zpos m) * 2 ^ e)%Z. split; [|split; [assumption|]].
      * cbn [val]. rewrite Z.sub_0_r, Z.sub_0_l, (Z.max_r 0 e), (Z.max_l 0 (- e)) by lia. lia.
      * assert (inject_Z (cond_Zopp s (Zpos m) * 2 ^ e) == inject_Z (cond_Zopp s (Zpos m)) * 2 ^ e)%Q as E by (rewrite inject_Z_mult, pow_Z by assumption; reflexivity).
        unfold nearest. rewrite E. set (x := (_ * _)%Q). clearbody x. repeat split; lra.
    + destruct R as (n & (Hn & HB) & R). set (d := (2 ^ - e)%Z) in *. assert (0 < d)%Z as Hd by (apply Z.pow_pos_nonneg; lia).
      assert (2 <= d)%Z as Hd2 by (unfold d; change 2%Z with (2 ^ 1)%Z at 1; apply Z.pow_le_mono_r; lia).
      assert (Zpos m < 2 ^ 24)%Z as Hm.
      { pose proof (digits_le_prec _ _ _ _ V) as [D _]. pose proof (digits_bounds m) as [_ D2]. eapply Z.lt_le_trans; [exact D2|]. apply Z.pow_le_mono_r; unfold prec32 in D; lia. }
      assert (n < 2 ^ 24)%Z as Hn2 by nia. exists (cond_Zopp s n). split; [|split].
      * rewrite R. destruct (Z.eqb_spec n 0) as [->|Hn0]; [destruct s; reflexivity|]. destruct s; cbn [cond_Zopp]; apply val_of_Z32; lia.
      * rewrite R. destruct (Z.eqb n 0); [reflexivity|]. apply f32_of_Z_valid.
      * apply (nearest_frac _ d); try assumption.
        -- unfold d. rewrite pow_Z by lia. rewrite <- Qpower.Qpower_plus by exact two_nz. replace (- e + e)%Z with 0%Z by lia. reflexivity.
        -- destruct s; cbn [cond_Zopp]; nia.
        -- destruct s; cbn [cond_Zopp]; nia.
        -- destruct s; cbn [cond_Zopp]; nia.
Qed.

Lemma trunc_val f z : val f z 0 -> trunc_Z f = z.
Proof.
  destruct f as [s|s| |s m e]; cbn [val trunc_Z]; try tauto; [congruence|]. rewrite Z.sub_0_r, Z.sub_0_l. intros H.
  destruct (Z.leb_spec 0 e).
  - rewrite (Z.max_r 0 e), (Z.max_l 0 (- e)) in H by lia. destruct s; cbn [cond_Zopp] in *; lia.
  - rewrite (Z.max_l 0 e), (Z.max_r 0 (- e)) in H by lia. assert (0 < 2 ^ (- e))%Z by (apply Z.pow_pos_nonneg; lia).
    destruct s; cbn [cond_Zopp] in *.
    + replace (Zpos m) with ((- z) * 2 ^ (- e))%Z by lia. rewrite Z.div_mul by lia. lia.
    + replace (Zpos m) with (z * 2 ^ (- e))%Z by lia. rewrite Z.div_mul by lia. lia.
Qed.
Lemma as_i32_val f z : val f z 0 -> f32_as_i32 f = into_i32 z.
Proof.
  intros H. assert (f32_as_i32 f = clampZ (-2147483648) 2147483647 z) as ->.
  { unfold f32_as_i32, sat_cast. pose proof (trunc_val _ _ H) as T. destruct f as [s|s| |s m e]; cbn [val] in H; try contradiction; [now rewrite H|now rewrite T]. }
  unfold clampZ, into_i32. change (- 2 ^ 31)%Z with (-2147483648)%Z. change (2 ^ 31 - 1)%Z with 2147483647%Z.
  destruct (Z.ltb_spec z (-2147483648)), (Z.ltb_spec 2147483647 z); lia.
Qed.
Lemma round_of_val f z : valid32 f = true -> val f z 0 -> round32 f = f.
Proof.
  intros V H. destruct f as [s|s| |s m e]; try reflexivity. cbn [val] in H. cbn [round32]. destruct (Z.leb_spec 0 e); [reflexivity|].
  rewrite Z.sub_0_r, Z.sub_0_l, (Z.max_l 0 e), (Z.max_r 0 (- e)) in H by lia. assert (0 < 2 ^ (- e))%Z as Hd by (apply Z.pow_pos_nonneg; lia).
  assert (Zpos m = Z.abs z * 2 ^ (- e))%Z as E by (destruct s; cbn [cond_Zopp] in H; nia).
  rewrite E, Z.div_mul, Z.mod_mul by lia. destruct (Z.leb_spec (2 ^ (- e)) (2 * 0)); [lia|].
  assert (exists n, Z.abs z = Zpos n) as [n En] by (destruct (Z.abs z) eqn:A; [lia|eauto|lia]).
  rewrite En, normalize_cond. rewrite En in E. assert (m = shiftZ (- e) n) as -> by (apply Pos2Z.inj; rewrite shiftZ_Z by lia; exact E).
  rewrite <- (round_shift _ _ s n 0 (- e)) by lia. replace (0 - - e)%Z with e by lia. apply round_same. exact V.
Qed.
Lemma round_round f : valid32 f = true -> round32 (round32 f) = round32 f.
Proof.
  intros V. destruct f as [s|s| |s m e] eqn:E; try reflexivity. rewrite <- E in *.
  destruct (round_nearest f (inject_Z (cond_Zopp s (Zpos m)) * 2 ^ e)%Q V) as (z & Hz & Vz & _); [rewrite E; reflexivity|]. exact (round_of_val _ _ Vz Hz).
Qed.

(** * Positions and matrices *)
Lemma proper_once i : proper_iof i -> f32_of_f64 (f64_of_iof i) = f32_of_iof i.
Proof.
  destruct i as [z|f]; cbn [proper_iof f64_of_iof f32_of_iof]; intros H.
  - apply f32_of_f64_of_Z. lia.
  - now apply f32_of_f64_of_f32.
Qed.
Lemma fits32_iff d : fits32 d <-> f64_of_f32 (f32_of_f64 d) = d.
Proof.
  split.
  - intros (f & V & <-). now rewrite f32_of_f64_of_f32.
  - intros H. exists (f32_of_f64 d). split; [apply f32_of_f64_valid|assumption].
Qed.

Lemma same_value_eq f p q : (p == q)%Q -> same_value f p -> same_value f q.
Proof. intros E (v & Hv & H). exists v. split; [assumption|]. now rewrite H. Qed.
Lemma val0_value f z : val f z 0 <-> same_value f (inject_Z z).
Proof.
  rewrite val_value. assert (inject_Z z * 2 ^ 0 == inject_Z z)%Q as E by (change (2 ^ 0)%Q with 1%Q; ring).
  split; apply same_value_eq; [exact E|symmetry; exact E].
Qed.
Lemma f64_value f q : valid32 f = true -> same_value f q -> same_value (f64_of_f32 f) q.
Proof.
  intros V (v & Hv & E). apply (same_value_eq _ v); [assumption|]. destruct f as [s|s| |s m e]; try discriminate.
  - exists v. split; [assumption|reflexivity].
  - cbn [value] in Hv. injection Hv as <-. apply val_value. pose proof (digits_le_prec _ _ _ _ V) as [D1 D2]. pose proof (bounded_inv _ _ _ _ V) as [_ D3].
    pose proof (digits_bounds m) as [_ D4]. unfold prec32, emax32, emin in *. apply (conv_exact 53 1024); try lia.
    + cbn [val]. rewrite Z.sub_diag. reflexivity.
    + assert (Zpos m < 2 ^ 53)%Z by (eapply Z.lt_le_trans; [exact D4|]; apply Z.pow_le_mono_r; lia). destruct s; cbn [cond_Zopp]; lia.
    + unfold emin. lia.
Qed.
Lemma Z64_value z : proper_iof (IInt z) -> same_value (f64_of_Z z) (inject_Z z).
Proof. intros H. cbn in H. apply val0_value. apply val_of_Z64. lia. Qed.
Lemma iof64_value i q : iof_value i q -> same_value (f64_of_iof i) q.
Proof.
  intros [P V]. destruct i as [z|f]; cbn [f64_of_iof].
  - apply (same_value_eq _ (inject_Z z)); [now symmetry|]. now apply Z64_value.
  - now apply f64_value.
Qed.

(** * File names *)
Lemma push_fold name : forall acc, fold_left push_name_char name acc = acc ++ flat_map letter_in_filename name.
Proof.
  induction name as [|c name IH]; intros acc; cbn [fold_left flat_map]; [now rewrite app_nil_r|]. rewrite IH. unfold push_name_char, letter_in_filename, in_AZ_range.
  replace (c <? 90)%N with (c <=? 89)%N by (destruct (N.leb_spec c 89), (N.ltb_spec c 90); lia). destruct (((65 <=? c) && (c <=? 89))%N); rewrite <- !app_assoc; reflexivity.
Qed.
Lemma name_to_filename_shape name : name_to_filename name true = filename_of name.
Proof. unfold name_to_filename. rewrite push_fold. reflexivity. Qed.
Lemma path_file_name_iff p f : path_file_name p = Some f <-> ends_in p f.
Proof.
  rewrite file_name_some. unfold ends_in, special. split.
  - intros (dir & -> & N). split; [now exists dir|]. cbn [In] in N. repeat split; intros ->; tauto.
  - intros ((dir & ->) & N1 & N2 & N3). exists dir. split; [reflexivity|]. intros [H|[H|[H|[]]]]; congruence.
Qed.

(** * Blanks *)
Lemma trim_start_spec s : after_blanks (fun c => is_whitespace c = true) s (trim_start s).
Proof.
  induction s as [|c s IH]; cbn [trim_start]; [exists []; cbn; auto|]. destruct (is_whitespace c) eqn:E.
  - destruct IH as (b & E1 & E2 & E3). exists (c :: b). split; [cbn; congruence|]. split; [now constructor|assumption].
  - exists []. split; [reflexivity|]. split; [constructor|]. congruence.
Qed.
Lemma after_blanks_unique (blank : N -> Prop) s t u : after_blanks blank s t -> after_blanks blank s u -> t = u.
Proof.
  intros (b & E1 & F1 & C1) (d & E2 & F2 & C2). subst s. revert d F2 E2. induction F1 as [|x b Hx F1 IH]; intros d F2 E2; cbn [app] in E2.
  - destruct d as [|y d]; [assumption|]. exfalso. cbn in E2. subst t. cbn in C1. apply C1. now inversion F2.
  - destruct d as [|y d]; cbn [app] in E2.
    + exfalso. subst u. cbn in C2. now apply C2.
    + injection E2 as <- E2. apply (IH d); [now inversion F2|assumption].
Qed.
