(** Single steps of 32-bit arithmetic and conversions to 32 bits round to the nearest float. *)
Require Import Coq.Lists.List Coq.NArith.NArith Coq.ZArith.ZArith Coq.Bool.Bool Coq.QArith.QArith Coq.QArith.Qabs Coq.QArith.Qpower Coq.Floats.SpecFloat
  Coq.micromega.Lia Coq.micromega.Lqa.
Require Import Verif.Model.Base Verif.Model.Float Verif.Model.Num Verif.Model.RustNum Verif.Spec.MfekSpec Verif.Spec.OutlineSpec
  Verif.Spec.AccuracySpec Verif.Spec.RoundSpec Verif.Facts.FloatFacts Verif.Facts.ExactFacts Verif.Facts.ValueFacts
  Verif.Facts.RoundFacts Verif.Facts.ErrorFacts Verif.Facts.CorrectFacts Verif.Facts.AccuracyFacts Verif.Facts.DecimalFacts.
Import ListNotations.
Local Open Scope Q_scope.

Lemma zero_rounded s : rounded32 0 (S754_zero s).
Proof. pose proof (proj1 (correct_rounded s 0 (S754_zero s) (Qle_refl 0) eq_refl (correct_zero 24 128 ltac:(lia) s))) as H. revert H. apply rounded32_proper. destruct s; reflexivity. Qed.
Lemma self_rounded f x : float32 f x -> rounded32 x f.
Proof.
  intros F. pose proof F as [V (w & Hw & Ew)]. destruct f as [s|s| |s m e]; cbn [value] in Hw; try discriminate; injection Hw as <-.
  - apply (rounded32_proper 0); [assumption|apply zero_rounded].
  - pose proof (normalize_correct 24 128 ltac:(lia) ltac:(lia) s m e) as C.
    rewrite (normalize_cond 24 128) in C.
    rewrite (round_same 24 128) in C by exact V.
    assert (0 <= inject_Z (Zpos m) * 2 ^ e) as H0 by (apply Qmult_le_0_compat; [discriminate|apply Qlt_le_weak, pow_pos]).
    pose proof (proj1 (correct_rounded s _ _ H0 V C)) as R.
    revert R. apply rounded32_proper. rewrite <- Ew, inject_sign. destruct s; cbn [with_sign]; ring.
Qed.
Lemma normalize_rounded z e s : rounded32 (inject_Z z * 2 ^ e) (binary_normalize 24 128 z e s).
Proof.
  destruct z as [|p|p].
  - apply (rounded32_proper 0); [change (inject_Z 0) with 0; ring|]. apply zero_rounded.
  - pose proof (normalize_correct 24 128 ltac:(lia) ltac:(lia) false p e) as C.
    apply (fun H V => proj1 (correct_rounded false _ _ H V C)).
    + apply Qmult_le_0_compat; [discriminate|apply Qlt_le_weak, pow_pos].
    + apply (normalize_valid 24 128); lia.
  - pose proof (normalize_correct 24 128 ltac:(lia) ltac:(lia) true p e) as C.
    apply (rounded32_proper (with_sign true (inject_Z (Zpos p) * 2 ^ e))).
    { cbn [with_sign]. change (inject_Z (Zneg p)) with (- inject_Z (Zpos p)). ring. }
    apply (fun H V => proj1 (correct_rounded true _ _ H V C)).
    + apply Qmult_le_0_compat; [discriminate|apply Qlt_le_weak, pow_pos].
    + apply (normalize_valid 24 128); lia.
Qed.
Lemma conv_rounded f x : value f = Some x -> rounded32 x (f32_of_f64 f).
Proof.
  destruct f as [s|s| |s m e]; cbn [value]; intros H; try discriminate; injection H as <-.
  - apply zero_rounded.
  - exact (normalize_rounded (cond_Zopp s (Zpos m)) e s).
Qed.
Lemma int_rounded z : rounded32 (inject_Z z) (f32_of_Z z).
Proof. apply (rounded32_proper (inject_Z z * 2 ^ 0)); [change (2 ^ 0) with 1; ring|]. apply normalize_rounded. Qed.

Lemma add_rounded a b x y : float32 a x -> float32 b y -> rounded32 (x + y) (add32 a b).
Proof.
  intros [Va (x' & Ha & Ex)] [Vb (y' & Hb & Ey)]. apply (rounded32_proper (x' + y')); [now rewrite Ex, Ey|].
  unfold add32. destruct a as [s|s| |s m e], b as [s'|s'| |s' m' e']; cbn [value] in Ha, Hb; try discriminate; cbn [SFadd]; injection Ha as <-; injection Hb as <-.
  - apply (rounded32_proper 0); [ring|]. destruct (Bool.eqb s s'); apply zero_rounded.
  - apply self_rounded. split; [exact Vb|]. eexists. split; [reflexivity|]. ring.
  - apply self_rounded. split; [exact Va|]. eexists. split; [reflexivity|]. ring.
  - eapply rounded32_proper; [|apply normalize_rounded]. rewrite inject_Z_plus, Qmult_plus_distr_l, !align_value by lia. reflexivity.
Qed.
Lemma sub_rounded a b x y : float32 a x -> float32 b y -> rounded32 (x - y) (sub32 a b).
Proof. intros Ha Hb. unfold sub32. rewrite (sub_add 24 128). exact (add_rounded a (SFopp b) x (- y) Ha (float32_opp _ _ Hb)). Qed.

Lemma mul_rounded a b x y : float32 a x -> float32 b y -> rounded32 (x * y) (mul32 a b).
Proof.
  intros [Va (x' & Ha & Ex)] [Vb (y' & Hb & Ey)]. apply (rounded32_proper (x' * y')); [now rewrite Ex, Ey|].
  pose proof (mul_valid 24 128 a b ltac:(lia) ltac:(lia) ltac:(unfold SpecFloat.emin; lia) Va Vb) as V.
  unfold mul32. change prec32 with 24%Z. change emax32 with 128%Z.
  destruct a as [s|s| |s m e], b as [s'|s'| |s' m' e']; cbn [value] in Ha, Hb; try discriminate; cbn [SFmul] in V |- *; injection Ha as <-; injection Hb as <-;
    try (apply (rounded32_proper 0); [ring|apply zero_rounded]).
  apply (rounded32_proper (with_sign (xorb s s') (inject_Z (Zpos (m * m')) * 2 ^ (e + e')))).
  { rewrite !inject_sign, Pos2Z.inj_mul, inject_Z_mult. destruct s, s'; cbn [xorb with_sign]; rewrite pow_plus; ring. }
  change (bounded 24 128 m e = true) in Va. change (bounded 24 128 m' e' = true) in Vb. apply bounded_inv in Va as [Ha Ha'], Vb as [Hb Hb'].
  apply correct_rounded; [apply Qmult_le_0_compat; [discriminate|apply Qlt_le_weak, pow_pos]|exact V|].
  apply round_aux_correct; [lia|lia|lia| |].
  + change (Zdigits2 (Zpos (m * m'))) with (Zpos (digits2_pos (m * m'))).
    pose proof (digits_mul_l m m') as D1. pose proof (digits_mul_l m' m) as D2. rewrite Pos.mul_comm in D2.
    unfold SpecFloat.fexp, SpecFloat.emin in *. lia.
  + unfold located. cbn [shr_record_of_loc shr_m shr_r shr_s]. rewrite <- Qmult_assoc, <- pow_plus.
    replace (e + e' + - (e + e'))%Z with 0%Z by lia. change (2 ^ 0) with 1. ring.
Qed.
Lemma div_rounded a b x y : float32 a x -> float32 b y -> ~ y == 0 -> rounded32 (x / y) (div32 a b).
Proof.
  intros [Va (x' & Ha & Ex)] [Vb (y' & Hb & Ey)] Hy. apply (rounded32_proper (x' / y')); [now rewrite Ex, Ey|]. rewrite <- Ey in Hy. clear x y Ex Ey.
  unfold div32. destruct b as [s'|s'| |s' m' e']; cbn [value] in Hb; try discriminate; injection Hb as <-; [now destruct Hy|].
  destruct a as [s|s| |s m e]; cbn [value] in Ha; try discriminate; cbn [SFdiv]; injection Ha as <-.
  { apply (rounded32_proper 0); [unfold Qdiv; ring|apply zero_rounded]. }
  apply (rounded32_proper (with_sign (xorb s s') (inject_Z (Zpos m) * 2 ^ e / (inject_Z (Zpos m') * 2 ^ e')))).
  { assert (0 < inject_Z (Zpos m')) as Hm' by reflexivity.
    rewrite !inject_sign. destruct s, s'; cbn [xorb with_sign]; field; (split; [apply pow_nz|lra]). }
  apply correct_rounded.
  - apply Qle_shift_div_l; [apply Qmult_lt_0_compat; [reflexivity|apply pow_pos]|]. rewrite Qmult_0_l. apply Qmult_le_0_compat; [discriminate|apply Qlt_le_weak, pow_pos].
  - apply (quotient_valid 24 128); lia.
  - apply (quotient_correct 24 128); lia.
Qed.

(** * Half of a rounded sum is the rounded half *)
Lemma grid_float n k : (Z.abs n < 2 ^ 24)%Z -> (-149 <= k <= 104)%Z -> exists g, float32 g (inject_Z n * 2 ^ k).
Proof.
  intros Hn Hk. exists (binary_normalize 24 128 n k false).
  destruct (normalize_exact 24 128 ltac:(lia) ltac:(lia) n k n k false Hn ltac:(unfold SpecFloat.emin; lia) ltac:(lia) eq_refl) as [V1 V2].
  split; [exact V2|]. now apply val_value.
Qed.
Lemma double_float g v : float32 g v -> (exists h, float32 h (2 * v)) \/ 2 ^ 127 <= Qabs v.
Proof.
  intros [V (w & Hw & Ew)]. destruct g as [s|s| |s m e]; cbn [value] in Hw; try discriminate; injection Hw as <-.
  - left. exists (S754_zero false). split; [reflexivity|]. exists 0. split; [reflexivity|]. rewrite <- Ew. ring.
  - change (bounded 24 128 m e = true) in V. pose proof (bounded_inv 24 128 m e V) as [B1 B2]. pose proof (digits_le_prec 24 128 m e V) as [B3 B4]. pose proof (digits_bounds m) as D.
    assert (2 ^ Zpos (digits2_pos m) <= 2 ^ 24)%Z as P by (apply Z.pow_le_mono_r; lia). unfold SpecFloat.emin in B4.
    destruct (Z.eq_dec e 104) as [->|He].
    + right. unfold SpecFloat.fexp, SpecFloat.emin in B1. assert (Zpos (digits2_pos m) = 24)%Z as Ed by lia. rewrite Ed in D.
      assert (Qabs v == inject_Z (Zpos m) * 2 ^ 104) as ->.
      { rewrite <- Ew, inject_sign. destruct s; cbn [with_sign]; [rewrite Qabs_Qmult, Qabs_opp|rewrite Qabs_Qmult]; reflexivity. }
      change (2 ^ 127) with (inject_Z (2 ^ 23) * 2 ^ 104). apply Qmult_le_compat_r; [|discriminate]. rewrite <- Zle_Qle. exact (proj1 D).
    + left. destruct (grid_float (cond_Zopp s (Zpos m)) (e + 1)) as (h & Fh & (w & Hw & Ew')); [destruct s; cbn; lia|lia|].
      exists h. split; [assumption|]. exists w. split; [assumption|]. rewrite Ew', <- Ew, pow_1. ring.
Qed.
Lemma near_grid y : ~ overflows32 y -> exists h v, float32 h v /\ Qabs (v - y) <= 2 ^ 103.
Proof.
  intros Ho. unfold overflows32 in Ho. apply Qnot_le_lt in Ho. apply Qabs_Qlt_condition in Ho as [O1 O2].
  set (t := y * 2 ^ (-104)). set (n := Qround.Qfloor (t + (1 # 2))).
  assert (y == t * 2 ^ 104) as Ey by (unfold t; rewrite <- Qmult_assoc; change (2 ^ (-104) * 2 ^ 104) with ((1 # 20282409603651670423947251286016) * (20282409603651670423947251286016 # 1)); setoid_replace ((1 # 20282409603651670423947251286016) * (20282409603651670423947251286016 # 1)) with 1 by reflexivity; ring).
  pose proof (Qround.Qfloor_le (t + (1 # 2))) as F1. pose proof (Qround.Qlt_floor (t + (1 # 2))) as F2. fold n in F1, F2. rewrite inject_Z_plus in F2. change (inject_Z 1) with 1 in F2.
  assert (2 ^ 128 - 2 ^ 103 == (16777216 - (1 # 2)) * 2 ^ 104) as Eh by reflexivity.
  assert (0 < 2 ^ 104) as Pp by reflexivity.
  rewrite Ey, Eh in O1, O2.
  assert (t < 16777216 - (1 # 2)) as T2 by (apply (Qmult_lt_r _ _ (2 ^ 104) Pp); exact O2).
  assert (- (16777216 - (1 # 2)) < t) as T1. { apply (Qmult_lt_r _ _ (2 ^ 104) Pp). eapply Qle_lt_trans; [|exact O1]. apply Qle_lteq. right. ring. }
  clearbody n. clearbody t. clear O1 O2 Eh Pp.
  assert (n < 16777216)%Z as N2. { rewrite Zlt_Qlt. change (inject_Z 16777216) with (16777216 # 1). lra. }
  assert (-16777216 < n)%Z as N1. { rewrite Zlt_Qlt. change (inject_Z (-16777216)) with (-16777216 # 1). lra. }
  destruct (grid_float n 104) as (h & Fh); [change (2 ^ 24)%Z with 16777216%Z; lia|lia|].
  exists h, (inject_Z n * 2 ^ 104). split; [assumption|]. rewrite Ey.
  setoid_replace (inject_Z n * 2 ^ 104 - t * 2 ^ 104) with ((inject_Z n - t) * 2 ^ 104) by ring.
  rewrite Qabs_Qmult, (Qabs_pos (2 ^ 104)) by discriminate. assert (2 ^ 103 == (1 # 2) * 2 ^ 104) as -> by reflexivity. apply Qmult_le_compat_r; [|discriminate].
  apply Qabs_Qle_condition. lra.
Qed.
Lemma half_big q y v : Qabs (q - y) <= 2 ^ 103 -> ~ overflows32 y -> 2 ^ 127 <= Qabs v -> Qabs (q / 2 - y / 2) < Qabs (v - y / 2).
Proof.
  intros Hq Ho Hv. unfold overflows32 in Ho. apply Qnot_le_lt in Ho.
  assert (Qabs (q / 2 - y / 2) <= 2 ^ 102) as A.
  { setoid_replace (q / 2 - y / 2) with ((q - y) * (1 # 2)) by field. rewrite Qabs_Qmult. change (Qabs (1 # 2)) with (1 # 2). assert (2 ^ 102 == 2 ^ 103 * (1 # 2)) as -> by reflexivity.
    apply Qmult_le_compat_r; [assumption|discriminate]. }
  pose proof (Qabs_triangle_reverse v (y / 2)) as T.
  assert (Qabs (y / 2) == Qabs y * (1 # 2)) as Eh by (unfold Qdiv; rewrite Qabs_Qmult; reflexivity). rewrite Eh in T.
  assert (2 ^ 127 - (2 ^ 128 - 2 ^ 103) * (1 # 2) == 2 ^ 102) as E by reflexivity.
  assert (Qabs y * (1 # 2) < (2 ^ 128 - 2 ^ 103) * (1 # 2)) as L by (apply Qmult_lt_r; [reflexivity|assumption]).
  revert E T L A Hv. generalize (Qabs y * (1 # 2)) ((2 ^ 128 - 2 ^ 103) * (1 # 2)) (2 ^ 127) (2 ^ 102) (Qabs v) (Qabs (v - y / 2)) (Qabs (q / 2 - y / 2)). intros; lra.
Qed.

Lemma two_float : float32 (f32_of_Z 2) 2.
Proof. split; [reflexivity|]. eexists. split; [vm_compute; reflexivity|reflexivity]. Qed.
Lemma rounded_finite y s : rounded32 y s -> ~ overflows32 y -> exists q, float32 s q /\
  forall g v, float32 g v -> Qabs (q - y) <= Qabs (v - y) /\ (Qabs (q - y) == Qabs (v - y) -> v == q \/ even_mantissa s).
Proof. destruct s; cbn [rounded32]; try tauto. Qed.
Lemma rounded_intro y s q : ~ overflows32 y -> float32 s q ->
  (forall g v, float32 g v -> Qabs (q - y) <= Qabs (v - y) /\ (Qabs (q - y) == Qabs (v - y) -> v == q \/ even_mantissa s)) -> rounded32 y s.
Proof.
  intros Ho F H. pose proof F as [_ (w & Hw & _)]. destruct s; cbn [value] in Hw; try discriminate; cbn [rounded32]; (split; [assumption|]); exists q; auto.
Qed.
Lemma overflow_half y : ~ overflows32 y -> ~ overflows32 (y / 2).
Proof.
  unfold overflows32. intros H H'. apply H. assert (Qabs (y / 2) == Qabs y * (1 # 2)) as Eh by (unfold Qdiv; rewrite Qabs_Qmult; reflexivity). rewrite Eh in H'.
  pose proof (Qabs_nonneg y). revert H'. generalize (2 ^ 128 - 2 ^ 103). intros. lra.
Qed.

Lemma half_rounded y s : rounded32 y s -> ~ overflows32 y -> same_value s y \/ 2 ^ (-125) <= Qabs y -> rounded32 (y / 2) (div32 s (f32_of_Z 2)).
Proof.
  intros R Ho Hy. destruct (rounded_finite y s R Ho) as (q & Fq & M).
  pose proof (div_rounded s (f32_of_Z 2) q 2 Fq two_float ltac:(discriminate)) as Rd.
  destruct Hy as [Hy|Hy].
  { destruct Hy as (w & Hw & Ew). destruct Fq as [_ (w' & Hw' & Ew')]. rewrite Hw in Hw'. injection Hw' as <-.
    revert Rd. apply rounded32_proper. now rewrite <- Ew', Ew. }
  assert (2 ^ (-125) <= Qabs q) as Hq.
  { assert (exists h v, float32 h v /\ Qabs (v - y) == Qabs y - 2 ^ (-125)) as (h & v & Fh & Ev).
    { destruct (Qlt_le_dec y 0) as [Hn|Hn].
      - destruct (grid_float (-1) (-125)) as (h & Fh); [reflexivity|lia|]. exists h, (inject_Z (-1) * 2 ^ (-125)). split; [assumption|].
        rewrite (Qabs_neg y) in * by lra. change (inject_Z (-1)) with (-1 # 1). revert Hy. generalize (2 ^ (-125)). intros z Hz. rewrite Qabs_pos by lra. ring.
      - destruct (grid_float 1 (-125)) as (h & Fh); [reflexivity|lia|]. exists h, (inject_Z 1 * 2 ^ (-125)). split; [assumption|].
        rewrite (Qabs_pos y) in * by lra. change (inject_Z 1) with (1 # 1). revert Hy. generalize (2 ^ (-125)). intros z Hz. rewrite Qabs_neg by lra. ring. }
    destruct (M h v Fh) as [L _]. rewrite Ev in L. pose proof (Qabs_triangle_reverse y (y - q)) as T.
    assert (Qabs (y - (y - q)) == Qabs q) as E1 by (setoid_replace (y - (y - q)) with q by ring; reflexivity).
    assert (Qabs (y - q) == Qabs (q - y)) as E2 by (rewrite Qabs_Qminus; reflexivity). rewrite E1, E2 in T. revert L T. generalize (2 ^ (-125)). intros; lra. }
  pose proof Fq as [V (w & Hw & Ew)]. destruct s as [b|b| |b m e]; cbn [value] in Hw; try discriminate; injection Hw as <-.
  { exfalso. rewrite <- Ew in Hq. revert Hq. apply Qlt_not_le. reflexivity. }
  change (bounded 24 128 m e = true) in V. pose proof (bounded_inv 24 128 m e V) as [B1 B2]. pose proof (digits_le_prec 24 128 m e V) as [B3 B4]. pose proof (digits_bounds m) as D.
  assert (2 ^ Zpos (digits2_pos m) <= 2 ^ 24)%Z as P by (apply Z.pow_le_mono_r; lia). unfold SpecFloat.emin in B4.
  assert (Qabs q == inject_Z (Zpos m) * 2 ^ e) as Eq.
  { rewrite <- Ew, inject_sign. destruct b; cbn [with_sign]; rewrite Qabs_Qmult, (Qabs_pos (2 ^ e)) by (apply Qlt_le_weak, pow_pos); [rewrite Qabs_opp|]; reflexivity. }
  assert (-148 <= e)%Z as He.
  { destruct (Z_le_gt_dec (-148) e) as [|Hlt]; [assumption|exfalso]. rewrite Eq in Hq. revert Hq. apply Qlt_not_le.
    apply Qlt_le_trans with (inject_Z (2 ^ 24) * 2 ^ e); [apply Qmult_lt_r; [apply pow_pos|]; rewrite <- Zlt_Qlt; lia|].
    rewrite pow_Z, <- pow_plus by lia. apply pow_mono. lia. }
  assert (Zpos (digits2_pos m) = 24)%Z as Ed by (unfold SpecFloat.fexp, SpecFloat.emin in B1; lia).
  assert (float32 (S754_finite b m (e - 1)) (q / 2)) as Fh.
  { split.
    - change (bounded 24 128 m (e - 1) = true). apply bounded_intro; [|lia]. unfold SpecFloat.fexp, SpecFloat.emin. lia.
    - eexists. split; [reflexivity|]. rewrite <- Ew, pow_m1. unfold Qdiv. ring. }
  assert (div32 (S754_finite b m e) (f32_of_Z 2) = S754_finite b m (e - 1)) as Ediv.
  { pose proof (rounded_exact _ _ _ Rd Fh) as Sv. assert (~ overflows32 (q / 2)) as Oq.
    { intros O. pose proof (self_rounded _ _ Fh) as Rs. cbn [rounded32] in Rs. tauto. }
    destruct (rounded_finite _ _ Rd Oq) as (q' & Fq' & _).
    assert (q' == q / 2) as Eq'. { destruct Fq' as [_ (w1 & Hw1 & Ew1)]. destruct Sv as (w2 & Hw2 & Ew2). rewrite Hw1 in Hw2. injection Hw2 as <-. now rewrite <- Ew1, Ew2. }
    pose proof (same_float _ _ _ _ Fq' Fh Eq') as F. apply feq_true in F as [F|(s1 & s2 & _ & F)]; [exact F|discriminate]. }
  rewrite Ediv. apply (rounded_intro _ _ (q / 2)); [now apply overflow_half|assumption|].
  intros g v Fg. destruct (double_float g v Fg) as [(h & Fh2)|Hbig].
  - destruct (M h (2 * v) Fh2) as [L T].
    assert (forall a, Qabs (a / 2 - y / 2) == Qabs (a - y) * (1 # 2)) as S.
    { intros a. setoid_replace (a / 2 - y / 2) with ((a - y) * (1 # 2)) by field. rewrite Qabs_Qmult. reflexivity. }
    assert (Qabs (v - y / 2) == Qabs (2 * v - y) * (1 # 2)) as Sv by (rewrite <- S; setoid_replace (2 * v / 2) with v by field; reflexivity).
    rewrite (S q), Sv. split; [lra|]. intros E. destruct T as [T|T]; [lra| |right; exact T]. left. setoid_replace v with (2 * v / 2) by field. now rewrite T.
  - destruct (near_grid y Ho) as (h & u & Fu & Hu). destruct (M h u Fu) as [L _].
    assert (Qabs (q / 2 - y / 2) < Qabs (v - y / 2)) as S by (apply half_big; [eapply Qle_trans; eassumption|assumption|assumption]).
    split; [now apply Qlt_le_weak|]. intros E. rewrite E in S. exfalso. revert S. apply Qlt_irrefl.
Qed.

Lemma fits_grid x : fits 24 128 x -> exists n, x == inject_Z n * 2 ^ (-149).
Proof.
  intros (n & k & E & _ & Hk). unfold SpecFloat.emin in Hk. exists (n * 2 ^ (k + 149))%Z.
  rewrite inject_Z_mult, pow_Z, <- Qmult_assoc, <- pow_plus by lia. replace (k + 149 + -149)%Z with k by lia. assumption.
Qed.
Lemma sum_exact x y : fits 24 128 x -> fits 24 128 y -> Qabs (x + y) < 2 ^ (-125) -> exists g, float32 g (x + y).
Proof.
  intros Hx Hy H. destruct (fits_grid x Hx) as (n & En). destruct (fits_grid y Hy) as (k & Ek).
  assert (x + y == inject_Z (n + k) * 2 ^ (-149)) as E by (rewrite En, Ek, inject_Z_plus; ring).
  destruct (grid_float (n + k) (-149)) as (g & Vg & (w & Hw & Ew)); [|lia|].
  - rewrite E, Qabs_Qmult, (Qabs_pos (2 ^ (-149))) in H by (apply Qlt_le_weak, pow_pos).
    assert (2 ^ (-125) == inject_Z (2 ^ 24) * 2 ^ (-149)) as E2 by reflexivity. rewrite E2 in H. apply Qmult_lt_r in H; [|apply pow_pos].
    rewrite Zlt_Qlt. eapply Qle_lt_trans; [|exact H]. change (Qabs (inject_Z (n + k))) with (inject_Z (Z.abs (n + k))). apply Qle_refl.
  - exists g. split; [assumption|]. exists w. split; [assumption|]. now rewrite Ew, E.
Qed.

Lemma int_float z : (Z.abs z <= 2 ^ 24)%Z -> float32 (f32_of_Z z) (inject_Z z).
Proof.
  intros H. split; [apply f32_of_Z_valid|].
  assert (exists g, float32 g (inject_Z z)) as (g & Fg).
  { destruct (Z.eq_dec (Z.abs z) (2 ^ 24)) as [E|E].
    - destruct (grid_float (Z.sgn z) 24) as (g & V & (w & Hw & Ew)); [change (2 ^ 24)%Z with 16777216%Z; lia|lia|]. exists g. split; [assumption|]. exists w. split; [assumption|].
      rewrite Ew, <- pow_Z, <- inject_Z_mult, <- E by lia. f_equiv. lia.
    - destruct (grid_float z 0) as (g & V & (w & Hw & Ew)); [lia|lia|]. exists g. split; [assumption|]. exists w. split; [assumption|]. rewrite Ew. change (2 ^ 0) with 1. ring. }
  exact (rounded_exact _ _ _ (int_rounded z) Fg).
Qed.
Lemma number_rounded i x : number i x -> rounded32 x (f32_of_iof i).
Proof. destruct i as [z|f]; cbn [number f32_of_iof]; intros H; [apply (rounded32_proper _ _ _ H), int_rounded|now apply self_rounded]. Qed.

Lemma half_way_rounded a b x y : number a x -> number b y -> exact_addends a b -> ~ overflows32 (x + y) ->
  rounded32 ((x + y) / 2) (half_way rust_num a b).
Proof.
  intros Ha Hb He Ho.
  assert (forall f g, float32 f x -> float32 g y -> rounded32 ((x + y) / 2) (div32 (add32 f g) (f32_of_Z 2))) as F.
  { intros f g Ff Fg. pose proof (add_rounded f g x y Ff Fg) as R. apply half_rounded; [assumption|assumption|].
    destruct (Qlt_le_dec (Qabs (x + y)) (2 ^ (-125))) as [H|H]; [left|now right].
    destruct (sum_exact x y (float32_fits _ _ Ff) (float32_fits _ _ Fg) H) as (h & Fh). exact (rounded_exact _ _ _ R Fh). }
  assert (forall z v, inject_Z z == v -> (Z.abs z <= 2 ^ 24)%Z -> float32 (f32_of_Z z) v) as I.
  { intros z v E Hz. destruct (int_float z Hz) as [V (w & Hw & Ew)]. split; [assumption|]. exists w. split; [assumption|]. now rewrite Ew. }
  unfold half_way. destruct a as [z|f], b as [w|g]; cbn [number exact_addends] in *; cbn [rust_num iof_add iof_div_f32 f32_of_iof].
  - rewrite wrap_id by assumption.
    assert (inject_Z (z + w) == x + y) as E by (rewrite inject_Z_plus, Ha, Hb; reflexivity).
    apply half_rounded; [apply (rounded32_proper (inject_Z (z + w))); [assumption|apply int_rounded]|assumption|].
    destruct (Z.eq_dec (z + w) 0) as [Ez|Ez]; [left; rewrite Ez in *; exists 0; split; [reflexivity|now rewrite <- E]|right].
    apply Qle_trans with 1; [discriminate|]. rewrite <- E. change (Qabs (inject_Z (z + w))) with (inject_Z (Z.abs (z + w))). change 1 with (inject_Z 1). rewrite <- Zle_Qle. lia.
  - apply F; [now apply I|assumption].
  - apply F; [assumption|now apply I].
  - now apply F.
Qed.
