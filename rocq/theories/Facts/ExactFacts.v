(** Exact arithmetic: when the result of an operation is representable it is not rounded. *)
Require Import Coq.ZArith.ZArith Coq.Bool.Bool Coq.Floats.SpecFloat Coq.micromega.Lia.
Require Import Verif.Model.Float Verif.Facts.FloatFacts.
Local Open Scope Z_scope.

(** The value of [f] is z * 2^k. *)
Definition val (f : spec_float) (z k : Z) : Prop :=
  match f with
  | S754_zero _ => z = 0
  | S754_finite s m e => cond_Zopp s (Zpos m) * 2 ^ Z.max 0 (e - k) = z * 2 ^ Z.max 0 (k - e)
  | _ => False
  end.

Lemma digits_size m : digits2_pos m = Pos.size m.
Proof. induction m as [m IH|m IH|]; cbn; now rewrite ?IH. Qed.
Lemma digits_bounds m : 2 ^ (Zpos (digits2_pos m) - 1) <= Zpos m < 2 ^ Zpos (digits2_pos m).
Proof.
  rewrite digits_size. pose proof (Pos.size_gt m) as H1. pose proof (Pos.size_le m) as H2.
  apply Pos2Z.pos_lt_pos in H1. rewrite Pos2Z.inj_pow in H1. split; [|exact H1].
  apply Pos2Z.pos_le_pos in H2. rewrite Pos2Z.inj_pow in H2. rewrite (Pos2Z.inj_xO m) in H2.
  replace (Zpos (Pos.size m)) with (Z.succ (Zpos (Pos.size m) - 1)) in H2 by lia. rewrite Z.pow_succ_r in H2 by lia. lia.
Qed.
Lemma digits_le m n : Zpos m < 2 ^ n -> 0 <= n -> Zpos (digits2_pos m) <= n.
Proof.
  intros H Hn. pose proof (digits_bounds m) as [H1 _]. assert (2 ^ (Zpos (digits2_pos m) - 1) < 2 ^ n) as H2 by lia.
  apply Z.pow_lt_mono_r_iff in H2; lia.
Qed.
Lemma digits_ge m n : 2 ^ n <= Zpos m -> 0 <= n -> n < Zpos (digits2_pos m).
Proof.
  intros H Hn. pose proof (digits_bounds m) as [_ H1]. assert (2 ^ n < 2 ^ Zpos (digits2_pos m)) as H2 by lia.
  apply Z.pow_lt_mono_r_iff in H2; lia.
Qed.
Lemma digits_mul_l m n : Zpos (digits2_pos m) <= Zpos (digits2_pos (m * n)).
Proof.
  pose proof (digits_bounds m) as [H1 _]. assert (2 ^ (Zpos (digits2_pos m) - 1) <= Zpos (m * n)) as H2 by (rewrite Pos2Z.inj_mul; nia).
  apply digits_ge in H2; lia.
Qed.

(** Equal values, one exponent at most the other. *)
Lemma equal_shift m e n k : e <= k -> Zpos m * 2 ^ Z.max 0 (e - k) = Zpos n * 2 ^ Z.max 0 (k - e) -> m = shiftZ (k - e) n.
Proof.
  intros Hk H. rewrite (Z.max_l 0 (e - k)), (Z.max_r 0 (k - e)) in H by lia. rewrite Z.mul_1_r in H.
  apply Pos2Z.inj. rewrite shiftZ_Z by lia. assumption.
Qed.
Lemma pow_shift a b c : 0 <= c -> 2 ^ Z.max 0 (a - b) * 2 ^ Z.max 0 (b + c - a) = 2 ^ Z.max 0 (b - a) * 2 ^ Z.max 0 (a - b - c) * 2 ^ c.
Proof.
  intros Hc. destruct (Z_le_gt_dec a b).
  - rewrite (Z.max_l 0 (a - b)), (Z.max_r 0 (b + c - a)), (Z.max_r 0 (b - a)), (Z.max_l 0 (a - b - c)) by lia.
    rewrite Z.pow_0_r, Z.mul_1_r, Z.mul_1_l, <- Z.pow_add_r by lia. f_equal. lia.
  - rewrite (Z.max_r 0 (a - b)), (Z.max_l 0 (b - a)) by lia. rewrite Z.pow_0_r, Z.mul_1_l. rewrite <- !Z.pow_add_r by lia. f_equal. lia.
Qed.
(** Values may be written with a finer exponent. *)
Lemma val_finer f z k c : 0 <= c -> val f z k -> val f (z * 2 ^ c) (k - c).
Proof.
  intros Hc. destruct f as [s|s| |s m e]; cbn [val]; auto; [nia|]. intros H.
  set (M := cond_Zopp s (Zpos m)) in *. clearbody M.
  assert (0 < 2 ^ Z.max 0 (k - e)) by (apply Z.pow_pos_nonneg; lia).
  assert (0 < 2 ^ Z.max 0 (e - k)) by (apply Z.pow_pos_nonneg; lia).
  replace (e - (k - c)) with (e - k + c) by lia. replace (k - c - e) with (k - e - c) by lia.
  destruct (Z_le_gt_dec e k).
  - rewrite (Z.max_l 0 (e - k)), (Z.max_r 0 (k - e)) in H by lia. rewrite Z.mul_1_r in H. rewrite H.
    rewrite <- !Z.mul_assoc, <- !Z.pow_add_r by lia. f_equal. f_equal. lia.
  - rewrite (Z.max_r 0 (e - k)), (Z.max_l 0 (k - e)) in H by lia. rewrite Z.mul_1_r in H. rewrite <- H.
    rewrite <- !Z.mul_assoc, <- !Z.pow_add_r by lia. f_equal. f_equal. lia.
Qed.
Lemma val_zero_iff f z k : val f z k -> (z = 0 <-> exists s, f = S754_zero s).
Proof.
  destruct f as [s|s| |s m e]; cbn [val]; try tauto.
  - intros ->. split; [intros _; now exists s|reflexivity].
  - intros H. assert (0 < 2 ^ Z.max 0 (k - e)) by (apply Z.pow_pos_nonneg; lia). assert (0 < 2 ^ Z.max 0 (e - k)) by (apply Z.pow_pos_nonneg; lia).
    split; [intros ->|intros [? ?]; discriminate]. exfalso. destruct s; cbn [cond_Zopp] in H; nia.
Qed.

Section Round.
Context (prec emax : Z) (Hprec : 1 < prec) (Hemax : prec < emax).

(** A value within the precision has a canonical form. *)
Lemma canonical n k : Zpos n < 2 ^ prec -> emin prec emax <= k -> k + prec <= emax ->
  exists m e, bounded prec emax m e = true /\ e <= k /\ m = shiftZ (k - e) n.
Proof.
  intros Hn Hk Hk2. pose proof (digits_le n prec Hn ltac:(lia)) as Hd.
  set (fe := fexp prec emax (Zpos (digits2_pos n) + k)). assert (fe <= k) by (unfold fe, fexp; lia).
  exists (shiftZ (k - fe) n), fe. split; [|auto].
  apply bounded_intro.
  - rewrite shiftZ_digits by lia. replace (Zpos (digits2_pos n) + (k - fe) + fe) with (Zpos (digits2_pos n) + k) by lia. reflexivity.
  - unfold fe, fexp, emin. lia.
Qed.

Lemma round_exact s m e n k : Zpos n < 2 ^ prec -> emin prec emax <= k -> k + prec <= emax ->
  Zpos m * 2 ^ Z.max 0 (e - k) = Zpos n * 2 ^ Z.max 0 (k - e) ->
  exists m' e', binary_round prec emax s m e = S754_finite s m' e' /\ bounded prec emax m' e' = true /\ val (S754_finite s m' e') (cond_Zopp s (Zpos n)) k.
Proof.
  intros Hn Hk Hk2 H. destruct (canonical n k Hn Hk Hk2) as (m' & e' & HB & He & E). exists m', e'. split; [|split; [assumption|]].
  - destruct (Z_le_gt_dec e e') as [Hle|Hgt].
    + assert (m = shiftZ (e' - e) m') as ->.
      { apply Pos2Z.inj. rewrite (Z.max_l 0 (e - k)), (Z.max_r 0 (k - e)) in H by lia. rewrite Z.mul_1_r in H. rewrite H, shiftZ_Z, E, shiftZ_Z by lia.
        rewrite <- Z.mul_assoc, <- Z.pow_add_r by lia. f_equal. f_equal. lia. }
      replace e with (e' - (e' - e)) at 2 by lia. apply round_finer; [lia|assumption].
    + assert (m' = shiftZ (e - e') m) as Em.
      { apply Pos2Z.inj. rewrite E, !shiftZ_Z by lia.
        destruct (Z_le_gt_dec e k).
        - rewrite (Z.max_l 0 (e - k)), (Z.max_r 0 (k - e)) in H by lia. rewrite Z.mul_1_r in H. rewrite H.
          rewrite <- Z.mul_assoc, <- Z.pow_add_r by lia. f_equal. f_equal. lia.
        - rewrite (Z.max_r 0 (e - k)), (Z.max_l 0 (k - e)) in H by lia. rewrite Z.mul_1_r in H. rewrite <- H.
          rewrite <- Z.mul_assoc, <- Z.pow_add_r by lia. f_equal. f_equal. lia. }
      rewrite Em. replace e with (e' + (e - e')) at 1 by lia. apply round_coarser; [lia|]. now rewrite <- Em.
  - cbn [val]. rewrite (Z.max_l 0 (e' - k)), (Z.max_r 0 (k - e')) by lia. rewrite E. rewrite Z.mul_1_r.
    destruct s; cbn [cond_Zopp]; rewrite ?Z.mul_opp_l; rewrite shiftZ_Z by lia; reflexivity.
Qed.

Lemma normalize_exact Z0 e z k sz : Z.abs z < 2 ^ prec -> emin prec emax <= k -> k + prec <= emax ->
  Z0 * 2 ^ Z.max 0 (e - k) = z * 2 ^ Z.max 0 (k - e) ->
  let f := binary_normalize prec emax Z0 e sz in val f z k /\ valid_binary prec emax f = true.
Proof.
  intros Hz Hk Hk2 H. assert (0 < 2 ^ Z.max 0 (k - e)) by (apply Z.pow_pos_nonneg; lia). assert (0 < 2 ^ Z.max 0 (e - k)) by (apply Z.pow_pos_nonneg; lia).
  destruct Z0 as [|m|m]; cbn [binary_normalize].
  - cbn. split; [nia|reflexivity].
  - destruct z as [|n|n]; [nia| |nia]. destruct (round_exact false m e n k Hz Hk Hk2 H) as (m' & e' & -> & HB & HV). split; [exact HV|exact HB].
  - destruct z as [|n|n]; [nia|nia|]. destruct (round_exact true m e n k Hz Hk Hk2) as (m' & e' & -> & HB & HV); [lia|]. split; [exact HV|exact HB].
Qed.

Lemma align_val m e ez : ez <= e -> Zpos (fst (shl_align m e ez)) = Zpos m * 2 ^ (e - ez).
Proof.
  intros H. unfold shl_align. destruct (ez - e) as [|p|p] eqn:E; cbn [fst].
  - replace (e - ez) with 0 by lia. cbn. lia.
  - lia.
  - rewrite shift_pos_Z. f_equal. f_equal. lia.
Qed.
Lemma add_exact a b za zb k : val a za k -> val b zb k ->
  valid_binary prec emax a = true -> valid_binary prec emax b = true -> Z.abs (za + zb) < 2 ^ prec -> emin prec emax <= k -> k + prec <= emax ->
  val (SFadd prec emax a b) (za + zb) k /\ valid_binary prec emax (SFadd prec emax a b) = true.
Proof.
  intros Ha Hb Va Vb Hz Hk Hk2.
  destruct a as [s|s| |s m e]; try contradiction; destruct b as [s'|s'| |s' m' e']; try contradiction; cbn [SFadd].
  - cbn in Ha, Hb; subst. destruct (Bool.eqb s s'); cbn; auto.
  - cbn in Ha. subst. rewrite Z.add_0_l. auto.
  - cbn in Hb. subst. rewrite Z.add_0_r. auto.
  - set (ez := Z.min e e').
    apply normalize_exact; [assumption..|].
    assert (forall s m e z, ez <= e -> val (S754_finite s m e) z k -> cond_Zopp s (Zpos (fst (shl_align m e ez))) * 2 ^ Z.max 0 (ez - k) = z * 2 ^ Z.max 0 (k - ez)) as H.
    { clearbody ez. clear. intros s m e z He Hv.
      assert (cond_Zopp s (Zpos (fst (shl_align m e ez))) = cond_Zopp s (Zpos m) * 2 ^ (e - ez)) as ->.
      { destruct s; cbn [cond_Zopp]; rewrite align_val by assumption; lia. }
      cbn [val] in Hv. set (M := cond_Zopp s (Zpos m)) in *. clearbody M.
      destruct (Z_le_gt_dec e k).
      - rewrite (Z.max_l 0 (e - k)), (Z.max_r 0 (k - e)) in Hv by lia. rewrite (Z.max_l 0 (ez - k)), (Z.max_r 0 (k - ez)) by lia. rewrite Z.mul_1_r in *.
        rewrite Hv, <- Z.mul_assoc, <- Z.pow_add_r by lia. f_equal. f_equal. lia.
      - rewrite (Z.max_r 0 (e - k)), (Z.max_l 0 (k - e)) in Hv by lia. rewrite Z.mul_1_r in Hv. rewrite <- Hv.
        rewrite <- !Z.mul_assoc, <- !Z.pow_add_r by lia. f_equal. f_equal. lia. }
    rewrite !Z.mul_add_distr_r. f_equal; apply H; try assumption; unfold ez; lia.
Qed.

Lemma mul_exact a b za zb ka kb : val a za ka -> val b zb kb ->
  valid_binary prec emax a = true -> valid_binary prec emax b = true -> Z.abs (za * zb) < 2 ^ prec -> emin prec emax <= ka + kb -> ka + kb + prec <= emax ->
  val (SFmul prec emax a b) (za * zb) (ka + kb) /\ valid_binary prec emax (SFmul prec emax a b) = true.
Proof.
  intros Ha Hb Va Vb Hz Hk Hk2.
  destruct a as [s|s| |s m e]; try contradiction; destruct b as [s'|s'| |s' m' e']; try contradiction; cbn [SFmul].
  - cbn in *; subst. split; reflexivity.
  - cbn in Ha; subst. split; [cbn; lia|reflexivity].
  - cbn in Hb; subst. split; [cbn; lia|reflexivity].
  - cbn [valid_binary] in Va, Vb. pose proof (bounded_inv _ _ _ _ Va) as [Fa _]. pose proof (bounded_inv _ _ _ _ Vb) as [Fb _].
    assert (binary_round_aux prec emax (xorb s s') (Zpos (m * m')) (e + e') loc_Exact = binary_round prec emax (xorb s s') (m * m') (e + e')) as ->.
    { unfold binary_round. assert (e + e' <= fexp prec emax (Zpos (digits2_pos (m * m')) + (e + e'))) as H.
      { pose proof (digits_mul_l m m'). pose proof (digits_mul_l m' m). rewrite (Pos.mul_comm m' m) in *. unfold fexp, emin in *. lia. }
      unfold shl_align. destruct (fexp prec emax (Zpos (digits2_pos (m * m')) + (e + e')) - (e + e')) eqn:E; try reflexivity. lia. }
    cbn [val] in Ha, Hb.
    assert (cond_Zopp (xorb s s') (Zpos (m * m')) = cond_Zopp s (Zpos m) * cond_Zopp s' (Zpos m')) as EM.
    { destruct s, s'; cbn [xorb cond_Zopp]; lia. }
    assert (cond_Zopp (xorb s s') (Zpos (m * m')) * 2 ^ Z.max 0 (e + e' - (ka + kb)) = za * zb * 2 ^ Z.max 0 (ka + kb - (e + e'))) as HM.
    { rewrite EM. set (M := cond_Zopp s (Zpos m)) in *. set (M' := cond_Zopp s' (Zpos m')) in *. clearbody M M'. clear - Ha Hb.
      set (A := Z.max 0 (e - ka)) in *. set (A' := Z.max 0 (ka - e)) in *. set (B := Z.max 0 (e' - kb)) in *. set (B' := Z.max 0 (kb - e')) in *.
      set (C := Z.max 0 (e + e' - (ka + kb))). set (C' := Z.max 0 (ka + kb - (e + e'))).
      assert (0 < 2 ^ (A + B)) as P by (apply Z.pow_pos_nonneg; lia). assert (A + B + C' = A' + B' + C) as E by lia.
      assert (2 ^ C * 2 ^ (A' + B') = 2 ^ C' * 2 ^ (A + B)) as E2.
      { rewrite <- !Z.pow_add_r by lia. f_equal. lia. }
      assert (M * M' * 2 ^ (A + B) = za * zb * 2 ^ (A' + B')) as E3.
      { rewrite !Z.pow_add_r by lia. transitivity ((M * 2 ^ A) * (M' * 2 ^ B)); [ring|]. rewrite Ha, Hb. ring. }
      apply (Z.mul_reg_r _ _ (2 ^ (A + B))); [lia|].
      transitivity (M * M' * 2 ^ (A + B) * 2 ^ C); [ring|]. rewrite E3. transitivity (za * zb * (2 ^ C * 2 ^ (A' + B'))); [ring|]. rewrite E2. ring. }
    rewrite <- (normalize_cond prec emax). apply normalize_exact; assumption.
Qed.

Lemma conv_exact f z k : val f z k -> Z.abs z < 2 ^ prec -> emin prec emax <= k -> k + prec <= emax ->
  val (conv prec emax f) z k /\ valid_binary prec emax (conv prec emax f) = true.
Proof.
  intros H Hz Hk Hk2. destruct f as [s|s| |s m e]; try contradiction; [cbn; auto|]. cbn [conv]. apply normalize_exact; assumption.
Qed.
End Round.

(** Two floats of the same value are equal, up to the sign of zero. *)
Lemma canonical_unique prec emax s m e s' m' e' z k : bounded prec emax m e = true -> bounded prec emax m' e' = true ->
  val (S754_finite s m e) z k -> val (S754_finite s' m' e') z k -> s = s' /\ m = m' /\ e = e'.
Proof.
  intros B B' H H'. cbn [val] in *.
  assert (forall x y, 0 < 2 ^ Z.max 0 (x - y)) as Pp by (intros; apply Z.pow_pos_nonneg; lia).
  pose proof (Pp e k). pose proof (Pp k e). pose proof (Pp e' k). pose proof (Pp k e').
  assert (s = s') as ->. { destruct s, s'; try reflexivity; cbn [cond_Zopp] in *; nia. }
  assert (Zpos m * 2 ^ Z.max 0 (e - e') = Zpos m' * 2 ^ Z.max 0 (e' - e)) as HE.
  { assert (Zpos m * 2 ^ Z.max 0 (e - k) * 2 ^ Z.max 0 (k - e') = Zpos m' * 2 ^ Z.max 0 (e' - k) * 2 ^ Z.max 0 (k - e)) as X.
    { destruct s'; cbn [cond_Zopp] in *.
      - transitivity (- z * 2 ^ Z.max 0 (k - e) * 2 ^ Z.max 0 (k - e')); [|transitivity (- z * 2 ^ Z.max 0 (k - e') * 2 ^ Z.max 0 (k - e)); [ring|]]; f_equal; lia.
      - transitivity (z * 2 ^ Z.max 0 (k - e) * 2 ^ Z.max 0 (k - e')); [|transitivity (z * 2 ^ Z.max 0 (k - e') * 2 ^ Z.max 0 (k - e)); [ring|]]; f_equal; lia. }
    rewrite <- !Z.mul_assoc, <- !Z.pow_add_r in X by lia.
    apply (Z.mul_reg_r _ _ (2 ^ (Z.max 0 (e - k) + Z.max 0 (k - e') - Z.max 0 (e - e')))).
    { assert (0 < 2 ^ (Z.max 0 (e - k) + Z.max 0 (k - e') - Z.max 0 (e - e'))); [apply Z.pow_pos_nonneg|]; lia. }
    rewrite <- !Z.mul_assoc, <- !Z.pow_add_r by lia.
    replace (Z.max 0 (e - e') + (Z.max 0 (e - k) + Z.max 0 (k - e') - Z.max 0 (e - e'))) with (Z.max 0 (e - k) + Z.max 0 (k - e')) by lia.
    replace (Z.max 0 (e' - e) + (Z.max 0 (e - k) + Z.max 0 (k - e') - Z.max 0 (e - e'))) with (Z.max 0 (e' - k) + Z.max 0 (k - e)) by lia. exact X. }
  apply bounded_inv in B as [F _]. apply bounded_inv in B' as [F' _].
  destruct (Z_le_gt_dec e e') as [Hle|Hgt].
  - apply equal_shift in HE; [|assumption]. subst m. rewrite shiftZ_digits in F by lia. replace (Zpos (digits2_pos m') + (e' - e) + e) with (Zpos (digits2_pos m') + e') in F by lia.
    assert (e = e') as X by lia. replace (e' - e) with 0 by lia. auto.
  - symmetry in HE. apply equal_shift in HE; [|lia]. subst m'. rewrite shiftZ_digits in F' by lia. replace (Zpos (digits2_pos m) + (e - e') + e') with (Zpos (digits2_pos m) + e) in F' by lia.
    assert (e = e') as X by lia. replace (e - e') with 0 by lia. auto.
Qed.
Lemma val_feq prec emax f g z k : valid_binary prec emax f = true -> valid_binary prec emax g = true -> val f z k -> val g z k -> feq f g = true.
Proof.
  intros Vf Vg Hf Hg. pose proof (val_zero_iff _ _ _ Hf) as Zf. pose proof (val_zero_iff _ _ _ Hg) as Zg.
  destruct f as [s|s| |s m e]; try contradiction; destruct g as [s'|s'| |s' m' e']; try contradiction.
  - reflexivity.
  - exfalso. apply proj2 in Zf. apply proj1 in Zg. destruct (Zg (Zf ltac:(eauto))); discriminate.
  - exfalso. apply proj2 in Zg. apply proj1 in Zf. destruct (Zf (Zg ltac:(eauto))); discriminate.
  - destruct (canonical_unique _ _ _ _ _ _ _ _ _ _ Vf Vg Hf Hg) as (-> & -> & ->). now apply feq_refl.
Qed.
Lemma val_of_Z32 z : Z.abs z < 2 ^ 24 -> val (f32_of_Z z) z 0 /\ valid32 (f32_of_Z z) = true.
Proof. intros H. apply (normalize_exact 24 128); try assumption; try reflexivity; unfold emin; lia. Qed.
Lemma val_of_Z64 z : Z.abs z < 2 ^ 53 -> val (f64_of_Z z) z 0 /\ valid64 (f64_of_Z z) = true.
Proof. intros H. apply (normalize_exact 53 1024); try assumption; try reflexivity; unfold emin; lia. Qed.
Lemma val_unique f z z' k : val f z k -> val f z' k -> z = z'.
Proof.
  destruct f as [s|s| |s m e]; cbn [val]; try tauto; [congruence|]. intros H H'.
  assert (0 < 2 ^ Z.max 0 (k - e)) by (apply Z.pow_pos_nonneg; lia). apply (Z.mul_reg_r _ _ (2 ^ Z.max 0 (k - e))); lia.
Qed.
Lemma feq_val f g z k : feq f g = true -> val f z k -> val g z k.
Proof. intros H Hv. apply feq_true in H as [->|(s & t & -> & ->)]; [assumption|exact Hv]. Qed.
