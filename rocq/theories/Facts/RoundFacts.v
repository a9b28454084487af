(** Rounding: the result depends on the value only and is always a proper float. *)
Require Import Coq.ZArith.ZArith Coq.Bool.Bool Coq.Floats.SpecFloat Coq.micromega.Lia.
Require Import Verif.Model.Float Verif.Facts.FloatFacts Verif.Facts.ExactFacts.
Local Open Scope Z_scope.

Lemma shiftZ_add a b m : 0 <= a -> 0 <= b -> shiftZ a (shiftZ b m) = shiftZ (a + b) m.
Proof. intros. apply Pos2Z.inj. rewrite !shiftZ_Z, Z.pow_add_r by lia. lia. Qed.
Lemma iter_pos_add {A} (f : A -> A) p q : forall x, iter_pos f (p + q) x = iter_pos f p (iter_pos f q x).
Proof.
  induction p as [|p IH] using Pos.peano_ind; intros x.
  - rewrite Pos.add_1_l, iter_pos_succ. reflexivity.
  - rewrite Pos.add_succ_l, !iter_pos_succ, IH. reflexivity.
Qed.

Section Round.
Context (prec emax : Z).
Local Notation fexp := (fexp prec emax).

Lemma shr_fexp_shift k m e : 0 <= k -> e <= fexp (Zpos (digits2_pos m) + e) ->
  shr_fexp prec emax (Zpos (shiftZ k m)) (e - k) loc_Exact = shr_fexp prec emax (Zpos m) e loc_Exact.
Proof.
  intros Hk Hf. unfold shr_fexp. cbn [Zdigits2 shr_record_of_loc]. rewrite shiftZ_digits by assumption.
  replace (Zpos (digits2_pos m) + k + (e - k)) with (Zpos (digits2_pos m) + e) by lia.
  set (fe := fexp (Zpos (digits2_pos m) + e)) in *. destruct k as [|p|p]; [cbn [shiftZ]; now rewrite Z.sub_0_r| |lia]. cbn [shiftZ].
  replace (fe - (e - Zpos p)) with (fe - e + Zpos p) by lia. destruct (fe - e) as [|q|q] eqn:E; [| |lia].
  - cbn [Z.add shr]. rewrite shr_shift. f_equal. lia.
  - cbn [Z.add shr]. rewrite iter_pos_add, shr_shift. f_equal. lia.
Qed.
Lemma aux_same s m m' e e' l l' : shr_fexp prec emax m e l = shr_fexp prec emax m' e' l' ->
  binary_round_aux prec emax s m e l = binary_round_aux prec emax s m' e' l'.
Proof. unfold binary_round_aux. intros ->. reflexivity. Qed.

Lemma align_eq m e fe : shl_align m e fe = if fe <? e then (shiftZ (e - fe) m, fe) else (m, e).
Proof.
  unfold shl_align. destruct (fe - e) as [|p|p] eqn:E; destruct (Z.ltb_spec fe e); try lia; try reflexivity.
  replace (e - fe) with (Zpos p) by lia. reflexivity.
Qed.

(** Rounding depends on the value only. *)
Lemma round_shift s m e k : 0 <= k -> binary_round prec emax s (shiftZ k m) (e - k) = binary_round prec emax s m e.
Proof.
  intros Hk. unfold binary_round. rewrite shiftZ_digits by assumption.
  replace (Zpos (digits2_pos m) + k + (e - k)) with (Zpos (digits2_pos m) + e) by lia.
  set (fe := fexp (Zpos (digits2_pos m) + e)). rewrite !align_eq.
  destruct (Z.ltb_spec fe (e - k)) as [H1|H1], (Z.ltb_spec fe e) as [H2|H2]; try lia.
  - rewrite shiftZ_add by lia. do 2 f_equal. f_equal. lia.
  - apply aux_same. rewrite <- (shr_fexp_shift (fe - (e - k)) (shiftZ (e - fe) m) fe) by (try rewrite shiftZ_digits by lia; try lia; replace (Zpos (digits2_pos m) + (e - fe) + fe) with (Zpos (digits2_pos m) + e) by lia; fold fe; lia).
    rewrite shiftZ_add by lia. f_equal; [do 2 f_equal; lia|lia].
  - apply aux_same. apply shr_fexp_shift; [lia|]. fold fe. lia.
Qed.

Lemma conv_of_val f z : val f z 0 -> z <> 0 -> conv prec emax f = binary_normalize prec emax z 0 false.
Proof.
  destruct f as [s|s| |s m e]; cbn [val]; try tauto. intros H Hz. cbn [conv]. rewrite normalize_cond.
  rewrite Z.sub_0_r, Z.sub_0_l in H.
  assert (exists n, z = cond_Zopp s (Zpos n)) as [n ->].
  { assert (0 < 2 ^ Z.max 0 e) by (apply Z.pow_pos_nonneg; lia). assert (0 < 2 ^ Z.max 0 (- e)) by (apply Z.pow_pos_nonneg; lia).
    destruct z as [|n|n]; [lia| |]; exists n; destruct s; cbn [cond_Zopp] in *; try reflexivity; nia. }
  assert (Zpos m * 2 ^ Z.max 0 e = Zpos n * 2 ^ Z.max 0 (- e)) as E by (destruct s; cbn [cond_Zopp] in H; lia).
  assert (binary_normalize prec emax (cond_Zopp s (Zpos n)) 0 false = binary_round prec emax s n 0) as -> by (destruct s; reflexivity).
  destruct (Z_le_gt_dec e 0) as [He|He].
  - rewrite Z.max_l, Z.max_r, Z.mul_1_r in E by lia.
    assert (m = shiftZ (- e) n) as -> by (apply Pos2Z.inj; rewrite shiftZ_Z by lia; assumption).
    replace e with (0 - (- e)) at 2 by lia. apply round_shift. lia.
  - rewrite Z.max_r, Z.max_l, Z.mul_1_r in E by lia.
    assert (n = shiftZ e m) as -> by (apply Pos2Z.inj; rewrite shiftZ_Z by lia; symmetry; assumption).
    symmetry. replace 0 with (e - e) at 1 by lia. apply round_shift. lia.
Qed.

(** * The result is a proper float *)
Lemma shr_1_digits r : 0 <= shr_m r -> 0 <= shr_m (shr_1 r) /\ Zdigits2 (shr_m (shr_1 r)) = Z.max 0 (Zdigits2 (shr_m r) - 1).
Proof.
  destruct r as [[|[p|p|]|p] b c]; cbn [shr_m shr_1]; intros H; try lia; cbn [Zdigits2 digits2_pos]; lia.
Qed.
Lemma shr_digits p : forall r, 0 <= shr_m r ->
  0 <= shr_m (iter_pos shr_1 p r) /\ Zdigits2 (shr_m (iter_pos shr_1 p r)) = Z.max 0 (Zdigits2 (shr_m r) - Zpos p).
Proof.
  induction p as [|p IH] using Pos.peano_ind; intros r H.
  - cbn [iter_pos]. now apply shr_1_digits.
  - rewrite iter_pos_succ. destruct (IH r H) as [H1 H2]. destruct (shr_1_digits _ H1) as [H3 H4]. split; [assumption|]. rewrite H4, H2. lia.
Qed.
Lemma shr_record_m m l : shr_m (shr_record_of_loc m l) = m.
Proof. destruct l as [|[]]; reflexivity. Qed.
Lemma Zdigits2_nonneg z : 0 <= Zdigits2 z.
Proof. destruct z; cbn; lia. Qed.
Lemma Zdigits2_bounds z : 0 < z -> 2 ^ (Zdigits2 z - 1) <= z < 2 ^ Zdigits2 z.
Proof. destruct z; intros H; [lia| |lia]. cbn [Zdigits2]. apply digits_bounds. Qed.
Lemma Zdigits2_le z n : 0 <= z < 2 ^ n -> 0 <= n -> Zdigits2 z <= n.
Proof. intros [H1 H2] Hn. destruct z; [cbn; lia| |lia]. cbn [Zdigits2]. now apply digits_le. Qed.
Lemma Zdigits2_ge z n : 2 ^ n <= z -> 0 <= n -> n < Zdigits2 z.
Proof. intros H Hn. destruct z; [| |]; try (assert (0 < 2 ^ n) by (apply Z.pow_pos_nonneg; lia); lia). cbn [Zdigits2]. now apply digits_ge. Qed.
Lemma Zdigits2_mono a b : 0 <= a <= b -> Zdigits2 a <= Zdigits2 b.
Proof.
  intros H. destruct (Z.eq_dec a 0) as [->|Ha]; [apply Zdigits2_nonneg|]. pose proof (Zdigits2_bounds b ltac:(lia)).
  apply Zdigits2_le; [|apply Zdigits2_nonneg]. lia.
Qed.

Lemma shr_fexp_digits m e l : 0 <= m -> e <= fexp (Zdigits2 m + e) ->
  let fe := fexp (Zdigits2 m + e) in
  let r := shr_fexp prec emax m e l in
  snd r = fe /\ 0 <= shr_m (fst r) /\ Zdigits2 (shr_m (fst r)) = Z.max 0 (Zdigits2 m - (fe - e)).
Proof.
  intros Hm Hf fe r. unfold r, shr_fexp. fold fe. destruct (fe - e) as [|p|p] eqn:E; cbn [shr fst snd].
  - rewrite shr_record_m. pose proof (Zdigits2_nonneg m). split; [lia|]. split; [assumption|lia].
  - destruct (shr_digits p (shr_record_of_loc m l)) as [H1 H2]; [rewrite shr_record_m; assumption|]. rewrite shr_record_m in H2. split; [lia|]. split; assumption.
  - exfalso. unfold fe in E. lia.
Qed.

Lemma round_aux_valid s m e l : 0 < prec -> prec < emax -> 0 <= m -> e <= fexp (Zdigits2 m + e) ->
  valid_binary prec emax (binary_round_aux prec emax s m e l) = true.
Proof.
  intros Hp Hpe Hm Hf. destruct (shr_fexp_digits m e l Hm Hf) as (H1 & H2 & H3).
  unfold binary_round_aux. destruct (shr_fexp prec emax m e l) as [r1 e1]. cbn [fst snd] in *.
  set (d := Zdigits2 m) in *. assert (0 <= d) by apply Zdigits2_nonneg.
  set (m1 := shr_m r1) in *. set (m2 := round_nearest_even m1 (loc_of_shr_record r1)).
  assert (m2 = m1 \/ m2 = m1 + 1) as Hm2.
  { unfold m2, round_nearest_even. destruct (loc_of_shr_record r1) as [|[]]; auto. destruct (Z.even m1); auto. }
  clearbody m2. assert (Zdigits2 m1 <= prec) as Hd1.
  { rewrite H3. unfold SpecFloat.fexp, emin in *. lia. }
  assert (m1 < 2 ^ Zdigits2 m1) as B1.
  { destruct (Z.eq_dec m1 0) as [->|]; [reflexivity|]. apply Zdigits2_bounds. lia. }
  assert (Zdigits2 m1 <= Zdigits2 m2 <= Zdigits2 m1 + 1) as Hd2.
  { split; [apply Zdigits2_mono; lia|]. apply Zdigits2_le; [|pose proof (Zdigits2_nonneg m1); lia]. rewrite Z.pow_add_r by (pose proof (Zdigits2_nonneg m1); lia). lia. }
  assert (Zdigits2 m2 = Zdigits2 m1 + 1 -> m2 = 2 ^ Zdigits2 m1) as Hup.
  { intros E. destruct (Z.eq_dec m2 0) as [->|]; [cbn in E; pose proof (Zdigits2_nonneg m1); lia|]. pose proof (Zdigits2_bounds m2 ltac:(lia)) as B2. rewrite E in B2. replace (Zdigits2 m1 + 1 - 1) with (Zdigits2 m1) in B2 by lia. lia. }
  assert (e1 <= fexp (Zdigits2 m2 + e1)) as Hf2.
  { unfold SpecFloat.fexp, emin in *. lia. }
  destruct (shr_fexp_digits m2 e1 loc_Exact ltac:(lia) Hf2) as (G1 & G2 & G3).
  destruct (shr_fexp prec emax m2 e1 loc_Exact) as [r2 e2]. cbn [fst snd] in *. destruct (shr_m r2) as [|m3|m3] eqn:E3; [reflexivity| |lia].
  destruct (Z.leb_spec e2 (emax - prec)) as [Hle|Hle]; [|reflexivity]. cbn [valid_binary]. apply bounded_intro; [|lia].
  cbn [Zdigits2] in G3. rewrite G3. unfold SpecFloat.fexp, emin in *. pose proof (digits_bounds m3). lia.
Qed.

Lemma round_valid s m e : 0 < prec -> prec < emax -> valid_binary prec emax (binary_round prec emax s m e) = true.
Proof.
  intros Hp Hpe. unfold binary_round. rewrite align_eq. set (fe := fexp (Zpos (digits2_pos m) + e)). destruct (Z.ltb_spec fe e) as [H|H].
  - apply round_aux_valid; try lia. cbn [Zdigits2]. rewrite shiftZ_digits by lia. replace (Zpos (digits2_pos m) + (e - fe) + fe) with (Zpos (digits2_pos m) + e) by lia. fold fe. lia.
  - apply round_aux_valid; try lia. cbn [Zdigits2]. exact H.
Qed.
Lemma normalize_valid z e s : 0 < prec -> prec < emax -> valid_binary prec emax (binary_normalize prec emax z e s) = true.
Proof. intros. destruct z; cbn [binary_normalize]; [reflexivity|now apply round_valid|now apply round_valid]. Qed.
Lemma conv_valid f : 0 < prec -> prec < emax -> valid_binary prec emax (conv prec emax f) = true.
Proof. intros. destruct f; try reflexivity. cbn [conv]. now apply normalize_valid. Qed.
Lemma add_valid a b : 0 < prec -> prec < emax -> valid_binary prec emax a = true -> valid_binary prec emax b = true -> valid_binary prec emax (SFadd prec emax a b) = true.
Proof.
  intros Hp Hpe Ha Hb. destruct a as [s|s| |s m e], b as [s'|s'| |s' m' e']; cbn [SFadd]; try reflexivity; try assumption; try (destruct (Bool.eqb s s'); reflexivity).
  now apply normalize_valid.
Qed.
Lemma sub_valid a b : 0 < prec -> prec < emax -> valid_binary prec emax a = true -> valid_binary prec emax b = true -> valid_binary prec emax (SFsub prec emax a b) = true.
Proof.
  intros Hp Hpe Ha Hb. destruct a as [s|s| |s m e], b as [s'|s'| |s' m' e']; cbn [SFsub]; try reflexivity; try assumption; try (destruct (Bool.eqb s (negb s')); reflexivity).
  now apply normalize_valid.
Qed.
Lemma mul_valid a b : 0 < prec -> prec < emax -> emin prec emax <= 0 -> valid_binary prec emax a = true -> valid_binary prec emax b = true -> valid_binary prec emax (SFmul prec emax a b) = true.
Proof.
  intros Hp Hpe Hem Ha Hb. destruct a as [s|s| |s m e], b as [s'|s'| |s' m' e']; cbn [SFmul]; try reflexivity.
  cbn [valid_binary] in *. apply bounded_inv in Ha as [Ha Ha'], Hb as [Hb Hb']. apply round_aux_valid; try lia.
  change (Zdigits2 (Zpos (m * m'))) with (Zpos (digits2_pos (m * m'))).
  pose proof (digits_mul_l m m') as D1. pose proof (digits_mul_l m' m) as D2. rewrite Pos.mul_comm in D2.
  unfold SpecFloat.fexp in *. lia.
Qed.
End Round.

Lemma f32_of_f64_valid f : valid32 (f32_of_f64 f) = true.
Proof. now apply conv_valid. Qed.
Lemma f32_of_Z_valid z : valid32 (f32_of_Z z) = true.
Proof. now apply normalize_valid. Qed.
Lemma f64_of_Z_valid z : valid64 (f64_of_Z z) = true.
Proof. now apply normalize_valid. Qed.
Lemma f64_of_f32_valid f : valid64 (f64_of_f32 f) = true.
Proof. now apply conv_valid. Qed.

(** An i32 is held exactly by an f64, so going through it rounds once. *)
Lemma f32_of_f64_of_Z z : Z.abs z < 2 ^ 53 -> f32_of_f64 (f64_of_Z z) = f32_of_Z z.
Proof.
  intros H. destruct (Z.eq_dec z 0) as [->|Hz]; [reflexivity|]. destruct (val_of_Z64 z H) as [Hv _].
  unfold f32_of_f64, f32_of_Z. now apply conv_of_val.
Qed.
