(** Exactness of float conversions, proved on [spec_float] without real numbers. *)
Require Import Coq.ZArith.ZArith Coq.NArith.NArith Coq.Bool.Bool Coq.Floats.SpecFloat Coq.micromega.Lia.
Require Import Verif.Model.Float.
Local Open Scope Z_scope.

Lemma iter_pos_comm {A} (f : A -> A) p : forall x, iter_pos f p (f x) = f (iter_pos f p x).
Proof. induction p as [p IH|p IH|]; intros x; cbn [iter_pos]; rewrite ?IH; reflexivity. Qed.

Lemma iter_pos_succ {A} (f : A -> A) p : forall x, iter_pos f (Pos.succ p) x = f (iter_pos f p x).
Proof.
  induction p as [p IH|p IH|]; intros x; cbn [iter_pos Pos.succ].
  - rewrite !IH. rewrite <- !iter_pos_comm. reflexivity.
  - rewrite <- !iter_pos_comm. reflexivity.
  - reflexivity.
Qed.

Lemma digits2_pos_succ_bit m : digits2_pos (xO m) = Pos.succ (digits2_pos m).
Proof. reflexivity. Qed.

Lemma shift_pos_succ p m : shift_pos (Pos.succ p) m = xO (shift_pos p m).
Proof. unfold shift_pos. now rewrite Pos.iter_succ. Qed.

Lemma digits_shift p : forall m, Zpos (digits2_pos (shift_pos p m)) = Zpos (digits2_pos m) + Zpos p.
Proof.
  induction p as [|p IH] using Pos.peano_ind; intros m.
  - unfold shift_pos. cbn [Pos.iter]. rewrite digits2_pos_succ_bit. lia.
  - rewrite shift_pos_succ, digits2_pos_succ_bit, Pos2Z.inj_succ, IH. lia.
Qed.

Lemma shr_shift p : forall m,
  iter_pos shr_1 p (Build_shr_record (Zpos (shift_pos p m)) false false) = Build_shr_record (Zpos m) false false.
Proof.
  induction p as [|p IH] using Pos.peano_ind; intros m; [reflexivity|].
  rewrite shift_pos_succ, iter_pos_succ, <- iter_pos_comm. cbn [shr_1 orb]. apply IH.
Qed.

Lemma shift_pos_Z p m : Zpos (shift_pos p m) = Zpos m * 2 ^ Zpos p.
Proof.
  induction p as [|p IH] using Pos.peano_ind.
  - unfold shift_pos. cbn. lia.
  - rewrite shift_pos_succ, Pos2Z.inj_xO, IH, Pos2Z.inj_succ, Z.pow_succ_r by lia. lia.
Qed.

(** Shift by a natural exponent given as Z. *)
Definition shiftZ (k : Z) (m : positive) : positive :=
  match k with Zpos p => shift_pos p m | _ => m end.

Lemma shiftZ_digits k m : 0 <= k -> Zpos (digits2_pos (shiftZ k m)) = Zpos (digits2_pos m) + k.
Proof. destruct k as [|p|p]; cbn [shiftZ]; intros; [lia|apply digits_shift|lia]. Qed.
Lemma shiftZ_Z k m : 0 <= k -> Zpos (shiftZ k m) = Zpos m * 2 ^ k.
Proof. destruct k as [|p|p]; cbn [shiftZ]; intros; [cbn; lia|apply shift_pos_Z|lia]. Qed.

Section Round.
Context (prec emax : Z).

Lemma bounded_inv m e : bounded prec emax m e = true ->
  fexp prec emax (Zpos (digits2_pos m) + e) = e /\ e <= emax - prec.
Proof.
  unfold bounded, canonical_mantissa. intros H. apply andb_prop in H as [H1 H2].
  apply Zeq_bool_eq in H1. apply Zle_bool_imp_le in H2. auto.
Qed.
Lemma bounded_intro m e : fexp prec emax (Zpos (digits2_pos m) + e) = e -> e <= emax - prec ->
  bounded prec emax m e = true.
Proof.
  intros H1 H2. unfold bounded, canonical_mantissa. apply andb_true_intro. split.
  - rewrite H1. now apply Zeq_is_eq_bool.
  - now apply Zle_imp_le_bool.
Qed.

Lemma round_aux_canonical s m e :
  bounded prec emax m e = true ->
  binary_round_aux prec emax s (Zpos m) e loc_Exact = S754_finite s m e.
Proof.
  intros H. apply bounded_inv in H as [Hf He].
  unfold binary_round_aux, shr_fexp. cbn [Zdigits2 shr_record_of_loc].
  rewrite Hf, Z.sub_diag. cbn [shr shr_m loc_of_shr_record round_nearest_even Zdigits2].
  rewrite Hf, Z.sub_diag. cbn [shr shr_m].
  now rewrite (Zle_imp_le_bool _ _ He).
Qed.

Lemma round_aux_shifted s m e p :
  bounded prec emax m e = true ->
  binary_round_aux prec emax s (Zpos (shift_pos p m)) (e - Zpos p) loc_Exact = S754_finite s m e.
Proof.
  intros H. apply bounded_inv in H as [Hf He].
  unfold binary_round_aux, shr_fexp. cbn [Zdigits2 shr_record_of_loc].
  rewrite digits_shift. replace (Zpos (digits2_pos m) + Zpos p + (e - Zpos p)) with (Zpos (digits2_pos m) + e) by lia.
  rewrite Hf. replace (e - (e - Zpos p)) with (Zpos p) by lia. cbn [shr].
  rewrite shr_shift. cbn [shr_m loc_of_shr_record round_nearest_even].
  replace (e - Zpos p + Zpos p) with e by lia. cbn [Zdigits2].
  rewrite Hf, Z.sub_diag. cbn [shr shr_m].
  now rewrite (Zle_imp_le_bool _ _ He).
Qed.

(** Rounding a representable value given with a finer exponent. *)
Lemma round_finer s m e k :
  0 <= k -> bounded prec emax m e = true ->
  binary_round prec emax s (shiftZ k m) (e - k) = S754_finite s m e.
Proof.
  intros Hk H. pose proof (bounded_inv _ _ H) as [Hf He]. unfold binary_round.
  rewrite shiftZ_digits by assumption.
  replace (Zpos (digits2_pos m) + k + (e - k)) with (Zpos (digits2_pos m) + e) by lia.
  rewrite Hf. unfold shl_align. replace (e - (e - k)) with k by lia.
  destruct k as [|p|p]; cbn [shiftZ]; [|now apply round_aux_shifted|lia].
  rewrite Z.sub_0_r. now apply round_aux_canonical.
Qed.

(** ... with a coarser exponent. *)
Lemma round_coarser s m e k :
  0 <= k -> bounded prec emax (shiftZ k m) e = true ->
  binary_round prec emax s m (e + k) = S754_finite s (shiftZ k m) e.
Proof.
  intros Hk H. pose proof (bounded_inv _ _ H) as [Hf He]. unfold binary_round.
  rewrite shiftZ_digits in Hf by assumption.
  replace (Zpos (digits2_pos m) + (e + k)) with (Zpos (digits2_pos m) + k + e) by lia.
  rewrite Hf. unfold shl_align. replace (e - (e + k)) with (- k) by lia.
  destruct k as [|p|p]; cbn [shiftZ Z.opp]; [|now apply round_aux_canonical|lia].
  rewrite Z.add_0_r. now apply round_aux_canonical.
Qed.

Lemma round_same s m e : bounded prec emax m e = true -> binary_round prec emax s m e = S754_finite s m e.
Proof. intros H. replace e with (e - 0) at 1 by lia. now apply (round_finer s m e 0). Qed.

Lemma normalize_same s m e :
  bounded prec emax m e = true ->
  binary_normalize prec emax (cond_Zopp s (Zpos m)) e s = S754_finite s m e.
Proof. intros H. destruct s; cbn [cond_Zopp Z.opp binary_normalize]; now apply round_same. Qed.

Lemma normalize_cond s m e :
  binary_normalize prec emax (cond_Zopp s (Zpos m)) e s = binary_round prec emax s m e.
Proof. destruct s; reflexivity. Qed.

Lemma conv_same f : valid_binary prec emax f = true -> conv prec emax f = f.
Proof. destruct f; cbn [conv valid_binary]; intros H; try reflexivity. now apply normalize_same. Qed.

End Round.

Lemma digits_le_prec prec emax m e : bounded prec emax m e = true -> Zpos (digits2_pos m) <= prec /\ emin prec emax <= e.
Proof.
  intros H. apply bounded_inv in H as [H _]. unfold fexp in H. lia.
Qed.

(** binary32 into binary64: the mantissa is shifted left, the value unchanged. *)
Lemma f64_of_f32_finite s m e :
  valid32 (S754_finite s m e) = true ->
  exists k, 0 <= k /\ f64_of_f32 (S754_finite s m e) = S754_finite s (shiftZ k m) (e - k) /\
            valid64 (S754_finite s (shiftZ k m) (e - k)) = true.
Proof.
  unfold valid32, valid64, f64_of_f32. cbn [valid_binary conv]. intros H.
  pose proof (bounded_inv _ _ _ _ H) as [Hf He]. pose proof (digits_le_prec _ _ _ _ H) as [Hd Hm].
  set (fe := fexp prec64 emax64 (Zpos (digits2_pos m) + e)).
  assert (fe <= e /\ fe <= 971) as [Hfe Hfe2].
  { unfold fe, fexp, emin, prec32, emax32, prec64, emax64 in *. unfold emin in *. lia. }
  exists (e - fe). split; [lia|].
  assert (bounded prec64 emax64 (shiftZ (e - fe) m) (e - (e - fe)) = true) as HB.
  { apply bounded_intro.
    - rewrite shiftZ_digits by lia. replace (Zpos (digits2_pos m) + (e - fe) + (e - (e - fe))) with (Zpos (digits2_pos m) + e) by lia.
      fold fe. lia.
    - change (emax64 - prec64) with 971. lia. }
  split; [|assumption].
  rewrite normalize_cond.
  replace e with ((e - (e - fe)) + (e - fe)) at 1 by lia.
  apply round_coarser; [lia|assumption].
Qed.

Lemma f32_of_f64_of_f32 f : valid32 f = true -> f32_of_f64 (f64_of_f32 f) = f.
Proof.
  destruct f as [s|s| |s m e]; intros H; try reflexivity.
  destruct (f64_of_f32_finite s m e H) as (k & Hk & -> & _).
  unfold f32_of_f64. cbn [conv]. rewrite normalize_cond. now apply round_finer.
Qed.

Lemma f64_of_f32_inj f g : valid32 f = true -> valid32 g = true -> f64_of_f32 f = f64_of_f32 g -> f = g.
Proof. intros Hf Hg H. rewrite <- (f32_of_f64_of_f32 f), H by assumption. now apply f32_of_f64_of_f32. Qed.

(** [feq] on non-NaN values is numeric equality; on equal finite non-zero values it is equality. *)
Lemma feq_refl f : is_nan f = false -> feq f f = true.
Proof.
  unfold feq, SFeqb. destruct f as [s|s| |s m e]; cbn [is_nan SFcompare]; try discriminate; intros _; try reflexivity.
  - now destruct s.
  - rewrite Z.compare_refl, Pos.compare_cont_refl. now destruct s.
Qed.

Lemma feq_sym a b : feq a b = feq b a.
Proof.
  unfold feq, SFeqb. destruct a as [s|s| |s m e], b as [t|t| |t n f]; cbn [SFcompare]; try reflexivity;
    try (destruct s; reflexivity); try (destruct t; reflexivity); try (destruct s, t; reflexivity).
  assert (Pos.compare_cont Eq n m = CompOpp (Pos.compare_cont Eq m n)) as HP
    by (symmetry; apply (Pos.compare_cont_antisym m n Eq)).
  rewrite (Z.compare_antisym e f), HP.
  destruct s, t, (e ?= f); cbn [CompOpp]; try reflexivity; destruct (Pos.compare_cont Eq m n); reflexivity.
Qed.

Lemma feq_nan a b : feq a b = true -> is_nan a = false /\ is_nan b = false.
Proof. unfold feq, SFeqb. destruct a, b; cbn; auto; discriminate. Qed.

(** [feq] only identifies equal values and the two zeros. *)
Lemma feq_true a b : feq a b = true -> a = b \/ (exists s t, a = S754_zero s /\ b = S754_zero t).
Proof.
  unfold feq, SFeqb. destruct a as [s|s| |s m e], b as [t|t| |t n f]; cbn [SFcompare]; try discriminate; intros H.
  - right. eauto.
  - destruct t; discriminate.
  - destruct t; discriminate.
  - destruct s; discriminate.
  - left. destruct s, t; try discriminate; reflexivity.
  - destruct s; discriminate.
  - destruct s; discriminate.
  - destruct t; discriminate.
  - left. destruct s, t; try discriminate; destruct (Z.compare_spec e f); try discriminate; subst;
      destruct (Pos.compare_cont Eq m n) eqn:E; cbn [CompOpp] in H; try discriminate;
      apply Pos.compare_eq in E; now subst.
Qed.
