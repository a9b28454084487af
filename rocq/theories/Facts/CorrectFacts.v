(** Rounding is to the nearest float, ties to even. *)
Require Import Coq.ZArith.ZArith Coq.QArith.QArith Coq.QArith.Qpower Coq.QArith.Qabs Coq.Floats.SpecFloat
  Coq.micromega.Lia Coq.micromega.Lqa.
Require Import Verif.Model.Float Verif.Spec.MfekSpec Verif.Spec.AccuracySpec Verif.Spec.RoundSpec
  Verif.Facts.FloatFacts Verif.Facts.ExactFacts Verif.Facts.ValueFacts Verif.Facts.RoundFacts Verif.Facts.ErrorFacts.
Local Open Scope Q_scope.

(** The nearest integer, and the even one of two. *)
Lemma nearest_integer x r n : located x r ->
  let m := round_nearest_even (shr_m r) (loc_of_shr_record r) in
  Qabs (inject_Z m - x) <= Qabs (inject_Z n - x) /\
  (Qabs (inject_Z m - x) == Qabs (inject_Z n - x) -> n = m \/ Z.even m = true).
Proof.
  intros H m. pose proof (chosen x r H) as HC. fold m in HC.
  assert (m = shr_m r \/ m = shr_m r + 1)%Z as Hm.
  { unfold m, round_nearest_even. destruct (loc_of_shr_record r) as [|[]]; auto. destruct (Z.even (shr_m r)); auto. }
  destruct (Z.eq_dec n m) as [->|Hn]; [split; [lra|auto]|].
  assert (1 # 2 <= Qabs (inject_Z n - x)) as HN.
  { apply Qabs_Qle_condition in HC as [C1 C2]. destruct (Z_lt_le_dec n m) as [Hlt|Hge].
    - assert (inject_Z n <= inject_Z m - 1).
      { change 1 with (inject_Z 1). unfold Qminus. rewrite <- inject_Z_opp, <- inject_Z_plus, <- Zle_Qle. lia. }
      rewrite Qabs_neg; lra.
    - assert (inject_Z m + 1 <= inject_Z n).
      { change 1 with (inject_Z 1). rewrite <- inject_Z_plus, <- Zle_Qle. lia. }
      rewrite Qabs_pos; lra. }
  split; [lra|]. intros E. right. assert (Qabs (inject_Z m - x) == 1 # 2) as E2 by lra.
  clear HN HC E Hn. unfold m, located in *. destruct r as [a b c]. cbn [shr_m shr_r shr_s loc_of_shr_record] in *.
  destruct b, c; cbn [round_nearest_even] in *.
  - exfalso. clear -H E2. rewrite inject_Z_plus in E2. change (inject_Z 1) with 1 in E2. rewrite Qabs_pos in E2; lra.
  - destruct (Z.even a) eqn:Ev; [assumption|]. now rewrite Z.even_add, Ev.
  - exfalso. rewrite Qabs_neg in E2; lra.
  - exfalso. rewrite Qabs_neg in E2; lra.
Qed.

Lemma pow_abs_mult x y e : Qabs (x * 2 ^ e - y * 2 ^ e) == Qabs (x - y) * 2 ^ e.
Proof.
  setoid_replace (x * 2 ^ e - y * 2 ^ e) with ((x - y) * 2 ^ e) by ring.
  rewrite Qabs_Qmult, (Qabs_pos (2 ^ e)); [reflexivity|apply Qlt_le_weak, pow_pos].
Qed.
Lemma pow_cancel x e : x * 2 ^ (- e) * 2 ^ e == x.
Proof. rewrite <- Qmult_assoc, <- pow_plus. replace (- e + e)%Z with 0%Z by lia. change (2 ^ 0) with 1. ring. Qed.

Section Correct.
Context (prec emax : Z) (Hp : (1 < prec)%Z) (Hpe : (prec < emax)%Z).
Local Notation fexp := (fexp prec emax).
Local Notation emin := (emin prec emax).
Local Notation fits := (fits prec emax).

Definition huge : Q := 2 ^ emax - 2 ^ (emax - prec - 1).
Definition finite_of (s : bool) (n k : Z) : spec_float := match n with Zpos p => S754_finite s p k | _ => S754_zero s end.

(** A number of the format at least as large as those with exponent [e1] is a multiple of 2^e1;
    the others are smaller. *)
Lemma on_step v e1 : fits v -> (exists n, v == inject_Z n * 2 ^ e1) \/ ((emin < e1)%Z /\ v < 2 ^ (prec - 1 + e1)).
Proof.
  intros (n & k & E & Hn & Hk). destruct (Z_le_gt_dec e1 k) as [H|H].
  - left. exists (n * 2 ^ (k - e1))%Z. rewrite E, inject_Z_mult, pow_Z, <- Qmult_assoc, <- pow_plus by lia.
    f_equiv. f_equiv. lia.
  - right. split; [lia|]. rewrite E. apply Qlt_le_trans with (2 ^ prec * 2 ^ k).
    + apply Qmult_lt_compat_r; [apply pow_pos|]. rewrite <- pow_Z by lia. rewrite <- Zlt_Qlt. lia.
    + rewrite <- pow_plus. apply pow_mono. lia.
Qed.

(** [f] is X, which is not negative, rounded and given the sign s. *)
Definition correct (s : bool) (X : Q) (f : spec_float) : Prop :=
  (huge <= X /\ f = S754_infinity s) \/
  (X < huge /\ exists n k, (0 <= n)%Z /\ f = finite_of s n k /\
     forall v, fits v -> Qabs (inject_Z n * 2 ^ k - X) <= Qabs (v - X) /\
       (Qabs (inject_Z n * 2 ^ k - X) == Qabs (v - X) -> v == inject_Z n * 2 ^ k \/ Z.even n = true)).

Lemma round_aux_correct s m e l X : (0 <= m)%Z -> (e <= fexp (Zdigits2 m + e))%Z ->
  located (X * 2 ^ (- e)) (shr_record_of_loc m l) -> correct s X (binary_round_aux prec emax s m e l).
Proof.
  intros Hm Hf HX. unfold correct. pose proof (emin_lt prec emax Hp Hpe) as Hem.
  destruct (shr_fexp_digits prec emax m e l Hm Hf) as (H1 & H2 & H3).
  assert (located (X * 2 ^ (- fexp (Zdigits2 m + e))) (fst (shr_fexp prec emax m e l))) as HL.
  { unfold shr_fexp. destruct (fexp (Zdigits2 m + e) - e)%Z as [|p|p] eqn:E; cbn [shr fst].
    - replace (fexp (Zdigits2 m + e)) with e by lia. exact HX.
    - replace (- fexp (Zdigits2 m + e))%Z with (- e + - Zpos p)%Z by lia.
      eapply located_proper; [|apply located_iter; [rewrite shr_record_m; exact Hm|exact HX]]. rewrite pow_plus. ring.
    - lia. }
  unfold binary_round_aux. destruct (shr_fexp prec emax m e l) as [r1 e1]. cbn [fst snd] in *. rewrite <- H1 in *.
  pose proof (fun n => nearest_integer _ _ n HL) as HN. pose proof (located_bounds _ _ HL) as [HB1 HB2].
  set (d := Zdigits2 m) in *. assert (0 <= d)%Z as Hd by apply Zdigits2_nonneg.
  set (m1 := shr_m r1) in *. set (m2 := round_nearest_even m1 (loc_of_shr_record r1)) in *. cbn zeta in HN.
  assert (m2 = m1 \/ m2 = m1 + 1)%Z as Hm2.
  { unfold m2, round_nearest_even. destruct (loc_of_shr_record r1) as [|[]]; auto. destruct (Z.even m1); auto. }
  assert (Hup : m2 = (m1 + 1)%Z -> inject_Z m1 + (1 # 2) <= X * 2 ^ (- e1)).
  { unfold m2. unfold located in HL. fold m1 in HL. intros Hx. destruct (shr_r r1) eqn:R, (shr_s r1) eqn:S0; cbn [loc_of_shr_record] in Hx.
    - lra.
    - lra.
    - destruct r1 as [a0 b0 c0]. cbn [shr_r shr_s loc_of_shr_record] in *. subst. cbn [round_nearest_even] in Hx. lia.
    - destruct r1 as [a0 b0 c0]. cbn [shr_r shr_s loc_of_shr_record] in *. subst. cbn [round_nearest_even] in Hx. lia. }
  assert (Hdown : m2 = m1 -> Z.even m1 = false -> X * 2 ^ (- e1) < inject_Z m1 + (1 # 2)).
  { unfold m2. unfold located in HL. fold m1 in HL. intros Hx Hev. destruct r1 as [a b c]. cbn [shr_m shr_r shr_s loc_of_shr_record] in *. subst m1.
    destruct b, c; cbn [round_nearest_even] in Hx; try (rewrite Hev in Hx); try lia; lra. }
  clearbody m2. assert (Zdigits2 m1 <= prec)%Z as Hd1.
  { rewrite H3, H1. unfold SpecFloat.fexp in *. lia. }
  assert (0 <= m1)%Z as Hm1 by exact H2.
  assert (m1 < 2 ^ Zdigits2 m1)%Z as B1.
  { destruct (Z.eq_dec m1 0) as [->|]; [reflexivity|]. apply Zdigits2_bounds. lia. }
  assert (2 ^ Zdigits2 m1 <= 2 ^ prec)%Z as B1' by (apply Z.pow_le_mono_r; lia).
  assert (m2 <= 2 ^ prec)%Z as B2 by lia.
  assert (emin <= e1)%Z as Hemin1 by (rewrite H1; unfold SpecFloat.fexp; lia).
  assert (Hbig : (emin < e1)%Z -> (2 ^ (prec - 1) <= m1)%Z).
  { intros Hx. assert (Zdigits2 m1 = prec) as Ed by (rewrite H3; unfold SpecFloat.fexp in *; lia).
    assert (0 < m1)%Z as Hpos1. { destruct (Z.eq_dec m1 0) as [Z0|]; [rewrite Z0 in Ed; cbn in Ed; lia|lia]. }
    pose proof (Zdigits2_bounds m1 Hpos1) as [D _]. now rewrite Ed in D. }
  (* scaled version of the choice *)
  assert (HV : forall v, fits v -> Qabs (inject_Z m2 * 2 ^ e1 - X) <= Qabs (v - X) /\
     (Qabs (inject_Z m2 * 2 ^ e1 - X) == Qabs (v - X) -> v == inject_Z m2 * 2 ^ e1 \/ Z.even m2 = true)).
  { intros v Hv. pose proof (pow_pos e1) as Hpe1.
    assert (forall w, Qabs (w - X) == Qabs (w * 2 ^ (- e1) - X * 2 ^ (- e1)) * 2 ^ e1) as Sc.
    { intros w. rewrite <- pow_abs_mult, !pow_cancel. reflexivity. }
    assert (inject_Z m2 * 2 ^ e1 * 2 ^ (- e1) == inject_Z m2) as Em2.
    { rewrite <- Qmult_assoc, <- pow_plus. replace (e1 + - e1)%Z with 0%Z by lia. change (2 ^ 0) with 1. ring. }
    rewrite (Sc v), (Sc (inject_Z m2 * 2 ^ e1)), Em2.
    destruct (on_step v e1 Hv) as [(n & En)|[Hlt Hv']].
    - assert (v * 2 ^ (- e1) == inject_Z n) as ->.
      { rewrite En, <- Qmult_assoc, <- pow_plus. replace (e1 + - e1)%Z with 0%Z by lia. change (2 ^ 0) with 1. ring. }
      destruct (HN n) as [N1 N2]. split; [apply Qmult_le_compat_r; [assumption|lra]|].
      intros Ex. apply Qmult_inj_r in Ex; [|lra]. destruct (N2 Ex) as [->|]; [left; exact En|now right].
    - assert (v * 2 ^ (- e1) < inject_Z m1) as Hv1.
      { apply Qlt_le_trans with (2 ^ (prec - 1 + e1) * 2 ^ (- e1)).
        - apply Qmult_lt_compat_r; [apply pow_pos|assumption].
        - rewrite <- pow_plus. replace (prec - 1 + e1 + - e1)%Z with (prec - 1)%Z by lia. rewrite <- pow_Z by lia.
          rewrite <- Zle_Qle. now apply Hbig. }
      destruct (HN m1) as [N1 _].
      assert (Qabs (inject_Z m1 - X * 2 ^ (- e1)) < Qabs (v * 2 ^ (- e1) - X * 2 ^ (- e1))) as N3.
      { rewrite !Qabs_neg by lra. lra. }
      assert (Qabs (inject_Z m2 - X * 2 ^ (- e1)) < Qabs (v * 2 ^ (- e1) - X * 2 ^ (- e1))) as N4 by lra.
      split; [apply Qmult_le_compat_r; lra|]. intros Ex. apply Qmult_inj_r in Ex; lra. }
  assert (HXs : X == X * 2 ^ (- e1) * 2 ^ e1) by (now rewrite pow_cancel).
  set (Y := X * 2 ^ (- e1)) in *.
  assert (2 ^ emax == 2 ^ prec * 2 ^ (emax - prec)) as Pe by (rewrite <- pow_plus; f_equiv; lia).
  assert (2 ^ (emax - prec - 1) == (1 # 2) * 2 ^ (emax - prec)) as Ph by (rewrite pow_m1; unfold Qdiv; change (/ 2) with (1 # 2); ring).
  assert (inject_Z (2 ^ prec) == 2 ^ prec) as Pp by (apply pow_Z; lia).
  assert (2 <= 2 ^ prec) as Pp2 by (rewrite <- Pp; change 2 with (inject_Z 2); rewrite <- Zle_Qle; change 2%Z with (2 ^ 1)%Z at 1; apply Z.pow_le_mono_r; lia).
  (* the result *)
  destruct (Z_le_gt_dec (Zdigits2 m2) prec) as [Hdm|Hdm].
  - assert (m2 < 2 ^ prec)%Z as B3.
    { destruct (Z.eq_dec m2 (2 ^ prec)) as [Eq|]; [|lia]. exfalso. pose proof (Zdigits2_ge m2 prec ltac:(lia) ltac:(lia)). lia. }
    assert (exists e2 r2, shr_fexp prec emax m2 e1 loc_Exact = (r2, e2) /\ shr_m r2 = m2 /\ e2 = e1) as (e2 & r2 & -> & -> & ->).
    { unfold shr_fexp. assert (fexp (Zdigits2 m2 + e1) - e1 <= 0)%Z as Hn by (unfold SpecFloat.fexp; lia).
      destruct (fexp (Zdigits2 m2 + e1) - e1)%Z as [|p|p]; [| lia |]; cbn [shr]; do 2 eexists; (split; [reflexivity|]);
      rewrite shr_record_m; split; reflexivity. }
    destruct (Z_le_gt_dec e1 (emax - prec)) as [He|He].
    + right. split.
      * unfold huge. rewrite Pe, Ph. destruct (Z.eq_dec e1 (emax - prec)) as [->|Hne].
        -- assert (Y < 2 ^ prec - (1 # 2)) as HY.
           { destruct (Z.eq_dec m1 (2 ^ prec - 1)) as [Em|Em].
             - assert (m2 = m1) as E2 by lia. assert (Z.even m1 = false) as Ev.
               { rewrite Em, Z.even_sub, Z.even_pow by lia. reflexivity. }
               specialize (Hdown E2 Ev). rewrite Em in Hdown. unfold Z.sub in Hdown. rewrite inject_Z_plus, Pp in Hdown. change (inject_Z (- (1))) with (-1) in Hdown. lra.
             - assert (inject_Z m1 + 1 <= 2 ^ prec - 1) as Q1.
               { rewrite <- Pp. change 1 with (inject_Z 1). unfold Qminus. rewrite <- inject_Z_opp, <- !inject_Z_plus, <- Zle_Qle. lia. }
               lra. }
           rewrite HXs. pose proof (pow_pos (emax - prec)). nra.
        -- assert (Y < 2 ^ prec) as HY.
           { assert (inject_Z m1 + 1 <= 2 ^ prec) as Q1; [|lra]. rewrite <- Pp. change 1 with (inject_Z 1). rewrite <- inject_Z_plus, <- Zle_Qle. lia. }
           assert (2 ^ e1 <= (1 # 2) * 2 ^ (emax - prec)) as Q2 by (rewrite <- Ph; apply pow_mono; lia).
           rewrite HXs. pose proof (pow_pos e1). assert (Y * 2 ^ e1 < 2 ^ prec * 2 ^ e1) by (apply Qmult_lt_compat_r; assumption).
           assert (2 ^ prec * 2 ^ e1 <= 2 ^ prec * ((1 # 2) * 2 ^ (emax - prec))).
           { rewrite !(Qmult_comm (2 ^ prec)). apply Qmult_le_compat_r; [assumption|lra]. }
           pose proof (pow_pos (emax - prec)). nra.
      * exists m2, e1. split; [lia|]. split; [|exact HV].
        destruct m2 as [|p|p]; [reflexivity| |lia]. cbn [finite_of]. assert ((e1 <=? emax - prec)%Z = true) as -> by (apply Z.leb_le; lia). reflexivity.
    + left. assert (emin < e1)%Z as Hx by lia. specialize (Hbig Hx). split.
      * unfold huge. pose proof (pow_pos (emax - prec - 1)) as Hh.
        assert (2 ^ emax <= X); [|lra]. rewrite HXs. apply Qle_trans with (2 ^ (prec - 1) * 2 ^ e1).
        -- rewrite <- pow_plus. apply pow_mono. lia.
        -- apply Qmult_le_compat_r; [|apply Qlt_le_weak, pow_pos]. rewrite <- pow_Z by lia. eapply Qle_trans; [|exact HB1]. rewrite <- Zle_Qle. lia.
      * assert (0 < 2 ^ (prec - 1))%Z by (apply Z.pow_pos_nonneg; lia). destruct m2 as [|p|p]; [lia| |lia].
        assert ((e1 <=? emax - prec)%Z = false) as -> by (apply Z.leb_gt; lia). reflexivity.
  - assert (m2 = 2 ^ prec)%Z as Em2.
    { pose proof (Zdigits2_nonneg m2). destruct (Z.eq_dec m2 0) as [Z0|]; [rewrite Z0 in Hdm; cbn in Hdm; lia|].
      pose proof (Zdigits2_bounds m2 ltac:(lia)) as [D _]. assert (2 ^ prec <= 2 ^ (Zdigits2 m2 - 1))%Z by (apply Z.pow_le_mono_r; lia). lia. }
    assert (Zdigits2 m2 = prec + 1)%Z as Ed.
    { assert (Zdigits2 m2 <= prec + 1)%Z; [|lia]. apply Zdigits2_le; [|lia]. rewrite Em2, Z.pow_add_r by lia.
      pose proof (Z.pow_pos_nonneg 2 prec ltac:(lia) ltac:(lia)). lia. }
    assert (exists p, m2 = Zpos p~0 /\ Zpos p = 2 ^ (prec - 1))%Z as (p & Ep & Ep').
    { assert (2 ^ prec = 2 * 2 ^ (prec - 1))%Z as E2.
      { replace prec with (1 + (prec - 1))%Z at 1 by lia. now rewrite Z.pow_add_r by lia. }
      pose proof (Z.pow_pos_nonneg 2 (prec - 1) ltac:(lia) ltac:(lia)). destruct (2 ^ (prec - 1))%Z as [|p|p] eqn:E3; try lia. exists p. split; [lia|reflexivity]. }
    assert (shr_fexp prec emax m2 e1 loc_Exact = ({| shr_m := Zpos p; shr_r := false; shr_s := false |}, e1 + 1)%Z) as ->.
    { unfold shr_fexp. rewrite Ed. replace (fexp (prec + 1 + e1) - e1)%Z with 1%Z by (unfold SpecFloat.fexp; lia).
      rewrite Ep. reflexivity. }
    cbn [shr_m]. assert (inject_Z (Zpos p) * 2 ^ (e1 + 1) == inject_Z m2 * 2 ^ e1) as EV.
    { rewrite pow_1, Ep, (Pos2Z.inj_xO p), inject_Z_mult. change (inject_Z 2) with 2. ring. }
    assert (m1 = 2 ^ prec - 1)%Z as Em1 by lia. assert (m2 = m1 + 1)%Z as Eup by lia. specialize (Hup Eup).
    assert (2 ^ prec - (1 # 2) <= Y) as HY.
    { rewrite Em1 in Hup. unfold Z.sub in Hup. rewrite inject_Z_plus, Pp in Hup. change (inject_Z (- (1))) with (-1) in Hup. lra. }
    destruct (Z_le_gt_dec (e1 + 1) (emax - prec)) as [He|He].
    + right. split.
      * unfold huge. rewrite Pe, Ph. assert (Y < 2 ^ prec) as HYY.
        { assert (inject_Z m1 + 1 <= 2 ^ prec) as Q1; [|lra]. rewrite <- Pp. change 1 with (inject_Z 1). rewrite <- inject_Z_plus, <- Zle_Qle. lia. }
        assert (2 ^ e1 <= (1 # 2) * 2 ^ (emax - prec)) as Q2 by (rewrite <- Ph; apply pow_mono; lia).
        rewrite HXs. pose proof (pow_pos e1). assert (Y * 2 ^ e1 < 2 ^ prec * 2 ^ e1) by (apply Qmult_lt_compat_r; assumption).
        assert (2 ^ prec * 2 ^ e1 <= 2 ^ prec * ((1 # 2) * 2 ^ (emax - prec))).
        { rewrite !(Qmult_comm (2 ^ prec)). apply Qmult_le_compat_r; [assumption|lra]. }
        pose proof (pow_pos (emax - prec)). nra.
      * exists (Zpos p), (e1 + 1)%Z. split; [lia|]. split.
        -- cbn [finite_of]. assert ((e1 + 1 <=? emax - prec)%Z = true) as -> by (apply Z.leb_le; lia). reflexivity.
        -- intros v Hv. destruct (HV v Hv) as [V1 V2]. rewrite EV. split; [assumption|]. intros Ex. right.
           rewrite Ep'. apply Z.even_spec. exists (2 ^ (prec - 2))%Z. replace (prec - 1)%Z with (1 + (prec - 2))%Z by lia. rewrite Z.pow_add_r by lia. reflexivity.
    + left. split; [|assert ((e1 + 1 <=? emax - prec)%Z = false) as -> by (apply Z.leb_gt; lia); reflexivity].
      unfold huge. rewrite Pe, Ph, HXs. assert (2 ^ (emax - prec) <= 2 ^ e1) as Q2 by (apply pow_mono; lia). pose proof (pow_pos (emax - prec)).
      apply Qle_trans with ((2 ^ prec - (1 # 2)) * 2 ^ (emax - prec)); [lra|]. apply Qle_trans with (Y * 2 ^ (emax - prec)).
      * apply Qmult_le_compat_r; lra.
      * rewrite !(Qmult_comm Y). apply Qmult_le_compat_r; lra.
Qed.

Lemma correct_proper s X Y f : X == Y -> correct s X f -> correct s Y f.
Proof.
  intros E [[H1 H2]|(H1 & n & k & H2 & H3 & H4)]; [left; split; [lra|assumption]|right]. split; [lra|].
  exists n, k. split; [assumption|]. split; [assumption|]. intros v Hv. rewrite <- !E. now apply H4.
Qed.

Lemma round_correct s m e : correct s (inject_Z (Zpos m) * 2 ^ e) (binary_round prec emax s m e).
Proof.
  unfold binary_round. rewrite align_eq. set (fe := fexp (Zpos (digits2_pos m) + e)). destruct (Z.ltb_spec fe e) as [H|H].
  - apply round_aux_correct; [lia| |].
    + cbn [Zdigits2]. rewrite shiftZ_digits by lia. replace (Zpos (digits2_pos m) + (e - fe) + fe)%Z with (Zpos (digits2_pos m) + e)%Z by lia. fold fe. lia.
    + unfold located. cbn [shr_record_of_loc shr_m shr_r shr_s]. rewrite shiftZ_Z by lia. rewrite inject_Z_mult, pow_Z by lia.
      rewrite <- Qmult_assoc, <- pow_plus. replace (e + - fe)%Z with (e - fe)%Z by lia. reflexivity.
  - apply round_aux_correct; [lia| |].
    + exact H.
    + unfold located. cbn [shr_record_of_loc shr_m shr_r shr_s]. rewrite <- Qmult_assoc, <- pow_plus.
      replace (e + - e)%Z with 0%Z by lia. change (2 ^ 0) with 1. ring.
Qed.

(** A number and its sign. *)
Lemma normalize_correct s m e : correct s (inject_Z (Zpos m) * 2 ^ e) (binary_normalize prec emax (cond_Zopp s (Zpos m)) e s).
Proof. destruct s; apply round_correct. Qed.

Lemma huge_pos : 0 < huge.
Proof.
  unfold huge. assert (2 ^ (emax - prec - 1) < 2 ^ emax); [|lra]. apply Qpower_lt_compat_l; [lia|reflexivity].
Qed.
Lemma fits_zero : fits 0.
Proof. exists 0%Z, emin. split; [change (inject_Z 0) with 0; ring|]. split; [|lia]. cbn. apply Z.pow_pos_nonneg; lia. Qed.
Lemma correct_zero s : correct s 0 (S754_zero s).
Proof.
  right. split; [apply huge_pos|]. exists 0%Z, 0%Z. split; [lia|]. split; [reflexivity|]. intros v _. change (inject_Z 0) with 0.
  setoid_replace (0 * 2 ^ 0 - 0) with 0 by ring. split; [apply Qabs_nonneg|]. intros _. now right.
Qed.

Lemma quotient_correct s m e m' e' :
  correct s (inject_Z (Zpos m) * 2 ^ e / (inject_Z (Zpos m') * 2 ^ e'))
    (let '(q, ex, l) := SFdiv_core_binary prec emax (Zpos m) e (Zpos m') e' in binary_round_aux prec emax s q ex l).
Proof.
  unfold SFdiv_core_binary. set (d1 := Zdigits2 (Zpos m)). set (d2 := Zdigits2 (Zpos m')).
  set (e0 := Z.min (fexp (d1 + e - (d2 + e'))) (e - e')). set (sh := (e - e' - e0)%Z).
  assert (0 <= sh)%Z as Hsh by (unfold sh, e0; lia).
  assert (match sh with Z0 => Zpos m | Zpos _ => Z.shiftl (Zpos m) sh | Zneg _ => 0%Z end = Zpos m * 2 ^ sh)%Z as ->.
  { destruct sh as [|p|p] eqn:Es; [now rewrite Z.mul_1_r| |lia]. rewrite Z.shiftl_mul_pow2 by lia. reflexivity. }
  assert (Z.div_eucl (Zpos m * 2 ^ sh) (Zpos m') = (Zpos m * 2 ^ sh / Zpos m', Zpos m * 2 ^ sh mod Zpos m')%Z) as ->.
  { unfold Z.div, Z.modulo. now destruct (Z.div_eucl (Zpos m * 2 ^ sh) (Zpos m')). }
  set (M := (Zpos m * 2 ^ sh)%Z). assert (0 < M)%Z as HM by (unfold M; pose proof (Z.pow_pos_nonneg 2 sh ltac:(lia) Hsh); lia).
  assert (0 < inject_Z (Zpos m')) as Hm' by reflexivity.
  set (X := inject_Z M / inject_Z (Zpos m') * 2 ^ e0).
  assert (X == inject_Z (Zpos m) * 2 ^ e / (inject_Z (Zpos m') * 2 ^ e')) as EX.
  { unfold X, M. rewrite inject_Z_mult, pow_Z by assumption.
    assert (2 ^ e == 2 ^ sh * 2 ^ e0 * 2 ^ e') as -> by (rewrite <- !pow_plus; f_equiv; unfold sh; lia).
    field. split; [apply pow_nz|lra]. }
  eapply correct_proper; [exact EX|]. apply round_aux_correct.
  - apply Z.div_pos; lia.
  - assert (d1 + sh - d2 <= Zdigits2 (M / Zpos m'))%Z as HD.
    { destruct (Z_le_gt_dec (d1 + sh - d2) 0) as [Hle|Hgt]; [pose proof (Zdigits2_nonneg (M / Zpos m')); lia|].
      assert (d1 + sh - d2 - 1 < Zdigits2 (M / Zpos m'))%Z; [|lia]. apply Zdigits2_ge; [|lia].
      apply Z.div_le_lower_bound; [lia|].
      pose proof (Zdigits2_bounds (Zpos m) ltac:(lia)) as [B1 _]. pose proof (Zdigits2_bounds (Zpos m') ltac:(lia)) as [_ B2]. fold d1 in B1. fold d2 in B2.
      assert (0 <= d2)%Z by apply Zdigits2_nonneg. assert (1 <= d1)%Z by (unfold d1; cbn [Zdigits2]; lia).
      apply Z.le_trans with (2 ^ d2 * 2 ^ (d1 + sh - d2 - 1))%Z.
      - apply Z.mul_le_mono_nonneg_r; [apply Z.pow_nonneg; lia|lia].
      - rewrite <- Z.pow_add_r by lia. replace (d2 + (d1 + sh - d2 - 1))%Z with (d1 - 1 + sh)%Z by lia. rewrite Z.pow_add_r by lia.
        unfold M. apply Z.mul_le_mono_nonneg_r; [apply Z.pow_nonneg; lia|assumption]. }
    assert (e0 <= fexp (d1 + e - (d2 + e')))%Z by (unfold e0; lia).
    unfold SpecFloat.fexp in *. unfold sh in HD. lia.
  - unfold X. eapply located_proper; [|apply new_location_ok; lia]. rewrite <- Qmult_assoc, <- pow_plus. replace (e0 + - e0)%Z with 0%Z by lia. change (2 ^ 0) with 1. ring.
Qed.

Lemma quotient_valid s m e m' e' :
  valid_binary prec emax (let '(q, ex, l) := SFdiv_core_binary prec emax (Zpos m) e (Zpos m') e' in binary_round_aux prec emax s q ex l) = true.
Proof.
  unfold SFdiv_core_binary. set (d1 := Zdigits2 (Zpos m)). set (d2 := Zdigits2 (Zpos m')).
  set (e0 := Z.min (fexp (d1 + e - (d2 + e'))) (e - e')). set (sh := (e - e' - e0)%Z).
  assert (0 <= sh)%Z as Hsh by (unfold sh, e0; lia).
  assert (match sh with Z0 => Zpos m | Zpos _ => Z.shiftl (Zpos m) sh | Zneg _ => 0%Z end = Zpos m * 2 ^ sh)%Z as ->.
  { destruct sh as [|p|p] eqn:Es; [now rewrite Z.mul_1_r| |lia]. rewrite Z.shiftl_mul_pow2 by lia. reflexivity. }
  assert (Z.div_eucl (Zpos m * 2 ^ sh) (Zpos m') = (Zpos m * 2 ^ sh / Zpos m', Zpos m * 2 ^ sh mod Zpos m')%Z) as ->.
  { unfold Z.div, Z.modulo. now destruct (Z.div_eucl (Zpos m * 2 ^ sh) (Zpos m')). }
  set (M := (Zpos m * 2 ^ sh)%Z). assert (0 < M)%Z as HM by (unfold M; pose proof (Z.pow_pos_nonneg 2 sh ltac:(lia) Hsh); lia).
  apply round_aux_valid; [lia|lia|apply Z.div_pos; lia|].
  assert (d1 + sh - d2 <= Zdigits2 (M / Zpos m'))%Z as HD.
  { destruct (Z_le_gt_dec (d1 + sh - d2) 0) as [Hle|Hgt]; [pose proof (Zdigits2_nonneg (M / Zpos m')); lia|].
    assert (d1 + sh - d2 - 1 < Zdigits2 (M / Zpos m'))%Z; [|lia]. apply Zdigits2_ge; [|lia].
    apply Z.div_le_lower_bound; [lia|].
    pose proof (Zdigits2_bounds (Zpos m) ltac:(lia)) as [B1 _]. pose proof (Zdigits2_bounds (Zpos m') ltac:(lia)) as [_ B2]. fold d1 in B1. fold d2 in B2.
    assert (0 <= d2)%Z by apply Zdigits2_nonneg. assert (1 <= d1)%Z by (unfold d1; cbn [Zdigits2]; lia).
    apply Z.le_trans with (2 ^ d2 * 2 ^ (d1 + sh - d2 - 1))%Z.
    - apply Z.mul_le_mono_nonneg_r; [apply Z.pow_nonneg; lia|lia].
    - rewrite <- Z.pow_add_r by lia. replace (d2 + (d1 + sh - d2 - 1))%Z with (d1 - 1 + sh)%Z by lia. rewrite Z.pow_add_r by lia.
      unfold M. apply Z.mul_le_mono_nonneg_r; [apply Z.pow_nonneg; lia|assumption]. }
  assert (e0 <= fexp (d1 + e - (d2 + e')))%Z by (unfold e0; lia).
  unfold SpecFloat.fexp in *. unfold sh in HD. lia.
Qed.
End Correct.

(** ** 32 bits *)
Lemma float32_fits g v : float32 g v -> fits 24 128 v.
Proof.
  intros [V (q & E & Eq)]. destruct g as [s|s| |s m e]; cbn [value] in E; try discriminate; injection E as <-.
  - apply (fits_proper 24 128 0); [assumption|]. now apply fits_zero.
  - cbn [valid32 valid_binary] in V. destruct (digits_le_prec _ _ _ _ V) as [D1 D2]. exists (cond_Zopp s (Zpos m)), e.
    split; [now rewrite Eq|]. split; [|assumption]. pose proof (digits_bounds m) as [_ B].
    assert (2 ^ Zpos (digits2_pos m) <= 2 ^ 24)%Z by (apply Z.pow_le_mono_r; [lia|assumption]). destruct s; cbn [cond_Zopp]; lia.
Qed.

Lemma correct_rounded s X f : 0 <= X -> valid32 f = true -> correct 24 128 s X f -> rounded32 (with_sign s X) f /\ negative f = s.
Proof.
  intros HX V [[H1 H2]|(H1 & n & k & H2 & H3 & H4)].
  - subst f. split; [|reflexivity]. cbn [rounded32]. pose proof (huge_pos 24 128 ltac:(lia)) as Hh. unfold overflows32. split.
    + change (2 ^ 128 - 2 ^ 103) with (huge 24 128). destruct s; cbn [with_sign]; [rewrite Qabs_opp|]; now rewrite Qabs_pos.
    + destruct s; cbn [with_sign]; split; intros; try reflexivity; try discriminate; try (exfalso; lra); lra.
  - assert (negative f = s) as Hs by (subst f; destruct n; reflexivity). split; [|assumption].
    assert (~ overflows32 (with_sign s X)) as Ho.
    { unfold overflows32. change (2 ^ 128 - 2 ^ 103) with (huge 24 128). destruct s; cbn [with_sign]; [rewrite Qabs_opp|]; rewrite Qabs_pos by assumption; lra. }
    assert (even_mantissa f <-> Z.even n = true) as Hev.
    { subst f. destruct n as [|p|p]; [cbn; tauto|reflexivity|lia]. }
    assert (same_value f (with_sign s (inject_Z n * 2 ^ k))) as Hv.
    { subst f. destruct n as [|p|p]; [| |lia].
      - exists 0. split; [reflexivity|]. change (inject_Z 0) with 0. destruct s; cbn [with_sign]; ring.
      - eexists. split; [reflexivity|]. rewrite inject_sign. destruct s; cbn [with_sign]; ring. }
    assert (exists q, float32 f q /\
      forall g v, float32 g v -> Qabs (q - with_sign s X) <= Qabs (v - with_sign s X) /\
        (Qabs (q - with_sign s X) == Qabs (v - with_sign s X) -> v == q \/ even_mantissa f)) as HR.
    { exists (with_sign s (inject_Z n * 2 ^ k)). split; [split; assumption|]. intros g v Hg. apply float32_fits in Hg.
      destruct s; cbn [with_sign] in *.
      - destruct (H4 (- v) (fits_opp 24 128 ltac:(lia) v Hg)) as [A B].
        assert (forall w, Qabs (w - - X) == Qabs (- w - X)) as Sw.
        { intros w. rewrite <- (Qabs_opp (- w - X)). apply Qabs_wd. ring. }
        rewrite !Sw, !Qopp_involutive, Hev. split; [assumption|]. intros E. destruct (B E) as [C|C]; [left; rewrite <- C; ring|now right].
      - rewrite Hev. apply (H4 v Hg). }
    subst f. destruct n as [|p|p]; [| |lia]; (split; assumption).
Qed.
