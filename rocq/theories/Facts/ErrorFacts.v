(** Rounding errors: the result of an operation is within half a unit in the last place. *)
Require Import Coq.ZArith.ZArith Coq.QArith.QArith Coq.QArith.Qpower Coq.QArith.Qabs Coq.Floats.SpecFloat
  Coq.micromega.Lia Coq.micromega.Lqa.
Require Import Verif.Model.Float Verif.Spec.MfekSpec Verif.Facts.FloatFacts Verif.Facts.ExactFacts Verif.Facts.ValueFacts Verif.Facts.RoundFacts.
Local Open Scope Q_scope.

Lemma pow_pos e : 0 < 2 ^ e.
Proof. apply Qpower_0_lt. reflexivity. Qed.
Lemma pow_plus a b : 2 ^ (a + b) == 2 ^ a * 2 ^ b.
Proof. apply Qpower_plus, two_nz. Qed.
Lemma pow_mono a b : (a <= b)%Z -> 2 ^ a <= 2 ^ b.
Proof. intros H. apply Qpower_le_compat_l; [assumption|discriminate]. Qed.
Lemma pow_1 e : 2 ^ (e + 1) == 2 * 2 ^ e.
Proof. rewrite pow_plus. change (2 ^ 1) with 2. ring. Qed.
Lemma pow_m1 e : 2 ^ (e - 1) == 2 ^ e / 2.
Proof. unfold Z.sub. rewrite pow_plus. reflexivity. Qed.

(** x lies where the record says. *)
Definition located (x : Q) (r : shr_record) : Prop :=
  let m := inject_Z (shr_m r) in
  match shr_r r, shr_s r with
  | false, false => x == m
  | false, true => m < x /\ x < m + (1 # 2)
  | true, false => x == m + (1 # 2)
  | true, true => m + (1 # 2) < x /\ x < m + 1
  end.

Lemma located_bounds x r : located x r -> inject_Z (shr_m r) <= x /\ x < inject_Z (shr_m r) + 1.
Proof. unfold located. destruct (shr_r r), (shr_s r); lra. Qed.

Lemma located_1 x r : (0 <= shr_m r)%Z -> located x r -> located (x / 2) (shr_1 r).
Proof.
  destruct r as [m b c]. unfold located. cbn [shr_m shr_r shr_s]. intros Hm H.
  destruct m as [|[p|p|]|p]; try lia; cbn [shr_1 shr_m shr_r shr_s].
  - change (inject_Z 0) with 0 in *. destruct b, c; cbn [orb]; unfold Qdiv; change (/ 2) with (1 # 2); lra.
  - assert (inject_Z (Zpos p~1) == 2 * inject_Z (Zpos p) + 1) as E.
    { rewrite Pos2Z.inj_xI, inject_Z_plus, inject_Z_mult. reflexivity. }
    destruct b, c; cbn [orb]; unfold Qdiv; change (/ 2) with (1 # 2); lra.
  - assert (inject_Z (Zpos p~0) == 2 * inject_Z (Zpos p)) as E.
    { rewrite Pos2Z.inj_xO, inject_Z_mult. reflexivity. }
    destruct b, c; cbn [orb]; unfold Qdiv; change (/ 2) with (1 # 2); lra.
  - change (inject_Z 1) with 1 in *. change (inject_Z 0) with 0 in *.
    destruct b, c; cbn [orb]; unfold Qdiv; change (/ 2) with (1 # 2); lra.
Qed.

Lemma located_proper x y r : x == y -> located x r -> located y r.
Proof. intros E. unfold located. destruct (shr_r r), (shr_s r); lra. Qed.

Lemma located_iter p : forall x r, (0 <= shr_m r)%Z -> located x r -> located (x * 2 ^ (- Zpos p)) (iter_pos shr_1 p r).
Proof.
  induction p as [|p IH] using Pos.peano_ind; intros x r Hr H.
  - cbn [iter_pos]. eapply located_proper; [|apply located_1; eassumption]. reflexivity.
  - rewrite iter_pos_succ. destruct (shr_digits p r Hr) as [H1 _].
    eapply located_proper; [|apply located_1; [exact H1|apply IH; eassumption]].
    rewrite Pos2Z.inj_succ. replace (- Z.succ (Zpos p))%Z with (- Zpos p - 1)%Z by lia. rewrite pow_m1. unfold Qdiv. ring.
Qed.

(** The choice of the nearest integer. *)
Lemma chosen x r : located x r -> Qabs (inject_Z (round_nearest_even (shr_m r) (loc_of_shr_record r)) - x) <= 1 # 2.
Proof.
  intros H. apply Qabs_Qle_condition. destruct r as [m b c]. unfold located in H. cbn [shr_m shr_r shr_s loc_of_shr_record] in *.
  destruct b, c; cbn [round_nearest_even]; [|destruct (Z.even m)| |]; try rewrite inject_Z_plus; change (inject_Z 1) with 1; lra.
Qed.

Lemma value_finite s m e : value (S754_finite s m e) = Some (inject_Z (cond_Zopp s (Zpos m)) * 2 ^ e).
Proof. reflexivity. Qed.

(** x with the sign s. *)
Definition with_sign (s : bool) (x : Q) : Q := if s then - x else x.
Lemma inject_sign s z : inject_Z (cond_Zopp s z) == with_sign s (inject_Z z).
Proof. destruct s; cbn; [rewrite inject_Z_opp; reflexivity|reflexivity]. Qed.

Section Error.
Context (prec emax : Z) (Hp : (1 < prec)%Z) (Hpe : (prec < emax)%Z).
Local Notation fexp := (fexp prec emax).
Local Notation emin := (emin prec emax).

(** How far a rounded result may be from the exact x. *)
Definition slack (x : Q) : Q := Qabs x * 2 ^ (- prec) + 2 ^ (emin - 1).

(** Numbers the format holds exactly. *)
Definition fits (x : Q) : Prop := exists n k, x == inject_Z n * 2 ^ k /\ (Z.abs n < 2 ^ prec)%Z /\ (emin <= k)%Z.
Lemma fits_proper x y : x == y -> fits x -> fits y.
Proof. intros E (n & k & H & H'). exists n, k. split; [now rewrite <- E|assumption]. Qed.
Lemma fits_opp x : fits x -> fits (- x).
Proof.
  intros (n & k & H & H1 & H2). exists (- n)%Z, k. split; [|split; [lia|assumption]]. rewrite H, inject_Z_opp. ring.
Qed.

Lemma emin_lt : (emin < emax - prec)%Z.
Proof. unfold SpecFloat.emin. lia. Qed.

Lemma round_aux_error s m e l X : (0 <= m)%Z -> (e <= fexp (Zdigits2 m + e))%Z ->
  located (X * 2 ^ (- e)) (shr_record_of_loc m l) -> X <= 2 ^ (emax - 1) ->
  exists q, value (binary_round_aux prec emax s m e l) = Some q /\ Qabs (q - with_sign s X) <= slack X /\
    (fits X -> q == with_sign s X).
Proof.
  intros Hm Hf HX Hle. pose proof emin_lt as Hem.
  destruct (shr_fexp_digits prec emax m e l Hm Hf) as (H1 & H2 & H3).
  assert (located (X * 2 ^ (- fexp (Zdigits2 m + e))) (fst (shr_fexp prec emax m e l))) as HL.
  { unfold shr_fexp. destruct (fexp (Zdigits2 m + e) - e)%Z as [|p|p] eqn:E; cbn [shr fst].
    - replace (fexp (Zdigits2 m + e)) with e by lia. exact HX.
    - replace (- fexp (Zdigits2 m + e))%Z with (- e + - Zpos p)%Z by lia.
      eapply located_proper; [|apply located_iter; [rewrite shr_record_m; exact Hm|exact HX]]. rewrite pow_plus. ring.
    - lia. }
  unfold binary_round_aux. destruct (shr_fexp prec emax m e l) as [r1 e1]. cbn [fst snd] in *. rewrite <- H1 in *.
  pose proof (chosen _ _ HL) as HC. pose proof (located_bounds _ _ HL) as [HB1 HB2].
  set (d := Zdigits2 m) in *. assert (0 <= d)%Z by apply Zdigits2_nonneg.
  set (m1 := shr_m r1) in *. set (m2 := round_nearest_even m1 (loc_of_shr_record r1)) in *.
  assert (m2 = m1 \/ m2 = m1 + 1)%Z as Hm2.
  { unfold m2, round_nearest_even. destruct (loc_of_shr_record r1) as [|[]]; auto. destruct (Z.even m1); auto. }
  clearbody m2. assert (Zdigits2 m1 <= prec)%Z as Hd1.
  { rewrite H3, H1. unfold SpecFloat.fexp in *. lia. }
  assert (m1 < 2 ^ Zdigits2 m1)%Z as B1.
  { destruct (Z.eq_dec m1 0) as [->|]; [reflexivity|]. apply Zdigits2_bounds. lia. }
  assert (2 ^ Zdigits2 m1 <= 2 ^ prec)%Z as B1' by (apply Z.pow_le_mono_r; lia).
  assert (m2 <= 2 ^ prec)%Z as B2 by lia.
  (* the error before the second normalisation *)
  assert (Qabs (inject_Z m2 * 2 ^ e1 - X) <= 2 ^ (e1 - 1)) as HE.
  { assert (inject_Z m2 * 2 ^ e1 - X == (inject_Z m2 - X * 2 ^ (- e1)) * 2 ^ e1) as ->.
    { assert (X * 2 ^ (- e1) * 2 ^ e1 == X) as EX.
      { rewrite <- Qmult_assoc, <- pow_plus. replace (- e1 + e1)%Z with 0%Z by lia. change (2 ^ 0) with 1. ring. }
      rewrite <- EX at 1. ring. }
    rewrite Qabs_Qmult, (Qabs_pos (2 ^ e1)) by (apply Qlt_le_weak, pow_pos). rewrite pow_m1.
    assert (2 ^ e1 / 2 == (1 # 2) * 2 ^ e1) as -> by (unfold Qdiv; change (/ 2) with (1 # 2); ring).
    apply Qmult_le_compat_r; [assumption|apply Qlt_le_weak, pow_pos]. }
  assert (HmX : inject_Z m * 2 ^ e <= X).
  { pose proof (located_bounds _ _ HX) as [HB _]. rewrite shr_record_m in HB.
    apply (Qmult_le_compat_r _ _ (2 ^ e)) in HB; [|apply Qlt_le_weak, pow_pos].
    rewrite <- Qmult_assoc, <- pow_plus in HB. replace (- e + e)%Z with 0%Z in HB by lia. change (2 ^ 0) with 1 in HB. lra. }
  assert (HX0 : 0 <= X).
  { assert (0 <= inject_Z m) by (change 0 with (inject_Z 0); now rewrite <- Zle_Qle). pose proof (pow_pos e). nra. }
  assert (HdX : (0 < m)%Z -> 2 ^ (d + e - 1) <= X).
  { intros Hm0. eapply Qle_trans; [|exact HmX]. pose proof (Zdigits2_bounds m Hm0) as [D1 _]. fold d in D1.
    replace (d + e - 1)%Z with (d - 1 + e)%Z by lia. rewrite pow_plus. apply Qmult_le_compat_r; [|apply Qlt_le_weak, pow_pos].
    rewrite <- pow_Z; [now rewrite <- Zle_Qle|]. pose proof (Zdigits2_ge m 0 ltac:(lia) ltac:(lia)). fold d in H0. lia. }
  assert (HS : 2 ^ (e1 - 1) <= slack X).
  { unfold slack. rewrite (Qabs_pos X) by assumption.
    assert (0 <= X * 2 ^ (- prec)) by (apply Qmult_le_0_compat; [assumption|apply Qlt_le_weak, pow_pos]). pose proof (pow_pos (emin - 1)) as Hpm.
    rewrite H1. unfold SpecFloat.fexp.
    destruct (Z_le_gt_dec (d + e - prec) emin) as [Hc|Hc].
    - rewrite Z.max_r by lia. lra.
    - rewrite Z.max_l by lia. assert (0 < m)%Z as Hm0.
      { destruct (Z.eq_dec m 0) as [Z0|]; [|lia]. exfalso. assert (d = 0)%Z as Ed by (unfold d; now rewrite Z0). unfold SpecFloat.fexp in H1. lia. }
      specialize (HdX Hm0). replace (d + e - prec - 1)%Z with (d + e - 1 + - prec)%Z by lia. rewrite pow_plus.
      pose proof (pow_pos (- prec)). nra. }
  assert (He1 : (e1 <= emax - prec)%Z).
  { rewrite H1. unfold SpecFloat.fexp. apply Z.max_lub; [|lia]. destruct (Z.eq_dec m 0) as [Z0|Hm0].
    - assert (d = 0)%Z as Ed by (unfold d; now rewrite Z0). unfold SpecFloat.fexp in H1. lia.
    - specialize (HdX ltac:(lia)). assert (2 ^ (d + e - 1) <= 2 ^ (emax - 1)) as HH by lra.
      apply Qpower_le_compat_l_inv in HH; [lia|reflexivity]. }
  assert (Hres : exists r2 e2, shr_fexp prec emax m2 e1 loc_Exact = (r2, e2) /\ (0 <= shr_m r2)%Z /\
     inject_Z (shr_m r2) * 2 ^ e2 == inject_Z m2 * 2 ^ e1 /\ (e2 <= emax - prec)%Z).
  { assert (emin <= e1)%Z as Hemin1 by (rewrite H1; unfold SpecFloat.fexp; lia).
    unfold shr_fexp. destruct (Z_le_gt_dec (Zdigits2 m2) prec) as [Hdm|Hdm].
    - assert (fexp (Zdigits2 m2 + e1) - e1 <= 0)%Z as Hn by (unfold SpecFloat.fexp; lia).
      destruct (fexp (Zdigits2 m2 + e1) - e1)%Z as [|p|p]; [| lia |]; cbn [shr]; do 2 eexists; (split; [reflexivity|]);
      rewrite shr_record_m; (split; [lia|]); (split; [reflexivity|lia]).
    - assert (m2 = 2 ^ prec)%Z as Em2.
      { pose proof (Zdigits2_nonneg m2). destruct (Z.eq_dec m2 0) as [Z0|]; [rewrite Z0 in Hdm; cbn in Hdm; lia|].
        pose proof (Zdigits2_bounds m2 ltac:(lia)) as [D _]. assert (2 ^ prec <= 2 ^ (Zdigits2 m2 - 1))%Z by (apply Z.pow_le_mono_r; lia). lia. }
      assert (Zdigits2 m2 = prec + 1)%Z as Ed.
      { assert (Zdigits2 m2 <= prec + 1)%Z; [|lia]. apply Zdigits2_le; [|lia]. rewrite Em2, Z.pow_add_r by lia.
        pose proof (Z.pow_pos_nonneg 2 prec ltac:(lia) ltac:(lia)). lia. }
      rewrite Ed. replace (fexp (prec + 1 + e1) - e1)%Z with 1%Z by (unfold SpecFloat.fexp; lia).
      cbn [shr iter_pos shr_record_of_loc]. do 2 eexists. split; [reflexivity|].
      destruct m2 as [|p|p] eqn:Ep; [exfalso; pose proof (Z.pow_pos_nonneg 2 prec ltac:(lia) ltac:(lia)); lia| |exfalso; pose proof (Z.pow_pos_nonneg 2 prec ltac:(lia) ltac:(lia)); lia].
      destruct p as [p|p|].
      + exfalso. replace prec with (1 + (prec - 1))%Z in Em2 by lia. rewrite Z.pow_add_r in Em2 by lia. change (2 ^ 1)%Z with 2%Z in Em2. lia.
      + cbn [shr_1 shr_m]. split; [lia|]. split.
        * rewrite pow_1, (Pos2Z.inj_xO p), inject_Z_mult. change (inject_Z 2) with 2. ring.
        * destruct (Z.eq_dec e1 (emax - prec)) as [Eq|]; [|lia]. exfalso.
          (* then X would be beyond the limit *)
          assert (inject_Z (Zpos p~0) * 2 ^ e1 == 2 ^ emax) as EV.
          { rewrite Em2, pow_Z by lia. rewrite <- pow_plus. f_equiv. lia. }
          rewrite EV in HE. apply Qabs_Qle_condition in HE as [_ HE].
          assert (2 ^ emax == 2 * 2 ^ (emax - 1)) as EV2 by (rewrite pow_m1; field).
          assert (2 ^ (e1 - 1) < 2 ^ (emax - 1)) as HL3 by (apply Qpower_lt_compat_l; [lia|reflexivity]).
          lra.
      + exfalso. replace prec with (1 + (prec - 1))%Z in Em2 by lia. rewrite Z.pow_add_r in Em2 by lia. change (2 ^ 1)%Z with 2%Z in Em2. lia. }
  destruct Hres as (r2 & e2 & -> & G1 & G2 & G3).
  assert (Hfin : Qabs (inject_Z (shr_m r2) * 2 ^ e2 - X) <= slack X) by (rewrite G2; lra).
  assert (Hfit : fits X -> inject_Z (shr_m r2) * 2 ^ e2 == X).
  { intros (n & k & En & Hn & Hk). rewrite G2.
    assert (e1 <= k)%Z as Hek.
    { rewrite H1. unfold SpecFloat.fexp. apply Z.max_lub; [|assumption]. destruct (Z.eq_dec m 0) as [Z0|Hm0].
      - assert (d = 0)%Z as Ed by (unfold d; now rewrite Z0). unfold SpecFloat.fexp in H1. lia.
      - specialize (HdX ltac:(lia)). assert (X < 2 ^ (prec + k)) as HXk.
        { rewrite En, pow_plus. apply Qmult_lt_compat_r; [apply pow_pos|]. rewrite <- pow_Z by lia. rewrite <- Zlt_Qlt. lia. }
        assert (2 ^ (d + e - 1) < 2 ^ (prec + k)) as HH by lra. apply Qpower_lt_compat_l_inv in HH; [lia|reflexivity]. }
    assert (X * 2 ^ (- e1) == inject_Z (n * 2 ^ (k - e1))) as EX.
    { rewrite En, inject_Z_mult, pow_Z, <- Qmult_assoc, <- pow_plus by lia. reflexivity. }
    assert (m2 = n * 2 ^ (k - e1))%Z as ->.
    { rewrite EX in HC. apply Qabs_Qle_condition in HC as [C1 C2].
      assert (inject_Z (-1) < inject_Z (m2 - n * 2 ^ (k - e1))) as D1.
      { unfold Z.sub at 1. rewrite inject_Z_plus, inject_Z_opp. change (inject_Z (-1)) with (-1). lra. }
      assert (inject_Z (m2 - n * 2 ^ (k - e1)) < inject_Z 1) as D2.
      { unfold Z.sub at 1. rewrite inject_Z_plus, inject_Z_opp. change (inject_Z 1) with 1. lra. }
      rewrite <- Zlt_Qlt in D1, D2. lia. }
    rewrite <- EX, <- Qmult_assoc, <- pow_plus. replace (- e1 + e1)%Z with 0%Z by lia. change (2 ^ 0) with 1. ring. }
  destruct (shr_m r2) as [|m3|m3]; [| |lia].
  - exists 0. split; [reflexivity|]. change (inject_Z 0) with 0 in Hfin. rewrite Qabs_Qle_condition. apply Qabs_Qle_condition in Hfin.
    split; [destruct s; cbn [with_sign]; lra|]. intros HF. specialize (Hfit HF). change (inject_Z 0) with 0 in Hfit. destruct s; cbn [with_sign]; lra.
  - assert ((e2 <=? emax - prec)%Z = true) as -> by (apply Z.leb_le; lia).
    eexists. split; [apply value_finite|]. pose proof (inject_sign s (Zpos m3)) as ES. split.
    + rewrite ES. apply Qabs_Qle_condition. apply Qabs_Qle_condition in Hfin. destruct s; cbn [with_sign]; lra.
    + intros HF. specialize (Hfit HF). rewrite ES. destruct s; cbn [with_sign]; lra.
Qed.

Lemma round_error s m e : inject_Z (Zpos m) * 2 ^ e <= 2 ^ (emax - 1) ->
  exists q, value (binary_round prec emax s m e) = Some q /\
    Qabs (q - with_sign s (inject_Z (Zpos m) * 2 ^ e)) <= slack (inject_Z (Zpos m) * 2 ^ e) /\
    (fits (inject_Z (Zpos m) * 2 ^ e) -> q == with_sign s (inject_Z (Zpos m) * 2 ^ e)).
Proof.
  intros HX. unfold binary_round. rewrite align_eq. set (fe := fexp (Zpos (digits2_pos m) + e)). destruct (Z.ltb_spec fe e) as [H|H].
  - apply round_aux_error; [lia| | |assumption].
    + cbn [Zdigits2]. rewrite shiftZ_digits by lia. replace (Zpos (digits2_pos m) + (e - fe) + fe)%Z with (Zpos (digits2_pos m) + e)%Z by lia. fold fe. lia.
    + unfold located. cbn [shr_record_of_loc shr_m shr_r shr_s]. rewrite shiftZ_Z by lia. rewrite inject_Z_mult, pow_Z by lia.
      rewrite <- Qmult_assoc, <- pow_plus. replace (e + - fe)%Z with (e - fe)%Z by lia. reflexivity.
  - apply round_aux_error; [lia| | |assumption].
    + exact H.
    + unfold located. cbn [shr_record_of_loc shr_m shr_r shr_s]. rewrite <- Qmult_assoc, <- pow_plus.
      replace (e + - e)%Z with 0%Z by lia. change (2 ^ 0) with 1. ring.
Qed.

Lemma slack_proper x y : x == y -> slack x == slack y.
Proof. intros E. unfold slack. now rewrite E. Qed.
Lemma slack_pos x : 0 <= slack x.
Proof. unfold slack. pose proof (Qabs_nonneg x). pose proof (pow_pos (- prec)). pose proof (pow_pos (emin - 1)). nra. Qed.
Lemma slack_opp x : slack (- x) == slack x.
Proof. unfold slack. now rewrite Qabs_opp. Qed.

(** f is x rounded: exact where the format holds x. *)
Definition near (f : spec_float) (x : Q) : Prop := exists q, value f = Some q /\ Qabs (q - x) <= slack x /\ (fits x -> q == x).
Lemma near_proper f x y : x == y -> near f x -> near f y.
Proof.
  intros E (q & H1 & H2 & H3). exists q. split; [assumption|]. split; [now rewrite <- (slack_proper _ _ E), <- E|].
  intros H. rewrite <- E. apply H3. apply (fits_proper y); [now symmetry|assumption].
Qed.
Lemma near_self f x : value f = Some x -> near f x.
Proof.
  intros H. exists x. split; [assumption|]. split; [|reflexivity]. apply (Qle_trans _ 0); [|apply slack_pos].
  setoid_replace (x - x) with 0 by ring. discriminate.
Qed.
Lemma near_sign s f X : (exists q, value f = Some q /\ Qabs (q - with_sign s X) <= slack X /\ (fits X -> q == with_sign s X)) -> near f (with_sign s X).
Proof.
  intros (q & H1 & H2 & H3). exists q. split; [assumption|]. destruct s; cbn [with_sign] in *; [|auto]. split.
  - now rewrite slack_opp.
  - intros H. apply H3. apply (fits_proper (- - X)); [ring|]. now apply fits_opp.
Qed.

Lemma normalize_error z e s : Qabs (inject_Z z * 2 ^ e) <= 2 ^ (emax - 1) ->
  near (binary_normalize prec emax z e s) (inject_Z z * 2 ^ e).
Proof.
  intros H. destruct z as [|p|p]; cbn [binary_normalize].
  - apply (near_proper _ 0); [change (inject_Z 0) with 0; ring|]. now apply near_self.
  - assert (0 <= inject_Z (Zpos p) * 2 ^ e) as Hpos by (apply Qmult_le_0_compat; [discriminate|apply Qlt_le_weak, pow_pos]).
    rewrite Qabs_pos in H by assumption. exact (near_sign false _ _ (round_error false p e H)).
  - assert (inject_Z (Zneg p) * 2 ^ e == - (inject_Z (Zpos p) * 2 ^ e)) as E.
    { change (Zneg p) with (- Zpos p)%Z. rewrite inject_Z_opp. ring. }
    assert (0 <= inject_Z (Zpos p) * 2 ^ e) as Hpos by (apply Qmult_le_0_compat; [discriminate|apply Qlt_le_weak, pow_pos]).
    rewrite E, Qabs_opp, Qabs_pos in H by assumption. eapply near_proper; [symmetry; exact E|]. exact (near_sign true _ _ (round_error true p e H)).
Qed.

(** ** Operations *)

Lemma align_value s m e ez : (ez <= e)%Z ->
  inject_Z (cond_Zopp s (Zpos (fst (shl_align m e ez)))) * 2 ^ ez == inject_Z (cond_Zopp s (Zpos m)) * 2 ^ e.
Proof.
  intros H. rewrite !inject_sign, align_val, inject_Z_mult by lia.
  assert (2 ^ e == 2 ^ (e - ez) * 2 ^ ez) as -> by (rewrite <- pow_plus; f_equiv; lia).
  destruct s; cbn [with_sign]; rewrite pow_Z by lia; ring.
Qed.

Lemma add_error a b x y : value a = Some x -> value b = Some y -> Qabs (x + y) <= 2 ^ (emax - 1) -> near (SFadd prec emax a b) (x + y).
Proof.
  intros Ha Hb H. destruct a as [s|s| |s m e], b as [s'|s'| |s' m' e']; cbn [value] in Ha, Hb; try discriminate; cbn [SFadd].
  - injection Ha as <-. injection Hb as <-. apply (near_proper _ 0); [ring|]. apply near_self. destruct (Bool.eqb s s'); reflexivity.
  - injection Ha as <-. injection Hb as <-. eapply near_proper; [|apply near_self; reflexivity]. ring.
  - injection Ha as <-. injection Hb as <-. eapply near_proper; [|apply near_self; reflexivity]. ring.
  - assert (inject_Z (cond_Zopp s (Zpos (fst (shl_align m e (Z.min e e')))) + cond_Zopp s' (Zpos (fst (shl_align m' e' (Z.min e e'))))) * 2 ^ Z.min e e' == x + y) as E.
    { injection Ha as <-. injection Hb as <-. rewrite inject_Z_plus, Qmult_plus_distr_l, !align_value by lia. reflexivity. }
    eapply near_proper; [exact E|]. apply normalize_error. now rewrite E.
Qed.

Lemma value_opp b y : value b = Some y -> exists y', value (SFopp b) = Some y' /\ y' == - y.
Proof.
  destruct b as [s|s| |s m e]; cbn [value SFopp]; intros H; try discriminate; injection H as <-.
  - exists 0. split; [reflexivity|ring].
  - eexists. split; [reflexivity|]. rewrite !inject_sign. destruct s; cbn [negb with_sign]; ring.
Qed.
Lemma sub_add a b : SFsub prec emax a b = SFadd prec emax a (SFopp b).
Proof.
  destruct a as [s|s| |s m e], b as [s'|s'| |s' m' e']; cbn [SFsub SFadd SFopp]; try reflexivity.
  f_equal. destruct s'; cbn [negb cond_Zopp]; lia.
Qed.
Lemma sub_error a b x y : value a = Some x -> value b = Some y -> Qabs (x - y) <= 2 ^ (emax - 1) -> near (SFsub prec emax a b) (x - y).
Proof.
  intros Ha Hb H. destruct (value_opp b y Hb) as (y' & Hy' & E). rewrite sub_add.
  assert (x + y' == x - y) as E' by (rewrite E; ring). eapply near_proper; [exact E'|]. apply add_error; [assumption|assumption|]. now rewrite E'.
Qed.

Lemma mul_error a b x y : valid_binary prec emax a = true -> valid_binary prec emax b = true -> (emin <= 0)%Z ->
  value a = Some x -> value b = Some y -> Qabs (x * y) <= 2 ^ (emax - 1) -> near (SFmul prec emax a b) (x * y).
Proof.
  intros Va Vb Hem Ha Hb H. destruct a as [s|s| |s m e], b as [s'|s'| |s' m' e']; cbn [value] in Ha, Hb; try discriminate; cbn [SFmul].
  - injection Ha as <-. injection Hb as <-. apply (near_proper _ 0); [ring|]. now apply near_self.
  - injection Ha as <-. apply (near_proper _ 0); [ring|]. now apply near_self.
  - injection Hb as <-. apply (near_proper _ 0); [ring|]. now apply near_self.
  - injection Ha as <-. injection Hb as <-.
    assert (inject_Z (cond_Zopp s (Zpos m)) * 2 ^ e * (inject_Z (cond_Zopp s' (Zpos m')) * 2 ^ e') ==
            with_sign (xorb s s') (inject_Z (Zpos (m * m')) * 2 ^ (e + e'))) as E.
    { rewrite !inject_sign, Pos2Z.inj_mul, inject_Z_mult. destruct s, s'; cbn [xorb with_sign]; rewrite pow_plus; ring. }
    assert (0 <= inject_Z (Zpos (m * m')) * 2 ^ (e + e')) as Hpos by (apply Qmult_le_0_compat; [discriminate|apply Qlt_le_weak, pow_pos]).
    rewrite E in H. cbn [valid_binary] in Va, Vb. apply bounded_inv in Va as [Ha Ha'], Vb as [Hb Hb'].
    eapply near_proper; [symmetry; exact E|]. apply near_sign. apply round_aux_error.
    + lia.
    + change (Zdigits2 (Zpos (m * m'))) with (Zpos (digits2_pos (m * m'))).
      pose proof (digits_mul_l m m') as D1. pose proof (digits_mul_l m' m) as D2. rewrite Pos.mul_comm in D2.
      unfold SpecFloat.fexp in *. lia.
    + unfold located. cbn [shr_record_of_loc shr_m shr_r shr_s]. rewrite <- Qmult_assoc, <- pow_plus.
      replace (e + e' + - (e + e'))%Z with 0%Z by lia. change (2 ^ 0) with 1. ring.
    + destruct (xorb s s'); cbn [with_sign] in H; [rewrite Qabs_opp in H|]; now rewrite Qabs_pos in H by assumption.
Qed.

Lemma conv_error f x : value f = Some x -> Qabs x <= 2 ^ (emax - 1) -> near (conv prec emax f) x.
Proof.
  intros Hf H. destruct f as [s|s| |s m e]; cbn [value] in Hf; try discriminate; injection Hf as <-; cbn [conv].
  - now apply near_self.
  - now apply normalize_error.
Qed.

(** Quotients: how the remainder is located. *)
Lemma new_location_ok a b : (0 < b)%Z -> (0 <= a)%Z ->
  located (inject_Z a / inject_Z b) (shr_record_of_loc (a / b) (new_location b (a mod b))).
Proof.
  intros Hb Ha. pose proof (Z.div_mod a b ltac:(lia)) as E. pose proof (Z.mod_pos_bound a b Hb) as Hr.
  set (q := (a / b)%Z) in *. set (r := (a mod b)%Z) in *.
  assert (0 < inject_Z b) as HB by (change 0 with (inject_Z 0); now rewrite <- Zlt_Qlt).
  assert (inject_Z a / inject_Z b == inject_Z q + inject_Z r / inject_Z b) as EQ.
  { rewrite E, inject_Z_plus, inject_Z_mult. field. lra. }
  eapply located_proper; [symmetry; exact EQ|].
  assert (forall c d : Z, (c * r < d * b)%Z -> (0 < c)%Z -> inject_Z r / inject_Z b < inject_Z d / inject_Z c) as Lt1.
  { intros c d Hc Hc0. apply Qlt_shift_div_r; [assumption|]. assert (0 < inject_Z c) by (change 0 with (inject_Z 0); now rewrite <- Zlt_Qlt).
    setoid_replace (inject_Z d / inject_Z c * inject_Z b) with (inject_Z d * inject_Z b / inject_Z c) by (field; lra).
    apply Qlt_shift_div_l; [assumption|]. rewrite <- !inject_Z_mult, <- Zlt_Qlt. lia. }
  assert (forall c d : Z, (d * b < c * r)%Z -> (0 < c)%Z -> inject_Z d / inject_Z c < inject_Z r / inject_Z b) as Lt2.
  { intros c d Hc Hc0. apply Qlt_shift_div_l; [assumption|]. assert (0 < inject_Z c) by (change 0 with (inject_Z 0); now rewrite <- Zlt_Qlt).
    setoid_replace (inject_Z d / inject_Z c * inject_Z b) with (inject_Z d * inject_Z b / inject_Z c) by (field; lra).
    apply Qlt_shift_div_r; [assumption|]. rewrite <- !inject_Z_mult, <- Zlt_Qlt. lia. }
  pose proof (Lt1 2 1)%Z as L1. pose proof (Lt2 2 1)%Z as L2. pose proof (Lt1 1 1)%Z as L3. pose proof (Lt2 1 0)%Z as L4.
  change (inject_Z 1 / inject_Z 2) with (1 # 2) in *. change (inject_Z 1 / inject_Z 1) with 1 in *. change (inject_Z 0 / inject_Z 1) with 0 in *.
  unfold new_location, new_location_even, new_location_odd.
  destruct (Z.even b) eqn:Ev.
  - destruct (Zeq_bool r 0) eqn:E0.
    + apply Zeq_bool_eq in E0. rewrite E0. unfold located. cbn. change (inject_Z 0) with 0. field. lra.
    + apply Zeq_bool_neq in E0. destruct (Z.compare_spec (2 * r) b) as [Ec|Ec|Ec]; unfold located; cbn [shr_record_of_loc shr_m shr_r shr_s].
      * assert (inject_Z r / inject_Z b == 1 # 2) as ->; [|reflexivity]. rewrite <- Ec, inject_Z_mult. change (inject_Z 2) with 2. field.
        intros X. apply (inject_Z_injective r 0) in X. lia.
      * assert (inject_Z r / inject_Z b < 1 # 2) by (apply L1; lia). assert (0 < inject_Z r / inject_Z b) by (apply L4; lia). lra.
      * assert (1 # 2 < inject_Z r / inject_Z b) by (apply L2; lia). assert (inject_Z r / inject_Z b < 1) by (apply L3; lia). lra.
  - destruct (Zeq_bool r 0) eqn:E0.
    + apply Zeq_bool_eq in E0. rewrite E0. unfold located. cbn. change (inject_Z 0) with 0. field. lra.
    + apply Zeq_bool_neq in E0.
      assert (2 * r <> b)%Z as Hne by (intros X; rewrite <- X, Z.even_mul in Ev; discriminate).
      destruct (Z.compare_spec (2 * r + 1) b) as [Ec|Ec|Ec]; unfold located; cbn [shr_record_of_loc shr_m shr_r shr_s].
      * assert (inject_Z r / inject_Z b < 1 # 2) by (apply L1; lia). assert (0 < inject_Z r / inject_Z b) by (apply L4; lia). lra.
      * assert (inject_Z r / inject_Z b < 1 # 2) by (apply L1; lia). assert (0 < inject_Z r / inject_Z b) by (apply L4; lia). lra.
      * assert (1 # 2 < inject_Z r / inject_Z b) by (apply L2; lia). assert (inject_Z r / inject_Z b < 1) by (apply L3; lia). lra.
Qed.

Lemma div_error a b x y : value a = Some x -> value b = Some y -> ~ y == 0 -> Qabs (x / y) <= 2 ^ (emax - 1) ->
  near (SFdiv prec emax a b) (x / y).
Proof.
  intros Ha Hb Hy H. destruct b as [s'|s'| |s' m' e']; cbn [value] in Hb; try discriminate.
  { injection Hb as <-. now destruct Hy. }
  destruct a as [s|s| |s m e]; cbn [value] in Ha; try discriminate; cbn [SFdiv].
  { injection Ha as <-. apply (near_proper _ 0); [field; assumption|]. now apply near_self. }
  unfold SFdiv_core_binary. set (d1 := Zdigits2 (Zpos m)). set (d2 := Zdigits2 (Zpos m')).
  set (e0 := Z.min (fexp (d1 + e - (d2 + e'))) (e - e')). set (sh := (e - e' - e0)%Z).
  assert (0 <= sh)%Z as Hsh by (unfold sh, e0; lia).
  assert (match sh with Z0 => Zpos m | Zpos _ => Z.shiftl (Zpos m) sh | Zneg _ => 0%Z end = Zpos m * 2 ^ sh)%Z as ->.
  { destruct sh as [|p|p] eqn:Es; [now rewrite Z.mul_1_r| |lia]. rewrite Z.shiftl_mul_pow2 by lia. reflexivity. }
  assert (Z.div_eucl (Zpos m * 2 ^ sh) (Zpos m') = (Zpos m * 2 ^ sh / Zpos m', Zpos m * 2 ^ sh mod Zpos m')%Z) as ->.
  { unfold Z.div, Z.modulo. now destruct (Z.div_eucl (Zpos m * 2 ^ sh) (Zpos m')). }
  set (M := (Zpos m * 2 ^ sh)%Z). assert (0 < M)%Z as HM by (unfold M; pose proof (Z.pow_pos_nonneg 2 sh ltac:(lia) Hsh); lia).
  injection Ha as <-. injection Hb as <-.
  assert (0 < inject_Z (Zpos m')) as Hm' by reflexivity.
  set (X := inject_Z M / inject_Z (Zpos m') * 2 ^ e0).
  assert (inject_Z (cond_Zopp s (Zpos m)) * 2 ^ e / (inject_Z (cond_Zopp s' (Zpos m')) * 2 ^ e') == with_sign (xorb s s') X) as E.
  { assert (X == inject_Z (Zpos m) * 2 ^ e / (inject_Z (Zpos m') * 2 ^ e')) as EX.
    { unfold X, M. rewrite inject_Z_mult, pow_Z by assumption.
      assert (2 ^ e == 2 ^ sh * 2 ^ e0 * 2 ^ e') as -> by (rewrite <- !pow_plus; f_equiv; unfold sh; lia).
      field. split; [apply pow_nz|lra]. }
    rewrite !inject_sign. destruct s, s'; cbn [xorb with_sign]; rewrite EX; field; (split; [apply pow_nz|lra]). }
  assert (0 <= X) as Hpos.
  { unfold X. apply Qmult_le_0_compat; [|apply Qlt_le_weak, pow_pos]. apply Qle_shift_div_l; [assumption|].
    rewrite Qmult_0_l. change 0 with (inject_Z 0). rewrite <- Zle_Qle. lia. }
  rewrite E in H. eapply near_proper; [symmetry; exact E|]. apply near_sign. apply round_aux_error.
  - apply Z.div_pos; lia.
  - assert (d1 + sh - d2 <= Zdigits2 (M / Zpos m'))%Z as HD.
    { destruct (Z_le_gt_dec (d1 + sh - d2) 0) as [Hle|Hgt]; [pose proof (Zdigits2_nonneg (M / Zpos m')); lia|].
      assert (d1 + sh - d2 - 1 < Zdigits2 (M / Zpos m'))%Z; [|lia]. apply Zdigits2_ge; [|lia].
      apply Z.div_le_lower_bound; [lia|].
      pose proof (Zdigits2_bounds (Zpos m) ltac:(lia)) as [B1 _]. pose proof (Zdigits2_bounds (Zpos m') ltac:(lia)) as [_ B2]. fold d1 in B1. fold d2 in B2.
      assert (0 <= d2)%Z by apply Zdigits2_nonneg. assert (1 <= d1)%Z by (unfold d1; cbn [Zdigits2]; lia).
      apply Z.le_trans with (2 ^ d2 * 2 ^ (d1 + sh - d2 - 1))%Z.
      - apply Z.mul_le_mono_nonneg_r; [apply Z.pow_nonneg; lia|lia].
      - rewrite <- Z.pow_add_r by lia. replace (d2 + (d1 + sh - d2 - 1))%Z with (d1 - 1 + sh)%Z by lia. rewrite Z.pow_add_r by lia.
        unfold M. apply Z.mul_le_mono_nonneg_r; [apply Z.pow_nonneg; lia|assumption]. }
    assert (e0 <= fexp (d1 + e - (d2 + e')))%Z by (unfold e0; lia).
    unfold SpecFloat.fexp in *. unfold sh in HD. lia.
  - unfold X. eapply located_proper; [|apply new_location_ok; lia]. rewrite <- Qmult_assoc, <- pow_plus. replace (e0 + - e0)%Z with 0%Z by lia. change (2 ^ 0) with 1. ring.
  - destruct (xorb s s'); cbn [with_sign] in H; [rewrite Qabs_opp in H|]; now rewrite Qabs_pos in H by assumption.
Qed.
End Error.
