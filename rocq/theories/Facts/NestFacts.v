(** Error bounds for positions under several matrices. *)
Require Import Coq.Lists.List Coq.ZArith.ZArith Coq.QArith.QArith Coq.QArith.Qpower Coq.QArith.Qabs Coq.Floats.SpecFloat
  Coq.micromega.Lia Coq.micromega.Lqa.
Require Import Verif.Model.Float Verif.Model.Num Verif.Model.Component Verif.Spec.MfekSpec Verif.Spec.ComponentSpec Verif.Spec.AccuracySpec
  Verif.Facts.FloatFacts Verif.Facts.RoundFacts Verif.Facts.AccuracyFacts.
Import ListNotations.
Local Open Scope Q_scope.

Definition eps : Q := 1 # 4194304.
Lemma prod_near a x x' S t : 0 <= t -> Qabs x <= S -> Qabs (x' - x) <= t * S ->
  Qabs (a * x) <= Qabs a * S /\ Qabs (a * x') <= Qabs a * S + t * (Qabs a * S) /\ - (t * (Qabs a * S)) <= a * x' - a * x /\ a * x' - a * x <= t * (Qabs a * S).
Proof.
  intros Ht Hx Hd. pose proof (Qabs_nonneg a) as Ha.
  assert (Qabs (a * (x' - x)) <= t * (Qabs a * S)) as H1.
  { rewrite Qabs_Qmult. rewrite (Qmult_assoc t), (Qmult_comm t), <- Qmult_assoc. rewrite (Qmult_comm (Qabs a)), (Qmult_comm (Qabs a)). now apply Qmult_le_compat_r. }
  assert (Qabs (a * x) <= Qabs a * S) as H0.
  { rewrite Qabs_Qmult, (Qmult_comm (Qabs a)), (Qmult_comm (Qabs a)). now apply Qmult_le_compat_r. }
  split; [exact H0|]. apply abs_le in H1. assert (a * (x' - x) == a * x' - a * x) as E by ring. rewrite E in H1.
  split; [|split; lra]. apply abs_le in H0. apply abs_le. lra.
Qed.
Lemma step_near a c e fx fy fz qa qc qe x y x' y' Sx Sy t :
  float64 a qa -> float64 c qc -> float64 e qe -> float32 fx x' -> float32 fy y' ->
  fz = f32_of_f64 (add64 (add64 (mul64 a (f64_of_f32 fx)) (mul64 c (f64_of_f32 fy))) e) ->
  0 <= t -> t <= 1 -> Qabs x <= Sx -> Qabs y <= Sy -> Qabs (x' - x) <= t * Sx -> Qabs (y' - y) <= t * Sy ->
  Qabs qa * Sx + Qabs qc * Sy + Qabs qe + 2 ^ (-126) <= 2 ^ 125 ->
  let G := Qabs qa * Sx + Qabs qc * Sy + Qabs qe + 2 ^ (-126) in
  Qabs (qa * x + qc * y + qe) <= G /\
  exists z, float32 fz z /\ Qabs (z - (qa * x + qc * y + qe)) <= (t + eps) * G.
Proof.
  intros Ha Hc He Hx Hy Ez T0 T1 Bx By Dx Dy Hfit G. subst G.
  destruct (prod_near qa x x' Sx t T0 Bx Dx) as (P1 & P2 & P3 & P4). destruct (prod_near qc y y' Sy t T0 By Dy) as (Q1 & Q2 & Q3 & Q4).
  set (A := Qabs qa * Sx) in *. set (C := Qabs qc * Sy) in *.
  assert (0 <= A) as A0 by (eapply Qle_trans; [apply (Qabs_nonneg (qa * x))|exact P1]).
  assert (0 <= C) as C0 by (eapply Qle_trans; [apply (Qabs_nonneg (qc * y))|exact Q1]).
  pose proof (Qabs_nonneg qe) as E0. pose proof (abs_self qe) as E1.
  assert (t * A <= A) as TA by (rewrite <- (Qmult_1_l A) at 2; now apply Qmult_le_compat_r).
  assert (t * C <= C) as TC by (rewrite <- (Qmult_1_l C) at 2; now apply Qmult_le_compat_r).
  assert (0 <= t * Qabs qe) as TE by (now apply Qmult_le_0_compat).
  assert (0 < 2 ^ (-126)) as N by reflexivity.
  assert (0 <= t * 2 ^ (-126)) as TN by (apply Qmult_le_0_compat; [exact T0|now apply Qlt_le_weak]).
  assert (2 ^ 126 == 2 * 2 ^ 125) as E126 by reflexivity.
  assert (2 ^ (-149) == (1 # 8388608) * 2 ^ (-126)) as E149 by reflexivity.
  destruct (image_off a c e fx fy qa qc qe x' y' Ha Hc He Hx Hy) as (z & Ez' & K1 & K2).
  { rewrite E126. lra. }
  rewrite E149 in K1, K2. change (2 ^ (-23)) with (1 # 8388608) in K1, K2. set (n := 2 ^ (-126)) in *. clearbody n.
  apply abs_le in P1. apply abs_le in Q1.
  split; [apply abs_le; lra|]. exists z. split.
  { rewrite Ez. split; [apply f32_of_f64_valid|]. exists z. split; [exact Ez'|reflexivity]. }
  assert ((t + eps) * (A + C + Qabs qe + n) == t * A + t * C + t * Qabs qe + t * n + eps * (A + C + Qabs qe + n)) as -> by ring.
  unfold eps. apply abs_le. lra.
Qed.

Lemma move_near : forall ms qs fx fy x y x' y' Sx Sy k, Forall2 coefficients ms qs -> float32 fx x' -> float32 fy y' ->
  (0 <= k)%Z -> (k + Z.of_nat (length ms) <= 4194304)%Z ->
  Qabs x <= Sx -> Qabs y <= Sy -> Qabs (x' - x) <= inject_Z k * eps * Sx -> Qabs (y' - y) <= inject_Z k * eps * Sy ->
  sizes_fit (Sx, Sy) qs ->
  let g := move_xy ms fx fy in let p := fold_left qmove qs (x, y) in let s := fold_left grow qs (Sx, Sy) in
  let n := inject_Z (k + Z.of_nat (length ms)) in
  (Qabs (fst p) <= fst s /\ exists u, float32 (fst g) u /\ Qabs (u - fst p) <= n * eps * fst s) /\
  (Qabs (snd p) <= snd s /\ exists u, float32 (snd g) u /\ Qabs (u - snd p) <= n * eps * snd s).
Proof.
  induction ms as [|m ms IH]; intros qs fx fy x y x' y' Sx Sy k Hc Hx Hy K0 K1 Bx By Dx Dy Hf; inversion Hc as [|? q ? qs' Hq Hqs]; subst.
  - cbn. rewrite Z.add_0_r. split; (split; [assumption|]); eauto.
  - destruct q as [[[[[a b] c] d] e] f]. cbn [sizes_fit] in Hf. destruct Hf as (F1 & F2 & F3). cbn [grow fst snd] in F1, F2.
    destruct Hq as (H0 & H1 & H2 & H3 & H4 & H5). cbn [length] in K1. rewrite Nat2Z.inj_succ in K1.
    assert (0 <= inject_Z k * eps) as T0 by (apply Qmult_le_0_compat; [change 0 with (inject_Z 0); now rewrite <- Zle_Qle|discriminate]).
    assert (inject_Z k * eps <= 1) as T1.
    { apply (Qle_trans _ (inject_Z 4194304 * eps)); [|discriminate]. apply Qmult_le_compat_r; [|discriminate]. rewrite <- Zle_Qle. lia. }
    destruct (step_near (c0 m) (c2 m) (c4 m) fx fy _ a c e x y x' y' Sx Sy (inject_Z k * eps) H0 H2 H4 Hx Hy eq_refl T0 T1 Bx By Dx Dy F1) as (A1 & u & U1 & U2).
    destruct (step_near (c1 m) (c3 m) (c5 m) fx fy _ b d f x y x' y' Sx Sy (inject_Z k * eps) H1 H3 H5 Hx Hy eq_refl T0 T1 Bx By Dx Dy F2) as (B1 & v & V1 & V2).
    assert (inject_Z k * eps + eps == inject_Z (Z.succ k) * eps) as Es by (unfold Z.succ; rewrite inject_Z_plus; ring).
    rewrite Es in U2, V2.
    specialize (IH qs' _ _ _ _ u v _ _ (Z.succ k) Hqs U1 V1 ltac:(lia) ltac:(lia) A1 B1 U2 V2 F3).
    cbn [length fold_left]. rewrite Nat2Z.inj_succ. replace (k + Z.succ (Z.of_nat (length ms)))%Z with (Z.succ k + Z.of_nat (length ms))%Z by lia.
    unfold move_xy in IH |- *. cbn [fold_left]. exact IH.
Qed.
