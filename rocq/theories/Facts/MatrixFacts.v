(** Matrices with integer members are applied exactly. *)
Require Import Coq.Lists.List Coq.ZArith.ZArith Coq.Bool.Bool Coq.Floats.SpecFloat Coq.micromega.Lia.
Require Import Verif.Model.Base Verif.Model.Float Verif.Model.Point Verif.Model.Parts Verif.Model.Component
  Verif.Spec.ComponentSpec Verif.Facts.FloatFacts Verif.Facts.ExactFacts.
Import ListNotations.
Local Open Scope Z_scope.

Lemma feq_valid prec emax a b : feq a b = true -> valid_binary prec emax b = true -> valid_binary prec emax a = true.
Proof. intros H V. apply feq_true in H as [->|(s & t & -> & ->)]; [assumption|reflexivity]. Qed.
Lemma int32_val f z : is_int32 f z -> val f z 0 /\ valid32 f = true.
Proof.
  intros [H Hz]. destruct (val_of_Z32 z Hz) as [V B]. split; [|now apply (feq_valid _ _ _ _ H)].
  eapply feq_val; [|exact V]. now rewrite feq_sym.
Qed.
Lemma int64_val f z : is_int64 f z -> val f z 0 /\ valid64 f = true.
Proof.
  intros [H Hz]. destruct (val_of_Z64 z Hz) as [V B]. split; [|now apply (feq_valid _ _ _ _ H)].
  eapply feq_val; [|exact V]. now rewrite feq_sym.
Qed.
Lemma val_int32 f z : Z.abs z < 2 ^ 24 -> val f z 0 -> valid32 f = true -> is_int32 f z.
Proof. intros Hz H V. split; [|assumption]. destruct (val_of_Z32 z Hz) as [V' B]. exact (val_feq _ _ _ _ _ _ V B H V'). Qed.

Lemma mul64_exact a b za zb : val a za 0 -> val b zb 0 -> valid64 a = true -> valid64 b = true -> small64 (za * zb) ->
  val (mul64 a b) (za * zb) 0 /\ valid64 (mul64 a b) = true.
Proof. intros. apply (mul_exact 53 1024 ltac:(lia) ltac:(lia) a b za zb 0 0); try assumption; unfold emin; lia. Qed.
Lemma add64_exact a b za zb : val a za 0 -> val b zb 0 -> valid64 a = true -> valid64 b = true -> small64 (za + zb) ->
  val (add64 a b) (za + zb) 0 /\ valid64 (add64 a b) = true.
Proof. intros. apply (add_exact 53 1024 ltac:(lia) ltac:(lia) a b za zb 0); try assumption; unfold emin; lia. Qed.
Lemma small32_64 z : small32 z -> small64 z.
Proof. unfold small32, small64. change (2 ^ 24) with 16777216. change (2 ^ 53) with 9007199254740992. lia. Qed.
Lemma f64_of_f32_exact f z : is_int32 f z -> val (f64_of_f32 f) z 0 /\ valid64 (f64_of_f32 f) = true.
Proof.
  intros H. pose proof (int32_val f z H) as [V _]. apply (conv_exact 53 1024 ltac:(lia) ltac:(lia) f z 0); try assumption; try (unfold emin; lia).
  apply small32_64, H.
Qed.
Lemma f32_of_f64_exact f z : small32 z -> val f z 0 -> is_int32 (f32_of_f64 f) z.
Proof.
  intros Hz V. destruct (conv_exact 24 128 ltac:(lia) ltac:(lia) f z 0 V Hz ltac:(unfold emin; lia) ltac:(lia)) as [A B]. now apply val_int32.
Qed.

Lemma apply_xy_exact m zm x y zx zy : is_zaffine m zm -> is_int32 x zx -> is_int32 y zy -> fits zm (zx, zy) ->
  let '(x', y') := apply_xy m x y in is_int32 x' (fst (zapply zm (zx, zy))) /\ is_int32 y' (snd (zapply zm (zx, zy))).
Proof.
  intros (H0 & H1 & H2 & H3 & H4 & H5) Hx Hy (F1 & F2 & F3 & F4 & F5 & F6 & F7 & F8). unfold apply_xy, affine_apply.
  apply int64_val in H0 as [A0 B0]. apply int64_val in H1 as [A1 B1]. apply int64_val in H2 as [A2 B2].
  apply int64_val in H3 as [A3 B3]. apply int64_val in H4 as [A4 B4]. apply int64_val in H5 as [A5 B5].
  apply f64_of_f32_exact in Hx as [X1 X2]. apply f64_of_f32_exact in Hy as [Y1 Y2]. unfold zapply in *. cbn [fst snd] in *.
  destruct (mul64_exact _ _ _ _ A0 X1 B0 X2 F1) as [P1 Q1]. destruct (mul64_exact _ _ _ _ A2 Y1 B2 Y2 F2) as [P2 Q2].
  destruct (add64_exact _ _ _ _ P1 P2 Q1 Q2 F3) as [P3 Q3]. destruct (add64_exact _ _ _ _ P3 A4 Q3 B4 (small32_64 _ F7)) as [P4 Q4].
  destruct (mul64_exact _ _ _ _ A1 X1 B1 X2 F4) as [P5 Q5]. destruct (mul64_exact _ _ _ _ A3 Y1 B3 Y2 F5) as [P6 Q6].
  destruct (add64_exact _ _ _ _ P5 P6 Q5 Q6 F6) as [P7 Q7]. destruct (add64_exact _ _ _ _ P7 A5 Q7 B5 (small32_64 _ F8)) as [P8 Q8].
  split; apply f32_of_f64_exact; assumption.
Qed.
Lemma move_xy_exact ms zs : Forall2 is_zaffine ms zs -> forall x y p, is_int32 x (fst p) -> is_int32 y (snd p) -> fits_all zs p ->
  let '(x', y') := move_xy ms x y in let q := fold_left (fun p m => zapply m p) zs p in is_int32 x' (fst q) /\ is_int32 y' (snd q).
Proof.
  unfold move_xy. induction 1 as [|m z ms zs Hm _ IH]; intros x y p Hx Hy Hf; cbn [fold_left]; [auto|]. destruct Hf as [F Fs]. destruct p as [zx zy].
  pose proof (apply_xy_exact m z x y zx zy Hm Hx Hy F) as H. destruct (apply_xy m x y) as [x' y']. destruct H as [H1 H2]. apply IH; assumption.
Qed.
Lemma zthen_apply m n p : zapply (zthen m n) p = zapply n (zapply m p).
Proof. unfold zapply, zthen. cbn [z0 z1 z2 z3 z4 z5 fst snd]. f_equal; ring. Qed.
Lemma zthen_fold zs : forall m p, zapply (fold_left zthen zs m) p = fold_left (fun p m => zapply m p) zs (zapply m p).
Proof. induction zs as [|z zs IH]; intros m p; cbn [fold_left]; [reflexivity|]. now rewrite IH, zthen_apply. Qed.
Lemma zid_apply p : zapply zid p = p.
Proof. destruct p as [x y]. unfold zapply, zid. cbn [z0 z1 z2 z3 z4 z5 fst snd]. f_equal; ring. Qed.
