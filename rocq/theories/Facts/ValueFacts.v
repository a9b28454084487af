(** Exact values of floats as rationals. *)
Require Import Coq.ZArith.ZArith Coq.QArith.QArith Coq.QArith.Qpower Coq.Floats.SpecFloat Coq.micromega.Lia Coq.micromega.Lqa.
Require Import Verif.Model.Float Verif.Spec.MfekSpec Verif.Facts.ExactFacts.
Local Open Scope Q_scope.

Lemma two_nz : ~ 2 == 0. Proof. intros H. discriminate H. Qed.
Lemma pow_nz e : ~ 2 ^ e == 0. Proof. apply Qpower_not_0, two_nz. Qed.
Lemma pow_Z n : (0 <= n)%Z -> inject_Z (2 ^ n) == 2 ^ n.
Proof. intros H. rewrite Zpower_Qpower by assumption. reflexivity. Qed.
Lemma cross M z e k : (M * 2 ^ Z.max 0 (e - k) = z * 2 ^ Z.max 0 (k - e))%Z <-> inject_Z M * 2 ^ e == inject_Z z * 2 ^ k.
Proof.
  assert (forall a b, 2 ^ a == 2 ^ Z.max 0 (a - b) * 2 ^ Z.min a b) as P.
  { intros a b. rewrite <- Qpower_plus by exact two_nz. f_equiv. lia. }
  rewrite (P e k), (P k e), (Z.min_comm k e), <- (pow_Z (Z.max 0 (e - k))), <- (pow_Z (Z.max 0 (k - e))) by lia. rewrite !Qmult_assoc, <- !inject_Z_mult. split.
  - intros ->. reflexivity.
  - intros H. apply Qmult_inj_r in H; [|apply pow_nz]. now apply inject_Z_injective.
Qed.
Lemma val_value f z k : val f z k <-> same_value f (inject_Z z * 2 ^ k).
Proof.
  unfold same_value. destruct f as [s|s| |s m e]; cbn [val value].
  - split.
    + intros ->. exists 0. split; [reflexivity|]. change (inject_Z 0) with 0. ring.
    + intros (v & [= <-] & H). symmetry in H. apply Qmult_integral in H as [H|H]; [|now apply pow_nz in H].
      now apply (inject_Z_injective z 0) in H.
  - split; [contradiction|intros (v & H & _); discriminate].
  - split; [contradiction|intros (v & H & _); discriminate].
  - rewrite cross. split.
    + intros H. eexists. split; [reflexivity|assumption].
    + intros (v & [= <-] & H). assumption.
Qed.
Lemma grid_val k f z : on_grid k f z <-> valid32 f = true /\ val f z k.
Proof. rewrite val_value. reflexivity. Qed.

Lemma sub_exact32 a b za zb k : grid32 k -> on_grid k a za -> on_grid k b zb -> countable (za - zb) -> on_grid k (sub32 a b) (za - zb).
Proof.
  rewrite !grid_val. intros [K1 K2] [Va Ha] [Vb Hb] H.
  assert (sub32 a b = SFadd 24 128 a (SFopp b)) as ->.
  { unfold sub32, prec32, emax32. destruct a as [s|s| |s m e], b as [s'|s'| |s' m' e']; cbn; try reflexivity; try (destruct s, s'; reflexivity). }
  destruct (add_exact 24 128 ltac:(lia) ltac:(lia) a (SFopp b) za (- zb)%Z k) as [H1 H2].
  all: try assumption.
  all: try (unfold emin; lia).
  - destruct b as [s|s| |s m e]; cbn in Hb |- *; try tauto; [lia|].
    replace (cond_Zopp (negb s) (Zpos m)) with (- cond_Zopp s (Zpos m))%Z by (now destruct s). rewrite !Z.mul_opp_l. now f_equal.
  - destruct b; exact Vb.
  - replace (za + - zb)%Z with (za - zb)%Z in * by lia. split; assumption.
Qed.
